(** Proofs about cutting missions into segments. *)
From Coq Require Import List ZArith Bool Lia.
From Verif Require Import Run WaypointModel WaypointSpec.
Import ListNotations.
Open Scope list_scope.
Open Scope Z_scope.

Section Cut.
  Context (n v : nat) (V2 : (2 <= v)%nat) (VN : (v + 2 <= n)%nat).

  Definition next (o : nat) : nat := Nat.min v (n - S o).

  (** The segments finished so far, the open one and the overlap after it. *)
  Inductive cutn {A} : nat -> list A -> list (list A) -> list A -> nat -> Prop :=
  | cut_last o l : cutn o l [] l o
  | cut_more o a c l gs g o' :
      length (a ++ c) = n -> length c = o -> l <> [] -> cutn (next o) (c ++ l) gs g o' ->
      cutn o (a ++ c ++ l) ((a ++ c) :: gs) g o'.

  Lemma cutn_push {A} o (l : list A) gs g o' w :
    cutn o l gs g o' -> cutn o (l ++ [w]) gs (g ++ [w]) o'.
  Proof.
    induction 1 as [o l|o a c l gs g o' L O N C IH]; [constructor|].
    rewrite <- app_assoc, <- (app_assoc c). constructor; auto.
    - destruct l; discriminate.
    - now rewrite app_assoc.
  Qed.

  Lemma cutn_new {A} o (l : list A) gs g o' w :
    cutn o l gs g o' -> length g = n -> (o' <= n)%nat ->
    cutn o (l ++ [w]) (gs ++ [g]) (skipn (n - o') g ++ [w]) (next o').
  Proof.
    intros C L O. induction C as [o l|o a c l gs g o' L1 O1 N C IH].
    - rewrite <- (firstn_skipn (n - o) l) at 1 2. rewrite <- app_assoc. cbn [app].
      apply cut_more; [|rewrite skipn_length; lia|discriminate|constructor].
      rewrite firstn_skipn. exact L.
    - rewrite <- app_assoc, <- (app_assoc c). cbn [app]. constructor; auto.
      + destruct l; discriminate.
      + rewrite app_assoc. auto.
  Qed.

  Lemma cutn_segmented {A} o (l : list A) gs g o' (P : nat -> Prop) :
    cutn o l gs g o' -> P o -> (forall o, P o -> P (next o)) -> (forall o, P o -> (o < n)%nat) ->
    g <> [] -> (length g <= n)%nat -> segmented n P l (gs ++ [g]).
  Proof.
    intros C. induction C as [o l|o a c l gs g o' L O N C IH]; intros PO PN PL G GL.
    - cbn. now constructor.
    - cbn [app]. apply seg_more; auto.
      + now rewrite O.
      + intros ->. cbn in L. specialize (PL _ PO). lia.
  Qed.

  Definition hd2 (l : list wp) (z : Z) : Prop := heading l = Some z.

  Context (c : cfg) (CN : c_serve c = Z.of_nat n) (CV : c_overlap c = Z.of_nat v).

  Record linv (i0 : Z) (p : list wp) (st : loop) : Prop := {
    li_cut : exists o,
        cutn v p (map s_wps (l_done st)) (s_wps (l_one st)) o /\
        (o = v \/ n - o <= length (s_wps (l_one st)))%nat /\
        (o = v \/ o = n - v - 1)%nat /\ (o <= v)%nat /\
        s_wps (l_two st) = skipn (n - o) (s_wps (l_one st));
    li_len : (length (s_wps (l_one st)) <= n)%nat;
    li_ne : s_wps (l_one st) <> [];
    li_first : 0 <= s_first (l_one st);
    li_two : s_wps (l_two st) <> [] -> heading (s_wps (l_two st)) = Some (s_first (l_two st));
    li_head : (v + 3 <= n)%nat -> heading (s_wps (l_one st)) = Some (s_first (l_one st)) /\
              Forall (fun g => heading (s_wps g) = Some (s_first g)) (l_done st);
    li_ok : l_ok st = true;
    li_ids : map s_cmd (l_done st) ++ [s_cmd (l_one st); s_cmd (l_two st)] =
             map (fun k => i0 + Z.of_nat k) (seq 0 (length (l_done st) + 2));
    li_next : l_ids st = i0 + Z.of_nat (length (l_done st) + 2)
  }.

  Lemma heading_nonneg l z : heading l = Some z -> (forall w, In w l -> 0 <= w_num w) -> 0 <= z.
  Proof.
    destruct l as [|x [|y l]]; cbn; intros E H; [discriminate| |]; injection E as <-; apply H; auto.
  Qed.

  Lemma heading_push l z w :
    l <> [] -> heading l = Some z -> (2 <= length l)%nat -> heading (l ++ [w]) = Some z.
  Proof. destruct l as [|x [|y l]]; cbn; intros A B C; auto; try lia. Qed.

  Lemma heading_short l w : (length (l ++ [w]) <= 2)%nat -> heading (l ++ [w]) = Some (w_num w).
  Proof.
    destruct l as [|x [|y l]]; cbn; auto. rewrite app_length. cbn. lia.
  Qed.

  Lemma skipn_snoc {A} k (l : list A) w :
    skipn k (l ++ [w]) = if (k <=? length l)%nat then skipn k l ++ [w] else skipn k l.
  Proof.
    rewrite skipn_app. destruct (Nat.leb_spec k (length l)).
    - replace (k - length l)%nat with 0%nat by lia. reflexivity.
    - destruct (k - length l)%nat eqn:E; [lia|]. cbn.
      rewrite skipn_nil. apply app_nil_r.
  Qed.

  Lemma in_skipn {A} k (l : list A) x : In x (skipn k l) -> In x l.
  Proof. intros I. rewrite <- (firstn_skipn k l). apply in_or_app. auto. Qed.

  Lemma cutn_in {A} o (l : list A) gs g o' x : cutn o l gs g o' -> In x g -> In x l.
  Proof.
    induction 1 as [o l|o a c1 l gs g o' L O N C IH]; [auto|].
    intros I. apply in_or_app. right. auto.
  Qed.

  Lemma wps_if (b : bool) z g : s_wps (if b then setFirst z g else g) = s_wps g.
  Proof. now destruct b. Qed.

  Lemma cmd_if (b : bool) z g : s_cmd (if b then setFirst z g else g) = s_cmd g.
  Proof. now destruct b. Qed.

  Lemma linv_step i0 p st w :
    linv i0 p st -> (forall x, In x (p ++ [w]) -> 0 <= w_num x) ->
    linv i0 (p ++ [w]) (cutStep c st w).
  Proof.
    intros [(o & C & OL & OV & OLE & TW) LN NE F0 T2 HD OK ID NX] NN.
    assert (NW : 0 <= w_num w) by (apply NN, in_or_app; right; left; auto).
    assert (NB : (1 <= o < n)%nat) by lia.
    unfold cutStep. rewrite CN, CV. unfold size.
    destruct (Z.ltb_spec (Z.of_nat n) 0); [lia|]. cbn [orb].
    destruct (Z.ltb_spec (Z.of_nat (length (s_wps (l_one st)))) (Z.of_nat n)) as [LT|GE].
    - (* the waypoint goes into the open segment *)
      assert (L1 : length (s_wps (push w (l_one st))) = S (length (s_wps (l_one st)))).
      { cbn [push s_wps]. rewrite app_length. cbn. lia. }
      rewrite L1. destruct (Z.leb_spec 0 (Z.of_nat n)); [|lia]. cbn [andb].
      match goal with |- context [if ?b then push w (l_two st) else l_two st] =>
        set (two := if b then push w (l_two st) else l_two st) end.
      assert (TW' : s_wps two = skipn (n - o) (s_wps (l_one st) ++ [w])).
      { rewrite skipn_snoc. unfold two.
        destruct (Nat.leb_spec (n - o) (length (s_wps (l_one st)))) as [Q|Q].
        - destruct (Z.ltb_spec (Z.of_nat n - Z.of_nat (S (length (s_wps (l_one st))))) (Z.of_nat v));
            [cbn [push s_wps]; now rewrite TW|lia].
        - destruct OL as [->|OL]; [|lia].
          destruct (Z.ltb_spec (Z.of_nat n - Z.of_nat (S (length (s_wps (l_one st))))) (Z.of_nat v));
            [lia|exact TW]. }
      assert (TC : s_cmd two = s_cmd (l_two st)) by (unfold two; destruct (_ <? _); reflexivity).
      constructor; cbn [l_one l_two l_done l_ok l_ids]; rewrite ?wps_if, ?cmd_if.
      + exists o. split; [now apply cutn_push|].
        split.
        { destruct OL as [OL|OL]; [auto|right]. lia. }
        split; [exact OV|]. split; [exact OLE|]. exact TW'.
      + lia.
      + cbn [push s_wps]. destruct (s_wps (l_one st)); discriminate.
      + destruct (_ <=? _); cbn [push setFirst s_first]; auto.
      + intros NT. unfold two in *.
        destruct (Z.ltb_spec (Z.of_nat n - Z.of_nat (S (length (s_wps (l_one st))))) (Z.of_nat v)) as [Q|Q].
        * destruct (Z.leb_spec (Z.of_nat (length (s_wps (push w (l_two st))))) 2) as [Q1|Q1];
            cbn [push setFirst s_wps s_first] in *.
          -- apply heading_short. lia.
          -- rewrite app_length in Q1. cbn in Q1.
             apply heading_push; [destruct (s_wps (l_two st)); cbn in *; [lia|discriminate]| |lia].
             apply T2. destruct (s_wps (l_two st)); cbn in *; [lia|discriminate].
        * exfalso. apply NT. rewrite TW. apply skipn_all2. destruct OL; lia.
      + intros V3. specialize (HD V3). destruct HD as (H1 & H2). split; [|exact H2].
        destruct (Z.leb_spec (Z.of_nat (S (length (s_wps (l_one st))))) 2) as [Q|Q];
          cbn [push setFirst s_wps s_first].
        * apply heading_short. rewrite app_length. cbn. lia.
        * apply heading_push; auto. lia.
      + exact OK.
      + rewrite TC. exact ID.
      + exact NX.
    - (* a new segment is opened *)
      destruct (Z.leb_spec 0 (s_first (l_one st))); [|lia].
      assert (LE : length (s_wps (l_one st)) = n) by lia.
      assert (L2 : length (s_wps (l_two st)) = o) by (rewrite TW, skipn_length; lia).
      assert (NT : s_wps (l_two st) <> []) by (intros Q; rewrite Q in L2; cbn in L2; lia).
      specialize (T2 NT).
      assert (F2 : 0 <= s_first (l_two st)).
      { eapply heading_nonneg; [exact T2|]. intros x I. apply NN, in_or_app. left.
        rewrite TW in I. apply in_skipn in I. eapply cutn_in; eauto. }
      constructor; cbn [l_one l_two l_done l_ok l_ids push fresh s_wps s_first].
      + exists (next o). split.
        { rewrite map_app, TW. cbn [map]. apply cutn_new; auto. lia. }
        rewrite app_length. cbn [length]. unfold next.
        split; [lia|]. split; [lia|]. split; [lia|].
        rewrite skipn_all2; [reflexivity|]. rewrite app_length. cbn. lia.
      + rewrite app_length. cbn. lia.
      + destruct (s_wps (l_two st)); discriminate.
      + exact F2.
      + easy.
      + intros V3. specialize (HD V3). destruct HD as (H1 & H2). split.
        * apply heading_push; auto. lia.
        * apply Forall_app. split; [exact H2|]. constructor; auto.
      + exact OK.
      + rewrite map_app, app_length. cbn [map length s_cmd].
        rewrite <- app_assoc. cbn [app].
        replace (length (l_done st) + 1 + 2)%nat with ((length (l_done st) + 2) + 1)%nat by lia.
        rewrite seq_app, map_app, <- ID, <- app_assoc. cbn [app seq map].
        rewrite NX. reflexivity.
      + rewrite app_length. cbn. lia.
  Qed.

  Lemma linv_run i0 x p :
    (forall w, In w (x :: p) -> 0 <= w_num w) ->
    linv i0 (x :: p)
      (fold_left (cutStep c) (x :: p)
         {| l_one := fresh i0; l_two := fresh (i0 + 1); l_done := []; l_ok := true;
            l_ids := i0 + 2 |}).
  Proof.
    intros H. rewrite <- (app_nil_l (x :: p)) at 1.
    change (x :: p) with ([x] ++ p) in *. rewrite fold_left_app.
    induction p as [|y p IH] using rev_ind.
    - cbn [fold_left app]. unfold cutStep. rewrite CN, CV. unfold size.
      cbn [l_one l_two fresh s_wps length push].
      destruct (Z.ltb_spec (Z.of_nat n) 0); [lia|]. destruct (Z.ltb_spec (Z.of_nat 0) (Z.of_nat n)); [|lia].
      cbn [orb]. destruct (Z.leb_spec 0 (Z.of_nat n)); [|lia].
      destruct (Z.ltb_spec (Z.of_nat n - Z.of_nat (length ([] ++ [x]))) (Z.of_nat v)) as [Q|Q];
        [cbn in Q; lia|]. cbn [andb app length].
      assert (X : 0 <= w_num x) by (apply H; left; auto).
      constructor; cbn; auto; try lia; try easy.
      + exists v. split; [constructor|]. split; [auto|]. split; [auto|]. split; [lia|].
        symmetry. apply skipn_all2. cbn. lia.
      + do 3 f_equal; lia.
    - rewrite !app_assoc. rewrite fold_left_app. cbn [fold_left].
      apply linv_step.
      + rewrite app_nil_l. rewrite app_nil_l in IH. apply IH. intros w I. apply H.
        rewrite app_assoc. apply in_or_app. auto.
      + intros z I. apply H. rewrite app_assoc. exact I.
  Qed.
End Cut.

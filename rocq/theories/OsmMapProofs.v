(** Lemmas about the road map. *)
From Coq Require Import List ZArith Lia Bool Permutation.
From Verif Require Import ZMap AStarModel AStarSpec OsmMapModel OsmMapSpec.
Import ListNotations.
Open Scope list_scope.
Open Scope Z_scope.

(** *** Lists *)
Lemma hd_rev_snoc {A} (l : list A) x : hd_error (rev (l ++ [x])) = Some x.
Proof. rewrite rev_app_distr. reflexivity. Qed.

Lemma hd_rev_cons {A} (x y : A) l : hd_error (rev (x :: y :: l)) = hd_error (rev (y :: l)).
Proof.
  cbn [rev]. destruct (rev l ++ [y]) as [|z t] eqn:E; [destruct (rev l); discriminate|]. reflexivity.
Qed.

Lemma next_in_rev l a b : next_in l a b <-> next_in (rev l) b a.
Proof.
  assert (G : forall l a b, next_in l a b -> next_in (rev l) b a).
  { clear. intros l a b (l1 & l2 & ->). exists (rev l2), (rev l1). rewrite rev_app_distr. cbn [rev]. rewrite <- !app_assoc. reflexivity. }
  split; [apply G|]. intros H. apply G in H. rewrite rev_involutive in H. exact H.
Qed.

(** *** Which nodes are used for planning *)
Lemma flag_nodes_spec n : forall l f m,
  (~ In n l -> zget (flag_nodes f l m) n = zget m n) /\
  (In n l -> exists b, zget (flag_nodes f l m) n = Some b /\
     (b = true <-> (f = true /\ hd_error l = Some n) \/ hd_error (rev l) = Some n \/ zget m n <> None \/ (2 <= count_occ Z.eq_dec l n)%nat)).
Proof.
  induction l as [|x r IH]; intros f m; [split; [reflexivity|intros []]|]. cbn [flag_nodes].
  set (v := f || _ || _). destruct (IH false (zset m x v)) as (IH1 & IH2). split.
  - intros NI. rewrite IH1 by (intros I; apply NI; right; exact I). apply zget_set_other. intros ->. apply NI. left. reflexivity.
  - intros I. destruct (in_dec Z.eq_dec n r) as [IR|IR].
    + destruct (IH2 IR) as (b & E & B). exists b. split; [exact E|]. rewrite B. clear B E.
      destruct r as [|y r]; [destruct IR|]. rewrite hd_rev_cons.
      destruct (Z.eq_dec x n) as [->|N].
      * rewrite (count_occ_cons_eq Z.eq_dec (y :: r) (x := n) (y := n) eq_refl). apply (count_occ_In Z.eq_dec) in IR. rewrite zget_set_same.
        split; [intros _; right; right; right; lia|intros _; right; right; left; discriminate].
      * rewrite (count_occ_cons_neq Z.eq_dec (y :: r) (x := x) (y := n) N). rewrite zget_set_other by congruence. cbn [hd_error].
        split; [intros [(H & _)|H]; [discriminate|tauto]|intros [(_ & H)|H]; [congruence|tauto]].
    + destruct I as [->|I]; [|contradiction]. exists v. rewrite IH1 by exact IR. rewrite zget_set_same. split; [reflexivity|].
      rewrite (count_occ_cons_eq Z.eq_dec r (x := n) (y := n) eq_refl). apply (count_occ_not_In Z.eq_dec) in IR as C. rewrite C. unfold v.
      rewrite !orb_true_iff. unfold zhas. cbn [hd_error]. destruct r as [|y r].
      * split; [intros _; right; left; reflexivity|intros _; auto].
      * assert (hd_error (rev (n :: y :: r)) <> Some n).
        { rewrite hd_rev_cons. intros H. assert (In n (rev (y :: r))) by (destruct (rev (y :: r)); [discriminate|injection H as ->; left; reflexivity]).
          apply in_rev in H0. contradiction. }
        destruct (zget m n); split; intros H'.
        -- right; right; left; discriminate.
        -- auto.
        -- destruct H' as [[H'|H']|H']; try discriminate. auto.
        -- destruct H' as [(H' & _)|[H'|[H'|H']]]; [auto|contradiction|congruence|lia].
Qed.

Lemma passes_snoc ws w n : passes (ws ++ [w]) n = (passes ws n + if w_road w then count_occ Z.eq_dec (w_nodes w) n else 0)%nat.
Proof.
  unfold passes. rewrite flat_map_app, count_occ_app. cbn [flat_map]. rewrite app_nil_r. destruct (w_road w); reflexivity.
Qed.

Lemma hd_error_In {A} (l : list A) x : hd_error l = Some x -> In x l.
Proof. destruct l; [discriminate|]. intros E. injection E as ->. left. reflexivity. Qed.

Lemma on_road ws n : (0 < passes ws n)%nat <-> exists l, road ws l /\ In n l.
Proof.
  unfold passes. unfold lt. match goal with |- (_ <= count_occ _ ?L _)%nat <-> _ => pose proof (count_occ_In Z.eq_dec L n) as CI end. unfold gt, lt in CI. rewrite <- CI. rewrite in_flat_map. split.
  - intros (w & I & H). destruct (w_road w) eqn:R; [|destruct H]. exists (w_nodes w). split; [exists w; auto|exact H].
  - intros (l & (w & I & R & <-) & H). exists w. rewrite R. auto.
Qed.

Lemma flags_spec ws n :
  (passes ws n = 0%nat -> zget (flags ws) n = None) /\
  ((0 < passes ws n)%nat -> exists b, zget (flags ws) n = Some b /\ (b = true <-> junction ws n)).
Proof.
  induction ws as [|w ws IH] using rev_ind; [split; [reflexivity|cbn; lia]|].
  unfold flags in *. rewrite fold_left_app. cbn [fold_left]. set (m := fold_left flag_way ws []) in *.
  rewrite passes_snoc. unfold flag_way. destruct IH as (IH1 & IH2). destruct (w_road w) eqn:R.
  - destruct (flag_nodes_spec n (w_nodes w) true m) as (F1 & F2).
    destruct (in_dec Z.eq_dec n (w_nodes w)) as [I|I].
    + apply (count_occ_In Z.eq_dec) in I as C. split; [lia|]. intros _. destruct (F2 I) as (b & E & B). exists b. split; [exact E|]. rewrite B. clear B E.
      assert (Q : zget m n <> None <-> (0 < passes ws n)%nat).
      { split; [intros H; destruct (passes ws n); [rewrite IH1 in H by reflexivity; congruence|lia]|].
        intros H. destruct (IH2 H) as (b' & E & _). rewrite E. discriminate. }
      unfold junction. rewrite passes_snoc, R. split.
      * intros [(_ & H)|[H|[H|H]]]; [left|left|right|right].
        -- exists (w_nodes w). split; [exists w; split; [apply in_app_iff; right; left; reflexivity|auto]|auto].
        -- exists (w_nodes w). split; [exists w; split; [apply in_app_iff; right; left; reflexivity|auto]|auto].
        -- apply Q in H. lia.
        -- lia.
      * intros [(l & (w' & I' & R' & E') & H)|H].
        -- apply in_app_iff in I'. destruct I' as [I'|[->|[]]].
           ++ right; right; left. apply Q. apply on_road. exists l. split; [exists w'; auto|].
              destruct H as [H|H]; [apply hd_error_In, H|apply in_rev, hd_error_In, H].
           ++ subst l. destruct H as [H|H]; [left; auto|auto].
        -- destruct (Nat.eq_dec (passes ws n) 0); [right; right; right; lia|right; right; left; apply Q; lia].
    + apply (count_occ_not_In Z.eq_dec) in I as C. rewrite C, Nat.add_0_r, F1 by exact I. split; [exact IH1|].
      intros H. destruct (IH2 H) as (b & E & B). exists b. split; [exact E|]. rewrite B. unfold junction. rewrite passes_snoc, R, C, Nat.add_0_r.
      split; (intros [(l & (w' & I' & R' & E') & H')|H']; [left|right; exact H']); exists l; (split; [|exact H']); exists w'.
      * split; [apply in_app_iff; auto|auto].
      * apply in_app_iff in I'. destruct I' as [I'|[->|[]]]; [auto|]. exfalso. subst l. apply I.
        destruct H' as [H'|H']; [apply hd_error_In, H'|apply in_rev, hd_error_In, H'].
  - rewrite Nat.add_0_r. split; [exact IH1|]. intros H. destruct (IH2 H) as (b & E & B). exists b. split; [exact E|]. rewrite B.
    unfold junction. rewrite passes_snoc, R, Nat.add_0_r.
    split; (intros [(l & (w' & I' & R' & E') & H')|H']; [left|right; exact H']); exists l; (split; [|exact H']); exists w'.
    + split; [apply in_app_iff; auto|auto].
    + apply in_app_iff in I'. destruct I' as [I'|[->|[]]]; [auto|congruence].
Qed.

Lemma junction_on_road ws n : junction ws n -> (0 < passes ws n)%nat.
Proof.
  intros [(l & R & H)|H]; [|lia]. apply on_road. exists l. split; [exact R|].
  destruct H as [H|H]; [apply hd_error_In, H|apply in_rev, hd_error_In, H].
Qed.

Definition pl (fl : zmap bool) (n : Z) : bool := match zget fl n with Some true => true | _ => false end.

Lemma pl_spec ws n : pl (flags ws) n = true <-> junction ws n.
Proof.
  unfold pl. destruct (flags_spec ws n) as (F1 & F2). split.
  - intros H. destruct (passes ws n) eqn:P; [rewrite F1 in H by reflexivity; discriminate|].
    destruct F2 as (b & E & B); [lia|]. rewrite E in H. destruct b; [|discriminate]. apply B. reflexivity.
  - intros J. destruct (F2 (junction_on_road ws n J)) as (b & E & B). rewrite E. rewrite (proj2 B J). reflexivity.
Qed.

(** *** The nodes of the file *)
Record load_inv (fl : zmap bool) (ns : list (Z * option pos)) (st : loaded) : Prop := {
  li_count : 0 <= count st;
  li_back : forall i, zget (back st) i <> None -> 1 <= i <= count st;
  li_index : forall n i, zget (index st) n = Some i -> zget (back st) i = Some n /\ 1 <= i <= count st;
  li_planning : forall n, In n (planning st) <-> zget fl n = Some true /\ In n (map fst ns);
  li_known : forall n, In n (planning st) <-> zget (index st) n <> None;
  li_pos : forall n p, zget (positions st) n = Some p -> In (n, Some p) ns /\ zget fl n <> None;
  li_have : forall n p, In (n, Some p) ns -> zget fl n <> None -> zget (positions st) n <> None
}.

Lemma load_spec fl ns : load_inv fl ns (load fl ns).
Proof.
  unfold load. induction ns as [|(id, p) ns IH] using rev_ind.
  { constructor; cbn; try tauto; try lia; try discriminate; try congruence. }
  rewrite fold_left_app. cbn [fold_left]. set (st := fold_left (load_node fl) ns load_init) in *. clearbody st.
  destruct IH as [C B X P K PO HV]. unfold load_node.
  destruct (zget fl id) as [b|] eqn:F.
  2:{ constructor; auto.
      - intros n. rewrite P, map_app, in_app_iff. cbn. split; [tauto|]. intros (E & [I|[<-|[]]]); [auto|congruence].
      - intros n q E. destruct (PO n q E). split; [apply in_app_iff; auto|assumption].
      - intros n q I NF. apply in_app_iff in I. destruct I as [I|[I|[]]]; [eauto|]. congruence. }
  destruct (zhas (positions st) id) eqn:H.
  { assert (HP : exists q, zget (positions st) id = Some q) by (unfold zhas in H; destruct (zget (positions st) id); [eauto|discriminate]).
    destruct HP as (q & HP). constructor; auto.
    - intros n. rewrite P, map_app, in_app_iff. cbn. split; [tauto|]. intros (E & [I|[<-|[]]]); [auto|]. split; [exact E|].
      destruct (PO id q HP) as (I & _). apply in_map_iff. exists (id, Some q). auto.
    - intros n q' E. destruct (PO n q' E). split; [apply in_app_iff; auto|assumption].
    - intros n q' I NF. apply in_app_iff in I. destruct I as [I|[I|[]]]; [eauto|]. injection I as -> _. congruence. }
  assert (HN : zget (positions st) id = None) by (unfold zhas in H; destruct (zget (positions st) id); [discriminate|reflexivity]).
  set (st1 := if b then _ else st).
  assert (L1 : 0 <= count st1 /\ (forall i, zget (back st1) i <> None -> 1 <= i <= count st1)
     /\ (forall n i, zget (index st1) n = Some i -> zget (back st1) i = Some n /\ 1 <= i <= count st1)
     /\ (forall n, In n (planning st1) <-> zget fl n = Some true /\ In n (map fst (ns ++ [(id, p)])))
     /\ (forall n, In n (planning st1) <-> zget (index st1) n <> None) /\ positions st1 = positions st).
  { subst st1. destruct b; cbn [count back index planning positions].
    - assert (BN : zhas (back st) (count st + 1) = false).
      { unfold zhas. destruct (zget (back st) (count st + 1)) eqn:E; [|reflexivity]. assert (1 <= count st + 1 <= count st) by (apply B; rewrite E; discriminate). lia. }
      rewrite BN. split; [lia|]. split; [|split; [|split; [|split; [|reflexivity]]]].
      + intros i. rewrite zget_set. destruct (i =? count st + 1) eqn:E; [apply Z.eqb_eq in E; intros _; lia|]. intros E'. apply B in E'. lia.
      + intros n i. rewrite zget_set. destruct (n =? id) eqn:E.
        * apply Z.eqb_eq in E. intros Q. injection Q as <-. subst. rewrite zget_set_same. split; [reflexivity|lia].
        * intros Q. apply X in Q. destruct Q as (Q & R). rewrite zget_set_other by lia. split; [exact Q|lia].
      + intros n. rewrite In_zadd, P, map_app, in_app_iff. cbn. split.
        * intros [->|(E & I)]; auto.
        * intros (E & [I|[<-|[]]]); auto.
      + intros n. rewrite In_zadd, K, zget_set. destruct (n =? id) eqn:E.
        * apply Z.eqb_eq in E. split; [discriminate|auto].
        * apply Z.eqb_neq in E. tauto.
    - split; [exact C|]. split; [exact B|]. split; [exact X|]. split; [|split; [exact K|reflexivity]].
      intros n. rewrite P, map_app, in_app_iff. cbn. split; [tauto|]. intros (E & [I|[<-|[]]]); [auto|congruence]. }
  clearbody st1. destruct L1 as (C1 & B1 & X1 & P1 & K1 & PS).
  destruct p as [x|]; constructor; cbn [positions index back planning count]; auto.
  - intros n q. rewrite zget_set. destruct (n =? id) eqn:E.
    + apply Z.eqb_eq in E. intros Q. injection Q as <-. subst. split; [apply in_app_iff; right; left; reflexivity|congruence].
    + rewrite PS. intros Q. destruct (PO n q Q). split; [apply in_app_iff; auto|assumption].
  - intros n q I NF. rewrite zget_set. destruct (n =? id) eqn:E; [discriminate|]. apply Z.eqb_neq in E. rewrite PS.
    apply in_app_iff in I. destruct I as [I|[I|[]]]; [eauto|congruence].
  - rewrite PS. intros n q Q. destruct (PO n q Q). split; [apply in_app_iff; auto|assumption].
  - rewrite PS. intros n q I NF. apply in_app_iff in I. destruct I as [I|[I|[]]]; [eauto|discriminate].
Qed.

(** *** Cutting a list of nodes at some of them *)
Fixpoint pieces (f : Z -> bool) (cur : option (list Z)) (l : list Z) : list (list Z) :=
  match l with
  | [] => []
  | n :: r => match cur with
              | None => if f n then pieces f (Some [n]) r else pieces f None r
              | Some c => if f n then (c ++ [n]) :: pieces f (Some [n]) r else pieces f (Some (c ++ [n])) r
              end
  end.

(** The first and the last node of a piece, and what is in between *)
Definition p_first (p : list Z) : Z := hd 0 p.
Definition p_last (p : list Z) : Z := last p 0.

(** [p] runs between two cuts *)
Definition is_piece (f : Z -> bool) (a b : Z) (p : list Z) : Prop :=
  exists mid, p = a :: mid ++ [b] /\ f a = true /\ f b = true /\ forall x, In x mid -> f x = false.

Lemma pieces_sound f : forall l c a mid, (c = None \/ (c = Some (a :: mid) /\ f a = true /\ forall x, In x mid -> f x = false)) ->
  forall p, In p (pieces f c l) -> exists a' b', is_piece f a' b' p /\ exists l1 l2, (match c with Some q => q | None => [] end) ++ l = l1 ++ p ++ l2.
Proof.
  induction l as [|n r IH]; intros c a mid C p I; [destruct I|]. cbn [pieces] in I. destruct C as [->|(-> & FA & FM)].
  - destruct (f n) eqn:F.
    + destruct (IH (Some [n]) n []) with (p := p) as (a' & b' & P & l1 & l2 & E); [right; cbn; tauto|exact I|].
      exists a', b'. split; [exact P|]. exists l1, l2. exact E.
    + destruct (IH None a []) with (p := p) as (a' & b' & P & l1 & l2 & E); [auto|exact I|].
      exists a', b'. split; [exact P|]. exists (n :: l1), l2. cbn in *. rewrite E. reflexivity.
  - destruct (f n) eqn:F.
    + destruct I as [<-|I].
      * exists a, n. split; [exists mid; auto|]. exists [], r. cbn. rewrite <- app_assoc. reflexivity.
      * destruct (IH (Some [n]) n []) with (p := p) as (a' & b' & P & l1 & l2 & E); [right; cbn; tauto|exact I|].
        exists a', b'. split; [exact P|]. exists ((a :: mid) ++ l1), l2. rewrite <- (app_assoc (a :: mid)). rewrite <- E. reflexivity.
    + destruct (IH (Some (a :: mid ++ [n])) a (mid ++ [n])) with (p := p) as (a' & b' & P & l1 & l2 & E); [|exact I|].
      * right. split; [reflexivity|]. split; [exact FA|]. intros x J. apply in_app_iff in J. destruct J as [J|[<-|[]]]; auto.
      * exists a', b'. split; [exact P|]. exists l1, l2. rewrite <- E. cbn. rewrite <- app_assoc. reflexivity.
Qed.

Lemma last_app_ne (c l : list Z) : l <> [] -> last (c ++ l) 0 = last l 0.
Proof.
  intros N. induction c as [|x c IH]; [reflexivity|]. cbn [app]. rewrite <- IH. destruct (c ++ l) eqn:E; [|reflexivity].
  destruct c; [cbn in E; congruence|discriminate].
Qed.

(** Inside the open piece *)
Lemma pieces_next f : forall l c x y, f (last (c ++ l) 0) = true -> l <> [] -> c <> [] -> (forall z, In z (tl c) -> f z = false) ->
  next_in (c ++ l) x y -> exists p, In p (pieces f (Some c) l) /\ next_in p x y.
Proof.
  induction l as [|n r IH]; intros c x y L N NC FC E; [congruence|]. cbn [pieces].
  destruct (f n) eqn:F.
  - destruct E as (l1 & l2 & E).
    (* either inside the piece that ends here, or afterwards *)
    assert (S : next_in (c ++ [n]) x y \/ next_in (n :: r) x y).
    { revert c NC FC L E. induction l1 as [|z l1 IHl]; intros c NC FC L E.
      - destruct c as [|c0 c]; [congruence|]. injection E as -> E. destruct c as [|c1 c].
        + cbn in E. injection E as -> ->. left. exists [], []. reflexivity.
        + cbn in E. injection E as E1 E2. subst. left. exists [], (c ++ [n]). reflexivity.
      - destruct c as [|c0 c]; [congruence|]. injection E as -> E. destruct c as [|c1 c].
        + right. exists l1, l2. exact E.
        + destruct (IHl (c1 :: c)) as [(m1 & m2 & M)|M].
          * discriminate.
          * intros u U. apply FC. right. exact U.
          * exact L.
          * exact E.
          * left. exists (z :: m1), m2. change (z :: (c1 :: c) ++ [n] = (z :: m1) ++ x :: y :: m2). cbn [app]. rewrite <- M. reflexivity.
          * right. exact M. }
    destruct S as [S|S].
    + exists (c ++ [n]). split; [left; reflexivity|exact S].
    + destruct r as [|n' r].
      * destruct S as ([|z [|z' l1']] & l2' & S); discriminate.
      * destruct (IH [n] x y) as (p & I & P).
        -- rewrite last_app_ne in L by discriminate. exact L.
        -- discriminate.
        -- discriminate.
        -- intros z [].
        -- exact S.
        -- exists p. split; [right; exact I|exact P].
  - destruct r as [|n' r].
    { exfalso. assert (last (c ++ [n]) 0 = n) by (rewrite last_last; reflexivity). rewrite H in L. congruence. }
    apply (IH (c ++ [n])).
    + rewrite <- app_assoc. exact L.
    + discriminate.
    + destruct c; discriminate.
    + intros z I. destruct c as [|c0 c]; [congruence|]. cbn [app tl] in I. apply in_app_iff in I. destruct I as [I|[<-|[]]]; [apply FC, I|exact F].
    + rewrite <- app_assoc. exact E.
Qed.

(** Every step of a list that begins and ends with a cut lies on a piece. *)
Lemma pieces_cover f l x y : (forall n, hd_error l = Some n -> f n = true) -> (forall n, hd_error (rev l) = Some n -> f n = true) ->
  next_in l x y -> exists p, In p (pieces f None l) /\ next_in p x y.
Proof.
  intros H T E. destruct l as [|n r]; [destruct E as ([|] & ? & E); discriminate|]. cbn [pieces]. rewrite (H n eq_refl).
  destruct r as [|n' r]; [destruct E as ([|z [|]] & ? & E); discriminate|].
  apply (pieces_next f (n' :: r) [n]); [|discriminate|discriminate|intros z []|exact E].
  apply T. cbn [app]. clear. revert n'. generalize n. clear n. induction r as [|z r IH]; intros n n'; [reflexivity|].
  rewrite hd_rev_cons, IH. reflexivity.
Qed.

(** The nodes that are no cuts are those in between. *)
Definition mids (p : list Z) : list Z := removelast (tl p).
Lemma pieces_mids f : forall l c a mid, c = a :: mid -> (forall x, In x mid -> f x = false) -> f (last (c ++ l) 0) = true -> l <> [] ->
  flat_map mids (pieces f (Some c) l) = mid ++ filter (fun x => negb (f x)) l.
Proof.
  induction l as [|n r IH]; intros c a mid -> FM L N; [congruence|]. cbn [pieces filter]. destruct (f n) eqn:F; cbn [negb].
  - cbn [flat_map]. unfold mids at 1. cbn [app tl]. rewrite removelast_last. f_equal. destruct r as [|n' r]; [reflexivity|].
    apply (IH [n] n []); [reflexivity|intros x []| |discriminate].
    rewrite last_app_ne in L by discriminate. exact L.
  - destruct r as [|n' r].
    { exfalso. rewrite last_last in L. congruence. }
    change ((a :: mid) ++ [n]) with (a :: mid ++ [n]). rewrite (IH (a :: mid ++ [n]) a (mid ++ [n])).
    + rewrite <- app_assoc. reflexivity.
    + reflexivity.
    + intros x I. apply in_app_iff in I. destruct I as [I|[<-|[]]]; auto.
    + change ((a :: mid ++ [n]) ++ n' :: r) with (((a :: mid) ++ [n]) ++ n' :: r). rewrite <- app_assoc. exact L.
    + discriminate.
Qed.

Lemma last_hd_rev (l : list Z) n : hd_error (rev l) = Some n -> last l 0 = n.
Proof.
  intros H. destruct (rev l) as [|z t] eqn:E; [discriminate|]. injection H as ->. assert (l = rev t ++ [n]) as -> by (rewrite <- (rev_involutive l), E; reflexivity).
  apply last_last.
Qed.

Lemma pieces_inner f l : (forall n, hd_error l = Some n -> f n = true) -> (forall n, hd_error (rev l) = Some n -> f n = true) ->
  flat_map mids (pieces f None l) = filter (fun x => negb (f x)) l.
Proof.
  intros H T. destruct l as [|n r]; [reflexivity|]. cbn [pieces filter]. rewrite (H n eq_refl). cbn [negb].
  destruct r as [|n' r]; [reflexivity|]. apply (pieces_mids f (n' :: r) [n] n []); [reflexivity|intros x []| |discriminate].
  destruct (rev (n :: n' :: r)) as [|z t] eqn:E; [apply (f_equal (@length Z)) in E; rewrite rev_length in E; discriminate|].
  rewrite (last_hd_rev _ z) by (cbn [app]; rewrite E; reflexivity). apply T. reflexivity.
Qed.

(** A stretch between cuts is one of the pieces. *)
Lemma pieces_complete f : forall l c a b mid l1 l2,
  (c = None \/ exists a0 mid0, c = Some (a0 :: mid0) /\ forall x, In x mid0 -> f x = false) ->
  f a = true -> f b = true -> (forall x, In x mid -> f x = false) ->
  (match c with Some q => q | None => [] end) ++ l = l1 ++ (a :: mid ++ [b]) ++ l2 ->
  (match c with Some q => (length l1 = 0 /\ exists s, a :: mid = q ++ s) \/ (length q <= length l1)%nat | None => True end)%nat ->
  In (a :: mid ++ [b]) (pieces f c l).
Proof.
  induction l as [|n r IH]; intros c a b mid l1 l2 C FA FB FM E P.
  - rewrite app_nil_r in E. exfalso. destruct C as [->|(a0 & mid0 & -> & F0)].
    + destruct l1; discriminate.
    + destruct P as [(L & s & S)|L].
      * destruct l1; [|discriminate]. cbn in E. injection S as <- S. injection E as E. rewrite S in E.
        apply (f_equal (@length Z)) in E. rewrite !app_length in E. cbn in E. lia.
      * apply (f_equal (@length Z)) in E. rewrite app_length in E. cbn [length] in *. rewrite !app_length in E. cbn in E. lia.
  - cbn [pieces]. destruct C as [->|(a0 & mid0 & -> & F0)].
    + cbn [app] in E. destruct l1 as [|z l1].
      * cbn [app] in E. injection E as -> E. rewrite FA. apply (IH (Some [a]) a b mid [] l2); auto.
        -- right. exists a, []. split; [reflexivity|intros x []].
        -- cbn [app]. rewrite E. reflexivity.
        -- left. split; [reflexivity|]. exists mid. reflexivity.
      * cbn [app] in E. injection E as -> E. destruct (f z) eqn:F.
        -- apply (IH (Some [z]) a b mid (z :: l1) l2); auto.
           ++ right. exists z, []. split; [reflexivity|intros x []].
           ++ cbn [app]. rewrite E. reflexivity.
           ++ right. cbn. lia.
        -- apply (IH None a b mid l1 l2); auto.
    + destruct P as [(L & s & S)|L].
      * destruct l1; [|discriminate]. cbn [app] in E. injection S as <- S. injection E as E. subst mid. rewrite <- !app_assoc in E.
        apply app_inv_head in E. destruct s as [|s0 s].
        -- cbn in E. injection E as -> E. rewrite FB. left. rewrite app_nil_r. reflexivity.
        -- cbn in E. injection E as -> E. rewrite (FM s0) by (apply in_app_iff; right; left; reflexivity).
           apply (IH (Some (a :: mid0 ++ [s0])) a b (mid0 ++ s0 :: s) [] l2); auto.
           ++ right. exists a, (mid0 ++ [s0]). split; [reflexivity|]. intros x I. apply FM. rewrite in_app_iff in *. cbn in *. tauto.
           ++ cbn [app]. rewrite E. rewrite <- !app_assoc. reflexivity.
           ++ left. split; [reflexivity|]. exists s. cbn. rewrite <- app_assoc. reflexivity.
      * (* the stretch begins after what is open *)
        assert (S : exists t, l1 = (a0 :: mid0) ++ t /\ n :: r = t ++ (a :: mid ++ [b]) ++ l2).
        { clear - E L. revert l1 L E. generalize (a0 :: mid0). intros q. induction q as [|q0 q IHq]; intros l1 L E; [exists l1; auto|].
          destruct l1 as [|z l1]; [cbn in L; lia|]. injection E as -> E. destruct (IHq l1) as (t & -> & T); [cbn in L; lia|exact E|]. exists t. auto. }
        destruct S as (t & -> & T). destruct t as [|t0 t].
        -- cbn in T. injection T as -> T. rewrite FA. right. apply (IH (Some [a]) a b mid [] l2); auto.
           ++ right. exists a, []. split; [reflexivity|intros x []].
           ++ cbn [app]. rewrite T. reflexivity.
           ++ left. split; [reflexivity|]. exists mid. reflexivity.
        -- cbn in T. injection T as -> T. destruct (f t0) eqn:F.
           ++ right. apply (IH (Some [t0]) a b mid (t0 :: t) l2); auto.
              ** right. exists t0, []. split; [reflexivity|intros x []].
              ** cbn [app]. rewrite T. reflexivity.
              ** right. cbn. lia.
           ++ apply (IH (Some ((a0 :: mid0) ++ [t0])) a b mid ((a0 :: mid0 ++ [t0]) ++ t) l2); auto.
              ** right. exists a0, (mid0 ++ [t0]). split; [reflexivity|]. intros x I. apply in_app_iff in I. destruct I as [I|[<-|[]]]; auto.
              ** rewrite T. cbn [app]. rewrite <- !app_assoc. reflexivity.
              ** right. cbn. rewrite !app_length. cbn. lia.
Qed.

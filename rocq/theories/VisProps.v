(** C54: the way chosen around zones.  C55: the edges of the graph. *)
From Coq Require Import List ZArith QArith Qround Bool Lia Lqa.
From Verif Require Import SegModel SegSpec SegProps VisModel VisSpec.
Import ListNotations.
Open Scope list_scope.
Open Scope Z_scope.

Lemma in_shift : forall (r : list vertex) v x a b,
  In (a, b) (combine (v :: r) (r ++ [x])) <->
  (exists l m, v :: r = l ++ a :: b :: m) \/ (exists l, v :: r = l ++ [a] /\ b = x).
Proof.
  induction r as [|w r IH]; intros v x a b.
  - cbn. split.
    + intros [E|[]]. injection E as -> ->. right. exists []. auto.
    + intros [(l & m & E)|(l & E & ->)].
      * destruct l as [|? [|? ?]]; discriminate.
      * destruct l as [|? [|? ?]]; try discriminate. injection E as ->. left. reflexivity.
  - change (combine (v :: w :: r) ((w :: r) ++ [x])) with ((v, w) :: combine (w :: r) (r ++ [x])).
    cbn [In]. rewrite IH. split.
    + intros [E|[(l & m & E)|(l & E & X)]].
      * injection E as -> ->. left. exists [], r. reflexivity.
      * left. exists (v :: l), m. cbn. rewrite E. reflexivity.
      * right. exists (v :: l). cbn. rewrite E. auto.
    + intros [(l & m & E)|(l & E & X)].
      * destruct l as [|u l]; cbn in E.
        -- injection E as -> -> ->. left. reflexivity.
        -- injection E as -> E. right. left. exists l, m. exact E.
      * destruct l as [|u l]; cbn in E; [discriminate|]. injection E as -> E. right. right. exists l. auto.
Qed.

Lemma in_ring : forall p a b, In (a, b) (ring (p_verts p)) <-> side p a b.
Proof.
  intros p a b. unfold side, ring. destruct (p_verts p) as [|v r].
  - split; [intros []|]. intros [(l & m & E)|(l & m & E & _)]; destruct l; discriminate.
  - rewrite in_shift. split.
    + intros [H|(l & E & ->)]; [left; exact H|right]. exists l, r. auto.
    + intros [H|(l & m & E & X)]; [left; exact H|right]. injection X as -> ->. exists l. auto.
Qed.

Lemma blocked_sees : forall ps A B ia ib, blocked ps A B ia ib = false <-> sees ps A B ia ib.
Proof.
  intros ps A B ia ib. unfold blocked, sees. split.
  - intros H p a b IP S N1 N2 N3 N4 M.
    destruct (crosses (snd a) (snd b) A B) eqn:C.
    + exfalso. assert (X : existsb (fun p => existsb (hit A B ia ib) (ring (p_verts p))) ps = true); [|congruence].
      apply existsb_exists. exists p. split; [exact IP|]. apply existsb_exists. exists (a, b).
      split; [apply in_ring; exact S|]. unfold hit. cbn [fst snd].
      rewrite (proj2 (Z.eqb_neq _ _) N1), (proj2 (Z.eqb_neq _ _) N2), (proj2 (Z.eqb_neq _ _) N3), (proj2 (Z.eqb_neq _ _) N4).
      exact C.
    + destruct (Qeq_dec ((east (snd b) - east (snd a)) * (north B - north A)) ((north (snd b) - north (snd a)) * (east B - east A))) as [E|N]; [exact E|].
      exfalso. assert (T : crosses (snd a) (snd b) A B = true) by (apply C53_crosses; split; assumption). congruence.
  - intros H. destruct (existsb _ ps) eqn:E; [|reflexivity]. exfalso.
    apply existsb_exists in E. destruct E as (p & IP & E). apply existsb_exists in E. destruct E as ([a b] & IR & E).
    apply in_ring in IR. unfold hit in E. cbn [fst snd] in E.
    destruct (fst a =? ia) eqn:N1; [discriminate|]. destruct (fst a =? ib) eqn:N2; [discriminate|].
    destruct (fst b =? ia) eqn:N3; [discriminate|]. destruct (fst b =? ib) eqn:N4; [discriminate|]. cbn [orb] in E.
    apply Z.eqb_neq in N1, N2, N3, N4. apply C53_crosses in E. destruct E as (N & M). apply N.
    exact (H p a b IP IR N1 N2 N3 N4 M).
Qed.

Lemma metres_distance : forall A B, distance A B (metres A B).
Proof.
  intros A B. unfold distance, metres. set (d2 := ((north A - north B) * (north A - north B) + (east A - east B) * (east A - east B))%Q).
  assert (P : (0 <= d2)%Q).
  { unfold d2. generalize (north A - north B)%Q (east A - east B)%Q. intros x y. nra. }
  assert (F : 0 <= Qfloor d2). { change 0 with (Qfloor (inject_Z 0)). apply Qfloor_resp_le. exact P. }
  destruct (Z.sqrt_spec _ F) as (L & U). split; [apply Z.sqrt_nonneg|]. split.
  - apply Qle_trans with (inject_Z (Qfloor d2)); [|apply Qfloor_le]. rewrite <- Zle_Qle. exact L.
  - apply Qlt_le_trans with (inject_Z (Qfloor d2 + 1)); [apply Qlt_floor|]. rewrite <- Zle_Qle.
    unfold Z.succ in U. lia.
Qed.

Lemma distance_unique : forall A B l m, distance A B l -> distance A B m -> l = m.
Proof.
  intros A B l m (L0 & L1 & L2) (M0 & M1 & M2).
  pose proof (Qle_lt_trans _ _ _ L1 M2) as X. pose proof (Qle_lt_trans _ _ _ M1 L2) as Y.
  rewrite <- Zlt_Qlt in X, Y. nia.
Qed.

Lemma distance_sym : forall A B l, distance A B l -> distance B A l.
Proof.
  intros A B l (L0 & L1 & L2). split; [exact L0|]. cbn zeta in *. split.
  - eapply Qle_trans; [exact L1|]. apply Qle_lteq. right. ring.
  - eapply Qle_lt_trans; [|exact L2]. apply Qle_lteq. right. ring.
Qed.

(** Every corner begins a side. *)
Lemma first_of_ring : forall vs v, In v vs <-> exists w, In (v, w) (ring vs).
Proof.
  intros [|u r] v; [split; [intros []|intros (w & [])]|].
  unfold ring.
  assert (G : forall (l m : list vertex), length l = length m -> forall x, In x l <-> exists w, In (x, w) (combine l m)).
  { induction l as [|y l IH]; intros [|z m] L x; try discriminate; [split; [intros []|intros (w & [])]|].
    injection L as L. cbn [In combine]. rewrite (IH m L). split.
    - intros [->|(w & H)]; [exists z; left; reflexivity|exists w; right; exact H].
    - intros (w & [E|H]); [left; congruence|right; exists w; exact H]. }
  apply G. rewrite app_length. cbn. lia.
Qed.

Lemma in_seen_from : forall ps A i l,
  In (i, l) (seen_from ps A) <->
  exists v, corner ps v /\ fst v = i /\ sees ps A (snd v) nowhere i /\ l = metres A (snd v).
Proof.
  intros ps A i l. unfold seen_from, corner. rewrite in_flat_map. split.
  - intros (p & IP & H). apply in_flat_map in H. destruct H as ([v w] & IR & H). cbn [fst snd] in H.
    destruct (blocked ps A (snd v) (-1) (fst v)) eqn:E; [destruct H|]. destruct H as [H|[]]. injection H as H1 H2.
    exists v. split; [exists p; split; [exact IP|apply first_of_ring; exists w; exact IR]|].
    split; [exact H1|]. split; [|symmetry; exact H2]. rewrite <- H1. apply blocked_sees. exact E.
  - intros (v & (p & IP & IV) & E & S & L). exists p. split; [exact IP|]. apply in_flat_map.
    apply first_of_ring in IV. destruct IV as (w & IR). exists (v, w). split; [exact IR|]. cbn [fst snd].
    rewrite <- E in S. apply blocked_sees in S. unfold nowhere in S. rewrite S. left. rewrite E, L. reflexivity.
Qed.

Lemma in_seen_to : forall ps B i l,
  In (i, l) (seen_to ps B) <->
  exists v, corner ps v /\ fst v = i /\ sees ps (snd v) B i nowhere /\ l = metres B (snd v).
Proof.
  intros ps B i l. unfold seen_to, corner. rewrite in_flat_map. split.
  - intros (p & IP & H). apply in_flat_map in H. destruct H as ([v w] & IR & H). cbn [fst snd] in H.
    destruct (blocked ps (snd v) B (fst v) (-1)) eqn:E; [destruct H|]. destruct H as [H|[]]. injection H as H1 H2.
    exists v. split; [exists p; split; [exact IP|apply first_of_ring; exists w; exact IR]|].
    split; [exact H1|]. split; [|symmetry; exact H2]. rewrite <- H1. apply blocked_sees. exact E.
  - intros (v & (p & IP & IV) & E & S & L). exists p. split; [exact IP|]. apply in_flat_map.
    apply first_of_ring in IV. destruct IV as (w & IR). exists (v, w). split; [exact IR|]. cbn [fst snd].
    rewrite <- E in S. apply blocked_sees in S. unfold nowhere in S. rewrite S. left. rewrite E, L. reflexivity.
Qed.

Lemma best : forall l c0,
  match fold_left better l (Some c0) with
  | Some c => (c = c0 \/ In c l) /\ snd c <= snd c0 /\ forall c', In c' l -> snd c <= snd c'
  | None => False
  end.
Proof.
  induction l as [|x l IH]; intros c0; cbn [fold_left].
  - split; [auto|]. split; [lia|intros c' []].
  - unfold better at 2. destruct (snd x <? snd c0) eqn:E.
    + apply Z.ltb_lt in E. specialize (IH x). destruct (fold_left better l (Some x)) as [c|]; [|contradiction].
      destruct IH as (I1 & I2 & I3). split; [right; destruct I1 as [->|I1]; [left; reflexivity|right; exact I1]|].
      split; [lia|]. intros c' [<-|H]; [exact I2|auto].
    + apply Z.ltb_ge in E. specialize (IH c0). destruct (fold_left better l (Some c0)) as [c|]; [|contradiction].
      destruct IH as (I1 & I2 & I3). split; [destruct I1 as [->|I1]; [left; reflexivity|right; right; exact I1]|].
      split; [lia|]. intros c' [<-|H]; [lia|auto].
Qed.

Lemma best_none : forall l,
  match fold_left better l None with
  | Some c => In c l /\ forall c', In c' l -> snd c <= snd c'
  | None => l = []
  end.
Proof.
  intros [|x l]; [reflexivity|]. cbn [fold_left better].
  pose proof (best l x) as H. destruct (fold_left better l (Some x)) as [c|]; [|contradiction].
  destruct H as (H1 & H2 & H3). split; [destruct H1 as [->|H1]; [left; reflexivity|right; exact H1]|].
  intros c' [<-|H]; auto.
Qed.

(** Numbers stand for corners. *)
Lemma corner_unique : forall ps v w, numbered ps -> corner ps v -> corner ps w -> fst v = fst w -> v = w.
Proof.
  intros ps v w (N & _) (p & IP & IV) (q & IQ & IW) E.
  assert (A : In v (flat_map p_verts ps)) by (apply in_flat_map; eauto).
  assert (B : In w (flat_map p_verts ps)) by (apply in_flat_map; eauto).
  clear - N A B E. induction (flat_map p_verts ps) as [|x l IH]; [destruct A|].
  cbn in N. apply NoDup_cons_iff in N. destruct N as (N1 & N2).
  destruct A as [->|A], B as [->|B]; auto.
  - exfalso. apply N1. rewrite E. apply in_map. exact B.
  - exfalso. apply N1. rewrite <- E. apply in_map. exact A.
Qed.

(** Along the parents one finds the walk again. *)
Lemma climb_walk : forall parent b vs fuel y acc,
  starts vs b -> ends vs y -> NoDup vs ->
  (forall l x z r, vs = l ++ x :: z :: r -> parent b z = x) ->
  (length vs <= fuel)%nat ->
  exists r, vs = r ++ [y] /\ climb parent fuel b y acc = Some (r ++ y :: acc).
Proof.
  intros parent b vs. induction vs as [|z vs IH] using rev_ind; intros fuel y acc (r & Hs) (q & He) ND P L.
  - discriminate.
  - apply app_inj_tail in He. destruct He as (-> & ->). exists q. split; [reflexivity|].
    destruct q as [|c q _] using rev_ind.
    + cbn in Hs. injection Hs as -> _. destruct fuel; cbn; rewrite Z.eqb_refl; reflexivity.
    + assert (N : y <> b).
      { intros ->. destruct (q ++ [c]) as [|d q'] eqn:E; [destruct q; discriminate|]. cbn in Hs. injection Hs as -> _.
        cbn in ND. apply NoDup_cons_iff in ND. destruct ND as (N & _). apply N. apply in_or_app. right. left. reflexivity. }
      rewrite app_length in L. cbn in L. destruct fuel as [|fuel]; [lia|].
      cbn [climb]. rewrite (proj2 (Z.eqb_neq _ _) N).
      rewrite (P q c y []) by (rewrite <- app_assoc; reflexivity).
      destruct (IH fuel c (y :: acc)) as (r' & E1 & E2).
      * destruct (q ++ [c]) as [|d q'] eqn:E; [destruct q; discriminate|]. cbn in Hs. injection Hs as -> _. exists q'. reflexivity.
      * exists q. reflexivity.
      * apply NoDup_remove_1 in ND. rewrite app_nil_r in ND. exact ND.
      * intros l x z0 r0 E. apply (P l x z0 (r0 ++ [y])). rewrite E, <- app_assoc. reflexivity.
      * lia.
      * apply app_inj_tail in E1. destruct E1 as (<- & _). rewrite E2, <- app_assoc. reflexivity.
Qed.

Section Shortest.
  Context (ps : list polygon) (es : list wedge) (n : nat) (dist parent : Z -> Z -> Z).
  Context (NUM : numbered ps) (SW : shortest_walks es n dist parent).

  Lemma in_candidates : forall A B i j l,
    In (i, j, l) (candidates dist (seen_from ps A) (seen_to ps B)) <->
    exists v w la lb, corner ps v /\ corner ps w /\ fst v = i /\ fst w = j
      /\ sees ps A (snd v) nowhere i /\ sees ps (snd w) B j nowhere
      /\ distance A (snd v) la /\ distance (snd w) B lb /\ l = la + dist i j + lb.
  Proof.
    intros A B i j l. unfold candidates. rewrite in_flat_map. split.
    - intros ([i' la] & HS & H). apply in_map_iff in H. destruct H as ([j' lb] & E & HE). cbn [fst snd] in E.
      injection E as -> -> E. apply in_seen_from in HS. apply in_seen_to in HE.
      destruct HS as (v & CV & EV & SV & LV). destruct HE as (w & CW & EW & SW' & LW).
      exists v, w, la, lb. repeat (split; [assumption|]). subst la lb.
      split; [apply metres_distance|]. split; [apply distance_sym, metres_distance|]. symmetry; exact E.
    - intros (v & w & la & lb & CV & CW & EV & EW & SV & SW' & DV & DW & E).
      exists (i, la). split.
      + apply in_seen_from. exists v. repeat (split; [assumption|]). eapply distance_unique; [exact DV|apply metres_distance].
      + apply in_map_iff. exists (j, lb). cbn [fst snd]. split; [rewrite E; reflexivity|].
        apply in_seen_to. exists w. repeat (split; [assumption|]).
        eapply distance_unique; [apply distance_sym; exact DW|apply metres_distance].
  Qed.

  (** A way gives a candidate that is not longer. *)
  Lemma way_candidate : forall A B vs l, way ps es A B vs l ->
    exists i j m, In (i, j, m) (candidates dist (seen_from ps A) (seen_to ps B)) /\ m <= l.
  Proof.
    intros A B vs l (v & w & la & lw & lb & CV & CW & HS & HE & SV & SW' & DV & W & DW & ->).
    exists (fst v), (fst w), (la + dist (fst v) (fst w) + lb). split.
    - apply in_candidates. exists v, w, la, lb. repeat (split; [assumption || reflexivity|]). reflexivity.
    - pose proof (sw_least _ _ _ _ SW _ _ _ _ HS HE W). lia.
  Qed.

  Theorem C54_direct : forall A B, sees ps A B nowhere nowhere ->
    let p := find_path dist ps A B in
    (exists l, pa_len p = Some l /\ distance A B l)
    /\ pa_start p = A /\ pa_end p = B /\ trail parent n p = Some [].
  Proof.
    intros A B S. apply blocked_sees in S. unfold find_path, nowhere in *. rewrite S. cbn [pa_len pa_start pa_end].
    split; [exists (metres A B); split; [reflexivity|apply metres_distance]|]. auto.
  Qed.

  Theorem C54_shortest : forall A B vs0 l0,
    ~ sees ps A B nowhere nowhere ->
    way ps es A B vs0 l0 -> l0 <= 2147483646 ->
    let p := find_path dist ps A B in
    exists vs l, pa_len p = Some l /\ way ps es A B vs l
      /\ (forall vs' l', way ps es A B vs' l' -> l <= l')
      /\ pa_start p = A /\ pa_end p = B
      /\ (trail parent n p = Some vs \/ exists v, vs = [v] /\ trail parent n p = Some [v; v]).
  Proof.
    intros A B vs0 l0 NS W0 L0. unfold find_path, nowhere in *.
    destruct (blocked ps A B (-1) (-1)) eqn:BL; [|exfalso; apply NS, blocked_sees; exact BL].
    pose proof (best_none (candidates dist (seen_from ps A) (seen_to ps B))) as HB.
    destruct (way_candidate _ _ _ _ W0) as (i0 & j0 & m0 & IC0 & LE0).
    destruct (fold_left better _ None) as [[[i j] l]|]; [|rewrite HB in IC0; destruct IC0].
    destruct HB as (IC & MIN). cbn [fst snd] in MIN.
    pose proof (MIN _ IC0) as M0. cbn [snd] in M0.
    apply in_candidates in IC. destruct IC as (v & w & la & lb & CV & CW & EV & EW & SV & SWB & DV & DW & EL).
    assert (LT : dist i j < 2147483647) by (destruct DV as (? & _), DW as (? & _); lia).
    destruct (sw_walk _ _ _ _ SW i j LT) as (vs & HS & HE & HW & HL & ND & HP).
    rewrite (proj2 (Z.leb_le l int_max)) by (unfold int_max; lia).
    exists vs, l. cbn [pa_len pa_start pa_end]. split; [reflexivity|]. split; [|split; [|split; [reflexivity|split; [reflexivity|]]]].
    - exists v, w, la, (dist i j), lb. subst i j. repeat (split; [assumption|]). exact EL.
    - intros vs' l' W'. destruct (way_candidate _ _ _ _ W') as (i' & j' & m' & IC' & LE'). specialize (MIN _ IC'). cbn [snd] in MIN. lia.
    - unfold trail. cbn [pa_first pa_last].
      assert (I0 : 0 <= i) by (subst i; apply (proj2 NUM); exact CV).
      rewrite (proj2 (Z.ltb_ge i 0) I0).
      destruct HE as (q & HE). destruct q as [|c q _] using rev_ind.
      + right. cbn in HE. rewrite HE in HS. destruct HS as (r & HS). injection HS as -> <-. exists i. split; [exact HE|].
        rewrite (sw_self _ _ _ _ SW). cbn [climb]. rewrite Z.eqb_refl. reflexivity.
      + left. rewrite HE, <- app_assoc in HP. cbn [app] in HP. rewrite (HP q c j []) by reflexivity.
        destruct (climb_walk parent i (q ++ [c]) (S n) c [j]) as (r & E1 & E2).
        * rewrite HE in HS. destruct HS as (r & HS). destruct (q ++ [c]) as [|d q'] eqn:E; [destruct q; discriminate|].
          cbn in HS. injection HS as -> _. exists q'. reflexivity.
        * exists q. reflexivity.
        * rewrite HE in ND. apply NoDup_remove_1 in ND. rewrite app_nil_r in ND. exact ND.
        * intros l1 x z r1 E. apply (HP l1 x z (r1 ++ [j])).
          change (q ++ c :: [j]) with (q ++ [c] ++ [j]). rewrite app_assoc, E, <- app_assoc. reflexivity.
        * rewrite HE, app_length in HL. cbn in HL. lia.
        * apply app_inj_tail in E1. destruct E1 as (<- & _). rewrite E2. rewrite HE, <- app_assoc. reflexivity.
  Qed.

  (** No corner is seen from the start, or none from the end. *)
  Theorem C54_lost_refuted : forall A B,
    ~ sees ps A B nowhere nowhere ->
    (forall v, corner ps v -> ~ sees ps A (snd v) nowhere (fst v))
    \/ (forall v, corner ps v -> ~ sees ps (snd v) B (fst v) nowhere) ->
    is_find_path dist ps A B = (true, no_path).
  Proof.
    intros A B NS H. unfold is_find_path, find_path, nowhere in *.
    destruct (blocked ps A B (-1) (-1)) eqn:BL; [|exfalso; apply NS, blocked_sees; exact BL].
    pose proof (best_none (candidates dist (seen_from ps A) (seen_to ps B))) as HB.
    destruct (fold_left better _ None) as [[[i j] l]|]; [|reflexivity]. exfalso.
    destruct HB as (IC & _). apply in_candidates in IC.
    destruct IC as (v & w & la & lb & CV & CW & <- & <- & SV & SWB & _).
    destruct H as [H|H]; [exact (H v CV SV)|exact (H w CW SWB)].
  Qed.

  (** Corners are seen from both, but no walk joins them. *)
  Theorem C54_apart_refuted : forall A B,
    ~ sees ps A B nowhere nowhere ->
    (exists v, corner ps v /\ sees ps A (snd v) nowhere (fst v)) ->
    (exists w, corner ps w /\ sees ps (snd w) B (fst w) nowhere) ->
    (forall vs l, ~ way ps es A B vs l) ->
    let p := snd (is_find_path dist ps A B) in
    fst (is_find_path dist ps A B) = true
    /\ (pa_len p = None \/ pa_len p = Some 2147483647)
    /\ 0 <= pa_first p /\ 0 <= pa_last p.
  Proof.
    intros A B NS (v & CV & SV) (w & CW & SWB) NW. unfold is_find_path, find_path, nowhere in *. cbn [fst snd].
    destruct (blocked ps A B (-1) (-1)) eqn:BL; [|exfalso; apply NS, blocked_sees; exact BL].
    pose proof (best_none (candidates dist (seen_from ps A) (seen_to ps B))) as HB.
    assert (IC0 : In (fst v, fst w, metres A (snd v) + dist (fst v) (fst w) + metres (snd w) B)
                     (candidates dist (seen_from ps A) (seen_to ps B))).
    { apply in_candidates. exists v, w, (metres A (snd v)), (metres (snd w) B).
      repeat (split; [assumption || reflexivity || apply metres_distance|]). reflexivity. }
    destruct (fold_left better _ None) as [[[i j] l]|]; [|rewrite HB in IC0; destruct IC0].
    destruct HB as (IC & _). apply in_candidates in IC.
    destruct IC as (v' & w' & la & lb & CV' & CW' & EV & EW & SV' & SW' & DV & DW & EL).
    cbn [pa_len pa_first pa_last].
    assert (D : dist i j = 2147483647).
    { pose proof (sw_range _ _ _ _ SW i j) as R. destruct (Z.eq_dec (dist i j) 2147483647) as [|N]; [assumption|]. exfalso.
      destruct (sw_walk _ _ _ _ SW i j) as (vs & HS & HE & HW & _); [lia|].
      apply (NW vs l). exists v', w', la, (dist i j), lb. subst i j. repeat (split; [assumption|]). exact EL. }
    split; [reflexivity|]. split.
    - destruct (l <=? int_max) eqn:E; [right|left; reflexivity]. apply Z.leb_le in E. unfold int_max in E.
      destruct DV as (? & _), DW as (? & _). f_equal. lia.
    - subst i j. split; apply (proj2 NUM); assumption.
  Qed.
End Shortest.

Print Assumptions C54_direct.
Print Assumptions C54_shortest.
Print Assumptions C54_lost_refuted.
Print Assumptions C54_apart_refuted.

(** ** C55 *)
Lemma in_between : forall inside ps rest x,
  In x (between inside ps rest) <->
  exists l1 p l2 q l3, rest = l1 ++ p :: l2 ++ q :: l3 /\ In x (visible_from inside ps p q).
Proof.
  intros inside ps rest x. induction rest as [|p rest IH]; cbn [between].
  - split; [intros []|]. intros (l1 & p & l2 & q & l3 & E & _). destruct l1; discriminate.
  - rewrite in_app_iff, IH, in_flat_map. split.
    + intros [(q & IQ & H)|(l1 & p' & l2 & q & l3 & E & H)].
      * apply in_split in IQ. destruct IQ as (l2 & l3 & ->). exists [], p, l2, q, l3. split; [reflexivity|exact H].
      * exists (p :: l1), p', l2, q, l3. split; [rewrite E; reflexivity|exact H].
    + intros ([|z l1] & p' & l2 & q & l3 & E & H); cbn in E; injection E as -> ->.
      * left. exists q. split; [apply in_or_app; right; left; reflexivity|exact H].
      * right. exists l1, p', l2, q, l3. auto.
Qed.

Lemma in_pairs : forall (l : list vertex) x y,
  In (x, y) (pairs l) <-> exists l1 l2 l3, l = l1 ++ x :: l2 ++ y :: l3.
Proof.
  induction l as [|z l IH]; intros x y; cbn [pairs].
  - split; [intros []|]. intros ([|? ?] & ? & ? & E); discriminate.
  - rewrite in_app_iff, IH, in_map_iff. split.
    + intros [(w & E & H)|(l1 & l2 & l3 & ->)].
      * injection E as -> ->. apply in_split in H. destruct H as (l2 & l3 & ->). exists [], l2, l3. reflexivity.
      * exists (z :: l1), l2, l3. reflexivity.
    + intros ([|u l1] & l2 & l3 & E); cbn in E; injection E as -> ->.
      * left. exists y. split; [reflexivity|apply in_or_app; right; left; reflexivity].
      * right. exists l1, l2, l3. reflexivity.
Qed.

Lemma side_corners : forall p a b, side p a b -> In a (p_verts p) /\ In b (p_verts p).
Proof.
  intros p a b [(l & r & ->)|(l & r & E1 & E2)].
  - split; apply in_or_app; right; [left|right; left]; reflexivity.
  - split; [rewrite E1; apply in_or_app; right; left|rewrite E2; left]; reflexivity.
Qed.

Lemma new_pair_spec : forall ps p v w, numbered ps -> In p ps -> In v (p_verts p) -> In w (p_verts p) ->
  new_pair p (v, w) = true <-> ~ side p v w /\ ~ side p w v.
Proof.
  intros ps p v w N IP IV IW. unfold new_pair. rewrite negb_true_iff. split.
  - intros H. split; intros S; apply in_ring in S.
    + apply Bool.not_true_iff_false in H. apply H. apply existsb_exists. exists (v, w). split; [exact S|].
      cbn [fst snd]. rewrite !Z.eqb_refl. reflexivity.
    + apply Bool.not_true_iff_false in H. apply H. apply existsb_exists. exists (w, v). split; [exact S|].
      cbn [fst snd]. rewrite !Z.eqb_refl. apply orb_true_r.
  - intros (S1 & S2). apply Bool.not_true_iff_false. intros H. apply existsb_exists in H.
    destruct H as ([a b] & IR & H). apply in_ring in IR. cbn [fst snd] in H.
    destruct (side_corners _ _ _ IR) as (IA & IB).
    assert (C : forall x, In x (p_verts p) -> corner ps x) by (intros x Hx; exists p; auto).
    apply orb_true_iff in H. destruct H as [H|H]; apply andb_true_iff in H; destruct H as (H1 & H2); apply Z.eqb_eq in H1, H2.
    + apply S1. rewrite <- (corner_unique ps a v), <- (corner_unique ps b w); auto.
    + apply S2. rewrite <- (corner_unique ps a w), <- (corner_unique ps b v); auto.
Qed.

(** Which pairs of corners are joined. *)
Theorem C55_edges : forall inside notconvex ps i j l, numbered ps ->
  In (i, j, l) (build inside notconvex ps) <->
  exists v w, i = fst v /\ j = fst w /\ distance (snd v) (snd w) l /\
    ((exists p, In p ps /\ side p v w
        /\ (p_in p = true \/ forall c, In c ps -> p_in c = true ->
              inside c (snd v) = inside c (snd w) /\ inside c (snd v) = inside c (half_way (snd v) (snd w))))
     \/ (exists l1 p l2 q l3, ps = l1 ++ p :: l2 ++ q :: l3 /\ In v (p_verts p) /\ In w (p_verts q)
           /\ (p_in p = true -> inside p (half_way (snd v) (snd w)) = true)
           /\ sees ps (snd v) (snd w) (fst v) (fst w))
     \/ (exists p, In p ps /\ notconvex p = true
           /\ (exists l1 l2 l3, p_verts p = l1 ++ v :: l2 ++ w :: l3)
           /\ ~ side p v w /\ ~ side p w v
           /\ inside p (half_way (snd v) (snd w)) = p_in p
           /\ sees ps (snd v) (snd w) (fst v) (fst w))).
Proof.
  intros inside notconvex ps i j l N. unfold build. rewrite !in_app_iff. split.
  - intros [H|[H|H]].
    + apply in_flat_map in H. destruct H as (p & IP & H). apply in_map_iff in H. destruct H as ([v w] & E & H).
      cbn [fst snd] in E. unfold join in E. injection E as E1 E2 E3. exists v, w.
      split; [auto|]. split; [auto|]. split; [rewrite <- E3; apply metres_distance|]. left. exists p. split; [exact IP|].
      destruct (p_in p) eqn:K.
      * split; [apply in_ring; exact H|]. left. reflexivity.
      * apply filter_In in H. destruct H as (H & G). split; [apply in_ring; exact H|]. right. intros c IC KC.
        unfold good_side in G. rewrite forallb_forall in G. specialize (G c IC). rewrite KC in G. cbn [fst snd] in G.
        apply negb_true_iff, orb_false_iff in G. destruct G as (G1 & G2). apply xorb_eq in G1, G2. auto.
    + apply in_between in H. destruct H as (l1 & p & l2 & q & l3 & E & H). unfold visible_from in H.
      apply in_flat_map in H. destruct H as (v & IV & H). apply in_flat_map in H. destruct H as (w & IW & H).
      destruct (_ && _) eqn:G in H; [|destruct H]. destruct H as [H|[]]. unfold join in H. injection H as E1 E2 E3.
      apply andb_true_iff in G. destruct G as (G1 & G2). apply negb_true_iff, blocked_sees in G2.
      exists v, w. split; [auto|]. split; [auto|]. split; [rewrite <- E3; apply metres_distance|]. right. left.
      exists l1, p, l2, q, l3. repeat (split; [assumption|]). split; [|exact G2].
      intros K. rewrite K in G1. exact G1.
    + apply in_flat_map in H. destruct H as (p & IP & H). unfold extra in H. apply in_map_iff in H.
      destruct H as ([v w] & E & H). cbn [fst snd] in E. unfold join in E. injection E as E1 E2 E3.
      apply filter_In in H. destruct H as (H & G). cbn [fst snd] in G. apply andb_true_iff in G. destruct G as (_ & G2).
      apply negb_true_iff, blocked_sees in G2. unfold self_visible in H. destruct (notconvex p) eqn:NC; [|destruct H].
      apply filter_In in H. destruct H as (H & F). cbn [fst snd] in F. apply andb_true_iff in F. destruct F as (F & _).
      apply andb_true_iff in F. destruct F as (F1 & F2). apply eqb_prop in F2. apply in_pairs in H.
      assert (IVW : In v (p_verts p) /\ In w (p_verts p)).
      { destruct H as (a & b & c & ->). split; apply in_or_app; right; [left; reflexivity|right; apply in_or_app; right; left; reflexivity]. }
      apply (new_pair_spec ps p v w N IP (proj1 IVW) (proj2 IVW)) in F1.
      exists v, w. split; [auto|]. split; [auto|]. split; [rewrite <- E3; apply metres_distance|]. right. right.
      exists p. split; [exact IP|]. split; [exact NC|]. split; [exact H|]. split; [apply F1|]. split; [apply F1|].
      split; [exact F2|exact G2].
  - intros (v & w & -> & -> & D & H). rewrite (distance_unique _ _ _ _ D (metres_distance (snd v) (snd w))).
    change (fst v, fst w, metres (snd v) (snd w)) with (join v w).
    destruct H as [(p & IP & S & H)|[(l1 & p & l2 & q & l3 & E & IV & IW & K & S)|(p & IP & NC & O & S1 & S2 & K & S)]].
    + left. apply in_flat_map. exists p. split; [exact IP|]. apply in_map_iff. exists (v, w). split; [reflexivity|].
      apply in_ring in S. destruct (p_in p) eqn:K; [exact S|]. apply filter_In. split; [exact S|].
      destruct H as [H|H]; [discriminate|]. unfold good_side. apply forallb_forall. intros c IC. destruct (p_in c) eqn:KC; [|reflexivity].
      cbn [fst snd]. destruct (H c IC KC) as (E1 & E2). unfold half_way in E2. unfold mid. rewrite <- E1, <- E2.
      destruct (inside c (snd v)); reflexivity.
    + right. left. apply in_between. exists l1, p, l2, q, l3. split; [exact E|]. apply in_flat_map. exists v. split; [exact IV|].
      apply in_flat_map. exists w. split; [exact IW|]. apply blocked_sees in S. rewrite S. cbn [negb]. rewrite andb_true_r.
      destruct (p_in p); cbn [negb orb]; [|left; reflexivity].
      change (mid (snd v) (snd w)) with (half_way (snd v) (snd w)). rewrite (K eq_refl). left. reflexivity.
    + right. right. apply in_flat_map. exists p. split; [exact IP|]. unfold extra. apply in_map_iff. exists (v, w).
      split; [reflexivity|]. apply blocked_sees in S. change (half_way (snd v) (snd w)) with (mid (snd v) (snd w)) in K.
      apply filter_In. cbn [fst snd]. rewrite S, K. split; [|destruct (p_in p); reflexivity].
      unfold self_visible. rewrite NC. apply filter_In. split; [apply in_pairs; exact O|]. cbn [fst snd].
      assert (IVW : In v (p_verts p) /\ In w (p_verts p)).
      { destruct O as (a & b & c & ->). split; apply in_or_app; right; [left; reflexivity|right; apply in_or_app; right; left; reflexivity]. }
      apply andb_true_iff. split; [apply andb_true_iff; split|].
      { apply (new_pair_spec ps p v w N IP (proj1 IVW) (proj2 IVW)). auto. }
      { rewrite K. apply eqb_reflx. }
      apply negb_true_iff. apply blocked_sees. apply blocked_sees in S. intros p' a b [<-|[]]. apply S. exact IP.
Qed.
Print Assumptions C55_edges.

(** So a leg that is no side of a zone is crossed by no side of a zone. *)
Theorem C55_legs : forall inside notconvex ps a b l, numbered ps ->
  joined (build inside notconvex ps) a b l ->
  exists v w, corner ps v /\ corner ps w /\ fst v = a /\ fst w = b /\ distance (snd v) (snd w) l /\
    ((exists p, In p ps /\ (side p v w \/ side p w v)) \/ sees ps (snd v) (snd w) (fst v) (fst w)).
Proof.
  intros inside notconvex ps a b l N J.
  assert (G : forall a b, In (a, b, l) (build inside notconvex ps) ->
    exists v w, corner ps v /\ corner ps w /\ fst v = a /\ fst w = b /\ distance (snd v) (snd w) l /\
    ((exists p, In p ps /\ (side p v w \/ side p w v)) \/ sees ps (snd v) (snd w) (fst v) (fst w))).
  { clear a b J. intros a b H. apply C55_edges in H; [|exact N].
    destruct H as (v & w & -> & -> & D & [(p & IP & S & _)|[(l1 & p & l2 & q & l3 & E & IV & IW & _ & S)|(p & IP & _ & (x & y & z & E) & _ & _ & _ & S)]]);
      exists v, w.
    - destruct (side_corners _ _ _ S) as (IV & IW). split; [exists p; auto|]. split; [exists p; auto|].
      repeat (split; [assumption || reflexivity|]). left. exists p. auto.
    - split; [exists p; split; [rewrite E; apply in_or_app; right; left; reflexivity|exact IV]|].
      split; [exists q; split; [rewrite E; apply in_or_app; right; right; apply in_or_app; right; left; reflexivity|exact IW]|].
      repeat (split; [assumption || reflexivity|]). right. exact S.
    - split; [exists p; split; [exact IP|rewrite E; apply in_or_app; right; left; reflexivity]|].
      split; [exists p; split; [exact IP|rewrite E; apply in_or_app; right; right; apply in_or_app; right; left; reflexivity]|].
      repeat (split; [assumption || reflexivity|]). right. exact S. }
  destruct J as [J|J]; [exact (G a b J)|].
  destruct (G b a J) as (v & w & CV & CW & EV & EW & D & H). exists w, v.
  repeat (split; [assumption|]). split; [apply distance_sym; exact D|].
  destruct H as [(p & IP & H)|S]; [left; exists p; tauto|right].
  intros p x y IP SD N1 N2 N3 N4 (P & M1 & M2).
  assert (X : parallel (snd x) (snd y) (snd v) (snd w)).
  { apply (S p x y IP SD); auto. exists P. split; [exact M1|apply on_segment_sym; exact M2]. }
  unfold parallel in *. clear - X. revert X.
  generalize (east (snd x)) (east (snd y)) (north (snd x)) (north (snd y)) (east (snd v)) (east (snd w)) (north (snd v)) (north (snd w)).
  intros. lra.
Qed.
Print Assumptions C55_legs.

(** C92: cases, and what thinning a line does not keep. *)
From Coq Require Import Reals List ZArith Bool Lia Lra Psatz.
From Verif Require Import PiBounds LinePlanModel LinePlanSpec LinePlanGeom LinePlanProofs LinePlanProps.
Import ListNotations.
Open Scope R_scope.

Definition pt (n e : R) : point := {| px := n; py := e; pz := 0; fixed := false |}.

Lemma sep_line a b c l : tiny <= away (plc a) (plc b) -> tiny <= away (plc b) (plc c) -> tiny <= l ->
  l * l = (px c - px a) ^ 2 + (py c - py a) ^ 2 ->
  snd (separation a b c) = Rabs ((px b - px a) * (py c - py a) - (px c - px a) * (py b - py a)) / l.
Proof.
  intros T1 T2 L E. rewrite away_plc in T1, T2. unfold separation. fold tiny. destruct (Rlt_dec _ tiny); [lra|]. destruct (Rlt_dec _ tiny); [lra|].
  cbn [snd]. pose proof tiny_pos.
  replace (sqrt ((px c - px a) * (px c - px a) + (py c - py a) * (py c - py a))) with l; [destruct (Rlt_dec l tiny); [lra|reflexivity]|].
  symmetry. apply sqrt_lem_1; nra.
Qed.

Lemma far_away a b d : tiny <= d -> d * d <= (fst b - fst a) ^ 2 + (snd b - snd a) ^ 2 -> tiny <= away a b.
Proof.
  intros T D. pose proof tiny_pos. apply Rle_trans with d; auto. unfold away. rewrite <- (sqrt_square d) by lra. apply sqrt_le_1_alt, D.
Qed.

Lemma tiny_one : tiny <= 1.
Proof. unfold tiny. rewrite <- Rinv_1. apply Rinv_le_contravar; [lra|]. apply pow_R1_Rle. lra. Qed.

Lemma keeps a b c : 1 <= snd (separation a b c) -> extraneous a b c = false.
Proof. unfold extraneous. destruct (separation a b c) as (t, s). cbn. intros L. destruct (Rlt_dec _ _); auto. destruct (Rlt_dec s 1); [lra|reflexivity]. Qed.

Lemma map_nth_seq (ps : list point) : map (fun k => nth k ps origin) (seq 0 (length ps)) = ps.
Proof.
  apply nth_ext with (d := origin) (d' := origin); [rewrite map_length, seq_length; reflexivity|].
  intros n N. rewrite map_length, seq_length in N. rewrite nth_map_pos by (rewrite seq_length; exact N). rewrite seq_nth by exact N. reflexivity.
Qed.

Lemma quick_few ps most : (Z.of_nat (length ps) <= most)%Z -> plan_quickly ps most = ps.
Proof.
  intros M. unfold plan_quickly. destruct (Nat.ltb_spec (length ps) 2) as [|G]; auto.
  assert (LE : length (entries ps) = length ps) by (unfold entries; rewrite map_length, seq_length; auto).
  assert (X : forall f, prune f ps most (entries ps) = entries ps).
  { intros [|f]; auto. cbn [prune]. rewrite LE. destruct (Z.ltb_spec most (Z.of_nat (length ps))); auto. lia. }
  rewrite X. unfold entries. rewrite map_map. cbn [spot entry_of]. apply map_nth_seq.
Qed.

Lemma most_two ps : (2 <= most_waypoints ps)%Z.
Proof. unfold most_waypoints. destruct (Z.ltb_spec (Int_part (road_length ps / 200)) 2); lia. Qed.

(** A way around three sides of a field of 300 by 400 metres keeps its four corners. *)
Example C92_way_case :
  let line := [pt 0 10; pt 300 10; pt 300 410; pt 0 410] in
  (forall p, In p line -> fixed p = false) /\ (forall p, In p line -> / 10 ^ 9 <= Rabs (px p - py p)) /\
  way (map plc line) = 1000 /\ thinned_line line = line.
Proof.
  intros line. assert (C : forall p, In p line -> / 10 ^ 9 <= Rabs (px p - py p)).
  { assert (K : / 10 ^ 9 <= 1) by (rewrite <- Rinv_1; apply Rinv_le_contravar; [lra|apply pow_R1_Rle; lra]).
    intros p [<-|[<-|[<-|[<-|[]]]]]; cbn [pt px py]; unfold Rabs; destruct (Rcase_abs _); lra. }
  assert (S : forall x y, (x = 0 \/ y = 0) -> sqrt (x ^ 2 + y ^ 2) = Rabs (x + y)).
  { intros x y H. rewrite <- sqrt_Rsqr_abs. f_equal. unfold Rsqr. destruct H; subst; ring. }
  assert (W : way (map plc line) = 1000).
  { cbn [line map way plc pt px py]. unfold away. unfold plc. cbn [fst snd px py pt].
    rewrite (S (300 - 0)), (S (300 - 300)), (S (0 - 300)) by (first [left; lra|right; lra]).
    unfold Rabs. repeat destruct (Rcase_abs _); lra. }
  split; [intros p [<-|[<-|[<-|[<-|[]]]]]; reflexivity|]. split; [exact C|]. split; [exact W|].
  assert (P : preprocess line = line).
  { pose proof tiny_one as T1. pose proof tiny_pos as T0. unfold line. cbn [preprocess thin].
    assert (E1 : extraneous (pt 0 10) (pt 300 10) (pt 300 410) = false).
    { apply keeps. rewrite (sep_line _ _ _ 500); cbn [px py pt]; [|apply far_away with 1; cbn; lra|apply far_away with 1; cbn; lra|lra|lra].
      unfold Rabs. destruct (Rcase_abs _); lra. }
    assert (E2 : extraneous (pt 300 10) (pt 300 410) (pt 0 410) = false).
    { apply keeps. rewrite (sep_line _ _ _ 500); cbn [px py pt]; [|apply far_away with 1; cbn; lra|apply far_away with 1; cbn; lra|lra|lra].
      unfold Rabs. destruct (Rcase_abs _); lra. }
    rewrite E1, E2. reflexivity. }
  unfold thinned_line. rewrite P. destruct (C92_most line) as (_ & M). cbn zeta in M. rewrite W in M. specialize (M ltac:(lra)).
  assert (most_waypoints line = 5%Z). { destruct M as (M1 & M2). assert (A : IZR (most_waypoints line) < 6) by lra. assert (B : 4 < IZR (most_waypoints line)) by lra.
    apply lt_IZR in A. apply lt_IZR in B. lia. }
  rewrite quick_few by (rewrite H; cbn; lia). unfold remove_zero, line. f_equal. apply clear_squeeze. intros p Q. apply C. right. exact Q.
Qed.

(** Three points of a straight line that are 100 metres apart. *)
Example C92_straight_case : preprocess [pt 0 5; pt 100 5; pt 200 5] = [pt 0 5; pt 200 5].
Proof.
  apply (C92_straight [pt 0 5; pt 100 5; pt 200 5] (0, 5) (100, 5)); [cbn; lia|intros E; injection E; lra|].
  exists INR. split; [|intros k _; apply lt_INR; lia]. intros k K. cbn in K. unfold at_, along, plc.
  destruct k as [|[|[|k]]]; [| | |lia]; cbn [nth pt px py fst snd INR]; f_equal; lra.
Qed.

(** The first pass can cut off a bend of any size: each point that it leaves out is near the straight line to the point after
    it, but the errors add up. *)
Definition bend (n k : nat) : point := pt (500 * INR k) (85 / 100 * INR (k - n)).

Lemma atan_below s : 0 < s -> atan s < s.
Proof.
  intros P. destruct (MVT_cor2 atan (fun x => / (1 + x ^ 2)) 0 s P) as (c & E & C & D).
  { intros x _. apply derivable_pt_lim_atan. }
  rewrite atan_0 in E. assert (1 < 1 + c ^ 2) by nra. assert (/ (1 + c ^ 2) < 1). { rewrite <- Rinv_1. apply Rinv_lt_contravar; lra. } nra.
Qed.

Lemma atan_polar x y : 0 < x -> x = sqrt (x * x + y * y) * cos (atan (y / x)) /\ y = sqrt (x * x + y * y) * sin (atan (y / x)).
Proof. apply SteeringCourseProps.atan_xy. Qed.

Lemma slope_slight b1 b2 c1 c2 : 0 < b1 -> 0 < c1 -> 500 <= b1 -> 500 <= c1 -> c1 <= 500 -> 0 <= b2 <= 17 / 10000 * b1 -> 0 <= c2 <= 17 / 10000 * c1 ->
  slight (0, 0) (b1, b2) (b1 + c1, b2 + c2).
Proof.
  intros B1 C1 B5 C5 C6 B2 C2. pose proof tiny_one as T1. pose proof tiny_pos as T0. pose proof PI_bounds as PL. right. right. split.
  - exists (atan (b2 / b1) - atan (c2 / c1)).
    assert (G : forall x y, 0 < x -> 0 <= y <= 17 / 10000 * x -> 0 <= atan (y / x) < PI / 1800).
    { intros x y X Y. assert (R : 0 <= y / x <= 17 / 10000).
      { split; [apply Rmult_le_pos; [lra|apply Rlt_le, Rinv_0_lt_compat, X]|]. apply Rmult_le_reg_r with x; auto. replace (y / x * x) with y by (field; lra). lra. }
      assert (M : forall u v, u <= v -> atan u <= atan v). { intros u v [L|E]; [left; apply atan_increasing, L|subst; lra]. }
      pose proof (M _ _ (proj1 R)) as A. rewrite atan_0 in A. split; auto.
      pose proof (M _ _ (proj2 R)) as B. pose proof (atan_below (17 / 10000) ltac:(lra)). lra. }
    pose proof (G b1 b2 B1 B2) as GB. pose proof (G c1 c2 C1 C2) as GC. split; [|apply Rabs_def1; lra].
    split; [lra|]. exists (atan (b2 / b1)), (sqrt (b1 * b1 + b2 * b2)), (sqrt (c1 * c1 + c2 * c2)). cbn [fst snd].
    replace (atan (b2 / b1) - (atan (b2 / b1) - atan (c2 / c1))) with (atan (c2 / c1)) by ring.
    destruct (atan_polar b1 b2 B1) as (P1 & P2). destruct (atan_polar c1 c2 C1) as (P3 & P4).
    rewrite <- P1, <- P2, <- P3, <- P4. repeat split; try lra; apply sqrt_lt_R0; nra.
  - pose proof (sep_off (pt 0 0) (pt b1 b2) (pt (b1 + c1) (b2 + c2))) as O. unfold plc in O. cbn [px py pt] in O.
    eexists. split; [exact O|]. set (l := sqrt ((b1 + c1) * (b1 + c1) + (b2 + c2) * (b2 + c2))).
    assert (LL : b1 + c1 <= l). { unfold l. rewrite <- (sqrt_square (b1 + c1)) at 1 by lra. apply sqrt_le_1_alt. nra. }
    rewrite (sep_line _ _ _ l); cbn [px py pt]; [|apply far_away with 1; cbn; nra|apply far_away with 1; cbn; nra|lra|unfold l; rewrite sqrt_sqrt; [ring|nra]].
    apply Rmult_lt_reg_r with l; [lra|]. replace (Rabs ((b1 - 0) * (b2 + c2 - 0) - (b1 + c1 - 0) * (b2 - 0)) / l * l) with (Rabs (b1 * c2 - c1 * b2)).
    2:{ replace ((b1 - 0) * (b2 + c2 - 0) - (b1 + c1 - 0) * (b2 - 0)) with (b1 * c2 - c1 * b2) by ring. field. lra. }
    assert (U1 : 0 <= b1 * c2 <= b1 * (17 / 20)) by (split; [apply Rmult_le_pos; lra|apply Rmult_le_compat_l; lra]).
    assert (U2 : 0 <= c1 * b2 <= b1 * (17 / 20)) by (split; [apply Rmult_le_pos; lra|nra]).
    apply Rabs_def1; lra.
Qed.

Theorem C92_drift_refuted D : exists line, (2 <= length line)%nat /\
  preprocess line = [nth 0 line origin; nth (length line - 1) line origin] /\
  exists k d, off (at_ line 0) (at_ line k) (at_ line (length line - 1)) d /\ D < d.
Proof.
  set (n := S (Z.to_nat (up (4 * Rabs D)))).
  assert (ND : 4 * Rabs D < INR n).
  { unfold n. rewrite S_INR. destruct (archimed (4 * Rabs D)) as (A & _). pose proof (Rabs_pos D). assert (0 <= up (4 * Rabs D))%Z.
    { assert (0 < IZR (up (4 * Rabs D))) by lra. apply lt_IZR in H0. lia. }
    rewrite INR_IZR_INZ, Z2Nat.id by lia. lra. }
  assert (N1 : (1 <= n)%nat) by (unfold n; lia). clearbody n.
  set (line := map (bend n) (seq 0 (2 * n + 1))). assert (LL : length line = (2 * n + 1)%nat) by (unfold line; rewrite map_length, seq_length; reflexivity).
  assert (AT : forall k, (k <= 2 * n)%nat -> at_ line k = (500 * INR k, 85 / 100 * INR (k - n))).
  { intros k K. unfold at_, line. rewrite nth_indep with (d' := bend n 0) by (rewrite map_length, seq_length; lia).
    rewrite map_nth, seq_nth by lia. reflexivity. }
  exists line. split; [lia|]. split.
  - apply only_ends; [lia|]. intros p P. rewrite !AT by lia. replace (0 - n)%nat with 0%nat by lia. change (INR 0) with 0.
    rewrite !Rmult_0_r.
    assert (I1 : 1 <= INR p) by (apply (le_INR 1); lia).
    assert (Q : INR (p - n) <= INR p) by (apply le_INR; lia). pose proof (pos_INR (p - n)).
    replace (500 * INR (S p), 85 / 100 * INR (S p - n)) with (500 * INR p + 500, 85 / 100 * INR (p - n) + 85 / 100 * INR (S p - n - (p - n))).
    2:{ rewrite S_INR. f_equal; [ring|]. rewrite <- Rmult_plus_distr_l, <- plus_INR. do 2 f_equal. lia. }
    assert (J : 0 <= INR (S p - n - (p - n)) <= 1) by (split; [apply pos_INR|apply (le_INR _ 1); lia]).
    apply slope_slight; lra.
  - exists n. assert (E : at_ line n = (500 * INR n, 0)). { rewrite AT by lia. replace (n - n)%nat with 0%nat by lia. cbn [INR]. rewrite Rmult_0_r. reflexivity. }
    assert (E0 : at_ line 0 = (0, 0)). { rewrite AT by lia. replace (0 - n)%nat with 0%nat by lia. cbn [INR]. rewrite !Rmult_0_r. reflexivity. }
    assert (E2 : at_ line (length line - 1) = (1000 * INR n, 85 / 100 * INR n)).
    { rewrite LL, AT by lia. replace (2 * n + 1 - 1)%nat with (2 * n)%nat by lia. replace (2 * n - n)%nat with n by lia. rewrite mult_INR. cbn [INR]. f_equal. ring. }
    rewrite E, E0, E2. set (x := INR n) in *. assert (X : 1 <= x) by (apply (le_INR 1); lia). clearbody x.
    pose proof (sep_off (pt 0 0) (pt (500 * x) 0) (pt (1000 * x) (85 / 100 * x))) as O. unfold plc in O. cbn [px py pt] in O.
    eexists. split; [exact O|]. pose proof tiny_one as T1. pose proof tiny_pos as T0.
    set (l := sqrt ((1000 * x) * (1000 * x) + (85 / 100 * x) * (85 / 100 * x))).
    assert (L1 : 1000 * x <= l). { unfold l. rewrite <- (sqrt_square (1000 * x)) at 1 by lra. apply sqrt_le_1_alt. nra. }
    assert (L2 : l <= 1001 * x). { unfold l. rewrite <- (sqrt_square (1001 * x)) by lra. apply sqrt_le_1_alt. nra. }
    rewrite (sep_line _ _ _ l); cbn [px py pt]; [|apply far_away with 1; cbn; nra|apply far_away with 1; cbn; nra|lra|unfold l; rewrite sqrt_sqrt; [ring|nra]].
    replace ((500 * x - 0) * (85 / 100 * x - 0) - (1000 * x - 0) * (0 - 0)) with (425 * (x * x)) by field. rewrite Rabs_right by nra.
    apply Rmult_lt_reg_r with l; [lra|]. replace (425 * (x * x) / l * l) with (425 * (x * x)) by (field; lra).
    pose proof (Rle_abs D) as DA. apply Rle_lt_trans with (Rabs D * l); [apply Rmult_le_compat_r; lra|]. pose proof (Rabs_pos D). nra.
Qed.

(** The second pass counts the distance from a straight line that goes on beyond its ends.  It leaves out a detour straight back
    of any length [x] rather than a point 10 metres off. *)
Theorem C92_spur_refuted x : 100 <= x ->
  let line := [pt 0 0; pt (- x) 0; pt 1000 0; pt 2000 10] in
  plan_quickly line 3 = [pt 0 0; pt 1000 0; pt 2000 10] /\
  (forall t, 0 <= t <= 1 -> x <= away (- x, 0) (along (0, 0) (1000, 0) t) /\ x <= away (- x, 0) (along (1000, 0) (2000, 10) t)) /\
  exists d, off (- x, 0) (1000, 0) (2000, 10) d /\ d <= 10.
Proof.
  intros X line. pose proof tiny_one as T1. pose proof tiny_pos as T0.
  assert (O3 : exists d, off (at_ line 1) (at_ line 2) (at_ line 3) d /\ 0 < d <= 10).
  { set (l := sqrt ((2000 + x) * (2000 + x) + 10 * 10)).
    assert (L1 : 2000 + x <= l). { unfold l. rewrite <- (sqrt_square (2000 + x)) at 1 by lra. apply sqrt_le_1_alt. nra. }
    exists (snd (separation (pt (- x) 0) (pt 1000 0) (pt 2000 10))). split; [apply sep_off|].
    rewrite (sep_line _ _ _ l); cbn [px py pt]; [|apply far_away with 1; cbn; nra|apply far_away with 1; cbn; lra|lra|unfold l; rewrite sqrt_sqrt; [ring|nra]].
    replace ((1000 - - x) * (10 - 0) - (2000 - - x) * (0 - 0)) with (10 * (1000 + x)) by ring. rewrite Rabs_right by lra.
    split; [apply Rdiv_lt_0_compat; lra|]. apply Rmult_le_reg_r with l; [lra|]. replace (10 * (1000 + x) / l * l) with (10 * (1000 + x)) by (field; lra). nra. }
  split; [|split].
  - destruct (quick_pos line 3) as (ks & D & E); [cbn; lia|]. rewrite E. cbn [length seq line] in D.
    assert (C1 : loss (at_ line) 0 2 0).
    { assert (O1 : off (at_ line 0) (at_ line 1) (at_ line 2) 0).
      { apply off_line; [apply far_away with 1; cbn; nra|apply far_away with 1; cbn; nra|apply far_away with 1; cbn; lra|intros t; apply sqrt_pos|].
        exists (- x / 1000). unfold away. symmetry. rewrite <- sqrt_0. f_equal. cbn. field. }
      split; [exists 1%nat; split; [lia|exact O1]|]. intros j d J O. assert (j = 1%nat) by lia. subst j. right. apply (off_unique _ _ _ _ _ O O1). }
    inversion D as [k F|k N|k ks' k2 M (j & e & Cj & Min) D']; subst.
    + cbn in F. lia.
    + specialize (N [] 0%nat 1%nat 2%nat [3%nat] eq_refl). discriminate.
    + destruct Cj as [l1 i j k l2 e Q St Lo]. assert (Q0 := Q).
      destruct (Min [0%nat; 2%nat; 3%nat] 1%nat 0) as (M1 & _); [exact (costs_at _ _ [0; 1; 2; 3]%nat [] 0%nat 1%nat 2%nat [3%nat] 0 eq_refl eq_refl C1)|].
      destruct l1 as [|a1 l1]; [|destruct l1 as [|a2 l1]].
      * cbn in Q. injection Q as <- <- <- <-. cbn [app] in D'. inversion D' as [? F|? N|? ? ? M' _ _]; subst; cbn in *; [reflexivity|reflexivity|lia].
      * cbn in Q. injection Q as <- <- <- <- <-. exfalso. destruct O3 as (d & O3 & P & _). destruct Lo as (_ & U). specialize (U 2%nat d ltac:(lia) O3). lra.
      * exfalso. apply (f_equal (@length _)) in Q0. rewrite !app_length in Q0. cbn in Q0. lia.
  - intros t T. split; unfold away, along; cbn [fst snd]; rewrite <- (sqrt_square x) at 1 by lra; apply sqrt_le_1_alt; nra.
  - destruct O3 as (d & O3 & _ & L). exists d. split; [exact O3|exact L].
Qed.

Lemma two_points p q : thinned_line [p; q] = remove_zero [p; q].
Proof. unfold thinned_line. cbn [preprocess thin]. rewrite quick_few; auto. cbn [length]. pose proof (most_two [p; q]). lia. Qed.

(** A line that ends as far north as it is east of the point of reference, and starts as far east, loses its end: with a single
    waypoint it cannot be searched. *)
Theorem C92_diagonal_refuted n e : thinned_line [pt n e; pt e e] = [pt n e].
Proof.
  rewrite two_points. unfold remove_zero. f_equal. cbn [squeeze pt px py]. rewrite Rminus_eq_0, Rmult_0_l, Rplus_0_l, sqrt_0.
  destruct (Rlt_dec 0 _) as [|N]; auto. exfalso. apply N. apply Rinv_0_lt_compat, pow_lt. lra.
Qed.

(** Elsewhere two points at the same place are not made one. *)
Theorem C92_double_refuted p : / 10 ^ 9 <= Rabs (px p - py p) -> thinned_line [p; p] = [p; p].
Proof.
  intros C. rewrite two_points. unfold remove_zero. f_equal. apply clear_squeeze. intros q [<-|[]]. exact C.
Qed.

(** What is left behind the place [q] if each point is compared with the place as far north and as far east as the point kept last is east. *)
Inductive left_over : place -> list place -> list place -> Prop :=
| lo_end q : left_over q [] []
| lo_out q p ps ks : away (snd q, snd q) p < / 10 ^ 10 -> left_over q ps ks -> left_over q (p :: ps) ks
| lo_in q p ps ks : / 10 ^ 10 <= away (snd q, snd q) p -> left_over p ps ks -> left_over q (p :: ps) (p :: ks).

(** WANTED: of points at one place only the first is kept, and all others are kept.  FAILS: this is what is kept. *)
Theorem C92_places_refuted p ps : exists ks, remove_zero (p :: ps) = p :: ks /\ left_over (plc p) (map plc ps) (map plc ks).
Proof.
  exists (squeeze p ps). split; [reflexivity|]. revert p. induction ps as [|r t IH]; intros p; [constructor|]. cbn [squeeze map].
  assert (E : sqrt ((px r - py p) * (px r - py p) + (py r - py p) * (py r - py p)) = away (snd (plc p), snd (plc p)) (plc r)).
  { unfold away, plc. cbn [fst snd]. f_equal. ring. }
  rewrite E. destruct (Rlt_dec _ _) as [L|L]; [apply lo_out; auto|apply lo_in; [lra|apply IH]].
Qed.

Example C92_places_case : exists ks, remove_zero [pt 3 1; pt 1 1; pt 5 1; pt 1 1; pt 1 1] = pt 3 1 :: ks /\ map plc ks = [(5, 1)].
Proof.
  destruct (C92_places_refuted (pt 3 1) [pt 1 1; pt 5 1; pt 1 1; pt 1 1]) as (ks & E & L). exists ks. split; [exact E|].
  assert (A : away (1, 1) (1, 1) < / 10 ^ 10).
  { unfold away. cbn [fst snd]. replace ((1 - 1) ^ 2 + (1 - 1) ^ 2) with 0 by ring. rewrite sqrt_0. apply Rinv_0_lt_compat, pow_lt. lra. }
  assert (F : / 10 ^ 10 <= away (1, 1) (5, 1)).
  { unfold away. cbn [fst snd]. replace ((5 - 1) ^ 2 + (1 - 1) ^ 2) with (4 * 4) by ring. rewrite sqrt_square by lra.
    apply Rle_trans with 1; [|lra]. rewrite <- Rinv_1. apply Rinv_le_contravar; [lra|]. apply pow_R1_Rle. lra. }
  cbn [plc pt map] in L. unfold plc in L. cbn [px py pt snd fst] in L.
  inversion L as [|? ? ? ? _ L1|? ? ? ? F1 _]; subst; [|cbn [snd] in F1; lra].
  inversion L1 as [|? ? ? ? F1 _|? ? ? k1 _ L2 E1 E2]; subst; [cbn [snd] in F1; lra|].
  inversion L2 as [|? ? ? ? _ L3|? ? ? ? F1 _]; subst; [|cbn [snd] in F1; lra].
  inversion L3 as [|? ? ? ? _ L4|? ? ? ? F1 _]; subst; [|cbn [snd] in F1; lra].
  inversion L4; subst. symmetry; assumption.
Qed.

Print Assumptions C92_places_refuted.
Print Assumptions C92_drift_refuted.
Print Assumptions C92_spur_refuted.
Print Assumptions C92_diagonal_refuted.
Print Assumptions C92_double_refuted.

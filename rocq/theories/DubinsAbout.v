(** Turning about in place. *)
From Coq Require Import Reals List ZArith Lra Lia.
From Verif Require Import SteeringCourseModel SteeringCourseProps PiBounds DubinsModel DubinsSpec DubinsProofs DubinsTangent DubinsTurns DubinsChoice.
Import ListNotations.
Open Scope R_scope.

Lemma total_nonneg ws : forall last, 0 <= total last ws.
Proof.
  induction ws as [|w ws IH]; intros last; cbn [total]; [lra|]. specialize (IH (Some (spot w))).
  destruct (Rlt_dec 0 (long w)); [lra|]. destruct last as [q|]; [pose proof (apart_pos (spot w) q)|]; lra.
Qed.
Lemma arc_positive c r s sep p q arc ws last rest : 0 < sep -> arc_way c r s sep p q arc ws -> 0 < arc -> 0 < total last (ws ++ rest).
Proof.
  intros Sp W A. rewrite (arc_total _ _ _ _ _ _ _ _ _ _ Sp W) by auto. rewrite Rmax_right by lra. pose proof (total_nonneg rest (Some q)). lra.
Qed.

Definition positive (best : option (R * list waypoint)) : Prop := match best with Some (t, _) => 0 < t | None => True end.
Lemma keep_positive best ws : positive best -> (forall l, ws = Some l -> 0 < total None l) -> positive (keep best ws).
Proof.
  intros B W. destruct ws as [w|]; [|exact B]. specialize (W w eq_refl). destruct best as [(t, l)|]; cbn; [destruct (Rlt_dec (total None w) t)|]; assumption.
Qed.

Lemma ttt_positive p q c r s sep : 1 <= r -> 0 < sep -> exists ws,
  turn_turn_turn p q {| mid := c; rad := r; way := s |} {| mid := c; rad := r; way := s |} sep = ({| mid := c; rad := r; way := s |}, Some ws) /\ 0 < total None ws.
Proof.
  intros Rp Sp. unfold turn_turn_turn. cbn [mid rad way].
  assert (Z : apart c c = 0) by (rewrite apart_dist; apply dist_self).
  rewrite Z. rewrite Rabs_R0. destruct (Rle_dec 0 (1 / 100)); [|lra]. cbn [mid rad way].
  destruct (Rle_dec (0 / (4 * r)) 1) as [|X]; [|exfalso; apply X; unfold Rdiv; rewrite Rmult_0_l; lra].
  eexists. split; [reflexivity|].
  match goal with |- 0 < total None (turn_points _ ?q1 ?arc _ _ ++ ?rest) =>
    rewrite (arc_total c r s sep p q1 arc _ None rest Sp) by (try apply turn_points_way; auto; lra) end.
  match goal with |- 0 < ?x + ?y => assert (0 <= x) by apply Rmax_l; enough (0 < y) by lra end.
  eapply arc_positive; [exact Sp|apply turn_points_way; lra|].
  apply Rmult_lt_0_compat; [|lra]. pose proof PI_low. pose proof (acos_bound (0 / (4 * r))). lra.
Qed.

Lemma atan2_0 x : 0 < x -> atan2 0 x = 0.
Proof. intros X. unfold atan2. destruct (Rlt_dec 0 x); [|lra]. unfold Rdiv. rewrite Rmult_0_l. apply atan_0. Qed.
Lemma atan2_PI x : x < 0 -> atan2 0 x = PI.
Proof. intros X. unfold atan2. destruct (Rlt_dec 0 x); [lra|]. destruct (Rlt_dec x 0); [|lra]. destruct (Rle_dec 0 0); [|lra]. unfold Rdiv. rewrite Rmult_0_l, atan_0. ring. Qed.
Lemma norm_0 : norm_angle 0 = 0. Proof. pose proof PI_low. apply norm_id. lra. Qed.
Lemma norm_PI : norm_angle PI = PI. Proof. pose proof PI_low. apply norm_id. lra. Qed.
Lemma iround_0 : iround 0 = 0. Proof. apply (iround_id 0). lia. Qed.

(** The circles of two opposite turns are the same: the vehicle is put on the other one. *)
Lemma tst_same_place r sep s1 s2 c : 1 <= r -> 0 < sep -> c = (0, match s2 with Cw => - r | Ccw => r end) -> exists ws,
  turn_straight_turn (0, 0) (0, 0) {| mid := c; rad := r; way := s1 |} {| mid := c; rad := r; way := s2 |} sep = ({| mid := c; rad := r; way := s2 |}, Some ws) /\
  0 < total None ws.
Proof.
  intros Rp Sp Cc. pose proof PI_low as PL. pose proof PI_high as PH. unfold turn_straight_turn. cbn [mid rad way].
  assert (Z : apart c c = 0) by (rewrite apart_dist; apply dist_self).
  rewrite Z, iround_0, Rabs_R0. destruct (Rle_dec 0 (1 / 100)); [|lra]. cbn [mid rad way].
  replace (same_sense s2 s2) with true by (destruct s2; reflexivity). cbn [negb].
  assert (X : forall x : R, (if Rlt_dec 0 x then false else false) = false) by (intros x; destruct (Rlt_dec 0 x); reflexivity). rewrite X.
  assert (T : to_frame c (- 0) (0, 0) = (0, match s2 with Cw => r | Ccw => - r end)).
  { rewrite Cc. unfold to_frame. cbn [fst snd]. rewrite Ropp_0, cos_0, sin_0. destruct s2; f_equal; ring. }
  rewrite T, to_frame_self. cbn [fst snd]. rewrite !Rminus_0_r.
  destruct s2; cbn [tangent way rad same_sense].
  - rewrite (atan2_0 r) by lra. rewrite norm_0. eexists. split; [reflexivity|].
    assert (E : snap (1 / 2 * PI) 0 = 1 / 2 * PI).
    { unfold snap. rewrite Rminus_0_r, (Rabs_pos_eq (1 / 2 * PI)) by lra. destruct (Rlt_dec _ _); [lra|]. rewrite Rabs_left by lra. destruct (Rlt_dec _ _); [lra|reflexivity]. }
    rewrite E. cbn [swing]. destruct (Rle_dec (1 / 2 * PI) 0); [lra|].
    assert (L : 1 <= (0 + (2 * PI - 1 / 2 * PI)) * r). { assert (0 <= (0 + (2 * PI - 1 / 2 * PI) - 1) * r) by (apply Rmult_le_pos; lra). lra. }
    destruct (Rle_dec 1 ((0 + (2 * PI - 1 / 2 * PI)) * r)); [|contradiction].
    eapply arc_positive; [exact Sp|apply turn_points_way; lra|lra].
  - rewrite (atan2_PI (- r)) by lra. rewrite norm_PI. eexists. split; [reflexivity|].
    assert (E : snap (3 / 2 * PI) PI = 3 / 2 * PI).
    { unfold snap. rewrite (Rabs_pos_eq (3 / 2 * PI - PI)) by lra. destruct (Rlt_dec _ _); [lra|]. rewrite Rabs_left by lra. destruct (Rlt_dec _ _); [lra|reflexivity]. }
    rewrite E. cbn [swing]. destruct (Rle_dec PI (3 / 2 * PI)); [|lra].
    assert (L : 1 <= (3 / 2 * PI - PI) * r). { assert (0 <= (3 / 2 * PI - PI - 1) * r) by (apply Rmult_le_pos; lra). lra. }
    destruct (Rle_dec 1 ((3 / 2 * PI - PI) * r)); [|contradiction].
    eapply arc_positive; [exact Sp|apply turn_points_way; lra|lra].
Qed.

Lemma hub_north r s : hub (0, 0, 0) r s = (0, match s with Cw => r | Ccw => - r end).
Proof. destruct s; cbn; rewrite sin_0, cos_0; f_equal; ring. Qed.
Lemma hub_south r s : hub (0, 0, PI) r s = (0, match s with Cw => - r | Ccw => r end).
Proof. destruct s; cbn; rewrite sin_PI, cos_PI; f_equal; ring. Qed.

Lemma about_first r sep : 1 <= r -> 0 < sep -> exists t ws,
  attempt (0, 0) (0, 0) sep (ring_of (0, 0, 0) r Cw, None) (ring_of (0, 0, PI) r Cw) = (ring_of (0, 0, 0) r Cw, Some (t, ws)) /\ 0 < t.
Proof.
  intros Rp Sp. pose proof PI_low as PL. unfold attempt, ring_of.
  assert (D : dist (hub (0, 0, 0) r Cw) (hub (0, 0, PI) r Cw) = 2 * r).
  { rewrite hub_north, hub_south. unfold dist. cbn [fst snd]. apply sqrt_sqr; [lra|ring]. }
  destruct (tst_full r sep (0, 0) 0 (0, 0) PI Cw Cw Rp Sp) as (res & E & F); [rewrite D; lra|]. rewrite E.
  destruct res as [ws|]; [|destruct F as (F & _); contradiction F; reflexivity].
  assert (P1 : 0 < total None ws).
  { destruct F as (m & th & _ & (a1 & b1 & l & l' & a2 & b2 & w1 & q & w3 & (_ & _ & _ & _ & _ & K2 & _ & _ & _ & _ & _ & _ & _ & _ & L) & _ & M & _)).
    rewrite L, (K2 eq_refl). destruct (M eq_refl) as (_ & ->). rewrite D.
    assert (1 <= iround (2 * r)) by (apply iround_one; lra).
    assert (N : forall x, 0 <= at_least_one x) by (intros x; unfold at_least_one; destruct (Rle_dec 1 x); lra).
    pose proof (N (r * b1)). pose proof (N (r * b2)). lra. }
  cbn [keep]. destruct (three_turns _ _ _ _); [|eauto].
  destruct (ttt_full r sep (0, 0) 0 (0, 0) PI Cw Rp Sp) as (res2 & E2 & F2); [rewrite D; lra|]. rewrite E2.
  destruct res2 as [ws2|]; [|cbn [keep]; eauto].
  assert (P2 : 0 < total None ws2).
  { destruct F2 as (a & b & c & w1 & w2 & w3 & A & B & C & _ & _ & _ & _ & _ & _ & L). rewrite L. apply Rmult_lt_0_compat; [lra|]. pose proof (Rmax_l 0 a). lra. }
  cbn [keep]. destruct (Rlt_dec _ _); eauto.
Qed.

Lemma about_opposite r sep s t ws : 1 <= r -> 0 < sep -> 0 < t -> exists t' ws',
  attempt (0, 0) (0, 0) sep (ring_of (0, 0, 0) r (other s), Some (t, ws)) (ring_of (0, 0, PI) r s) = (ring_of (0, 0, PI) r s, Some (t', ws')) /\ 0 < t'.
Proof.
  intros Rp Sp T. unfold attempt, ring_of.
  replace (hub (0, 0, 0) r (other s)) with (hub (0, 0, PI) r s) by (rewrite hub_north, hub_south; destruct s; reflexivity).
  destruct (tst_same_place r sep (other s) s (hub (0, 0, PI) r s) Rp Sp (hub_south r s)) as (w & -> & W).
  assert (K : exists t1 w1, keep (Some (t, ws)) (Some w) = Some (t1, w1) /\ 0 < t1).
  { cbn [keep]. destruct (Rlt_dec _ _); eauto. }
  destruct K as (t1 & w1 & K & T1). rewrite K.
  destruct (three_turns _ _ _ _); [|eauto].
  destruct (ttt_positive (0, 0) (0, 0) (hub (0, 0, PI) r s) r s sep Rp Sp) as (w2 & -> & W2).
  cbn [keep]. destruct (Rlt_dec _ _); eauto.
Qed.

Lemma about_last r sep k : 1 <= r -> 2 * r = IZR k ->
  turn_straight_turn (0, 0) (0, 0) (ring_of (0, 0, PI) r Cw) (ring_of (0, 0, PI) r Ccw) sep =
    (ring_of (0, 0, PI) r Cw, Some [{| spot := (0, 0); long := 0; turn := None |}]).
Proof.
  intros Rp W. pose proof PI_low as PL. unfold turn_straight_turn, ring_of. cbn [mid rad way]. rewrite !hub_south.
  assert (D : apart (0, r) (0, - r) = 2 * r). { unfold apart. cbn [fst snd]. apply sqrt_sqr; [lra|ring]. }
  assert (ID : iround (2 * r) = 2 * r). { rewrite W. apply iround_id. apply le_IZR. rewrite <- W. lra. }
  rewrite D, ID. destruct (Rle_dec (Rabs (2 * r)) (1 / 100)) as [X|_]; [rewrite Rabs_pos_eq in X by lra; lra|]. cbn [mid rad way].
  replace (r + r) with (2 * r) by ring. rewrite ID. destruct (Rlt_dec (2 * r) (2 * r)); [lra|].
  assert (TH : angle_at (0, - r) (0, r) = 0).
  { unfold angle_at. cbn [fst snd]. rewrite Rminus_0_r. rewrite atan2_0 by lra. apply norm_0. }
  rewrite TH. unfold to_frame. cbn [fst snd]. rewrite Ropp_0, cos_0, sin_0.
  replace ((0 - 0) * 1 + (0 - - r) * 0) with 0 by ring. replace ((0 - - r) * 1 - (0 - 0) * 0) with r by ring.
  replace ((0 - 0) * 1 + (r - - r) * 0) with 0 by ring. replace ((r - - r) * 1 - (0 - 0) * 0) with (2 * r) by ring.
  replace (0 - 0) with 0 by ring. replace (r - 2 * r) with (- r) by ring.
  rewrite (atan2_0 r) by lra. rewrite (atan2_PI (- r)) by lra. rewrite norm_0, norm_PI.
  unfold tangent. cbn [same_sense way rad]. replace (2 * r / (2 * r)) with 1 by (field; lra). destruct (Rlt_dec 1 1); [lra|].
  rewrite Rplus_0_l, norm_PI.
  assert (E : forall x, snap x x = x). { intros x. unfold snap. rewrite Rminus_diag_eq, Rabs_R0 by reflexivity. destruct (Rlt_dec _ _); [reflexivity|lra]. }
  assert (Z : forall s x, swing s x x = 0). { intros s x. destruct s; cbn; destruct (Rle_dec _ _); lra. }
  rewrite !E, !Z, Rmult_0_l. destruct (Rle_dec 1 0); [lra|]. cbn [app]. rewrite sin_0, cos_0.
  assert (A : apart (- (r * 0), 2 * r - r * 1) (r * 0, r * 1) = 0). { unfold apart. cbn [fst snd]. apply sqrt_sqr; [lra|ring]. }
  rewrite A. unfold from_frame. cbn [fst snd]. rewrite cos_0, sin_0. do 4 f_equal. f_equal; ring.
Qed.

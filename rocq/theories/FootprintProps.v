(** Theorems about the shape of a footprint. *)
From Coq Require Import Reals Lra.
From Verif Require Import FootprintModel.
Open Scope R_scope.

(** A ray from altitude [alt] that points [t] below the horizon meets the ground at distance [d] in front of the vehicle,
    [s] from the camera. *)
Definition meets (alt t d s : R) : Prop := 0 < s /\ s * sin t = alt /\ s * cos t = d.

(** A ray is in the field of view of a camera that points [a] below the horizon and sees an angle [v] from top to bottom. *)
Definition seen (a v t : R) : Prop := a - v / 2 <= t <= a + v / 2.

(** A ray that is not level. *)
Definition steep (t : R) : Prop := 0 < t < PI /\ / 10 ^ 9 < sin t.

Lemma steep_level : forall t, steep t -> ~ level (sin t) (cos t) /\ ~ level (sin t) 1.
Proof.
  intros t (_ & S). unfold level. assert (P : 0 < / 10 ^ 9) by (apply Rinv_0_lt_compat; lra).
  assert (C : Rabs (cos t) <= 1) by (apply Rabs_le; apply COS_bound).
  rewrite (Rabs_right (sin t)) by lra. rewrite Rabs_R1.
  assert (/ 10 ^ 9 * Rabs (cos t) <= / 10 ^ 9 * 1) by (apply Rmult_le_compat_l; lra). split; lra.
Qed.
Lemma across_steep : forall alt t, steep t -> across alt t = alt * cos t / sin t.
Proof. intros alt t S. unfold across. destruct (level_dec (sin t) (cos t)) as [L|L]; [destruct (proj1 (steep_level t S) L)|reflexivity]. Qed.
Lemma slant_steep : forall alt t, steep t -> slant alt t = alt / sin t.
Proof. intros alt t S. unfold slant. destruct (level_dec (sin t) 1) as [L|L]; [destruct (proj2 (steep_level t S) L)|reflexivity]. Qed.
Lemma steep_pos : forall t, steep t -> 0 < sin t.
Proof. intros t (A & _). apply sin_gt_0; lra. Qed.

Lemma cot_decreasing : forall t u, 0 < t -> t < u -> u < PI -> cos u / sin u < cos t / sin t.
Proof.
  intros t u A B C. assert (S : 0 < sin t) by (apply sin_gt_0; lra). assert (S' : 0 < sin u) by (apply sin_gt_0; lra).
  assert (D : 0 < sin (u - t)) by (apply sin_gt_0; lra). rewrite sin_minus in D.
  apply Rmult_lt_reg_r with (sin t * sin u); [apply Rmult_lt_0_compat; assumption|].
  replace (cos u / sin u * (sin t * sin u)) with (cos u * sin t) by (field; lra).
  replace (cos t / sin t * (sin t * sin u)) with (cos t * sin u) by (field; lra). lra.
Qed.
Lemma cot_decreasing_le : forall t u, 0 < t -> t <= u -> u < PI -> cos u / sin u <= cos t / sin t.
Proof. intros t u A [B|B] C; [left; apply cot_decreasing; assumption|subst; right; reflexivity]. Qed.

Lemma clip_id : forall x, - PI <= x <= 0 -> clip x = x.
Proof. intros x H. unfold clip. destruct (Rlt_dec 0 x); [lra|]. destruct (Rlt_dec x (- PI)); lra. Qed.

Lemma meets_cot : forall alt t d s, 0 < alt -> 0 < t < PI -> meets alt t d s -> d = alt * (cos t / sin t).
Proof.
  intros alt t d s A T (P & E & F). assert (S : 0 < sin t) by (apply sin_gt_0; lra). rewrite <- E, <- F. field. lra.
Qed.

(** The center of the footprint is where the camera points to, and the width there is what it sees from left to right. *)
Theorem C72_center : forall fov aspect elev alt, 0 < alt -> steep (- elev) ->
  let f := footprint fov aspect elev alt in
  meets alt (- elev) (center f) (distance f)
  /\ distance f * distance f = alt * alt + center f * center f
  /\ (cos (fov / 2) <> 0 -> width f / 2 * cos (fov / 2) = distance f * sin (fov / 2)).
Proof.
  intros fov aspect elev alt A S f. pose proof (steep_pos _ S) as P. unfold f, footprint. cbn [center distance width].
  rewrite across_steep, slant_steep by exact S. assert (M : meets alt (- elev) (alt * cos (- elev) / sin (- elev)) (alt / sin (- elev))).
  { split; [apply Rdiv_lt_0_compat; assumption|]. split; field; lra. }
  split; [exact M|]. split.
  - destruct M as (_ & E & F). pose proof (sin2_cos2 (- elev)) as Q. unfold Rsqr in Q.
    set (s := alt / sin (- elev)) in *. rewrite <- F. rewrite <- E at 1 2.
    replace (s * sin (- elev) * (s * sin (- elev)) + s * cos (- elev) * (s * cos (- elev)))
      with (s * s * (sin (- elev) * sin (- elev) + cos (- elev) * cos (- elev))) by ring. rewrite Q. ring.
  - intros C. unfold tan. replace (1 / 2 * fov) with (fov / 2) by field. field. split; [lra|exact C].
Qed.

(** If all of what is seen is on the ground, the ground between the two edges is exactly what is seen. *)
Theorem C72_edges : forall fov aspect elev alt, 0 < alt ->
  let f := footprint fov aspect elev alt in
  let v := fov / aspect in
  0 < v -> steep (- elev - v / 2) -> steep (- elev + v / 2) ->
  trailing f < center f < leading f
  /\ forall d, trailing f <= d <= leading f <-> exists t s, seen (- elev) v t /\ meets alt t d s.
Proof.
  intros fov aspect elev alt A f v V S1 S2. pose proof (steep_pos _ S1) as P1. pose proof (steep_pos _ S2) as P2.
  destruct S1 as (T1 & Q1), S2 as (T2 & Q2).
  assert (EL : leading f = alt * (cos (- elev - v / 2) / sin (- elev - v / 2))).
  { unfold f, footprint. cbn [leading]. fold v. rewrite clip_id by lra. replace (- (elev + v / 2)) with (- elev - v / 2) by ring.
    rewrite across_steep by (split; assumption). field. lra. }
  assert (ET : trailing f = alt * (cos (- elev + v / 2) / sin (- elev + v / 2))).
  { unfold f, footprint. cbn [trailing]. fold v. rewrite clip_id by lra. replace (- (elev - v / 2)) with (- elev + v / 2) by ring.
    rewrite across_steep by (split; assumption). field. lra. }
  assert (S0 : / 10 ^ 9 < sin (- elev)).
  { (* the sine between two angles is not below both *)
    destruct (Rle_dec (- elev) (PI / 2)) as [D|D].
    - apply Rlt_le_trans with (1 := Q1). apply sin_incr_1; lra.
    - apply Rlt_le_trans with (1 := Q2). apply sin_decr_1; lra. }
  assert (EC : center f = alt * (cos (- elev) / sin (- elev))).
  { unfold f, footprint. cbn [center]. rewrite across_steep by (split; [lra|exact S0]). field. assert (0 < sin (- elev)) by (apply sin_gt_0; lra). lra. }
  split.
  - rewrite EL, ET, EC. split; apply Rmult_lt_compat_l; try assumption; apply cot_decreasing; lra.
  - intros d. split.
    + intros (D1 & D2). set (t := PI / 2 - atan (d / alt)).
      pose proof (atan_bound (d / alt)) as AB.
      assert (ST : sin t = cos (atan (d / alt))) by (unfold t; apply sin_shift).
      assert (CT : cos t = sin (atan (d / alt))) by (unfold t; apply cos_shift).
      assert (PT : 0 < sin t) by (rewrite ST; apply cos_gt_0; lra).
      assert (T0 : 0 < t < PI) by (unfold t; lra).
      assert (DC : cos t / sin t = d / alt).
      { rewrite ST, CT. change (sin (atan (d / alt)) / cos (atan (d / alt))) with (tan (atan (d / alt))). apply tan_atan. }
      assert (DE : d = alt * (cos t / sin t)) by (rewrite DC; field; lra).
      exists t, (alt / sin t). split.
      * split.
        -- apply Rnot_lt_le. intros L. assert (L' : cos (- elev - v / 2) / sin (- elev - v / 2) < cos t / sin t) by (apply cot_decreasing; lra).
           apply (Rmult_lt_compat_l alt) in L'; [lra|exact A].
        -- apply Rnot_lt_le. intros L. assert (L' : cos t / sin t < cos (- elev + v / 2) / sin (- elev + v / 2)) by (apply cot_decreasing; lra).
           apply (Rmult_lt_compat_l alt) in L'; [lra|exact A].
      * split; [apply Rdiv_lt_0_compat; assumption|]. split; [field; lra|]. rewrite DE at 1. field. lra.
    + intros (t & s & (L1 & L2) & M). assert (T : 0 < t < PI) by lra. rewrite (meets_cot alt t d s A T M), EL, ET.
      split; apply Rmult_le_compat_l; try lra; apply cot_decreasing_le; lra.
Qed.

(** If the field of view reaches above the horizon in front, the leading edge is reported to be under the vehicle, although
    ground at any distance is seen. *)
Theorem C72_horizon_refuted : forall fov aspect elev alt, 0 < alt ->
  let f := footprint fov aspect elev alt in
  let v := fov / aspect in
  0 < v -> - (v / 2) <= elev -> steep (- elev) -> - elev < PI / 2 ->
  leading f = 0 /\ leading f < center f /\ forall far, center f < far -> exists t s, seen (- elev) v t /\ meets alt t far s.
Proof.
  intros fov aspect elev alt A f v V H S Q. pose proof (steep_pos _ S) as P. destruct S as (T & S).
  assert (EL : leading f = 0).
  { unfold f, footprint. cbn [leading]. fold v.
    assert (C : clip (elev + v / 2) = 0) by (unfold clip; destruct (Rlt_dec 0 (elev + v / 2)); [reflexivity|]; destruct (Rlt_dec (elev + v / 2) (- PI)); lra).
    rewrite C. unfold across. rewrite Ropp_0. destruct (level_dec (sin 0) (cos 0)) as [L|L]; [reflexivity|]. exfalso. apply L.
    unfold level. rewrite sin_0, Rabs_R0. apply Rmult_le_pos; [left; apply Rinv_0_lt_compat; lra|apply Rabs_pos]. }
  assert (EC : center f = alt * (cos (- elev) / sin (- elev))).
  { unfold f, footprint. cbn [center]. rewrite across_steep by (split; assumption). field. lra. }
  assert (PC : 0 < center f).
  { rewrite EC. apply Rmult_lt_0_compat; [exact A|]. apply Rdiv_lt_0_compat; [apply cos_gt_0; lra|exact P]. }
  split; [exact EL|]. split; [rewrite EL; exact PC|]. intros far F. set (t := PI / 2 - atan (far / alt)).
  pose proof (atan_bound (far / alt)) as AB.
  assert (ST : sin t = cos (atan (far / alt))) by (unfold t; apply sin_shift).
  assert (CT : cos t = sin (atan (far / alt))) by (unfold t; apply cos_shift).
  assert (PT : 0 < sin t) by (rewrite ST; apply cos_gt_0; lra).
  assert (T0 : 0 < t < PI) by (unfold t; lra).
  assert (DC : cos t / sin t = far / alt).
  { rewrite ST, CT. change (sin (atan (far / alt)) / cos (atan (far / alt))) with (tan (atan (far / alt))). apply tan_atan. }
  assert (DE : far = alt * (cos t / sin t)) by (rewrite DC; field; lra).
  exists t, (alt / sin t). split.
  - split; [lra|]. apply Rle_trans with (- elev); [|lra]. apply Rnot_lt_le. intros L.
    assert (L' : cos t / sin t < cos (- elev) / sin (- elev)) by (apply cot_decreasing; lra).
    apply (Rmult_lt_compat_l alt) in L'; [lra|exact A].
  - split; [apply Rdiv_lt_0_compat; assumption|]. split; [field; lra|]. rewrite DE at 1. field. lra.
Qed.
Print Assumptions C72_center.
Print Assumptions C72_edges.
Print Assumptions C72_horizon_refuted.

(** A camera that points straight down from 100 m and sees 60 degrees each way sees from 57.7 m behind to 57.7 m in front. *)
Lemma steep_of : forall t, 0 < t < PI -> 1 / 2 <= sin t -> steep t.
Proof. intros t H S. split; [exact H|]. lra. Qed.
Example edges_example : let f := footprint (PI / 3) 1 (- (PI / 2)) 100 in
  0 < PI / 3 / 1 /\ steep (- - (PI / 2) - PI / 3 / 1 / 2) /\ steep (- - (PI / 2) + PI / 3 / 1 / 2)
  /\ leading f = 100 / sqrt 3 /\ center f = 0.
Proof.
  pose proof PI_RGT_0 as P. cbv zeta. rewrite Ropp_involutive.
  assert (E1 : PI / 2 - PI / 3 / 1 / 2 = PI / 3) by field. assert (E2 : PI / 2 + PI / 3 / 1 / 2 = PI - PI / 3) by field.
  rewrite E1, E2. assert (S3 : 1 / 2 <= sin (PI / 3)).
  { rewrite sin_PI3. assert (1 <= sqrt 3) by (rewrite <- sqrt_1 at 1; apply sqrt_le_1_alt; lra). lra. }
  split; [lra|]. split; [apply steep_of; [lra|exact S3]|]. split; [apply steep_of; [lra|rewrite sin_PI_x; exact S3]|]. split.
  - unfold footprint. cbn [leading]. rewrite clip_id by lra. replace (- (- (PI / 2) + PI / 3 / 1 / 2)) with (PI / 3) by field.
    rewrite across_steep by (apply steep_of; [lra|exact S3]). rewrite sin_PI3, cos_PI3.
    assert (0 < sqrt 3) by (apply sqrt_lt_R0; lra). field. lra.
  - unfold footprint. cbn [center]. rewrite Ropp_involutive, across_steep by (apply steep_of; [lra|rewrite sin_PI2; lra]).
    rewrite sin_PI2, cos_PI2. field.
Qed.
(** The same camera tilted to 30 degrees below the horizon. *)
Example horizon_example : 0 < PI / 3 / 1 /\ - (PI / 3 / 1 / 2) <= - (PI / 6) /\ steep (- - (PI / 6)) /\ - - (PI / 6) < PI / 2.
Proof.
  pose proof PI_RGT_0 as P. rewrite Ropp_involutive. split; [lra|]. split; [right; field|]. split; [|lra].
  apply steep_of; [lra|rewrite sin_PI6; lra].
Qed.

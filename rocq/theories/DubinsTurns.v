(** The way of three turns. *)
From Coq Require Import Reals List ZArith Lra Lia.
From Verif Require Import SteeringCourseModel SteeringCourseProps PiBounds DubinsModel DubinsSpec DubinsProofs DubinsTangent.
Import ListNotations.
Open Scope R_scope.

Lemma rides_other s c r x P : rides s c r x P -> rides (other s) (around c (2 * r) x) r (x + PI) P.
Proof.
  intros (E & C & S). split; [|].
  - rewrite E. unfold around. cbn [fst snd]. rewrite neg_sin, neg_cos. f_equal; ring.
  - rewrite C, S, neg_cos, neg_sin. destruct s; cbn; split; ring.
Qed.
Lemma rides_same s c r x y P : rides s c r x P -> (exists k : Z, y = x + 2 * IZR k * PI) -> rides s c r y P.
Proof.
  intros (E & C & S) (k & ->). destruct (turn_Z x k) as (Q1 & Q2). unfold rides, around in *. rewrite Q1, Q2. auto.
Qed.
Lemma turn_nothing r P s : fst (fly1 r P (Turn s 0)) = fst P.
Proof. destruct P as ((n, e), h), s; cbn; rewrite ?Rplus_0_r, ?Rminus_0_r, !Rminus_diag_eq by reflexivity; f_equal; ring. Qed.

Lemma ttt_full r sep start h finish h' s : 1 <= r -> 0 < sep ->
  1 / 2 <= dist (hub (start, h) r s) (hub (finish, h') r s) ->
  exists res,
    turn_turn_turn start finish {| mid := hub (start, h) r s; rad := r; way := s |} {| mid := hub (finish, h') r s; rad := r; way := s |} sep =
      ({| mid := hub (start, h) r s; rad := r; way := s |}, res) /\
    match res with
    | None => 4 * r < dist (hub (start, h) r s) (hub (finish, h') r s)
    | Some ws => follows_turns r sep (start, h) finish h' s (total None ws) ws
    end.
Proof.
  intros Rp Sp Dp. pose proof PI_low as PL.
  set (c1 := hub (start, h) r s) in *. set (c2 := hub (finish, h') r s) in *. set (D := dist c1 c2) in *.
  set (C1 := {| mid := c1; rad := r; way := s |}). set (C2 := {| mid := c2; rad := r; way := s |}).
  unfold turn_turn_turn. cbn [mid rad way C1 C2].
  assert (DE : apart c1 c2 = D). { unfold apart, D, dist. reflexivity. }
  rewrite DE.
  destruct (Rle_dec (Rabs D) (1 / 100)) as [X|_]; [rewrite Rabs_pos_eq in X by lra; lra|]. cbn [mid rad way].
  change (mid C1) with c1. change (rad C1) with r. change (way C1) with s.
  destruct (Rle_dec (D / (4 * r)) 1) as [L|L].
  2:{ exists None. split; [reflexivity|]. destruct (Rlt_dec (4 * r) D); [assumption|]. exfalso. apply L.
      apply Rmult_le_reg_r with (4 * r); [lra|]. unfold Rdiv. rewrite Rmult_assoc, Rinv_l; lra. }
  set (th := angle_at c1 c2).
  assert (CC : c2 = around c1 D th). { unfold D. rewrite <- apart_dist. apply angle_spec. }
  assert (Q : 0 < D / (4 * r)) by (apply Rdiv_lt_0_compat; lra).
  assert (GB : 0 <= acos (D / (4 * r)) <= PI / 2).
  { split; [apply acos_bound|]. rewrite <- acos_0. destruct (Rle_dec (acos (D / (4 * r))) (acos 0)) as [|NN]; [assumption|].
    assert (cos (acos (D / (4 * r))) < cos (acos 0)) by (apply cos_decreasing_1; try apply acos_bound; lra).
    rewrite !cos_acos in * by lra. lra. }
  assert (CG : cos (acos (D / (4 * r))) = D / (4 * r)) by (apply cos_acos; lra).
  set (g := acos (D / (4 * r))) in *. assert (CG' : D = 4 * r * cos g) by (rewrite CG; field; lra). clearbody g. clear CG.
  destruct (on_own_circle start h r s) as (x0 & X0). fold c1 in X0.
  destruct (on_own_circle finish h' r s) as (y0 & Y0). fold c2 in Y0.
  assert (B0 : to_frame c1 (- th) start = (r * sin (x0 - th), r * cos (x0 - th))).
  { rewrite X0, to_frame_around, to_frame_self. cbn [fst snd]. f_equal; ring. }
  assert (M0 : to_frame c1 (- th) c2 = (0, D)) by (rewrite CC; apply to_frame_ray).
  assert (E0 : to_frame c1 (- th) finish = (r * sin (y0 - th), D + r * cos (y0 - th))).
  { rewrite Y0, to_frame_around, M0. cbn [fst snd]. f_equal; ring. }
  rewrite B0, M0, E0. cbn [fst snd].
  replace (r * sin (y0 - th) - 0) with (r * sin (y0 - th)) by ring.
  replace (D + r * cos (y0 - th) - D) with (r * cos (y0 - th)) by ring.
  destruct (polar_on (r * sin (x0 - th)) (r * cos (x0 - th)) r (x0 - th)) as (SA & CA); [lra|reflexivity|reflexivity|].
  destruct (polar_on (r * sin (y0 - th)) (r * cos (y0 - th)) r (y0 - th)) as (SB & CB); [lra|reflexivity|reflexivity|].
  pose proof (norm_range (atan2 (r * sin (x0 - th)) (r * cos (x0 - th)))) as RA.
  pose proof (norm_range (atan2 (r * sin (y0 - th)) (r * cos (y0 - th)))) as RB.
  set (al := norm_angle (atan2 (r * sin (x0 - th)) (r * cos (x0 - th)))) in *.
  set (be := norm_angle (atan2 (r * sin (y0 - th)) (r * cos (y0 - th)))) in *. clearbody al be. clear B0 M0 E0.
  destruct (shift_cs al x0 th CA SA) as (CA' & SA'). destruct (shift_cs be y0 th CB SB) as (CB' & SB').
  change (match s with Cw => -1 | Ccw => 1 end) with (sign s).
  set (lenA := match s with Cw => if Rle_dec al (2 * PI - g) then (g + al) * r else (g + al - 2 * PI) * r
                          | Ccw => if Rle_dec al g then (g - al) * r else (2 * PI + g - al) * r end).
  set (lenC := match s with Cw => if Rle_dec be (PI + g) then (PI + g - be) * r else (3 * PI + g - be) * r
                          | Ccw => if Rle_dec be (PI - g) then (PI + be + g) * r else (be + g - PI) * r end).
  assert (A : exists a, lenA = r * a /\ - (1 / 1000000000) <= a <= 2 * PI /\ exists k : Z, sign s * g = al + sign s * a + 2 * IZR k * PI).
  { unfold lenA. destruct s; cbn [sign]; destruct (Rle_dec _ _).
    - exists (g + al). split; [ring|]. split; [lra|]. exists 0%Z. ring.
    - exists (g + al - 2 * PI). split; [ring|]. split; [lra|]. exists (-1)%Z. ring.
    - exists (g - al). split; [ring|]. split; [lra|]. exists 0%Z. ring.
    - exists (2 * PI + g - al). split; [ring|]. split; [lra|]. exists (-1)%Z. ring. }
  clearbody lenA.
  assert (Cx : exists c, lenC = r * c /\ 0 <= c <= 2 * PI /\ exists k : Z, be = PI - sign s * g + sign s * c + 2 * IZR k * PI).
  { unfold lenC. destruct s; cbn [sign]; destruct (Rle_dec _ _).
    - exists (PI + g - be). split; [ring|]. split; [lra|]. exists 0%Z. ring.
    - exists (3 * PI + g - be). split; [ring|]. split; [lra|]. exists 1%Z. ring.
    - exists (PI + be + g). split; [ring|]. split; [lra|]. exists (-1)%Z. ring.
    - exists (be + g - PI). split; [ring|]. split; [lra|]. exists 0%Z. ring. }
  clearbody lenC. destruct A as (a & -> & Ar & (ka & Ka)). destruct Cx as (c & -> & Cr & (kc & Kc)).
  set (b := PI + 2 * g). replace (b * r) with (r * b) by ring.
  assert (SG : sin (sign s * g) = sign s * sin g /\ cos (sign s * g) = cos g).
  { destruct s; cbn [sign]; [replace (-1 * g) with (- g) by ring; rewrite sin_neg, cos_neg; split; ring|rewrite !Rmult_1_l; auto]. }
  destruct SG as (SG & CGs).
  set (P := (start, h)).
  assert (R0 : rides s c1 r (al + th) P).
  { apply (rides_start s r (al + th) P); [lra|]. unfold P. fold c1. cbn [fst]. rewrite X0. symmetry. apply around_cs; assumption. }
  assert (R1 : rides s c1 r (sign s * g + th) (fly r P [Turn s a])).
  { cbn [fly fold_left]. apply (rides_turn s c1 r (al + th)); [exact R0|]. exists ka. rewrite Ka. ring. }
  pose proof (rides_other _ _ _ _ _ R1) as R1'. set (cm := around c1 (2 * r) (sign s * g + th)) in *.
  assert (R2 : rides (other s) cm r (- (sign s * g) + th) (fly r P [Turn s a; Turn (other s) b])).
  { change (fly r P [Turn s a; Turn (other s) b]) with (fly1 r (fly r P [Turn s a]) (Turn (other s) b)).
    apply (rides_turn (other s) cm r (sign s * g + th + PI)); [exact R1'|]. unfold b. destruct s; cbn [sign other]; [exists (-1)%Z|exists 0%Z]; ring. }
  assert (R2' : rides s c2 r (PI - sign s * g + th) (fly r P [Turn s a; Turn (other s) b])).
  { pose proof (rides_other _ _ _ _ _ R2) as R2'. replace (other (other s)) with s in R2' by (destruct s; reflexivity).
    replace (around cm (2 * r) (- (sign s * g) + th)) with c2 in R2'.
    - replace (PI - sign s * g + th) with (- (sign s * g) + th + PI) by ring. exact R2'.
    - rewrite CC, CG'. unfold cm, around. cbn [fst snd]. rewrite !sin_plus, !cos_plus, sin_neg, cos_neg, CGs. f_equal; ring. }
  assert (R3 : rides s c2 r (be + th) (fly r P [Turn s a; Turn (other s) b; Turn s c])).
  { change (fly r P [Turn s a; Turn (other s) b; Turn s c]) with (fly1 r (fly r P [Turn s a; Turn (other s) b]) (Turn s c)).
    apply (rides_turn s c2 r (PI - sign s * g + th)); [exact R2'|]. exists kc. rewrite Kc. ring. }
  assert (R4 : rides s c2 r (be + th) (finish, h')).
  { apply (rides_start s r (be + th) (finish, h')); [lra|]. fold c2. cbn [fst]. rewrite Y0. symmetry. apply around_cs; assumption. }
  assert (p1E : from_frame c1 (- th) (sign s * (sin g * r), cos g * r) = fst (fly r P [Turn s a])).
  { replace (sign s * (sin g * r), cos g * r) with (r * sin (sign s * g), r * cos (sign s * g)) by (rewrite SG, CGs; f_equal; ring).
    rewrite from_polar. destruct R1 as (-> & _). reflexivity. }
  assert (pmE : from_frame c1 (- th) (sign s * (sin g * (2 * r)), cos g * (2 * r)) = cm).
  { replace (sign s * (sin g * (2 * r)), cos g * (2 * r)) with (2 * r * sin (sign s * g), 2 * r * cos (sign s * g)) by (rewrite SG, CGs; f_equal; ring).
    apply from_polar. }
  assert (p2E : from_frame c1 (- th) (sign s * (sin g * r + 0), - cos g * r + D) = fst (fly r P [Turn s a; Turn (other s) b])).
  { destruct R2' as (-> & _). rewrite CC. unfold from_frame, around. cbn [fst snd].
    replace (PI - sign s * g + th) with (- (sign s * g) + th + PI) by ring. rewrite neg_sin, neg_cos, !sin_plus, !cos_plus, !cos_neg, !sin_neg, SG, CGs. f_equal; ring. }
  rewrite p1E, p2E, pmE.
  eexists. split; [reflexivity|]. cbv beta iota.
  assert (W1 : arc_way c1 r s sep start (fst (fly r P [Turn s a])) (r * a) (turn_points start (fst (fly r P [Turn s a])) (r * a) C1 sep))
    by (apply turn_points_way; lra).
  replace (match s with Cw => Ccw | Ccw => Cw end) with (other s) by (destruct s; reflexivity).
  assert (W2 : arc_way cm r (other s) sep (fst (fly r P [Turn s a])) (fst (fly r P [Turn s a; Turn (other s) b])) (r * b)
     (turn_points (fst (fly r P [Turn s a])) (fst (fly r P [Turn s a; Turn (other s) b])) (r * b) {| mid := cm; rad := r; way := other s |} sep))
    by (apply turn_points_way; lra).
  assert (W3 : arc_way c2 r s sep (fst (fly r P [Turn s a; Turn (other s) b])) finish (r * c)
     (turn_points (fst (fly r P [Turn s a; Turn (other s) b])) finish (r * c) {| mid := c2; rad := r; way := s |} sep))
    by (apply turn_points_way; lra).
  set (w1 := turn_points start (fst (fly r P [Turn s a])) (r * a) C1 sep) in *.
  set (w2 := turn_points (fst (fly r P [Turn s a])) (fst (fly r P [Turn s a; Turn (other s) b])) (r * b) {| mid := cm; rad := r; way := other s |} sep) in *.
  set (w3 := turn_points (fst (fly r P [Turn s a; Turn (other s) b])) finish (r * c) {| mid := c2; rad := r; way := s |} sep) in *.
  clearbody w1 w2 w3.
  exists a, b, c, w1, w2, w3. cbv zeta.
  split; [exact Ar|]. split; [unfold b; lra|]. split; [exact Cr|].
  assert (F : fst (fly r P [Turn s a; Turn (other s) b; Turn s c]) = finish).
  { destruct R3 as (-> & _), R4 as (F & _). symmetry. exact F. }
  split. { destruct R3 as (_ & Ch & Sh), R4 as (_ & Ch' & Sh'). cbn [snd] in Ch', Sh'. split; [rewrite Ch; symmetry; exact Ch'|rewrite Sh; symmetry; exact Sh']. }
  split; [exact F|]. split; [exact W1|]. rewrite (rides_hub _ _ _ _ _ R1'), (rides_hub _ _ _ _ _ R2').
  split; [exact W2|]. split; [exact W3|]. split; [reflexivity|].
  assert (b0 : 0 < r * b) by (unfold b; apply Rmult_lt_0_compat; lra).
  rewrite (arc_total _ _ _ _ _ _ _ _ None _ Sp W1) by auto. rewrite (arc_total _ _ _ _ _ _ _ _ _ _ Sp W2) by auto.
  rewrite <- (app_nil_r w3), (arc_total _ _ _ _ _ _ _ _ _ _ Sp W3).
  - cbn [total]. rewrite (Rmax_right 0 (r * b)) by lra. rewrite (Rmax_right 0 (r * c)) by (apply Rmult_le_pos; lra).
    replace (Rmax 0 (r * a)) with (r * Rmax 0 a); [ring|].
    rewrite <- (Rmult_0_r r) at 2. rewrite RmaxRmult by lra. reflexivity.
  - destruct (Rle_dec c 0) as [Z|Z]; [right; right|left; apply Rmult_lt_0_compat; lra].
    assert (c = 0) by lra. subst c. rewrite <- F. f_equal. symmetry. exact (turn_nothing r _ s).
Qed.

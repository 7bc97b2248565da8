(** The heading at a place that is come to without a heading: one turn and a straight leg lead there. *)
From Coq Require Import Reals List ZArith Lia Lra.
From Verif Require Import SteeringCourseModel SteeringCourseProps PiBounds DubinsModel DubinsSpec DubinsProofs DubinsTangent DubinsShort WayPointsModel WayPointsSpec WayPointsProofs.
Import ListNotations.
Open Scope R_scope.

Lemma some_angle x : exists a, 0 <= a < 2 * PI /\ cos a = cos x /\ sin a = sin x.
Proof.
  pose proof PI_low as P. destruct (norm_range x) as (A & B). destruct (norm_cs x) as (C & D).
  destruct (Rle_dec 0 (norm_angle x)) as [G|L]; [exists (norm_angle x); repeat split; assumption || lra|].
  exists (norm_angle x + 2 * PI). pose proof (turn_Z (norm_angle x) 1) as T. rewrite Rmult_1_r in T. destruct T as (T1 & T2).
  rewrite T1, T2. repeat split; lra.
Qed.

(** The direction of the centre [c] seen from the place, [g] being the angle of the start. *)
Lemma centre_seen r d g A B dc case : 0 < d -> 0 < dc -> dc * dc = A * A + B * B -> - (r * r) + dc * dc + d * d = 2 * d * A ->
  (case = 1 \/ case = -1) -> 0 <= case * B ->
  dc * sin (g + case * acos ((- (r * r) + dc * dc + d * d) / (2 * dc * d))) = A * sin g + B * cos g /\
  dc * cos (g + case * acos ((- (r * r) + dc * dc + d * d) / (2 * dc * d))) = A * cos g - B * sin g.
Proof.
  intros D DC E X K KB. rewrite X. replace (2 * d * A / (2 * dc * d)) with (A / dc) by (field; lra).
  assert (G : -1 <= A / dc <= 1).
  { pose proof (Rle_0_sqr B) as BB. unfold Rsqr in BB. assert (Y : - dc <= A <= dc) by (split; nra).
    split; [apply Rmult_le_reg_r with dc|apply Rmult_le_reg_r with dc]; try lra; unfold Rdiv; rewrite Rmult_assoc, Rinv_l; lra. }
  assert (C : dc * cos (acos (A / dc)) = A) by (rewrite cos_acos by exact G; field; lra).
  assert (S : dc * (case * sin (acos (A / dc))) = B).
  { rewrite sin_acos by exact G.
    assert (Q : sqrt (1 - (A / dc)²) = case * B / dc).
    { apply sqrt_sqr; [unfold Rdiv; apply Rmult_le_pos; [exact KB|left; apply Rinv_0_lt_compat; exact DC]|].
      unfold Rsqr. replace (case * B / dc * (case * B / dc)) with (case * case * (B * B) / (dc * dc)) by (field; lra).
      replace (case * case) with 1 by (destruct K as [->| ->]; ring). replace (B * B) with (dc * dc - A * A) by lra. field. lra. }
    rewrite Q. replace (dc * (case * (case * B / dc))) with (case * case * B) by (field; lra). destruct K as [->| ->]; ring. }
  assert (CC : cos (case * acos (A / dc)) = cos (acos (A / dc))).
  { destruct K as [->| ->]; [f_equal; ring|]. rewrite <- (cos_neg (acos (A / dc))). f_equal; ring. }
  assert (SS : sin (case * acos (A / dc)) = case * sin (acos (A / dc))).
  { destruct K as [->| ->]; [rewrite !Rmult_1_l; reflexivity|]. replace (-1 * acos (A / dc)) with (- acos (A / dc)) by ring. rewrite sin_neg. ring. }
  rewrite sin_plus, cos_plus, CC, SS. split.
  - transitivity (sin g * (dc * cos (acos (A / dc))) + cos g * (dc * (case * sin (acos (A / dc))))); [ring|]. rewrite C, S. ring.
  - transitivity (cos g * (dc * cos (acos (A / dc))) - sin g * (dc * (case * sin (acos (A / dc))))); [ring|]. rewrite C, S. ring.
Qed.

(** The tangent from a place to a circle. *)
Lemma tangent_leg r p h f s v w dc : 0 < r <= dc -> hub (p, h) r s = (fst f + dc * sin w, snd f + dc * cos w) ->
  v = w + sign s * asin (r / dc) ->
  exists a l, 0 <= a < 2 * PI /\ 0 <= l /\
    let Q := fly r (p, h) [Turn s a; Ahead l] in fst Q = f /\ cos (snd Q) = - sin v /\ sin (snd Q) = - cos v.
Proof.
  intros RD C V.
  assert (G : -1 <= r / dc <= 1).
  { split; apply Rmult_le_reg_r with dc; try lra; unfold Rdiv; rewrite Rmult_assoc, Rinv_l; lra. }
  assert (SA : dc * sin (asin (r / dc)) = r) by (rewrite sin_asin by exact G; field; lra).
  assert (CA : 0 <= cos (asin (r / dc))) by (apply cos_ge_0; pose proof (asin_bound (r / dc)); lra).
  set (be := asin (r / dc)) in *. clearbody be.
  destruct (some_angle (sign s * (h - (- (PI / 2) - v)))) as (a & AR & AC & AS).
  assert (S1 : sign s * sign s = 1) by (destruct s; cbn; ring).
  assert (HC : cos (h - sign s * a) = - sin v /\ sin (h - sign s * a) = - cos v).
  { assert (CS : cos (sign s * a) = cos (h - (- (PI / 2) - v)) /\ sin (sign s * a) = sin (h - (- (PI / 2) - v))).
    { destruct s; cbn [sign] in *.
      - replace (-1 * a) with (- a) by ring. rewrite cos_neg, sin_neg, AC, AS.
        replace (-1 * (h - (- (PI / 2) - v))) with (- (h - (- (PI / 2) - v))) by ring. rewrite cos_neg, sin_neg. split; ring.
      - rewrite !Rmult_1_l in *. rewrite AC, AS. split; reflexivity. }
    destruct CS as (CS1 & CS2). rewrite cos_minus, sin_minus, CS1, CS2. rewrite <- cos_minus, <- sin_minus.
    replace (h - (h - (- (PI / 2) - v))) with (- (PI / 2 + v)) by ring. rewrite cos_neg, sin_neg, cos_plus, sin_plus, cos_PI2, sin_PI2. split; ring. }
  exists a, (dc * cos be). split; [exact AR|]. split; [apply Rmult_le_pos; lra|].
  cbn [fly fold_left]. cbv zeta.
  assert (HD : snd (fly1 r (p, h) (Turn s a)) = h - sign s * a) by (rewrite turn_heading; reflexivity).
  set (P1 := fly1 r (p, h) (Turn s a)) in *.
  assert (H1 : hub P1 r s = hub (p, h) r s) by apply hub_turn.
  destruct P1 as ((n1, e1), h1). cbn [snd] in HD. subst h1. cbn [fly1 fst snd]. destruct HC as (HC & HS). rewrite HC, HS.
  split; [|split; reflexivity].
  rewrite C in H1. subst v.
  assert (N : n1 = fst f + dc * sin w + r * (sign s * cos (w + sign s * be)) /\ e1 = snd f + dc * cos w - r * (sign s * sin (w + sign s * be))).
  { destruct s; cbn [hub sign] in *; rewrite HC, HS in H1; injection H1 as H1 H2; split; lra. }
  destruct N as (-> & ->). destruct f as (fn, fe). cbn [fst snd].
  assert (CB : cos (sign s * be) = cos be) by (destruct s; cbn [sign]; [rewrite <- (cos_neg be); f_equal; ring|f_equal; ring]).
  assert (SB : sin (sign s * be) = sign s * sin be) by (destruct s; cbn [sign]; [replace (-1 * be) with (- be) by ring; rewrite sin_neg; ring|rewrite !Rmult_1_l; reflexivity]).
  rewrite sin_plus, cos_plus, CB, SB. rewrite <- SA. pose proof (cs_unit be) as T.
  assert (T1 : sin be * sin be = 1 - cos be * cos be) by lra.
  f_equal.
  - transitivity (fn + dc * sin w * (1 - cos be * cos be - (sign s * sign s) * (sin be * sin be))); [ring|]. rewrite S1, T1. ring.
  - transitivity (fe + dc * cos w * (1 - cos be * cos be - (sign s * sign s) * (sin be * sin be))); [ring|]. rewrite S1, T1. ring.
Qed.

(** Trajectory.cpp: the quarter in which the angles differ. *)
Definition case_of (x : R) : R :=
  if Rlt_dec (PI / 2) (norm_angle x) then (if Rlt_dec (norm_angle x) (3 * (PI / 2)) then 1 else -1) else -1.
Lemma diff_case x : (case_of x = 1 \/ case_of x = -1) /\ 0 <= - case_of x * cos x.
Proof.
  unfold case_of. destruct (norm_range x) as (A & B). destruct (norm_cs x) as (C & D). rewrite <- C. pose proof PI_low as P.
  destruct (Rlt_dec (PI / 2) (norm_angle x)) as [L1|L1]; [destruct (Rlt_dec (norm_angle x) (3 * (PI / 2))) as [L2|L2]|].
  - split; [left; reflexivity|]. assert (K : cos (norm_angle x) < 0) by (apply cos_lt_0; lra). lra.
  - split; [right; reflexivity|]. assert (K : 0 <= cos (norm_angle x)); [|lra].
    replace (norm_angle x) with ((norm_angle x - 2 * PI) + 2 * PI) by ring. rewrite cos_plus, cos_2PI, sin_2PI.
    assert (0 <= cos (norm_angle x - 2 * PI)) by (apply cos_ge_0; lra). lra.
  - split; [right; reflexivity|]. assert (K : 0 <= cos (norm_angle x)); [|lra]. apply cos_ge_0; lra.
Qed.

Lemma task_heading_spec r p h f : 0 < r -> 1 / 1000000000 < dist p f ->
  exists s a l, 0 <= a < 2 * PI /\ 0 <= l /\ nearer_turn r (p, h) f s /\
    let Q := fly r (p, h) [Turn s a; Ahead l] in fst Q = f /\ same_heading (snd Q) (norm_angle (task_heading p h f r + PI)).
Proof.
  intros Rp Far. pose proof (angle_spec f p) as E. rewrite apart_dist in E. unfold task_heading. rewrite (apart_sym p f), (apart_sym (fst p - r * sin h, snd p + r * cos h) f), (apart_sym (fst p + r * sin h, snd p - r * cos h) f).
  rewrite (dist_sym f p) in E. set (d := dist p f) in *. assert (Dd : d = dist p f) by reflexivity. clearbody d.
  destruct (Rle_dec (Rabs d) _) as [Z|_]; [rewrite Rabs_right in Z; lra|].
  set (g := angle_at f p) in *. clearbody g.
  set (d1 := dist (fst p - r * sin h, snd p + r * cos h) f). set (d2 := dist (fst p + r * sin h, snd p - r * cos h) f).
  change (if Rlt_dec (PI / 2) (norm_angle (PI / 2 - h - g)) then if Rlt_dec (norm_angle (PI / 2 - h - g)) (3 * (PI / 2)) then 1 else -1 else -1)
    with (case_of (PI / 2 - h - g)).
  destruct (diff_case (PI / 2 - h - g)) as (K & KB). set (case := case_of _) in *. clearbody case.
  assert (CG : cos (PI / 2 - h - g) = sin (h + g)) by (replace (PI / 2 - h - g) with (PI / 2 - (h + g)) by ring; apply cos_shift).
  rewrite CG in KB. pose proof (cs_unit g) as TG. pose proof (cs_unit h) as TH.
  assert (SQ : forall x y, dist x y * dist x y = (fst x - fst y) * (fst x - fst y) + (snd x - snd y) * (snd x - snd y)).
  { intros x y. unfold dist. rewrite sqrt_sqrt; [ring|]. apply Rplus_le_le_0_compat; apply Rle_0_sqr || (rewrite <- Rsqr_pow2; apply Rle_0_sqr). }
  assert (U : forall s, 0 < dist (hub (p, h) r s) f -> r <= dist (hub (p, h) r s) f ->
    let dc := dist (hub (p, h) r s) f in
    let v := g - sign s * case * acos ((- (r * r) + dc * dc + d * d) / (2 * dc * d)) + sign s * asin (r / dc) in
    exists a l, 0 <= a < 2 * PI /\ 0 <= l /\
    let Q := fly r (p, h) [Turn s a; Ahead l] in fst Q = f /\ same_heading (snd Q) (norm_angle (norm_angle (PI / 2 - v) + PI))).
  { intros s DP DR dc v.
    assert (SS : sign s * sign s = 1) by (destruct s; cbn; ring).
    assert (HB : hub (p, h) r s = (fst f + d * sin g + sign s * r * sin h, snd f + d * cos g - sign s * r * cos h)).
    { rewrite E. destruct s; cbn [hub sign fst snd around]; unfold around; cbn [fst snd]; f_equal; ring. }
    pose (AA := d - sign s * r * cos (h + g)). pose (BB := sign s * r * sin (h + g)).
    assert (DC : dc * dc = AA * AA + BB * BB).
    { unfold dc. rewrite SQ, HB. cbn [fst snd]. unfold AA, BB. pose proof (cs_unit (h + g)) as T.
      transitivity (d * d + r * r * (sign s * sign s) - 2 * d * sign s * r * cos (h + g)).
      - rewrite cos_plus. 
        transitivity (d * d * (cos g * cos g + sin g * sin g) + r * r * (sign s * sign s) * (cos h * cos h + sin h * sin h) - 2 * d * sign s * r * (cos h * cos g - sin h * sin g)); [ring|].
        rewrite TG, TH. ring.
      - transitivity (d * d + r * r * (sign s * sign s) * (cos (h + g) * cos (h + g) + sin (h + g) * sin (h + g)) - 2 * d * sign s * r * cos (h + g)); [rewrite T; ring|ring]. }
    assert (X : - (r * r) + dc * dc + d * d = 2 * d * AA).
    { rewrite DC. unfold AA, BB. pose proof (cs_unit (h + g)) as T.
      transitivity (- (r * r) + r * r * (sign s * sign s) * (cos (h + g) * cos (h + g) + sin (h + g) * sin (h + g)) + 2 * d * d - 2 * d * sign s * r * cos (h + g)); [ring|].
      rewrite T, SS. ring. }
    assert (CB : 0 <= (- (sign s * case)) * BB).
    { unfold BB. replace (- (sign s * case) * (sign s * r * sin (h + g))) with ((sign s * sign s) * (r * (- case * sin (h + g)))) by ring. rewrite SS, Rmult_1_l.
      apply Rmult_le_pos; lra. }
    assert (KK : - (sign s * case) = 1 \/ - (sign s * case) = -1) by (destruct s, K as [->| ->]; cbn [sign]; [left|right|right|left]; ring).
    destruct (centre_seen r d g AA BB dc (- (sign s * case)) ltac:(lra) DP DC X KK CB) as (S1 & S2).
    replace (g + - (sign s * case) * acos ((- (r * r) + dc * dc + d * d) / (2 * dc * d))) with (g - sign s * case * acos ((- (r * r) + dc * dc + d * d) / (2 * dc * d))) in S1, S2 by ring.
    set (w := g - sign s * case * acos _) in *.
    destruct (tangent_leg r p h f s v w dc) as (a & l & A1 & L1 & F & C1 & C2).
    - split; assumption.
    - rewrite HB, S1, S2. unfold AA, BB. f_equal.
      + transitivity (fst f + d * sin g + sign s * r * (sin (h + g) * cos g - cos (h + g) * sin g)); [|ring]. rewrite <- sin_minus. replace (h + g - g) with h by ring. ring.
      + transitivity (snd f + d * cos g - sign s * r * (cos (h + g) * cos g + sin (h + g) * sin g)); [|ring]. rewrite <- cos_minus. replace (h + g - g) with h by ring. ring.
    - reflexivity.
    - exists a, l. split; [exact A1|]. split; [exact L1|]. split; [exact F|].
      destruct (norm_cs (PI / 2 - v)) as (N1 & N2). destruct (norm_cs (norm_angle (PI / 2 - v) + PI)) as (N3 & N4).
      unfold same_heading. rewrite C1, C2, N3, N4, neg_cos, neg_sin, N1, N2, cos_shift, sin_shift. split; reflexivity. }
  assert (SUM : d1 * d1 + d2 * d2 = 2 * d * d + 2 * r * r).
  { unfold d1, d2. rewrite !SQ. cbn [fst snd]. pose proof (SQ p f) as SP. rewrite <- Dd in SP.
    transitivity (2 * ((fst p - fst f) * (fst p - fst f) + (snd p - snd f) * (snd p - snd f)) + 2 * r * r * (cos h * cos h + sin h * sin h)); [ring|]. rewrite <- SP, TH. ring. }
  assert (P1 : 0 <= d1) by apply sqrt_pos. assert (P2 : 0 <= d2) by apply sqrt_pos.
  assert (H1 : dist (hub (p, h) r Cw) f = d1) by (unfold d1; destruct p; reflexivity).
  assert (H2 : dist (hub (p, h) r Ccw) f = d2) by (unfold d2; destruct p; reflexivity).
  assert (UL : r <= d2 -> (r <= d1 -> d2 <= d1) -> let phi := - asin (r / d2) + case * acos ((- (r * r) + d2 * d2 + d * d) / (2 * d2 * d)) in
    exists s0 a l, 0 <= a < 2 * PI /\ 0 <= l /\ nearer_turn r (p, h) f s0 /\
    let Q := fly r (p, h) [Turn s0 a; Ahead l] in fst Q = f /\ same_heading (snd Q) (norm_angle (norm_angle (PI / 2 - (g - phi)) + PI))).
  { intros G NT phi. specialize (U Ccw). assert (HQ : dist (hub (p, h) r Ccw) f = d2) by (unfold d2; destruct p; reflexivity). rewrite HQ in U. specialize (U ltac:(lra) G). cbv zeta in U. cbn [sign] in U.
    replace (g - phi) with (g - 1 * case * acos ((- (r * r) + d2 * d2 + d * d) / (2 * d2 * d)) + 1 * asin (r / d2)) by (unfold phi; ring). destruct U as (a & l & U1 & U2 & U3). eexists _, a, l. split; [exact U1|]. split; [exact U2|]. split; [|exact U3]. unfold nearer_turn. cbn [other]. rewrite H1, H2. split; [exact G|exact NT]. }
  assert (UR : r <= d1 -> (r <= d2 -> d1 <= d2) -> let phi := asin (r / d1) - case * acos ((- (r * r) + d1 * d1 + d * d) / (2 * d1 * d)) in
    exists s0 a l, 0 <= a < 2 * PI /\ 0 <= l /\ nearer_turn r (p, h) f s0 /\
    let Q := fly r (p, h) [Turn s0 a; Ahead l] in fst Q = f /\ same_heading (snd Q) (norm_angle (norm_angle (PI / 2 - (g - phi)) + PI))).
  { intros G NT phi. specialize (U Cw). assert (HQ : dist (hub (p, h) r Cw) f = d1) by (unfold d1; destruct p; reflexivity). rewrite HQ in U. specialize (U ltac:(lra) G). cbv zeta in U. cbn [sign] in U.
    replace (g - phi) with (g - -1 * case * acos ((- (r * r) + d1 * d1 + d * d) / (2 * d1 * d)) + -1 * asin (r / d1)) by (unfold phi; ring). destruct U as (a & l & U1 & U2 & U3). eexists _, a, l. split; [exact U1|]. split; [exact U2|]. split; [|exact U3]. unfold nearer_turn. cbn [other]. rewrite H1, H2. split; [exact G|exact NT]. }
  clear U H1 H2. clearbody d1 d2. cbv zeta in UL, UR |- *.
  destruct (Rle_dec r d2) as [G|G]; [destruct (Rlt_dec d2 d1) as [G1|G1]; [|destruct (Rlt_dec d1 r) as [G2|G2]]|].
  - apply UL; intros; lra.
  - apply UL; intros; lra.
  - apply UR; intros; lra.
  - apply UR; intros; nra.
Qed.

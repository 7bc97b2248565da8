(** The straight leg between two turns, and the way of a turn, a straight leg and a turn. *)
From Coq Require Import Reals List ZArith Lra Lia.
From Verif Require Import SteeringCourseModel SteeringCourseProps PiBounds DubinsModel DubinsSpec DubinsProofs.
Import ListNotations.
Open Scope R_scope.

Lemma cos32 : cos (3 / 2 * PI) = 0. Proof. replace (3 / 2 * PI) with (3 * (PI / 2)) by field. apply cos_3PI2. Qed.
Lemma sin32 : sin (3 / 2 * PI) = -1. Proof. replace (3 / 2 * PI) with (3 * (PI / 2)) by field. apply sin_3PI2. Qed.
Lemma cos12 : cos (1 / 2 * PI) = 0. Proof. replace (1 / 2 * PI) with (PI / 2) by field. apply cos_PI2. Qed.
Lemma sin12 : sin (1 / 2 * PI) = 1. Proof. replace (1 / 2 * PI) with (PI / 2) by field. apply sin_PI2. Qed.

Lemma sqrt_sqr x y : 0 <= y -> x = y * y -> sqrt x = y.
Proof. intros Y ->. apply sqrt_square. exact Y. Qed.

Lemma tangent_spec r s1 s2 m1 m2 d : 0 < r -> 0 < d -> (s1 = s2 \/ 2 * r - 1 / 2 <= d) -> exists a b l m,
  tangent {| mid := m1; rad := r; way := s1 |} {| mid := m2; rad := r; way := s2 |} d = (a, b, (r * sin a, r * cos a), (r * sin b, d + r * cos b)) /\
  - (1 / 1000000000) <= a < 2 * PI /\ - (1 / 1000000000) <= b < 2 * PI /\
  sign s2 * cos b = sign s1 * cos a /\ sign s2 * sin b = sign s1 * sin a /\ 0 <= l /\
  r * sin a + l * (sign s1 * cos a) = r * sin b /\ r * cos a - l * (sign s1 * sin a) = m + r * cos b /\
  ((m = d /\ apart (r * sin b, d + r * cos b) (r * sin a, r * cos a) = l) \/
   (s1 <> s2 /\ d < 2 * r /\ m = 2 * r /\ l = 0 /\ apart (r * sin b, d + r * cos b) (r * sin a, r * cos a) = 2 * r - d)) /\
  (s1 = s2 -> m = d /\ l = d) /\ (s1 <> s2 -> 2 * r <= d -> m = d /\ l * l = d * d - 4 * r * r).
Proof.
  intros Rp Dp H. pose proof PI_low as PL. unfold tangent. cbn [way rad].
  destruct (same_sense s1 s2) eqn:SS.
  - assert (E : s1 = s2) by (destruct s1, s2; cbn in SS; congruence). subst s2. clear SS H.
    destruct s1.
    + exists (1 / 2 * PI), (1 / 2 * PI), d, d. rewrite cos12, sin12. cbn [sign].
      repeat split; try lra; try congruence.
      * replace (r * 1) with r by ring. replace (r * 0) with 0 by ring. replace (d + 0) with d by ring. reflexivity.
      * left. split; [reflexivity|]. unfold apart. cbn [fst snd]. apply sqrt_sqr; [lra|ring].
    + exists (3 / 2 * PI), (3 / 2 * PI), d, d. rewrite cos32, sin32. cbn [sign].
      repeat split; try lra; try congruence.
      * replace (r * -1) with (- r) by ring. replace (r * 0) with 0 by ring. replace (d + 0) with d by ring. reflexivity.
      * left. split; [reflexivity|]. unfold apart. cbn [fst snd]. apply sqrt_sqr; [lra|ring].
  - assert (E : s1 <> s2) by (destruct s1, s2; cbn in SS; congruence). destruct H as [H|H]; [contradiction|].
    set (a := if Rlt_dec (2 * r / d) 1 then norm_angle (acos (2 * r / d)) else 0).
    assert (A : exists l m, 0 <= a <= PI / 2 /\ 0 <= l /\ r * sin a - l * cos a = - (r * sin a) /\ r * cos a + l * sin a = m - r * cos a /\
              ((m = d /\ l * l = (d - 2 * r * cos a) * (d - 2 * r * cos a) + 4 * (r * sin a) * (r * sin a) /\ l * l = d * d - 4 * r * r) \/
               (a = 0 /\ d < 2 * r /\ m = 2 * r /\ l = 0))).
    { unfold a. destruct (Rlt_dec (2 * r / d) 1) as [L|L].
      - assert (Q : 0 < 2 * r / d) by (apply Rdiv_lt_0_compat; lra).
        assert (AB : 0 <= acos (2 * r / d) <= PI / 2).
        { split; [apply acos_bound|]. rewrite <- acos_0. destruct (Rle_dec (acos (2 * r / d)) (acos 0)) as [|NN]; [assumption|].
          assert (cos (acos (2 * r / d)) < cos (acos 0)).
          { apply cos_decreasing_1; try apply acos_bound. lra. }
          rewrite !cos_acos in * by lra. lra. }
        rewrite norm_id by lra. assert (C : cos (acos (2 * r / d)) = 2 * r / d) by (apply cos_acos; lra).
        set (al := acos (2 * r / d)) in *. assert (C' : d * cos al = 2 * r) by (rewrite C; field; lra).
        pose proof (sin2_cos2 al) as T. unfold Rsqr in T. assert (S0 : 0 <= sin al) by (apply sin_ge_0; lra).
        clearbody al. exists (d * sin al), d. clear C. repeat split; try lra.
        + apply Rmult_le_pos; lra.
        + assert (r = d * cos al / 2) by lra. subst r. field_simplify. ring.
        + assert (r = d * cos al / 2) by lra. subst r. replace (d * cos al / 2 * cos al + d * sin al * sin al) with (d * (sin al * sin al + cos al * cos al) - d * cos al / 2 * cos al) by field. rewrite T. ring.
        + left. assert (r = d * cos al / 2) by lra. subst r. split; [reflexivity|]. split.
          * transitivity (d * d * (sin al * sin al)); [ring|].
            transitivity (d * d * ((1 - cos al * cos al) * (1 - cos al * cos al) + (cos al * cos al) * (sin al * sin al))); [|field].
            replace (cos al * cos al) with (1 - sin al * sin al) by lra. ring.
          * transitivity (d * d * (sin al * sin al)); [ring|]. replace (sin al * sin al) with (1 - cos al * cos al) by lra. field.
      - assert (L' : d <= 2 * r).
        { destruct (Rle_dec d (2 * r)); [assumption|]. exfalso. apply L. apply Rmult_lt_reg_r with d; [lra|]. unfold Rdiv. rewrite Rmult_assoc, Rinv_l; lra. }
        rewrite sin_0, cos_0. exists 0, (2 * r). repeat split; try lra. destruct (Req_EM_T d (2 * r)) as [->|]; [left|right; lra]. repeat split; ring. }
    clearbody a. destruct A as (l & m & A0 & L0 & A1 & A2 & A3). pose proof (sin2_cos2 a) as T. unfold Rsqr in T.
    assert (HR : ((m = d /\ sqrt ((d - 2 * r * cos a) * (d - 2 * r * cos a) + 4 * (r * sin a) * (r * sin a)) = l) \/
      (s1 <> s2 /\ d < 2 * r /\ m = 2 * r /\ l = 0 /\ sqrt ((d - 2 * r * cos a) * (d - 2 * r * cos a) + 4 * (r * sin a) * (r * sin a)) = 2 * r - d)) /\
      (2 * r <= d -> m = d /\ l * l = d * d - 4 * r * r)).
    { destruct A3 as [(M & LL & LL2)|(Z & G & M & LZ)].
      - split; [left; split; [exact M|apply sqrt_sqr; lra]|auto].
      - split; [right|lra]. repeat split; try assumption. rewrite Z, sin_0, cos_0. apply sqrt_sqr; [lra|ring]. }
    destruct HR as (HR1 & HR2).
    destruct s2.
    + destruct s1; [contradiction E; reflexivity|].
      set (a' := norm_angle (2 * PI - a)). destruct (norm_cs (2 * PI - a)) as (Ca & Sa). fold a' in Ca, Sa.
      assert (C1 : cos a' = cos a). { rewrite Ca, cos_minus, cos_2PI, sin_2PI. ring. }
      assert (S1 : sin a' = - sin a). { rewrite Sa, sin_minus, cos_2PI, sin_2PI. ring. }
      set (b := norm_angle (a' + PI)). destruct (norm_cs (a' + PI)) as (Cb & Sb). fold b in Cb, Sb. rewrite neg_cos in Cb. rewrite neg_sin in Sb.
      exists a', b, l, m. rewrite Cb, Sb, C1, S1. cbn [sign].
      split. { replace (r * - sin a) with (- (r * sin a)) by ring. replace (r * - - sin a) with (r * sin a) by ring.
               replace (d + r * - cos a) with (d - r * cos a) by ring. reflexivity. }
      split; [apply norm_range|]. split; [apply norm_range|]. split; [ring|]. split; [ring|]. split; [exact L0|].
      split; [lra|]. split; [lra|]. split; [|split; [congruence|intros _; exact HR2]].
      unfold apart. cbn [fst snd].
      replace ((r * - - sin a - r * - sin a) * (r * - - sin a - r * - sin a) + (d + r * - cos a - r * cos a) * (d + r * - cos a - r * cos a))
        with ((d - 2 * r * cos a) * (d - 2 * r * cos a) + 4 * (r * sin a) * (r * sin a)) by ring. exact HR1.
    + destruct s1; [|contradiction E; reflexivity].
      set (b := norm_angle (a + PI)). destruct (norm_cs (a + PI)) as (Cb & Sb). fold b in Cb, Sb. rewrite neg_cos in Cb. rewrite neg_sin in Sb.
      exists a, b, l, m. rewrite Cb, Sb. cbn [sign].
      split. { replace (r * - sin a) with (- (r * sin a)) by ring. replace (d + r * - cos a) with (d - r * cos a) by ring. reflexivity. }
      split; [lra|]. split; [apply norm_range|]. split; [ring|]. split; [ring|]. split; [exact L0|].
      split; [lra|]. split; [lra|]. split; [|split; [congruence|intros _; exact HR2]].
      unfold apart. cbn [fst snd].
      replace ((r * - sin a - r * sin a) * (r * - sin a - r * sin a) + (d + r * - cos a - r * cos a) * (d + r * - cos a - r * cos a))
        with ((d - 2 * r * cos a) * (d - 2 * r * cos a) + 4 * (r * sin a) * (r * sin a)) by ring. exact HR1.
Qed.

Lemma apart_dist p q : apart p q = dist q p.
Proof. unfold apart, dist. f_equal. ring. Qed.
Lemma on_own_circle p h r s : exists x, p = around (hub (p, h) r s) r x.
Proof.
  destruct p as (n, e), s; cbn [hub].
  - exists (PI - h). unfold around. cbn [fst snd]. rewrite <- (Rtrigo_facts.sin_pi_minus h) at 1.
    replace (cos (PI - h)) with (- cos h) by (rewrite Rtrigo_facts.cos_pi_minus; ring). f_equal; ring.
  - exists (- h). unfold around. cbn [fst snd]. rewrite sin_neg, cos_neg. f_equal; ring.
Qed.
Lemma to_frame_around c c' th r x :
  to_frame c (- th) (around c' r x) = (fst (to_frame c (- th) c') + r * sin (x - th), snd (to_frame c (- th) c') + r * cos (x - th)).
Proof. unfold to_frame, around. cbn [fst snd]. rewrite cos_neg, sin_neg, sin_minus, cos_minus. f_equal; ring. Qed.
Lemma to_frame_self c a : to_frame c a c = (0, 0).
Proof. unfold to_frame. f_equal; ring. Qed.
Lemma to_frame_ray c th d : to_frame c (- th) (around c d th) = (0, d).
Proof.
  rewrite to_frame_around, to_frame_self. cbn [fst snd]. replace (th - th) with 0 by ring. rewrite sin_0, cos_0. f_equal; ring.
Qed.
Lemma around_cs c r x y : cos x = cos y -> sin x = sin y -> around c r x = around c r y.
Proof. intros C S. unfold around. rewrite C, S. reflexivity. Qed.
Lemma shift_cs x y t : cos x = cos (y - t) -> sin x = sin (y - t) -> cos (x + t) = cos y /\ sin (x + t) = sin y.
Proof.
  intros C S. rewrite cos_plus, sin_plus, C, S. rewrite <- cos_plus, <- sin_plus. replace (y - t + t) with y by ring. auto.
Qed.
Lemma dist_shift c r x m d th : dist (around (around c m th) r x) (around (around c d th) r x) = Rabs (m - d).
Proof.
  unfold dist, around. cbn [fst snd]. pose proof (sin2_cos2 th) as T. unfold Rsqr in T.
  rewrite <- sqrt_Rsqr_abs. f_equal. unfold Rsqr.
  transitivity ((m - d) * (m - d) * (sin th * sin th + cos th * cos th)); [ring|rewrite T; ring].
Qed.
Lemma dist_self p : dist p p = 0.
Proof. unfold dist. rewrite !Rminus_diag_eq by reflexivity. rewrite Rmult_0_l, Rplus_0_r. apply sqrt_0. Qed.

(** As [follows_straight], with where the centre of the second turn of the flight is. *)
Definition follows_exact (r sep : R) (P : pose) (finish : place) (h' : R) (s1 s2 : sense) (m th : R) (len : R) (ws : list waypoint) : Prop :=
  exists a1 b1 l l' a2 b2 w1 q w3,
    let P1 := fly r P [Turn s1 a1] in
    let P2 := fly r P [Turn s1 a1; Ahead l] in
    let P3 := fly r P [Turn s1 a1; Ahead l; Turn s2 a2] in
    (about a1 b1 /\ about a2 b2 /\ 0 <= l /\ 0 <= l' /\ Rabs (l' - l) <= 1 / 2 /\ (s1 = s2 -> l' = l) /\
    same_heading (snd P3) h' /\ dist (fst P3) finish <= 1 /\ (s1 = s2 -> dist (fst P3) finish <= 1 / 2) /\
    dist q (fst P2) <= 1 / 2 /\ (s1 = s2 -> q = fst P2) /\
    maybe_arc (hub P r s1) r s1 sep (fst P) (fst P1) (r * b1) w1 /\
    maybe_arc (hub (finish, h') r s2) r s2 sep q finish (r * b2) w3 /\
    ws = w1 ++ {| spot := q; long := l'; turn := None |} :: w3 /\
    len = at_least_one (r * b1) + l' + at_least_one (r * b2)) /\
    hub P2 r s2 = around (hub P r s1) m th /\
    let d := iround (dist (hub P r s1) (hub (finish, h') r s2)) in
    (s1 = s2 -> m = d /\ l = d) /\ (s1 <> s2 -> 2 * r <= d -> m = d /\ l * l = d * d - 4 * r * r /\ l' = l).
Lemma exact_straight r sep P finish h' s1 s2 m th len ws :
  follows_exact r sep P finish h' s1 s2 m th len ws -> follows_straight r sep P finish h' s1 s2 len ws.
Proof.
  intros (a1 & b1 & l & l' & a2 & b2 & w1 & q & w3 & K & _). exists a1, b1, l, l', a2, b2, w1, q, w3. exact K.
Qed.

Lemma tst_full r sep start h finish h' s1 s2 : 1 <= r -> 0 < sep ->
  1 / 2 <= dist (hub (start, h) r s1) (hub (finish, h') r s2) ->
  exists res,
    turn_straight_turn start finish {| mid := hub (start, h) r s1; rad := r; way := s1 |} {| mid := hub (finish, h') r s2; rad := r; way := s2 |} sep =
      ({| mid := hub (start, h) r s1; rad := r; way := s1 |}, res) /\
    match res with
    | None => s1 <> s2 /\ iround (dist (hub (start, h) r s1) (hub (finish, h') r s2)) < iround (2 * r)
    | Some ws => exists m th, hub (finish, h') r s2 = around (hub (start, h) r s1) (dist (hub (start, h) r s1) (hub (finish, h') r s2)) th /\
        follows_exact r sep (start, h) finish h' s1 s2 m th (total None ws) ws
    end.
Proof.
  intros Rp Sp Dp. pose proof PI_low as PL.
  set (c1 := hub (start, h) r s1) in *. set (c2 := hub (finish, h') r s2) in *. set (D := dist c1 c2) in *.
  set (C1 := {| mid := c1; rad := r; way := s1 |}). set (C2 := {| mid := c2; rad := r; way := s2 |}).
  unfold turn_straight_turn. cbn [mid rad way C1 C2]. rewrite apart_dist. fold D.
  set (d := iround D). assert (d1 : 1 <= d) by (apply iround_one; exact Dp).
  assert (dD : D - 1 / 2 < d <= D + 1 / 2) by (apply iround_near; lra).
  destruct (Rle_dec (Rabs d) (1 / 100)) as [X|_]; [rewrite Rabs_pos_eq in X by lra; lra|]. cbn [mid rad way].
  change (mid C1) with c1. change (rad C1) with r. change (way C1) with s1.
  set (th := angle_at c1 c2).
  assert (CC : c2 = around c1 D th). { unfold D. rewrite <- apart_dist. apply angle_spec. }
  replace (r + r) with (2 * r) by ring.
  destruct (if Rlt_dec d (iround (2 * r)) then negb (same_sense s1 s2) else false) eqn:B.
  { exists None. split; [reflexivity|]. destruct (Rlt_dec d (iround (2 * r))); [|discriminate]. split; [|assumption].
    destruct s1, s2; cbn in B; congruence. }
  assert (G : s1 = s2 \/ 2 * r - 1 / 2 <= d).
  { destruct (Rlt_dec d (iround (2 * r))) as [L|L].
    - left. destruct s1, s2; cbn in B; congruence.
    - right. destruct (iround_near (2 * r)); lra. }
  clear B.
  destruct (on_own_circle start h r s1) as (x0 & X0). fold c1 in X0.
  destruct (on_own_circle finish h' r s2) as (y0 & Y0). fold c2 in Y0.
  assert (B0 : to_frame c1 (- th) start = (r * sin (x0 - th), r * cos (x0 - th))).
  { rewrite X0, to_frame_around, to_frame_self. cbn [fst snd]. f_equal; ring. }
  assert (M0 : to_frame c1 (- th) c2 = (0, D)) by (rewrite CC; apply to_frame_ray).
  assert (E0 : to_frame c1 (- th) finish = (r * sin (y0 - th), D + r * cos (y0 - th))).
  { rewrite Y0, to_frame_around, M0. cbn [fst snd]. f_equal; ring. }
  rewrite B0, M0, E0. cbn [fst snd].
  replace (r * sin (y0 - th) - 0) with (r * sin (y0 - th)) by ring.
  replace (D + r * cos (y0 - th) - D) with (r * cos (y0 - th)) by ring.
  destruct (polar_on (r * sin (x0 - th)) (r * cos (x0 - th)) r (x0 - th)) as (SA & CA); [lra|reflexivity|reflexivity|].
  destruct (polar_on (r * sin (y0 - th)) (r * cos (y0 - th)) r (y0 - th)) as (SB & CB); [lra|reflexivity|reflexivity|].
  pose proof (norm_range (atan2 (r * sin (x0 - th)) (r * cos (x0 - th)))) as RA.
  pose proof (norm_range (atan2 (r * sin (y0 - th)) (r * cos (y0 - th)))) as RB.
  set (al := norm_angle (atan2 (r * sin (x0 - th)) (r * cos (x0 - th)))) in *.
  set (be := norm_angle (atan2 (r * sin (y0 - th)) (r * cos (y0 - th)))) in *. clearbody al be. clear B0 M0 E0.
  destruct (shift_cs al x0 th CA SA) as (CA' & SA'). destruct (shift_cs be y0 th CB SB) as (CB' & SB').
  destruct (tangent_spec r s1 s2 c1 c2 d) as (a & b & l & m & TE & Ra & Rb & VC & VS & L0 & Q1 & Q2 & Q3 & Q4 & Q5); [lra|lra|exact G|].
  fold C1 C2 in TE. rewrite TE. clear TE.
  destruct (near_turn s1 al a RA Ra) as (a1 & N1 & (k1 & K1)).
  destruct (near_turn' s2 be b RB Rb) as (a2 & N2 & (k2 & K2)).
  set (b1 := swing s1 al (snap a al)) in *. set (b2 := swing s2 (snap b be) be) in *. clearbody b1 b2.
  (* the flight *)
  set (P := (start, h)).
  assert (R0 : rides s1 c1 r (al + th) P).
  { apply (rides_start s1 r (al + th) P); [lra|]. unfold P. fold c1. cbn [fst]. rewrite X0. symmetry. apply around_cs; assumption. }
  assert (R1 : rides s1 c1 r (a + th) (fly r P [Turn s1 a1])).
  { cbn [fly fold_left]. apply (rides_turn s1 c1 r (al + th)); [exact R0|]. exists k1. rewrite K1. ring. }
  assert (R2 : rides s2 (around c1 m th) r (b + th) (fly r P [Turn s1 a1; Ahead l])).
  { change (fly r P [Turn s1 a1; Ahead l]) with (fly1 r (fly r P [Turn s1 a1]) (Ahead l)).
    destruct (fly r P [Turn s1 a1]) as ((n1, e1), h1). destruct R1 as (E & Ch & Sh). cbn [fst snd] in *.
    assert (En : n1 = fst c1 + r * sin (a + th)) by exact (f_equal fst E). assert (Ee : e1 = snd c1 + r * cos (a + th)) by exact (f_equal snd E).
    unfold rides, fly1, around. cbn [fst snd]. rewrite Ch, Sh, En, Ee, !sin_plus, !cos_plus. split; [|split].
    - f_equal.
      + transitivity (fst c1 + (r * sin a + l * (sign s1 * cos a)) * cos th + (r * cos a - l * (sign s1 * sin a)) * sin th); [ring|].
        rewrite Q1, Q2. ring.
      + transitivity (snd c1 + (r * cos a - l * (sign s1 * sin a)) * cos th - (r * sin a + l * (sign s1 * cos a)) * sin th); [ring|].
        rewrite Q1, Q2. ring.
    - transitivity ((sign s1 * cos a) * cos th - (sign s1 * sin a) * sin th); [ring|]. rewrite <- VC, <- VS. ring.
    - transitivity (- ((sign s1 * sin a) * cos th + (sign s1 * cos a) * sin th)); [ring|]. rewrite <- VC, <- VS. ring. }
  assert (R3 : rides s2 (around c1 m th) r (be + th) (fly r P [Turn s1 a1; Ahead l; Turn s2 a2])).
  { change (fly r P [Turn s1 a1; Ahead l; Turn s2 a2]) with (fly1 r (fly r P [Turn s1 a1; Ahead l]) (Turn s2 a2)).
    apply (rides_turn s2 _ r (b + th)); [exact R2|]. exists k2. rewrite K2. ring. }
  assert (R4 : rides s2 c2 r (be + th) (finish, h')).
  { apply (rides_start s2 r (be + th) (finish, h')); [lra|]. fold c2. cbn [fst]. rewrite Y0. symmetry. apply around_cs; assumption. }
  assert (MD : Rabs (m - D) <= 1 /\ (s1 = s2 -> Rabs (m - D) <= 1 / 2)).
  { destruct Q3 as [(-> & _)|(NE & G1 & -> & _)].
    - split; intros; apply Rabs_le; lra.
    - destruct G as [G|G]; [contradiction|]. split; [apply Rabs_le; lra|contradiction]. }
  assert (p1E : from_frame c1 (- th) (r * sin a, r * cos a) = fst (fly r P [Turn s1 a1])).
  { rewrite from_polar. destruct R1 as (-> & _). reflexivity. }
  set (q := from_frame c1 (- th) (r * sin b, d + r * cos b)).
  assert (qE : q = around (around c1 d th) r (b + th)).
  { unfold q, from_frame, around. cbn [fst snd]. rewrite cos_neg, sin_neg, !sin_plus, !cos_plus. f_equal; ring. }
  set (l' := apart (r * sin b, d + r * cos b) (r * sin a, r * cos a)) in *.
  assert (qm : dist q (fst (fly r P [Turn s1 a1; Ahead l])) <= 1 / 2 /\ (s1 = s2 -> q = fst (fly r P [Turn s1 a1; Ahead l])) /\
               Rabs (l' - l) <= 1 / 2 /\ (s1 = s2 -> l' = l) /\ 0 <= l' /\ (2 * r <= d -> l' = l)).
  { destruct R2 as (-> & _). rewrite qE, dist_shift. destruct Q3 as [(-> & ->)|(NE & G1 & -> & -> & ->)].
    - rewrite !Rminus_diag_eq by reflexivity. rewrite Rabs_R0. repeat split; intros; lra || reflexivity.
    - destruct G as [G|G]; [contradiction|]. split; [apply Rabs_le; lra|]. split; [contradiction|]. split; [apply Rabs_le; lra|].
      split; [contradiction|]. split; lra. }
  destruct qm as (qm1 & qm2 & qm3 & qm4 & qm5 & qm6).
  eexists. split; [reflexivity|]. cbv beta iota.
  exists m, th. split; [exact CC|].
  rewrite (Rmult_comm b1 r), (Rmult_comm b2 r). rewrite p1E.
  set (w1 := if Rle_dec 1 (r * b1) then turn_points start (fst (fly r P [Turn s1 a1])) (r * b1) C1 sep else []).
  set (w3 := if Rle_dec 1 (r * b2) then turn_points q finish (r * b2) C2 sep else []).
  assert (W1 : maybe_arc c1 r s1 sep start (fst (fly r P [Turn s1 a1])) (r * b1) w1).
  { unfold w1, C1. destruct (Rle_dec 1 (r * b1)); [left; split; [assumption|apply turn_points_way; lra]|right; split; [lra|reflexivity]]. }
  assert (W3 : maybe_arc c2 r s2 sep q finish (r * b2) w3).
  { unfold w3, C2. destruct (Rle_dec 1 (r * b2)); [left; split; [assumption|apply turn_points_way; lra]|right; split; [lra|reflexivity]]. }
  clearbody w1 w3.
  exists a1, b1, l, l', a2, b2, w1, q, w3. cbv zeta.
  split.
  - split; [exact N1|]. split; [exact N2|]. split; [exact L0|]. split; [exact qm5|]. split; [exact qm3|]. split; [exact qm4|].
    split. { destruct R3 as (_ & Ch & Sh), R4 as (_ & Ch' & Sh'). cbn [snd] in Ch', Sh'. split; [rewrite Ch; symmetry; exact Ch'|rewrite Sh; symmetry; exact Sh']. }
    assert (DE : dist (fst (fly r P [Turn s1 a1; Ahead l; Turn s2 a2])) finish = Rabs (m - D)).
    { destruct R3 as (-> & _), R4 as (F & _). cbn [fst] in F. rewrite F, CC. apply dist_shift. }
    rewrite DE. split; [apply MD|]. split; [apply MD|]. split; [exact qm1|]. split; [exact qm2|].
    split; [exact W1|]. split; [exact W3|]. split; [reflexivity|].
    (* the length *)
    rewrite total_app.
    assert (T3 : total (Some q) w3 = at_least_one (r * b2)).
    { unfold at_least_one. destruct W3 as [(A & W)|(A & ->)]; destruct (Rle_dec 1 (r * b2)); try lra.
      - rewrite <- (app_nil_r w3), (arc_total c2 r s2 sep q finish (r * b2) w3 (Some q) [] Sp W) by lra. cbn. rewrite Rmax_right by lra. ring.
      - reflexivity. }
    assert (T1 : total None w1 = at_least_one (r * b1)).
    { unfold at_least_one. destruct W1 as [(A & W)|(A & ->)]; destruct (Rle_dec 1 (r * b1)); try lra.
      - rewrite <- (app_nil_r w1), (arc_total c1 r s1 sep start _ (r * b1) w1 None [] Sp W) by lra. cbn. rewrite Rmax_right by lra. ring.
      - reflexivity. }
    assert (LS : last_spot None w1 = None \/ last_spot None w1 = Some (fst (fly r P [Turn s1 a1]))).
    { destruct W1 as [(A & (x & rho & k & _ & _ & -> & _))|(A & ->)]; [right|left; reflexivity].
      unfold last_spot. rewrite fold_left_app. reflexivity. }
    cbn [total long spot]. rewrite T1, T3.
    destruct (Rlt_dec 0 l') as [Lp|Lp]; [ring|]. assert (Z : l' = 0) by lra. rewrite Z.
    destruct LS as [->| ->]; [ring|].
    assert (AZ : apart q (fst (fly r P [Turn s1 a1])) = 0); [|rewrite AZ; ring].
    rewrite <- p1E. unfold q. unfold l', apart in Z. cbn [fst snd] in Z. unfold apart, from_frame. cbn [fst snd]. rewrite <- Z. f_equal.
    rewrite cos_neg, sin_neg. pose proof (sin2_cos2 th) as T. unfold Rsqr in T.
    match goal with |- _ = ?v => transitivity (v * (sin th * sin th + cos th * cos th)); [ring|rewrite T; ring] end.
  - split; [exact (rides_hub _ _ _ _ _ R2)|]. split; [exact Q4|]. intros NE G1. destruct (Q5 NE G1) as (-> & LL). split; [reflexivity|]. split; [exact LL|]. apply qm6. exact G1.
Qed.

(** C68: the headings of the steering service lead the vehicle onto its leg, or its loiter, and along it. *)
From Coq Require Import Reals Lra Lia ZArith List.
From Verif Require Import SteeringModel SteeringSpec SteeringProps SteeringCourseModel.
Open Scope R_scope.

(** The unit vector, north and east, of a heading in degrees clockwise from north. *)
Definition direction (h : R) : rpoint := (cos (h * PI / 180), sin (h * PI / 180)).
Definition distance (a b : rpoint) : R :=
  sqrt ((fst a - fst b) * (fst a - fst b) + (snd a - snd b) * (snd a - snd b)).
(** How fast a vehicle flying in direction [v] comes along the line from [a] to [b]; and to its right. *)
Definition ahead (a b v : rpoint) : R :=
  ((fst b - fst a) * fst v + (snd b - snd a) * snd v) / distance a b.
Definition right (a b v : rpoint) : R :=
  ((fst b - fst a) * snd v - (snd b - snd a) * fst v) / distance a b.
(** The distance of the point [p] from the line from [a] to [b]; positive on the right. *)
Definition off (a b p : rpoint) : R := right a b (fst p - fst a, snd p - snd a).
(** How fast it comes away from the point [c], and around it clockwise. *)
Definition away (c p v : rpoint) : R := ahead c p v.
Definition clock (c p v : rpoint) : R := right c p v.

(** *** Angles *)
Lemma mag_pos x y : (x <> 0 \/ y <> 0) -> 0 < sqrt (x * x + y * y).
Proof.
  intros H. apply sqrt_lt_R0. destruct H as [H|H].
  - assert (0 < x * x) by (apply Rsqr_pos_lt in H; exact H). assert (0 <= y * y) by apply Rle_0_sqr. lra.
  - assert (0 < y * y) by (apply Rsqr_pos_lt in H; exact H). assert (0 <= x * x) by apply Rle_0_sqr. lra.
Qed.

Lemma cos_atan_pos x : 0 < cos (atan x).
Proof. destruct (atan_bound x). apply cos_gt_0; lra. Qed.

Lemma atan_xy x y : 0 < x -> x = sqrt (x * x + y * y) * cos (atan (y / x)) /\ y = sqrt (x * x + y * y) * sin (atan (y / x)).
Proof.
  intros P. pose proof (cos_atan_pos (y / x)) as C. pose proof (tan_atan (y / x)) as T. unfold tan in T.
  set (c := cos (atan (y / x))) in *. set (s := sin (atan (y / x))) in *.
  assert (SC : s * s + c * c = 1). { pose proof (sin2_cos2 (atan (y / x))) as E. unfold Rsqr in E. exact E. }
  assert (E1 : s * x = y * c). { apply (f_equal (fun z => z * c * x)) in T. field_simplify in T; lra. }
  assert (M : sqrt (x * x + y * y) = x / c).
  { apply sqrt_lem_1.
    - assert (0 <= x * x) by apply Rle_0_sqr. assert (0 <= y * y) by apply Rle_0_sqr. lra.
    - apply Rlt_le. apply Rdiv_lt_0_compat; lra.
    - apply Rmult_eq_reg_r with (c * c); [|apply Rmult_integral_contrapositive_currified; lra].
      replace (x / c * (x / c) * (c * c)) with (x * x) by (field; lra).
      replace ((x * x + y * y) * (c * c)) with (x * x * (c * c) + (y * c) * (y * c)) by ring.
      rewrite <- E1. replace (x * x * (c * c) + s * x * (s * x)) with (x * x * (s * s + c * c)) by ring. rewrite SC. ring. }
  rewrite M. split; [field; lra|]. replace (x / c * s) with (s * x / c) by (field; lra). rewrite E1. field. lra.
Qed.

Lemma atan2_xy y x : x = sqrt (x * x + y * y) * cos (atan2 y x) /\ y = sqrt (x * x + y * y) * sin (atan2 y x).
Proof.
  unfold atan2. destruct (Rlt_dec 0 x) as [P|P]; [apply atan_xy; exact P|].
  destruct (Rlt_dec x 0) as [N|N].
  - destruct (atan_xy (- x) (- y)) as (A & B); [lra|].
    replace (- y / - x) with (y / x) in * by (field; lra).
    replace (- x * - x + - y * - y) with (x * x + y * y) in * by ring.
    destruct (Rle_dec 0 y).
    + rewrite neg_cos, neg_sin. lra.
    + replace (atan (y / x) - PI) with (- (PI - atan (y / x))) by ring. rewrite cos_neg, sin_neg.
      replace (PI - atan (y / x)) with (- atan (y / x) + PI) by ring. rewrite neg_cos, neg_sin, cos_neg, sin_neg. lra.
  - assert (x = 0) by lra. subst x. replace (0 * 0 + y * y) with (Rsqr y) by (unfold Rsqr; ring). rewrite sqrt_Rsqr_abs.
    destruct (Rlt_dec 0 y); [|destruct (Rlt_dec y 0)].
    + rewrite Rabs_pos_eq, cos_PI2, sin_PI2 by lra. lra.
    + rewrite Rabs_left, cos_neg, sin_neg, cos_PI2, sin_PI2 by lra. lra.
    + assert (y = 0) by lra. subst y. rewrite Rabs_R0. lra.
Qed.

(** Turning the vehicle around a whole number of times changes nothing. *)
Lemma turn_Z x (k : Z) : cos (x + 2 * IZR k * PI) = cos x /\ sin (x + 2 * IZR k * PI) = sin x.
Proof.
  destruct k as [|k|k].
  - replace (x + 2 * 0 * PI) with x by ring. auto.
  - rewrite <- (positive_nat_Z k), <- INR_IZR_INZ. split; [apply cos_period|apply sin_period].
  - rewrite <- Pos2Z.opp_pos, opp_IZR. rewrite <- (positive_nat_Z k), <- INR_IZR_INZ.
    set (n := Pos.to_nat k). rewrite <- (cos_period (x + 2 * - INR n * PI) n), <- (sin_period (x + 2 * - INR n * PI) n).
    replace (x + 2 * - INR n * PI + 2 * INR n * PI) with x by ring. auto.
Qed.

Lemma cut_range x : -1 < x - IZR (cut x) < 1 /\ (0 <= x -> 0 <= x - IZR (cut x)) /\ (x < 0 -> x - IZR (cut x) <= 0).
Proof.
  unfold cut. destruct (Rle_dec 0 x).
  - destruct (base_Int_part x). repeat split; intros; lra.
  - destruct (base_Int_part (- x)). rewrite opp_IZR. repeat split; intros; lra.
Qed.

Lemma fmod_range x : -360 < fmod x 360 < 360.
Proof.
  unfold fmod. destruct (cut_range (x / 360)) as ((A & B) & _).
  replace (x - 360 * IZR (cut (x / 360))) with (360 * (x / 360 - IZR (cut (x / 360)))) by field. lra.
Qed.

Lemma normalize_turns x : exists k : Z, normalize_deg x = x + 360 * IZR k.
Proof.
  unfold normalize_deg. assert (E : fmod x 360 = x + 360 * IZR (- cut (x / 360))) by (unfold fmod; rewrite opp_IZR; ring).
  destruct (Rlt_dec _ _); [|destruct (Rle_dec _ _)].
  - exists (- cut (x / 360) + 1)%Z. rewrite plus_IZR. lra.
  - exists (- cut (x / 360) + -1)%Z. rewrite plus_IZR. lra.
  - exists (- cut (x / 360))%Z. exact E.
Qed.

Lemma direction_course x : direction (normalize_deg (to_deg x)) = (cos x, sin x).
Proof.
  unfold direction. destruct (normalize_turns (to_deg x)) as (k & ->). unfold to_deg.
  assert (P := PI_RGT_0).
  replace ((x * 180 / PI + 360 * IZR k) * PI / 180) with (x + 2 * IZR k * PI) by (field; lra).
  destruct (turn_Z x k) as (-> & ->). reflexivity.
Qed.

(** Headings are at least -180 and less than 180 degrees. *)
Theorem C68_range : forall x, -180 <= normalize_deg x < 180.
Proof.
  intros x. unfold normalize_deg. destruct (fmod_range x) as (A & B).
  destruct (Rlt_dec _ _); [lra|]. destruct (Rle_dec _ _); lra.
Qed.

Section Line.
  Context (cinf kline : R) (C1 : 0 < cinf <= PI / 2) (K : 0 < kline).
  Context (a b : rpoint) (AB : a <> b).

  Lemma dist_pos : 0 < distance a b.
  Proof.
    unfold distance. apply mag_pos. destruct a as (x, y), b as (x', y'). cbn [fst snd] in *.
    destruct (Req_dec x x') as [->|]; [|left; lra]. destruct (Req_dec y y') as [->|]; [congruence|right; lra].
  Qed.

  Lemma path_angle : exists t, atan2 (snd (rsub b a)) (fst (rsub b a)) = t /\
    fst b - fst a = distance a b * cos t /\ snd b - snd a = distance a b * sin t.
  Proof.
    eexists. split; [reflexivity|]. unfold rsub. cbn [fst snd].
    destruct (atan2_xy (snd b - snd a) (fst b - fst a)) as (A & B).
    replace (distance a b) with (sqrt ((fst b - fst a) * (fst b - fst a) + (snd b - snd a) * (snd b - snd a)));
      [auto|]. unfold distance. f_equal. ring.
  Qed.

  Definition lean (y : R) : R := 2 * cinf / PI * atan (kline * y).

  Lemma lean_bound y : - cinf < lean y < cinf.
  Proof.
    unfold lean. destruct (atan_bound (kline * y)) as (A & B). assert (P := PI_RGT_0).
    replace (2 * cinf / PI * atan (kline * y)) with (cinf * (atan (kline * y) / (PI / 2))) by (field; lra).
    assert (-1 < atan (kline * y) / (PI / 2)).
    { apply Rmult_lt_reg_r with (PI / 2); [lra|]. unfold Rdiv at 2. rewrite Rmult_assoc, Rinv_l by lra. lra. }
    assert (atan (kline * y) / (PI / 2) < 1).
    { apply Rmult_lt_reg_r with (PI / 2); [lra|]. unfold Rdiv at 1. rewrite Rmult_assoc, Rinv_l by lra. lra. }
    split; nra.
  Qed.
  Lemma lean_incr y z : y < z -> lean y < lean z.
  Proof.
    intros L. unfold lean. apply Rmult_lt_compat_l.
    - assert (P := PI_RGT_0). apply Rdiv_lt_0_compat; lra.
    - apply atan_increasing. apply Rmult_lt_compat_l; assumption.
  Qed.
  Lemma lean_0 : lean 0 = 0.
  Proof. unfold lean. rewrite Rmult_0_r, atan_0. ring. Qed.

  (** The heading is that of the leg, turned to the left by [lean] of the distance to the right. *)
  Lemma line_direction p :
    ahead a b (direction (line_heading cinf kline a b p)) = cos (lean (off a b p)) /\
    right a b (direction (line_heading cinf kline a b p)) = - sin (lean (off a b p)).
  Proof.
    destruct path_angle as (t & T & X & Y). pose proof dist_pos as D.
    unfold line_heading. rewrite direction_course, T.
    assert (O : rdot (rotate (normalize (rsub b a)) (PI / 2)) (rsub p a) = off a b p).
    { unfold off, right, rdot, rotate, normalize, rsub. cbn [fst snd].
      replace (mag (fst b - fst a, snd b - snd a)) with (distance a b) by (unfold mag, distance; cbn [fst snd]; f_equal; ring).
      destruct (Req_EM_T (distance a b) 0); [lra|]. cbn [fst snd]. rewrite cos_PI2, sin_PI2. field. lra. }
    rewrite O. replace (-2 * cinf / PI * atan (kline * off a b p)) with (- lean (off a b p)) by (unfold lean; field; apply PI_neq0).
    set (l := lean (off a b p)). unfold ahead, right. cbn [fst snd]. rewrite X, Y.
    rewrite (Rplus_comm (- l) t), cos_plus, sin_plus, cos_neg, sin_neg.
    assert (S := sin2_cos2 t). unfold Rsqr in S. split.
    - replace (cos l) with (cos l * (sin t * sin t + cos t * cos t)) at 3 by (rewrite S; ring). field. lra.
    - replace (- sin l) with (- sin l * (sin t * sin t + cos t * cos t)) at 3 by (rewrite S; ring). field. lra.
  Qed.

  (** Along a leg: wherever the vehicle is, the heading leads it forward, and to the leg if it is not
      on it; on the leg it leads exactly along the leg. *)
  Theorem C68_line : forall p,
    let v := direction (line_heading cinf kline a b p) in
    0 < ahead a b v /\ (off a b p <> 0 -> off a b p * right a b v < 0) /\
    (off a b p = 0 -> ahead a b v = 1 /\ right a b v = 0).
  Proof.
    intros p v. unfold v. destruct (line_direction p) as (A & B). rewrite A, B.
    destruct (lean_bound (off a b p)) as (L1 & L2). split; [apply cos_gt_0; lra|]. split.
    - intros N. destruct (Rtotal_order (off a b p) 0) as [H|[H|H]]; [|contradiction|].
      + pose proof (lean_incr _ _ H) as L. rewrite lean_0 in L.
        assert (0 < sin (- lean (off a b p))) by (apply sin_gt_0; lra). rewrite sin_neg in *. nra.
      + pose proof (lean_incr _ _ H) as L. rewrite lean_0 in L.
        assert (0 < sin (lean (off a b p))) by (apply sin_gt_0; lra). nra.
    - intros ->. rewrite lean_0, cos_0, sin_0. lra.
  Qed.

  (** The farther it is, the more directly: the speed towards the leg is at least that at any lesser
      distance. *)
  Lemma line_closing p e : 0 < e -> e <= Rabs (off a b p) ->
    off a b p * right a b (direction (line_heading cinf kline a b p)) <= - (e * sin (lean e)).
  Proof.
    intros E H. destruct (line_direction p) as (_ & B). rewrite B.
    pose proof (lean_incr 0 e E) as L0. rewrite lean_0 in L0. destruct (lean_bound e) as (_ & Le).
    assert (G : forall y, e <= y -> e * sin (lean e) <= y * sin (lean y)).
    { intros y Y. destruct (lean_bound y) as (_ & Ly).
      assert (LL : lean e <= lean y) by (destruct (Rle_lt_or_eq_dec _ _ Y) as [Q| ->]; [apply Rlt_le, lean_incr; exact Q|lra]).
      assert (0 < sin (lean e)) by (apply sin_gt_0; lra).
      assert (sin (lean e) <= sin (lean y)) by (apply sin_incr_1; lra). nra. }
    assert (ODD : lean (- off a b p) = - lean (off a b p)).
    { unfold lean. rewrite <- Ropp_mult_distr_r, atan_opp. ring. }
    destruct (Rle_dec 0 (off a b p)) as [P|P].
    - rewrite Rabs_pos_eq in H by exact P. specialize (G _ H). lra.
    - rewrite Rabs_left in H by lra. specialize (G _ H). rewrite ODD, sin_neg in G. lra.
  Qed.
End Line.

(** *** Flights *)

(** A quantity that is driven to 0 gets there. *)
Lemma settle (f f' : R -> R) :
  (forall t, 0 <= t -> derivable_pt_lim f t (f' t)) ->
  (forall t, 0 <= t -> f t * f' t <= 0) ->
  (forall e, 0 < e -> exists m, 0 < m /\ forall t, 0 <= t -> e <= Rabs (f t) -> f t * f' t <= - m) ->
  (forall s t, 0 <= s <= t -> Rabs (f t) <= Rabs (f s)) /\
  (forall e, 0 < e -> exists T, 0 <= T /\ forall t, T <= t -> Rabs (f t) < e).
Proof.
  intros D N M.
  assert (DG : forall t, 0 <= t -> derivable_pt_lim (fun t => f t * f t) t (2 * (f t * f' t))).
  { intros t P. replace (2 * (f t * f' t)) with (f' t * f t + f t * f' t) by ring.
    apply (derivable_pt_lim_mult f f); apply D; exact P. }
  assert (SQ : forall x, x * x = Rabs x * Rabs x).
  { intros x. rewrite <- Rabs_mult. symmetry. apply Rabs_pos_eq. apply Rle_0_sqr. }
  assert (MONO : forall s t, 0 <= s <= t -> Rabs (f t) <= Rabs (f s)).
  { intros s t (H1 & H2). destruct (Rle_lt_or_eq_dec _ _ H2) as [L| ->]; [|lra].
    destruct (MVT_cor2 (fun t => f t * f t) (fun t => 2 * (f t * f' t)) s t L) as (c & E & C1).
    { intros c C. apply DG. lra. }
    cbn beta in E. assert (NC := N c). assert (0 <= c) by lra. specialize (NC H).
    apply Rsqr_incr_0; try apply Rabs_pos. unfold Rsqr. rewrite <- !SQ.
    assert (2 * (f c * f' c) * (t - s) <= 0) by nra. lra. }
  split; [exact MONO|]. intros e E. destruct (M e E) as (m & MP & ML).
  set (T := f 0 * f 0 / (2 * m) + 1).
  assert (G0 : 0 <= f 0 * f 0) by apply Rle_0_sqr.
  assert (TP : 0 < T). { unfold T. assert (0 <= f 0 * f 0 / (2 * m)) by (apply Rmult_le_pos; [exact G0|apply Rlt_le, Rinv_0_lt_compat; lra]). lra. }
  exists T. split; [lra|]. intros t HT.
  destruct (Rlt_le_dec (Rabs (f t)) e) as [L|L]; [exact L|exfalso].
  destruct (MVT_cor2 (fun t => f t * f t) (fun t => 2 * (f t * f' t)) 0 t) as (c & EQ & C1); [lra| |].
  { intros c C. apply DG. lra. }
  cbn beta in EQ. assert (B := ML c). assert (C0 : 0 <= c) by lra. specialize (B C0).
  assert (LC : e <= Rabs (f c)). { apply Rle_trans with (Rabs (f t)); [exact L|]. apply MONO. lra. }
  specialize (B LC). assert (0 <= f t * f t) by apply Rle_0_sqr.
  assert (2 * m * t >= 2 * m * T) by nra.
  assert (2 * m * T = f 0 * f 0 + 2 * m) by (unfold T; field; lra).
  assert (2 * (f c * f' c) * (t - 0) <= - (2 * m * t)) by nra. lra.
Qed.

(** The position [p t] of a vehicle that always flies as commanded by [head], at the speed [v t]. *)
Definition flight (head : rpoint -> R) (p : R -> rpoint) (v : R -> R) : Prop :=
  forall t, 0 <= t ->
    derivable_pt_lim (fun t => fst (p t)) t (v t * fst (direction (head (p t)))) /\
    derivable_pt_lim (fun t => snd (p t)) t (v t * snd (direction (head (p t)))).

Section LineFlight.
  Context (cinf kline : R) (C1 : 0 < cinf <= PI / 2) (K : 0 < kline).
  Context (a b : rpoint) (AB : a <> b).

  (** A vehicle that flies as commanded at a speed of at least [v0] never gets farther from the leg,
      and in time as close to it as one likes. *)
  Theorem C68_line_reached : forall p v v0,
    flight (line_heading cinf kline a b) p v -> 0 < v0 -> (forall t, 0 <= t -> v0 <= v t) ->
    (forall s t, 0 <= s <= t -> Rabs (off a b (p t)) <= Rabs (off a b (p s))) /\
    (forall e, 0 < e -> exists T, 0 <= T /\ forall t, T <= t -> Rabs (off a b (p t)) < e).
  Proof.
    intros p v v0 F V0 V.
    apply (settle (fun t => off a b (p t)) (fun t => v t * right a b (direction (line_heading cinf kline a b (p t))))).
    - intros t P. destruct (F t P) as (FX & FY). pose proof (dist_pos a b AB) as D.
      set (d := direction (line_heading cinf kline a b (p t))) in *.
      assert (L := derivable_pt_lim_plus _ _ t _ _
        (derivable_pt_lim_plus _ _ t _ _
          (derivable_pt_lim_scal _ ((fst b - fst a) / distance a b) t _ FY)
          (derivable_pt_lim_scal _ (- ((snd b - snd a) / distance a b)) t _ FX))
        (derivable_pt_lim_const (((snd b - snd a) * fst a - (fst b - fst a) * snd a) / distance a b) t)).
      replace (v t * right a b d) with
        ((fst b - fst a) / distance a b * (v t * snd d) + - ((snd b - snd a) / distance a b) * (v t * fst d) + 0)
        by (unfold right; field; lra).
      eapply derivable_pt_lim_ext; [|exact L]. intros z. cbn beta. unfold plus_fct, mult_real_fct, fct_cte, off, right. cbn [fst snd]. field. lra.
    - intros t P. specialize (V t P). destruct (C68_line cinf kline C1 K a b AB (p t)) as (_ & H1 & H2). cbn zeta in *.
      destruct (Req_dec (off a b (p t)) 0) as [Z|Z]; [rewrite Z; lra|]. specialize (H1 Z).
      set (r := right a b _) in *. set (o := off a b (p t)) in *. nra.
    - intros e E. exists (v0 * (e * sin (lean cinf kline e))).
      pose proof (lean_incr cinf kline C1 K 0 e E) as L0. rewrite lean_0 in L0. destruct (lean_bound cinf kline C1 e) as (_ & Le).
      assert (SP : 0 < sin (lean cinf kline e)) by (apply sin_gt_0; lra).
      assert (0 < e * sin (lean cinf kline e)) by nra. split; [nra|]. intros t P H1. specialize (V t P).
      pose proof (line_closing cinf kline C1 K a b AB (p t) e E H1) as H2.
      set (r := right a b _) in *. set (o := off a b (p t)) in *. set (m := e * sin _) in *. nra.
  Qed.
End LineFlight.

Section Orbit.
  Context (korbit : R) (K : 0 < korbit) (c : rpoint) (r : R) (RP : 0 < r) (cw : bool).

  Definition bend (d : R) : R := atan (korbit * (d - r) / r).

  Lemma bend_incr y z : y < z -> bend y < bend z.
  Proof.
    intros L. apply atan_increasing. unfold Rdiv. apply Rmult_lt_compat_r; [apply Rinv_0_lt_compat; exact RP|].
    apply Rmult_lt_compat_l; lra.
  Qed.
  Lemma bend_r : bend r = 0.
  Proof. unfold bend. replace (korbit * (r - r) / r) with 0 by (field; lra). apply atan_0. Qed.

  Lemma orbit_direction p : c <> p ->
    away c p (direction (orbit_heading korbit c r cw p)) = - sin (bend (distance c p)) /\
    clock c p (direction (orbit_heading korbit c r cw p)) = (if cw then 1 else -1) * cos (bend (distance c p)).
  Proof.
    intros N. pose proof (dist_pos c p N) as D. unfold orbit_heading. rewrite direction_course.
    destruct (path_angle c p) as (t & T & X & Y). rewrite T.
    replace (mag (rsub p c)) with (distance c p) by (unfold mag, distance, rsub; cbn [fst snd]; f_equal; ring).
    fold (bend (distance c p)). set (l := bend (distance c p)). unfold away, clock, ahead, right. cbn [fst snd]. rewrite X, Y.
    assert (S := sin2_cos2 t). unfold Rsqr in S.
    assert (E : (if cw then t + PI / 2 + l else t - PI / 2 - l) = t + (if cw then 1 else -1) * (PI / 2 + l)) by (destruct cw; ring).
    rewrite E. clear E.
    assert (CS : cos ((if cw then 1 else -1) * (PI / 2 + l)) = - sin l /\ sin ((if cw then 1 else -1) * (PI / 2 + l)) = (if cw then 1 else -1) * cos l).
    { destruct cw.
      - rewrite Rmult_1_l, cos_plus, sin_plus, cos_PI2, sin_PI2. lra.
      - replace (-1 * (PI / 2 + l)) with (- (PI / 2 + l)) by ring. rewrite cos_neg, sin_neg, cos_plus, sin_plus, cos_PI2, sin_PI2. lra. }
    destruct CS as (CC & SS). rewrite cos_plus, sin_plus, CC, SS. set (w := if cw then 1 else -1). split.
    - replace (- sin l) with (- sin l * (sin t * sin t + cos t * cos t)) at 3 by (rewrite S; ring). field. lra.
    - replace (w * cos l) with (w * cos l * (sin t * sin t + cos t * cos t)) at 3 by (rewrite S; ring). field. lra.
  Qed.

  (** Around a loiter: wherever the vehicle is, except at the centre, the heading leads it around in
      the given direction, inward outside the circle and outward inside; on the circle it is a tangent. *)
  Theorem C68_orbit : forall p, c <> p ->
    let v := direction (orbit_heading korbit c r cw p) in
    (if cw then 0 < clock c p v else clock c p v < 0) /\
    (distance c p <> r -> (distance c p - r) * away c p v < 0) /\
    (distance c p = r -> away c p v = 0 /\ clock c p v = (if cw then 1 else -1)).
  Proof.
    intros p N v. unfold v. destruct (orbit_direction p N) as (A & B). rewrite A, B.
    destruct (atan_bound (korbit * (distance c p - r) / r)) as (L1 & L2). fold (bend (distance c p)) in L1, L2.
    assert (CP : 0 < cos (bend (distance c p))) by (apply cos_gt_0; lra).
    split; [destruct cw; lra|]. split.
    - intros NR. destruct (Rtotal_order (distance c p) r) as [H|[H|H]]; [|contradiction|].
      + pose proof (bend_incr _ _ H) as L. rewrite bend_r in L.
        assert (0 < sin (- bend (distance c p))) by (apply sin_gt_0; lra). rewrite sin_neg in *. nra.
      + pose proof (bend_incr _ _ H) as L. rewrite bend_r in L.
        assert (0 < sin (bend (distance c p))) by (apply sin_gt_0; lra). nra.
    - intros ->. rewrite bend_r, sin_0, cos_0. destruct cw; lra.
  Qed.

  Lemma orbit_closing p e : c <> p -> 0 < e -> e <= Rabs (distance c p - r) ->
    (distance c p - r) * away c p (direction (orbit_heading korbit c r cw p)) <= - (e * sin (bend (r + e))).
  Proof.
    intros N E H. destruct (orbit_direction p N) as (A & _). rewrite A.
    assert (L0 : 0 < bend (r + e)) by (rewrite <- bend_r; apply bend_incr; lra).
    destruct (atan_bound (korbit * (r + e - r) / r)) as (_ & Le). fold (bend (r + e)) in Le.
    assert (G : forall d, r + e <= d -> e * sin (bend (r + e)) <= (d - r) * sin (bend d)).
    { intros d Hd. destruct (atan_bound (korbit * (d - r) / r)) as (_ & Ly). fold (bend d) in Ly.
      assert (LL : bend (r + e) <= bend d) by (destruct (Rle_lt_or_eq_dec _ _ Hd) as [Q| <-]; [apply Rlt_le, bend_incr; exact Q|lra]).
      assert (0 < sin (bend (r + e))) by (apply sin_gt_0; lra).
      assert (sin (bend (r + e)) <= sin (bend d)) by (apply sin_incr_1; lra). nra. }
    set (d := distance c p) in *.
    assert (ODD : bend (r + (r - d)) = - bend d).
    { unfold bend. rewrite <- atan_opp. f_equal. field. lra. }
    destruct (Rle_dec r d) as [P|P].
    - rewrite Rabs_pos_eq in H by lra. assert (H' : r + e <= d) by lra. specialize (G _ H'). lra.
    - rewrite Rabs_left in H by lra. assert (H' : r + e <= r + (r - d)) by lra. specialize (G _ H'). rewrite ODD, sin_neg in G. lra.
  Qed.

  (** A vehicle that flies as commanded at a speed of at least [v0], and is never exactly at the centre,
      never gets farther from the circle, and in time as close to it as one likes. *)
  Theorem C68_orbit_reached : forall p v v0,
    flight (orbit_heading korbit c r cw) p v -> 0 < v0 -> (forall t, 0 <= t -> v0 <= v t) ->
    (forall t, c <> p t) ->
    (forall s t, 0 <= s <= t -> Rabs (distance c (p t) - r) <= Rabs (distance c (p s) - r)) /\
    (forall e, 0 < e -> exists T, 0 <= T /\ forall t, T <= t -> Rabs (distance c (p t) - r) < e).
  Proof.
    intros p v v0 F V0 V N.
    apply (settle (fun t => distance c (p t) - r) (fun t => v t * away c (p t) (direction (orbit_heading korbit c r cw (p t))))).
    - intros t P. destruct (F t P) as (FX & FY). pose proof (dist_pos c (p t) (N t)) as D.
      set (d := direction (orbit_heading korbit c r cw (p t))) in *.
      assert (LX := derivable_pt_lim_minus _ _ t _ _ (derivable_pt_lim_const (fst c) t) FX).
      assert (LY := derivable_pt_lim_minus _ _ t _ _ (derivable_pt_lim_const (snd c) t) FY).
      assert (LQ := derivable_pt_lim_plus _ _ t _ _ (derivable_pt_lim_mult _ _ t _ _ LX LX) (derivable_pt_lim_mult _ _ t _ _ LY LY)).
      set (u := (((fct_cte (fst c) - (fun t => fst (p t))) * (fct_cte (fst c) - (fun t => fst (p t))) +
                  (fct_cte (snd c) - (fun t => snd (p t))) * (fct_cte (snd c) - (fun t => snd (p t))))%F)) in LQ.
      assert (UD : forall z, sqrt (u z) = distance c (p z)) by reflexivity.
      assert (UP : 0 < u t).
      { destruct (Rle_lt_dec (u t) 0) as [Q|Q]; [|exact Q]. exfalso. rewrite <- (UD t) in D.
        rewrite sqrt_neg_0 in D by exact Q. lra. }
      assert (LS := derivable_pt_lim_comp u sqrt t _ _ LQ (derivable_pt_lim_sqrt (u t) UP)).
      assert (LF := derivable_pt_lim_minus _ _ t _ _ LS (derivable_pt_lim_const r t)).
      eapply derivable_pt_lim_ext; [|match type of LF with derivable_pt_lim _ _ ?x =>
        replace (v t * away c (p t) d) with x; [exact LF|] end].
      + intros z. reflexivity.
      + rewrite UD. unfold minus_fct, fct_cte, away, ahead. field. lra.
    - intros t P. specialize (V t P). destruct (C68_orbit (p t) (N t)) as (_ & H1 & H2). cbn zeta in *.
      destruct (Req_dec (distance c (p t)) r) as [Z|Z]; [rewrite Z; lra|]. specialize (H1 Z).
      set (w := away c (p t) _) in *. set (o := distance c (p t) - r) in *. nra.
    - intros e E. exists (v0 * (e * sin (bend (r + e)))).
      assert (L0 : 0 < bend (r + e)) by (rewrite <- bend_r; apply bend_incr; lra).
      destruct (atan_bound (korbit * (r + e - r) / r)) as (_ & Le). fold (bend (r + e)) in Le.
      assert (SP : 0 < sin (bend (r + e))) by (apply sin_gt_0; lra).
      assert (0 < e * sin (bend (r + e))) by nra. split; [nra|]. intros t P H1. specialize (V t P).
      pose proof (orbit_closing (p t) e (N t) E H1) as H2.
      set (w := away c (p t) _) in *. set (o := distance c (p t) - r) in *. set (m := e * sin _) in *. nra.
  Qed.
End Orbit.

(** *** Commands *)

(** The heading in a command of the steering service. *)
Definition heading_of (o : out) : option heading :=
  match o with
  | Safe x => Some (s_heading x)
  | Direct x => Some (d_heading x)
  | Report _ _ _ _ => None
  end.

(** A place that is given in millimetres, in metres. *)
Definition in_metres (x : point) : rpoint := (IZR (fst x) / 1000, IZR (snd x) / 1000).

Section Commands.
  Context (vehicle accept : Z) (use_safe : bool) (over : option Z).
  Context (rel : place -> place -> point) (turn : Z -> Z -> Z).
  Context (cinf kline korbit : R) (C1 : 0 < cinf <= PI / 2) (K1 : 0 < kline) (K2 : 0 < korbit).
  Notation step := (step vehicle accept use_safe over rel turn).

  Lemma metres_neq x y : x <> y -> metres x <> metres y.
  Proof.
    intros N E. apply N. unfold metres in E. injection E as E1 E2. destruct x, y. cbn [fst snd] in *.
    assert (IZR z = IZR z1) by lra. assert (IZR z0 = IZR z2) by lra. f_equal; apply eq_IZR; assumption.
  Qed.

  (** Every command on the way along a leg leads the vehicle forward and towards the leg; the only
      others, once the mission has ended, are to go straight to the waypoint from where it is. *)
  Theorem C68_commands : forall s now p w o a b x,
    numbered (wps s) (cur s) w ->
    In o (snd (step s (State vehicle now p))) -> heading_of o = Some (Along a b x) ->
    x = rel p p /\
    ((ended (fst (step s (State vehicle now p))) = true /\ a = x) \/
     (let v := direction (course cinf kline korbit (Along a b x)) in
      0 < ahead (in_metres a) (in_metres b) v /\
      (off (in_metres a) (in_metres b) (in_metres x) <> 0 ->
       off (in_metres a) (in_metres b) (in_metres x) * right (in_metres a) (in_metres b) v < 0))).
  Proof.
    intros s now p w o a b x N I H.
    destruct (C67_report vehicle accept use_safe over rel turn s now p w N)
      as (l & w' & q & start' & last & cmd & FL & ND & L1 & L2 & L3 & O & B1 & B2 & S1 & S2 & S3 & S4).
    rewrite O in I. apply in_app_or in I. destruct I as [I|[<-|[]]]; [|discriminate].
    destruct (by_task s) eqn:BT; [rewrite (B1 eq_refl) in I; destruct I|].
    destruct (B2 eq_refl) as (c & -> & h & v & HD & _ & F). destruct I as [<-|[]].
    assert (h = Along a b x).
    { destruct c; cbn [heading_of] in H; [| |destruct F].
      - destruct F as (_ & _ & _ & _ & _ & E & _). congruence.
      - destruct F as (_ & _ & E & _). congruence. }
    subst h. destruct HD as [(lo & _ & E)|(PL & E)]; [discriminate|]. injection E as -> -> ->.
    split; [reflexivity|]. rewrite S2. destruct last; [left; auto|]. right. cbn [course].
    assert (QN : q <> rel p (w_place w')).
    { intros ->. apply (L3 eq_refl). apply passed_short; [exact PL|]. unfold dist2. lia. }
    destruct (C68_line cinf kline C1 K1 _ _ (metres_neq _ _ QN) (metres (rel p p))) as (A & B & _). auto.
  Qed.

  (** Every command for a loiter leads the vehicle around its place in the given sense, and towards the given distance from it. *)
  Theorem C68_commands_orbit : forall s now p w o c r cw x,
    numbered (wps s) (cur s) w ->
    In o (snd (step s (State vehicle now p))) -> heading_of o = Some (Around c r cw x) ->
    x = rel p p /\
    (c <> x -> (0 < r)%Z ->
     let v := direction (course cinf kline korbit (Around c r cw x)) in
     (if cw then 0 < clock (in_metres c) (in_metres x) v else clock (in_metres c) (in_metres x) v < 0) /\
     (distance (in_metres c) (in_metres x) <> IZR r / 1000 ->
      (distance (in_metres c) (in_metres x) - IZR r / 1000) * away (in_metres c) (in_metres x) v < 0)).
  Proof.
    intros s now p w o c r cw x N I H.
    destruct (C67_report vehicle accept use_safe over rel turn s now p w N)
      as (l & w' & q & start' & last & cmd & FL & ND & L1 & L2 & L3 & O & B1 & B2 & S1 & S2 & S3 & S4).
    rewrite O in I. apply in_app_or in I. destruct I as [I|[<-|[]]]; [|discriminate].
    destruct (by_task s) eqn:BT; [rewrite (B1 eq_refl) in I; destruct I|].
    destruct (B2 eq_refl) as (k & -> & h & v & HD & _ & F). destruct I as [<-|[]].
    assert (h = Around c r cw x).
    { destruct k; cbn [heading_of] in H; [| |destruct F].
      - destruct F as (_ & _ & _ & _ & _ & E & _). congruence.
      - destruct F as (_ & _ & E & _). congruence. }
    subst h. destruct HD as [(lo & _ & E)|(PL & E)]; [|discriminate]. injection E as E1 E2 E3 E4. subst x.
    split; [reflexivity|]. intros Nx R v'. assert (0 < IZR r / 1000) by (apply IZR_lt in R; lra).
    destruct (C68_orbit korbit K2 (metres c) (IZR r / 1000) ltac:(assumption) cw (metres (rel p p)) (metres_neq _ _ Nx)) as (A & B & _).
    split; [exact A|exact B].
  Qed.
End Commands.

(** *** Examples *)
Lemma PI2_range : 0 < PI / 2 <= PI / 2.
Proof. pose proof PI_RGT_0. lra. Qed.
Lemma neq_01 : (0, 0) <> (0, 1).
Proof. intros E. injection E as E. lra. Qed.
Lemma dist_01 : distance (0, 0) (0, 1) = 1.
Proof. unfold distance. cbn [fst snd]. replace ((0 - 0) * (0 - 0) + (0 - 1) * (0 - 1)) with 1 by ring. apply sqrt_1. Qed.

(** A leg to the east and a vehicle one metre north of it, so on the left: it flies half forward and
    half to the right. *)
Example line_example :
  let v := direction (line_heading (PI / 2) 1 (0, 0) (0, 1) (1, 0)) in
  off (0, 0) (0, 1) (1, 0) = -1 /\ ahead (0, 0) (0, 1) v = cos (PI / 4) /\ right (0, 0) (0, 1) v = sin (PI / 4).
Proof.
  intros v. unfold v.
  assert (O : off (0, 0) (0, 1) (1, 0) = -1) by (unfold off, right; rewrite dist_01; cbn [fst snd]; field).
  assert (L : lean (PI / 2) 1 (-1) = - (PI / 4)).
  { unfold lean. replace (1 * -1) with (- (1)) by ring. rewrite atan_opp, atan_1. field. apply PI_neq0. }
  destruct (line_direction (PI / 2) 1 (0, 0) (0, 1) neq_01 (1, 0)) as (A & B). rewrite A, B, O, L, cos_neg, sin_neg.
  split; [reflexivity|]. split; [reflexivity|ring].
Qed.

(** A vehicle that is sent around a place, as in [square_flown]. *)
Example orbit_case : exists s w o c,
  numbered (wps s) (cur s) w /\
  In o (snd (step 7 0 true None flat (fun v _ => v) s (State 7 3000 (2 * km, km)%Z))) /\
  heading_of o = Some (Around c 200000 true (0, 0)%Z) /\ c <> (0, 0)%Z.
Proof.
  exists (fst (steer (firstn 8 legs))), (at_wp 3 4 (km, km)).
  eexists. exists ((- km)%Z, (- km)%Z). split; [|split; [|split]].
  - exists (cons (at_wp 1 2 (0, 0)%Z) (cons (at_wp 2 3 (0, km)%Z) nil)), (cons (at_loiter 4 4 (km, 0)%Z 60000) nil). split; [reflexivity|]. split; [reflexivity|].
    intros x [<-|[<-|[]]]; discriminate.
  - vm_compute. left. reflexivity.
  - reflexivity.
  - discriminate.
Qed.

(** A flight along the leg. *)
Example line_flight : flight (line_heading (PI / 2) 1 (0, 0) (0, 1)) (fun t => (0, t)) (fun _ => 1).
Proof.
  intros t _. cbn [fst snd].
  assert (O : off (0, 0) (0, 1) (0, t) = 0) by (unfold off, right; rewrite dist_01; cbn [fst snd]; field).
  destruct (C68_line (PI / 2) 1 PI2_range Rlt_0_1 (0, 0) (0, 1) neq_01 (0, t)) as (_ & _ & H).
  destruct (H O) as (A & B). unfold ahead, right in A, B. rewrite dist_01 in A, B. cbn [fst snd] in A, B.
  set (d := direction _) in *. replace (fst d) with 0 by lra. replace (snd d) with 1 by lra.
  rewrite Rmult_0_r, Rmult_1_l. split; [apply derivable_pt_lim_const|apply derivable_pt_lim_id].
Qed.

(** A flight around a circle. *)
Lemma dist_circle t : distance (0, 0) (cos t, sin t) = 1.
Proof.
  unfold distance. cbn [fst snd]. replace ((0 - cos t) * (0 - cos t) + (0 - sin t) * (0 - sin t)) with (Rsqr (sin t) + Rsqr (cos t)) by (unfold Rsqr; ring).
  rewrite sin2_cos2. apply sqrt_1.
Qed.
Lemma circle_neq t : (0, 0) <> (cos t, sin t).
Proof.
  intros E. injection E as E1 E2. pose proof (sin2_cos2 t) as S. unfold Rsqr in S. rewrite <- E1, <- E2 in S. lra.
Qed.
Example orbit_flight : flight (orbit_heading 1 (0, 0) 1 true) (fun t => (cos t, sin t)) (fun _ => 1).
Proof.
  intros t _. cbn [fst snd].
  destruct (C68_orbit 1 Rlt_0_1 (0, 0) 1 Rlt_0_1 true (cos t, sin t) (circle_neq t)) as (_ & _ & H).
  destruct (H (dist_circle t)) as (A & B). unfold away, clock, ahead, right in A, B. rewrite dist_circle in A, B. cbn [fst snd] in A, B.
  set (d := direction _) in *. pose proof (sin2_cos2 t) as S. unfold Rsqr in S.
  assert (X : fst d = - sin t).
  { replace (fst d) with (fst d * (sin t * sin t + cos t * cos t)) by (rewrite S; ring).
    replace (fst d * (sin t * sin t + cos t * cos t)) with
      (cos t * (((cos t - 0) * fst d + (sin t - 0) * snd d) / 1) - sin t * (((cos t - 0) * snd d - (sin t - 0) * fst d) / 1)) by field.
    rewrite A, B. ring. }
  assert (Y : snd d = cos t).
  { replace (snd d) with (snd d * (sin t * sin t + cos t * cos t)) by (rewrite S; ring).
    replace (snd d * (sin t * sin t + cos t * cos t)) with
      (sin t * (((cos t - 0) * fst d + (sin t - 0) * snd d) / 1) + cos t * (((cos t - 0) * snd d - (sin t - 0) * fst d) / 1)) by field.
    rewrite A, B. ring. }
  rewrite X, Y, !Rmult_1_l. split; [apply derivable_pt_lim_cos|apply derivable_pt_lim_sin].
Qed.

Print Assumptions C68_range.
Print Assumptions C68_line.
Print Assumptions C68_line_reached.
Print Assumptions C68_orbit.
Print Assumptions C68_orbit_reached.
Print Assumptions C68_commands.
Print Assumptions C68_commands_orbit.

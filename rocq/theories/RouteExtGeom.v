(** Proofs about the manoeuvres that extend a route. *)
From Coq Require Import Reals Lra Lia List ZArith.
From Verif Require Import RouteExtModel RouteExtSpec PiBounds.
Import ListNotations.
Open Scope R_scope.

(** ** atan2 *)
Lemma cos_atan_eq : forall t, cos (atan t) = 1 / sqrt (1 + t * t).
Proof. intros t. rewrite cos_atan. unfold Rsqr. reflexivity. Qed.
Lemma sin_atan_eq : forall t, sin (atan t) = t / sqrt (1 + t * t).
Proof. intros t. rewrite sin_atan. unfold Rsqr. reflexivity. Qed.

Lemma atan2_spec : forall y x, (x <> 0 \/ y <> 0) -> let l := sqrt (x * x + y * y) in
  0 < l /\ l * cos (atan2 y x) = x /\ l * sin (atan2 y x) = y.
Proof.
  intros y x N l. assert (P : 0 < x * x + y * y) by (destruct N; nra). assert (L : 0 < l) by (apply sqrt_lt_R0, P).
  split; [exact L|].
  assert (Q : x <> 0 -> l = Rabs x * sqrt (1 + y / x * (y / x))).
  { intros X. unfold l. rewrite <- (sqrt_Rsqr_abs x). unfold Rsqr. rewrite <- sqrt_mult; [f_equal; field; exact X|nra|].
    pose proof (pow2_ge_0 (y / x)). lra. }
  assert (S : 0 < sqrt (1 + y / x * (y / x))). { apply sqrt_lt_R0. pose proof (pow2_ge_0 (y / x)). lra. }
  unfold atan2. destruct (Rlt_dec 0 x) as [X|X].
  - rewrite cos_atan_eq, sin_atan_eq, Q by lra. rewrite Rabs_right by lra. split; field; lra.
  - destruct (Rlt_dec x 0) as [Y|Y].
    + assert (C : forall a, cos (a - PI) = - cos a /\ sin (a - PI) = - sin a).
      { intros a. rewrite cos_minus, sin_minus, cos_PI, sin_PI. split; ring. }
      rewrite Q by lra. rewrite Rabs_left by lra. destruct (Rle_dec 0 y).
      * rewrite neg_cos, neg_sin, cos_atan_eq, sin_atan_eq. split; field; lra.
      * rewrite (proj1 (C _)), (proj2 (C _)), cos_atan_eq, sin_atan_eq. split; field; lra.
    + assert (Z : x = 0) by lra. subst x. assert (Y0 : y <> 0) by (destruct N; lra).
      unfold l. replace (0 * 0 + y * y) with (Rsqr y) by (unfold Rsqr; ring). rewrite sqrt_Rsqr_abs.
      destruct (Rlt_dec 0 y).
      * rewrite cos_PI2, sin_PI2, Rabs_right by lra. split; ring.
      * destruct (Rlt_dec y 0); [|lra]. rewrite cos_neg, sin_neg, cos_PI2, sin_PI2, Rabs_left by lra. split; ring.
Qed.

(** ** The bisection *)
Lemma same_sign_true : forall a b, same_sign a b = true <-> (a < 0 <-> b < 0).
Proof. intros a b. unfold same_sign. destruct (Rlt_dec a 0), (Rlt_dec b 0); split; intros H; try reflexivity; try discriminate; tauto. Qed.
Lemma same_sign_false : forall a b, same_sign a b = false <-> ~ (a < 0 <-> b < 0).
Proof. intros a b. rewrite <- same_sign_true. destruct (same_sign a b); split; congruence. Qed.

Lemma bisect_ends : forall fuel f lo hi flo, hi - lo <= 2 ^ fuel * eps -> exists m, bisect fuel f lo hi flo = Some m.
Proof.
  induction fuel as [|k IH]; intros f lo hi flo H; cbn [bisect].
  - destruct (Rlt_dec (lo + eps) hi); [exfalso; cbn in H; lra|eauto].
  - destruct (Rlt_dec (lo + eps) hi); [|eauto]. cbn [pow] in H. destruct (same_sign flo _); apply IH; lra.
Qed.

Lemma bisect_ok : forall fuel f lo hi flo m, flo = f lo -> lo <= hi -> bisect fuel f lo hi flo = Some m ->
  lo <= m <= hi /\ exists u, m <= u <= hi /\ u <= m + eps
  /\ (0 <= f lo -> f hi < 0 -> 0 <= f m /\ f u < 0)
  /\ ((forall x, lo <= x <= hi -> f x < 0) -> u = hi).
Proof.
  assert (E : 0 < eps) by (unfold eps; apply Rinv_0_lt_compat; lra).
  induction fuel as [|k IH]; intros f lo hi flo m F O H; cbn [bisect] in H.
  - destruct (Rlt_dec (lo + eps) hi); [discriminate|]. injection H as <-. split; [lra|]. exists hi. split; [lra|]. split; [lra|]. split; auto.
  - destruct (Rlt_dec (lo + eps) hi) as [L|L].
    + set (mid := 1 / 2 * lo + 1 / 2 * hi) in *. assert (M : lo < mid < hi) by (unfold mid; lra).
      destruct (same_sign flo (f mid)) eqn:S.
      * rewrite same_sign_true in S. apply IH in H; [|reflexivity|lra]. destruct H as (B & u & U1 & U2 & U3 & U4).
        split; [lra|]. exists u. split; [lra|]. split; [lra|]. split.
        -- intros P Q. apply U3; [|exact Q]. rewrite F in S. lra.
        -- intros P. apply U4. intros x X. apply P. lra.
      * rewrite same_sign_false in S. apply IH in H; [|exact F|lra]. destruct H as (B & u & U1 & U2 & U3 & U4).
        split; [lra|]. exists u. split; [lra|]. split; [lra|]. split.
        -- intros P Q. apply U3; [exact P|]. rewrite F in S. destruct (Rlt_dec (f mid) 0); [assumption|]. exfalso. apply S. split; intros; lra.
        -- intros P. exfalso. apply S. rewrite F. split; intros; apply P; lra.
    + injection H as <-. split; [lra|]. exists hi. split; [lra|]. split; [lra|]. split; auto.
Qed.

Lemma search_ends : forall f flo, exists m, bisect 28 f 0 (PI / 2) flo = Some m.
Proof. intros f flo. apply bisect_ends. pose proof PI_4. unfold eps. lra. Qed.

(** ** How much a manoeuvre adds *)
Lemma sin_lip : forall a b, a <= b -> Rabs (sin b - sin a) <= b - a /\ Rabs (cos b - cos a) <= b - a.
Proof.
  intros a b H. destruct H as [H|H]; [|subst; rewrite !Rminus_diag_eq, Rabs_R0 by reflexivity; lra].
  split.
  - destruct (MVT_cor2 sin cos a b H) as (c & E & _); [intros; apply derivable_pt_lim_sin|]. rewrite E, Rabs_mult, (Rabs_right (b - a)) by lra.
    pose proof (COS_bound c). assert (Rabs (cos c) <= 1) by (apply Rabs_le; lra). nra.
  - destruct (MVT_cor2 cos (fun x => - sin x) a b H) as (c & E & _); [intros; apply derivable_pt_lim_cos|].
    rewrite E, Rabs_mult, (Rabs_right (b - a)) by lra.
    pose proof (SIN_bound c). assert (Rabs (- sin c) <= 1) by (apply Rabs_le; lra). nra.
Qed.

Lemma rabs_inv : forall x a, Rabs x <= a -> - a <= x <= a.
Proof. intros x a H. pose proof (Rle_abs x). pose proof (Rle_abs (- x)). rewrite Rabs_Ropp in *. lra. Qed.

Lemma single_lip : forall a b len r, 0 < r -> 0 <= a -> a <= b -> single_error a len r - single_error b len r <= 8 * r * (b - a).
Proof.
  intros a b len r R A B. unfold single_error, single_straight, single_arc. destruct (sin_lip a b B) as (S & _).
  apply rabs_inv in S. nra.
Qed.

Lemma gam_spec : forall th, 0 <= th <= PI / 2 -> let g := acos (1 - sin th) in
  0 <= g <= PI / 2 /\ cos g = 1 - sin th /\ sin g = sqrt (1 - (1 - sin th) * (1 - sin th)) /\ 0 <= sin th <= 1.
Proof.
  intros th T g. assert (S : 0 <= sin th <= 1). { split; [apply sin_ge_0; lra|apply SIN_bound]. }
  assert (C : cos g = 1 - sin th) by (apply cos_acos; lra). pose proof (acos_bound (1 - sin th)) as B. fold g in B.
  assert (G : g <= PI / 2). { apply Rnot_lt_le. intros H. assert (cos g < 0) by (apply cos_lt_0; lra). lra. }
  split; [lra|]. split; [exact C|]. split; [|exact S].
  unfold g. rewrite sin_acos by lra. f_equal.
Qed.

Lemma jordan : forall x, 0 <= x <= PI / 2 -> 2 / 4 * x <= sin x.
Proof.
  intros x (A & B). pose proof PI_4 as P4. pose proof PI2_3_2 as P3. unfold PI2 in P3.
  destruct A as [A|A]; [|subst; rewrite sin_0; lra].
  destruct (Rle_lt_dec x (PI / 3)) as [L|L].
  - destruct (MVT_cor2 sin cos 0 x A) as (c & E & C); [intros; apply derivable_pt_lim_sin|]. rewrite sin_0 in E.
    assert (1 / 2 <= cos c). { rewrite <- cos_PI3. apply cos_decr_1; lra. } nra.
  - assert (S : sin (PI / 3) <= sin x) by (apply sin_incr_1; lra). rewrite sin_PI3 in S.
    assert (1.7 <= sqrt 3). { rewrite <- (sqrt_pow2 1.7) by lra. apply sqrt_le_1; lra. }
    pose proof PI_bounds. lra.
Qed.

Lemma slide_straight_eq : forall th r, 0 <= th <= PI / 2 ->
  slide_straight th r = 2 * r + 2 * r * cos th + 2 * r * sin (acos (1 - sin th)).
Proof. intros th r T. destruct (gam_spec th T) as (_ & _ & S & _). unfold slide_straight. rewrite <- S. reflexivity. Qed.
Lemma slide_arc_eq : forall th r, slide_arc th r = r * (2 * PI + 2 * th + 2 * acos (1 - sin th)).
Proof. intros th r. unfold slide_arc. field. Qed.

Lemma slide_lip : forall a b len r, 0 < r -> 0 <= a -> a <= b -> b <= PI / 2 ->
  slide_error a len r - slide_error b len r <= 20 * r * (b - a).
Proof.
  intros a b len r R A B C. unfold slide_error. rewrite !slide_straight_eq, !slide_arc_eq by lra.
  destruct (gam_spec a ltac:(lra)) as (GA & CA & _ & SA). destruct (gam_spec b ltac:(lra)) as (GB & CB & _ & SB).
  set (g := acos (1 - sin a)) in *. set (h := acos (1 - sin b)) in *.
  destruct (sin_lip a b B) as (S1 & S2). apply rabs_inv in S1, S2.
  assert (M : sin a <= sin b) by (apply sin_incr_1; lra).
  assert (GH : g <= h). { apply cos_decr_0; lra. }
  assert (K : (h - sin h) - (g - sin g) <= 8 * (b - a)).
  { destruct GH as [GH|GH]; [|rewrite GH; lra].
    assert (K1 : (h - sin h) - (g - sin g) <= (h - g) * sin b).
    { destruct (MVT_cor2 sin cos g h GH) as (c & E & X); [intros; apply derivable_pt_lim_sin|].
      assert (cos h <= cos c) by (apply cos_decr_1; lra). nra. }
    assert (K2 : sin b <= h). { destruct (sin_lip 0 h ltac:(lra)) as (_ & L). apply rabs_inv in L. rewrite cos_0 in L. lra. }
    assert (K3 : sin b - sin a = 2 * (sin ((h + g) / 2) * sin ((h - g) / 2))).
    { replace (sin b - sin a) with (cos g - cos h) by lra.
      replace (cos g) with (cos ((h + g) / 2 - (h - g) / 2)) by (f_equal; field).
      replace (cos h) with (cos ((h + g) / 2 + (h - g) / 2)) by (f_equal; field). rewrite cos_minus, cos_plus. ring. }
    pose proof (jordan ((h + g) / 2) ltac:(lra)) as J1. pose proof (jordan ((h - g) / 2) ltac:(lra)) as J2.
    assert (J : (2 / 4 * ((h + g) / 2)) * (2 / 4 * ((h - g) / 2)) <= sin ((h + g) / 2) * sin ((h - g) / 2)) by (apply Rmult_le_compat; lra).
    nra. }
  nra.
Qed.

Lemma slide_zero : forall len r, slide_error 0 len r = len + 4 * r - 2 * PI * r.
Proof.
  intros len r. pose proof PI_RGT_0. unfold slide_error. rewrite slide_straight_eq, slide_arc_eq by lra.
  rewrite sin_0, cos_0, Rminus_0_r, acos_1, sin_0. ring.
Qed.
Lemma slide_half : forall len r, slide_error (PI / 2) len r = len + 4 * r - 4 * PI * r.
Proof.
  intros len r. pose proof PI_RGT_0. unfold slide_error. rewrite slide_straight_eq, slide_arc_eq by lra.
  rewrite sin_PI2, cos_PI2. replace (1 - 1) with 0 by ring. rewrite acos_0, sin_PI2. field.
Qed.

Definition tolerance (r : R) : R := 2 / 10 ^ 7 * r.

Lemma single_search_ok : forall len r, 0 < r -> 0 <= len -> len < 2 * r * (PI - 2) ->
  exists th, single_search len r = Some th /\ 0 <= th <= PI / 2
  /\ single_straight th r + len - tolerance r <= single_arc th r <= single_straight th r + len.
Proof.
  intros len r R P L. unfold single_search. set (f := fun th => single_error th len r).
  destruct (search_ends f (f 0)) as (m & E). exists m. split; [exact E|]. pose proof PI_RGT_0.
  apply bisect_ok in E; [|reflexivity|lra]. destruct E as (B & u & U1 & U2 & U3 & _). split; [exact B|].
  destruct U3 as (X & Y).
  { unfold f, single_error, single_straight, single_arc. rewrite sin_0. lra. }
  { unfold f, single_error, single_straight, single_arc. rewrite sin_PI2. lra. }
  pose proof (single_lip m u len r R ltac:(lra) ltac:(lra)) as Z. unfold f in X, Y. unfold single_error in *.
  assert (8 * r * (u - m) <= tolerance r). { unfold tolerance. unfold eps in U2. assert (0 <= r * (eps - (u - m))) by (apply Rmult_le_pos; unfold eps; lra). unfold eps in *. lra. }
  lra.
Qed.
Lemma slide_search_ok : forall len r, 0 < r -> 2 * r * (PI - 2) <= len -> len < 2 * PI * r ->
  exists th, slide_search len r = Some th /\ 0 <= th <= PI / 2
  /\ slide_straight th r + len - tolerance r <= slide_arc th r <= slide_straight th r + len.
Proof.
  intros len r R P L. unfold slide_search. set (f := fun th => slide_error th len r).
  destruct (search_ends f (f 0)) as (m & E). exists m. split; [exact E|]. pose proof PI_RGT_0. pose proof PI_bounds.
  apply bisect_ok in E; [|reflexivity|lra]. destruct E as (B & u & U1 & U2 & U3 & _). split; [exact B|].
  destruct U3 as (X & Y).
  { unfold f. rewrite slide_zero. lra. }
  { unfold f. rewrite slide_half. nra. }
  pose proof (slide_lip m u len r R ltac:(lra) ltac:(lra) ltac:(lra)) as Z. unfold f in X, Y. unfold slide_error in *.
  assert (20 * r * (u - m) <= tolerance r). { unfold tolerance. unfold eps in U2. assert (0 <= r * (eps - (u - m))) by (apply Rmult_le_pos; unfold eps; lra). unfold eps in *. lra. }
  lra.
Qed.

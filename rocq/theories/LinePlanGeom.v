(** Separation and turn of three points. *)
From Coq Require Import Reals List ZArith Bool Lra Psatz.
From Verif Require Import SteeringCourseModel SteeringCourseProps RouteExtModel LinePlanModel LinePlanSpec.
Import ListNotations.
Open Scope R_scope.

Definition plc (p : point) : place := (px p, py p).

Lemma tiny_pos : 0 < tiny.
Proof. unfold tiny. apply Rinv_0_lt_compat, pow_lt. lra. Qed.

Lemma away_plc a b : away (plc a) (plc b) = sqrt ((px b - px a) * (px b - px a) + (py b - py a) * (py b - py a)).
Proof. unfold away, plc. cbn [fst snd]. f_equal. ring. Qed.

Lemma dist_away a b : dist a b = away (plc b) (plc a).
Proof. rewrite away_plc. reflexivity. Qed.

Lemma cross_min q1x q1y q3x q3y t : 0 < sqrt (q3x * q3x + q3y * q3y) ->
  Rabs (q1x * q3y - q3x * q1y) / sqrt (q3x * q3x + q3y * q3y) <= sqrt ((q1x - t * q3x) ^ 2 + (q1y - t * q3y) ^ 2).
Proof.
  intros P. set (s := sqrt (q3x * q3x + q3y * q3y)) in *.
  assert (S2 : s * s = q3x * q3x + q3y * q3y) by (apply sqrt_sqrt; nra).
  apply Rmult_le_reg_r with s; [exact P|].
  replace (Rabs (q1x * q3y - q3x * q1y) / s * s) with (Rabs (q1x * q3y - q3x * q1y)) by (field; lra).
  apply Rsqr_incr_0_var; [|apply Rmult_le_pos; [apply sqrt_pos|lra]].
  rewrite <- Rsqr_abs. unfold Rsqr.
  set (w := sqrt ((q1x - t * q3x) ^ 2 + (q1y - t * q3y) ^ 2)).
  assert (W : w * w = (q1x - t * q3x) ^ 2 + (q1y - t * q3y) ^ 2).
  { apply sqrt_sqrt. assert (0 <= (q1x - t * q3x) ^ 2) by apply pow2_ge_0. assert (0 <= (q1y - t * q3y) ^ 2) by apply pow2_ge_0. lra. }
  replace (w * s * (w * s)) with ((w * w) * (s * s)) by ring. rewrite W, S2.
  assert (0 <= (q1x * q3x + q1y * q3y - t * (q3x * q3x + q3y * q3y)) ^ 2) by apply pow2_ge_0. nra.
Qed.

Lemma cross_at q1x q1y q3x q3y : 0 < sqrt (q3x * q3x + q3y * q3y) ->
  let t := (q1x * q3x + q1y * q3y) / (q3x * q3x + q3y * q3y) in
  Rabs (q1x * q3y - q3x * q1y) / sqrt (q3x * q3x + q3y * q3y) = sqrt ((q1x - t * q3x) ^ 2 + (q1y - t * q3y) ^ 2).
Proof.
  intros P t. set (s := sqrt (q3x * q3x + q3y * q3y)) in *.
  assert (S2 : s * s = q3x * q3x + q3y * q3y) by (apply sqrt_sqrt; nra).
  assert (N : q3x * q3x + q3y * q3y <> 0) by nra.
  symmetry. apply sqrt_lem_1.
  - assert (0 <= (q1x - t * q3x) ^ 2) by apply pow2_ge_0. assert (0 <= (q1y - t * q3y) ^ 2) by apply pow2_ge_0. lra.
  - apply Rmult_le_pos; [apply Rabs_pos|]. apply Rlt_le, Rinv_0_lt_compat, P.
  - replace (Rabs (q1x * q3y - q3x * q1y) / s * (Rabs (q1x * q3y - q3x * q1y) / s))
      with (Rabs (q1x * q3y - q3x * q1y) * Rabs (q1x * q3y - q3x * q1y) / (s * s)) by (field; lra).
    rewrite <- Rabs_mult, Rabs_right by (apply Rle_ge, Rle_0_sqr). rewrite S2. unfold t. field. exact N.
Qed.

Lemma sep_off a b c : off (plc a) (plc b) (plc c) (snd (separation a b c)).
Proof.
  unfold separation. fold tiny.
  destruct (Rlt_dec _ tiny) as [L1|L1]; [cbn; apply off_at; left; rewrite away_plc; exact L1|].
  destruct (Rlt_dec _ tiny) as [L2|L2]; [cbn; apply off_at; right; rewrite away_plc; exact L2|].
  cbn [snd]. assert (T1 : tiny <= away (plc a) (plc b)) by (rewrite away_plc; lra).
  assert (T2 : tiny <= away (plc b) (plc c)) by (rewrite away_plc; lra).
  destruct (Rlt_dec _ tiny) as [L3|L3].
  - rewrite <- away_plc. apply off_loop; auto. rewrite away_plc. exact L3.
  - pose proof tiny_pos as TP.
    apply off_line; auto; [rewrite away_plc; lra| |].
    + intros t. refine (Rle_trans _ _ _ (cross_min _ _ _ _ t _) _); [lra|]. right. unfold away, along, plc. cbn [fst snd]. f_equal. ring.
    + exists (((px b - px a) * (px c - px a) + (py b - py a) * (py c - py a)) / ((px c - px a) * (px c - px a) + (py c - py a) * (py c - py a))).
      rewrite cross_at by lra. unfold away, along, plc. cbn [fst snd]. f_equal. ring.
Qed.

Lemma off_unique a b c d d' : off a b c d -> off a b c d' -> d = d'.
Proof.
  intros A B. destruct A as [[A|A]|A1 A2 A3|d A1 A2 A3 A4 (t & A5)]; destruct B as [[B|B]|B1 B2 B3|d' B1 B2 B3 B4 (t' & B5)]; try lra.
  specialize (A4 t'). specialize (B4 t). lra.
Qed.

Lemma off_pos a b c d : off a b c d -> 0 <= d.
Proof. intros [A|A1 A2 A3|d' A1 A2 A3 A4 (t & ->)]; try lra; apply sqrt_pos. Qed.

(** The turn. *)
Lemma sep_turns a b c : tiny <= away (plc a) (plc b) -> tiny <= away (plc b) (plc c) ->
  turns (plc a) (plc b) (plc c) (fst (separation a b c)).
Proof.
  intros T1 T2. rewrite away_plc in T1, T2. unfold separation. fold tiny.
  destruct (Rlt_dec _ tiny) as [L1|_]; [lra|]. destruct (Rlt_dec _ tiny) as [L2|_]; [lra|]. cbn [fst].
  set (q1x := px b - px a) in *. set (q1y := py b - py a) in *. set (q2x := px c - px b) in *. set (q2y := py c - py b) in *.
  pose proof tiny_pos as TP. pose proof PI_RGT_0 as PP.
  assert (R1 : - PI <= atan2 q1y q1x <= PI /\ - PI <= atan2 q2y q2x <= PI).
  { assert (G : forall y x, - PI <= atan2 y x <= PI).
    { intros y x. unfold atan2. destruct (atan_bound (y / x)). destruct (Rlt_dec 0 x); [lra|]. destruct (Rlt_dec x 0) as [N|N].
      - destruct (Rle_dec 0 y).
        + assert (y / x <= 0) by (unfold Rdiv; pose proof (Rinv_lt_0_compat x N); nra).
          assert (atan (y / x) <= 0). { rewrite <- atan_0. destruct H1 as [H1|H1]; [left; apply atan_increasing, H1|rewrite H1; lra]. } lra.
        + assert (Q : 0 < y / x) by (unfold Rdiv; pose proof (Rinv_lt_0_compat x N); nra).
          apply atan_increasing in Q. rewrite atan_0 in Q. lra.
      - destruct (Rlt_dec 0 y); [lra|]. destruct (Rlt_dec y 0); lra. }
    split; apply G. }
  destruct (atan2_xy q1y q1x) as (X1 & Y1). destruct (atan2_xy q2y q2x) as (X2 & Y2).
  change SteeringCourseModel.atan2 with RouteExtModel.atan2 in *.
  set (h := atan2 q1y q1x) in *. set (g := atan2 q2y q2x) in *.
  assert (K : forall t, cos (h - t) = cos g -> sin (h - t) = sin g -> - PI <= t <= PI -> turns (plc a) (plc b) (plc c) t).
  { intros t C S B. split; [exact B|]. exists h, (sqrt (q1x * q1x + q1y * q1y)), (sqrt (q2x * q2x + q2y * q2y)). unfold plc. cbn [fst snd].
    rewrite C, S, <- X1, <- X2, <- Y1, <- Y2. unfold q1x, q1y, q2x, q2y in *. repeat split; lra. }
  destruct (Rlt_dec (h - g) (- PI)) as [B|B].
  - destruct (Rlt_dec PI _) as [B2|B2]; [lra|]. apply K; [| |lra].
    + replace (h - (h - g + 2 * PI)) with (g - 2 * PI) by ring. rewrite <- (cos_period (g - 2 * PI) 1). f_equal. simpl. ring.
    + replace (h - (h - g + 2 * PI)) with (g - 2 * PI) by ring. rewrite <- (sin_period (g - 2 * PI) 1). f_equal. simpl. ring.
  - destruct (Rlt_dec PI _) as [B2|B2].
    + apply K; [| |lra].
      * replace (h - (h - g - 2 * PI)) with (g + 2 * INR 1 * PI) by (simpl; ring). apply cos_period.
      * replace (h - (h - g - 2 * PI)) with (g + 2 * INR 1 * PI) by (simpl; ring). apply sin_period.
    + apply K; [| |lra]; f_equal; ring.
Qed.

Lemma same_direction r s h g : 0 < r -> 0 < s -> r * cos h = s * cos g -> r * sin h = s * sin g -> r = s /\ cos h = cos g /\ sin h = sin g.
Proof.
  intros P Q C S. pose proof (sin2_cos2 h) as H. pose proof (sin2_cos2 g) as G. unfold Rsqr in *.
  assert (E : r * r = s * s).
  { replace (r * r) with ((r * cos h) * (r * cos h) + (r * sin h) * (r * sin h)) by (rewrite <- (Rmult_1_r (r * r)), <- H; ring).
    rewrite C, S. rewrite <- (Rmult_1_r (s * s)), <- G. ring. }
  assert (r = s) by nra. subst s. repeat split; [apply Rmult_eq_reg_l with r; lra|apply Rmult_eq_reg_l with r; lra].
Qed.

Lemma turns_cos a b c t t' : turns a b c t -> turns a b c t' -> cos t = cos t'.
Proof.
  intros (_ & h & r & s & R & S & X1 & Y1 & X2 & Y2) (_ & h' & r' & s' & R' & S' & X1' & Y1' & X2' & Y2').
  destruct (same_direction r r' h h') as (_ & C & D); try lra.
  destruct (same_direction s s' (h - t) (h' - t')) as (_ & C2 & D2); try lra.
  replace t with (h - (h - t)) by ring. replace t' with (h' - (h' - t')) by ring. rewrite (cos_minus h), (cos_minus h'), C, D, C2, D2. reflexivity.
Qed.

Lemma turns_small a b c t t' w : 0 <= w <= PI -> turns a b c t -> turns a b c t' -> Rabs t < w -> Rabs t' < w.
Proof.
  intros W A B L. pose proof (turns_cos _ _ _ _ _ A B) as E. destruct A as (A & _), B as (B & _).
  assert (C : forall x, cos (Rabs x) = cos x). { intros x. unfold Rabs. destruct (Rcase_abs x); [apply cos_neg|reflexivity]. }
  rewrite <- (C t), <- (C t') in E.
  destruct (Rlt_le_dec (Rabs t') w) as [|G]; auto. exfalso.
  assert (Rabs t' <= PI) by (apply Rabs_le; lra). pose proof (Rabs_pos t).
  pose proof (cos_decreasing_1 (Rabs t) (Rabs t')) as D. specialize (D ltac:(lra) ltac:(lra) ltac:(lra) ltac:(lra) ltac:(lra)). lra.
Qed.

Lemma extraneous_slight a b c : extraneous a b c = true <-> slight (plc a) (plc b) (plc c).
Proof.
  unfold extraneous, slight. pose proof (sep_off a b c) as O. pose proof (sep_turns a b c) as T. pose proof PI_RGT_0.
  destruct (Rlt_le_dec (away (plc a) (plc b)) tiny) as [L1|L1].
  { split; [auto|]. intros _. rewrite away_plc in L1. unfold separation. fold tiny. destruct (Rlt_dec _ tiny); [|lra].
    rewrite Rabs_R0. destruct (Rlt_dec 0 _); [|lra]. destruct (Rlt_dec 0 1); [auto|lra]. }
  destruct (Rlt_le_dec (away (plc b) (plc c)) tiny) as [L2|L2].
  { split; [auto|]. intros _. rewrite away_plc in L1, L2. unfold separation. fold tiny. destruct (Rlt_dec _ tiny); [lra|].
    destruct (Rlt_dec _ tiny); [|lra]. rewrite Rabs_R0. destruct (Rlt_dec 0 _); [|lra]. destruct (Rlt_dec 0 1); [auto|lra]. }
  specialize (T L1 L2). destruct (separation a b c) as (beta, sep). cbn [fst snd] in *. split.
  - destruct (Rlt_dec (Rabs beta) _) as [B|B]; [|discriminate]. destruct (Rlt_dec sep 1) as [S|S]; [|discriminate]. intros _.
    right. right. split; [exists beta; split; [exact T|lra]|exists sep; auto].
  - intros [X|[X|((t & T2 & B) & d & O2 & D)]]; [lra|lra|].
    rewrite (off_unique _ _ _ _ _ O O2). pose proof (turns_small _ _ _ _ _ (PI / 1800) ltac:(lra) T2 T B).
    destruct (Rlt_dec (Rabs beta) _); [|lra]. destruct (Rlt_dec d 1); [auto|lra].
Qed.

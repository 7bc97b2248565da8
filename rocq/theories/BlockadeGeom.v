(** Geometry for the blockade: where two meet who come from different places. *)
From Coq Require Import Reals Lra Lia List ZArith.
From Verif Require Import PiBounds FlatEarthModel FlatEarthProps RouteExtModel RouteExtGeom BlockadeModel.
Import ListNotations.
Open Scope R_scope.

Lemma sin_abs x : Rabs (sin x) <= Rabs x.
Proof.
  assert (P : forall y, 0 < y -> Rabs (sin y) <= y).
  { intros y Y. unfold Rabs. destruct (Rcase_abs (sin y)); [|apply Rlt_le, sin_lt_x, Y].
    destruct (Rlt_dec y PI); [pose proof (sin_gt_0 y Y ltac:(assumption)); lra|]. pose proof (SIN_bound y). pose proof PI_bounds. lra. }
  destruct (Rtotal_order x 0) as [X|[->|X]].
  - rewrite <- (Rabs_Ropp x), <- (Rabs_Ropp (sin x)), <- sin_neg. rewrite (Rabs_pos_eq (- x)) by lra. apply P. lra.
  - rewrite sin_0. lra.
  - rewrite (Rabs_pos_eq x) by lra. apply P, X.
Qed.
Lemma atan_double t : 0 <= t -> let a := atan t in 0 <= a < PI / 2 /\ sin (2 * a) * (1 + t ^ 2) = 2 * t /\ cos (2 * a) * (1 + t ^ 2) = 1 - t ^ 2.
Proof.
  intros T. cbv zeta. pose proof (atan_bound t) as B. split.
  - split; [|lra]. destruct T as [T| <-]; [apply atan_increasing in T; rewrite atan_0 in T; lra|rewrite atan_0; lra].
  - set (a := atan t) in *. assert (C : 0 < cos a) by (apply cos_gt_0; lra). assert (S : sin a = t * cos a).
    { assert (E : tan a = t) by apply tan_atan. unfold tan in E. rewrite <- E. field. lra. }
    pose proof (sin2_cos2 a) as Q. unfold Rsqr in Q. rewrite S in Q. assert (K : cos a * cos a * (1 + t ^ 2) = 1) by lra.
    rewrite sin_2a, cos_2a, S. split.
    + replace (2 * (t * cos a) * cos a * (1 + t ^ 2)) with (2 * t * (cos a * cos a * (1 + t ^ 2))) by ring. rewrite K. ring.
    + replace ((cos a * cos a - t * cos a * (t * cos a)) * (1 + t ^ 2)) with ((1 - t ^ 2) * (cos a * cos a * (1 + t ^ 2))) by ring. rewrite K. ring.
Qed.
Lemma atan_neg x : atan (- x) = - atan x.
Proof. apply atan_opp. Qed.
Lemma atan2_back y g : 0 < g -> Rabs (atan2 y (- g)) = PI - atan (Rabs y / g).
Proof.
  intros G. unfold atan2. destruct (Rlt_dec 0 (- g)); [lra|]. destruct (Rlt_dec (- g) 0); [|lra]. pose proof PI_bounds. destruct (Rle_dec 0 y) as [Y|Y].
  - replace (y / - g) with (- (Rabs y / g)) by (rewrite Rabs_pos_eq by exact Y; field; lra). rewrite atan_opp. pose proof (atan_bound (Rabs y / g)). rewrite Rabs_pos_eq; lra.
  - replace (y / - g) with (Rabs y / g) by (rewrite Rabs_left by lra; field; lra). pose proof (atan_bound (Rabs y / g)). rewrite Rabs_left; lra.
Qed.
Lemma tan_shift x : tan (x - PI) = tan x.
Proof.
  unfold tan. replace (x - PI) with (- (PI - x)) by ring. rewrite sin_neg, cos_neg, sin_PI_x. replace (PI - x) with (- x + PI) by ring. rewrite neg_cos, cos_neg.
  unfold Rdiv. destruct (Req_dec (cos x) 0) as [->|C]; [|field; lra]. rewrite Ropp_0. rewrite !Rinv_0. ring.
Qed.

Section Meeting.
  Context (E vx vy : R) (E_pos : 0 < E) (inside : vx ^ 2 + vy ^ 2 <= E ^ 2) (apart : 100 <= (vx - E) ^ 2 + vy ^ 2).
  Local Notation g := (E - vx).
  Local Notation t := (Rabs vy / g).
  (** Where both are equally far. *)
  Local Notation T := (vx + g * (1 - t ^ 2) / 2).

  Lemma vx_small : - E <= vx < E.
  Proof. pose proof (pow2_ge_0 vy). pose proof (pow2_ge_0 vx). split; nra. Qed.
  Lemma g_pos : 0 < g.
  Proof. pose proof vx_small. lra. Qed.
  Lemma t_vy : t * g = Rabs vy /\ 0 <= t /\ (t * g) ^ 2 = vy ^ 2.
  Proof.
    pose proof g_pos. assert (A : t * g = Rabs vy) by (field; lra). split; [exact A|]. split; [apply Rmult_le_pos; [apply Rabs_pos|left; apply Rinv_0_lt_compat; lra]|].
    rewrite A. rewrite <- !Rsqr_pow2. symmetry. apply Rsqr_abs.
  Qed.
  Lemma T_range : 0 <= T <= (E + vx) / 2.
  Proof.
    destruct t_vy as (_ & P & S). pose proof g_pos. set (x := t) in *. pose proof (pow2_ge_0 x). split; [|nra].
    assert (K : (x * g) ^ 2 = g * (g * x ^ 2)) by ring. rewrite K in S. assert (I : g * (g * x ^ 2) <= g * (E + vx)) by (rewrite S; nra).
    apply Rmult_le_reg_l in I; [|lra]. lra.
  Qed.
  Lemma T_equal : straight (T, 0) (vx, vy) = E - T.
  Proof.
    destruct t_vy as (_ & _ & S). pose proof T_range as R. pose proof vx_small. unfold straight. cbn [fst snd]. set (x := t) in *.
    replace ((vx - (vx + g * (1 - x ^ 2) / 2)) ^ 2 + (vy - 0) ^ 2) with ((E - (vx + g * (1 - x ^ 2) / 2)) ^ 2).
    - rewrite <- Rsqr_pow2. apply sqrt_Rsqr. lra.
    - replace ((vy - 0) ^ 2) with ((x * g) ^ 2) by (rewrite S; ring). field.
  Qed.
  Lemma near l : Rabs (straight (l, 0) (vx, vy) - (E - l)) <= 2 * Rabs (l - T).
  Proof.
    assert (L : straight (l, 0) (T, 0) = Rabs (l - T)).
    { unfold straight. cbn [fst snd]. replace ((T - l) ^ 2 + (0 - 0) ^ 2) with ((l - T) ^ 2) by ring. rewrite <- Rsqr_pow2. apply sqrt_Rsqr_abs. }
    pose proof (straight_triangle (l, 0) (T, 0) (vx, vy)) as A. pose proof (straight_triangle (T, 0) (l, 0) (vx, vy)) as B. rewrite (straight_sym (T, 0) (l, 0)) in B.
    rewrite L in A, B. rewrite T_equal in A, B. pose proof (Rle_abs (l - T)) as C. pose proof (Rle_abs (- (l - T))) as D. rewrite Rabs_Ropp in D. apply Rabs_le. lra.
  Qed.

  Local Notation gap := (sqrt ((vx - E) ^ 2 + vy ^ 2)).
  Lemma gap_ge : g <= gap /\ Rabs vy <= gap.
  Proof.
    pose proof g_pos. pose proof (pow2_ge_0 vy). pose proof (pow2_ge_0 (vx - E)). split.
    - rewrite <- (sqrt_Rsqr g) by lra. apply sqrt_le_1_alt. rewrite Rsqr_pow2. replace ((E - vx) ^ 2) with ((vx - E) ^ 2) by ring. lra.
    - rewrite <- sqrt_Rsqr_abs. apply sqrt_le_1_alt. rewrite Rsqr_pow2. lra.
  Qed.

  Lemma block_meeting : let l := block_dist (E, 0) (vx, vy) * E in
    0 <= l <= E /\ (E <= 90000 -> Rabs (straight (l, 0) (vx, vy) - (E - l)) <= 3 / 10 ^ 4 * gap).
  Proof.
    cbv zeta. unfold block_dist. cbn [fst snd]. pose proof vx_small as VX. pose proof g_pos as G. pose proof T_range as TR. pose proof gap_ge as GG.
    destruct (Rlt_dec E (len (vx, vy))) as [N|_].
    { exfalso. unfold len in N. cbn [fst snd] in N. assert (X : sqrt (vx * vx + vy * vy) <= E); [|lra]. rewrite <- (sqrt_Rsqr E) by lra. apply sqrt_le_1_alt. unfold Rsqr. lra. }
    assert (LQ : len (sub (vx, vy) (E, 0)) = gap) by (unfold len, sub; cbn [fst snd]; f_equal; ring). rewrite LQ.
    assert (G10 : 10 <= gap). { replace 10 with (sqrt (10 * 10)) by (apply sqrt_square; lra). apply sqrt_le_1_alt. lra. }
    destruct (Rlt_dec gap 10) as [N|_]; [lra|]. unfold angle. cbv zeta. rewrite LQ. destruct (Rlt_dec gap (/ 10 ^ 6)) as [N|_].
    { exfalso. assert (/ 10 ^ 6 < 1) by (apply Rmult_lt_reg_r with (10 ^ 6); [lra|]; rewrite Rinv_l by lra; lra). lra. }
    cbn [sub fst snd]. replace (vy - 0) with vy by ring. replace (vx - E) with (- g) by ring. rewrite atan2_back by exact G.
    destruct t_vy as (TG & TP & TS). pose proof (atan_double t TP) as AD. cbv zeta in AD. set (a := atan t) in *. set (x := t) in *. destruct AD as (AR & SS & CC).
    replace (PI - 2 * (PI - a)) with (2 * a - PI) by ring. rewrite tan_shift. replace (2 * a - PI + PI / 2) with (2 * a - PI / 2) by field.
    assert (X2 : 0 <= x ^ 2) by apply pow2_ge_0. assert (TI : tiny = 1 / 10000) by (unfold tiny; field).
    match goal with |- context [(if Rlt_dec ?w 0 then 0 else ?w) / E * E] => set (w0 := w) end.
    assert (LL : (if Rlt_dec w0 0 then 0 else w0) / E * E = Rmax 0 w0).
    { replace ((if Rlt_dec w0 0 then 0 else w0) / E * E) with (if Rlt_dec w0 0 then 0 else w0) by (field; lra). destruct (Rlt_dec w0 0); [rewrite Rmax_left by lra|rewrite Rmax_right by lra]; reflexivity. }
    rewrite LL. set (T0 := vx + g * (1 - x ^ 2) / 2) in *.
    assert (CL : forall eta, Rabs (w0 - T0) <= eta -> Rabs (Rmax 0 w0 - T0) <= eta).
    { intros eta H. apply rabs_inv in H. apply Rabs_le. unfold Rmax. destruct (Rle_dec 0 w0); lra. }
    assert (FIN : w0 <= E -> (E <= 90000 -> Rabs (w0 - T0) <= 3 / 20000 * gap) -> 0 <= Rmax 0 w0 <= E /\ (E <= 90000 -> Rabs (straight (Rmax 0 w0, 0) (vx, vy) - (E - Rmax 0 w0)) <= 3 / 10 ^ 4 * gap)).
    { intros W H. split; [split; [apply Rmax_l|apply Rmax_lub; lra]|]. intros E9. specialize (H E9). apply CL in H. eapply Rle_trans; [apply near|]. fold x. fold T0. replace (3 / 10 ^ 4 * gap) with (2 * (3 / 20000 * gap)) by field. apply Rmult_le_compat_l; lra. }
    replace (sqrt ((- g) ^ 2 + vy ^ 2)) with gap by (f_equal; ring).
    apply FIN; unfold w0; rewrite TI.
    - destruct (Rlt_dec (Rabs (2 * a - PI / 2)) (1 / 10000)) as [C|C]; [lra|]. destruct (Rlt_dec (1 / 10000) (Rabs (tan (2 * a)))) as [D|D]; [|lra].
      assert (W : Rabs vy / tan (2 * a) + vx = T0); [|lra]. unfold T0.
      assert (X1 : cos (2 * a) <> 0). { intros Z. unfold tan in D. rewrite Z in D. unfold Rdiv in D. rewrite Rinv_0, Rmult_0_r, Rabs_R0 in D. lra. }
      assert (X0 : sin (2 * a) <> 0). { intros Z. unfold tan in D. rewrite Z in D. unfold Rdiv in D. rewrite Rmult_0_l, Rabs_R0 in D. lra. }
      rewrite <- TG. unfold tan.
      assert (Y0 : x <> 0). { intros Z. apply X0. rewrite Z in SS. lra. }
      assert (SS' : sin (2 * a) = 2 * x / (1 + x ^ 2)) by (rewrite <- SS; field; lra). assert (CC' : cos (2 * a) = (1 - x ^ 2) / (1 + x ^ 2)) by (rewrite <- CC; field; lra).
      assert (Y1 : 1 - x ^ 2 <> 0). { intros Z. apply X1. rewrite CC', Z. unfold Rdiv. ring. }
      rewrite SS', CC'. field. repeat split; try lra; nra.
    - intros E9. destruct (Rlt_dec (Rabs (2 * a - PI / 2)) (1 / 10000)) as [C|C].
      + assert (K : Rabs (cos (2 * a)) < 1 / 10000).
        { rewrite <- sin_shift. eapply Rle_lt_trans; [apply sin_abs|]. rewrite Rabs_minus_sym. exact C. }
        apply Rabs_def2 in K. assert (K2 : - (1 / 10000) * (1 + x ^ 2) < 1 - x ^ 2 < 1 / 10000 * (1 + x ^ 2)) by (rewrite <- CC; split; apply Rmult_lt_compat_r; lra).
        assert (X3 : x ^ 2 < 1.01) by lra. replace (0 + vx - T0) with (g * ((x ^ 2 - 1) / 2)) by (unfold T0; field). rewrite Rabs_mult, (Rabs_pos_eq g) by lra.
        assert (K3 : Rabs ((x ^ 2 - 1) / 2) <= 3 / 20000) by (apply Rabs_le; lra). rewrite (Rmult_comm (3 / 20000)). apply Rmult_le_compat; try lra. apply Rabs_pos.
      + destruct (Rlt_dec (1 / 10000) (Rabs (tan (2 * a)))) as [D|D].
        * assert (W : Rabs vy / tan (2 * a) + vx = T0).
          { unfold T0. assert (X1 : cos (2 * a) <> 0). { intros Z. unfold tan in D. rewrite Z in D. unfold Rdiv in D. rewrite Rinv_0, Rmult_0_r, Rabs_R0 in D. lra. }
            assert (X0 : sin (2 * a) <> 0). { intros Z. unfold tan in D. rewrite Z in D. unfold Rdiv in D. rewrite Rmult_0_l, Rabs_R0 in D. lra. }
            rewrite <- TG. unfold tan. assert (Y0 : x <> 0). { intros Z. apply X0. rewrite Z in SS. lra. }
            assert (SS' : sin (2 * a) = 2 * x / (1 + x ^ 2)) by (rewrite <- SS; field; lra). assert (CC' : cos (2 * a) = (1 - x ^ 2) / (1 + x ^ 2)) by (rewrite <- CC; field; lra).
            assert (Y1 : 1 - x ^ 2 <> 0). { intros Z. apply X1. rewrite CC', Z. unfold Rdiv. ring. }
            rewrite SS', CC'. field. repeat split; try lra; nra. }
          rewrite W. replace (T0 - T0) with 0 by ring. rewrite Rabs_R0. lra.
        * assert (NC : cos (2 * a) <> 0).
          { intros Z. rewrite Z in CC. assert (x ^ 2 = 1) by lra. assert (H0 : x = 1) by (apply Rsqr_inj; [exact TP|lra|unfold Rsqr; lra]). apply C. unfold a. rewrite H0, atan_1. replace (2 * (PI / 4) - PI / 2) with 0 by field. rewrite Rabs_R0. lra. }
          assert (D' : Rabs (sin (2 * a)) <= 1 / 10000 * Rabs (cos (2 * a))).
          { assert (D1 : Rabs (tan (2 * a)) <= 1 / 10000) by lra. unfold tan in D1. unfold Rdiv in D1 at 1. rewrite Rabs_mult in D1. rewrite Rabs_inv in D1. assert (CP : 0 < Rabs (cos (2 * a))) by (apply Rabs_pos_lt, NC).
            apply Rmult_le_compat_r with (r := Rabs (cos (2 * a))) in D1; [|lra]. rewrite Rmult_assoc, Rinv_l, Rmult_1_r in D1 by lra. exact D1. }
          assert (D2 : 2 * x <= 1 / 10000 * Rabs (1 - x ^ 2)).
          { rewrite <- SS, <- CC. rewrite Rabs_mult, (Rabs_pos_eq (1 + x ^ 2)) by lra. rewrite <- Rmult_assoc. apply Rmult_le_compat_r; [lra|]. eapply Rle_trans; [apply Rle_abs|exact D']. }
          replace ((E - vx) / 2 + vx - T0) with (x * g * x / 2) by (unfold T0; field). destruct (Rle_dec x 1) as [X1|X1].
          -- assert (XX : x ^ 2 <= 1) by (replace 1 with (1 ^ 2) by ring; apply pow_incr; lra). rewrite Rabs_pos_eq in D2 by lra. assert (X5 : x <= 1 / 20000) by lra. rewrite TG. assert (P0 := Rabs_pos vy).
             rewrite Rabs_pos_eq by (apply Rmult_le_pos; [apply Rmult_le_pos|]; lra). assert (P1 : Rabs vy * x <= gap * (1 / 20000)) by (apply Rmult_le_compat; lra). lra.
          -- exfalso. assert (XX : 1 < x ^ 2) by (replace (x ^ 2) with (x * x) by ring; replace 1 with (1 * 1) by ring; apply Rmult_gt_0_lt_compat; lra). rewrite Rabs_left in D2 by lra.
             assert (X4 : 20000 <= x). { apply Rmult_le_reg_l with x; [lra|]. replace (x * x) with (x ^ 2) by ring. lra. }
             assert (V1 : vy ^ 2 <= g * (2 * E)).
             { assert (V0 : vy ^ 2 <= g * (E + vx)) by (replace (g * (E + vx)) with (E ^ 2 - vx ^ 2) by ring; lra). eapply Rle_trans; [exact V0|]. apply Rmult_le_compat_l; lra. }
             rewrite <- TS in V1. assert (V2 : x ^ 2 * g <= 2 * E). { apply Rmult_le_reg_l with g; [exact G|]. replace (g * (x ^ 2 * g)) with ((x * g) ^ 2) by ring. exact V1. }
             assert (V5 : 0 < x * g) by (apply Rmult_lt_0_compat; lra).
             assert (V3 : x * g <= 9). { apply Rmult_le_reg_l with x; [lra|]. replace (x * (x * g)) with (x ^ 2 * g) by ring. lra. }
             assert (V4 : g <= 1). { apply Rmult_le_reg_l with x; [lra|]. lra. }
             replace ((vx - E) ^ 2) with (g ^ 2) in apart by ring. rewrite <- TS in apart.
             assert (V6 : (x * g) ^ 2 <= 9 ^ 2) by (apply pow_incr; lra). assert (V7 : g ^ 2 <= 1 ^ 2) by (apply pow_incr; lra). lra.
  Qed.
End Meeting.

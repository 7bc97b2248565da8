(** Geometry for the escort: nearest points, directions, distances along a path. *)
From Coq Require Import Reals Lra Lia List ZArith.
From Verif Require Import PiBounds FlatEarthModel FlatEarthProps RouteExtModel RouteExtGeom BlockadeGeom EscortModel EscortSpec.
Import ListNotations.
Open Scope R_scope.

Lemma gap_straight p q : gap p q = straight p q.
Proof. reflexivity. Qed.
Lemma gap_sym p q : gap p q = gap q p.
Proof. apply straight_sym. Qed.
Lemma gap_pos p q : 0 <= gap p q.
Proof. apply sqrt_pos. Qed.
Lemma gap_tri p q r : gap p r <= gap p q + gap q r.
Proof. apply straight_triangle. Qed.
Lemma gap_refl p : gap p p = 0.
Proof. apply straight_zero. reflexivity. Qed.
Lemma len_gap p q : len (sub p q) = gap q p.
Proof. unfold len, sub, gap. cbn [fst snd]. f_equal. ring. Qed.
Lemma gap_le p q x : 0 <= x -> (fst q - fst p) ^ 2 + (snd q - snd p) ^ 2 <= x ^ 2 -> gap p q <= x.
Proof. intros X H. unfold gap. rewrite <- (sqrt_pow2 x) by exact X. apply sqrt_le_1_alt, H. Qed.
Lemma gap_mono p q r s : (fst q - fst p) ^ 2 + (snd q - snd p) ^ 2 <= (fst s - fst r) ^ 2 + (snd s - snd r) ^ 2 -> gap p q <= gap r s.
Proof. apply sqrt_le_1_alt. Qed.
Lemma gap_sq p q : gap p q ^ 2 = (fst q - fst p) ^ 2 + (snd q - snd p) ^ 2.
Proof. unfold gap. rewrite <- Rsqr_pow2, Rsqr_sqrt; [reflexivity|]. pose proof (pow2_ge_0 (fst q - fst p)). pose proof (pow2_ge_0 (snd q - snd p)). lra. Qed.

Section Closest.
  Context (a b t : pt).
  Local Notation vx := (fst b - fst a).
  Local Notation vy := (snd b - snd a).
  Local Notation D := (vx ^ 2 + vy ^ 2).
  Local Notation T := (((fst t - fst a) * vx + (snd t - snd a) * vy) / D).
  Definition pnt (k : R) : pt := (fst a + k * vx, snd a + k * vy).

  Lemma D_pos : 0 <= D.
  Proof. pose proof (pow2_ge_0 vx). pose proof (pow2_ge_0 vy). lra. Qed.
  Lemma pnt_gap k l : gap (pnt k) (pnt l) = Rabs (l - k) * gap a b.
  Proof.
    unfold gap, pnt. cbn [fst snd]. replace ((fst a + l * vx - (fst a + k * vx)) ^ 2 + (snd a + l * vy - (snd a + k * vy)) ^ 2) with (Rsqr (l - k) * D) by (unfold Rsqr; ring).
    rewrite sqrt_mult by (try apply Rle_0_sqr; apply D_pos). rewrite sqrt_Rsqr_abs. reflexivity.
  Qed.
  Lemma project_least k : 0 < D -> gap t (pnt T) <= gap t (pnt k).
  Proof.
    intros P. apply gap_mono. unfold pnt. cbn [fst snd]. set (x := T). set (p := fst t - fst a). set (q := snd t - snd a).
    assert (X : x * D = p * vx + q * vy) by (unfold x, p, q; field; lra).
    replace (fst a + x * vx - fst t) with (x * vx - p) by (unfold p; ring). replace (snd a + x * vy - snd t) with (x * vy - q) by (unfold q; ring).
    replace (fst a + k * vx - fst t) with (k * vx - p) by (unfold p; ring). replace (snd a + k * vy - snd t) with (k * vy - q) by (unfold q; ring).
    assert (E : (k * vx - p) ^ 2 + (k * vy - q) ^ 2 = (x * vx - p) ^ 2 + (x * vy - q) ^ 2 + (k - x) ^ 2 * D + 2 * (k - x) * (x * D - (p * vx + q * vy))) by ring.
    rewrite E, X. pose proof (pow2_ge_0 (k - x)). assert (0 <= (k - x) ^ 2 * D) by (apply Rmult_le_pos; lra). lra.
  Qed.
  Lemma side_a k : side a (add a (- vy, vx)) (pnt k) = if Rlt_dec (Rabs (- k * D)) tiny then 0%Z else if Rlt_dec 0 (- k * D) then 1%Z else (-1)%Z.
  Proof. unfold side, sub, add, pnt. cbn [fst snd]. replace ((fst a + - vy - fst a) * (snd a + k * vy - snd a) - (fst a + k * vx - fst a) * (snd a + vx - snd a)) with (- k * D) by ring. reflexivity. Qed.
  Lemma side_b k : side b (add b (- vy, vx)) (pnt k) = if Rlt_dec (Rabs ((1 - k) * D)) tiny then 0%Z else if Rlt_dec 0 ((1 - k) * D) then 1%Z else (-1)%Z.
  Proof. unfold side, sub, add, pnt. cbn [fst snd]. replace ((fst b + - vy - fst b) * (snd a + k * vy - snd b) - (fst a + k * vx - fst b) * (snd b + vx - snd b)) with ((1 - k) * D) by ring. reflexivity. Qed.
  Lemma closest_eq : closest_point a b t = if Rlt_dec D tiny then a else if Rle_dec (T * D) (- tiny) then a else if Rle_dec tiny ((T - 1) * D) then b else pnt T.
  Proof.
    pose proof D_pos as DP. assert (TP : 0 < tiny) by (unfold tiny; apply Rinv_0_lt_compat; lra). unfold closest_point, intersect_point. cbv zeta. cbn [fst snd sub add].
    replace (vy * (fst t - (fst t + - vy)) - (snd t + vx - snd t) * (fst a - fst b)) with D by ring. rewrite (Rabs_pos_eq D) by exact DP. destruct (Rlt_dec D tiny) as [L|L]; [reflexivity|].
    assert (D0 : 0 < D) by lra.
    assert (C : (((fst a - fst b) * ((fst t + - vy) * snd t - fst t * (snd t + vx)) - (fst t - (fst t + - vy)) * (fst b * snd a - fst a * snd b)) / D,
                 ((snd t + vx - snd t) * (fst b * snd a - fst a * snd b) - vy * ((fst t + - vy) * snd t - fst t * (snd t + vx))) / D) = pnt T).
    { unfold pnt. f_equal; field; lra. }
    rewrite C. unfold swath_side. cbv zeta. cbn [fst snd sub]. rewrite side_a, side_b.
    replace (- T * D) with (- (T * D)) by ring. replace ((1 - T) * D) with (- ((T - 1) * D)) by ring. rewrite !Rabs_Ropp. set (x := T * D). replace ((T - 1) * D) with (x - D) by (unfold x; ring).
    destruct (Rle_dec x (- tiny)) as [A|A].
    - rewrite (Rabs_left x) by lra. destruct (Rlt_dec (- x) tiny); [lra|]. destruct (Rlt_dec 0 (- x)); [|lra]. reflexivity.
    - assert (SA : Z.leb (if Rlt_dec (Rabs x) tiny then 0 else if Rlt_dec 0 (- x) then 1 else -1) 0 = true).
      { destruct (Rlt_dec (Rabs x) tiny) as [|N]; [reflexivity|]. destruct (Rlt_dec 0 (- x)); [|reflexivity]. rewrite Rabs_left in N; lra. }
      assert (SA' : Z.ltb 0 (if Rlt_dec (Rabs x) tiny then 0 else if Rlt_dec 0 (- x) then 1 else -1) = false) by (apply Z.ltb_ge, Z.leb_le, SA).
      rewrite SA, SA'. cbn [andb]. destruct (Rle_dec tiny (x - D)) as [B|B].
      + rewrite (Rabs_pos_eq (x - D)) by lra. destruct (Rlt_dec (x - D) tiny); [lra|]. destruct (Rlt_dec 0 (- (x - D))); [lra|]. reflexivity.
      + assert (SB : Z.leb 0 (if Rlt_dec (Rabs (x - D)) tiny then 0 else if Rlt_dec 0 (- (x - D)) then 1 else -1) = true).
        { destruct (Rlt_dec (Rabs (x - D)) tiny) as [|N]; [reflexivity|]. destruct (Rlt_dec 0 (- (x - D))) as [|M]; [reflexivity|]. rewrite Rabs_pos_eq in N; lra. }
        rewrite SB. reflexivity.
  Qed.

  Lemma pnt_0 : pnt 0 = a.
  Proof. unfold pnt. destruct a. cbn [fst snd]. f_equal; ring. Qed.
  Lemma pnt_1 : pnt 1 = b.
  Proof. unfold pnt. destruct a, b. cbn [fst snd]. f_equal; ring. Qed.
  Lemma project_end k x : 0 < D -> (x <= k <= T \/ T <= k <= x) -> gap t (pnt k) <= gap t (pnt x).
  Proof.
    intros P H. apply gap_mono. unfold pnt. cbn [fst snd]. set (y := T) in *. set (p := fst t - fst a). set (q := snd t - snd a).
    assert (X : y * D = p * vx + q * vy) by (unfold y, p, q; field; lra).
    replace (fst a + x * vx - fst t) with (x * vx - p) by (unfold p; ring). replace (snd a + x * vy - snd t) with (x * vy - q) by (unfold q; ring).
    replace (fst a + k * vx - fst t) with (k * vx - p) by (unfold p; ring). replace (snd a + k * vy - snd t) with (k * vy - q) by (unfold q; ring).
    assert (E : (x * vx - p) ^ 2 + (x * vy - q) ^ 2 = (k * vx - p) ^ 2 + (k * vy - q) ^ 2 + ((x - y) ^ 2 - (k - y) ^ 2) * D + 2 * (x - k) * (y * D - (p * vx + q * vy))) by ring.
    rewrite E, X. assert (S : 0 <= (x - y) ^ 2 - (k - y) ^ 2) by nra. assert (0 <= ((x - y) ^ 2 - (k - y) ^ 2) * D) by (apply Rmult_le_pos; lra). lra.
  Qed.
  Lemma hair_pos : 0 < hair.
  Proof. unfold hair. apply Rinv_0_lt_compat. lra. Qed.
  Lemma closest_nearest : nearest a b t (closest_point a b t).
  Proof.
    pose proof D_pos as DP. pose proof hair_pos as HP. rewrite closest_eq. assert (HT : hair ^ 2 = tiny) by (unfold hair, tiny; field).
    assert (TP : 0 < tiny) by (unfold tiny; apply Rinv_0_lt_compat; lra).
    destruct (Rlt_dec D tiny) as [L|L].
    - assert (G : gap a b <= hair) by (apply gap_le; lra). split.
      + exists a. split; [exists 0; split; [lra|]; symmetry; apply pnt_0|rewrite gap_refl; lra].
      + intros q (k & K & ->). change (_, _) with (pnt k). pose proof (gap_tri t (pnt k) a) as A. rewrite <- pnt_0 in A at 2. rewrite pnt_gap in A. rewrite Rabs_minus_sym, Rabs_pos_eq in A by lra.
        assert ((k - 0) * gap a b <= 1 * hair) by (apply Rmult_le_compat; try lra; apply gap_pos). lra.
    - assert (D0 : 0 < D) by lra. destruct (Rle_dec (T * D) (- tiny)) as [A|A].
      + split; [exists a; split; [exists 0; split; [lra|]; symmetry; apply pnt_0|rewrite gap_refl; lra]|]. intros q (k & K & ->). change (_, _) with (pnt k).
        assert (TN : T <= 0). { apply Rmult_le_reg_r with D; [exact D0|]. lra. }
        rewrite <- pnt_0 at 1. assert (G : gap t (pnt 0) <= gap t (pnt k)) by (apply project_end; [exact D0|right; lra]). lra.
      + destruct (Rle_dec tiny ((T - 1) * D)) as [B|B].
        * split; [exists b; split; [exists 1; split; [lra|]; symmetry; apply pnt_1|rewrite gap_refl; lra]|]. intros q (k & K & ->). change (_, _) with (pnt k).
          assert (TN : 1 <= T). { apply Rmult_le_reg_r with D; [exact D0|]. lra. }
          rewrite <- pnt_1 at 1. assert (G : gap t (pnt 1) <= gap t (pnt k)) by (apply project_end; [exact D0|left; lra]). lra.
        * split.
          -- exists (pnt (Rmax 0 (Rmin 1 T))). split; [exists (Rmax 0 (Rmin 1 T)); split; [unfold Rmax, Rmin; repeat destruct (Rle_dec _ _); lra|reflexivity]|]. rewrite pnt_gap.
             assert (X : Rabs (T - Rmax 0 (Rmin 1 T)) * D <= tiny).
             { set (x := T) in *. replace (Rabs (x - Rmax 0 (Rmin 1 x)) * D) with (Rabs ((x - Rmax 0 (Rmin 1 x)) * D)) by (rewrite Rabs_mult, (Rabs_pos_eq D) by exact DP; reflexivity). apply Rabs_le.
               unfold Rmax, Rmin. destruct (Rle_dec 1 x); destruct (Rle_dec 0 _); nra. }
             assert (GD : gap a b * gap a b = D). { unfold gap. apply sqrt_sqrt, DP. }
             assert (GH : hair <= gap a b). { unfold gap. rewrite <- (sqrt_pow2 hair) by lra. apply sqrt_le_1_alt. lra. }
             apply Rmult_le_reg_r with (gap a b); [lra|]. rewrite Rmult_assoc, GD. eapply Rle_trans; [exact X|]. rewrite <- HT. replace (hair ^ 2) with (hair * hair) by ring. apply Rmult_le_compat_l; lra.
          -- intros q (k & K & ->). change (_, _) with (pnt k). pose proof (project_least k D0). lra.
  Qed.
End Closest.

Lemma cos_lip a b : Rabs (cos a - cos b) <= Rabs (a - b).
Proof.
  rewrite form2. rewrite !Rabs_mult. pose proof (sin_abs ((a - b) / 2)) as S1. assert (S2 : Rabs (sin ((a + b) / 2)) <= 1) by (apply Rabs_le, SIN_bound).
  assert (A2 : Rabs (-2) = 2) by (rewrite Rabs_left; lra). rewrite A2. assert (H : Rabs ((a - b) / 2) = Rabs (a - b) / 2) by (unfold Rdiv; rewrite Rabs_mult, (Rabs_pos_eq (/ 2)) by lra; reflexivity). rewrite H in S1.
  pose proof (Rabs_pos (sin ((a - b) / 2))). pose proof (Rabs_pos (sin ((a + b) / 2))).
  assert (B : Rabs (sin ((a - b) / 2)) * Rabs (sin ((a + b) / 2)) <= Rabs (a - b) / 2 * 1) by (apply Rmult_le_compat; lra). lra.
Qed.
Lemma cos_turns x k : cos (x + 2 * IZR k * PI) = cos x /\ sin (x + 2 * IZR k * PI) = sin x.
Proof.
  destruct (Z_le_gt_dec 0 k) as [K|K].
  - rewrite <- (Z2Nat.id k K), <- INR_IZR_INZ. split; [apply cos_period|apply sin_period].
  - assert (E : (k = - Z.of_nat (Z.to_nat (- k)))%Z) by lia. rewrite E, opp_IZR, <- INR_IZR_INZ. set (n := Z.to_nat (- k)).
    split; [rewrite <- (cos_period _ n)|rewrite <- (sin_period _ n)]; f_equal; ring.
Qed.
Lemma progress_cos h a b : let q := sub b a in progress h a b = len q * cos (h * PI / 180 - (PI / 2 - atan2 (snd q) (fst q))).
Proof.
  cbv zeta. unfold progress. set (q := sub b a). change (fst b - fst a) with (fst q). change (snd b - snd a) with (snd q).
  assert (P : fst q = len q * cos (atan2 (snd q) (fst q)) /\ snd q = len q * sin (atan2 (snd q) (fst q))).
  { destruct q as (x, y). unfold len. cbn [fst snd]. destruct (Req_dec x 0) as [X|X]; [destruct (Req_dec y 0) as [Y|Y]|].
    - subst. replace (0 * 0 + 0 * 0) with 0 by ring. rewrite sqrt_0. split; ring.
    - destruct (atan2_spec y x (or_intror Y)) as (_ & A & B). rewrite A, B. auto.
    - destruct (atan2_spec y x (or_introl X)) as (_ & A & B). rewrite A, B. auto. }
  destruct P as (P1 & P2). set (r := atan2 (snd q) (fst q)) in *. rewrite cos_minus, cos_shift, sin_shift. rewrite P1, P2 at 1. ring.
Qed.
Lemma progress_bound h a b : Rabs (progress h a b) <= gap a b.
Proof.
  rewrite progress_cos. cbv zeta. rewrite len_gap, Rabs_mult, (Rabs_pos_eq (gap a b)) by apply gap_pos. rewrite <- (Rmult_1_r (gap a b)) at 2. apply Rmult_le_compat_l; [apply gap_pos|]. apply Rabs_le, COS_bound.
Qed.

Lemma delta_spec h a b : -180 <= h < 360 ->
  let d := heading_delta h a b in (Rabs d < 90 -> ~ against h a b) /\ (~ Rabs d < 90 -> ~ along h a b).
Proof.
  intros H. cbv zeta. pose proof (gap_pos a b) as GP. unfold heading_delta. cbv zeta. unfold angle. cbv zeta.
  destruct (Rlt_dec (len (sub b a)) (/ 10 ^ 6)) as [S|S].
  { rewrite len_gap in S. pose proof (progress_bound h a b) as P. apply rabs_inv in P. assert (0 <= / 10 ^ 6 * gap a b) by (apply Rmult_le_pos; lra). unfold against, along. split; intros _ N; lra. }
  set (r := atan2 _ _). pose proof PI_bounds as PB.
  assert (RR : - PI <= r <= PI).
  { unfold r, atan2. set (x := fst (sub b a)). set (y := snd (sub b a)). destruct (Rlt_dec 0 x) as [X|X]; [pose proof (atan_bound (y / x)); lra|].
    destruct (Rlt_dec x 0) as [X'|X']; [|destruct (Rlt_dec 0 y); [lra|]; destruct (Rlt_dec y 0); lra]. pose proof (atan_bound (y / x)). assert (I : / x < 0) by (apply Rinv_lt_0_compat, X').
    destruct (Rle_dec 0 y) as [Y|Y].
    - assert (Q : y / x <= 0) by (unfold Rdiv; nra). destruct Q as [Q|Q]; [apply atan_increasing in Q|rewrite Q]; rewrite atan_0 in *; lra.
    - assert (Q : 0 < y / x) by (unfold Rdiv; nra). apply atan_increasing in Q. rewrite atan_0 in Q. lra. }
  set (sh := (half_pi - r) * rad_to_deg).
  assert (SB : -91 < sh < 271).
  { unfold sh, half_pi, rad_to_deg. split; nra. }
  set (eps := sh * PI / 180 - (PI / 2 - r)).
  assert (EB : Rabs eps <= / 10 ^ 9).
  { unfold eps, sh. set (kk := rad_to_deg * PI / 180). assert (KB : Rabs (kk - 1) <= / 10 ^ 11) by (apply Rabs_le; unfold kk, rad_to_deg; lra).
    replace ((half_pi - r) * rad_to_deg * PI / 180 - (PI / 2 - r)) with ((half_pi - r) * (kk - 1) + (half_pi - PI / 2)) by (unfold kk; field).
    eapply Rle_trans; [apply Rabs_triang|]. rewrite Rabs_mult. assert (A : Rabs (half_pi - r) <= 5) by (apply Rabs_le; unfold half_pi; lra). assert (B : Rabs (half_pi - PI / 2) <= / 10 ^ 10) by (apply Rabs_le; unfold half_pi; lra).
    assert (M : Rabs (half_pi - r) * Rabs (kk - 1) <= 5 * / 10 ^ 11) by (apply Rmult_le_compat; try lra; apply Rabs_pos). lra. }
  match goal with |- (Rabs ?dd < 90 -> _) /\ _ => set (d := dd) end.
  assert (DK : exists k : Z, d = h - sh + 360 * IZR k /\ -180 <= d <= 180).
  { unfold d. destruct (Rlt_dec sh 0) as [A|A].
    - destruct (Rlt_dec 180 (h - (sh + 360))) as [B|B]; [lra|]. destruct (Rlt_dec (h - (sh + 360)) (-180)) as [C|C]; [exists 0%Z|exists (-1)%Z]; lra.
    - destruct (Rlt_dec 180 (h - sh)) as [B|B].
      + destruct (Rlt_dec (h - sh - 360) (-180)) as [C|C]; [lra|]. exists (-1)%Z. lra.
      + destruct (Rlt_dec (h - sh) (-180)) as [C|C]; [exists 1%Z|exists 0%Z]; lra. }
  destruct DK as (k & DE & DB).
  assert (PC : progress h a b = gap a b * cos (d * PI / 180 + eps)).
  { rewrite progress_cos. cbv zeta. rewrite len_gap. f_equal. fold r. rewrite <- (proj1 (cos_turns _ k)). f_equal. unfold eps. rewrite DE. field. }
  pose proof (cos_lip (d * PI / 180 + eps) (d * PI / 180)) as LP. replace (d * PI / 180 + eps - d * PI / 180) with eps in LP by ring. assert (LE : Rabs (cos (d * PI / 180 + eps) - cos (d * PI / 180)) <= / 10 ^ 9) by lra. apply rabs_inv in LE.
  unfold against, along. rewrite PC. set (c := cos (d * PI / 180 + eps)) in *. split.
  - intros A N. apply Rabs_def2 in A. assert (0 < cos (d * PI / 180)) by (apply cos_gt_0; nra). assert (- / 10 ^ 9 <= c) by lra. nra.
  - intros A N. assert (cos (d * PI / 180) <= 0).
    { destruct (Rle_dec 0 d) as [Z|Z].
      - rewrite Rabs_pos_eq in A by exact Z. apply cos_le_0; nra.
      - rewrite Rabs_left in A by lra. rewrite <- cos_neg. apply cos_le_0; nra. }
    assert (c <= / 10 ^ 9) by lra. nra.
Qed.

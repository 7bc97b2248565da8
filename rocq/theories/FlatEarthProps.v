(** Theorems about the conversions between latitude and longitude and local coordinates. *)
From Coq Require Import Reals Lra List.
From Verif Require Import FlatEarthModel PiBounds.
Import ListNotations.
Open Scope R_scope.

(** The point that a call names first, in radians. *)
Definition deg : R := 1745329251994 / 100000000000000.
Definition named (c : call) : R * R :=
  match c with
  | Init a b | RadM a b | RadFt a b | DistRad a b _ _ => (a, b)
  | DegM a b | DegFt a b | DistDeg a b _ _ => (a * deg, b * deg)
  end.

(** The latitude of the origin is between the poles. *)
Definition between_poles (lat : R) : Prop := - PI / 2 < lat < PI / 2.

Lemma initialize_ready : forall a b e, ready e = true -> initialize a b e = e.
Proof. intros a b e H. unfold initialize. rewrite H. reflexivity. Qed.
Lemma ready_initialize : forall a b e, ready (initialize a b e) = true.
Proof. intros a b e. unfold initialize. destruct (ready e) eqn:E; [exact E|reflexivity]. Qed.

Lemma deg_eq : deg_to_rad = deg.
Proof. unfold deg_to_rad, deg. field. Qed.
Lemma after_eq : forall e c, after e c = initialize (fst (named c)) (snd (named c)) e.
Proof.
  intros e [a b|a b|a b|a b|a b|a b c d|a b c d]; cbn [after named fst snd]; try reflexivity.
  - cbn. rewrite deg_eq. reflexivity.
  - cbn. rewrite deg_eq. reflexivity.
  - unfold distance_deg, deg_ne_m. cbv zeta. cbn [fst snd]. rewrite deg_eq. apply initialize_ready, ready_initialize.
  - unfold distance_rad, rad_ne_m. cbv zeta. cbn [fst snd]. apply initialize_ready, ready_initialize.
Qed.
Lemma fold_ready : forall cs e, ready e = true -> fold_left after cs e = e.
Proof.
  induction cs as [|c cs IH]; intros e H; [reflexivity|]. cbn [fold_left]. rewrite after_eq, initialize_ready by exact H. apply IH, H.
Qed.
Lemma history_eq : forall c cs, history (c :: cs) = initialize (fst (named c)) (snd (named c)) fresh.
Proof.
  intros c cs. unfold history. cbn [fold_left]. rewrite after_eq. apply fold_ready, ready_initialize.
Qed.

Lemma root_bound : forall lat, 9966471 / 10000000 < root lat <= 1 /\ root lat ^ 2 = 1 - ecc2 * sin lat ^ 2 /\ 0 <= sin lat ^ 2 <= 1.
Proof.
  intros lat. pose proof (SIN_bound lat) as B. assert (S : 0 <= sin lat ^ 2 <= 1) by nra.
  assert (E : 0 <= 1 - ecc2 * sin lat ^ 2 <= 1) by (unfold ecc2; nra). unfold root.
  assert (Q : sqrt (1 - ecc2 * sin lat ^ 2) ^ 2 = 1 - ecc2 * sin lat ^ 2).
  { rewrite <- Rsqr_pow2. apply Rsqr_sqrt. lra. }
  split; [|split; [exact Q|exact S]]. split.
  - rewrite <- (sqrt_pow2 (9966471 / 10000000)) by lra. apply sqrt_lt_1; [lra|lra|]. unfold ecc2. lra.
  - apply Rle_trans with (sqrt 1); [apply sqrt_le_1; lra|rewrite sqrt_1; lra].
Qed.

Lemma origin_values : forall lat lon, let e := initialize lat lon fresh in
  lat0 e = lat /\ lon0 e = lon /\ ready e = true /\ 6335437 < meridional e < 6399600 /\ 6378135 <= transverse e < 6399600
  /\ small e = transverse e * cos lat
  /\ transverse e * root lat = equatorial /\ meridional e * root lat ^ 3 = equatorial * (1 - ecc2).
Proof.
  intros lat lon e. destruct (root_bound lat) as ((A & B) & Q & S). unfold e, initialize. cbn [ready fresh lat0 lon0 meridional transverse small].
  assert (P : 0 < root lat ^ 3) by (apply pow_lt; lra).
  destruct (Rle_dec (root lat) 0) as [L|_]; [lra|]. destruct (Rle_dec (den_meridional lat) 0) as [L|_]; [unfold den_meridional in L; lra|].
  unfold den_meridional.
  repeat split; try reflexivity.
  - apply Rmult_lt_reg_r with (root lat ^ 3); [exact P|]. replace (equatorial * (1 - ecc2) / root lat ^ 3 * root lat ^ 3) with (equatorial * (1 - ecc2)) by (field; lra).
    assert (root lat ^ 3 <= 1). { replace 1 with (1 ^ 3) by ring. apply pow_incr. lra. }
    unfold equatorial, ecc2. lra.
  - apply Rmult_lt_reg_r with (root lat ^ 3); [exact P|]. replace (equatorial * (1 - ecc2) / root lat ^ 3 * root lat ^ 3) with (equatorial * (1 - ecc2)) by (field; lra).
    assert (root lat ^ 3 >= (1 - ecc2) * (9966471 / 10000000)).
    { replace (root lat ^ 3) with (root lat ^ 2 * root lat) by ring. rewrite Q. apply Rle_ge.
      apply Rmult_le_compat; unfold ecc2; lra. }
    unfold equatorial, ecc2 in *. lra.
  - apply Rmult_le_reg_r with (root lat); [lra|]. replace (equatorial / root lat * root lat) with equatorial by (field; lra). unfold equatorial. lra.
  - apply Rmult_lt_reg_r with (root lat); [lra|]. replace (equatorial / root lat * root lat) with equatorial by (field; lra). unfold equatorial. lra.
  - field. lra.
  - field. lra.
Qed.

(** The origin of a converter is the first point that is given to it, by whatever call; later calls do not move it. *)
Theorem C73_origin : forall c cs, history (c :: cs) = history [c]
  /\ (lat0 (history (c :: cs)), lon0 (history (c :: cs))) = named c.
Proof.
  intros c cs. rewrite !history_eq. split; [reflexivity|].
  destruct (origin_values (fst (named c)) (snd (named c))) as (A & B & _). rewrite A, B. symmetry. apply surjective_pairing.
Qed.
(** A converter that is asked for a distance first and for a position in degrees then keeps the first point of the distance. *)
Example C73_origin_meets : (lat0 (history [DistRad 1 2 3 4; DegM 45 9; Init 0 0]), lon0 (history [DistRad 1 2 3 4; DegM 45 9; Init 0 0])) = (1, 2).
Proof. exact (proj2 (C73_origin (DistRad 1 2 3 4) [DegM 45 9; Init 0 0])). Qed.

(** The radii of curvature along and across the meridian of an ellipsoid at a latitude; [a] is the radius at its equator, [e] the square of its
    eccentricity. *)
Definition radii (a e lat along across : R) : Prop :=
  let w := 1 - e * (sin lat * sin lat) in
  0 < along /\ along * along * (w * w * w) = (a * (1 - e)) * (a * (1 - e)) /\ 0 < across /\ across * across * w = a * a.

(** Local coordinates: the origin is at 0, north is up to 1% the mean radius of the earth for a radian of latitude, and east is so for a
    radian of longitude, shortened by the cosine of the latitude of the origin; they are the radii of curvature of an ellipsoid; all four conversions agree about it, and none changes a
    converter that has an origin. *)
Theorem C73_scale : forall c cs, let e := history (c :: cs) in
  exists north east, 6335437 < north < 6399600 /\ 6378135 <= east < 6399600
  /\ radii 6378135 0.006694379990096503 (fst (named c)) north east
  /\ (forall lat lon, rad_ne_m lat lon e = (e, (north * (lat - fst (named c)), east * cos (fst (named c)) * (lon - snd (named c)))))
  /\ (forall lat lon, deg_ne_m lat lon e = rad_ne_m (lat * deg) (lon * deg) e)
  /\ (forall lat lon, deg_ne_ft lat lon e = rad_ne_ft (lat * deg) (lon * deg) e)
  /\ (forall lat lon, let p := snd (rad_ne_m lat lon e) in
       rad_ne_ft lat lon e = (e, (fst p * 3.280839895, snd p * 3.280839895))).
Proof.
  intros c cs e. pose proof (origin_values (fst (named c)) (snd (named c))) as H. cbv zeta in H. rewrite <- (history_eq c cs) in H.
  fold e in H. destruct H as (A & B & C & D & E & F & T & M). exists (meridional e), (transverse e).
  split; [exact D|]. split; [exact E|]. split.
  { destruct (root_bound (fst (named c))) as (_ & Q & _). unfold radii. cbv zeta. replace 0.006694379990096503 with ecc2 by (unfold ecc2; lra).
    change 6378135 with equatorial.
    replace (1 - ecc2 * (sin (fst (named c)) * sin (fst (named c)))) with (root (fst (named c)) ^ 2) by (rewrite Q; ring).
    split; [lra|]. split; [rewrite <- M; ring|]. split; [lra|]. rewrite <- T at 1 2. ring. }
  assert (G : forall lat lon, rad_ne_m lat lon e = (e, (meridional e * (lat - fst (named c)), transverse e * cos (fst (named c)) * (lon - snd (named c))))).
  { intros lat lon. unfold rad_ne_m. cbv zeta. rewrite initialize_ready by exact C. rewrite A, B, F. reflexivity. }
  split; [exact G|]. split; [|split].
  - intros lat lon. unfold deg_ne_m, rad_ne_m. rewrite deg_eq. reflexivity.
  - intros lat lon. unfold deg_ne_ft, rad_ne_ft. rewrite deg_eq. reflexivity.
  - intros lat lon p. unfold p. unfold rad_ne_ft, rad_ne_m. cbv zeta. cbn [fst snd]. rewrite initialize_ready by exact C.
    replace m_to_ft with 3.280839895 by (unfold m_to_ft; lra). reflexivity.
Qed.
Example C73_scale_meets : exists north east, 6335437 < north < 6399600 /\ 6378135 <= east < 6399600
  /\ rad_ne_m (1 / 2) 2 (history [Init (1 / 3) 1]) = (history [Init (1 / 3) 1], (north * (1 / 2 - 1 / 3), east * cos (1 / 3) * (2 - 1))).
Proof.
  destruct (C73_scale (Init (1 / 3) 1) []) as (n & w & A & B & _ & C & _). exists n, w. split; [exact A|]. split; [exact B|]. apply C.
Qed.

Lemma cos_between : forall lat, between_poles lat -> 0 < cos lat.
Proof. intros lat (A & B). apply cos_gt_0; lra. Qed.
Lemma small_pos : forall lat lon, between_poles lat -> 0 < small (initialize lat lon fresh).
Proof.
  intros lat lon H. destruct (origin_values lat lon) as (_ & _ & _ & _ & E & F & _). rewrite F.
  apply Rmult_lt_0_compat; [lra|apply cos_between, H].
Qed.

(** Converting to local coordinates in meters and back, or from them and back, gives the same point again. *)
Theorem C73_back : forall c cs, let e := history (c :: cs) in between_poles (fst (named c)) ->
  (forall lat lon, let p := snd (rad_ne_m lat lon e) in m_ll_rad (fst p) (snd p) e = (lat, lon))
  /\ (forall n w, let p := m_ll_rad n w e in snd (rad_ne_m (fst p) (snd p) e) = (n, w)).
Proof.
  intros c cs e H. pose proof (origin_values (fst (named c)) (snd (named c))) as V. cbv zeta in V. rewrite <- (history_eq c cs) in V.
  pose proof (small_pos (fst (named c)) (snd (named c)) H) as P. rewrite <- (history_eq c cs) in P. fold e in V, P.
  destruct V as (A & B & C & D & _).
  assert (W : forall n w, m_ll_rad n w e = (n / meridional e + lat0 e, w / small e + lon0 e)).
  { intros n w. unfold m_ll_rad. destruct (Rle_dec (meridional e) 0); [lra|]. destruct (Rle_dec (small e) 0); [lra|]. reflexivity. }
  split.
  - intros lat lon p. unfold p, rad_ne_m. cbv zeta. rewrite initialize_ready by exact C. cbn [fst snd]. rewrite W. f_equal; field; lra.
  - intros n w p. unfold p. rewrite W. cbn [fst snd]. unfold rad_ne_m. cbv zeta. rewrite initialize_ready by exact C. cbn [fst snd].
    f_equal; field; lra.
Qed.
Example C73_back_meets : between_poles (fst (named (DegM 45 9))).
Proof. unfold between_poles, named, deg. cbn [fst]. pose proof PI2_3_2. unfold PI2 in *. lra. Qed.

(** What comes back in degrees is the point that was given in degrees up to two parts in ten thousand billion. *)
Theorem C73_back_deg : forall c cs, let e := history (c :: cs) in between_poles (fst (named c)) ->
  forall lat lon, let p := snd (deg_ne_m lat lon e) in let q := m_ll_deg (fst p) (snd p) e in
  Rabs (fst q - lat) <= 2 / 10 ^ 13 * Rabs lat /\ Rabs (snd q - lon) <= 2 / 10 ^ 13 * Rabs lon.
Proof.
  intros c cs e H lat lon p q. destruct (C73_back c cs H) as (K & _). fold e in K. specialize (K (lat * deg_to_rad) (lon * deg_to_rad)).
  change (snd (rad_ne_m (lat * deg_to_rad) (lon * deg_to_rad) e)) with p in K. cbv zeta in K.
  pose proof (origin_values (fst (named c)) (snd (named c))) as V. cbv zeta in V. rewrite <- (history_eq c cs) in V.
  pose proof (small_pos (fst (named c)) (snd (named c)) H) as P. rewrite <- (history_eq c cs) in P. fold e in V, P.
  destruct V as (_ & _ & _ & D & _).
  unfold q, m_ll_deg. unfold m_ll_rad in K. destruct (Rle_dec (meridional e) 0); [lra|]. destruct (Rle_dec (small e) 0); [lra|].
  pose proof (f_equal fst K) as K1. pose proof (f_equal snd K) as K2. clear K. revert K1 K2. clear q. generalize (fst p) (snd p). intros nn ww K1 K2. cbn [fst snd] in K1, K2 |- *. rewrite K1, K2.
  assert (G : forall x, Rabs (x * deg_to_rad * rad_to_deg - x) <= 2 / 10 ^ 13 * Rabs x).
  { intros x. replace (x * deg_to_rad * rad_to_deg - x) with (x * (deg_to_rad * rad_to_deg - 1)) by ring. rewrite Rabs_mult, Rmult_comm.
    apply Rmult_le_compat_r; [apply Rabs_pos|]. apply Rabs_le. unfold deg_to_rad, rad_to_deg. lra. }
  split; apply G.
Qed.

(** Degrees are degrees up to a tenth of a millionth of a millionth, both ways. *)
Theorem C73_degrees : forall x, Rabs (x * deg - x * PI / 180) <= / 10 ^ 13 * Rabs x
  /\ Rabs (x * 57.29577951308232 - x * 180 / PI) <= / 10 ^ 9 * Rabs x.
Proof.
  intros x. pose proof PI_bounds as B. split.
  - replace (x * deg - x * PI / 180) with ((deg - PI / 180) * x) by field. rewrite Rabs_mult. apply Rmult_le_compat_r; [apply Rabs_pos|].
    apply Rabs_le. unfold deg. lra.
  - replace (x * 57.29577951308232 - x * 180 / PI) with ((57.29577951308232 - 180 / PI) * x) by (field; lra). rewrite Rabs_mult.
    apply Rmult_le_compat_r; [apply Rabs_pos|].
    assert (L : 57.29577951208232 <= 180 / PI <= 57.29577951408232).
    { split; apply Rmult_le_reg_r with PI; try lra; replace (180 / PI * PI) with 180 by (field; lra); lra. }
    apply Rabs_le. lra.
Qed.

(** It is not the same point: the two constants for degrees are not inverse to each other.  This is the exact value, so it is no matter of
    rounding. *)
Theorem C73_back_deg_refuted : forall c cs, let e := history (c :: cs) in between_poles (fst (named c)) ->
  forall lat lon, lat <> 0 -> let p := snd (deg_ne_m lat lon e) in fst (m_ll_deg (fst p) (snd p) e) <> lat.
Proof.
  intros c cs e H lat lon Z p. destruct (C73_back c cs H) as (K & _). fold e in K. specialize (K (lat * deg_to_rad) (lon * deg_to_rad)).
  change (snd (rad_ne_m (lat * deg_to_rad) (lon * deg_to_rad) e)) with p in K. cbv zeta in K.
  pose proof (origin_values (fst (named c)) (snd (named c))) as V. cbv zeta in V. rewrite <- (history_eq c cs) in V. fold e in V.
  destruct V as (_ & _ & _ & D & _).
  unfold m_ll_deg. unfold m_ll_rad in K. destruct (Rle_dec (meridional e) 0); [lra|].
  pose proof (f_equal fst K) as K1. clear K. revert K1. generalize (fst p). intros nn K1 E. cbn [fst snd] in K1, E. rewrite K1 in E.
  assert (F : lat * (deg_to_rad * rad_to_deg - 1) = 0) by lra. apply Rmult_integral in F. destruct F as [F|F]; [exact (Z F)|].
  unfold deg_to_rad, rad_to_deg in F. lra.
Qed.

(** In feet, the way back from the origin is right up to five parts in a thousand billion. *)
Theorem C73_back_ft : forall c cs, let e := history (c :: cs) in between_poles (fst (named c)) ->
  forall lat lon, let p := snd (rad_ne_ft lat lon e) in let q := ft_ll_rad (fst p) (snd p) e in
  Rabs (fst q - lat) <= 5 / 10 ^ 12 * Rabs (lat - fst (named c)) /\ Rabs (snd q - lon) <= 5 / 10 ^ 12 * Rabs (lon - snd (named c))
  /\ ft_ll_deg (fst p) (snd p) e = (fst q * 57.29577951308232, snd q * 57.29577951308232).
Proof.
  intros c cs e H lat lon p q. pose proof (origin_values (fst (named c)) (snd (named c))) as V. cbv zeta in V. rewrite <- (history_eq c cs) in V.
  pose proof (small_pos (fst (named c)) (snd (named c)) H) as P. rewrite <- (history_eq c cs) in P. fold e in V, P.
  destruct V as (A & B & C & D & _).
  assert (W : forall n w, m_ll_rad n w e = (n / meridional e + lat0 e, w / small e + lon0 e)).
  { intros n w. unfold m_ll_rad. destruct (Rle_dec (meridional e) 0); [lra|]. destruct (Rle_dec (small e) 0); [lra|]. reflexivity. }
  assert (R : 57.29577951308232 = rad_to_deg) by (unfold rad_to_deg; lra).
  assert (K : Rabs (m_to_ft * ft_to_m - 1) <= 5 / 10 ^ 12) by (apply Rabs_le; unfold m_to_ft, ft_to_m; lra).
  split; [|split].
  - unfold q, ft_ll_rad. rewrite W. unfold p, rad_ne_ft. cbv zeta. rewrite initialize_ready by exact C. cbn [fst snd].
    replace (meridional e * (lat - lat0 e) * m_to_ft * ft_to_m / meridional e + lat0 e - lat)
      with ((m_to_ft * ft_to_m - 1) * (lat - lat0 e)) by (field; lra).
    rewrite Rabs_mult, A. apply Rmult_le_compat_r; [apply Rabs_pos|exact K].
  - unfold q, ft_ll_rad. rewrite W. unfold p, rad_ne_ft. cbv zeta. rewrite initialize_ready by exact C. cbn [fst snd].
    replace (small e * (lon - lon0 e) * m_to_ft * ft_to_m / small e + lon0 e - lon)
      with ((m_to_ft * ft_to_m - 1) * (lon - lon0 e)) by (field; lra).
    rewrite Rabs_mult, B. apply Rmult_le_compat_r; [apply Rabs_pos|exact K].
  - unfold ft_ll_deg, q, ft_ll_rad. cbv zeta. rewrite R. reflexivity.
Qed.

(** With the origin at a pole every longitude comes back as 0, and a converter without an origin gives 0 for everything. *)
Theorem C73_pole_refuted : forall lon w n,
  snd (m_ll_rad n w (history [Init (PI / 2) lon])) = 0 /\ m_ll_rad n w fresh = (0, 0) /\ m_ll_deg n w fresh = (0, 0).
Proof.
  intros lon w n. split; [|split].
  - rewrite history_eq. cbn [named fst snd]. destruct (origin_values (PI / 2) lon) as (_ & _ & _ & _ & _ & F & _). unfold m_ll_rad. cbn [snd].
    rewrite F, cos_PI2, Rmult_0_r. destruct (Rle_dec 0 0); [reflexivity|lra].
  - unfold m_ll_rad. cbn [fresh meridional small]. destruct (Rle_dec 0 0); [reflexivity|lra].
  - unfold m_ll_deg. cbn [fresh meridional small]. destruct (Rle_dec 0 0); [reflexivity|lra].
Qed.

Lemma straight_sym : forall p q, straight p q = straight q p.
Proof. intros p q. unfold straight. f_equal. ring. Qed.
Lemma straight_zero : forall p q, straight p q = 0 <-> p = q.
Proof.
  intros (a, b) (c, d). unfold straight. cbn [fst snd]. split.
  - pose proof (pow2_ge_0 (c - a)) as A. pose proof (pow2_ge_0 (d - b)) as B. intros H. assert (S : (c - a) ^ 2 + (d - b) ^ 2 = 0) by (apply sqrt_eq_0; [lra|exact H]).
    assert (E : c - a = 0) by (apply Rsqr_0_uniq; rewrite Rsqr_pow2; lra). assert (F : d - b = 0) by (apply Rsqr_0_uniq; rewrite Rsqr_pow2; lra). f_equal; lra.
  - intros E. injection E as -> ->. replace ((c - c) ^ 2 + (d - d) ^ 2) with 0 by ring. apply sqrt_0.
Qed.
Lemma straight_triangle : forall p q r, straight p r <= straight p q + straight q r.
Proof.
  intros (a, b) (c, d) (x, y). unfold straight. cbn [fst snd].
  pose proof (sqrt_pos ((c - a) ^ 2 + (d - b) ^ 2)) as P1. pose proof (sqrt_pos ((x - c) ^ 2 + (y - d) ^ 2)) as P2.
  set (u := c - a) in *. set (v := d - b) in *. set (s := x - c) in *. set (t := y - d) in *.
  replace (x - a) with (u + s) by (unfold u, s; ring). replace (y - b) with (v + t) by (unfold v, t; ring).
  assert (Q1 : sqrt (u ^ 2 + v ^ 2) ^ 2 = u ^ 2 + v ^ 2) by (rewrite <- Rsqr_pow2; apply Rsqr_sqrt; apply Rplus_le_le_0_compat; apply pow2_ge_0).
  assert (Q2 : sqrt (s ^ 2 + t ^ 2) ^ 2 = s ^ 2 + t ^ 2) by (rewrite <- Rsqr_pow2; apply Rsqr_sqrt; apply Rplus_le_le_0_compat; apply pow2_ge_0).
  rewrite <- (sqrt_pow2 (sqrt (u ^ 2 + v ^ 2) + sqrt (s ^ 2 + t ^ 2))) by lra.
  apply sqrt_le_1; [apply Rplus_le_le_0_compat; apply pow2_ge_0|apply pow2_ge_0|].
  set (m := sqrt (u ^ 2 + v ^ 2)) in *. set (n := sqrt (s ^ 2 + t ^ 2)) in *.
  assert (K : u * s + v * t <= m * n).
  { assert (N : 0 <= m * n) by (apply Rmult_le_pos; assumption).
    destruct (Rle_lt_dec (u * s + v * t) 0) as [L|L]; [lra|].
    apply Rsqr_incr_0_var; [|exact N]. unfold Rsqr. replace (m * n * (m * n)) with (m ^ 2 * n ^ 2) by ring. rewrite Q1, Q2.
    pose proof (pow2_ge_0 (u * t - v * s)). lra. }
  replace ((m + n) ^ 2) with (m ^ 2 + n ^ 2 + 2 * (m * n)) by ring. rewrite Q1, Q2. nra.
Qed.

(** Distances of a converter with an origin are distances: never negative, zero exactly for the same point, the same in both directions, and
    no shorter by a detour; they are the lengths of straight lines in local coordinates. *)
Theorem C73_distance : forall c cs, let e := history (c :: cs) in between_poles (fst (named c)) ->
  let d p q := snd (distance_rad (fst p) (snd p) (fst q) (snd q) e) in
  (forall p q, 0 <= d p q /\ d p q = d q p /\ (d p q = 0 <-> p = q))
  /\ (forall p q r, d p r <= d p q + d q r)
  /\ (forall p q, let x := snd (rad_ne_m (fst p) (snd p) e) in let y := snd (rad_ne_m (fst q) (snd q) e) in
        d p q * d p q = (fst x - fst y) * (fst x - fst y) + (snd x - snd y) * (snd x - snd y))
  /\ (forall p q, snd (distance_deg (fst p) (snd p) (fst q) (snd q) e) = d (fst p * deg, snd p * deg) (fst q * deg, snd q * deg)).
Proof.
  intros c cs e H d. destruct (C73_back c cs H) as (K & _). fold e in K.
  pose proof (origin_values (fst (named c)) (snd (named c))) as V. cbv zeta in V. rewrite <- (history_eq c cs) in V. fold e in V.
  destruct V as (_ & _ & C & _).
  set (l := fun p : R * R => snd (rad_ne_m (fst p) (snd p) e)).
  assert (F : forall a b, rad_ne_m a b e = (e, l (a, b))).
  { intros a b. unfold l. cbn [fst snd]. unfold rad_ne_m. cbv zeta. rewrite initialize_ready by exact C. reflexivity. }
  assert (D : forall p q, d p q = straight (l p) (l q)).
  { intros (a, b) (x, y). unfold d, distance_rad. cbn [fst snd]. rewrite F, F. reflexivity. }
  assert (I : forall p q, l p = l q -> p = q).
  { intros (a, b) (x, y) E. pose proof (K a b) as K1. pose proof (K x y) as K2. cbv zeta in K1, K2.
    change (snd (rad_ne_m a b e)) with (l (a, b)) in K1. change (snd (rad_ne_m x y e)) with (l (x, y)) in K2. rewrite E in K1. congruence. }
  split; [|split; [|split]].
  - intros p q. rewrite !D. split; [apply sqrt_pos|]. split; [apply straight_sym|]. rewrite straight_zero. split; [apply I|intros ->; reflexivity].
  - intros p q r. rewrite !D. apply straight_triangle.
  - intros p q x y. rewrite D. change x with (l p). change y with (l q). unfold straight. rewrite sqrt_sqrt by (apply Rplus_le_le_0_compat; apply pow2_ge_0). ring.
  - intros (a, b) (x, y). unfold d, distance_deg, distance_rad, deg_ne_m, rad_ne_m. cbn [fst snd]. rewrite deg_eq. reflexivity.
Qed.

(** For a converter without an origin the order of the two points matters: the first one becomes the origin. *)
Theorem C73_distance_refuted : snd (distance_rad (PI / 3) 1 0 0 fresh) < snd (distance_rad 0 0 (PI / 3) 1 fresh).
Proof.
  assert (G : forall a b c d, snd (distance_rad a b c d fresh)
    = let e := initialize a b fresh in sqrt ((meridional e * (c - a)) ^ 2 + (transverse e * cos a * (d - b)) ^ 2)).
  { intros a b c d. pose proof (origin_values a b) as V. cbv zeta in V. destruct V as (A & B & C & _ & _ & F & _).
    unfold distance_rad, rad_ne_m. cbv zeta. rewrite (initialize_ready c d) by exact C. cbn [snd]. unfold straight. cbn [fst snd].
    rewrite A, B, F. f_equal. ring. }
  rewrite !G. cbv zeta. pose proof (origin_values (PI / 3) 1) as V. pose proof (origin_values 0 0) as W. cbv zeta in V, W.
  destruct V as (_ & _ & _ & M1 & T1 & _). destruct W as (_ & _ & _ & M2 & T2 & _).
  set (m1 := meridional (initialize (PI / 3) 1 fresh)) in *. set (t1 := transverse (initialize (PI / 3) 1 fresh)) in *.
  set (m2 := meridional (initialize 0 0 fresh)) in *. set (t2 := transverse (initialize 0 0 fresh)) in *.
  rewrite cos_PI3, cos_0. pose proof PI_4. pose proof PI_RGT_0.
  apply sqrt_lt_1; [apply Rplus_le_le_0_compat; apply pow2_ge_0|apply Rplus_le_le_0_compat; apply pow2_ge_0|].
  assert (X : m1 ^ 2 <= 6399600 ^ 2) by (apply pow_incr; lra). assert (Y : 6335437 ^ 2 <= m2 ^ 2) by (apply pow_incr; lra).
  assert (Z : t1 ^ 2 <= 6399600 ^ 2) by (apply pow_incr; lra). assert (U : 6378135 ^ 2 <= t2 ^ 2) by (apply pow_incr; lra).
  assert (Q : 0 < (PI / 3) ^ 2 <= (4 / 3) ^ 2). { split; [apply pow_lt; lra|apply pow_incr; lra]. }
  replace ((m1 * (0 - PI / 3)) ^ 2) with (m1 ^ 2 * (PI / 3) ^ 2) by ring. replace ((m2 * (PI / 3 - 0)) ^ 2) with (m2 ^ 2 * (PI / 3) ^ 2) by ring.
  replace ((t1 * (1 / 2) * (0 - 1)) ^ 2) with (t1 ^ 2 / 4) by field. replace ((t2 * 1 * (1 - 0)) ^ 2) with (t2 ^ 2) by ring.
  assert (L : (m1 ^ 2 - m2 ^ 2) * (PI / 3) ^ 2 <= (6399600 ^ 2 - 6335437 ^ 2) * (4 / 3) ^ 2).
  { apply Rle_trans with ((6399600 ^ 2 - 6335437 ^ 2) * (PI / 3) ^ 2); [apply Rmult_le_compat_r; lra|apply Rmult_le_compat_l; lra]. }
  lra.
Qed.

(** The radius at the equator is not the one of the WGS-84 ellipsoid (6378137 m), which the documentation promises: a radian along the
    equator is 2 m short. *)
Theorem C73_wgs84_refuted : forall lon, snd (snd (rad_ne_m 0 (lon + 1) (history [Init 0 lon]))) = 6378137 - 2.
Proof.
  intros lon. rewrite history_eq. cbn [named fst snd]. pose proof (origin_values 0 lon) as V. cbv zeta in V.
  destruct V as (_ & B & C & _ & _ & F & E & _). unfold rad_ne_m. cbv zeta. rewrite initialize_ready by exact C. cbn [snd].
  rewrite B, F, cos_0. unfold root in E. rewrite sin_0 in E. replace (1 - ecc2 * 0 ^ 2) with 1 in E by ring. rewrite sqrt_1 in E.
  unfold equatorial in E. lra.
Qed.

Print Assumptions C73_origin.
Print Assumptions C73_scale.
Print Assumptions C73_back.
Print Assumptions C73_back_deg.
Print Assumptions C73_degrees.
Print Assumptions C73_back_deg_refuted.
Print Assumptions C73_back_ft.
Print Assumptions C73_pole_refuted.
Print Assumptions C73_distance.
Print Assumptions C73_distance_refuted.
Print Assumptions C73_wgs84_refuted.

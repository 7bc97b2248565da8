(** Theorems about the manoeuvres that extend a route. *)
From Coq Require Import Reals Lra Lia List ZArith.
From Verif Require Import RouteExtModel RouteExtSpec RouteExtGeom RouteExtWay PiBounds.
Import ListNotations.
Open Scope R_scope.

Lemma starting_looks : forall s e, s <> e -> looks (starting s e) s e.
Proof.
  intros (a, b) (c, d) N. unfold looks, starting, heading. cbn [fst snd px py ph]. split; [reflexivity|].
  destruct (atan2_spec (d - b) (c - a)) as (L & C & S).
  { destruct (Req_dec (c - a) 0) as [E|E]; [|auto]. right. intros F. apply N. f_equal; lra. }
  eexists. split; [exact L|]. rewrite C, S. split; ring.
Qed.

(** A segment is extended by legs that can be flown one after the other, starting at its start and in its direction, with turns of the radius
    given.  They lead back to the line of the segment, in its direction, at most as far along as was said to be required; they are longer by
    the length asked for than the piece of the line they replace, up to a fifth of a millionth of the radius, and not more; and on the way the
    vehicle is never more than twice the radius away from the part of the segment that is required. *)
Theorem C74_extend : forall s e len r, 0 < r -> 0 <= len -> s <> e -> exists p w d net,
  looks p s e /\ extend_segment s e len r = Some w /\ required len r = Some d
  /\ flown r p w
  /\ 0 <= net <= d
  /\ px (finish r p w) = fst s + net * cos (ph p) /\ py (finish r p w) = snd s + net * sin (ph p) /\ same_way (ph (finish r p w)) (ph p)
  /\ net + len - 2 / 10 ^ 7 * r <= way w <= net + len
  /\ forall x y, through r p w x y -> exists c, 0 <= c <= d
       /\ (x - (fst s + c * cos (ph p))) ^ 2 + (y - (snd s + c * sin (ph p))) ^ 2 <= (2 * r) ^ 2.
Proof.
  intros s e len r R P N. destruct (extend_ok s e len r R P) as (w & d & net & A & B & C & F & (h & G & (G1 & G2)) & W & T & _).
  exists (starting s e), w, d, net. split; [apply starting_looks, N|]. split; [exact A|]. split; [exact B|]. split; [exact F|]. split; [exact C|].
  assert (E : finish r (starting s e) w = frame s (heading s e) {| px := net; py := 0; ph := h |}).
  { rewrite starting_frame, frame_finish, G. reflexivity. }
  rewrite E. cbn [frame px py ph starting]. split; [ring|]. split; [ring|]. split.
  - split; [rewrite cos_plus|rewrite sin_plus]; rewrite G1, G2, cos_0, sin_0; ring.
  - split; [exact W|]. intros x y H. rewrite starting_frame in H. apply frame_through in H. destruct H as (a & b & H & X & Y).
    destruct (T a b H) as (c & C1 & C2). exists c. split; [exact C1|]. rewrite X, Y. set (psi := heading s e).
    pose proof (sin2_cos2 psi) as Q. unfold Rsqr in Q.
    replace ((fst s + a * cos psi - b * sin psi - (fst s + c * cos psi)) ^ 2 + (snd s + a * sin psi + b * cos psi - (snd s + c * sin psi)) ^ 2)
      with (((a - c) * (a - c) + b * b) * (sin psi * sin psi + cos psi * cos psi)) by ring.
    rewrite Q. replace ((2 * r) ^ 2) with (2 * r * (2 * r)) by ring. lra.
Qed.
Example C74_extend_meets : exists s e : R * R, 0 < 300 /\ 0 <= 100 /\ s <> e /\ exists w, extend_segment s e 100 300 = Some w.
Proof.
  exists (0, 0), (5000, 0). split; [lra|]. split; [lra|]. assert (N : (0, 0) <> (5000, 0)) by (intros E; injection E; lra). split; [exact N|].
  destruct (C74_extend (0, 0) (5000, 0) 100 300 ltac:(lra) ltac:(lra) N) as (_ & w & _ & _ & _ & E & _). exists w. exact E.
Qed.

(** An extension by a full circle or more is exact, ends where it starts, and needs less than half a circle of the segment. *)
Theorem C74_laps : forall s e len r, 0 < r -> 2 * PI * r <= len -> s <> e -> exists p w d,
  looks p s e /\ extend_segment s e len r = Some w /\ required len r = Some d /\ flown r p w
  /\ way w = len /\ 0 <= d < PI * r /\ px (finish r p w) = fst s /\ py (finish r p w) = snd s.
Proof.
  intros s e len r R L N. pose proof PI_RGT_0 as PP. assert (P : 0 <= len) by (assert (0 < 2 * PI * r) by (apply Rmult_lt_0_compat; lra); lra).
  destruct (extend_ok s e len r R P) as (w & d & net & A & B & C & F & (h & G & (G1 & G2)) & W & T & K & X).
  destruct (X L) as (X1 & X2). exists (starting s e), w, d. split; [apply starting_looks, N|]. split; [exact A|]. split; [exact B|]. split; [exact F|].
  split; [exact X1|]. split; [lra|].
  assert (Z : net = 0).
  { unfold extend_segment in A. unfold required in B. destruct (Rlt_dec len (2 * r * (PI - 2))); [nra|]. destruct (Rlt_dec len (2 * PI * r)); [lra|].
    injection A as A. destruct (laps len r R L) as (_ & T0 & _). destruct (race_local (Z.to_nat (Int_part (len / 2 / PI / r) - 1)) _ r s e R T0) as (_ & (h' & H & _) & _). rewrite A, G in H.
    injection H as H _. exact H. }
  assert (E : finish r (starting s e) w = frame s (heading s e) {| px := net; py := 0; ph := h |}).
  { rewrite starting_frame, frame_finish, G. reflexivity. }
  rewrite E. cbn [frame px py ph]. rewrite Z. split; ring.
Qed.
Example C74_laps_meets : exists s e : R * R, s <> e /\ 2 * PI * 300 <= 2000.
Proof. exists (0, 0), (1, 0). split; [intros E; injection E; lra|]. pose proof PI_bounds. lra. Qed.

(** A length of less than nothing is no error: the way gets longer by more than the radius then. *)
Theorem C74_negative_refuted : forall s e len r, 0 < r -> len < 0 -> exists w d,
  extend_segment s e len r = Some w /\ required len r = Some d /\ d + r < way w.
Proof.
  intros s e len r R L. pose proof PI_bounds as B. assert (K : len < 2 * r * (PI - 2)) by nra. unfold extend_segment, required.
  destruct (Rlt_dec len (2 * r * (PI - 2))) as [_|H]; [|contradiction]. set (f := fun th => single_error th len r).
  destruct (search_ends f (f 0)) as (m & E). assert (E' : single_search len r = Some m) by exact E. rewrite E'. cbn [option_map].
  exists (single_bubble m r s e), (single_straight m r). split; [reflexivity|]. split; [reflexivity|].
  apply bisect_ok in E; [|reflexivity|lra]. destruct E as (M & u & U1 & U2 & _ & U4).
  assert (UH : u = PI / 2).
  { apply U4. intros x X. unfold f, single_error, single_straight, single_arc.
    assert (sin x <= x). { destruct (sin_lip 0 x ltac:(lra)) as (S & _). apply rabs_inv in S. rewrite sin_0 in S. lra. } nra. }
  destruct (single_local m r s e R ltac:(lra)) as (_ & W & _). rewrite W. unfold single_straight, single_arc. pose proof (SIN_bound m).
  unfold eps in U2. nra.
Qed.

(** ** From turns to waypoints *)
Lemma around_spec : forall m gam tx ty c h, around m gam tx ty (c * sin h) (- c * cos h)
  = map (fun k => (tx + c * sin (h - INR k * gam), ty - c * cos (h - INR k * gam))) (seq 1 m).
Proof.
  induction m as [|m IH]; intros gam tx ty c h; [reflexivity|]. cbn [around].
  assert (X : cos gam * (c * sin h) + sin gam * (- c * cos h) = c * sin (h - gam)) by (rewrite sin_minus; ring).
  assert (Y : - sin gam * (c * sin h) + cos gam * (- c * cos h) = - c * cos (h - gam)) by (rewrite cos_minus; ring).
  rewrite X, Y, IH. cbn [seq map]. replace (h - INR 1 * gam) with (h - gam) by (cbn; ring). f_equal; [f_equal; ring|].
  rewrite <- (seq_shift m 1), map_map. apply map_ext. intros k. rewrite S_INR. replace (h - (INR k + 1) * gam) with (h - gam - INR k * gam) by ring.
  reflexivity.
Qed.

(** A turn becomes waypoints on the way that is flown, in order and evenly spread, the last one at the end of the turn; if the turn is at least as
    long as the distance that is asked for, they are at least that distance and less than twice that distance apart on the way. *)
Theorem C74_points : forall r d p l, 0 < r -> 0 < d -> flown r p [l] -> exists n, (1 <= n)%nat
  /\ discretize_leg d l = map (fun k => let q := fly r p (ldir l) (INR k * (llen l / INR n)) in (px q, py q)) (seq 1 n)
  /\ (ldir l = 0%Z -> n = 1%nat)
  /\ (ldir l <> 0%Z -> d <= llen l -> d <= llen l / INR n < 2 * d).
Proof.
  intros r d p l R D (K & P & X & Y & C & _). unfold discretize_leg. destruct (Z.eqb_spec (ldir l) 0) as [Z|Z].
  - exists 1%nat. split; [lia|]. cbn [app seq map INR]. replace (1 * (llen l / 1)) with (llen l) by field. rewrite X, Y.
    split; [reflexivity|]. split; [reflexivity|]. intros H. contradiction.
  - specialize (C Z). injection C as CX CY.
    set (h := ph p) in *. set (c := IZR (ldir l) * r) in *.
    assert (DD : IZR (ldir l) * IZR (ldir l) = 1) by (destruct K as [K|[K|K]]; [contradiction| |]; rewrite K; lra).
    assert (R0 : r <> 0) by lra.
    set (h1 := h + IZR (ldir l) * (llen l / r)) in *.
    assert (FX : forall s, px (fly r p (ldir l) s) = ltx l + c * sin (h + IZR (ldir l) * (s / r)) /\ py (fly r p (ldir l) s) = lty l - c * cos (h + IZR (ldir l) * (s / r))).
    { intros s. unfold fly. destruct (Z.eqb_spec (ldir l) 0); [contradiction|]. cbv zeta. cbn [px py]. fold h. rewrite CX, CY. unfold center. cbn [fst snd].
      fold h. fold c. split; reflexivity. }
    destruct (FX (llen l)) as (EX & EY). fold h1 in EX, EY. rewrite <- X in EX. rewrite <- Y in EY.
    replace (lx l - ltx l) with (c * sin h1) by lra. replace (ly l - lty l) with (- c * cos h1) by lra.
    assert (RR : sqrt (c * sin h1 * (c * sin h1) + - c * cos h1 * (- c * cos h1)) = r).
    { pose proof (sin2_cos2 h1) as Q. unfold Rsqr in Q.
      replace (c * sin h1 * (c * sin h1) + - c * cos h1 * (- c * cos h1)) with (c * c * (sin h1 * sin h1 + cos h1 * cos h1)) by ring.
      rewrite Q. replace (c * c * 1) with (IZR (ldir l) * IZR (ldir l) * (r * r)) by (unfold c; ring). rewrite DD, Rmult_1_l. apply sqrt_square. lra. }
    cbv zeta. rewrite RR. set (th := IZR (ldir l) * llen l / r).
    assert (TH : h1 - th = h) by (unfold h1, th; field; exact R0).
    assert (VX : cos th * (c * sin h1) + sin th * (- c * cos h1) = c * sin h) by (rewrite <- TH, sin_minus; ring).
    assert (VY : - sin th * (c * sin h1) + cos th * (- c * cos h1) = - c * cos h) by (rewrite <- TH, cos_minus; ring).
    rewrite VX, VY.
    set (q := llen l / d). pose proof (floor_frac q) as FL. set (z := Int_part q) in *.
    assert (LQ : llen l = q * d) by (unfold q; field; lra).
    destruct (Z.ltb_spec 0 (z - 1)) as [M|M].
    + exists (Z.to_nat z). split; [lia|].
      assert (ZI : INR (Z.to_nat z) = IZR z) by (rewrite INR_IZR_INZ; f_equal; lia).
      assert (Z2 : 2 <= IZR z) by (apply IZR_le; lia).
      split; [|split; [intros E; contradiction|]].
      * rewrite around_spec. replace (IZR (z - 1) + 1) with (IZR z) by (rewrite minus_IZR; ring).
        replace (Z.to_nat z) with (Z.to_nat (z - 1) + 1)%nat by lia. rewrite seq_app, map_app. f_equal.
        -- apply map_ext. intros k. cbv zeta. destruct (FX (INR k * (llen l / INR (Z.to_nat (z - 1) + 1)))) as (-> & ->).
           replace (Z.to_nat (z - 1) + 1)%nat with (Z.to_nat z) by lia. rewrite ZI.
           replace (h - INR k * (- IZR (ldir l) * llen l / r / IZR z)) with (h + IZR (ldir l) * (INR k * (llen l / IZR z) / r)) by (field; lra).
           reflexivity.
        -- cbn [seq map]. replace (1 + Z.to_nat (z - 1))%nat with (Z.to_nat z) by lia. replace (Z.to_nat (z - 1) + 1)%nat with (Z.to_nat z) by lia.
           rewrite ZI. replace (IZR z * (llen l / IZR z)) with (llen l) by (field; lra). rewrite X, Y. reflexivity.
      * intros _ LD. rewrite ZI, LQ. split.
        -- apply Rmult_le_reg_r with (IZR z); [lra|]. replace (q * d / IZR z * IZR z) with (q * d) by (field; lra). nra.
        -- apply Rmult_lt_reg_r with (IZR z); [lra|]. replace (q * d / IZR z * IZR z) with (q * d) by (field; lra). nra.
    + exists 1%nat. split; [lia|]. cbn [app seq map INR]. replace (1 * (llen l / 1)) with (llen l) by field. rewrite X, Y.
      split; [reflexivity|]. split; [reflexivity|]. intros _ LD.
      assert (IZR z <= 1) by (apply IZR_le; lia). replace (llen l / 1) with (llen l) by field. rewrite LQ in *. nra.
Qed.
(** A quarter turn to the left from the origin. *)
Example C74_points_meets : flown 100 {| px := 0; py := 0; ph := 0 |} [{| lx := 100; ly := 100; llen := PI / 2 * 100; ltx := 0; lty := 100; ldir := 1 |}].
Proof.
  cbn [flown ldir llen lx ly ltx lty]. rewrite fly_left by lra. rewrite left_x_eq, left_y_eq. cbn [px py ph]. pose proof PI_RGT_0.
  rewrite Rplus_0_l, sin_PI2, cos_PI2, sin_0, cos_0. split; [auto|]. split; [lra|]. split; [ring|]. split; [ring|]. split; [|exact I].
  intros _. unfold center. cbn [px py ph]. rewrite sin_0, cos_0. f_equal; ring.
Qed.

(** So all waypoints of a manoeuvre are on the way that is flown. *)
Theorem C74_waypoints : forall r d w p, 0 < r -> 0 < d -> flown r p w ->
  forall x y, In (x, y) (flat_map (discretize_leg d) w) -> through r p w x y.
Proof.
  intros r d w. induction w as [|l w IH]; intros p R D F x y H; [destruct H|]. cbn [flat_map] in H. apply in_app_iff in H. cbn [through].
  assert (F1 : flown r p [l]) by (destruct F as (A & B & C & E & G & _); repeat split; assumption).
  destruct H as [H|H].
  - left. destruct (C74_points r d p l R D F1) as (n & N & E & _). rewrite E in H. apply in_map_iff in H. destruct H as (k & Q & K). apply in_seq in K.
    injection Q as Q1 Q2. exists (INR k * (llen l / INR n)). destruct F1 as (_ & P & _).
    assert (N0 : 0 < INR n) by (apply lt_0_INR; lia). assert (K1 : INR k <= INR n) by (apply le_INR; lia). pose proof (pos_INR k).
    assert (Z : 0 <= llen l / INR n) by (apply Rmult_le_pos; [exact P|left; apply Rinv_0_lt_compat, N0]).
    split; [|split; assumption]. split; [nra|]. replace (llen l) with (INR n * (llen l / INR n)) at 2 by (field; lra). nra.
  - right. apply IH; try assumption. apply F.
Qed.

Print Assumptions C74_extend.
Print Assumptions C74_laps.
Print Assumptions C74_negative_refuted.
Print Assumptions C74_points.
Print Assumptions C74_waypoints.

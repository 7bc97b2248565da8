(** Theorems about the spiral pattern. *)
From Coq Require Import Reals List ZArith Lra Lia.
From Verif Require Import PiBounds FlatEarthModel FlatEarthProps SteeringCourseModel SteeringCourseProps SensorSteeringModel SensorSteeringSpec SensorSteeringProofs SectorModel SectorSpec SectorProofs SpiralModel SpiralSpec SpiralProofs.
Import ListNotations.
Open Scope R_scope.

(** Where the vehicle is sent, in metres, for a point of the spiral. *)
Definition sent (c : R * R) (center : R) (x : R * R) : R * R := polar_place c (Rmax (fst x) center) (snd x).

Lemma vehicle_sent c ext lane center alt v x :
  vehicle {| middle := c; reach := ext; width := lane; inner := center; level := alt; speed := v |} x = sent c center x.
Proof.
  unfold vehicle, around, sent, polar_place. cbn [inner middle]. unfold Rmax. destruct (Rlt_dec (fst x) center), (Rle_dec (fst x) center); try lra; f_equal; try ring.
  - replace (fst x) with center by lra. ring.
  - replace (fst x) with center by lra. ring.
Qed.

Lemma planned fuel e lat lon ext lane center alt v r e' c : plan fuel e lat lon ext lane center alt v = Planned r -> deg_ne_m lat lon e = (e', c) ->
  let p := {| middle := c; reach := ext; width := lane; inner := center; level := alt; speed := v |} in
  exists l, 0 < lane /\ 0 <= ext + 0.55 * lane /\ spiral_shape (ext + 0.55 * lane) lane l /\
    r = {| route_points := numbered 1 (map (location e' p) l);
           steer := fold_left (fun m s => add (fst s) (snd s) m) (segments e' p true 1 [] [] l) [];
           final := end_heading p (0, 0) (0, 0) l;
           cost := trunc ((if Rlt_dec 0 v then distance p (0, 0) l / v else 0) * 1000) |}.
Proof.
  intros E Ec p. unfold plan in E. destruct (Rlt_dec 0 lane) as [P|P]; [|discriminate]. rewrite Ec in E. fold p in E.
  destruct (passes fuel p 0 0 true) as [[|x l]|] eqn:El; try discriminate. injection E as <-. exists (x :: l). split; [exact P|].
  destruct (passes_whole p fuel (x :: l) P El) as [[_ Z]|Z]; [discriminate|]. cbn [reach width p] in Z.
  replace (ext + 0.55 * lane) with (ext + 55 / 100 * lane) by lra. split; [exact (proj1 Z)|]. split; [exact (proj2 Z)|reflexivity].
Qed.

(** For every positive lane the planning ends. *)
Theorem C88_ends : forall e lat lon ext lane center alt v, 0 < lane -> 0 <= ext + 0.55 * lane ->
  exists fuel r, plan fuel e lat lon ext lane center alt v = Planned r.
Proof.
  intros e lat lon ext lane center alt v P B. unfold plan. destruct (Rlt_dec 0 lane); [|lra]. destruct (deg_ne_m lat lon e) as [e' c].
  set (p := {| middle := c; reach := ext; width := lane; inner := center; level := alt; speed := v |}).
  destruct (passes_total p P) as (fuel & l & E). exists fuel. rewrite E.
  destruct (passes_whole p fuel l P E) as [[Z _]|[_ (k & -> & _)]]; [cbn [reach width p] in Z; lra|]. eexists. reflexivity.
Qed.
Print Assumptions C88_ends.

(** The waypoints are the points of the spiral, numbered from 1 on, but no nearer to the place than [center]. *)
Theorem C88_route : forall fuel e lat lon ext lane center alt v r e' c,
  plan fuel e lat lon ext lane center alt v = Planned r -> deg_ne_m lat lon e = (e', c) ->
  exists l, spiral_shape (ext + 0.55 * lane) lane l /\ (forall l', spiral_shape (ext + 0.55 * lane) lane l' -> l' = l) /\
    length (route_points r) = length l /\
    forall k x, nth_error l k = Some x -> nth_error (route_points r) k =
      Some (Z.of_nat (S k), let w := polar_place c (Rmax (fst x) center) (snd x) in m_ll_deg (fst w) (snd w) e').
Proof.
  intros fuel e lat lon ext lane center alt v r e' c E Ec. destruct (planned _ _ _ _ _ _ _ _ _ _ _ _ E Ec) as (l & P & _ & S & ->). cbn [route_points].
  exists l. split; [exact S|]. split; [intros l' S'; eapply shape_unique; eassumption|]. split; [rewrite numbered_length, map_length; reflexivity|].
  intros k x Ex. rewrite numbered_nth, nth_error_map, Ex. cbn [option_map]. f_equal. f_equal; [lia|]. unfold location. rewrite vehicle_sent. reflexivity.
Qed.
Print Assumptions C88_route.

(** Every place within the extent, and not nearer to the centre than a little more than a lane, is within half of the width of the
    footprint (of which a lane is nine tenths) of the road on which the sensor looks. *)
Theorem C88_covers : forall ext lane c l p, 100 <= lane -> spiral_shape (ext + 0.55 * lane) lane l -> 1.05 * lane <= dist c p <= ext ->
  exists u x y v t, l = u ++ x :: y :: v /\ 0 <= t <= 1 /\
    dist p (mix (polar_place c (fst x) (snd x)) (polar_place c (fst y) (snd y)) t) <= lane / 0.9 / 2.
Proof.
  intros ext lane c l p Lw (k & -> & Sh) [D1 D2]. destruct Sh as [[Z _]|[_ Sh]]; [lra|]. pose proof half_turn_pos as [H Hp].
  destruct (atan2_xy (fst p - fst c) (snd p - snd c)) as [X Y]. set (a := atan2 (fst p - fst c) (snd p - snd c)) in *.
  set (rho := sqrt ((snd p - snd c) * (snd p - snd c) + (fst p - fst c) * (fst p - fst c))) in *.
  assert (Er : dist c p = rho) by (unfold dist, rho; f_equal; ring). rewrite Er in D1, D2.
  set (psi0 := half_turn * (rho / (0.45 * lane) - 1)).
  assert (E0 : radius lane psi0 = rho) by (unfold radius, psi0; field; lra).
  set (j := Int_part ((psi0 + half_turn - a) / (2 * PI))). set (psi := a + 2 * IZR j * PI). pose proof PI_RGT_0 as Pi.
  assert (Ps : psi0 - half_turn <= psi <= psi0 + half_turn).
  { destruct (base_Int_part ((psi0 + half_turn - a) / (2 * PI))) as [I J]. fold j in I, J. set (z := (psi0 + half_turn - a) / (2 * PI)) in *.
    assert (Ez : psi0 + half_turn - a = z * (2 * PI)) by (unfold z; field; lra). unfold psi.
    assert (IZR j * (2 * PI) <= z * (2 * PI)) by (apply Rmult_le_compat_r; lra). assert ((z - 1) * (2 * PI) <= IZR j * (2 * PI)) by (apply Rmult_le_compat_r; lra). lra. }
  assert (Pp : p = polar_place c rho psi).
  { unfold polar_place, psi. destruct (turn_Z a j) as [-> ->]. destruct p as [pn pe]. cbn [fst snd] in *. f_equal; lra. }
  assert (Sl : forall t d, radius lane (t + d) = radius lane t + 0.45 * lane / half_turn * d) by (apply radius_add).
  assert (Hw : 0.45 * lane / half_turn * half_turn = 0.45 * lane) by (field; lra).
  assert (Up : radius lane psi <= rho + 0.45 * lane).
  { rewrite <- E0, <- Hw, <- Sl. apply radius_le; lra. }
  assert (Dn : rho - 0.45 * lane <= radius lane psi).
  { replace (rho - 0.45 * lane) with (radius lane (psi0 - half_turn)); [apply radius_le; lra|]. unfold Rminus. rewrite Sl, E0. lra. }
  assert (Ps1 : 1 <= psi).
  { destruct (Rle_dec 1 psi) as [|N]; [assumption|exfalso]. pose proof (radius_le lane psi 1 ltac:(lra) ltac:(lra)) as Z.
    assert (radius lane 1 < 0.6 * lane); [|lra]. unfold radius. assert (1 / half_turn < 1 / 3) by (apply Rmult_lt_compat_l; [lra|apply Rinv_lt_contravar; lra]). nra. }
  destruct (spiral_at (ext + 0.55 * lane) lane ltac:(lra) k 1 psi ltac:(lra) Sh Ps1 ltac:(lra)) as (u & x & y & vv & Ek & A1 & A2 & A3 & A4 & A5).
  set (q1 := fst x) in *. set (q2 := fst y) in *. set (t1 := snd x) in *. set (t2 := snd y) in *.
  assert (Q1 : 0.593 * lane <= q1).
  { rewrite A4. apply Rle_trans with (radius lane 1); [|apply radius_le; lra]. unfold radius.
    assert (0.318 < 1 / half_turn) by (apply (Rmult_lt_reg_r half_turn); [lra|]; replace (1 / half_turn * half_turn) with 1 by (field; lra); lra). nra. }
  assert (D : 0 < 50 / q1) by (apply Rdiv_lt_0_compat; lra).
  assert (Dl : 50 / q1 <= 0.8432).
  { apply (Rmult_le_reg_r q1); [lra|]. replace (50 / q1 * q1) with 50 by (field; lra). lra. }
  assert (G : q2 = q1 + 0.45 * lane / half_turn * (50 / q1)) by (rewrite A5, A3, Sl, <- A4; reflexivity).
  assert (G2 : 0 <= q2 - q1 <= 12.08).
  { rewrite G. split; [assert (0 <= 0.45 * lane / half_turn) by (left; apply Rdiv_lt_0_compat; lra); nra|].
    replace (q1 + 0.45 * lane / half_turn * (50 / q1) - q1) with (0.45 * 50 * lane / (half_turn * q1)) by (field; repeat split; lra).
    apply (Rmult_le_reg_r (half_turn * q1)); [nra|]. replace (0.45 * 50 * lane / (half_turn * q1) * (half_turn * q1)) with (0.45 * 50 * lane) by (field; repeat split; lra). assert (0.593 * lane * 3.1415 <= q1 * half_turn) by (apply Rmult_le_compat; lra). lra. }
  destruct (chord q1 q2 (psi - t1) (t2 - psi) ltac:(lra) ltac:(lra) ltac:(lra) ltac:(lra) ltac:(lra) ltac:(lra)) as (t & q & T & C1 & C2 & C3).
  replace (psi - t1 + (t2 - psi)) with (50 / q1) in C3 by lra.
  assert (Es : (q1 * (t2 - psi) + q2 * (psi - t1)) / (50 / q1) = radius lane psi).
  { assert (Rp : radius lane psi = q1 + 0.45 * lane / half_turn * (psi - t1)) by (rewrite A4, <- Sl; f_equal; ring). rewrite Rp.
    replace (0.45 * lane / half_turn) with ((q2 - q1) / (50 / q1)) by (rewrite G; field; repeat split; lra).
    replace (t2 - psi) with (50 / q1 - (psi - t1)) by lra. field. lra. }
  rewrite Es in C3.
  assert (Err : q2 * (50 / q1) ^ 2 / 6 + (q2 - q1) ^ 2 / (4 * q1) <= 10).
  { set (iq := / q1). assert (Iq : 0 < iq <= / 59.3) by (split; [apply Rinv_0_lt_compat; lra|apply Rinv_le_contravar; lra]).
    assert (Eq1 : q1 * iq = 1) by (apply Rinv_r; lra).
    replace (q2 * (50 / q1) ^ 2 / 6) with (2500 / 6 * (q1 * iq) * iq + 2500 / 6 * (q2 - q1) * (iq * iq)) by (unfold iq; field; lra).
    replace ((q2 - q1) ^ 2 / (4 * q1)) with ((q2 - q1) ^ 2 * iq / 4) by (unfold iq; field; lra). rewrite Eq1.
    assert (I2 : iq * iq <= / 59.3 * / 59.3) by (apply Rmult_le_compat; lra).
    assert (I3 : (q2 - q1) * (iq * iq) <= 12.08 * (/ 59.3 * / 59.3)) by (apply Rmult_le_compat; [lra|nra|lra|exact I2]).
    assert (I4 : (q2 - q1) ^ 2 <= 12.08 ^ 2) by (apply pow_incr; lra).
    assert (I5 : (q2 - q1) ^ 2 * iq <= 12.08 ^ 2 * / 59.3) by (apply Rmult_le_compat; [apply pow2_ge_0|lra|exact I4|lra]). lra. }
  exists ((50, 0) :: u), x, y, vv, t. split; [rewrite Ek; reflexivity|]. split; [exact T|].
  fold q1 q2 t1 t2. rewrite (chord_point c q1 q2 t1 t2 psi t q C1 C2). rewrite Pp, ray_dist. apply Rabs_le. lra.
Qed.
Print Assumptions C88_covers.

(** The cost is the time, in milliseconds, for the way from the origin of the coordinates through the waypoints. *)
Theorem C88_cost : forall fuel e lat lon ext lane center alt v r e' c l,
  plan fuel e lat lon ext lane center alt v = Planned r -> deg_ne_m lat lon e = (e', c) -> spiral_shape (ext + 0.55 * lane) lane l ->
  let time := len ((0, 0) :: map (fun x => polar_place c (Rmax (fst x) center) (snd x)) l) / v * 1000 in
  (0 < v -> IZR (cost r) <= time < IZR (cost r) + 1) /\ (v <= 0 -> cost r = 0%Z).
Proof.
  intros fuel e lat lon ext lane center alt v r e' c l E Ec Sh time. destruct (planned _ _ _ _ _ _ _ _ _ _ _ _ E Ec) as (l' & P & _ & S & ->). cbn [cost].
  assert (l' = l) by (eapply shape_unique; eassumption). subst l'. rewrite distance_len.
  rewrite (map_ext _ _ (vehicle_sent c ext lane center alt v)). fold time || idtac. split; intros V.
  - destruct (Rlt_dec 0 v); [|lra]. apply trunc_bounds. apply Rmult_le_pos; [|lra]. apply Rmult_le_pos; [apply len_pos|left; apply Rinv_0_lt_compat, V].
  - destruct (Rlt_dec 0 v); [lra|]. rewrite Rmult_0_l. apply (trunc_IZR 0). lia.
Qed.
Print Assumptions C88_cost.

(** The cost of the spiral alone is less: the way from the origin to the first waypoint is added. *)
Theorem C88_cost_refuted : forall fuel e lat lon ext lane center alt v r e' c l x k,
  plan fuel e lat lon ext lane center alt v = Planned r -> deg_ne_m lat lon e = (e', c) -> spiral_shape (ext + 0.55 * lane) lane l ->
  map (fun x => polar_place c (Rmax (fst x) center) (snd x)) l = x :: k -> 0 < v ->
  len (x :: k) / v * 1000 + dist (0, 0) x / v * 1000 - 1 < IZR (cost r).
Proof.
  intros fuel e lat lon ext lane center alt v r e' c l x k E Ec Sh Ew V. destruct (C88_cost _ _ _ _ _ _ _ _ _ _ _ _ _ E Ec Sh) as [H _]. specialize (H V).
  rewrite Ew, len_cons in H. assert (Z : forall a b, (a + b) / v * 1000 = b / v * 1000 + a / v * 1000) by (intros; field; lra). rewrite Z in H. unfold spot in *. lra.
Qed.
Print Assumptions C88_cost_refuted.

(** The heading at the end is the course of the last leg. *)
Theorem C88_heading : forall fuel e lat lon ext lane center alt v r e' c l u a b,
  plan fuel e lat lon ext lane center alt v = Planned r -> deg_ne_m lat lon e = (e', c) -> spiral_shape (ext + 0.55 * lane) lane l ->
  map (fun x => polar_place c (Rmax (fst x) center) (snd x)) l = u ++ [a; b] -> a <> b ->
  exists w, compass a b w /\ Rabs (final r * (PI / 180) - w) <= / 10 ^ 10.
Proof.
  intros fuel e lat lon ext lane center alt v r e' c l u a b E Ec Sh Ew N. destruct (planned _ _ _ _ _ _ _ _ _ _ _ _ E Ec) as (l' & P & _ & S & ->). cbn [final].
  assert (l' = l) by (eapply shape_unique; eassumption). subst l'.
  set (p := {| middle := c; reach := ext; width := lane; inner := center; level := alt; speed := v |}).
  assert (Ev : map (vehicle p) l = (u ++ [a]) ++ [b]) by (rewrite (map_ext _ _ (vehicle_sent c ext lane center alt v)), <- app_assoc; exact Ew).
  destruct (exists_last (l := l)) as (m & x & El); [intros ->; destruct u; discriminate|]. rewrite El in Ev. rewrite map_app in Ev. cbn [map] in Ev.
  apply app_inj_tail in Ev. destruct Ev as [Em Ex]. rewrite El, end_heading_last. cbn zeta. rewrite Em, last_last, Ex.
  destruct (atan2_xy (snd b - snd a) (fst b - fst a)) as [X Y]. set (w := atan2 (snd b - snd a) (fst b - fst a)) in *.
  exists w. split.
  - split; [|split; [exact X|exact Y]]. apply mag_pos. destruct (Req_dec (fst b - fst a) 0) as [Z|Z]; [|left; exact Z].
    destruct (Req_dec (snd b - snd a) 0) as [Z'|Z']; [|right; exact Z']. exfalso. apply N. destruct a, b. cbn in *. f_equal; lra.
  - assert (R0 : - PI <= w <= PI) by (pose proof PI_RGT_0; destruct (atan2_range (snd b - snd a) (fst b - fst a)); unfold w; lra).
    pose proof PI_bounds as PB. assert (K : - (4 / 10 ^ 12) <= rad_to_deg * (PI / 180) - 1 <= 4 / 10 ^ 12) by (unfold rad_to_deg; lra).
    replace (w * rad_to_deg * (PI / 180) - w) with (w * (rad_to_deg * (PI / 180) - 1)) by ring. set (kap := rad_to_deg * (PI / 180) - 1) in *. clearbody kap.
    rewrite Rabs_mult. apply Rle_trans with (4 * (4 / 10 ^ 12)); [|lra]. apply Rmult_le_compat; [apply Rabs_pos|apply Rabs_pos|apply Rabs_le; lra|apply Rabs_le; lra].
Qed.
Print Assumptions C88_heading.

Lemma one_segment k s id la lo f : find_stare [(k, s)] id la lo f = stare s id la lo f.
Proof.
  unfold find_stare, SensorSteeringModel.from, before, back. cbn [filter fst]. destruct (Z.leb id k); [|reflexivity]. destruct (Z.ltb k id); reflexivity.
Qed.

Lemma two_segments k1 s1 k2 s2 id la lo f : (k1 < k2)%Z ->
  find_stare [(k1, s1); (k2, s2)] id la lo f = if Z.leb id k2 then stare s1 id la lo f else stare s2 id la lo f.
Proof.
  intros K. unfold find_stare, SensorSteeringModel.from, before, back. cbn [filter fst].
  destruct (Z.leb_spec id k1), (Z.leb_spec id k2), (Z.ltb_spec k1 id), (Z.ltb_spec k2 id); try lia; reflexivity.
Qed.

Lemma add_W e p n x l roads m : add (W e p n (x :: l)) roads m = insert n (initialize (W e p n (x :: l)) roads) m.
Proof. reflexivity. Qed.

(** The steering of the sensor on the way to waypoint [k + 1] uses the part of the spiral with this leg: its waypoints, and its road. *)
Theorem C88_sensor : forall fuel e lat lon ext lane center alt v r e' c l k,
  plan fuel e lat lon ext lane center alt v = Planned r -> deg_ne_m lat lon e = (e', c) -> spiral_shape (ext + 0.55 * lane) lane l ->
  (k < length l)%nat ->
  exists off s roads, part center l off s /\ (off <= k < off + length s)%nat /\ (0 < k -> off < k)%nat /\
    spots roads = map (fun x => polar_place c (fst x) (snd x)) s /\
    forall la lo f, find_stare (steer r) (Z.of_nat (S k)) la lo f =
      stare (initialize
        (map (fun x => let q := snd (deg_ne_m (fst (snd x)) (snd (snd x)) e') in (fst x, {| north := fst q; east := snd q; altitude := alt |}))
             (firstn (length s) (skipn off (route_points r)))) roads) (Z.of_nat (S k)) la lo f.
Proof.
  intros fuel e lat lon ext lane center alt v r e' c l k E Ec Sh Hk. destruct (planned _ _ _ _ _ _ _ _ _ _ _ _ E Ec) as (l' & P & _ & Sh' & ->). cbn [steer route_points].
  assert (l' = l) by (eapply shape_unique; eassumption). subst l'.
  set (p := {| middle := c; reach := ext; width := lane; inner := center; level := alt; speed := v |}).
  assert (Rd : ready e' = true) by (unfold deg_ne_m in Ec; injection Ec as <- _; apply ready_initialize).
  assert (Ew : forall off u s t, l = u ++ s ++ t -> length u = off ->
    map (fun x => (fst x, {| north := fst (snd (deg_ne_m (fst (snd x)) (snd (snd x)) e')); east := snd (snd (deg_ne_m (fst (snd x)) (snd (snd x)) e')); altitude := alt |}))
      (firstn (length s) (skipn off (numbered 1 (map (location e' p) l)))) = W e' p (1 + Z.of_nat off) s).
  { intros off u s t -> <-. rewrite !map_app. rewrite <- (map_length (location e' p) s), <- (map_length (location e' p) u), numbered_cut.
    unfold W. rewrite map_length, !numbered_map, map_map. apply map_ext. intros [i x]. cbn [fst snd]. f_equal. unfold way_point.
    destruct (location e' p x) as [la lo]. cbn [fst snd]. unfold rad_ne_m, deg_ne_m. rewrite !(Rmult_comm deg_to_rad), initialize_ready by exact Rd. reflexivity. }
  assert (Eq : forall n s, spots (Q p n s) = map (fun x => polar_place c (fst x) (snd x)) s).
  { intros n s. unfold spots, Q. generalize (n - 1)%Z. induction s as [|x s IH]; intros m; [reflexivity|]. cbn [map numbered]. rewrite IH. f_equal.
    unfold road_point, around, flat, polar_place. cbn. f_equal; ring. }
  destruct (seg_true e' p l 1 [] [] ltac:(tauto)) as [[A B]|(u & x & t & El & A & B & C)].
  { left. intros ->. cbn in Hk. lia. }
  - rewrite B. exists 0%nat, l, (Q p 1 l). split; [apply part_whole, A|]. split; [lia|]. split; [lia|]. split; [apply Eq|]. intros la lo f.
    rewrite (Ew 0%nat [] l []) by (rewrite ?app_nil_r; reflexivity). cbn [fold_left fst snd app Z.of_nat]. rewrite Z.add_0_r.
    clear - Hk. destruct l as [|y l']; [cbn in Hk; lia|]. rewrite add_W. cbn [insert]. apply one_segment.
  - rewrite C. cbn [fold_left fst snd app]. destruct u as [|y u].
    + cbn [app length Z.of_nat] in *. rewrite !Z.add_0_r.
      exists 0%nat, (x :: t), (Q p 1 (x :: t)). split; [apply (part_outer center l [] x t); assumption|]. split; [rewrite El in Hk; lia|]. split; [lia|]. split; [apply Eq|].
      intros la lo f. rewrite (Ew 0%nat [] (x :: t) []) by (rewrite ?app_nil_r; auto). cbn [Z.of_nat]. rewrite Z.add_0_r, !add_W. cbn [insert]. rewrite Z.ltb_irrefl, Z.eqb_refl. apply one_segment.
    + set (m := length (y :: u)) in *. assert (M : (0 < m)%nat) by (unfold m; cbn; lia).
      assert (St : forall la lo f, find_stare (add (W e' p (1 + Z.of_nat m) (x :: t)) (Q p (1 + Z.of_nat m) (x :: t)) (add (W e' p 1 ((y :: u) ++ [x])) (Q p 1 ((y :: u) ++ [x])) [])) (Z.of_nat (S k)) la lo f =
        if Z.leb (Z.of_nat (S k)) (1 + Z.of_nat m) then stare (initialize (W e' p 1 ((y :: u) ++ [x])) (Q p 1 ((y :: u) ++ [x]))) (Z.of_nat (S k)) la lo f
        else stare (initialize (W e' p (1 + Z.of_nat m) (x :: t)) (Q p (1 + Z.of_nat m) (x :: t))) (Z.of_nat (S k)) la lo f).
      { intros la lo f. cbn [app]. rewrite !add_W. cbn [insert]. destruct (Z.ltb_spec (1 + Z.of_nat m) 1) as [Z|_]; [lia|]. destruct (Z.eqb_spec (1 + Z.of_nat m) 1) as [Z|_]; [lia|].
        apply two_segments. lia. }
      destruct (Z.leb_spec (Z.of_nat (S k)) (1 + Z.of_nat m)) as [Lk|Lk].
      * exists 0%nat, ((y :: u) ++ [x]), (Q p 1 ((y :: u) ++ [x])). split; [eapply part_inner; eassumption|]. split; [rewrite app_length; fold m; cbn [length]; lia|]. split; [lia|]. split; [apply Eq|].
        intros la lo f. rewrite (Ew 0%nat [] ((y :: u) ++ [x]) t) by (rewrite ?El, <- ?app_assoc; reflexivity). cbn [Z.of_nat]. rewrite Z.add_0_r. apply St.
      * exists m, (x :: t), (Q p (1 + Z.of_nat m) (x :: t)). split; [eapply part_outer; eassumption|]. assert (Hl : length l = (m + length (x :: t))%nat) by (rewrite El, app_length; reflexivity).
        split; [lia|]. split; [lia|]. split; [apply Eq|]. intros la lo f. rewrite (Ew m (y :: u) (x :: t) []) by (rewrite ?app_nil_r; auto). apply St.
Qed.
Print Assumptions C88_sensor.

(** An extent below -0.55 lanes: no waypoint, and the last one is used. *)
Theorem C88_invalid_refuted : forall fuel e lat lon ext lane center alt v, 0 < lane -> ext + 0.55 * lane < 0 ->
  plan (S fuel) e lat lon ext lane center alt v = Invalid.
Proof.
  intros fuel e lat lon ext lane center alt v P B. unfold plan. destruct (Rlt_dec 0 lane); [|lra]. destruct (deg_ne_m lat lon e) as [e' c].
  cbn [passes reach width]. destruct (Rle_dec 0 _); [lra|reflexivity].
Qed.
Print Assumptions C88_invalid_refuted.

(** An extent of less than 50 m and half a lane: a single waypoint, for a search. *)
Theorem C88_single_refuted : forall fuel e lat lon ext lane center alt v r,
  plan fuel e lat lon ext lane center alt v = Planned r -> ext + 0.55 * lane < 50 -> length (route_points r) = 1%nat.
Proof.
  intros fuel e lat lon ext lane center alt v r E B. destruct (deg_ne_m lat lon e) as [e' c] eqn:Ec.
  destruct (C88_route _ _ _ _ _ _ _ _ _ _ _ _ E Ec) as (l & (k & -> & S) & _ & L & _). rewrite L. destruct S as [[_ ->]|[Z _]]; [reflexivity|lra].
Qed.
Print Assumptions C88_single_refuted.

(** The sensor is steered by the first plan ever made for an option with the same number, also after later requests. *)
Theorem C88_stale_refuted : forall before_ s later option_id, ~ In option_id (map fst before_) ->
  active (before_ ++ (option_id, s) :: later) option_id = Some s.
Proof.
  intros b s later o N. unfold active. rewrite fold_left_app. cbn [fold_left].
  assert (F : forall (m : list (Z * list (Z * steering))) k, ~ In k (map fst m) -> find k m = None).
  { induction m as [|[j w] m IH]; intros k Nk; [reflexivity|]. cbn. destruct (Z.eqb_spec k j) as [->|]; [destruct Nk; left; reflexivity|]. apply IH. intros Z; apply Nk; right; exact Z. }
  assert (F2 : forall (m r : list (Z * list (Z * steering))) k, find k (m ++ r) = match find k m with Some w => Some w | None => find k r end).
  { induction m as [|[j w] m IH]; intros r k; [reflexivity|]. cbn. destruct (Z.eqb k j); [reflexivity|apply IH]. }
  assert (G : forall l m : list (Z * list (Z * steering)), ~ In o (map fst l) -> ~ In o (map fst m) -> ~ In o (map fst (fold_left keep l m))).
  { induction l as [|[j w] l IH]; intros m Nl Nm; [exact Nm|]. cbn [fold_left]. apply IH; [intros Z; apply Nl; right; exact Z|]. unfold keep. destruct (find _ m); [exact Nm|].
    rewrite map_app. intros Z. apply in_app_iff in Z. destruct Z as [Z|[Z|[]]]; [exact (Nm Z)|]. apply Nl. left. exact Z. }
  assert (St : forall l (m : list (Z * list (Z * steering))), find o m = Some s -> find o (fold_left keep l m) = Some s).
  { induction l as [|y l IH]; intros m E; [exact E|]. cbn [fold_left]. apply IH. unfold keep. destruct (find (fst y) m); [exact E|]. rewrite F2, E. reflexivity. }
  pose proof (G b [] N ltac:(intros [])) as M. apply St. generalize dependent (fold_left keep b []). intros m M.
  unfold keep. cbn [fst]. rewrite (F m o M), F2, (F m o M). cbn. rewrite Z.eqb_refl. reflexivity.
Qed.
Print Assumptions C88_stale_refuted.

(** A search with a lane of 200 m and an extent of a kilometre is planned, with a place far enough from the centre for
    [C88_covers], and a cost for which the vehicle flies 200 m that are not part of the spiral. *)
Example kilometre : exists fuel r, plan fuel fresh 45 7 1000 200 200 700 20 = Planned r /\
  forall e' c, deg_ne_m 45 7 fresh = (e', c) -> c = (0, 0) /\ exists l, spiral_shape (1000 + 0.55 * 200) 200 l /\
    (let p := (600, 0) in 1.05 * 200 <= dist c p <= 1000) /\
    exists x k, map (fun x => polar_place c (Rmax (fst x) 200) (snd x)) l = x :: k /\ len (x :: k) / 20 * 1000 + 9999 < IZR (cost r).
Proof.
  destruct (C88_ends fresh 45 7 1000 200 200 700 20 ltac:(lra) ltac:(lra)) as (fuel & r & E). exists fuel, r. split; [exact E|]. intros e' c Ec.
  assert (C : c = (0, 0)) by (unfold deg_ne_m, FlatEarthModel.initialize, fresh in Ec; cbn [ready lat0 lon0 meridional transverse small] in Ec; injection Ec as _ <-; f_equal; ring).
  split; [exact C|]. destruct (C88_route _ _ _ _ _ _ _ _ _ _ _ _ E Ec) as (l & S & _ & _ & _). exists l. split; [exact S|]. split.
  - cbn zeta. rewrite C. unfold dist. cbn [fst snd]. replace (_ + _) with (600 * 600) by ring. rewrite sqrt_square by lra. lra.
  - destruct S as (k & El & S). pose proof (C88_cost_refuted _ _ _ _ _ _ _ _ _ _ _ _ l (polar_place c 200 0) (map (fun x => polar_place c (Rmax (fst x) 200) (snd x)) k) E Ec) as H.
    assert (Em : map (fun x => polar_place c (Rmax (fst x) 200) (snd x)) l = polar_place c 200 0 :: map (fun x => polar_place c (Rmax (fst x) 200) (snd x)) k).
    { rewrite El. cbn [map fst snd]. rewrite Rmax_right by lra. reflexivity. }
    eexists _, _. split; [exact Em|]. specialize (H ltac:(exists k; auto) Em ltac:(lra)).
    assert (D : dist (0, 0) (polar_place c 200 0) = 200).
    { rewrite C. unfold dist, polar_place. cbn [fst snd]. rewrite sin_0, cos_0. replace (_ + _) with (200 * 200) by ring. apply sqrt_square. lra. }
    rewrite D in H. unfold spot in *. lra.
Qed.

(** C78: the routes of the vehicles of a rendezvous. *)
From Coq Require Import Reals Lra Lia List ZArith.
From Verif Require Import FlatEarthModel RouteExtModel RouteExtSpec RouteExtGeom RouteExtWay PiBounds RouteExtProps FlatEarthProps RouteExtPathProps RvRouteModel RvRouteSpec.
Import ListNotations.
Open Scope R_scope.

Lemma planned_flies v s : flies v s <-> s = planned v.
Proof. unfold flies, planned. destruct (v_craft v); reflexivity. Qed.
Lemma worked_prepared v goal n wps : worked v goal n (planned v) wps (prepared v goal n wps).
Proof.
  destruct wps as [|w [|w' ws]]; cbn [worked prepared map].
  - eexists _, _. split; [reflexivity|]. cbn. repeat split.
  - eexists _, _. split; [reflexivity|]. cbn. repeat split.
  - set (l := w :: w' :: ws). change (Forall2 (same_but_speed (planned v)) l (map (at_speed (planned v)) l)). clearbody l.
    induction l as [|x l IH]; cbn [map]; constructor; [|exact IH]. unfold same_but_speed. cbn. repeat split.
Qed.
Lemma worked_speed v goal n s wps ws w : worked v goal n s wps ws -> In w ws -> wspeed w = s.
Proof.
  unfold worked. assert (F : Forall2 (same_but_speed s) wps ws -> In w ws -> wspeed w = s).
  { intros F. induction F as [|x y xs ys (_ & _ & _ & _ & _ & E) _ IH]; [intros []|]. intros [<-|I]; auto. }
  destruct wps as [|a [|b wps]]; [| |exact F].
  - intros (x & y & -> & A & B & _) [<-|[<-|[]]]; assumption.
  - intros (x & y & -> & A & B & _) [<-|[<-|[]]]; assumption.
Qed.
Lemma worked_two v goal n s wps ws : worked v goal n s wps ws -> exists a b l, ws = a :: b :: l.
Proof.
  unfold worked. destruct wps as [|x [|y wps]]; [intros (a & b & -> & _); eauto|intros (a & b & -> & _); eauto|].
  intros F. destruct ws as [|a [|b ws]]; inversion F as [|x1 x2 x3 x4 x5 F1]; inversion F1; eauto.
Qed.

Lemma travel_along w0 : forall ws a, travel (fst (deg_ne_m (wlat w0) (wlon w0) fresh)) (snd (local w0 a), fst (local w0 a)) ws = along w0 a ws.
Proof.
  induction ws as [|b ws IH]; intros a; [reflexivity|]. cbn [travel along]. rewrite <- IH. apply f_equal2.
  - unfold apart, local. cbn [fst snd]. f_equal. ring.
  - reflexivity.
Qed.
Lemma local_self w : local w w = (0, 0).
Proof. unfold local, deg_ne_m, initialize, fresh. cbn [ready fst snd lat0 lon0 meridional small]. f_equal; ring. Qed.
Lemma travel_long ws : travel_dist ws = long ws.
Proof.
  destruct ws as [|w ws]; [reflexivity|]. cbn [travel_dist long]. rewrite <- travel_along, local_self. reflexivity.
Qed.
Lemma along_pos w0 : forall ws a, 0 <= along w0 a ws.
Proof. induction ws as [|b ws IH]; intros a; cbn [along]; [lra|]. unfold apart. pose proof (sqrt_pos ((fst (local w0 b) - fst (local w0 a)) ^ 2 + (snd (local w0 b) - snd (local w0 a)) ^ 2)). specialize (IH b). lra. Qed.
Lemma long_pos ws : 0 <= long ws.
Proof. destruct ws; cbn [long]; [lra|apply along_pos]. Qed.

Lemma trunc_pos x : 0 <= x -> IZR (trunc x) <= x < IZR (trunc x) + 1.
Proof. intros X. unfold trunc. destruct (Rlt_dec x 0); [lra|]. pose proof (floor_frac x). lra. Qed.

Lemma cruise_same s : forall ws vs, cruise s ws vs -> (forall w, In w ws -> wspeed w = s) -> forall i v, nth_error vs i = Some v -> v = s.
Proof.
  intros ws vs C. remember s as s0 eqn:E in C at 1. revert E. induction C as [v|v w ws vs A B C IH|v w ws vs A C IH]; intros E H i x I.
  - destruct i; discriminate.
  - subst v. exfalso. rewrite (H w (or_introl eq_refl)), Rminus_diag_eq, Rabs_R0 in A by reflexivity. assert (0 < / 10 ^ 4) by (apply Rinv_0_lt_compat; lra). lra.
  - destruct i as [|i]; cbn in I; [congruence|]. eapply IH; [exact E|intros y Y; apply H; right; exact Y|exact I].
Qed.
Lemma segment_speed ws ms i a b l len s : segment ws ms i a b l len -> (forall w, In w ws -> wspeed w = s) -> len = IZR ms / 1000 * s.
Proof.
  intros [_ _ _ (w0 & wr & vs & v & -> & C & N & ->)] H. f_equal. rewrite (H w0 (or_introl eq_refl)) in C. eapply cruise_same; [exact C| |exact N].
  intros w W. apply H. right. exact W.
Qed.

Lemma extend_longer ws ms r d out s : (forall w, In w ws -> wspeed w = s) -> 0 < r -> 0 < d -> (0 <= ms)%Z -> extend_path ws ms r d = Some (true, out) ->
  exists more, longer ws out r more /\ IZR ms / 1000 * s - 2 / 10 ^ 7 * r <= more <= IZR ms / 1000 * s.
Proof.
  intros H R D M E. apply C75_time in E; [|assumption..]. destruct E as (w0 & i & a & b & l & len & h & from & net & legs & mid & rest & W & SG & L & B & F0 & N0 & FN & G & WL & O & AL).
  rewrite (segment_speed _ _ _ _ _ _ _ _ SG H) in WL. destruct SG as [A1 A2 A3 _]. exists (way legs - net). split; [|lra].
  exists w0, i, a, b, l, h, from, net, legs, mid, rest. split; [exact W|]. split; [exact A1|]. split; [exact A2|]. split; [apply A3, W|]. split; [exact B|]. split; [exact F0|]. split; [exact N0|]. split; [exact FN|]. split; [exact G|].
  split; [reflexivity|]. split; [exact O|exact AL].
Qed.
Lemma extend_short ws ms r d out s : (forall w, In w ws -> wspeed w = s) -> / 10 ^ 4 <= s -> extend_path ws ms r d = Some (false, out) -> out = ws /\ too_short ws ms r.
Proof.
  intros H S E. apply C75_fails in E. destruct E as (-> & E). split; [reflexivity|]. intros i l U.
  assert (X : exists w0, nth_error ws 0 = Some w0). { destruct U as (a & b & len & q & [A _ _ _] & _). destruct ws; [destruct i; discriminate|eexists; reflexivity]. }
  destruct X as (w0 & W). eapply E; [exact W| |exact U]. rewrite (H w0); [exact S|]. destruct ws; [discriminate|injection W as ->; left; reflexivity].
Qed.

Lemma turns_radius v s r : flies v s -> turns v s r -> r = radius v.
Proof.
  intros F (phi & P & ->). apply planned_flies in F. subst s. unfold radius.
  destruct (v_craft v) as [c|] eqn:E.
  - assert (Q : (if Rlt_dec (Rabs (bank c)) 1 then 1 else Rabs (bank c)) = phi).
    { subst phi. destruct (Rlt_dec (Rabs (bank c)) 1); [rewrite Rmax_left by lra|rewrite Rmax_right by lra]; reflexivity. }
    rewrite Q. unfold gravity, deg_to_rad, Rdiv. rewrite Rinv_mult. replace (1745329251994 * / 10 ^ 14) with 0.01745329251994 by lra. replace (/ (980665 * / 10 ^ 5)) with (/ 9.80665) by (f_equal; lra). simpl pow. lra.
  - subst phi. unfold gravity, deg_to_rad, Rdiv. rewrite Rinv_mult. replace (1745329251994 * / 10 ^ 14) with 0.01745329251994 by lra. replace (/ (980665 * / 10 ^ 5)) with (/ 9.80665) by (f_equal; lra). simpl pow. lra.
Qed.

Lemma to_ms d s : 0 < s -> d / 1000 * s / s * 1000 = d.
Proof. intros S. field. lra. Qed.

(** Without an assignment, costs or a start time the route is only prepared. *)
Theorem C78_unknown prefer v goal n wps s : flies v s -> exists ws, respond prefer v goal n None wps = Route false ws /\ worked v goal n s wps ws.
Proof. intros F. apply planned_flies in F. subst s. eexists. split; [reflexivity|apply worked_prepared]. Qed.

(** Otherwise there is a route unless the speed is 0. *)
Theorem C78_undefined prefer v goal n x wps s : flies v s -> respond prefer v goal n (Some x) wps = Undefined <-> s = 0.
Proof.
  intros F. apply planned_flies in F. subst s. destruct x as ((T, w), s0). unfold respond. cbv zeta. destruct (Req_EM_T (planned v) 0) as [E|E]; [tauto|]. split; [|contradiction].
  destruct (_ || _)%bool; [discriminate|]. match goal with |- (if ?c then _ else _) = _ -> _ => destruct c; [discriminate|] end.
  match goal with |- context [extend_path ?a ?b ?c ?d] => destruct (C75_ends a b c d) as ([] & out & Q); rewrite Q; [discriminate|] end.
  match goal with |- context [extend_path ?a ?b ?c ?d] => destruct (C75_ends a b c d) as (y & out' & Q'); rewrite Q'; discriminate end.
Qed.

(** The route of a vehicle with a start time [s0] to a meeting at [T], for which the vehicle [w] is the latest: unless the vehicle is the
    latest itself, has at most a second to lose, or may lose time by flying slower, the route is made longer so that it arrives
    between a moment before [T] and a millisecond after; if no segment is long enough for this, by a full circle and a second. *)
Theorem C78_route prefer v goal n T w s0 wps ok out s r : flies v s -> / 10 ^ 4 <= s -> turns v s r -> 0 < r ->
  respond prefer v goal n (Some (T, w, s0)) wps = Route ok out ->
  ok = true /\ exists ws, worked v goal n s wps ws /\ let arrival := IZR s0 + long ws / s * 1000 in
    (out = ws /\ (w = v_id v \/ IZR T <= arrival + 1000
                  \/ prefer = true /\ exists c slower, v_craft v = Some c /\ slower = Rmin (fastest c - s) (s - slowest c) /\ / 10 ^ 4 < slower /\ (IZR T - arrival) * slower < long ws * 1000))
    \/ w <> v_id v /\ arrival + 1000 < IZR T + 1 /\
       ((exists more, longer ws out r more /\ IZR T - 2 / 10 ^ 4 * r / s <= IZR s0 + (long ws + more) / s * 1000 < IZR T + 1)
        \/ exists ext, IZR T - arrival <= IZR ext < IZR T - arrival + 1 /\ too_short ws ext r
           /\ exists lap, 1000 * (2 * PI * r) / s + 999 < IZR lap <= 1000 * (2 * PI * r) / s + 1000
              /\ ((exists more, longer ws out r more /\ arrival + IZR lap - 2 / 10 ^ 4 * r / s <= IZR s0 + (long ws + more) / s * 1000 <= arrival + IZR lap)
                  \/ out = ws /\ too_short ws lap r)).
Proof.
  intros F S TR R. pose proof (turns_radius v s r F TR) as ER. apply planned_flies in F. unfold respond. cbv zeta. rewrite <- F, <- ER. set (ws := prepared v goal n wps).
  assert (W : worked v goal n s wps ws) by (subst s; apply worked_prepared). assert (SP : forall x, In x ws -> wspeed x = s) by (intros x; apply (worked_speed _ _ _ _ _ _ _ W)).
  assert (P4 : 0 < / 10 ^ 4) by (apply Rinv_0_lt_compat; lra). assert (S0 : 0 < s) by lra.
  destruct (Req_EM_T s 0) as [E|_]; [lra|]. rewrite travel_long. set (D := long ws). pose proof (long_pos ws) as D0. fold D in D0.
  set (ext := (T - trunc (D / s * 1000) - s0)%Z).
  assert (DS : 0 <= D / s) by (apply Rmult_le_pos; [exact D0|left; apply Rinv_0_lt_compat, S0]).
  pose proof (trunc_pos (D / s * 1000) ltac:(lra)) as TD.
  assert (EX : IZR T - (IZR s0 + D / s * 1000) <= IZR ext < IZR T - (IZR s0 + D / s * 1000) + 1) by (unfold ext; rewrite !minus_IZR; lra).
  intros H. destruct (Z.leb_spec ext 1000) as [L|L]; cbn [orb] in H.
  { injection H as <- <-. split; [reflexivity|]. exists ws. split; [exact W|]. cbv zeta. fold D. left. split; [reflexivity|]. right. left. apply IZR_le in L. lra. }
  destruct (Z.eqb_spec w (v_id v)) as [V|V].
  { injection H as <- <-. split; [reflexivity|]. exists ws. split; [exact W|]. left. split; [reflexivity|]. left. exact V. }
  apply IZR_lt in L.
  match type of H with (if ?c then _ else _) = _ => destruct c eqn:C end.
  { injection H as <- <-. split; [reflexivity|]. exists ws. split; [exact W|]. cbv zeta. fold D. left. split; [reflexivity|]. right. right. destruct prefer; [|discriminate]. split; [reflexivity|].
    destruct (Rlt_dec (/ 10 ^ 4) (s - min_speed v)) as [DV|]; [|discriminate]. destruct (Rlt_dec (IZR ext * (s - min_speed v)) (D * 1000)) as [DL|]; [|discriminate].
    unfold min_speed in DV, DL. rewrite <- F in DV, DL. destruct (v_craft v) as [c|]; [|lra]. exists c, (s - (if Rlt_dec (Rmax (fastest c - s) 0) (Rmax (s - slowest c) 0) then s - Rmax (fastest c - s) 0 else slowest c)).
    split; [reflexivity|]. split; [|split; [exact DV|]].
    - destruct (Rlt_dec (Rmax (fastest c - s) 0) (Rmax (s - slowest c) 0)) as [M|M].
      + unfold Rmax in M, DV |- *. destruct (Rle_dec (fastest c - s) 0), (Rle_dec (s - slowest c) 0); try lra. rewrite Rmin_left by lra. lra.
      + unfold Rmax in M. destruct (Rle_dec (fastest c - s) 0), (Rle_dec (s - slowest c) 0); try lra. rewrite Rmin_right by lra. lra.
    - eapply Rle_lt_trans; [|exact DL]. apply Rmult_le_compat_r; lra. }
  assert (SEG : 0 < 2 * PI * r / 8) by (pose proof PI_bounds; apply Rmult_lt_0_compat; [|lra]; apply Rmult_lt_0_compat; lra).
  assert (E0 : (0 <= ext)%Z) by (apply le_IZR; lra).
  assert (CONV : forall ms more, IZR ms / 1000 * s - 2 / 10 ^ 7 * r <= more <= IZR ms / 1000 * s -> IZR ms - 2 / 10 ^ 4 * r / s <= more / s * 1000 <= IZR ms).
  { intros ms more (A & B). assert (IS : 0 < / s) by (apply Rinv_0_lt_compat, S0). split.
    - replace (IZR ms - 2 / 10 ^ 4 * r / s) with ((IZR ms / 1000 * s - 2 / 10 ^ 7 * r) * / s * 1000) by (field; lra). unfold Rdiv. apply Rmult_le_compat_r; [lra|]. apply Rmult_le_compat_r; lra.
    - replace (IZR ms) with (IZR ms / 1000 * s * / s * 1000) by (field; lra). unfold Rdiv. apply Rmult_le_compat_r; [lra|]. apply Rmult_le_compat_r; [lra|]. unfold Rdiv in B. exact B. }
  assert (ARR : forall more, IZR s0 + (D + more) / s * 1000 = IZR s0 + D / s * 1000 + more / s * 1000) by (intros; field; lra).
  destruct (C75_ends ws ext r (2 * PI * r / 8)) as ([] & o1 & E1); rewrite E1 in H.
  { injection H as <- <-. split; [reflexivity|]. exists ws. split; [exact W|]. cbv zeta. fold D. right. split; [exact V|]. split; [lra|]. left.
    destruct (extend_longer ws ext r _ o1 s SP R SEG E0 E1) as (more & LG & MB). exists more. split; [exact LG|]. rewrite ARR. pose proof (CONV ext more MB). lra. }
  destruct (extend_short ws ext r _ o1 s SP S E1) as (-> & TS). set (lap := trunc (1000 * (2 * PI * r / 8) * 8 / s + 1000)) in *.
  assert (LP : 1000 * (2 * PI * r) / s + 999 < IZR lap <= 1000 * (2 * PI * r) / s + 1000).
  { assert (X : 1000 * (2 * PI * r / 8) * 8 / s + 1000 = 1000 * (2 * PI * r) / s + 1000) by (field; lra). assert (Y : 0 < 1000 * (2 * PI * r) / s).
    { apply Rmult_lt_0_compat; [|apply Rinv_0_lt_compat, S0]. lra. } pose proof (trunc_pos (1000 * (2 * PI * r / 8) * 8 / s + 1000) ltac:(lra)) as Z. fold lap in Z. lra. }
  assert (LP0 : (0 <= lap)%Z). { apply le_IZR. assert (0 < 1000 * (2 * PI * r) / s) by (apply Rmult_lt_0_compat; [lra|apply Rinv_0_lt_compat, S0]). lra. }
  destruct (C75_ends ws lap r (2 * PI * r / 8)) as (ok2 & o2 & E2); rewrite E2 in H. injection H as <- <-. split; [reflexivity|]. exists ws. split; [exact W|]. cbv zeta. fold D. right. split; [exact V|]. split; [lra|]. right.
  exists ext. split; [exact EX|]. split; [exact TS|]. exists lap. split; [exact LP|]. destruct ok2.
  - left. destruct (extend_longer ws lap r _ o2 s SP R SEG LP0 E2) as (more & LG & MB). exists more. split; [exact LG|]. rewrite ARR. pose proof (CONV lap more MB). lra.
  - right. apply (extend_short ws lap r _ o2 s SP S E2).
Qed.

(** ** Cases *)
Definition pt (lat : R) (n m : Z) : waypoint := {| wlat := lat; wlon := 0; wspeed := 20; wnum := n; wnext := m; wother := 1 |}.
Definition two (lat : R) : list waypoint := [pt 0 1 2; pt lat 2 2].

Lemma two_long lat : 0 <= lat -> 6335437 * (lat * deg) <= long (two lat) <= 6399600 * (lat * deg).
Proof.
  intros L0. destruct (C73_scale (DegM 0 0) []) as (north & east & N & _ & _ & S & SD & _).
  change (history [DegM 0 0]) with (fst (deg_ne_m 0 0 fresh)) in *.
  unfold long, two, along, local, pt. cbn [wlat wlon]. rewrite !SD, !S. cbn [fst snd named]. unfold apart. cbn [fst snd].
  match goal with |- _ <= sqrt ?x + 0 <= _ => replace x with ((north * (lat * deg)) ^ 2) by ring end.
  assert (D : 0 < deg) by (unfold deg; lra). assert (0 <= lat * deg) by (apply Rmult_le_pos; lra).
  rewrite sqrt_pow2 by (apply Rmult_le_pos; lra). nra.
Qed.
Lemma two_prepared v goal n lat : planned v = 20 -> prepared v goal n (two lat) = two lat.
Proof. intros E. unfold two, prepared. cbn [map]. unfold at_speed. rewrite E. reflexivity. Qed.
Definition plain : vehicle := {| v_id := 400; v_lat := 0; v_lon := 0; v_ground := 20; v_craft := None |}.
Definition air : vehicle := {| v_id := 400; v_lat := 0; v_lon := 0; v_ground := 21; v_craft := Some {| nominal := 20; slowest := 19; fastest := 25; bank := 20 |} |}.

Lemma tan20 : 0.3639 < tan (20 * deg_to_rad) < 0.3641.
Proof.
  unfold deg_to_rad. set (x := 20 * (1745329251994 / 10 ^ 14)). assert (X : x = 0.3490658503988) by (unfold x; lra).
  destruct (sin_sixth x ltac:(lra)) as (L & U). rewrite X in L, U |- *. clear x X.
  set (s := sin 0.3490658503988) in *. assert (S : 0.34202 < s < 0.34203) by (split; lra). clear L U.
  assert (C0 : 0 < cos 0.3490658503988) by (pose proof PI_bounds; apply cos_gt_0; lra).
  pose proof (sin2_cos2 0.3490658503988) as Q. unfold Rsqr in Q. fold s in Q. set (c := cos 0.3490658503988) in *.
  assert (C : 0.9396 < c < 0.9398) by (split; nra). unfold tan. fold s c. split.
  - apply Rmult_lt_reg_r with c; [lra|]. unfold Rdiv. rewrite Rmult_assoc, Rinv_l by lra. lra.
  - apply Rmult_lt_reg_r with c; [lra|]. unfold Rdiv. rewrite Rmult_assoc, Rinv_l by lra. lra.
Qed.
Lemma plain_radius : 134 < radius plain < 135.
Proof.
  unfold radius, planned, plain. cbn [v_craft v_ground]. pose proof tan20 as T. set (t := tan (20 * deg_to_rad)) in *.
  replace (12 / 10 * 20 * 20 / gravity / t) with (480 / gravity * / t) by (unfold gravity; field; lra).
  assert (G : 48.9463 < 480 / gravity < 48.9465) by (unfold gravity; lra). assert (I : / 0.3641 < / t < / 0.3639) by (split; apply Rinv_lt_contravar; nra). split; nra.
Qed.
Lemma plain_turns : turns plain 20 (radius plain).
Proof.
  assert (X : turns plain 20 (1.2 * (20 ^ 2 / (9.80665 * tan (20 * 0.01745329251994))))) by (exists 20; split; reflexivity).
  rewrite <- (turns_radius plain 20 _ eq_refl X). exact X.
Qed.
Lemma air_turns : turns air 20 (radius plain).
Proof.
  exists 20. split; [cbn [air v_craft bank]; rewrite Rabs_right, Rmax_right by lra; reflexivity|]. destruct plain_turns as (phi & -> & E). exact E.
Qed.

Lemma two_speed lat x : In x (two lat) -> wspeed x = 20.
Proof. intros [<-|[<-|[]]]; reflexivity. Qed.
Lemma two_cruise lat : cruise 20 [pt lat 2 2] [20].
Proof. apply cruise_keep; [left; cbn [pt wspeed]; rewrite Rminus_diag_eq, Rabs_R0 by reflexivity; assert (0 < / 10 ^ 4) by (apply Rinv_0_lt_compat; lra); lra|constructor]. Qed.
Lemma two_segment lat ms : segment (two lat) ms 0 (pt 0 1 2) (pt lat 2 2) (long (two lat)) (IZR ms / 1000 * 20).
Proof.
  split; [reflexivity|reflexivity| |].
  - intros w [= <-]. unfold long, two, along. ring.
  - exists (pt 0 1 2), [pt lat 2 2], [20], 20. split; [reflexivity|]. split; [apply two_cruise|]. split; reflexivity.
Qed.
Lemma two_extends lat ms r d q : required (IZR ms / 1000 * 20) r = Some q -> q <= long (two lat) -> / 10 ^ 4 < long (two lat) -> exists out, extend_path (two lat) ms r d = Some (true, out).
Proof.
  intros Q L P. destruct (C75_ends (two lat) ms r d) as ([] & out & E); [eauto|]. exfalso. apply C75_fails in E. destruct E as (_ & E).
  specialize (E (pt 0 1 2) 0%nat (long (two lat)) eq_refl). assert (/ 10 ^ 4 <= 1) by lra.
  assert (X : long (two lat) <= / 10 ^ 4); [|lra]. apply E; [cbn [pt wspeed]; lra|]. exists (pt 0 1 2), (pt lat 2 2), (IZR ms / 1000 * 20), q. split; [apply two_segment|auto].
Qed.
Lemma two_stays lat ms r d q : required (IZR ms / 1000 * 20) r = Some q -> long (two lat) < q -> extend_path (two lat) ms r d = Some (false, two lat).
Proof.
  intros Q L. destruct (C75_ends (two lat) ms r d) as ([] & out & E).
  - exfalso. apply C75_longest in E. destruct E as (w0 & i & a & b & l & len & q' & p & legs & mid & rest & W0 & SP & SG & RQ & QL & _).
    pose proof (segment_speed _ _ _ _ _ _ _ _ SG (two_speed lat)) as ->. rewrite Q in RQ. injection RQ as <-. destruct SG as [A B C _].
    destruct i as [|i]; [|destruct i; discriminate]. cbn in A, B. injection A as <-. injection B as <-. specialize (C _ eq_refl). unfold long, two, along in L. lra.
  - rewrite E. apply C75_fails in E. destruct E as (-> & _). reflexivity.
Qed.

(** A vehicle that has 20 seconds to lose on a long way. *)
Example C78_route_meets : exists T out more, respond false plain (1, 0) 5 (Some (T, 500%Z, 0%Z)) (two 1) = Route true out
  /\ longer (two 1) out (radius plain) more /\ IZR T - 0.01 <= (long (two 1) + more) / 20 * 1000 < IZR T + 1 /\ long (two 1) / 20 * 1000 + 19999 < IZR T.
Proof.
  set (T := (trunc (long (two 1) / 20 * 1000) + 20000)%Z). pose proof (two_long 1 ltac:(lra)) as L. pose proof plain_radius as R. pose proof PI_bounds as P.
  pose proof (trunc_pos (long (two 1) / 20 * 1000) ltac:(unfold deg in L; lra)) as TR.
  assert (Q : exists q, required (IZR 20000 / 1000 * 20) (radius plain) = Some q /\ q <= 10000).
  { replace (IZR 20000 / 1000 * 20) with 400 by lra. unfold required. set (r := radius plain) in *. destruct (Rlt_dec 400 (2 * r * (PI - 2))) as [A|A].
    - destruct (single_search_ok 400 r ltac:(lra) ltac:(lra) A) as (th & E & B & _). rewrite E. eexists. split; [reflexivity|]. unfold single_straight. pose proof (SIN_bound th). nra.
    - destruct (Rlt_dec 400 (2 * PI * r)) as [B|B]; [|exfalso; nra]. destruct (slide_search_ok 400 r ltac:(lra) ltac:(lra) B) as (th & E & C & _). rewrite E. eexists. split; [reflexivity|].
      rewrite slide_straight_eq by exact C. pose proof (COS_bound th). pose proof (SIN_bound (acos (1 - sin th))). nra. }
  destruct Q as (q & Q & QL). unfold deg in L. destruct (two_extends 1 20000 (radius plain) (2 * PI * radius plain / 8) q Q ltac:(lra) ltac:(lra)) as (out & E).
  assert (RS : respond false plain (1, 0) 5 (Some (T, 500%Z, 0%Z)) (two 1) = Route true out).
  { unfold respond. cbv zeta. rewrite two_prepared by reflexivity. change (planned plain) with 20. destruct (Req_EM_T 20 0); [lra|]. rewrite travel_long.
    replace (T - trunc (long (two 1) / 20 * 1000) - 0)%Z with 20000%Z by (unfold T; lia). cbn [Z.leb Z.eqb v_id plain orb Z.compare Pos.compare Pos.compare_cont Pos.eqb]. rewrite E. reflexivity. }
  exists T, out. assert (F : flies plain 20) by reflexivity.
  assert (TR' : IZR T = IZR (trunc (long (two 1) / 20 * 1000)) + 20000) by (unfold T; rewrite plus_IZR; reflexivity).
  assert (RP : 0 < radius plain) by lra. assert (SEG : 0 < 2 * PI * radius plain / 8) by nra.
  destruct (extend_longer (two 1) 20000 _ _ out 20 (two_speed 1) RP SEG ltac:(lia) E) as (more & LG & MB). exists more. split; [exact RS|]. split; [exact LG|]. split; [|lra].
  assert (X : (long (two 1) + more) / 20 * 1000 = long (two 1) / 20 * 1000 + more * 50) by field. rewrite X. lra.
Qed.

(** A vehicle on a short way that has 25 seconds to lose loses more than 40: it is there 15 seconds after the time to meet. *)
Theorem C78_late_refuted : exists v goal n T w s0 wps out r more, flies v 20 /\ turns v 20 r /\ w <> v_id v
  /\ respond false v goal n (Some (T, w, s0)) wps = Route true out /\ longer wps out r more
  /\ IZR s0 + long wps / 20 * 1000 + 24999 < IZR T /\ IZR T + 15000 < IZR s0 + (long wps + more) / 20 * 1000.
Proof.
  set (T := (trunc (long (two 0.001) / 20 * 1000) + 25000)%Z). pose proof (two_long 0.001 ltac:(lra)) as L. pose proof plain_radius as R. pose proof PI_bounds as P. unfold deg in L.
  pose proof (trunc_pos (long (two 0.001) / 20 * 1000) ltac:(lra)) as TR. set (r := radius plain) in *.
  assert (Q : exists q, required (IZR 25000 / 1000 * 20) r = Some q /\ long (two 0.001) < q).
  { replace (IZR 25000 / 1000 * 20) with 500 by lra. unfold required. destruct (Rlt_dec 500 (2 * r * (PI - 2))) as [A|A]; [exfalso; nra|]. destruct (Rlt_dec 500 (2 * PI * r)) as [B|B]; [|exfalso; nra].
    destruct (slide_search_ok 500 r ltac:(lra) ltac:(lra) B) as (th & E & C & _). rewrite E. eexists. split; [reflexivity|]. unfold slide_straight.
    assert (0 <= cos th) by (apply cos_ge_0; lra). pose proof (sqrt_pos (1 - (1 - sin th) * (1 - sin th))). nra. }
  destruct Q as (q & Q & QL). pose proof (two_stays 0.001 25000 r (2 * PI * r / 8) q Q QL) as E1.
  set (lap := trunc (1000 * (2 * PI * r / 8) * 8 / 20 + 1000)).
  assert (LP : 100 * PI * r + 999 < IZR lap <= 100 * PI * r + 1000).
  { assert (X : 1000 * (2 * PI * r / 8) * 8 / 20 + 1000 = 100 * PI * r + 1000) by field. assert (Y : 0 < PI * r) by nra. pose proof (trunc_pos (1000 * (2 * PI * r / 8) * 8 / 20 + 1000) ltac:(lra)) as Z. fold lap in Z. lra. }
  assert (PR : 420 < PI * r < 425) by nra.
  assert (Q2 : exists q, required (IZR lap / 1000 * 20) r = Some q /\ q <= 10).
  { set (len := IZR lap / 1000 * 20) in *. assert (LN : 2 * PI * r + 19.98 < len <= 2 * PI * r + 20) by (unfold len; lra). unfold required.
    destruct (Rlt_dec len (2 * r * (PI - 2))) as [A|A]; [exfalso; nra|]. destruct (Rlt_dec len (2 * PI * r)) as [B|B]; [exfalso; lra|]. eexists. split; [reflexivity|].
    unfold fmod. assert (X : 1 <= len / (2 * PI * r)). { apply Rmult_le_reg_r with (2 * PI * r); [lra|]. replace (len / (2 * PI * r) * (2 * PI * r)) with len by (field; split; lra). lra. }
    pose proof (floor_frac (len / (2 * PI * r))) as FF. assert (I : (1 <= Int_part (len / (2 * PI * r)))%Z). { apply Z.lt_succ_r. apply lt_IZR. rewrite succ_IZR. lra. }
    apply IZR_le in I. nra. }
  destruct Q2 as (q2 & Q2 & Q2L). destruct (two_extends 0.001 lap r (2 * PI * r / 8) q2 Q2 ltac:(lra) ltac:(lra)) as (out & E2).
  exists plain, (1, 0), 5%Z, T, 500%Z, 0%Z, (two 0.001), out, r.
  assert (LP0 : (0 <= lap)%Z) by (apply le_IZR; lra).
  assert (RP : 0 < r) by lra. assert (SEG : 0 < 2 * PI * r / 8) by lra.
  destruct (extend_longer (two 0.001) lap r _ out 20 (two_speed 0.001) RP SEG LP0 E2) as (more & LG & MB). exists more.
  split; [reflexivity|]. split; [exact plain_turns|]. split; [discriminate|].
  assert (TR' : IZR T = IZR (trunc (long (two 0.001) / 20 * 1000)) + 25000) by (unfold T; rewrite plus_IZR; reflexivity). split; [|split; [exact LG|split; [lra|]]].
  - unfold respond. cbv zeta. rewrite two_prepared by reflexivity. change (planned plain) with 20. destruct (Req_EM_T 20 0); [lra|]. rewrite travel_long.
    replace (T - trunc (long (two 0.001) / 20 * 1000) - 0)%Z with 25000%Z by (unfold T; lia). cbn [Z.leb Z.eqb v_id plain orb Z.compare Pos.compare Pos.compare_cont Pos.eqb].
    fold r. rewrite E1. fold lap. rewrite E2. reflexivity.
  - assert (X : (long (two 0.001) + more) / 20 * 1000 = long (two 0.001) / 20 * 1000 + more * 50) by field. rewrite X. lra.
Qed.

(** A vehicle that prefers to change its speed keeps its route, although it is there two hours before the time to meet even at its slowest. *)
Theorem C78_speed_refuted : exists v goal n T w s0 wps c, v_craft v = Some c /\ flies v 20 /\ slowest c = 19 /\ w <> v_id v
  /\ respond true v goal n (Some (T, w, s0)) wps = Route true wps
  /\ IZR s0 + long wps / slowest c * 1000 + 2 * 3600 * 1000 < IZR T.
Proof.
  set (T := (trunc (long (two 1) / 20 * 1000) + 10000000)%Z). pose proof (two_long 1 ltac:(lra)) as L. unfold deg in L.
  pose proof (trunc_pos (long (two 1) / 20 * 1000) ltac:(lra)) as TR.
  exists air, (1, 0), 5%Z, T, 500%Z, 0%Z, (two 1), {| nominal := 20; slowest := 19; fastest := 25; bank := 20 |}.
  split; [reflexivity|]. split; [reflexivity|]. split; [reflexivity|]. split; [discriminate|]. split.
  - unfold respond. cbv zeta. rewrite two_prepared by reflexivity. change (planned air) with 20. destruct (Req_EM_T 20 0); [lra|]. rewrite travel_long.
    replace (T - trunc (long (two 1) / 20 * 1000) - 0)%Z with 10000000%Z by (unfold T; lia). cbn [Z.leb Z.eqb v_id air orb Z.compare Pos.compare Pos.compare_cont Pos.eqb].
    assert (M : 20 - min_speed air = 1).
    { unfold min_speed, planned, air. cbn [v_craft nominal slowest fastest]. rewrite (Rmax_left (25 - 20)), (Rmax_left (20 - 19)) by lra. destruct (Rlt_dec (25 - 20) (20 - 19)); lra. }
    rewrite M. assert (/ 10 ^ 4 < 1) by lra. destruct (Rlt_dec (/ 10 ^ 4) 1); [|lra]. destruct (Rlt_dec (10000000 * 1) (long (two 1) * 1000)); [reflexivity|lra].
  - assert (TR' : IZR T = IZR (trunc (long (two 1) / 20 * 1000)) + 10000000) by (unfold T; rewrite plus_IZR; reflexivity). cbn [slowest]. rewrite TR'.
    assert (long (two 1) / 19 * 1000 <= long (two 1) / 20 * 1000 + 300000) by lra. lra.
Qed.

Print Assumptions C78_unknown.
Print Assumptions C78_undefined.
Print Assumptions C78_route.
Print Assumptions C78_late_refuted.
Print Assumptions C78_speed_refuted.

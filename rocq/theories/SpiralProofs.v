(** Lemmas on the model of the spiral pattern. *)
From Coq Require Import Reals List ZArith Lra Lia.
From Verif Require Import PiBounds FlatEarthModel SteeringCourseModel SteeringCourseProps SensorSteeringModel SensorSteeringSpec SensorSteeringProofs SectorModel SectorProofs SpiralModel SpiralSpec.
Import ListNotations.
Open Scope R_scope.

Lemma half_turn_pos : 3.1415 < half_turn < 3.1416 /\ PI < half_turn.
Proof. unfold half_turn. pose proof PI_bounds. lra. Qed.

Lemma half_turn_dPi : half_turn = dPi.
Proof. unfold half_turn, dPi. lra. Qed.

Lemma radius_model p t : 45 / 100 * width p * (1 + t / dPi) = radius (width p) t.
Proof. unfold radius. rewrite half_turn_dPi. unfold Rdiv. lra. Qed.

Lemma radius_pos w t : 0 < w -> 0 <= t -> 0.45 * w <= radius w t.
Proof.
  intros W T. unfold radius. assert (0 <= t / half_turn) by (apply Rmult_le_pos; [exact T|left; apply Rinv_0_lt_compat; pose proof half_turn_pos; lra]). nra.
Qed.

Lemma radius_add w t d : radius w (t + d) = radius w t + 0.45 * w / half_turn * d.
Proof. unfold radius. pose proof half_turn_pos. field. lra. Qed.

Lemma radius_le w t u : 0 < w -> t <= u -> radius w t <= radius w u.
Proof.
  intros W T. replace u with (t + (u - t)) by ring. rewrite radius_add.
  assert (0 < 0.45 * w / half_turn) by (apply Rdiv_lt_0_compat; pose proof half_turn_pos; lra). nra.
Qed.

Lemma passes_later p : 0 < width p -> forall fuel prev theta l, 0 <= theta -> passes fuel p prev theta false = Some l ->
  let bound := reach p + 55 / 100 * width p in
  (bound < prev /\ l = []) \/ (prev <= bound /\ spiral_from bound (width p) theta l).
Proof.
  intros W. induction fuel as [|f IH]; intros prev theta l T E; [discriminate|]. cbn [passes] in E. cbn zeta. set (b := reach p + 55 / 100 * width p) in *.
  destruct (Rle_dec prev b) as [L|L]; [|injection E as <-; left; split; [lra|reflexivity]]. right. split; [exact L|].
  rewrite radius_model in E. set (r := radius (width p) theta) in *.
  assert (P : 0 < r) by (pose proof (radius_pos (width p) theta W T); unfold r; lra). destruct (Rlt_dec 0 r) as [_|]; [|lra].
  destruct (passes f p r (theta + 50 / r) false) as [k|] eqn:Ek; [|discriminate]. injection E as <-. cbn [spiral_from].
  assert (T' : 0 <= theta + 50 / r) by (pose proof (Rdiv_lt_0_compat 50 r ltac:(lra) P); lra).
  split; [reflexivity|]. split; [reflexivity|]. destruct (IH _ _ _ T' Ek) as [[A ->]|[A B]]; [exact A|].
  destruct k as [|x k]; [contradiction|]. split; [exact A|exact B].
Qed.

Lemma passes_whole p fuel l : 0 < width p -> passes fuel p 0 0 true = Some l ->
  let bound := reach p + 55 / 100 * width p in (bound < 0 /\ l = []) \/ (0 <= bound /\ spiral_shape bound (width p) l).
Proof.
  intros W E. destruct fuel as [|f]; [discriminate|]. cbn [passes] in E. cbn zeta. set (b := reach p + 55 / 100 * width p) in *.
  destruct (Rle_dec 0 b) as [L|L]; [|injection E as <-; left; split; [lra|reflexivity]]. right. split; [exact L|].
  destruct (Rlt_dec 0 50) as [_|]; [|lra]. replace (0 + 50 / 50) with 1 in E by field.
  destruct (passes f p 50 1 false) as [k|] eqn:Ek; [|discriminate]. injection E as <-. exists k. split; [reflexivity|].
  destruct (passes_later p W f 50 1 k ltac:(lra) Ek) as [[A ->]|A]; [left; auto|right; exact A].
Qed.

Lemma passes_S f p prev theta first : passes (S f) p prev theta first =
  if Rle_dec prev (reach p + 55 / 100 * width p) then
    let r := if first then 50 else 45 / 100 * width p * (1 + theta / dPi) in
    option_map (cons (r, theta)) (passes f p r (if Rlt_dec 0 r then theta + 50 / r else theta) false)
  else Some [].
Proof. reflexivity. Qed.

Lemma passes_end p : 0 < width p -> let b := reach p + 55 / 100 * width p in 0 < b ->
  forall n prev theta, 0 <= theta -> b < radius (width p) theta + INR n * (0.45 * width p / half_turn * (50 / b)) ->
  exists l, passes (S (S n)) p prev theta false = Some l.
Proof.
  intros W b B. set (d := 0.45 * width p / half_turn * (50 / b)).
  induction n as [|n IH]; intros prev theta T L; rewrite passes_S; cbn zeta; fold b;
    (destruct (Rle_dec prev b) as [Lq|Lq]; [|eauto]); rewrite radius_model; set (r := radius (width p) theta) in *;
    assert (P : 0 < r) by (pose proof (radius_pos (width p) theta W T); unfold r; lra); (destruct (Rlt_dec 0 r) as [_|]; [|lra]).
  - cbn [INR] in L. rewrite passes_S. fold b. destruct (Rle_dec r b); [lra|]. cbn. eauto.
  - destruct (Rle_dec r b) as [Lb|Lb].
    + assert (Q : 50 / b <= 50 / r) by (apply Rmult_le_compat_l; [lra|apply Rinv_le_contravar; assumption]).
      assert (Q0 : 0 < 50 / b) by (apply Rdiv_lt_0_compat; lra).
      destruct (IH r (theta + 50 / r)) as [l El].
      * lra.
      * rewrite radius_add. fold r. rewrite S_INR in L.
        assert (d <= 0.45 * width p / half_turn * (50 / r)).
        { unfold d. apply Rmult_le_compat_l; [|exact Q]. left. apply Rdiv_lt_0_compat; pose proof half_turn_pos; lra. }
        lra.
      * rewrite El. cbn. eauto.
    + rewrite passes_S. fold b. destruct (Rle_dec r b); [lra|]. cbn. eauto.
Qed.

Lemma passes_total p : 0 < width p -> exists fuel l, passes fuel p 0 0 true = Some l.
Proof.
  intros W. set (b := reach p + 55 / 100 * width p). destruct (Rle_dec 0 b) as [L|L].
  2:{ exists 1%nat, []. cbn [passes]. fold b. destruct (Rle_dec 0 b); [lra|reflexivity]. }
  destruct (Rlt_dec b 50) as [L'|L'].
  { exists 2%nat, [(50, 0)]. cbn [passes]. fold b. destruct (Rle_dec 0 b); [|lra]. destruct (Rle_dec 50 b); [lra|]. reflexivity. }
  set (d := 0.45 * width p / half_turn * (50 / b)).
  assert (D : 0 < d) by (apply Rmult_lt_0_compat; apply Rdiv_lt_0_compat; pose proof half_turn_pos; lra).
  destruct (archimed (b / d)) as [A _]. assert (B : 0 < b / d) by (apply Rdiv_lt_0_compat; lra).
  assert (U : (0 <= up (b / d))%Z) by (apply le_IZR; lra).
  destruct (passes_end p W ltac:(fold b; lra) (Z.to_nat (up (b / d))) 50 1 ltac:(lra)) as [l El].
  - fold b d. rewrite INR_IZR_INZ, Z2Nat.id by exact U. apply (Rmult_lt_compat_r d) in A; [|exact D].
    replace (b / d * d) with b in A by (field; lra). pose proof (radius_pos (width p) 1 W ltac:(lra)). lra.
  - exists (S (S (S (Z.to_nat (up (b / d)))))), ((50, 0) :: l). rewrite passes_S. cbn zeta. fold b. destruct (Rle_dec 0 b); [|lra].
    destruct (Rlt_dec 0 50) as [_|]; [|lra]. replace (0 + 50 / 50) with 1 by field. rewrite El. reflexivity.
Qed.

(** ** Chords of a spiral *)
Lemma sin_concave a b : 0 <= a -> 0 <= b -> a + b <= 1 -> sin (a + b) * a <= sin a * (a + b).
Proof.
  intros A B S. destruct (Req_dec a 0) as [->|Na]; [rewrite sin_0; lra|]. destruct (Req_dec b 0) as [->|Nb]; [rewrite Rplus_0_r; lra|].
  destruct (MVT_cor2 sin cos 0 a ltac:(lra)) as (x & Ex & Hx); [intros; apply derivable_pt_lim_sin|].
  destruct (MVT_cor2 sin cos a (a + b) ltac:(lra)) as (y & Ey & Hy); [intros; apply derivable_pt_lim_sin|].
  rewrite sin_0 in Ex. assert (C : cos y <= cos x) by (apply cos_decr_1; pose proof PI_bounds; lra).
  assert (Es : sin a = cos x * a) by lra. assert (Ed : sin (a + b) = sin a + cos y * b) by lra. rewrite Ed, Es.
  assert (0 <= (cos x - cos y) * (a * b)) by (apply Rmult_le_pos; [lra|apply Rmult_le_pos; lra]). nra.
Qed.

Lemma sin_low d : 0 <= d -> d <= 1 -> d - d ^ 3 / 6 <= sin d.
Proof.
  intros A B. destruct (sin_bound d 0 A ltac:(pose proof PI_bounds; lra)) as [S _]. unfold sin_approx, sin_term in S. cbn in S. lra.
Qed.

(** The point of a chord in a direction between its ends. *)
Lemma chord q1 q2 al be : 0 < q1 -> q1 <= q2 -> 0 <= al -> 0 <= be -> 0 < al + be -> al + be <= 1 ->
  let d := al + be in let s := (q1 * be + q2 * al) / d in
  exists t q, 0 <= t <= 1 /\ (1 - t) * q1 * cos al + t * q2 * cos be = q /\ t * q2 * sin be = (1 - t) * q1 * sin al /\
    s - q2 * d ^ 2 / 6 - (q2 - q1) ^ 2 / (4 * q1) <= q <= s.
Proof.
  intros P Q A B D D1 d s.
  assert (Sd : 0 < sin d) by (apply sin_gt_0; unfold d; pose proof PI_bounds; lra).
  assert (Sa : 0 <= sin al) by (apply sin_ge_0; pose proof PI_bounds; lra).
  assert (Sb : 0 <= sin be) by (apply sin_ge_0; pose proof PI_bounds; lra).
  pose proof (sin_concave al be A B D1) as Ca. pose proof (sin_concave be al B A ltac:(lra)) as Cb. rewrite Rplus_comm in Cb. fold d in Ca, Cb.
  assert (Ua : sin al <= al) by (destruct (Req_dec al 0) as [->|]; [rewrite sin_0; lra|left; apply sin_lt_x; lra]).
  assert (Ub : sin be <= be) by (destruct (Req_dec be 0) as [->|]; [rewrite sin_0; lra|left; apply sin_lt_x; lra]).
  set (w := q1 * sin al + q2 * sin be).
  assert (W : 0 < w).
  { assert (sin d * (q1 * al + q2 * be) <= w * d) by (unfold w; nra).
    assert (0 < q1 * al + q2 * be) by (unfold d in *; nra). assert (0 < w * d) by nra. unfold d in *. nra. }
  set (t := q1 * sin al / w). set (q := q1 * q2 * sin d / w).
  assert (T1 : 1 - t = q2 * sin be / w) by (unfold t, w; field; fold w; lra).
  exists t, q. split; [|split; [|split]].
  - split; [apply Rmult_le_pos; [nra|left; apply Rinv_0_lt_compat, W]|].
    assert (0 <= 1 - t); [rewrite T1; apply Rmult_le_pos; [nra|left; apply Rinv_0_lt_compat, W]|lra].
  - rewrite T1. unfold t, q, d. rewrite sin_plus. field. lra.
  - rewrite T1. unfold t. field. lra.
  - assert (D0 : 0 < d) by exact D.
    assert (Es : s * d = q1 * be + q2 * al) by (unfold s; field; lra).
    assert (Eq : q * w = q1 * q2 * sin d) by (unfold q; field; lra).
    assert (M : 0 < q1 * al + q2 * be) by (unfold d in *; nra).
    assert (Am : q1 * q2 * d ^ 2 <= (q1 * be + q2 * al) * (q1 * al + q2 * be)).
    { replace ((q1 * be + q2 * al) * (q1 * al + q2 * be)) with (q1 * q2 * d ^ 2 + al * be * (q2 - q1) ^ 2) by (unfold d; ring).
      assert (0 <= al * be * (q2 - q1) ^ 2) by (apply Rmult_le_pos; [apply Rmult_le_pos; assumption|apply pow2_ge_0]). lra. }
    split.
    + set (h := q1 * q2 * d / (q1 * al + q2 * be)).
      assert (Eh : h * (q1 * al + q2 * be) = q1 * q2 * d) by (unfold h; field; lra).
      assert (Hq : h <= q2).
      { apply (Rmult_le_reg_r (q1 * al + q2 * be)); [exact M|]. rewrite Eh. unfold d. assert (0 <= q2 * be * (q2 - q1)) by (apply Rmult_le_pos; [apply Rmult_le_pos; lra|lra]). lra. }
      assert (H0 : 0 < h) by (apply Rdiv_lt_0_compat; [|exact M]; apply Rmult_lt_0_compat; [nra|exact D0]).
      assert (Wm : w <= q1 * al + q2 * be) by (unfold w; nra).
      pose proof (sin_low d ltac:(lra) D1) as Sl.
      assert (Q1 : h * (1 - d ^ 2 / 6) <= q).
      { apply (Rmult_le_reg_r w); [exact W|]. rewrite Eq.
        assert (D2 : d <= 1) by exact D1. assert (F0 : 0 <= 1 - d ^ 2 / 6) by (clearbody d; nra).
        apply Rle_trans with (h * (1 - d ^ 2 / 6) * (q1 * al + q2 * be)).
        - apply Rmult_le_compat_l; [apply Rmult_le_pos; lra|exact Wm].
        - replace (h * (1 - d ^ 2 / 6) * (q1 * al + q2 * be)) with (q1 * q2 * (d - d ^ 3 / 6)) by (transitivity (h * (q1 * al + q2 * be) * (1 - d ^ 2 / 6)); [rewrite Eh; field|ring]).
          apply Rmult_le_compat_l; [nra|exact Sl]. }
      assert (Q2 : s - h <= (q2 - q1) ^ 2 / (4 * q1)).
      { assert (E : (s - h) * (d * (q1 * al + q2 * be)) = al * be * (q2 - q1) ^ 2).
        { transitivity (s * d * (q1 * al + q2 * be) - h * (q1 * al + q2 * be) * d); [ring|]. rewrite Es, Eh. unfold d. ring. }
        apply (Rmult_le_reg_r (d * (q1 * al + q2 * be))); [apply Rmult_lt_0_compat; assumption|]. rewrite E.
        assert (G : al * be <= d ^ 2 / 4) by (unfold d; pose proof (pow2_ge_0 (al - be)); lra).
        assert (K : q1 * d <= q1 * al + q2 * be) by (unfold d; nra).
        pose proof (pow2_ge_0 (q2 - q1)) as Z.
        apply Rle_trans with ((q2 - q1) ^ 2 / (4 * q1) * (d * (q1 * d))).
        - replace ((q2 - q1) ^ 2 / (4 * q1) * (d * (q1 * d))) with (d ^ 2 / 4 * (q2 - q1) ^ 2) by (field; lra). apply Rmult_le_compat_r; assumption.
        - apply Rmult_le_compat_l; [apply Rmult_le_pos; [exact Z|left; apply Rinv_0_lt_compat; lra]|]. apply Rmult_le_compat_l; lra. }
      assert (h * (d ^ 2 / 6) <= q2 * d ^ 2 / 6) by (pose proof (pow2_ge_0 d); nra). lra.
    + apply (Rmult_le_reg_r (w * d)); [apply Rmult_lt_0_compat; assumption|].
      replace (q * (w * d)) with (q1 * q2 * sin d * d) by (rewrite <- Eq; ring). replace (s * (w * d)) with ((q1 * be + q2 * al) * w) by (rewrite <- Es; ring).
      assert (V : sin d * (q1 * al + q2 * be) <= w * d) by (unfold w; nra).
      apply (Rmult_le_reg_r d); [exact D0|].
      apply Rle_trans with ((q1 * be + q2 * al) * (sin d * (q1 * al + q2 * be))).
      * replace (q1 * q2 * sin d * d * d) with (sin d * (q1 * q2 * d ^ 2)) by ring.
        replace ((q1 * be + q2 * al) * (sin d * (q1 * al + q2 * be))) with (sin d * ((q1 * be + q2 * al) * (q1 * al + q2 * be))) by ring.
        apply Rmult_le_compat_l; lra.
      * rewrite Rmult_assoc. apply Rmult_le_compat_l; [nra|exact V].
Qed.

(** The passes of the spiral around an angle. *)
Lemma spiral_at bound w : 0 < w -> forall l theta psi, 0 <= theta -> spiral_from bound w theta l -> theta <= psi -> radius w psi <= bound ->
  exists u x y v, l = u ++ x :: y :: v /\ theta <= snd x /\ snd x <= psi <= snd y /\ snd y = snd x + 50 / fst x /\
    fst x = radius w (snd x) /\ fst y = radius w (snd y).
Proof.
  intros W. induction l as [|[r t] l IH]; intros theta psi T S L B; [contradiction|]. cbn [spiral_from] in S. destruct S as (-> & Er & S).
  destruct l as [|[r' t'] l].
  - exfalso. pose proof (radius_le w theta psi W L). lra.
  - destruct S as [Lb S]. pose proof (radius_pos w theta W T) as P.
    assert (D : 0 < 50 / r) by (apply Rdiv_lt_0_compat; lra).
    destruct (Rle_dec psi (theta + 50 / r)) as [Lp|Lp].
    + exists [], (r, theta), (r', t'), l. cbn [spiral_from] in S. destruct S as (-> & Er' & _). cbn [fst snd]. repeat split; try reflexivity; try assumption; lra.
    + destruct (IH (theta + 50 / r) psi ltac:(lra) S ltac:(lra) B) as (u & x & y & v & E & H1 & H2 & H3 & H4 & H5).
      exists ((r, theta) :: u), x, y, v. rewrite E. repeat split; try reflexivity; try tauto; lra.
Qed.

Lemma chord_point c q1 q2 t1 t2 psi t q : let al := psi - t1 in let be := t2 - psi in
  (1 - t) * q1 * cos al + t * q2 * cos be = q -> t * q2 * sin be = (1 - t) * q1 * sin al ->
  mix (polar_place c q1 t1) (polar_place c q2 t2) t = polar_place c q psi.
Proof.
  intros al be E1 E2. unfold mix, polar_place. cbn [fst snd]. replace t1 with (psi - al) by (unfold al; ring). replace t2 with (psi + be) by (unfold be; ring).
  rewrite sin_minus, cos_minus, sin_plus, cos_plus, <- E1. f_equal.
  - transitivity (fst c + ((1 - t) * q1 * cos al + t * q2 * cos be) * sin psi + cos psi * (t * q2 * sin be - (1 - t) * q1 * sin al)); [ring|]. rewrite E2. ring.
  - transitivity (snd c + ((1 - t) * q1 * cos al + t * q2 * cos be) * cos psi - sin psi * (t * q2 * sin be - (1 - t) * q1 * sin al)); [ring|]. rewrite E2. ring.
Qed.

Lemma ray_dist c r q psi : dist (polar_place c r psi) (polar_place c q psi) = Rabs (r - q).
Proof.
  unfold dist, polar_place. cbn [fst snd]. pose proof (sin2_cos2 psi) as S. unfold Rsqr in S.
  replace (_ + _) with ((r - q) * (r - q) * (sin psi * sin psi + cos psi * cos psi)) by ring. rewrite S, Rmult_1_r. apply sqrt_Rsqr_abs.
Qed.

(** ** Segments *)
Section Segments.
  Context (e : earth) (p : spiral).
  Definition W (n : Z) (l : list (R * R)) : list (Z * point) := numbered n (map (way_point e p) l).
  Definition Q (n : Z) (l : list (R * R)) : list (Z * point) := numbered (n - 1) (map (road_point p) l).

  Lemma seg_false : forall l n ways roads, ways <> [] -> roads <> [] ->
    segments e p false n ways roads l = [(ways ++ W n l, roads ++ Q n l)].
  Proof.
    induction l as [|x l IH]; intros n ways roads A B; cbn [segments andb].
    - destruct ways; [congruence|]. destruct roads; [congruence|]. unfold W, Q. cbn. rewrite !app_nil_r. reflexivity.
    - rewrite IH by (intros Z; apply app_eq_nil in Z; destruct Z; discriminate). unfold W, Q. cbn [map numbered]. rewrite <- !app_assoc. cbn [app].
      replace (n + 1 - 1)%Z with (n - 1 + 1)%Z by lia. reflexivity.
  Qed.

  Lemma seg_true : forall l n ways roads, (ways = [] <-> roads = []) -> (l <> [] \/ ways <> []) ->
    (Forall (fun x => fst x < inner p) l /\ segments e p true n ways roads l = [(ways ++ W n l, roads ++ Q n l)]) \/
    (exists u x v, l = u ++ x :: v /\ Forall (fun x => fst x < inner p) u /\ inner p <= fst x /\
       segments e p true n ways roads l =
         [(ways ++ W n (u ++ [x]), roads ++ Q n (u ++ [x])); (W (n + Z.of_nat (length u)) (x :: v), Q (n + Z.of_nat (length u)) (x :: v))]).
  Proof.
    induction l as [|x l IH]; intros n ways roads Eq Ne.
    - left. split; [constructor|]. cbn [segments]. destruct Ne as [Ne|Ne]; [congruence|].
      destruct ways; [congruence|]. destruct roads; [destruct Eq as [_ Eq]; discriminate (Eq eq_refl)|]. unfold W, Q. cbn. rewrite !app_nil_r. reflexivity.
    - cbn [segments]. destruct (Rlt_dec (fst x) (inner p)) as [L|L]; cbn [andb].
      + destruct (IH (n + 1)%Z (ways ++ [(n, way_point e p x)]) (roads ++ [((n - 1)%Z, road_point p x)])) as [[A B]|(u & y & v & E & A & B & C)].
        * split; intros Z; apply app_eq_nil in Z; destruct Z; discriminate.
        * right. intros Z. apply app_eq_nil in Z. destruct Z. discriminate.
        * left. split; [constructor; assumption|]. rewrite B. unfold W, Q. cbn [map numbered]. rewrite <- !app_assoc. cbn [app].
          replace (n + 1 - 1)%Z with (n - 1 + 1)%Z by lia. reflexivity.
        * right. exists (x :: u), y, v. split; [rewrite E; reflexivity|]. split; [constructor; assumption|]. split; [exact B|]. rewrite C.
          unfold W, Q. cbn [map numbered app length]. rewrite <- !app_assoc. cbn [app].
          replace (n + 1 - 1)%Z with (n - 1 + 1)%Z by lia. replace (n + 1 + Z.of_nat (length u))%Z with (n + Z.of_nat (S (length u)))%Z by lia. reflexivity.
      + right. exists [], x, l. split; [reflexivity|]. split; [constructor|]. split; [lra|]. rewrite seg_false by discriminate. cbn [app length Z.of_nat].
        rewrite Z.add_0_r. unfold W, Q. cbn [map numbered app]. replace (n + 1 - 1)%Z with (n - 1 + 1)%Z by lia. reflexivity.
  Qed.
End Segments.

Lemma distance_len p : forall l q, distance p q l = len (q :: map (vehicle p) l).
Proof.
  induction l as [|x l IH]; intros q; [reflexivity|]. cbn [distance map]. rewrite IH, len_cons. f_equal. unfold dist. f_equal. ring.
Qed.

Lemma end_heading_last p : forall u x q d, end_heading p q d (u ++ [x]) =
  let b := vehicle p x in let a := List.last (map (vehicle p) u) q in atan2 (snd b - snd a) (fst b - fst a) * rad_to_deg.
Proof.
  induction u as [|y u IH]; intros x q d; [reflexivity|]. cbn [app end_heading map]. rewrite IH. cbn zeta.
  replace (List.last (vehicle p y :: map (vehicle p) u) q) with (List.last (map (vehicle p) u) (vehicle p y)); [reflexivity|].
  generalize (vehicle p y). clear. induction (map (vehicle p) u) as [|z l IH]; intros w; [reflexivity|]. cbn [List.last] in *. destruct l; [reflexivity|].
  transitivity (List.last (p0 :: l) w); [reflexivity|]. rewrite IH. reflexivity.
Qed.

Lemma numbered_nth {A} (l : list A) : forall n k, nth_error (numbered n l) k = option_map (fun x => ((n + Z.of_nat k)%Z, x)) (nth_error l k).
Proof.
  induction l as [|x l IH]; intros n [|k]; cbn [numbered nth_error option_map]; try reflexivity; [f_equal; f_equal; lia|].
  rewrite IH. destruct (nth_error l k); cbn; [|reflexivity]. f_equal. f_equal. lia.
Qed.

Lemma numbered_length {A} (l : list A) : forall n, length (numbered n l) = length l.
Proof. induction l; intros; cbn; [reflexivity|f_equal; auto]. Qed.

Lemma numbered_map {A B} (f : A -> B) (l : list A) : forall n, numbered n (map f l) = map (fun x => (fst x, f (snd x))) (numbered n l).
Proof. induction l; intros; cbn; [reflexivity|f_equal; auto]. Qed.

Lemma numbered_cut {A} (u s v : list A) : forall n, firstn (length s) (skipn (length u) (numbered n (u ++ s ++ v))) = numbered (n + Z.of_nat (length u)) s.
Proof.
  induction u as [|x u IH]; intros n.
  - cbn [length app skipn Z.of_nat]. rewrite Z.add_0_r. revert n. induction s as [|y s IHs]; intros n; [reflexivity|]. cbn. f_equal. apply IHs.
  - cbn [length app numbered skipn]. rewrite IH. f_equal. lia.
Qed.

Lemma shape_unique_from b w : forall l l' t, spiral_from b w t l -> spiral_from b w t l' -> l = l'.
Proof.
  induction l as [|[r a] l IH]; intros l' t S S'; [contradiction|]. destruct l' as [|[r' a'] l']; [contradiction|].
  cbn [spiral_from] in S, S'. destruct S as (-> & -> & S). destruct S' as (-> & -> & S').
  f_equal. destruct l as [|x l], l' as [|y l']; try reflexivity.
  - destruct S'. lra.
  - destruct S. lra.
  - apply (IH (y :: l') _ (proj2 S) (proj2 S')).
Qed.

Lemma shape_unique b w l l' : spiral_shape b w l -> spiral_shape b w l' -> l = l'.
Proof.
  intros (k & -> & H) (k' & -> & H'). f_equal. destruct H as [[A ->]|[A B]], H' as [[A' ->]|[A' B']]; try reflexivity; try lra.
  eapply shape_unique_from; eassumption.
Qed.

(** Lemmas on the model of the sector pattern. *)
From Coq Require Import Reals List ZArith Lra Lia.
From Verif Require Import PiBounds FlatEarthModel SteeringCourseModel SteeringCourseProps SectorModel SectorSpec.
Import ListNotations.
Open Scope R_scope.

Lemma dPi_PI : 0 < dPi - PI < / 10 ^ 11.
Proof. pose proof PI_bounds. unfold dPi. lra. Qed.

Fixpoint flip (n : nat) (up : bool) : bool := match n with O => up | S k => flip k (negb up) end.

Lemma turn_shape p step last fuel : forall theta up l, turn fuel p step last theta up = Some l ->
  (forall k, (k < length l)%nat -> nth_error l k = Some (one p (theta + INR k * step) (flip k up)) /\ theta + INR k * step < last) /\
  last <= theta + INR (length l) * step.
Proof.
  induction fuel as [|f IH]; intros theta up l E; [discriminate|]. cbn [turn] in E.
  destruct (Rlt_dec theta last) as [L|L].
  - destruct (turn f p step last (theta + step) (negb up)) as [r|] eqn:Er; [|discriminate]. injection E as <-.
    destruct (IH _ _ _ Er) as [A B]. split.
    + intros [|k] Hk; cbn [length nth_error] in *.
      * cbn [INR flip]. rewrite Rmult_0_l, Rplus_0_r. auto.
      * destruct (A k) as [A1 A2]; [lia|]. rewrite S_INR. cbn [flip].
        replace (theta + (INR k + 1) * step) with (theta + step + INR k * step) by ring. auto.
    + cbn [length]. rewrite S_INR. lra.
  - injection E as <-. cbn. split; [intros k Hk; lia|lra].
Qed.

Lemma turn_ends p step last : 0 < step -> forall n theta up, last <= theta + INR n * step ->
  exists l, turn (S n) p step last theta up = Some l.
Proof.
  intros P. induction n as [|n IH]; intros theta up L.
  - cbn [INR] in L. exists []. cbn [turn]. destruct (Rlt_dec theta last); [lra|reflexivity].
  - rewrite S_INR in L. remember (S n) as m eqn:Em. cbn [turn]. destruct (Rlt_dec theta last); [|eauto].
    destruct (IH (theta + step) (negb up)) as [l El]; [lra|]. rewrite El. cbn. eauto.
Qed.

Lemma turn_on p step last : step <= 0 -> forall f theta up, theta < last -> turn f p step last theta up = None.
Proof.
  intros P. induction f as [|f IH]; intros theta up L; [reflexivity|]. cbn [turn].
  destruct (Rlt_dec theta last); [|lra]. rewrite IH; [reflexivity|lra].
Qed.

Lemma legs_shape p f l : 0 < extent p -> legs f p = Some l ->
  let s := lane p / extent p in
  (forall k, (k < length l)%nat -> nth_error l k = Some (one p (INR k * s) (flip k true)) /\ INR k * s < dPi - s / 2) /\
  dPi - s / 2 <= INR (length l) * s.
Proof.
  intros P E s. unfold legs in E. destruct (Req_EM_T (extent p) 0); [lra|].
  destruct (turn_shape _ _ _ _ _ _ _ E) as [A B]. fold s in A, B. rewrite Rplus_0_l in B. split; [|exact B].
  intros k Hk. specialize (A k Hk). rewrite Rplus_0_l in A. exact A.
Qed.

(** ** Legs, in the direction of an angle *)
Definition unit_ (up : bool) (theta : R) : R * R := if up then (sin theta, cos theta) else (- sin theta, - cos theta).

Lemma one_ends p theta up :
  start (one p theta up) = (fst (centre p) - (extent p + leading p) * fst (unit_ up theta), snd (centre p) - (extent p + leading p) * snd (unit_ up theta)) /\
  stop (one p theta up) = (fst (centre p) + (extent p - trailing p) * fst (unit_ up theta), snd (centre p) + (extent p - trailing p) * snd (unit_ up theta)).
Proof. unfold one, unit_. destruct up; cbn; split; f_equal; ring. Qed.

Lemma one_heading p theta up : heading (one p theta up) = course (start (one p theta up)) (stop (one p theta up)).
Proof. unfold one. destruct up; reflexivity. Qed.

Lemma unit_len up theta : fst (unit_ up theta) * fst (unit_ up theta) + snd (unit_ up theta) * snd (unit_ up theta) = 1.
Proof. pose proof (sin2_cos2 theta) as S. unfold Rsqr in S. destruct up; cbn; lra. Qed.

Lemma way_len c un ue r1 r2 : un * un + ue * ue = 1 -> 0 <= r1 + r2 ->
  let a := (fst c - r1 * un, snd c - r1 * ue) in let b := (fst c + r2 * un, snd c + r2 * ue) in
  sqrt ((fst b - fst a) * (fst b - fst a) + (snd b - snd a) * (snd b - snd a)) = r1 + r2.
Proof.
  intros U P a b. unfold a, b. cbn.
  replace (_ + _) with ((r1 + r2) * (r1 + r2) * (un * un + ue * ue)) by ring. rewrite U, Rmult_1_r. apply sqrt_square, P.
Qed.

(** A place [x] along and [y] aside of the direction of a leg is passed at each distance between trailing and leading. *)
Lemma passes_line (c : R * R) (un ue r1 r2 d x y : R) : un * un + ue * ue = 1 -> 0 < r1 + r2 -> - r1 <= x - d <= r2 ->
  passes (fst c - r1 * un, snd c - r1 * ue) (fst c + r2 * un, snd c + r2 * ue) (fst c + x * un + y * ue, snd c + x * ue - y * un) d (Rabs y).
Proof.
  intros U P B. unfold passes. set (a := (fst c - r1 * un, snd c - r1 * ue)). set (b := (fst c + r2 * un, snd c + r2 * ue)).
  assert (Ln : sqrt ((fst b - fst a) * (fst b - fst a) + (snd b - snd a) * (snd b - snd a)) = r1 + r2)
    by (exact (way_len c un ue r1 r2 U (Rlt_le _ _ P))).
  split.
  - intros Eab. rewrite <- Eab in Ln. replace (_ + _) with 0 in Ln by ring. rewrite sqrt_0 in Ln. lra.
  - cbn zeta. rewrite Ln. exists ((x - d + r1) / (r1 + r2)). split; [|split].
    + split; [apply Rmult_le_pos; [lra|left; apply Rinv_0_lt_compat, P]|].
      apply (Rmult_le_reg_r (r1 + r2)); [exact P|]. unfold Rdiv. rewrite Rmult_assoc, Rinv_l; lra.
    + unfold on_way, a, b. cbn [fst snd].
      transitivity (d * (un * un + ue * ue)); [field; lra|]. rewrite U. ring.
    + unfold on_way, a, b. cbn [fst snd].
      match goal with |- Rabs ?z / _ = _ => replace z with (y * (r1 + r2) * (un * un + ue * ue)) by (field; lra) end.
      rewrite U, Rmult_1_r, Rabs_mult, (Rabs_right (r1 + r2)) by lra. field. lra.
Qed.

Lemma passes_aside a b p d w : passes a b p d w ->
  let n := fst b - fst a in let e := snd b - snd a in
  w = Rabs ((fst p - fst a) * e - (snd p - snd a) * n) / sqrt (n * n + e * e).
Proof.
  intros [_ (t & _ & _ & E)]. cbn zeta. rewrite <- E. f_equal. f_equal. unfold on_way. cbn. ring.
Qed.

(** ** Angles *)
Lemma sin_le_abs x : Rabs (sin x) <= Rabs x.
Proof.
  assert (P : forall x, 0 <= x -> Rabs (sin x) <= x).
  { intros z Hz. destruct (Req_dec z 0) as [->|N]; [rewrite sin_0, Rabs_R0; lra|]. pose proof (sin_lt_x z ltac:(lra)).
    destruct (Rle_dec z 1).
    - pose proof (sin_ge_0 z ltac:(lra) ltac:(pose proof PI_bounds; lra)). rewrite Rabs_right; lra.
    - pose proof (SIN_bound z). apply Rabs_le. lra. }
  destruct (Rle_dec 0 x) as [H|H].
  - rewrite (Rabs_right x) by lra. apply P, H.
  - rewrite <- (Rabs_Ropp x), <- (Rabs_Ropp (sin x)), <- sin_neg, (Rabs_right (- x)) by lra. apply P. lra.
Qed.

(** A point, in polar form with an angle from 0 to half a turn and a signed distance. *)
Lemma polar n e : exists rho phi, 0 <= phi < PI /\ rho * rho = n * n + e * e /\ n = rho * sin phi /\ e = rho * cos phi.
Proof.
  destruct (atan2_xy n e) as [X Y]. set (r := sqrt (e * e + n * n)) in *. set (a := atan2 n e) in *.
  assert (R2 : r * r = n * n + e * e) by (unfold r; rewrite sqrt_sqrt; [ring|nra]).
  assert (G : exists k : Z, 0 <= a - IZR k * PI < PI).
  { exists (Int_part (a / PI)). pose proof PI_RGT_0 as P. destruct (base_Int_part (a / PI)) as [I J].
    assert (Q : a = a / PI * PI) by (field; lra). set (k := Int_part (a / PI)) in *. set (z := a / PI) in *. rewrite Q.
    replace (z * PI - IZR k * PI) with ((z - IZR k) * PI) by ring. split; [apply Rmult_le_pos; lra|].
    rewrite <- (Rmult_1_l PI) at 2. apply Rmult_lt_compat_r; lra. }
  destruct G as [k G]. set (phi := a - IZR k * PI) in *.
  assert (S : exists s, s * s = 1 /\ sin a = s * sin phi /\ cos a = s * cos phi).
  { destruct (Z.Even_or_Odd k) as [[m Em]|[m Em]].
    - exists 1. replace a with (phi + 2 * IZR m * PI); [destruct (turn_Z phi m) as [-> ->]; repeat split; ring|].
      unfold phi. rewrite Em, mult_IZR. ring.
    - exists (-1). replace a with (phi + PI + 2 * IZR m * PI).
      + destruct (turn_Z (phi + PI) m) as [-> ->]. rewrite neg_sin, neg_cos. repeat split; ring.
      + unfold phi. rewrite Em, plus_IZR, mult_IZR. ring. }
  destruct S as (s & S1 & S2 & S3). exists (r * s), phi. split; [exact G|]. split; [rewrite <- R2; replace (r * s * (r * s)) with (r * r * (s * s)) by ring; rewrite S1; ring|].
  split; [rewrite Y at 1; rewrite S2; ring|rewrite X at 1; rewrite S3; ring].
Qed.

(** The nearest of the angles 0, s, ..., (N-1) s, or half a turn, which stands for the first. *)
Lemma nearest s N phi : 0 < s -> (0 < N)%nat -> PI <= INR N * s + s / 2 -> 0 <= phi < PI ->
  exists k, (k < N)%nat /\ (Rabs (phi - INR k * s) <= 3 / 4 * s \/ (k = 0%nat /\ Rabs (phi - PI) <= 3 / 4 * s)).
Proof.
  intros Ps HN P [B1 B2].
  destruct (Rle_dec (phi) (INR (N - 1) * s)) as [L|L].
  - assert (G : forall m, phi <= INR m * s -> exists k, (k <= m)%nat /\ Rabs (phi - INR k * s) <= s / 2).
    { induction m as [|m IH]; intros Lm.
      - cbn [INR] in Lm. exists 0%nat. split; [lia|]. cbn [INR]. apply Rabs_le. lra.
      - rewrite S_INR in Lm. destruct (Rle_dec phi (INR m * s + s / 2)) as [A|A].
        + destruct (Rle_dec phi (INR m * s)) as [C|C].
          * destruct (IH C) as (k & Hk & Hk'). exists k. split; [lia|exact Hk'].
          * exists m. split; [lia|]. apply Rabs_le. lra.
        + exists (S m). split; [lia|]. rewrite S_INR. apply Rabs_le. lra. }
    destruct (G _ L) as (k & Hk & A). exists k. split; [lia|]. left. lra.
  - assert (Q : INR N = INR (N - 1) + 1) by (rewrite <- S_INR; f_equal; lia). rewrite Q in P.
    destruct (Rle_dec (phi - INR (N - 1) * s) (PI - phi)) as [A|A].
    + exists (N - 1)%nat. split; [lia|]. left. apply Rabs_le. lra.
    + exists 0%nat. split; [exact HN|]. right. split; [reflexivity|]. apply Rabs_le. lra.
Qed.

(** ** Headings *)
Lemma wrap_turns x full : 0 < full -> exists k : Z, wrap x full = x + full * IZR k.
Proof.
  intros P. unfold wrap, fmod. cbn zeta. set (q := cut (x / full)).
  destruct (Rlt_dec _ _); [exists (- q + 1)%Z|destruct (Rle_dec _ _); [exists (- q - 1)%Z|exists (- q)%Z]];
    rewrite ?plus_IZR, ?minus_IZR, ?opp_IZR; ring.
Qed.

Lemma wrap_range x full : / 10 ^ 9 < full -> - / 10 ^ 9 <= wrap x full < full.
Proof.
  intros P. assert (T : 0 < / 10 ^ 9) by lra. unfold wrap. cbn zeta.
  assert (F : - full < fmod x full < full).
  { unfold fmod. destruct (cut_range (x / full)) as [[A B] _]. set (k := IZR (cut (x / full))) in *.
    assert (Q : x = x / full * full) by (field; lra). set (z := x / full) in *. clearbody k z. subst x.
    replace (z * full - full * k) with ((z - k) * full) by ring. split; nra. }
  destruct (Rlt_dec _ _); [lra|]. destruct (Rle_dec _ _); lra.
Qed.

Lemma atan2_range y x : - PI < atan2 y x <= PI \/ atan2 y x = - PI.
Proof.
  unfold atan2. pose proof PI_RGT_0. destruct (atan_bound (y / x)).
  destruct (Rlt_dec 0 x); [lra|]. destruct (Rlt_dec x 0).
  - destruct (Rle_dec 0 y).
    + assert (y / x <= 0) by (unfold Rdiv; pose proof (Rinv_lt_0_compat x ltac:(assumption)); nra).
      assert (atan (y / x) <= 0). { rewrite <- atan_0. destruct H2 as [H2|H2]; [left; apply atan_increasing, H2|rewrite H2; lra]. } lra.
    + assert (Q : 0 < y / x) by (unfold Rdiv; pose proof (Rinv_lt_0_compat x ltac:(assumption)); nra).
      apply atan_increasing in Q. rewrite atan_0 in Q. lra.
  - destruct (Rlt_dec 0 y); [lra|]. destruct (Rlt_dec y 0); lra.
Qed.

Lemma seen_turn a b : let al := atan2 (fst a - fst b) (snd a - snd b) in
  (0 <= al <= PI /\ seen a b = al) \/ (- PI <= al < 0 /\ seen a b = al + 2 * dPi).
Proof.
  intros al. assert (R0 : - PI <= al <= PI) by (pose proof PI_RGT_0; destruct (atan2_range (fst a - fst b) (snd a - snd b)); unfold al; lra).
  pose proof dPi_PI as D. pose proof PI_bounds as PB.
  assert (F : fmod al (2 * dPi) = al).
  { assert (C : cut (al / (2 * dPi)) = 0%Z).
    { unfold cut. assert (-1 < al / (2 * dPi) < 1).
      { split; apply (Rmult_lt_reg_r (2 * dPi)); try lra; unfold Rdiv; rewrite Rmult_assoc, Rinv_l; lra. }
      assert (I : forall z, 0 <= z < 1 -> Int_part z = 0%Z).
      { intros z Hz. destruct (base_Int_part z) as [I J]. assert (IZR (Int_part z) < 1) by lra. assert (-1 < IZR (Int_part z)) by lra.
        assert (-1 < Int_part z)%Z by (apply lt_IZR; assumption). assert (Int_part z < 1)%Z by (apply lt_IZR; assumption). lia. }
      destruct (Rle_dec 0 _); [apply I; lra|]. rewrite I by lra. reflexivity. }
    unfold fmod. rewrite C. ring. }
  unfold seen. fold al. unfold wrap. rewrite F. cbn zeta.
  destruct (Rlt_dec al 0); [right; split; [lra|reflexivity]|]. left. split; [lra|].
  destruct (Rle_dec _ _); [|reflexivity]. exfalso. lra.
Qed.

Lemma course_compass a b : 0 < sqrt ((fst b - fst a) * (fst b - fst a) + (snd b - snd a) * (snd b - snd a)) ->
  exists c, compass a b c /\ Rabs (course a b * (PI / 180) - c) <= / 10 ^ 10.
Proof.
  intros Ln. set (al := atan2 (fst a - fst b) (snd a - snd b)). destruct (atan2_xy (fst a - fst b) (snd a - snd b)) as [X Y]. fold al in X, Y.
  set (len := sqrt ((fst b - fst a) * (fst b - fst a) + (snd b - snd a) * (snd b - snd a))) in *.
  assert (El : sqrt ((snd a - snd b) * (snd a - snd b) + (fst a - fst b) * (fst a - fst b)) = len) by (unfold len; f_equal; ring).
  rewrite El in X, Y. pose proof dPi_PI as D. pose proof PI_bounds as PB.
  assert (Cp : forall z, cos z = - sin al -> sin z = - cos al -> compass a b z).
  { intros z Cz Sz. unfold compass. fold len. rewrite Cz, Sz. split; [exact Ln|]. split; [replace (fst b - fst a) with (- (fst a - fst b)) by ring; rewrite Y|replace (snd b - snd a) with (- (snd a - snd b)) by ring; rewrite X]; ring. }
  assert (T : cos (3 * (PI / 2) - al) = - sin al /\ sin (3 * (PI / 2) - al) = - cos al).
  { rewrite cos_minus, sin_minus, cos_3PI2, sin_3PI2. split; ring. }
  destruct T as [T1 T2].
  assert (K : Rabs (rad_to_deg * (PI / 180) - 1) <= 4 / 10 ^ 12) by (apply Rabs_le; unfold rad_to_deg; lra).
  destruct (wrap_turns ((dPi + dPi / 2 - seen a b) * rad_to_deg) 360 ltac:(lra)) as [m Em]. unfold course. rewrite Em.
  set (kap := rad_to_deg * (PI / 180)) in *. 
  assert (K2 : - (4 / 10 ^ 12) <= kap - 1 <= 4 / 10 ^ 12) by (revert K; unfold Rabs; destruct (Rcase_abs _); lra).
  destruct (seen_turn a b) as [[R0 Es]|[R0 Es]]; fold al in R0, Es; rewrite Es.
  - exists (3 * (PI / 2) - al + 2 * IZR m * PI). split.
    + apply Cp; [rewrite <- T1|rewrite <- T2]; apply turn_Z.
    + replace (_ - _) with ((dPi + dPi / 2 - al) * kap - (3 * (PI / 2) - al)) by (unfold kap; field).
      apply Rabs_le. set (A := dPi + dPi / 2 - al). replace (3 * (PI / 2) - al) with (A - 3 / 2 * (dPi - PI)) by (unfold A; field).
      assert (HA : 0 <= A <= 5) by (unfold A; lra). assert (- (2 / 10 ^ 11) <= A * (kap - 1) <= 2 / 10 ^ 11) by nra. lra.
  - exists (3 * (PI / 2) - al + 2 * IZR (m - 1) * PI). split.
    + apply Cp; [rewrite <- T1|rewrite <- T2]; apply turn_Z.
    + rewrite minus_IZR. replace (_ - _) with ((dPi + dPi / 2 - al - 2 * dPi) * kap - (3 * (PI / 2) - al - 2 * PI)) by (unfold kap; field).
      apply Rabs_le. set (A := dPi + dPi / 2 - al - 2 * dPi). replace (3 * (PI / 2) - al - 2 * PI) with (A + / 2 * (dPi - PI)) by (unfold A; field).
      assert (HA : -2 <= A <= 2) by (unfold A; lra). assert (- (2 / 10 ^ 11) <= A * (kap - 1) <= 2 / 10 ^ 11) by nra. lra.
Qed.

(** ** Requests *)
Fixpoint chain (q : R * R) (h : R) (id : Z) (rs : list request) : Prop :=
  match rs with [] => True | r :: k => route r = id /\ from r = q /\ from_heading r = h /\ chain (to r) (to_heading r) (id + 1) k end.

Lemma requests_chain e : forall l q h id, chain q h id (requests e (Some (q, h)) id l).
Proof. induction l as [|g l IH]; intros; cbn; [trivial|]. repeat split. apply IH. Qed.

Lemma chain_nth : forall rs q h id, chain q h id rs -> forall i r, nth_error rs i = Some r ->
  route r = (id + Z.of_nat i)%Z /\ forall r', nth_error rs (S i) = Some r' -> from r' = to r /\ from_heading r' = to_heading r.
Proof.
  induction rs as [|x rs IH]; intros q h id C i r E; [destruct i; discriminate|]. cbn in C. destruct C as (C1 & C2 & C3 & C4).
  destruct i as [|i]; cbn in E.
  - injection E as <-. split; [lia|]. intros r' E'. destruct rs as [|y rs]; [discriminate|]. cbn in E', C4. injection E' as <-. tauto.
  - destruct (IH _ _ _ C4 i r E) as [A B]. split; [lia|]. intros r' E'. apply B. exact E'.
Qed.

Lemma requests_some e : forall l qh id, length (requests e (Some qh) id l) = (2 * length l)%nat /\
  forall k g, nth_error l k = Some g -> exists r, nth_error (requests e (Some qh) id l) (2 * k + 1) = Some r /\
    from r = m_ll_deg (fst (start g)) (snd (start g)) e /\ to r = m_ll_deg (fst (stop g)) (snd (stop g)) e /\ from_heading r = heading g /\ to_heading r = heading g.
Proof.
  induction l as [|g l IH]; intros [q h] id; [split; [reflexivity|intros [|k] ? E; discriminate]|]. cbn [requests].
  destruct (IH (m_ll_deg (fst (stop g)) (snd (stop g)) e, heading g) (id + 1 + 1)%Z) as [A B]. split; [cbn [length]; rewrite A; lia|].
  intros [|k] g' E; cbn [nth_error] in E.
  - injection E as <-. eexists. split; [reflexivity|]. cbn. tauto.
  - replace (2 * S k + 1)%nat with (S (S (2 * k + 1))) by lia. cbn [nth_error]. apply B, E.
Qed.

Lemma requests_none e : forall l id, length (requests e None id l) = (2 * length l - 1)%nat /\
  (forall k g, nth_error l k = Some g -> exists r, nth_error (requests e None id l) (2 * k) = Some r /\
    from r = m_ll_deg (fst (start g)) (snd (start g)) e /\ to r = m_ll_deg (fst (stop g)) (snd (stop g)) e /\ from_heading r = heading g /\ to_heading r = heading g) /\
  exists q h, chain q h id (requests e None id l).
Proof.
  intros [|g l] id; [split; [reflexivity|split; [intros [|k] ? E; discriminate|exists (0, 0), 0; exact I]]|].
  cbn [requests]. destruct (requests_some e l (m_ll_deg (fst (stop g)) (snd (stop g)) e, heading g) (id + 1)) as [A B].
  split; [cbn [length]; rewrite A; lia|]. split.
  - intros [|k] g' E; cbn [nth_error] in E.
    + injection E as <-. eexists. split; [reflexivity|]. cbn. tauto.
    + replace (2 * S k)%nat with (S (2 * k + 1)) by lia. cbn [nth_error]. apply B, E.
  - eexists _, _. cbn. repeat split. apply requests_chain.
Qed.

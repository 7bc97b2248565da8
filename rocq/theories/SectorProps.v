(** Theorems about the sector pattern. *)
From Coq Require Import Reals List ZArith Lra Lia.
From Verif Require Import PiBounds FlatEarthModel SectorModel SectorSpec SectorProofs.
Import ListNotations.
Open Scope R_scope.

Lemma half_turn_dPi : half_turn = dPi.
Proof. unfold half_turn, dPi. lra. Qed.

Lemma flip_even : forall k, flip k true = Nat.even k /\ flip k false = negb (Nat.even k).
Proof.
  induction k as [|k [A B]]; [split; reflexivity|]. cbn [flip negb]. rewrite Nat.even_succ, <- Nat.negb_even, A, B. split; [reflexivity|].
  rewrite Bool.negb_involutive. reflexivity.
Qed.

Lemma unit_compass (up : bool) (theta : R) : let d := PI / 2 - theta + (if up then 0 else PI) in unit_ up theta = (cos d, sin d).
Proof.
  cbn zeta. destruct up; cbn [unit_].
  - rewrite Rplus_0_r, cos_shift, sin_shift. reflexivity.
  - rewrite neg_cos, neg_sin, cos_shift, sin_shift. reflexivity.
Qed.

(** For a positive extent and lane the pattern is finite. *)
Theorem C87_ends : forall e lat lon ext spacing lead trail, 0 < ext -> 0 < spacing ->
  exists fuel rs, plan fuel e lat lon ext spacing lead trail = Some rs.
Proof.
  intros e lat lon ext sp lead trail P Q. unfold plan. destruct (deg_ne_m lat lon e) as [e' c]. unfold legs. cbn [extent lane].
  destruct (Req_EM_T ext 0); [lra|]. set (s := sp / ext). assert (S : 0 < s) by (apply Rdiv_lt_0_compat; assumption).
  set (p := {| centre := c; extent := ext; lane := sp; leading := lead; trailing := trail |}).
  destruct (turn_ends p s (dPi - s / 2) S (Z.to_nat (up (dPi / s))) 0 true) as [l E].
  - destruct (archimed (dPi / s)) as [A _]. pose proof dPi_PI. pose proof PI_bounds.
    assert (0 < dPi / s) by (apply Rdiv_lt_0_compat; lra).
    assert (U : (0 <= up (dPi / s))%Z) by (apply le_IZR; lra).
    rewrite INR_IZR_INZ, Z2Nat.id by exact U. assert (dPi < IZR (up (dPi / s)) * s); [|lra].
    apply (Rmult_lt_compat_r s) in A; [|exact S]. unfold Rdiv in A at 1. rewrite Rmult_assoc, Rinv_l in A by lra. lra.
  - eexists _, _. fold s. fold p. rewrite E. reflexivity.
Qed.
Print Assumptions C87_ends.

(** The odd requests are straight legs: the directions are one lane apart at the extent and alternate, each leg begins where the
    leading edge of the footprint is at the extent and ends where the trailing edge is, and its heading is its course. *)
Theorem C87_legs : forall fuel e lat lon ext spacing lead trail rs e' c,
  deg_ne_m lat lon e = (e', c) -> 0 < ext -> 0 < spacing -> 0 < 2 * ext + lead - trail ->
  plan fuel e lat lon ext spacing lead trail = Some rs ->
  let s := spacing / ext in
  exists n, length rs = (2 * n - 1)%nat /\ half_turn - s / 2 <= INR n * s /\
    forall k, (k < n)%nat -> INR k * s < half_turn - s / 2 /\ exists r a b w, nth_error rs (2 * k) = Some r /\
      from r = m_ll_deg (fst a) (snd a) e' /\ to r = m_ll_deg (fst b) (snd b) e' /\
      (let d := PI / 2 - INR k * s + (if Nat.even k then 0 else PI) in
       a = (fst c - (ext + lead) * cos d, snd c - (ext + lead) * sin d) /\
       b = (fst c + (ext - trail) * cos d, snd c + (ext - trail) * sin d)) /\
      from_heading r = to_heading r /\ - / 10 ^ 9 <= to_heading r < 360 /\
      compass a b w /\ Rabs (to_heading r * (PI / 180) - w) <= / 10 ^ 10.
Proof.
  intros fuel e lat lon ext sp lead trail rs e' c Ec P Q W E s. unfold plan in E. rewrite Ec in E.
  set (p := {| centre := c; extent := ext; lane := sp; leading := lead; trailing := trail |}) in *.
  destruct (legs fuel p) as [l|] eqn:El; [|discriminate]. injection E as <-.
  destruct (legs_shape p fuel l P El) as [A B]. cbn [lane extent] in A, B. change (lane p / extent p) with s in A, B.
  destruct (requests_none e' l 2) as (R1 & R2 & _). exists (length l). split; [exact R1|]. rewrite half_turn_dPi. split; [exact B|].
  intros k Hk. destruct (A k Hk) as [A1 A2]. split; [exact A2|]. destruct (R2 _ _ A1) as (r & E1 & E2 & E3 & E4 & E5).
  destruct (flip_even k) as [Fk _]. rewrite Fk in *. set (g := one p (INR k * s) (Nat.even k)) in *.
  destruct (one_ends p (INR k * s) (Nat.even k)) as [S1 S2]. fold g in S1, S2. cbn [centre extent leading trailing p] in S1, S2.
  assert (Lg : 0 < sqrt ((fst (stop g) - fst (start g)) * (fst (stop g) - fst (start g)) + (snd (stop g) - snd (start g)) * (snd (stop g) - snd (start g)))).
  { rewrite S1, S2. pose proof (unit_len (Nat.even k) (INR k * s)) as U. set (u := unit_ (Nat.even k) (INR k * s)) in *.
    rewrite (way_len c (fst u) (snd u) (ext + lead) (ext - trail) U); lra. }
  destruct (course_compass (start g) (stop g) Lg) as (w & W1 & W2).
  pose proof (one_heading p (INR k * s) (Nat.even k)) as Hg. fold g in Hg.
  exists r, (start g), (stop g), w. split; [exact E1|]. split; [exact E2|]. split; [exact E3|]. split.
  { cbn zeta. rewrite S1, S2, (unit_compass (Nat.even k) (INR k * s)). cbn [fst snd]. auto. }
  split; [congruence|]. rewrite E5, Hg. split; [apply wrap_range; lra|]. auto.
Qed.
Print Assumptions C87_legs.

(** The requests are numbered from 2 on, and each begins where the one before ends, in the same direction. *)
Theorem C87_joined : forall fuel e lat lon ext spacing lead trail rs i r,
  plan fuel e lat lon ext spacing lead trail = Some rs -> nth_error rs i = Some r ->
  route r = (2 + Z.of_nat i)%Z /\
  forall r', nth_error rs (S i) = Some r' -> from r' = to r /\ from_heading r' = to_heading r.
Proof.
  intros fuel e lat lon ext sp lead trail rs i r E Er. unfold plan in E. destruct (deg_ne_m lat lon e) as [e' c].
  destruct (legs _ _) as [l|]; [|discriminate]. injection E as <-. destruct (requests_none e' l 2) as (_ & _ & q & h & C).
  exact (chain_nth _ _ _ _ C i r Er).
Qed.
Print Assumptions C87_joined.

(** Every place within the extent is passed by a leg at three quarters of a lane or less, with every part of the footprint from
    the trailing to the leading edge. *)
Theorem C87_covers : forall fuel e lat lon ext spacing lead trail rs e' c p,
  deg_ne_m lat lon e = (e', c) -> 0 < ext -> 0 < spacing -> spacing < 2 * half_turn * ext -> trail <= lead ->
  plan fuel e lat lon ext spacing lead trail = Some rs -> within c p ext ->
  exists r a b w, In r rs /\ from r = m_ll_deg (fst a) (snd a) e' /\ to r = m_ll_deg (fst b) (snd b) e' /\
    w <= 3 / 4 * spacing /\ forall d, trail <= d <= lead -> passes a b p d w.
Proof.
  intros fuel e lat lon ext sp lead trail rs e' c x Ec P Q Small W E In_. unfold plan in E. rewrite Ec in E. rewrite half_turn_dPi in Small.
  set (p := {| centre := c; extent := ext; lane := sp; leading := lead; trailing := trail |}) in *.
  destruct (legs fuel p) as [l|] eqn:El; [|discriminate]. injection E as <-.
  destruct (legs_shape p fuel l P El) as [A B]. set (s := lane p / extent p) in *. cbn [lane extent p] in s.
  assert (Ss : 0 < s) by (apply Rdiv_lt_0_compat; assumption). assert (Es : s * ext = sp) by (unfold s; field; lra).
  pose proof dPi_PI as D.
  assert (N0 : (0 < length l)%nat).
  { destruct (length l) as [|n]; [|lia]. exfalso. cbn [INR] in B. assert (s / 2 < dPi); [|lra].
    apply (Rmult_lt_reg_r ext); [exact P|]. nra. }
  unfold within in In_. destruct (polar (fst x - fst c) (snd x - snd c)) as (rho & phi & Hphi & Rr & Xn & Xe).
  assert (R2 : rho * rho <= ext * ext) by (rewrite Rr; replace (ext * ext) with (ext ^ 2) by ring; nra).
  assert (Ra : Rabs rho <= ext) by (apply Rabs_le; split; nra).
  destruct (nearest s (length l) phi Ss N0 ltac:(lra) Hphi) as (k & Hk & Near).
  destruct (A k Hk) as [A1 A2]. destruct (requests_none e' l 2) as (_ & R3 & _). destruct (R3 _ _ A1) as (r & E1 & E2 & E3 & _).
  set (g := one p (INR k * s) (flip k true)) in *. set (u := unit_ (flip k true) (INR k * s)).
  destruct (one_ends p (INR k * s) (flip k true)) as [S1 S2]. fold g u in S1, S2. cbn [centre extent leading trailing p] in S1, S2.
  pose proof (unit_len (flip k true) (INR k * s)) as U. fold u in U.
  set (al := (fst x - fst c) * fst u + (snd x - snd c) * snd u). set (as_ := (fst x - fst c) * snd u - (snd x - snd c) * fst u).
  assert (Sq : al * al + as_ * as_ = rho * rho).
  { rewrite Rr. unfold al, as_. set (X := fst x - fst c). set (Y := snd x - snd c).
    transitivity ((X * X + Y * Y) * (fst u * fst u + snd u * snd u)); [ring|rewrite U; ring]. }
  assert (Ax : fst x = fst c + al * fst u + as_ * snd u).
  { unfold al, as_. transitivity (fst c + (fst x - fst c) * (fst u * fst u + snd u * snd u)); [rewrite U; ring|ring]. }
  assert (Ay : snd x = snd c + al * snd u - as_ * fst u).
  { unfold al, as_. transitivity (snd c + (snd x - snd c) * (fst u * fst u + snd u * snd u)); [rewrite U; ring|ring]. }
  assert (Aside : Rabs as_ = Rabs rho * Rabs (sin (phi - INR k * s))).
  { rewrite <- Rabs_mult, sin_minus. unfold as_. rewrite Xn, Xe. unfold u, unit_. destruct (flip k true); cbn [fst snd].
    - f_equal. ring.
    - rewrite <- Rabs_Ropp. f_equal. ring. }
  assert (Sm : Rabs (sin (phi - INR k * s)) <= 3 / 4 * s).
  { destruct Near as [Near|[-> Near]].
    - eapply Rle_trans; [apply sin_le_abs|exact Near].
    - cbn [INR]. rewrite Rmult_0_l, Rminus_0_r. replace phi with (phi - PI + PI) by ring. rewrite neg_sin, Rabs_Ropp.
      eapply Rle_trans; [apply sin_le_abs|exact Near]. }
  exists r, (start g), (stop g), (Rabs as_). split; [eapply nth_error_In, E1|]. split; [exact E2|]. split; [exact E3|]. split.
  - rewrite Aside. pose proof (Rabs_pos rho). pose proof (Rabs_pos (sin (phi - INR k * s))).
    apply Rle_trans with (ext * (3 / 4 * s)); [apply Rmult_le_compat; assumption|rewrite <- Es; lra].
  - intros d Hd. rewrite S1, S2. replace x with (fst c + al * fst u + as_ * snd u, snd c + al * snd u - as_ * fst u) by (rewrite <- Ax, <- Ay; destruct x; reflexivity).
    assert (- ext <= al <= ext) by (pose proof (Rle_0_sqr as_) as Z; unfold Rsqr in Z; split; nra).
    apply passes_line; [exact U|lra|lra].
Qed.
Print Assumptions C87_covers.

(** A negative extent: the loop does not end. *)
Theorem C87_endless_refuted : forall fuel e lat lon ext spacing lead trail, ext < 0 -> 0 < spacing ->
  plan fuel e lat lon ext spacing lead trail = None.
Proof.
  intros fuel e lat lon ext sp lead trail P Q. unfold plan. destruct (deg_ne_m lat lon e) as [e' c]. unfold legs. cbn [extent lane].
  destruct (Req_EM_T ext 0); [lra|]. assert (S : sp / ext < 0) by (unfold Rdiv; pose proof (Rinv_lt_0_compat ext P); nra).
  pose proof dPi_PI. pose proof PI_bounds. rewrite turn_on; [reflexivity|lra|lra].
Qed.
Print Assumptions C87_endless_refuted.

(** A lane as wide as the circle around the place, or no extent: nothing is searched, and the option is not refused. *)
Theorem C87_nothing_refuted : forall fuel e lat lon ext spacing lead trail, 0 <= ext -> 2 * half_turn * ext <= spacing ->
  plan (S fuel) e lat lon ext spacing lead trail = Some [].
Proof.
  intros fuel e lat lon ext sp lead trail P Q. rewrite half_turn_dPi in Q. unfold plan. destruct (deg_ne_m lat lon e) as [e' c]. unfold legs. cbn [extent lane].
  destruct (Req_EM_T ext 0); [reflexivity|]. assert (2 * dPi <= sp / ext).
  { apply (Rmult_le_reg_r ext); [lra|]. replace (sp / ext * ext) with sp by (field; assumption). lra. }
  cbn [turn]. destruct (Rlt_dec _ _); [lra|reflexivity].
Qed.
Print Assumptions C87_nothing_refuted.

(** The place at the extent in the middle between the last leg and the first: no leg comes nearer than the sine of half of the
    angle between them. *)
Theorem C87_hole_refuted : forall fuel e lat lon ext spacing lead trail rs e' c n,
  deg_ne_m lat lon e = (e', c) -> 0 < ext -> 0 < spacing ->
  plan fuel e lat lon ext spacing lead trail = Some rs -> length rs = (2 * n - 1)%nat -> (0 < n)%nat ->
  let last := INR (n - 1) * (spacing / ext) in
  let phi := (last + PI) / 2 in
  let p := (fst c + ext * sin phi, snd c + ext * cos phi) in
  within c p ext /\
  forall k r, nth_error rs (2 * k) = Some r -> exists a b, from r = m_ll_deg (fst a) (snd a) e' /\ to r = m_ll_deg (fst b) (snd b) e' /\
    forall d w, passes a b p d w -> ext * sin ((PI - last) / 2) <= w.
Proof.
  intros fuel e lat lon ext sp lead trail rs e' c n Ec P Q E Hn N0 la phi x. unfold plan in E. rewrite Ec in E.
  set (p := {| centre := c; extent := ext; lane := sp; leading := lead; trailing := trail |}) in *.
  destruct (legs fuel p) as [l|] eqn:El; [|discriminate]. injection E as <-.
  destruct (legs_shape p fuel l P El) as [A B]. change (lane p / extent p) with (sp / ext) in A, B. set (s := sp / ext) in *.
  assert (Ss : 0 < s) by (apply Rdiv_lt_0_compat; assumption).
  destruct (requests_none e' l 2) as (R1 & R2 & _). assert (Nl : length l = n) by lia.
  split.
  { unfold within, x. cbn [fst snd]. pose proof (sin2_cos2 phi) as S. unfold Rsqr in S.
    replace (fst c + ext * sin phi - fst c) with (ext * sin phi) by ring. replace (snd c + ext * cos phi - snd c) with (ext * cos phi) by ring.
    replace (_ + _) with (ext ^ 2 * (sin phi * sin phi + cos phi * cos phi)) by ring. rewrite S. lra. }
  intros k r Er. assert (Hk : (k < length l)%nat) by (assert (Z : nth_error (requests e' None 2 l) (2 * k) <> None) by congruence; apply nth_error_Some in Z; lia).
  destruct (A k Hk) as [A1 A2]. destruct (R2 _ _ A1) as (r' & E1 & E2 & E3 & _). assert (r' = r) by congruence. subst r'.
  set (g := one p (INR k * s) (flip k true)) in *. set (u := unit_ (flip k true) (INR k * s)).
  destruct (one_ends p (INR k * s) (flip k true)) as [S1 S2]. fold g u in S1, S2. cbn [centre extent leading trailing p] in S1, S2.
  pose proof (unit_len (flip k true) (INR k * s)) as U. fold u in U.
  exists (start g), (stop g). split; [exact E2|]. split; [exact E3|]. intros d w Hw. pose proof (passes_aside _ _ _ _ _ Hw) as Ew. cbn zeta in Ew.
  assert (Ne : ext + lead + (ext - trail) <> 0).
  { destruct Hw as [Nab _]. intros Z. apply Nab. rewrite S1, S2.
    replace (ext - trail) with (- (ext + lead)) by lra. f_equal; ring. }
  assert (La : la < dPi - s / 2).
  { destruct (A (n - 1)%nat ltac:(lia)) as [_ Z]. exact Z. }
  assert (Kl : INR k * s <= la) by (apply Rmult_le_compat_r; [lra|apply le_INR; lia]).
  assert (K0 : 0 <= INR k * s) by (apply Rmult_le_pos; [apply pos_INR|lra]).
  destruct (Rle_dec la PI) as [Ls|Ls].
  2:{ apply Rle_trans with 0.
      - assert (0 <= sin (- ((PI - la) / 2))) by (pose proof dPi_PI; pose proof PI_bounds; apply sin_ge_0; lra).
        rewrite sin_neg in *. nra.
      - rewrite Ew. apply Rmult_le_pos; [apply Rabs_pos|]. 
        match goal with |- 0 <= / sqrt ?y => destruct (Req_dec (sqrt y) 0) as [Z|Z]; [rewrite Z, Rinv_0; lra|pose proof (sqrt_pos y); left; apply Rinv_0_lt_compat; lra] end. }
  assert (Sn : sin ((PI - la) / 2) <= sin (phi - INR k * s)).
  { pose proof PI_RGT_0. destruct (Rle_dec (phi - INR k * s) (PI / 2)) as [G|G].
    - apply sin_incr_1; unfold phi in *; lra.
    - replace (sin (phi - INR k * s)) with (sin (PI - (phi - INR k * s))) by (rewrite sin_PI_x; reflexivity).
      apply sin_incr_1; unfold phi in *; lra. }
  assert (S0 : 0 <= sin (phi - INR k * s)).
  { pose proof PI_RGT_0. eapply Rle_trans; [|exact Sn]. apply sin_ge_0; lra. }
  rewrite Ew, S1, S2. unfold x. cbn [fst snd].
  match goal with |- _ <= Rabs ?z / sqrt ?y => replace y with ((ext + lead + (ext - trail)) * (ext + lead + (ext - trail)) * (fst u * fst u + snd u * snd u)) by ring;
    replace z with ((ext * sin phi * snd u - ext * cos phi * fst u) * (ext + lead + (ext - trail))) by ring end.
  rewrite U, Rmult_1_r. fold (Rsqr (ext + lead + (ext - trail))). rewrite sqrt_Rsqr_abs, Rabs_mult.
  unfold Rdiv. rewrite Rmult_assoc, Rinv_r, Rmult_1_r by (apply Rabs_no_R0, Ne).
  replace (Rabs (ext * sin phi * snd u - ext * cos phi * fst u)) with (ext * sin (phi - INR k * s)).
  - apply Rmult_le_compat_l; lra.
  - rewrite <- (Rabs_right (ext * sin (phi - INR k * s))) by (apply Rle_ge, Rmult_le_pos; lra).
    rewrite sin_minus. unfold u, unit_. destruct (flip k true); cbn [fst snd]; [f_equal; ring|rewrite <- Rabs_Ropp; f_equal; ring].
Qed.
Print Assumptions C87_hole_refuted.

(** Three hundred metres between the lanes of a pattern with an extent of a kilometre: ten legs, and a place within the extent that
    is further from all of them than half of the width of the footprint, of which a lane is nine tenths. *)
Example hole : exists fuel rs, plan fuel fresh 45 7 1000 300 200 100 = Some rs /\
  forall e' c, deg_ne_m 45 7 fresh = (e', c) -> exists p, within c p 1000 /\
    forall k r, nth_error rs (2 * k) = Some r -> exists a b, from r = m_ll_deg (fst a) (snd a) e' /\ to r = m_ll_deg (fst b) (snd b) e' /\
      forall d w, passes a b p d w -> 300 / (9 / 10) / 2 + 50 < w.
Proof.
  destruct (C87_ends fresh 45 7 1000 300 200 100 ltac:(lra) ltac:(lra)) as (fuel & rs & E). exists fuel, rs. split; [exact E|]. intros e' c Ec.
  destruct (C87_legs fuel fresh 45 7 1000 300 200 100 rs e' c Ec ltac:(lra) ltac:(lra) ltac:(lra) E) as (n & Ln & B & A). unfold half_turn in *.
  assert (N : n = 10%nat).
  { destruct (Nat.lt_trichotomy n 10) as [Z|[Z|Z]]; [exfalso|exact Z|exfalso].
    - assert (I : INR n <= INR 9) by (apply le_INR; lia). cbn [INR] in I. lra.
    - destruct (A 10%nat Z) as [Y _]. cbn [INR] in Y. lra. }
  subst n. destruct (C87_hole_refuted fuel fresh 45 7 1000 300 200 100 rs e' c 10%nat Ec ltac:(lra) ltac:(lra) E Ln ltac:(lia)) as [H1 H2].
  eexists. split; [exact H1|]. intros k r Er. destruct (H2 k r Er) as (a & b & Ea & Eb & H3). exists a, b. split; [exact Ea|]. split; [exact Eb|].
  intros d w Hw. specialize (H3 d w Hw). eapply Rlt_le_trans; [|exact H3]. clear. cbn [Nat.sub INR].
  set (y := (PI - _) / 2). assert (Y : 22 / 100 < y < 23 / 100) by (unfold y; pose proof PI_bounds; lra). clearbody y.
  destruct (sin_bound y 0 ltac:(lra) ltac:(pose proof PI_bounds; lra)) as [S _]. cbn in S. unfold sin_approx, sin_term in S. cbn in S.
  nra.
Qed.

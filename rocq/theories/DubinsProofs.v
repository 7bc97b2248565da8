(** Proofs about the ways of turns and straight legs. *)
From Coq Require Import Reals List ZArith Lra Lia.
From Verif Require Import SteeringCourseModel SteeringCourseProps PiBounds DubinsModel DubinsSpec.
Import ListNotations.
Open Scope R_scope.

(** ** Angles *)
Lemma PI_low : 3 < PI. Proof. destruct PI_bounds. lra. Qed.
Lemma PI_high : PI < 4. Proof. destruct PI_bounds. lra. Qed.

Lemma fmod2_range x : - (2 * PI) < fmod x (2 * PI) < 2 * PI /\ (0 <= x -> 0 <= fmod x (2 * PI)).
Proof.
  pose proof PI_low as P. unfold fmod. destruct (cut_range (x / (2 * PI))) as ((A & B) & C & _).
  assert (E : x - 2 * PI * IZR (cut (x / (2 * PI))) = 2 * PI * (x / (2 * PI) - IZR (cut (x / (2 * PI))))) by (field; lra).
  rewrite E. split; [split; nra|]. intros X. apply Rmult_le_pos; [lra|]. apply C. apply Rle_mult_inv_pos; lra.
Qed.

Lemma norm_range x : - (1 / 1000000000) <= norm_angle x < 2 * PI.
Proof.
  pose proof PI_low as P. unfold norm_angle. destruct (fmod2_range x) as ((A & B) & _).
  destruct (Rlt_dec _ _); [lra|]. destruct (Rlt_dec _ _); [lra|]. destruct (Rle_dec _ _) as [C|C]; [|lra].
  assert (Q : Rabs (fmod x (2 * PI) - 2 * PI) = - (fmod x (2 * PI) - 2 * PI)) by (apply Rabs_left; lra).
  rewrite Q in C. lra.
Qed.
Lemma norm_turns x : exists k : Z, norm_angle x = x + 2 * IZR k * PI.
Proof.
  unfold norm_angle. assert (E : fmod x (2 * PI) = x + 2 * IZR (- cut (x / (2 * PI))) * PI) by (unfold fmod; rewrite opp_IZR; ring).
  set (m := fmod x (2 * PI)) in *. set (j := (- cut (x / (2 * PI)))%Z) in *.
  assert (Q1 : m + 2 * PI = x + 2 * IZR (j + 1) * PI) by (rewrite plus_IZR; lra).
  assert (Q2 : m - 2 * PI = x + 2 * IZR (j + -1) * PI) by (rewrite plus_IZR; lra).
  destruct (Rlt_dec _ _); [eauto|]. destruct (Rlt_dec _ _); [eauto|]. destruct (Rle_dec _ _); eauto.
Qed.
Lemma norm_cs x : cos (norm_angle x) = cos x /\ sin (norm_angle x) = sin x.
Proof. destruct (norm_turns x) as (k & ->). apply turn_Z. Qed.
Lemma norm_id x : 0 <= x < 2 * PI - 1 / 1000000000 -> norm_angle x = x.
Proof.
  pose proof PI_low as P. intros X. unfold norm_angle.
  assert (E : fmod x (2 * PI) = x).
  { unfold fmod, cut. assert (G : 0 <= x / (2 * PI) < 1).
    { split; [apply Rle_mult_inv_pos; lra|]. apply Rmult_lt_reg_r with (2 * PI); [lra|]. unfold Rdiv. rewrite Rmult_assoc, Rinv_l; lra. }
    destruct (Rle_dec 0 (x / (2 * PI))); [|lra].
    assert (Z : Int_part (x / (2 * PI)) = 0%Z).
    { destruct (base_Int_part (x / (2 * PI))) as (U & V). apply Z.le_antisymm.
      - apply le_IZR in U || apply Zlt_succ_le, lt_IZR. cbn. lra.
      - assert (-1 < Int_part (x / (2 * PI)))%Z; [apply lt_IZR; lra|lia]. }
    rewrite Z. ring. }
  rewrite E. destruct (Rlt_dec _ _); [lra|]. destruct (Rlt_dec _ _); [lra|]. destruct (Rle_dec _ _) as [C|C]; [|reflexivity].
  rewrite Rabs_left in C by lra. lra.
Qed.

Lemma polar y x : y = sqrt (y * y + x * x) * sin (norm_angle (atan2 y x)) /\ x = sqrt (y * y + x * x) * cos (norm_angle (atan2 y x)).
Proof.
  destruct (norm_cs (atan2 y x)) as (C & S). rewrite C, S. destruct (atan2_xy y x) as (A & B).
  replace (y * y + x * x) with (x * x + y * y) by ring. auto.
Qed.
Lemma polar_on y x r x0 : 0 < r -> y = r * sin x0 -> x = r * cos x0 ->
  sin (norm_angle (atan2 y x)) = sin x0 /\ cos (norm_angle (atan2 y x)) = cos x0.
Proof.
  intros R Y X. destruct (polar y x) as (A & B).
  assert (Q : sqrt (y * y + x * x) = r).
  { replace (y * y + x * x) with (Rsqr r). 2:{ subst. pose proof (sin2_cos2 x0) as T. unfold Rsqr in *. nra. }
    rewrite sqrt_Rsqr; lra. }
  rewrite Q in A, B. split; apply Rmult_eq_reg_l with r; lra.
Qed.

Lemma same_angle z : cos z = 1 -> - (2 * PI) < z < 2 * PI -> z = 0.
Proof.
  intros C X. replace z with (2 * (z / 2)) in C by field. rewrite cos_2a_sin in C.
  assert (S : sin (z / 2) = 0) by nra.
  destruct (Rtotal_order z 0) as [L|[E|G]]; [|exact E|].
  - assert (sin (- (z / 2)) > 0) by (apply sin_gt_0; lra). rewrite sin_neg in *. lra.
  - assert (sin (z / 2) > 0) by (apply sin_gt_0; lra). lra.
Qed.

Lemma iround_near x : 0 <= x -> x - 1 / 2 < iround x <= x + 1 / 2.
Proof.
  intros X. unfold iround. destruct (cut_range (x + 1 / 2)) as ((A & B) & C & _). assert (0 <= x + 1 / 2 - IZR (cut (x + 1 / 2))) by (apply C; lra). lra.
Qed.
Lemma iround_whole x : exists k : Z, iround x = IZR k.
Proof. unfold iround. eauto. Qed.
Lemma iround_id (k : Z) : (0 <= k)%Z -> iround (IZR k) = IZR k.
Proof.
  intros K. apply IZR_le in K. destruct (iround_whole (IZR k)) as (j & J). rewrite J. destruct (iround_near (IZR k) K) as (A & B). rewrite J in A, B.
  f_equal. apply Z.le_antisymm; apply Zlt_succ_le, lt_IZR; rewrite succ_IZR; lra.
Qed.
Lemma iround_mono x y : 0 <= x <= y -> iround x <= iround y.
Proof.
  intros X. destruct (iround_whole x) as (j & J), (iround_whole y) as (k & K). rewrite J, K.
  destruct (iround_near x) as (A & B); [lra|]. destruct (iround_near y) as (C & D); [lra|]. rewrite J in *. rewrite K in *.
  apply IZR_le. apply Zlt_succ_le, lt_IZR. rewrite succ_IZR. lra.
Qed.
Lemma iround_one x : 1 / 2 <= x -> 1 <= iround x.
Proof.
  intros X. unfold iround, cut. destruct (Rle_dec 0 (x + 1 / 2)); [|lra]. destruct (base_Int_part (x + 1 / 2)) as (U & V).
  apply IZR_le. apply Zlt_succ_le, lt_IZR. rewrite succ_IZR. lra.
Qed.

(** ** Being on a turn *)
Definition rides (s : sense) (c : place) (r x : R) (P : pose) : Prop :=
  fst P = around c r x /\ cos (snd P) = sign s * cos x /\ sin (snd P) = - sign s * sin x.

Lemma place_eq (p q : place) : fst p = fst q -> snd p = snd q -> p = q.
Proof. destruct p, q. cbn. congruence. Qed.

Lemma rides_start s r x P : 0 < r -> fst P = around (hub P r s) r x -> rides s (hub P r s) r x P.
Proof.
  destruct P as ((n, e), h). intros R E. split; [exact E|]. destruct s; cbn in *.
  - assert (A : n = n - r * sin h + r * sin x) by exact (f_equal fst E). assert (B : e = e + r * cos h + r * cos x) by exact (f_equal snd E).
    split; apply Rmult_eq_reg_l with r; lra.
  - assert (A : n = n + r * sin h + r * sin x) by exact (f_equal fst E). assert (B : e = e - r * cos h + r * cos x) by exact (f_equal snd E).
    split; apply Rmult_eq_reg_l with r; lra.
Qed.
Lemma rides_hub s c r x P : rides s c r x P -> hub P r s = c.
Proof.
  destruct P as ((n, e), h), c as (cn, ce). intros (E & C & S). cbn in *.
  assert (A : n = cn + r * sin x) by exact (f_equal fst E). assert (B : e = ce + r * cos x) by exact (f_equal snd E).
  destruct s; cbn in *; rewrite C, S; subst; f_equal; ring.
Qed.
Lemma rides_turn s c r x P a y : rides s c r x P -> (exists k : Z, y = x + sign s * a + 2 * IZR k * PI) ->
  rides s c r y (fly1 r P (Turn s a)).
Proof.
  destruct P as ((n, e), h), c as (cn, ce). intros (E & C & S) (k & ->). cbn in *.
  assert (A : n = cn + r * sin x) by exact (f_equal fst E). assert (B : e = ce + r * cos x) by exact (f_equal snd E).
  destruct (turn_Z (x + sign s * a) k) as (Q1 & Q2).
  assert (G1 : cos (x + sign s * a + 2 * IZR k * PI) = cos x * cos a - sign s * (sin x * sin a)).
  { rewrite Q1. destruct s; cbn; [replace (x + -1 * a) with (x - a) by ring; rewrite cos_minus|rewrite Rmult_1_l, cos_plus]; ring. }
  assert (G2 : sin (x + sign s * a + 2 * IZR k * PI) = sin x * cos a + sign s * (cos x * sin a)).
  { rewrite Q2. destruct s; cbn; [replace (x + -1 * a) with (x - a) by ring; rewrite sin_minus|rewrite Rmult_1_l, sin_plus]; ring. }
  unfold rides, around. cbn [fst snd].
  destruct s; cbn in *; rewrite ?G1, ?G2; rewrite ?cos_plus, ?sin_plus, ?cos_minus, ?sin_minus, ?C, ?S; (split; [subst; f_equal; ring|split; ring]).
Qed.

Lemma swing_turns s a b : exists k : Z, b = a + sign s * swing s a b + 2 * IZR k * PI.
Proof.
  destruct s; cbn.
  - destruct (Rle_dec b a); [exists 0%Z; cbn; lra|exists 1%Z; cbn; lra].
  - destruct (Rle_dec a b); [exists 0%Z; cbn; lra|exists (-1)%Z; cbn; lra].
Qed.

Lemma sign_abs s : Rabs (sign s) = 1.
Proof. destruct s; cbn; [rewrite Rabs_left|rewrite Rabs_pos_eq]; lra. Qed.

Lemma near_turn s a b : - (1 / 1000000000) <= a < 2 * PI -> - (1 / 1000000000) <= b < 2 * PI ->
  exists t, about t (swing s a (snap b a)) /\ (exists k : Z, b = a + sign s * t + 2 * IZR k * PI).
Proof.
  pose proof PI_low as PL. intros A B. unfold snap.
  assert (Z : swing s a a = 0) by (destruct s; cbn; destruct (Rle_dec _ _); lra).
  destruct (Rlt_dec _ _) as [G|G]; [|destruct (Rlt_dec _ _) as [G2|G2]].
  - rewrite Z. exists (sign s * (b - a)). split.
    + right. split; [reflexivity|]. rewrite Rabs_mult, sign_abs. lra.
    + exists 0%Z. destruct s; cbn; lra.
  - rewrite Z. destruct (Rle_dec 0 (b - a)) as [L|L].
    + rewrite (Rabs_pos_eq (b - a)) in G2 by lra. exists (sign s * (b - a - 2 * PI)). split.
      * right. split; [reflexivity|]. rewrite Rabs_mult, sign_abs. lra.
      * exists 1%Z. destruct s; cbn; lra.
    + rewrite (Rabs_left (b - a)) in G2 by lra. exists (sign s * (b - a + 2 * PI)). split.
      * right. split; [reflexivity|]. rewrite Rabs_mult.
        replace (b - a + 2 * PI) with (- (- (b - a) - 2 * PI)) by ring. rewrite Rabs_Ropp, sign_abs. lra.
      * exists (-1)%Z. destruct s; cbn; lra.
  - exists (swing s a b). split; [|apply swing_turns]. left. split; [reflexivity|].
    assert (G1 : 5 / 1000 <= Rabs (b - a)) by lra. assert (G3 : 5 / 1000 <= Rabs (Rabs (b - a) - 2 * PI)) by lra. clear G G2 Z.
    destruct (Rle_dec 0 (b - a)) as [L|L].
    + rewrite (Rabs_pos_eq (b - a)) in * by lra. unfold Rabs in G3. destruct (Rcase_abs _); [|lra].
      destruct s; cbn; destruct (Rle_dec _ _); lra.
    + rewrite (Rabs_left (b - a)) in * by lra. unfold Rabs in G3. destruct (Rcase_abs _); [|lra].
      destruct s; cbn; destruct (Rle_dec _ _); lra.
Qed.

Lemma near_turn' s a b : - (1 / 1000000000) <= a < 2 * PI -> - (1 / 1000000000) <= b < 2 * PI ->
  exists t, about t (swing s (snap b a) a) /\ (exists k : Z, a = b + sign s * t + 2 * IZR k * PI).
Proof.
  pose proof PI_low as PL. intros A B. unfold snap.
  assert (Z : swing s a a = 0) by (destruct s; cbn; destruct (Rle_dec _ _); lra).
  destruct (Rlt_dec _ _) as [G|G]; [|destruct (Rlt_dec _ _) as [G2|G2]].
  - rewrite Z. exists (sign s * (a - b)). split.
    + right. split; [reflexivity|]. rewrite Rabs_mult, sign_abs. rewrite <- Rabs_Ropp. replace (- (a - b)) with (b - a) by ring. lra.
    + exists 0%Z. destruct s; cbn; lra.
  - rewrite Z. destruct (Rle_dec 0 (b - a)) as [L|L].
    + rewrite (Rabs_pos_eq (b - a)) in G2 by lra. exists (sign s * (a - b + 2 * PI)). split.
      * right. split; [reflexivity|]. rewrite Rabs_mult, sign_abs. rewrite <- Rabs_Ropp. replace (- (a - b + 2 * PI)) with (b - a - 2 * PI) by ring. lra.
      * exists (-1)%Z. destruct s; cbn; lra.
    + rewrite (Rabs_left (b - a)) in G2 by lra. exists (sign s * (a - b - 2 * PI)). split.
      * right. split; [reflexivity|]. rewrite Rabs_mult.
        rewrite sign_abs. replace (a - b - 2 * PI) with (- (b - a) - 2 * PI) by ring. lra.
      * exists 1%Z. destruct s; cbn; lra.
  - exists (swing s b a). split; [|apply swing_turns]. left. split; [reflexivity|].
    assert (G1 : 5 / 1000 <= Rabs (b - a)) by lra. assert (G3 : 5 / 1000 <= Rabs (Rabs (b - a) - 2 * PI)) by lra. clear G G2 Z.
    destruct (Rle_dec 0 (b - a)) as [L|L].
    + rewrite (Rabs_pos_eq (b - a)) in * by lra. unfold Rabs in G3. destruct (Rcase_abs _); [|lra].
      destruct s; cbn; destruct (Rle_dec _ _); lra.
    + rewrite (Rabs_left (b - a)) in * by lra. unfold Rabs in G3. destruct (Rcase_abs _); [|lra].
      destruct s; cbn; destruct (Rle_dec _ _); lra.
Qed.

(** ** The waypoints of a turn *)
Lemma angle_spec c p : p = around c (apart p c) (angle_at c p).
Proof.
  destruct (polar (fst p - fst c) (snd p - snd c)) as (A & B). apply place_eq; cbn [fst snd around]; unfold apart, angle_at; lra.
Qed.
Lemma apart_pos p q : 0 <= apart p q. Proof. apply sqrt_pos. Qed.

Lemma stops_map c sep inc x k : forall j,
  stops c sep inc (x + INR j * inc) k =
  map (fun i => {| spot := around (mid c) (rad c) (x + INR i * inc); long := sep; turn := Some c |}) (seq j k).
Proof.
  induction k as [|k IH]; intros j; [reflexivity|]. cbn [stops seq map]. f_equal.
  - unfold around. f_equal. f_equal; ring.
  - rewrite <- IH. f_equal. rewrite S_INR. ring.
Qed.
Lemma stops_length c sep inc k : forall x, length (stops c sep inc x k) = k.
Proof. induction k as [|k IH]; intros x; [reflexivity|]. cbn. rewrite IH. reflexivity. Qed.

Lemma turn_points_way c r s sep p q arc : 0 < r -> 0 < sep ->
  arc_way c r s sep p q arc (turn_points p q arc {| mid := c; rad := r; way := s |} sep).
Proof.
  intros Rp Sp. unfold turn_points. cbn [rad mid way]. destruct (Rlt_dec 0 r) as [_|]; [|lra].
  exists (angle_at c p), (apart p c).
  assert (M : forall a g, (if Rlt_dec a g then 0 else a - g) = Rmax 0 (a - g)).
  { intros a g. unfold Rmax. destruct (Rlt_dec a g), (Rle_dec 0 (a - g)); lra. }
  destruct (Rlt_dec sep arc) as [L|L].
  - set (n := increments r arc sep). assert (N : n = Int_part (arc / sep) /\ (1 <= n)%Z /\ IZR n * sep <= arc < (IZR n + 1) * sep).
    { unfold n, increments. assert (sep / r <> 0) by (assert (0 < sep / r) by (apply Rdiv_lt_0_compat; lra); lra).
      destruct (Req_EM_T _ _); [contradiction|]. replace (arc / r / (sep / r)) with (arc / sep) by (field; lra).
      assert (Q : 1 < arc / sep). { apply Rmult_lt_reg_r with sep; [lra|]. unfold Rdiv. rewrite Rmult_assoc, Rinv_l; lra. }
      unfold cut. destruct (Rle_dec 0 (arc / sep)); [|lra]. destruct (base_Int_part (arc / sep)) as (U & V). repeat split.
      - apply Zlt_succ_le, lt_IZR. rewrite succ_IZR. lra.
      - replace arc with (arc / sep * sep) at 2 by (field; lra). apply Rmult_le_compat_r; lra.
      - replace arc with (arc / sep * sep) at 1 by (field; lra). apply Rmult_lt_compat_r; lra. }
    destruct N as (_ & N1 & N2). exists (Z.to_nat (n - 1)).
    assert (K : INR (Z.to_nat (n - 1)) = IZR n - 1). { rewrite INR_IZR_INZ, Z2Nat.id, minus_IZR by lia. reflexivity. }
    split; [apply apart_pos|]. split; [apply angle_spec|]. split.
    + rewrite stops_length, M. f_equal.
      replace (sep / r * sign s + angle_at c p) with (angle_at c p + INR 1 * (sep / r * sign s)) by (cbn [INR]; ring).
      rewrite stops_map. cbn [mid rad]. apply map_ext. intros i. f_equal. f_equal. destruct s; cbn [sign]; ring.
    + split; [lra|]. intros _. rewrite K. replace (IZR n - 1 + 1) with (IZR n) by ring. replace (IZR n - 1 + 2) with (IZR n + 1) by ring. lra.
  - exists 0%nat. split; [apply apart_pos|]. split; [apply angle_spec|]. split.
    + cbn [length seq map app]. rewrite M. reflexivity.
    + split; [reflexivity|lra].
Qed.

(** ** The length of a way *)
Definition last_spot (last : option place) (ws : list waypoint) : option place :=
  fold_left (fun _ w => Some (spot w)) ws last.
Lemma total_app ws : forall last vs, total last (ws ++ vs) = total last ws + total (last_spot last ws) vs.
Proof.
  induction ws as [|w ws IH]; intros last vs; cbn [app total last_spot fold_left]; [ring|].
  rewrite IH. unfold last_spot. ring.
Qed.
Lemma total_same (f : nat -> waypoint) sep : 0 < sep -> (forall i, long (f i) = sep) -> forall k j last, total last (map f (seq j k)) = INR k * sep.
Proof.
  intros P F. induction k as [|k IH]; intros j last; [cbn; ring|].
  cbn [seq map total]. rewrite F. destruct (Rlt_dec 0 sep); [|lra]. rewrite IH, S_INR. ring.
Qed.
Lemma arc_total c r s sep p q arc ws last rest : 0 < sep -> arc_way c r s sep p q arc ws -> (0 < arc \/ last = None \/ last = Some q) ->
  total last (ws ++ rest) = Rmax 0 arc + total (Some q) rest.
Proof.
  intros P (x & rho & k & _ & _ & -> & K1 & K2) L. rewrite <- app_assoc, total_app, (total_same _ sep P) by reflexivity.
  cbn [app total long spot].
  destruct (Rle_dec arc sep) as [A|A].
  - rewrite (K1 A). cbn [INR seq map last_spot fold_left]. replace (arc - 0 * sep) with arc by ring.
    destruct (Rlt_dec 0 (Rmax 0 arc)) as [B|B]; [ring|].
    assert (arc <= 0). { unfold Rmax in B. destruct (Rle_dec 0 arc); lra. }
    rewrite (Rmax_left 0 arc) by lra. destruct L as [L|[L|L]]; [lra|subst; ring|subst].
    assert (Z : apart q q = 0). { unfold apart. rewrite !Rminus_diag_eq by reflexivity. rewrite Rmult_0_l, Rplus_0_r. apply sqrt_0. }
    rewrite Z. ring.
  - destruct K2 as (U & V); [lra|]. assert (W : Rmax 0 (arc - INR k * sep) = arc - INR k * sep) by (apply Rmax_right; lra).
    rewrite W. destruct (Rlt_dec 0 (arc - INR k * sep)); [|lra]. rewrite (Rmax_right 0 arc) by lra. ring.
Qed.

Lemma from_to c a p : from_frame c a (to_frame c a p) = p.
Proof.
  pose proof (sin2_cos2 a) as T. unfold Rsqr in T. apply place_eq; cbn [fst snd from_frame to_frame].
  - transitivity ((fst p - fst c) * (sin a * sin a + cos a * cos a) + fst c); [ring|rewrite T; ring].
  - transitivity ((snd p - snd c) * (sin a * sin a + cos a * cos a) + snd c); [ring|rewrite T; ring].
Qed.
Lemma from_polar c th r x : from_frame c (- th) (r * sin x, r * cos x) = around c r (x + th).
Proof. unfold from_frame, around. cbn [fst snd]. rewrite cos_neg, sin_neg, sin_plus, cos_plus. f_equal; ring. Qed.

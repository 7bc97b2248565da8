(** Flights between the same two turns have the same angles. *)
From Coq Require Import Reals List ZArith Lra Lia.
From Verif Require Import SteeringCourseModel SteeringCourseProps PiBounds DubinsModel DubinsSpec DubinsProofs DubinsTangent DubinsTurns DubinsChoice.
Import ListNotations.
Open Scope R_scope.

Lemma hub_turn r P s a : hub (fly1 r P (Turn s a)) r s = hub P r s.
Proof. destruct P as ((n, e), h), s; cbn; f_equal; ring. Qed.
Lemma hub_ahead r P s l : hub (fly1 r P (Ahead l)) r s = (fst (hub P r s) + l * cos (snd P), snd (hub P r s) + l * sin (snd P)).
Proof. destruct P as ((n, e), h), s; cbn; f_equal; ring. Qed.
Lemma hub_other r P s : hub P r (other s) = (fst (hub P r s) - 2 * r * (sign s * sin (snd P)), snd (hub P r s) + 2 * r * (sign s * cos (snd P))).
Proof. destruct P as ((n, e), h), s; cbn; f_equal; ring. Qed.
Lemma hub_pose P r s n e h : fst P = (n, e) -> same_heading (snd P) h -> hub P r s = hub (n, e, h) r s.
Proof. destruct P as ((n', e'), h'). cbn. intros E (C & S). inversion E. subst. rewrite C, S. reflexivity. Qed.
Lemma turn_heading r P s a : snd (fly1 r P (Turn s a)) = snd P - sign s * a.
Proof. destruct P as ((n, e), h), s; cbn; ring. Qed.

Lemma same_turn h h2 s a b : same_heading h h2 -> cos (h - sign s * a) = cos (h2 - sign s * b) -> sin (h - sign s * a) = sin (h2 - sign s * b) -> cos (a - b) = 1.
Proof.
  intros (Hc & Hs) C S.
  assert (E : cos ((h2 - sign s * b) - (h - sign s * a)) = 1).
  { rewrite cos_minus, C, S. pose proof (sin2_cos2 (h2 - sign s * b)) as T. unfold Rsqr in T. lra. }
  assert (E2 : sin ((h2 - sign s * b) - (h - sign s * a)) = 0).
  { rewrite sin_minus, C, S. ring. }
  replace ((h2 - sign s * b) - (h - sign s * a)) with ((h2 - h) + sign s * (a - b)) in * by ring.
  rewrite cos_plus in E. rewrite sin_plus in E2.
  assert (C0 : cos (h2 - h) = 1). { rewrite cos_minus, Hc, Hs. pose proof (sin2_cos2 h2) as T. unfold Rsqr in T. lra. }
  assert (S0 : sin (h2 - h) = 0). { rewrite sin_minus, Hc, Hs. ring. }
  rewrite C0, S0 in *. assert (X : cos (sign s * (a - b)) = 1) by lra.
  destruct s; cbn [sign] in X; [replace (-1 * (a - b)) with (- (a - b)) in X by ring; rewrite cos_neg in X|rewrite Rmult_1_l in X]; exact X.
Qed.
Lemma about_least r a a' b' : 0 < r -> 0 <= a < 2 * PI -> about a' b' -> cos (a - a') = 1 -> at_least_one (r * b') <= r * a.
Proof.
  intros Rp A [(-> & B)|(-> & B)] C; unfold at_least_one.
  - assert (Z : a - a' = 0) by (apply same_angle; [exact C|lra]). replace a' with a by lra. destruct (Rle_dec 1 (r * a)); [lra|].
    apply Rmult_le_pos; lra.
  - rewrite Rmult_0_r. destruct (Rle_dec 1 0); [lra|]. apply Rmult_le_pos; lra.
Qed.

(** Two flights that leave their first turn with the same heading and come to the same heading. *)
Lemma least_of r sep P n e h' s1 s2 m th len ws a1 l a2 : 1 <= r -> 0 <= a1 < 2 * PI -> 0 <= a2 < 2 * PI ->
  same_heading (snd (fly r P [Turn s1 a1; Ahead l; Turn s2 a2])) h' ->
  follows_exact r sep P (n, e) h' s1 s2 m th len ws ->
  (forall b k, hub (fly r P [Turn s1 b; Ahead k]) r s2 = around (hub P r s1) m th -> 0 <= k ->
     (let d := iround (dist (hub P r s1) (hub (n, e, h') r s2)) in (s1 = s2 -> m = d /\ k = d) /\ (s1 <> s2 -> 2 * r <= d -> m = d /\ k * k = d * d - 4 * r * r)) ->
     same_heading (snd P - sign s1 * a1) (snd P - sign s1 * b)) ->
  (s1 <> s2 -> 2 * r <= iround (dist (hub P r s1) (hub (n, e, h') r s2))) ->
  exists k, (s1 = s2 -> k = iround (dist (hub P r s1) (hub (n, e, h') r s2))) /\
    (s1 <> s2 -> let d := iround (dist (hub P r s1) (hub (n, e, h') r s2)) in k * k = d * d - 4 * r * r) /\ 0 <= k /\ len <= r * a1 + k + r * a2.
Proof.
  intros Rp A1 A2 SH (b1 & c1 & k & k' & b2 & c2 & w1 & q & w3 & (N1 & N2 & K0 & K0' & K1 & K2 & SH' & _ & _ & _ & _ & _ & _ & _ & L) & HB & M1 & M2) U G.
  assert (V : same_heading (snd P - sign s1 * a1) (snd P - sign s1 * b1)).
  { apply (U b1 k HB K0). split; [exact M1|]. intros NE GG. destruct (M2 NE GG) as (X & Y & _). split; assumption. }
  exists k'. split; [intros E; rewrite (K2 E); apply M1; exact E|]. split.
  { intros NE. destruct (M2 NE (G NE)) as (_ & Y & Z). cbv zeta. rewrite Z. exact Y. }
  split; [exact K0'|]. rewrite L.
  assert (X1 : at_least_one (r * c1) <= r * a1).
  { apply (about_least r a1 b1 c1); [lra|exact A1|exact N1|]. destruct V as (Vc & Vs). apply (same_turn (snd P) (snd P) s1); [split; reflexivity|exact Vc|exact Vs]. }
  assert (X2 : at_least_one (r * c2) <= r * a2).
  { apply (about_least r a2 b2 c2); [lra|exact A2|exact N2|].
    assert (F : forall s t a x y, snd (fly r P [Turn s a; Ahead x; Turn t y]) = snd P - sign s * a - sign t * y).
    { intros s t a x y. cbn [fly fold_left]. rewrite turn_heading.
      assert (Q : snd (fly1 r (fly1 r P (Turn s a)) (Ahead x)) = snd (fly1 r P (Turn s a))) by (destruct (fly1 r P (Turn s a)) as ((?, ?), ?); reflexivity).
      rewrite Q, turn_heading. reflexivity. }
    rewrite !F in *. destruct SH as (Sc & Ss), SH' as (Sc' & Ss').
    apply (same_turn _ _ s2 a2 b2 V); [rewrite Sc, Sc'; reflexivity|rewrite Ss, Ss'; reflexivity]. }
  lra.
Qed.

Lemma cs_unit x : cos x * cos x + sin x * sin x = 1.
Proof. pose proof (sin2_cos2 x) as T. unfold Rsqr in T. lra. Qed.
Lemma dist_vec c x y d : 0 <= d -> x * x + y * y = d * d -> dist c (fst c + x, snd c + y) = d.
Proof.
  intros D E. unfold dist. cbn [fst snd]. apply sqrt_sqr; [exact D|]. rewrite <- E. ring.
Qed.

(** Where the second turn of a flight of a turn, a straight leg and a turn is. *)
Lemma hub_two_same r P s a l : hub (fly r P [Turn s a; Ahead l]) r s =
  (fst (hub P r s) + l * cos (snd P - sign s * a), snd (hub P r s) + l * sin (snd P - sign s * a)).
Proof. cbn [fly fold_left]. rewrite hub_ahead, hub_turn, turn_heading. reflexivity. Qed.
Lemma hub_two_other r P s a l : hub (fly r P [Turn s a; Ahead l]) r (other s) =
  (fst (hub P r s) + (l * cos (snd P - sign s * a) - 2 * r * (sign s * sin (snd P - sign s * a))),
   snd (hub P r s) + (l * sin (snd P - sign s * a) + 2 * r * (sign s * cos (snd P - sign s * a)))).
Proof. cbn [fly fold_left]. rewrite hub_ahead, hub_other, hub_turn, turn_heading. cbn [fst snd]. f_equal; ring. Qed.

Lemma shortest_same r sep start h n e h' s a1 l a2 len ws m th : 1 <= r -> 0 <= a1 < 2 * PI -> 0 <= a2 < 2 * PI -> 0 <= l ->
  let P := (start, h) in let Q := fly r P [Turn s a1; Ahead l; Turn s a2] in
  fst Q = (n, e) -> same_heading (snd Q) h' ->
  1 / 2 <= dist (hub P r s) (hub (n, e, h') r s) ->
  hub (n, e, h') r s = around (hub P r s) (dist (hub P r s) (hub (n, e, h') r s)) th ->
  follows_exact r sep P (n, e) h' s s m th len ws -> len <= r * a1 + l + r * a2 + 1 / 2.
Proof.
  intros Rp A1 A2 L P Q EQ SH Dp CC F.
  assert (C2 : hub (n, e, h') r s = hub (fly r P [Turn s a1; Ahead l]) r s).
  { rewrite <- (hub_pose Q r s n e h' EQ SH). unfold Q. change (fly r P [Turn s a1; Ahead l; Turn s a2]) with (fly1 r (fly r P [Turn s a1; Ahead l]) (Turn s a2)). apply hub_turn. }
  rewrite hub_two_same in C2. set (v := snd P - sign s * a1) in *.
  assert (DL : dist (hub P r s) (hub (n, e, h') r s) = l).
  { rewrite C2. apply dist_vec; [exact L|]. pose proof (cs_unit v). transitivity (l * l * (cos v * cos v + sin v * sin v)); [ring|]. rewrite H. ring. }
  destruct (least_of r sep P n e h' s s m th len ws a1 l a2 Rp A1 A2 SH F) as (k & K1 & _ & _ & K).
  - fold v. intros b k HB K0 (M & _). destruct (M eq_refl) as (M1 & M2). rewrite hub_two_same in HB. rewrite M1, M2 in HB. rewrite DL in *.
    rewrite C2 in CC. set (d := iround l) in *. assert (d1 : 1 <= d) by (apply iround_one; exact Dp).
    assert (E1 : l * cos v = l * sin th) by (pose proof (f_equal fst CC) as X; cbn in X; lra).
    assert (E2 : l * sin v = l * cos th) by (pose proof (f_equal snd CC) as X; cbn in X; lra).
    assert (E3 : d * cos (snd P - sign s * b) = d * sin th) by (pose proof (f_equal fst HB) as X; cbn [fst snd around] in X; lra).
    assert (E4 : d * sin (snd P - sign s * b) = d * cos th) by (pose proof (f_equal snd HB) as X; cbn [fst snd around] in X; lra).
    apply Rmult_eq_reg_l in E1; [|lra]. apply Rmult_eq_reg_l in E2; [|lra]. apply Rmult_eq_reg_l in E3; [|lra]. apply Rmult_eq_reg_l in E4; [|lra].
    split; congruence.
  - intros NE. contradiction NE. reflexivity.
  - rewrite K1, DL in K by reflexivity. destruct (iround_near l L). lra.
Qed.

Lemma other_neq s1 s2 : s1 <> s2 -> s2 = other s1.
Proof. destruct s1, s2; cbn; congruence. Qed.

Lemma shortest_other r sep start h n e h' s1 s2 a1 l a2 len ws m th (w : Z) : 1 <= r -> 0 <= a1 < 2 * PI -> 0 <= a2 < 2 * PI -> 0 <= l -> s1 <> s2 ->
  let P := (start, h) in let Q := fly r P [Turn s1 a1; Ahead l; Turn s2 a2] in
  fst Q = (n, e) -> same_heading (snd Q) h' ->
  dist (hub P r s1) (hub (n, e, h') r s2) = IZR w ->
  hub (n, e, h') r s2 = around (hub P r s1) (dist (hub P r s1) (hub (n, e, h') r s2)) th ->
  follows_exact r sep P (n, e) h' s1 s2 m th len ws -> len <= r * a1 + l + r * a2.
Proof.
  intros Rp A1 A2 L NE P Q EQ SH W CC F.
  assert (C2 : hub (n, e, h') r s2 = hub (fly r P [Turn s1 a1; Ahead l]) r s2).
  { rewrite <- (hub_pose Q r s2 n e h' EQ SH). unfold Q. change (fly r P [Turn s1 a1; Ahead l; Turn s2 a2]) with (fly1 r (fly r P [Turn s1 a1; Ahead l]) (Turn s2 a2)). apply hub_turn. }
  assert (O : s2 = other s1) by (apply other_neq; exact NE).
  assert (HT : forall a x, hub (fly r P [Turn s1 a; Ahead x]) r s2 = hub (fly r P [Turn s1 a; Ahead x]) r (other s1)) by (intros; rewrite O; reflexivity).
  rewrite HT, hub_two_other in C2. set (v := snd P - sign s1 * a1) in *.
  set (D := dist (hub P r s1) (hub (n, e, h') r s2)) in *.
  assert (S1 : sign s1 * sign s1 = 1) by (destruct s1; cbn; ring).
  assert (DD : D * D = l * l + 4 * r * r).
  { assert (X : D = sqrt (l * l + 4 * r * r)).
    { unfold D. rewrite C2. unfold dist. cbn [fst snd]. f_equal. pose proof (cs_unit v) as T.
      transitivity ((l * l + 4 * r * r * (sign s1 * sign s1)) * (cos v * cos v + sin v * sin v)); [ring|]. rewrite T, S1. ring. }
    rewrite X. apply sqrt_sqrt. assert (0 <= l * l) by apply Rle_0_sqr. assert (0 <= r * r) by apply Rle_0_sqr. lra. }
  assert (D0 : 0 <= D) by apply sqrt_pos.
  assert (DR : 2 * r <= D). { destruct (Rle_dec (2 * r) D); [assumption|]. assert (D * D < 2 * r * (2 * r)) by (apply Rmult_le_0_lt_compat; lra). assert (0 <= l * l) by apply Rle_0_sqr. lra. }
  assert (ID : iround D = D). { rewrite W. apply iround_id. apply le_IZR. rewrite <- W. exact D0. }
  destruct (least_of r sep P n e h' s1 s2 m th len ws a1 l a2 Rp A1 A2 SH F) as (k & _ & K1 & K0 & K).
  - fold v D. rewrite ID. intros b k HB K0 (_ & M). destruct (M NE DR) as (-> & MK). rewrite HT, hub_two_other in HB.
    assert (KL : k = l). { assert (X : (k - l) * (k + l) = 0) by (ring_simplify; lra). apply Rmult_integral in X. lra. }
    subst k. rewrite <- CC, C2 in HB. set (u := snd P - sign s1 * b) in *.
    assert (E1 : l * cos u - 2 * r * (sign s1 * sin u) = l * cos v - 2 * r * (sign s1 * sin v)) by (pose proof (f_equal fst HB) as X; cbn [fst snd] in X; lra).
    assert (E2 : l * sin u + 2 * r * (sign s1 * cos u) = l * sin v + 2 * r * (sign s1 * cos v)) by (pose proof (f_equal snd HB) as X; cbn [fst snd] in X; lra).
    assert (DN : D * D <> 0) by (assert (0 < D * D) by (apply Rmult_lt_0_compat; lra); lra).
    assert (G : forall z, D * D * cos z = l * (l * cos z - 2 * r * (sign s1 * sin z)) + 2 * r * sign s1 * (l * sin z + 2 * r * (sign s1 * cos z)) /\
                          D * D * sin z = l * (l * sin z + 2 * r * (sign s1 * cos z)) - 2 * r * sign s1 * (l * cos z - 2 * r * (sign s1 * sin z))).
    { intros z. rewrite DD. split.
      - transitivity ((l * l + 4 * r * r * (sign s1 * sign s1)) * cos z); [rewrite S1; ring|ring].
      - transitivity ((l * l + 4 * r * r * (sign s1 * sign s1)) * sin z); [rewrite S1; ring|ring]. }
    destruct (G u) as (Gu1 & Gu2), (G v) as (Gv1 & Gv2). rewrite E1, E2 in Gu1, Gu2.
    split; apply Rmult_eq_reg_l with (D * D); congruence.
  - fold D. rewrite ID. intros _. exact DR.
  - specialize (K1 NE). fold D in K1. rewrite ID in K1. cbv zeta in K1.
    assert (KL : k = l). { assert (X : (k - l) * (k + l) = 0) by (ring_simplify; lra). apply Rmult_integral in X. lra. }
    lra.
Qed.

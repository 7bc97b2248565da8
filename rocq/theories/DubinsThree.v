(** Flights of three turns between the same two turns have the same angles. *)
From Coq Require Import Reals List ZArith Lra Lia.
From Verif Require Import SteeringCourseModel SteeringCourseProps PiBounds DubinsModel DubinsSpec DubinsProofs DubinsTangent DubinsTurns DubinsChoice DubinsShort.
Import ListNotations.
Open Scope R_scope.

Lemma other_other s : other (other s) = s. Proof. destruct s; reflexivity. Qed.
Lemma sign_other s : sign (other s) = - sign s. Proof. destruct s; cbn; ring. Qed.

(** Where the third turn is: [u] is the heading behind the first turn. *)
Lemma hub_three r P s a b : let u := snd P - sign s * a in let x := 1 - cos b in let y := sin b in
  hub (fly r P [Turn s a; Turn (other s) b]) r s =
  (fst (hub P r s) + 2 * r * (cos u * y - sign s * (sin u * x)), snd (hub P r s) + 2 * r * (sin u * y + sign s * (cos u * x))).
Proof.
  intros u x y. cbn [fly fold_left].
  assert (S1 : sign s * sign s = 1) by (destruct s; cbn; ring).
  pose proof (hub_other r (fly1 r (fly1 r P (Turn s a)) (Turn (other s) b)) (other s)) as H1. rewrite other_other in H1.
  rewrite H1, hub_turn, hub_other, hub_turn, !turn_heading, sign_other. fold u. cbn [fst snd].
  replace (u - - sign s * b) with (u + sign s * b) by ring.
  assert (C : cos (u + sign s * b) = cos u * cos b - sign s * (sin u * sin b)).
  { rewrite cos_plus. destruct s; cbn [sign]; [replace (-1 * b) with (- b) by ring; rewrite cos_neg, sin_neg|rewrite !Rmult_1_l]; ring. }
  assert (Sx : sin (u + sign s * b) = sin u * cos b + sign s * (cos u * sin b)).
  { rewrite sin_plus. destruct s; cbn [sign]; [replace (-1 * b) with (- b) by ring; rewrite cos_neg, sin_neg|rewrite !Rmult_1_l]; ring. }
  rewrite C, Sx. unfold x, y. f_equal.
  - transitivity (fst (hub P r s) + 2 * r * (sign s * sign s * (cos u * sin b) - sign s * (sin u * (1 - cos b)))); [ring|rewrite S1; ring].
  - transitivity (snd (hub P r s) + 2 * r * (sign s * sign s * (sin u * sin b) + sign s * (cos u * (1 - cos b)))); [ring|rewrite S1; ring].
Qed.
Lemma hub_three_far r P s a b :
  dist (hub P r s) (hub (fly r P [Turn s a; Turn (other s) b]) r s) = sqrt (8 * r * r * (1 - cos b)).
Proof.
  rewrite hub_three. cbv zeta. set (u := snd P - sign s * a). unfold dist. cbn [fst snd]. f_equal.
  assert (S1 : sign s * sign s = 1) by (destruct s; cbn; ring). pose proof (cs_unit u) as T. pose proof (cs_unit b) as T2.
  transitivity (4 * r * r * ((sign s * sign s) * ((1 - cos b) * (1 - cos b)) + sin b * sin b) * (cos u * cos u + sin u * sin u)); [ring|].
  rewrite T, S1. transitivity (4 * r * r * (1 - 2 * cos b + (cos b * cos b + sin b * sin b))); [ring|rewrite T2; ring].
Qed.

Lemma cos_lower b b' : PI <= b <= 2 * PI -> PI <= b' <= 2 * PI -> cos b = cos b' -> b = b'.
Proof.
  intros B B' C. destruct (Rtotal_order b b') as [L|[E|G]]; [|exact E|].
  - assert (cos b < cos b') by (apply cos_increasing_1; lra). lra.
  - assert (cos b' < cos b) by (apply cos_increasing_1; lra). lra.
Qed.

Lemma small_turn a a' : 0 < a < 2 * PI -> - (1 / 1000000000) <= a' <= 2 * PI -> cos (a - a') = 1 -> Rmax 0 a' <= a.
Proof.
  pose proof PI_low. intros A A' C. destruct (Rle_dec a' 0); [rewrite Rmax_left; lra|]. rewrite Rmax_right by lra.
  assert (Z : a - a' = 0) by (apply same_angle; [exact C|lra]). lra.
Qed.

Lemma shortest_three r sep start h n e h' s a b c len ws : 1 <= r -> 0 < a < 2 * PI -> PI <= b < 2 * PI -> 0 < c < 2 * PI ->
  let P := (start, h) in let Q := fly r P [Turn s a; Turn (other s) b; Turn s c] in
  fst Q = (n, e) -> same_heading (snd Q) h' ->
  follows_turns r sep P (n, e) h' s len ws -> len <= r * (a + b + c).
Proof.
  pose proof PI_low as PL. intros Rp A B C P Q EQ SH (a' & b' & c' & w1 & w2 & w3 & A' & B' & C' & SH' & EQ' & _ & _ & _ & _ & L).
  assert (H1 : hub (n, e, h') r s = hub (fly r P [Turn s a; Turn (other s) b]) r s).
  { rewrite <- (hub_pose Q r s n e h' EQ SH). unfold Q. change (fly r P [Turn s a; Turn (other s) b; Turn s c]) with (fly1 r (fly r P [Turn s a; Turn (other s) b]) (Turn s c)). apply hub_turn. }
  assert (H2 : hub (n, e, h') r s = hub (fly r P [Turn s a'; Turn (other s) b']) r s).
  { rewrite <- (hub_pose _ r s n e h' EQ' SH'). change (fly r P [Turn s a'; Turn (other s) b'; Turn s c']) with (fly1 r (fly r P [Turn s a'; Turn (other s) b']) (Turn s c')). apply hub_turn. }
  assert (S1 : sign s * sign s = 1) by (destruct s; cbn; ring).
  assert (BB : b' = b).
  { apply cos_lower; [lra|lra|]. pose proof (hub_three_far r P s a b) as F1. pose proof (hub_three_far r P s a' b') as F2.
    rewrite <- H1 in F1. rewrite <- H2 in F2. rewrite F1 in F2.
    assert (R2 : 0 < r * r) by (apply Rmult_lt_0_compat; lra). pose proof (COS_bound b). pose proof (COS_bound b').
    apply sqrt_inj in F2; [|apply Rmult_le_pos; lra|apply Rmult_le_pos; lra].
    apply Rmult_eq_reg_l in F2; lra. }
  subst b'. rewrite hub_three in H1, H2. cbv zeta in *. rewrite H1 in H2. clear H1.
  set (u := snd P - sign s * a) in *. set (u' := snd P - sign s * a') in *. set (x := 1 - cos b) in *. set (y := sin b) in *.
  assert (E1 : cos u * y - sign s * (sin u * x) = cos u' * y - sign s * (sin u' * x)).
  { pose proof (f_equal fst H2) as X. cbn [fst snd] in X. apply Rmult_eq_reg_l with (2 * r); lra. }
  assert (E2 : sin u * y + sign s * (cos u * x) = sin u' * y + sign s * (cos u' * x)).
  { pose proof (f_equal snd H2) as X. cbn [fst snd] in X. apply Rmult_eq_reg_l with (2 * r); lra. }
  assert (K : x * x + y * y <> 0).
  { assert (0 < x). { unfold x. assert (cos b < cos (2 * PI)) by (apply cos_increasing_1; lra). rewrite cos_2PI in *. lra. }
    assert (0 < x * x) by (apply Rmult_lt_0_compat; lra). assert (0 <= y * y) by apply Rle_0_sqr. lra. }
  assert (G : forall z, (x * x + y * y) * cos z = y * (cos z * y - sign s * (sin z * x)) + sign s * x * (sin z * y + sign s * (cos z * x)) /\
                        (x * x + y * y) * sin z = y * (sin z * y + sign s * (cos z * x)) - sign s * x * (cos z * y - sign s * (sin z * x))).
  { intros z. split.
    - transitivity ((x * x * (sign s * sign s) + y * y) * cos z); [rewrite S1; ring|ring].
    - transitivity ((x * x * (sign s * sign s) + y * y) * sin z); [rewrite S1; ring|ring]. }
  assert (V : same_heading u u').
  { destruct (G u) as (Gu1 & Gu2), (G u') as (Gv1 & Gv2). rewrite E1, E2 in Gu1, Gu2. split; apply Rmult_eq_reg_l with (x * x + y * y); congruence. }
  assert (X1 : Rmax 0 a' <= a).
  { apply small_turn; [exact A|exact A'|]. apply (same_turn (snd P) (snd P) s); [split; reflexivity|apply V|apply V]. }
  assert (X2 : Rmax 0 c' <= c).
  { apply small_turn; [exact C|lra|].
    assert (F : forall a c, snd (fly r P [Turn s a; Turn (other s) b; Turn s c]) = (snd P - sign s * a - sign (other s) * b) - sign s * c).
    { intros. cbn [fly fold_left]. rewrite !turn_heading. reflexivity. }
    unfold Q in SH. rewrite !F in *. fold u in SH. fold u' in SH'.
    apply (same_turn (u - sign (other s) * b) (u' - sign (other s) * b) s c c').
    - destruct V as (V1 & V2). split; [rewrite !cos_minus, V1, V2; reflexivity|rewrite !sin_minus, V1, V2; reflexivity].
    - destruct SH as (-> & _), SH' as (-> & _). reflexivity.
    - destruct SH as (_ & ->), SH' as (_ & ->). reflexivity. }
  rewrite (Rmax_right 0 c') in X2 by lra. rewrite L. apply Rmult_le_compat_l; lra.
Qed.

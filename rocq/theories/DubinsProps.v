(** C100: the way of turns and straight legs that is worked out from one place and heading to another can be flown, and is among the
    shortest of its kinds. *)
From Coq Require Import Reals List ZArith Lra Lia.
From Verif Require Import SteeringCourseModel SteeringCourseProps PiBounds DubinsModel DubinsSpec DubinsProofs DubinsTangent DubinsTurns DubinsChoice DubinsShort DubinsThree DubinsAbout.
Import ListNotations.
Open Scope R_scope.

(** The vehicle is at [start] with heading [h] and has to come to [finish] with heading [h'].  The centres of the turns at the start are
    at least half a metre from those at the finish. *)
Definition clear (r : R) (start : place) (h : R) (finish : place) (h' : R) : Prop :=
  forall s1 s2, 1 / 2 <= dist (hub (start, h) r s1) (hub (finish, h') r s2).

(** A way is always found, and its waypoints follow a flight with turns of the radius given, which begins as the vehicle is and comes to
    the heading wanted at the place wanted, or within a metre of it. *)
Theorem C100_flyable r sep start h finish h' : 1 <= r -> 0 < sep -> clear r start h finish h' ->
  exists len ws, dubins start h finish h' r sep = Some (len, ws) /\
    ((exists s1 s2, follows_straight r sep (start, h) finish h' s1 s2 len ws) \/ (exists s, follows_turns r sep (start, h) finish h' s len ws)).
Proof.
  intros Rp Sp Far. destruct (dubins_full r sep start h finish h' Rp Sp Far) as (len & ws & E & G & _). exists len, ws. split; [exact E|exact G].
Qed.
Print Assumptions C100_flyable.

(** No flight of a turn, a straight leg and a turn of the same sense is shorter by more than half a metre. *)
Theorem C100_shortest_same r sep start h finish h' len ws s a1 l a2 : 1 <= r -> 0 < sep -> clear r start h finish h' ->
  dubins start h finish h' r sep = Some (len, ws) ->
  0 <= a1 < 2 * PI -> 0 <= l -> 0 <= a2 < 2 * PI ->
  let Q := fly r (start, h) [Turn s a1; Ahead l; Turn s a2] in
  fst Q = finish -> same_heading (snd Q) h' -> len <= r * a1 + l + r * a2 + 1 / 2.
Proof.
  intros Rp Sp Far E A1 L A2 Q EQ SH. destruct finish as (n, e). destruct (dubins_full r sep start h (n, e) h' Rp Sp Far) as (len' & ws' & E' & _ & O).
  rewrite E in E'. injection E' as <- <-. destruct (O s s) as (O1 & _). destruct (O1 (or_introl eq_refl)) as (m & th & len2 & ws2 & CC & F & N).
  cbn [no_longer] in N. pose proof (shortest_same r sep start h n e h' s a1 l a2 len2 ws2 m th Rp A1 A2 L EQ SH (Far s s) CC F). lra.
Qed.
Print Assumptions C100_shortest_same.

(** No flight of a turn, a straight leg and a turn of the other sense is shorter, if the centres of the two turns are a whole number of
    metres apart. *)
Theorem C100_shortest_other r sep start h finish h' len ws s a1 l a2 (w : Z) : 1 <= r -> 0 < sep -> clear r start h finish h' ->
  dubins start h finish h' r sep = Some (len, ws) ->
  0 <= a1 < 2 * PI -> 0 <= l -> 0 <= a2 < 2 * PI ->
  let Q := fly r (start, h) [Turn s a1; Ahead l; Turn (other s) a2] in
  fst Q = finish -> same_heading (snd Q) h' -> dist (hub (start, h) r s) (hub (finish, h') r (other s)) = IZR w ->
  len <= r * a1 + l + r * a2.
Proof.
  intros Rp Sp Far E A1 L A2 Q EQ SH W. destruct finish as (n, e). destruct (dubins_full r sep start h (n, e) h' Rp Sp Far) as (len' & ws' & E' & _ & O).
  rewrite E in E'. injection E' as <- <-. destruct (O s (other s)) as (O1 & _).
  assert (NE : s <> other s) by (destruct s; discriminate).
  assert (D : 2 * r <= dist (hub (start, h) r s) (hub (n, e, h') r (other s))).
  { assert (C2 : hub (n, e, h') r (other s) = hub (fly r (start, h) [Turn s a1; Ahead l]) r (other s)).
    { rewrite <- (hub_pose Q r (other s) n e h' EQ SH). unfold Q.
      change (fly r (start, h) [Turn s a1; Ahead l; Turn (other s) a2]) with (fly1 r (fly r (start, h) [Turn s a1; Ahead l]) (Turn (other s) a2)). apply hub_turn. }
    rewrite C2, hub_two_other. set (u := snd (start, h) - sign s * a1). unfold dist. cbn [fst snd].
    apply Rle_trans with (sqrt ((2 * r) * (2 * r))); [rewrite sqrt_square; lra|]. apply sqrt_le_1_alt. pose proof (cs_unit u) as T.
    assert (S1 : sign s * sign s = 1) by (destruct s; cbn; ring).
    match goal with |- _ <= ?x => replace x with ((l * l + 4 * r * r * (sign s * sign s)) * (cos u * cos u + sin u * sin u)) by ring end.
    rewrite T, S1. pose proof (Rle_0_sqr l) as LL. unfold Rsqr in LL. lra. }
  destruct O1 as (m & th & len2 & ws2 & CC & F & N); [right; apply iround_mono; lra|].
  cbn [no_longer] in N. pose proof (shortest_other r sep start h n e h' s (other s) a1 l a2 len2 ws2 m th w Rp A1 A2 L NE EQ SH W CC F). lra.
Qed.
Print Assumptions C100_shortest_other.

(** No flight of three turns of alternating senses is shorter, if the finish is within three radii of the place one radius east or one
    radius west of the start. *)
Theorem C100_shortest_three r sep start h finish h' len ws s a b c : 1 <= r -> 0 < sep -> clear r start h finish h' ->
  dubins start h finish h' r sep = Some (len, ws) ->
  0 < a < 2 * PI -> PI <= b < 2 * PI -> 0 < c < 2 * PI ->
  let Q := fly r (start, h) [Turn s a; Turn (other s) b; Turn s c] in
  fst Q = finish -> same_heading (snd Q) h' ->
  (dist finish (fst start, snd start + r) < 3 * r \/ dist finish (fst start, snd start - r) < 3 * r) ->
  len <= r * (a + b + c).
Proof.
  intros Rp Sp Far E A B C Q EQ SH Near. destruct finish as (n, e). destruct (dubins_full r sep start h (n, e) h' Rp Sp Far) as (len' & ws' & E' & _ & O).
  rewrite E in E'. injection E' as <- <-. destruct (O s s) as (_ & O2).
  destruct O2 as (len2 & ws2 & F & N); [reflexivity| |exact Near|].
  - assert (C2 : hub (n, e, h') r s = hub (fly r (start, h) [Turn s a; Turn (other s) b]) r s).
    { rewrite <- (hub_pose Q r s n e h' EQ SH). unfold Q.
      change (fly r (start, h) [Turn s a; Turn (other s) b; Turn s c]) with (fly1 r (fly r (start, h) [Turn s a; Turn (other s) b]) (Turn s c)). apply hub_turn. }
    rewrite C2, hub_three_far. rewrite <- (sqrt_square (4 * r)) by lra. apply sqrt_le_1_alt.
    pose proof (COS_bound b) as K. pose proof (Rle_0_sqr r) as RR. unfold Rsqr in RR.
    assert (0 <= (r * r) * (1 + cos b)) by (apply Rmult_le_pos; lra). lra.
  - cbn [no_longer] in N. pose proof (shortest_three r sep start h n e h' s a b c len2 ws2 Rp A B C EQ SH F). lra.
Qed.
Print Assumptions C100_shortest_three.

(** If the centres of a turn at the start and of one at the finish are the same, what is found need not be a way at all: for turning
    about in place, to come back on the same line, a single waypoint at the start is answered, of length 0. *)
Theorem C100_turnabout_refuted r sep k : 1 <= r -> 2 * r = IZR k -> 0 < sep ->
  dubins (0, 0) 0 (0, 0) PI r sep = Some (0, [{| spot := (0, 0); long := 0; turn := None |}]).
Proof.
  intros Rp W Sp. unfold dubins. rewrite !circles_hub. cbn [fold_left].
  destruct (about_first r sep Rp Sp) as (t1 & w1 & -> & T1).
  assert (A2 : exists t2 w2, snd (attempt (0, 0) (0, 0) sep (ring_of (0, 0, 0) r Cw, Some (t1, w1)) (ring_of (0, 0, PI) r Ccw)) = Some (t2, w2) /\ 0 < t2).
  { destruct (about_opposite r sep Ccw t1 w1 Rp Sp T1) as (t2 & w2 & E & T2). cbn [other] in E. rewrite E. exists t2, w2. split; [reflexivity|exact T2]. }
  destruct A2 as (t2 & w2 & -> & T2).
  destruct (about_opposite r sep Cw t2 w2 Rp Sp T2) as (t3 & w3 & E3 & T3). cbn [other] in E3. rewrite E3.
  unfold attempt. rewrite (about_last r sep k Rp W).
  assert (TT : forall c1 c2, same_sense (way c1) (way c2) = false -> three_turns (0, 0) (0, 0) c1 c2 = false) by (intros c1 c2 X; unfold three_turns; rewrite X; reflexivity).
  rewrite TT by reflexivity. cbn [snd].
  assert (Z : total None [{| spot := (0, 0); long := 0; turn := None |}] = 0). { cbn. destruct (Rlt_dec 0 0); lra. }
  cbn [keep]. rewrite Z. destruct (Rlt_dec 0 t3); [reflexivity|lra].
Qed.
Print Assumptions C100_turnabout_refuted.

(** The cases below: the places and headings of the theorems. *)
Lemma dist_half p q x : 1 / 2 <= x -> (fst p - fst q) * (fst p - fst q) + (snd p - snd q) * (snd p - snd q) = x * x -> 1 / 2 <= dist p q.
Proof. intros X E. unfold dist. rewrite E, sqrt_square; lra. Qed.
Lemma dist_half' p q : 1 <= (fst p - fst q) * (fst p - fst q) + (snd p - snd q) * (snd p - snd q) -> 1 / 2 <= dist p q.
Proof. intros X. unfold dist. pose proof (sqrt_le_1_alt _ _ X) as Y. rewrite sqrt_1 in Y. lra. Qed.

(** Straight ahead for a kilometre: the way is at most half a metre longer. *)
Example C100_ahead : clear 100 (0, 0) 0 (1000, 0) 0 /\
  exists len ws, dubins (0, 0) 0 (1000, 0) 0 100 20 = Some (len, ws) /\ len <= 1000 + 1 / 2.
Proof.
  assert (F : clear 100 (0, 0) 0 (1000, 0) 0).
  { intros s1 s2. apply dist_half'. destruct s1, s2; cbn; rewrite sin_0, cos_0; lra. }
  split; [exact F|]. destruct (C100_flyable 100 20 (0, 0) 0 (1000, 0) 0) as (len & ws & E & _); [lra|lra|exact F|].
  exists len, ws. split; [exact E|]. pose proof PI_low.
  enough (len <= 100 * 0 + 1000 + 100 * 0 + 1 / 2) by lra.
  apply (C100_shortest_same 100 20 (0, 0) 0 (1000, 0) 0 len ws Cw 0 1000 0); try lra; try assumption.
  - cbn. rewrite !Rplus_0_r, sin_0, cos_0. f_equal; ring.
  - cbn. rewrite !Rplus_0_r. split; reflexivity.
Qed.

(** A right turn, 150 m, and a left turn. *)
Example C100_aside : clear 100 (0, 0) 0 (200, 350) 0 /\
  exists len ws, dubins (0, 0) 0 (200, 350) 0 100 20 = Some (len, ws) /\ len <= 150 + 100 * PI.
Proof.
  assert (F : clear 100 (0, 0) 0 (200, 350) 0).
  { intros s1 s2. apply dist_half'. destruct s1, s2; cbn; rewrite sin_0, cos_0; lra. }
  split; [exact F|]. destruct (C100_flyable 100 20 (0, 0) 0 (200, 350) 0) as (len & ws & E & _); [lra|lra|exact F|].
  exists len, ws. split; [exact E|]. pose proof PI_low.
  enough (len <= 100 * (PI / 2) + 150 + 100 * (PI / 2)) by lra.
  apply (C100_shortest_other 100 20 (0, 0) 0 (200, 350) 0 len ws Cw (PI / 2) 150 (PI / 2) 250); try lra; try assumption.
  - cbn. rewrite !Rplus_0_l. replace (PI / 2 - PI / 2) with 0 by ring. rewrite sin_PI2, cos_PI2, sin_0, cos_0. f_equal; ring.
  - cbn. replace (0 + PI / 2 - PI / 2) with 0 by ring. split; reflexivity.
  - unfold dist. cbn. rewrite sin_0, cos_0. match goal with |- sqrt ?x = _ => replace x with (250 * 250) by ring end. apply sqrt_square. lra.
Qed.

(** Three turns: right, left and right. *)
Example C100_beside : clear 100 (0, 0) 0 (200, -200) 0 /\
  exists len ws, dubins (0, 0) 0 (200, -200) 0 100 20 = Some (len, ws) /\ len <= 300 * PI.
Proof.
  assert (F : clear 100 (0, 0) 0 (200, -200) 0).
  { intros s1 s2. apply dist_half'. destruct s1, s2; cbn; rewrite sin_0, cos_0; lra. }
  split; [exact F|]. destruct (C100_flyable 100 20 (0, 0) 0 (200, -200) 0) as (len & ws & E & _); [lra|lra|exact F|].
  exists len, ws. split; [exact E|]. pose proof PI_low.
  enough (len <= 100 * (PI / 2 + 3 * (PI / 2) + PI)) by lra.
  apply (C100_shortest_three 100 20 (0, 0) 0 (200, -200) 0 len ws Cw (PI / 2) (3 * (PI / 2)) PI); try lra; try assumption.
  - cbn. rewrite !Rplus_0_l. replace (PI / 2 - 3 * (PI / 2)) with (- PI) by field. replace (- PI + PI) with 0 by ring.
    rewrite sin_PI2, cos_PI2, sin_neg, cos_neg, sin_PI, cos_PI, sin_0, cos_0. f_equal; ring.
  - cbn. replace (0 + PI / 2 - 3 * (PI / 2) + PI) with 0 by field. split; reflexivity.
  - right. unfold dist. cbn [fst snd]. rewrite <- (sqrt_square (3 * 100)) by lra. apply sqrt_lt_1_alt. lra.
Qed.

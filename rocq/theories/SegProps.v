(** C53: the test whether two segments cross. *)
From Coq Require Import QArith Qabs Bool Lqa Qfield.
From Verif Require Import SegModel SegSpec.
Open Scope Q_scope.

Lemma sign_pos : forall a, 0 < a -> sign a == 1.
Proof.
  intros a H. unfold sign. destruct (Qeq_bool a 0) eqn:E; [reflexivity|].
  rewrite Qabs_pos by lra. field. lra.
Qed.
Lemma sign_neg : forall a, a < 0 -> sign a == -1.
Proof.
  intros a H. unfold sign. destruct (Qeq_bool a 0) eqn:E.
  - apply Qeq_bool_iff in E. lra.
  - rewrite Qabs_neg by lra. field. lra.
Qed.

Lemma side : forall a b, nonzero a && nonzero b && same_signs a b = false <-> a * b <= 0.
Proof.
  intros a b. unfold nonzero, same_signs.
  destruct (Qeq_bool a 0) eqn:A; cbn [negb andb].
  { apply Qeq_bool_iff in A. split; [|reflexivity]. intros _. rewrite A. lra. }
  destruct (Qeq_bool b 0) eqn:B; cbn [negb andb].
  { apply Qeq_bool_iff in B. split; [|reflexivity]. intros _. rewrite B. lra. }
  apply Qeq_bool_neq in A. apply Qeq_bool_neq in B.
  assert (SA : a < 0 \/ 0 < a) by (destruct (Q_dec a 0) as [[H|H]|H]; auto; contradiction).
  assert (SB : b < 0 \/ 0 < b) by (destruct (Q_dec b 0) as [[H|H]|H]; auto; contradiction).
  destruct (Qeq_bool (sign a) (sign b)) eqn:E.
  - apply Qeq_bool_iff in E. split; [discriminate|]. intros H. exfalso.
    destruct SA as [SA|SA], SB as [SB|SB];
      rewrite ?(sign_neg _ SA), ?(sign_pos _ SA), ?(sign_neg _ SB), ?(sign_pos _ SB) in E; try nra.
  - apply Qeq_bool_neq in E. split; [|reflexivity]. intros _.
    destruct SA as [SA|SA], SB as [SB|SB]; try nra; exfalso; apply E;
      rewrite ?(sign_neg _ SA), ?(sign_pos _ SA), ?(sign_neg _ SB), ?(sign_pos _ SB); reflexivity.
Qed.

(** [t = p / (p - q)] divides a segment whose ends lie at signed distances [p] and [q]. *)
Lemma ratio : forall p q, p * q <= 0 -> ~ p - q == 0 -> 0 <= p / (p - q) /\ p / (p - q) <= 1.
Proof.
  intros p q H N. destruct (Q_dec (p - q) 0) as [[S|S]|S]; [| |contradiction].
  - assert (p <= 0) by nra. assert (0 <= q) by nra. split.
    + setoid_replace (p / (p - q)) with ((- p) / (q - p)) by (field; split; lra).
      apply Qle_shift_div_l; lra.
    + setoid_replace (p / (p - q)) with ((- p) / (q - p)) by (field; split; lra).
      apply Qle_shift_div_r; lra.
  - assert (0 <= p) by nra. assert (q <= 0) by nra. split.
    + apply Qle_shift_div_l; lra.
    + apply Qle_shift_div_r; lra.
Qed.


(** The line through [(x1,y1)] and [(x2,y2)], evaluated at [(x,y)]. *)
Definition side_of (x1 y1 x2 y2 x y : Q) : Q := (y2 - y1) * x + (x1 - x2) * y + (x2 * y1 - x1 * y2).

Lemma find_unfold : forall A1 A2 B1 B2,
  let r3 := side_of (east A1) (north A1) (east A2) (north A2) (east B1) (north B1) in
  let r4 := side_of (east A1) (north A1) (east A2) (north A2) (east B2) (north B2) in
  let r1 := side_of (east B1) (north B1) (east B2) (north B2) (east A1) (north A1) in
  let r2 := side_of (east B1) (north B1) (east B2) (north B2) (east A2) (north A2) in
  let d := (north A2 - north A1) * (east B1 - east B2) - (north B2 - north B1) * (east A1 - east A2) in
  find A1 A2 B1 B2 <> None <-> r3 * r4 <= 0 /\ r1 * r2 <= 0 /\ ~ d == 0.
Proof.
  intros A1 A2 B1 B2 r3 r4 r1 r2 d. unfold find. fold (side_of (east A1) (north A1) (east A2) (north A2) (east B1) (north B1)).
  fold (side_of (east A1) (north A1) (east A2) (north A2) (east B2) (north B2)).
  fold (side_of (east B1) (north B1) (east B2) (north B2) (east A1) (north A1)).
  fold (side_of (east B1) (north B1) (east B2) (north B2) (east A2) (north A2)).
  fold r3 r4 r1 r2 d. rewrite <- !side. destruct (nonzero r3 && nonzero r4 && same_signs r3 r4).
  { split; [congruence|intros (X & _); discriminate]. }
  destruct (nonzero r1 && nonzero r2 && same_signs r1 r2).
  { split; [congruence|intros (_ & X & _); discriminate]. }
  destruct (Qeq_bool d 0) eqn:D.
  - apply Qeq_bool_iff in D. split; [congruence|intros (_ & _ & X); contradiction].
  - apply Qeq_bool_neq in D. split; [auto|discriminate].
Qed.

Lemma between : forall t p q, 0 <= t -> t <= 1 -> p + t * (q - p) == 0 -> p * q <= 0.
Proof.
  intros t p q H0 H1 E.
  destruct (Qlt_le_dec 0 (p * q)) as [L|]; [|assumption]. exfalso.
  destruct (Qlt_le_dec 0 p) as [P|P].
  - assert (0 < q) by nra. nra.
  - assert (q < 0) by nra. assert (p < 0) by nra. nra.
Qed.

Theorem C53_crosses : forall A1 A2 B1 B2,
  crosses A1 A2 B1 B2 = true <-> ~ parallel A1 A2 B1 B2 /\ meet A1 A2 B1 B2.
Proof.
  intros A1 A2 B1 B2.
  assert (X : crosses A1 A2 B1 B2 = true <-> find A1 A2 B1 B2 <> None).
  { unfold crosses. destruct (find A1 A2 B1 B2); split; congruence. }
  rewrite X, find_unfold. clear X. unfold parallel, meet, on_segment, side_of.
  destruct A1 as [x1 y1], A2 as [x2 y2], B1 as [x3 y3], B2 as [x4 y4]; cbn [east north].
  split.
  - intros (H34 & H12 & D). split.
    + intros E. apply D. lra.
    + set (r1 := (y4 - y3) * x1 + (x3 - x4) * y1 + (x4 * y3 - x3 * y4)) in *.
      set (r2 := (y4 - y3) * x2 + (x3 - x4) * y2 + (x4 * y3 - x3 * y4)) in *.
      set (r3 := (y2 - y1) * x3 + (x1 - x2) * y3 + (x2 * y1 - x1 * y2)) in *.
      set (r4 := (y2 - y1) * x4 + (x1 - x2) * y4 + (x2 * y1 - x1 * y2)) in *.
      assert (D34 : r3 - r4 == (y2 - y1) * (x3 - x4) - (y4 - y3) * (x1 - x2)) by (unfold r3, r4; ring).
      assert (D12 : r1 - r2 == - ((y2 - y1) * (x3 - x4) - (y4 - y3) * (x1 - x2))) by (unfold r1, r2; ring).
      assert (N34 : ~ r3 - r4 == 0) by lra. assert (N12 : ~ r1 - r2 == 0) by lra.
      destruct (ratio _ _ H34 N34) as (T0 & T1). destruct (ratio _ _ H12 N12) as (S0 & S1).
      exists {| east := x1 + r1 / (r1 - r2) * (x2 - x1); north := y1 + r1 / (r1 - r2) * (y2 - y1) |}.
      cbn [east north]. split.
      * exists (r1 / (r1 - r2)). repeat split; try assumption; reflexivity.
      * exists (r3 / (r3 - r4)). split; [assumption|]. split; [assumption|].
        set (d := (y2 - y1) * (x3 - x4) - (y4 - y3) * (x1 - x2)) in *.
        rewrite D12, D34.
        split; (field_simplify_eq; [unfold d, r1, r3; ring|try split; lra]).
  - intros (D & P & (s & S0 & S1 & SX & SY) & (t & T0 & T1 & TX & TY)).
    assert (E1 : east P == x3 + t * (x4 - x3)) by exact TX.
    split; [|split].
    + apply (between t); try assumption.
      assert (Z : (y2 - y1) * east P + (x1 - x2) * north P + (x2 * y1 - x1 * y2) == 0) by (rewrite SX, SY; ring).
      rewrite TX, TY in Z. rewrite <- Z. ring.
    + apply (between s); try assumption.
      assert (Z : (y4 - y3) * east P + (x3 - x4) * north P + (x4 * y3 - x3 * y4) == 0) by (rewrite TX, TY; ring).
      rewrite SX, SY in Z. rewrite <- Z. ring.
    + intros E. apply D. lra.
Qed.
Print Assumptions C53_crosses.

Lemma half : forall n d, ~ d == 0 ->
  Qabs ((if negative n then n - (if negative d then - d / 2 else d / 2)
         else n + (if negative d then - d / 2 else d / 2)) / d - n / d) == 1 # 2.
Proof.
  intros n d D. destruct (negative n), (negative d).
  - setoid_replace ((n - - d / 2) / d - n / d) with (1 # 2) by (field; exact D). reflexivity.
  - setoid_replace ((n - d / 2) / d - n / d) with (- (1 # 2)) by (field; exact D). reflexivity.
  - setoid_replace ((n + - d / 2) / d - n / d) with (- (1 # 2)) by (field; exact D). reflexivity.
  - setoid_replace ((n + d / 2) / d - n / d) with (1 # 2) by (field; exact D). reflexivity.
Qed.

(** The point given out is not the crossing point: both its coordinates are off by one half. *)
Theorem C53_point_refuted : forall A1 A2 B1 B2 P X,
  find A1 A2 B1 B2 = Some P -> on_segment X A1 A2 -> on_segment X B1 B2 ->
  Qabs (east P - east X) == 1 # 2 /\ Qabs (north P - north X) == 1 # 2.
Proof.
  intros A1 A2 B1 B2 P X F (s & _ & _ & SX & SY) (t & _ & _ & TX & TY).
  unfold find in F.
  destruct (_ && _) in F; [discriminate|]. destruct (_ && _) in F; [discriminate|].
  destruct (Qeq_bool _ 0) eqn:D in F; [discriminate|]. apply Qeq_bool_neq in D.
  injection F as F. subst P. cbn [east north].
  destruct A1 as [x1 y1], A2 as [x2 y2], B1 as [x3 y3], B2 as [x4 y4]; cbn [east north] in *.
  assert (L1 : (y2 - y1) * east X + (x1 - x2) * north X + (x2 * y1 - x1 * y2) == 0) by (rewrite SX, SY; ring).
  assert (L2 : (y4 - y3) * east X + (x3 - x4) * north X + (x4 * y3 - x3 * y4) == 0) by (rewrite TX, TY; ring).
  set (d := (y2 - y1) * (x3 - x4) - (y4 - y3) * (x1 - x2)) in *.
  assert (EX : east X == ((x1 - x2) * (x4 * y3 - x3 * y4) - (x3 - x4) * (x2 * y1 - x1 * y2)) / d).
  { apply (Qmult_inj_r _ _ d D). field_simplify; [|exact D].
    assert (M : (x3 - x4) * ((y2 - y1) * east X + (x1 - x2) * north X + (x2 * y1 - x1 * y2))
              - (x1 - x2) * ((y4 - y3) * east X + (x3 - x4) * north X + (x4 * y3 - x3 * y4)) == 0)
      by (rewrite L1, L2; ring).
    unfold d. lra. }
  assert (EY : north X == ((y4 - y3) * (x2 * y1 - x1 * y2) - (y2 - y1) * (x4 * y3 - x3 * y4)) / d).
  { apply (Qmult_inj_r _ _ d D). field_simplify; [|exact D].
    assert (M : (y2 - y1) * ((y4 - y3) * east X + (x3 - x4) * north X + (x4 * y3 - x3 * y4))
              - (y4 - y3) * ((y2 - y1) * east X + (x1 - x2) * north X + (x2 * y1 - x1 * y2)) == 0)
      by (rewrite L1, L2; ring).
    unfold d. lra. }
  rewrite EX, EY. split; apply half; exact D.
Qed.
Print Assumptions C53_point_refuted.

(** The order in which the segments and their ends are given does not matter. *)
Lemma on_segment_sym : forall P A B, on_segment P A B -> on_segment P B A.
Proof.
  intros P A B (s & S0 & S1 & SX & SY). exists (1 - s).
  split; [lra|]. split; [lra|]. split; [rewrite SX|rewrite SY]; ring.
Qed.

Theorem C53_symmetric : forall A1 A2 B1 B2,
  crosses A1 A2 B1 B2 = crosses B1 B2 A1 A2 /\ crosses A1 A2 B1 B2 = crosses A2 A1 B1 B2.
Proof.
  intros A1 A2 B1 B2. split; apply eq_true_iff_eq; rewrite !C53_crosses; unfold parallel, meet.
  - split; intros (N & P & H1 & H2); (split; [intros E; apply N; lra|exists P; auto]).
  - split; intros (N & P & H1 & H2); (split; [intros E; apply N; lra|exists P; split; [apply on_segment_sym|]; assumption]).
Qed.
Print Assumptions C53_symmetric.

(** A proper crossing, a touch and a miss. *)
Definition at_ (e n : Q) : pos := {| east := e; north := n |}.
Example C53_cross : crosses (at_ 0 0) (at_ 4 4) (at_ 0 4) (at_ 4 0) = true. Proof. vm_compute. reflexivity. Qed.
Example C53_touch : crosses (at_ 0 0) (at_ 4 4) (at_ 2 2) (at_ 4 0) = true. Proof. vm_compute. reflexivity. Qed.
Example C53_miss : crosses (at_ 0 0) (at_ 1 1) (at_ 0 4) (at_ 4 0) = false. Proof. vm_compute. reflexivity. Qed.

(** Segments that lie on one line are never reported, however much they overlap. *)
Theorem C53_overlap_refuted :
  (exists A1 A2 B1 B2, meet A1 A2 B1 B2 /\ crosses A1 A2 B1 B2 = false)
  /\ forall A1 A2, crosses A1 A2 A1 A2 = false.
Proof.
  split.
  - exists (at_ 0 0), (at_ 4 0), (at_ 1 0), (at_ 3 0). split; [|vm_compute; reflexivity].
    exists (at_ 2 0). split; [exists (1 # 2)|exists (1 # 2)]; cbn [at_ east north]; repeat split; lra.
  - intros A1 A2. destruct (crosses A1 A2 A1 A2) eqn:E; [|reflexivity].
    apply C53_crosses in E. destruct E as (N & _). exfalso. apply N. unfold parallel. ring.
Qed.
Print Assumptions C53_overlap_refuted.

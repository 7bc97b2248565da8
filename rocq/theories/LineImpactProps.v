(** C93, the Impact line search: its end heading is left at north for a way of two waypoints. *)
From Coq Require Import Reals List ZArith Bool Lia Lra.
From Verif Require Import RouteExtModel RouteExtGeom LinePlanModel LinePlanSpec LinePlanGeom LinePlanProofs LineOffsetModel LineOffsetSpec LineOffsetProofs LineOffsetProps
  LineOffsetWayProps LineImpactModel.
Import ListNotations.
Open Scope R_scope.

(** [h] is the heading of somebody who goes straight from [a] to [b]. *)
Definition heads (a b : place) (h : R) : Prop :=
  - PI <= h <= PI /\ exists r, 0 < r /\ fst b = fst a + r * cos h /\ snd b = snd a + r * sin h.

Lemma heading_heads a b : plc a <> plc b -> heads (plc a) (plc b) (heading a b).
Proof. intros N. exact (proj1 (C93_headings a b [] [] N)). Qed.

Lemma loop_spec : forall rest prev len s e c d mid, prev :: rest = mid ++ [c; d] ->
  exists l, impact_loop false prev rest len s e = (l, s, heading c d).
Proof.
  induction rest as [|p r IH]; intros prev len s e c d mid E.
  - destruct mid as [|x [|y mid]]; discriminate.
  - cbn [impact_loop]. destruct mid as [|x mid].
    + injection E as -> -> ->. cbn. eauto.
    + injection E as -> E. destruct r as [|q r]; [destruct mid as [|y [|z mid]]; discriminate|]. exact (IH p _ s e c d mid E).
Qed.

(** With three waypoints or more the headings are those of the first and of the last leg. *)
Theorem C93_impact_headings (a b c d : point) (plan mid post : list point) :
  plan = a :: b :: post -> plan = mid ++ [c; d] -> mid <> [] -> plc a <> plc b -> plc c <> plc d ->
  exists l start finish, impact_headings plan = (l, start, finish) /\ heads (plc a) (plc b) start /\ heads (plc c) (plc d) finish.
Proof.
  intros E1 E2 M N1 N2. rewrite E1 in *. cbn [impact_headings impact_loop]. destruct mid as [|x mid]; [contradiction|]. injection E2 as -> E2.
  destruct (loop_spec post b (0 + dist b x) (heading x b) 0 c d mid E2) as (l & ->). exists l, (heading x b), (heading c d).
  split; [reflexivity|]. split; apply heading_heads; assumption.
Qed.

Lemma loop_length : forall rest first prev len s e, fst (fst (impact_loop first prev rest len s e)) = len + way (map plc (prev :: rest)).
Proof.
  induction rest as [|p r IH]; intros first prev len s e; [cbn; ring|]. cbn [impact_loop].
  change (way (map plc (prev :: p :: r))) with (away (plc prev) (plc p) + way (map plc (p :: r))).
  assert (D : dist p prev = away (plc prev) (plc p)) by (unfold dist, away, plc; cbn [fst snd]; f_equal; ring).
  destruct first; [|destruct r]; rewrite IH, D; ring.
Qed.

(** The length that the cost is made of is that of the way. *)
Theorem C93_impact_length (plan : list point) : fst (fst (impact_headings plan)) = way (map plc plan).
Proof. destruct plan as [|p r]; [reflexivity|]. cbn [impact_headings]. rewrite loop_length. ring. Qed.

(** With two waypoints, which is the way of every straight line, the heading at the end is north whatever the course is. *)
Theorem C93_impact_two_refuted (a b : point) :
  (exists l start, impact_headings [a; b] = (l, start, 0)) /\
  (py a <> py b \/ px b < px a -> ~ exists l start finish, impact_headings [a; b] = (l, start, finish) /\ heads (plc a) (plc b) finish).
Proof.
  split; [cbn; eauto|]. intros N (l & start & finish & E & (_ & r & R & X & Y)). cbn in E. injection E as _ _ <-.
  rewrite cos_0 in X. rewrite sin_0 in Y. unfold plc in X, Y. cbn [fst snd] in X, Y. destruct N as [N|N]; [apply N|]; lra.
Qed.

Example C93_impact_case :
  let p x y := {| px := x; py := y; pz := 0; fixed := false |} in
  fst (fst (impact_headings [p 0 0; p 0 1000; p 500 1000])) = 1500 /\
  (exists l start, impact_headings [p 0 0; p 0 1000] = (l, start, 0) /\ heads (0, 0) (0, 1000) start) /\
  ~ heads (0, 0) (0, 1000) 0.
Proof.
  cbv zeta. split; [|split].
  - rewrite C93_impact_length. cbn [map way]. unfold plc. cbn [px py]. unfold away. cbn [fst snd].
    replace ((0 - 0) ^ 2 + (1000 - 0) ^ 2) with (1000 * 1000) by ring. replace ((500 - 0) ^ 2 + (1000 - 1000) ^ 2) with (500 * 500) by ring.
    rewrite !sqrt_square by lra. lra.
  - eexists. eexists. split; [reflexivity|]. apply (heading_heads {| px := 0; py := 0; pz := 0; fixed := false |} {| px := 0; py := 1000; pz := 0; fixed := false |}).
    unfold plc. cbn. intros E. injection E as E. lra.
  - intros (_ & r & _ & _ & Y). cbn in Y. rewrite sin_0 in Y. lra.
Qed.

Print Assumptions C93_impact_headings.
Print Assumptions C93_impact_length.
Print Assumptions C93_impact_two_refuted.

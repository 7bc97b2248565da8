(** Theorems about the node closest to a position (C63). *)
From Coq Require Import List ZArith Lia Bool.
From Verif Require Import OsmMapModel OsmNearModel.
Import ListNotations.
Open Scope list_scope.
Open Scope Z_scope.

(** ** Specification *)

(** Cell of 100 m by 100 m, those at the axes of 200 m: millimetres divided by 100000, towards 0 *)
Definition cell_of (p : pos) : Z * Z := (Z.quot (fst p) 100000, Z.quot (snd p) 100000).
(** At most [k] cells away in both directions *)
Definition in_square (k : Z) (p q : pos) : Prop :=
  Z.abs (fst (cell_of p) - fst (cell_of q)) <= k /\ Z.abs (snd (cell_of p) - snd (cell_of q)) <= k.
(** Distances that are not less than the difference in one direction *)
Definition planar (dist : pos -> pos -> Z) : Prop :=
  forall p q, Z.abs (fst p - fst q) <= dist p q /\ Z.abs (snd p - snd q) <= dist p q.

(** ** Proofs *)

Lemma from_In : forall n a x, In x (from a n) <-> a <= x < a + Z.of_nat n.
Proof.
  induction n as [|n IH]; intros a x; cbn [from In]; [lia|]. rewrite IH. lia.
Qed.

Lemma ring_In n e k x y : 0 <= k -> (In (x, y) (ring (n, e) k) <-> Z.max (Z.abs (x - n)) (Z.abs (y - e)) = k).
Proof.
  intros K. unfold ring. rewrite in_app_iff, !in_flat_map. split.
  - intros [(u & U & I)|(u & U & I)]; apply from_In in U; destruct I as [I|[I|[]]]; injection I as <- <-; lia.
  - intros M. destruct (Z.eq_dec (Z.abs (y - e)) k) as [E|E].
    + left. exists x. split; [apply from_In; lia|]. cbn. destruct (Z.abs_eq_or_opp (y - e)); [right; left|left]; f_equal; lia.
    + right. exists y. split; [apply from_In; lia|]. cbn. destruct (Z.abs_eq_or_opp (x - n)); [right; left|left]; f_equal; lia.
Qed.

Lemma cell_same p : pos_cell p = cell_of p.
Proof. unfold pos_cell, cell_of. rewrite !Z.quot_quot by lia. reflexivity. Qed.

Section Near.
  Context (dist : pos -> pos -> Z) (ord : list (Z * pos) -> list (Z * pos)) (ord_ok : forall l x, In x (ord l) <-> In x l).
  Context (nodes : list (Z * pos)) (p : pos).

  (** The best of the nodes in [P] *)
  Definition best_in (P : Z * pos -> Prop) (b : best) : Prop :=
    match b with
    | None => forall e, ~ P e
    | Some (id, d) => (exists q, P (id, q) /\ d = dist p q) /\ forall e, P e -> d <= dist p (snd e)
    end.

  Lemma best_in_ext (P Q : Z * pos -> Prop) b : (forall e, P e <-> Q e) -> best_in P b -> best_in Q b.
  Proof.
    intros E. destruct b as [(id, d)|]; cbn.
    - intros ((q & A & B) & C). split; [exists q; split; [apply E, A|exact B]|]. intros e H. apply C, E, H.
    - intros A e H. apply (A e), E, H.
  Qed.

  Lemma best_fold : forall l P b, best_in P b -> best_in (fun e => P e \/ In e l) (fold_left (better dist p) l b).
  Proof.
    induction l as [|(id, q) l IH]; intros P b B; cbn [fold_left].
    - apply (best_in_ext P); [intros e; cbn; tauto|exact B].
    - apply (best_in_ext (fun e => (P e \/ e = (id, q)) \/ In e l)); [intros e; cbn [In]; intuition congruence|]. apply IH.
      unfold better. cbn [fst snd]. destruct b as [(i0, d0)|]; cbn in B.
      + destruct B as ((q0 & H0 & E0) & M). destruct (dist p q <? d0) eqn:C; [apply Z.ltb_lt in C|apply Z.ltb_ge in C]; cbn.
        * split; [exists q; auto|]. intros e [H|H]; [specialize (M e H); lia|subst e; cbn; lia].
        * split; [exists q0; auto|]. intros e [H|H]; [apply M, H|subst e; cbn; lia].
      + cbn. split; [exists q; auto|]. intros e [H|H]; [destruct (B e H)|subst e; cbn; lia].
  Qed.

  Definition in_cells (cs : list (Z * Z)) (e : Z * pos) : Prop := In e nodes /\ In (node_cell (snd e)) cs.

  Lemma best_cells : forall cs P b, best_in P b -> best_in (fun e => P e \/ in_cells cs e) (fold_left (examine_cell dist ord nodes p) cs b).
  Proof using ord_ok.
    induction cs as [|c cs IH]; intros P b B; cbn [fold_left].
    - apply (best_in_ext P); [intros e; unfold in_cells; cbn; tauto|exact B].
    - apply (best_in_ext (fun e => (P e \/ In e (ord (filter (fun e => (fst (node_cell (snd e)) =? fst c) && (snd (node_cell (snd e)) =? snd c)) nodes))) \/ in_cells cs e)).
      + intros e. unfold in_cells. rewrite ord_ok, filter_In, andb_true_iff, !Z.eqb_eq. cbn [In].
        assert (X : c = node_cell (snd e) <-> fst (node_cell (snd e)) = fst c /\ snd (node_cell (snd e)) = snd c).
        { destruct c as (c1, c2). destruct (node_cell (snd e)) as (x, y). cbn. split; [intros Q; injection Q; auto|intros (-> & ->); reflexivity]. }
        rewrite <- X. tauto.
      + apply IH. unfold examine_cell. apply best_fold, B.
  Qed.

  (** Nodes less than [k] cells away *)
  Definition below (k : Z) (e : Z * pos) : Prop := In e nodes /\ in_square (k - 1) p (snd e).

  Lemma below_ring k e : 0 <= k -> (below k e \/ in_cells (ring (pos_cell p) k) e <-> below (k + 1) e).
  Proof.
    intros K. unfold below, in_cells, in_square. rewrite cell_same. change (node_cell (snd e)) with (cell_of (snd e)).
    destruct (cell_of p) as (n, m). destruct (cell_of (snd e)) as (x, y). cbn [fst snd]. rewrite ring_In by exact K.
    destruct (Z.eq_dec (Z.max (Z.abs (x - n)) (Z.abs (y - m))) k); split; intros H; intuition lia.
  Qed.

  Lemma rings_spec : forall c k b, 0 <= k -> best_in (below k) b ->
    exists j, k <= j <= k + Z.of_nat c /\ best_in (below j) (rings dist ord nodes p (from k c) b)
      /\ (j < k + Z.of_nat c -> 2 <= j /\ exists id d, rings dist ord nodes p (from k c) b = Some (id, d) /\ 0 < id)
      /\ ((k = 0 \/ (2 <= k /\ match b with Some (id, _) => id <= 0 | None => True end)
           \/ (k = 1)) ->
          forall i, k < i < j -> 1 < i -> exists b', best_in (below i) b' /\ match b' with Some (id, _) => id <= 0 | None => True end).
  Proof using ord_ok.
    induction c as [|c IH]; intros k b K B; cbn [from rings].
    - exists k. split; [lia|]. split; [exact B|]. split; [lia|]. intros _ i I. lia.
    - set (b1 := fold_left (examine_cell dist ord nodes p) (ring (pos_cell p) k) b).
      assert (B1 : best_in (below (k + 1)) b1).
      { apply (best_in_ext (fun e => below k e \/ in_cells (ring (pos_cell p) k) e)); [intros e; apply below_ring, K|]. apply best_cells, B. }
      destruct ((match b1 with Some (id, _) => 0 <? id | None => false end) && (0 <? k)) eqn:S.
      + apply andb_true_iff in S. destruct S as (S1 & S2). apply Z.ltb_lt in S2. exists (k + 1). split; [lia|]. split; [exact B1|]. split.
        * intros _. split; [lia|]. destruct b1 as [(id, d)|]; [|discriminate]. apply Z.ltb_lt in S1. eauto.
        * intros _ i I. lia.
      + destruct (IH (k + 1) b1 ltac:(lia) B1) as (j & J & BJ & EJ & PJ). exists j. split; [lia|]. split; [exact BJ|]. split; [intros L; apply EJ; lia|].
        intros _ i I I1. destruct (Z.eq_dec i (k + 1)) as [->|N].
        * exists b1. split; [exact B1|]. apply andb_false_iff in S. destruct S as [S|S]; [|apply Z.ltb_ge in S; lia].
          destruct b1 as [(id, d)|]; [apply Z.ltb_ge in S; exact S|exact Logic.I].
        * apply PJ; [|lia|lia]. destruct (Z.eq_dec k 0) as [->|N0]; [right; right; reflexivity|]. right. left. split; [lia|].
          apply andb_false_iff in S. destruct S as [S|S]; [|apply Z.ltb_ge in S; lia].
          destruct b1 as [(id, d)|]; [apply Z.ltb_ge in S; exact S|exact Logic.I].
  Qed.

  (** C63: the node that is found is a closest one of those at most [k] cells away, for some [k] from 1 to 10; [k] is
      only greater than 1 if all closest nodes of smaller squares have ids that are not positive. *)
  Theorem C63_square : forall id d, closest dist ord nodes p = Some (id, d) ->
    exists k q, 1 <= k <= 10 /\ In (id, q) nodes /\ in_square k p q /\ d = dist p q
      /\ (forall id' q', In (id', q') nodes -> in_square k p q' -> d <= dist p q')
      /\ (forall j, 1 <= j < k -> (forall e, In e nodes -> in_square j p (snd e) -> 0 < fst e) -> forall e, In e nodes -> ~ in_square j p (snd e))
      /\ (k < 10 -> 0 < id).
  Proof using ord_ok.
    intros id d E. unfold closest in E.
    destruct (rings_spec 11 0 None ltac:(lia)) as (j & J & BJ & EJ & PJ).
    { intros e (_ & H & _). lia. }
    rewrite E in BJ, EJ. destruct BJ as ((q & (I & Q) & D) & M).
    assert (J2 : 2 <= j) by (destruct (Z.eq_dec j 11); [lia|apply EJ; cbn; lia]).
    exists (j - 1), q. split; [cbn in J; lia|]. split; [exact I|]. split; [exact Q|]. split; [exact D|]. split; [|split].
    - intros id' q' I' Q'. apply (M (id', q')). split; [exact I'|exact Q'].
    - intros i I1 POS e IE QE. destruct (PJ (or_introl eq_refl) (i + 1) ltac:(lia) ltac:(lia)) as (b' & B' & S).
      assert (BE : below (i + 1) e) by (split; [exact IE|replace (i + 1 - 1) with i by lia; exact QE]).
      destruct b' as [(i0, d0)|]; cbn in B'; [|exact (B' e BE)]. destruct B' as ((q0 & (I0 & Q0) & _) & _).
      replace (i + 1 - 1) with i in Q0 by lia. specialize (POS (i0, q0) I0 Q0). cbn in POS. lia.
    - intros L. destruct EJ as (_ & i0 & d0 & X & P0); [cbn; lia|]. injection X as <- <-. exact P0.
  Qed.

  (** C63: no node is found only if there is none at most 10 cells away; *)
  Theorem C63_none : closest dist ord nodes p = None <-> forall e, In e nodes -> ~ in_square 10 p (snd e).
  Proof using ord_ok.
    unfold closest. destruct (rings_spec 11 0 None ltac:(lia)) as (j & J & BJ & EJ & _).
    { intros e (_ & H & _). lia. }
    destruct (rings dist ord nodes p (from 0 11) None) as [(id, d)|] eqn:E.
    - split; [discriminate|]. intros N. exfalso. destruct BJ as ((q & (I & Q1 & Q2) & _) & _). apply (N (id, q) I). cbn in J. unfold in_square in *. cbn [snd] in *. lia.
    - split; [|reflexivity]. intros _ e I Q. assert (j = 11) as -> by (destruct (Z.eq_dec j 11); [assumption|]; destruct EJ as (_ & ? & ? & X & _); [cbn in *; lia|discriminate]).
      apply (BJ e). split; assumption.
  Qed.

  (** so one is found if there is one at most 1 km away. *)
  Theorem C63_found : planar dist -> forall id q, In (id, q) nodes -> dist p q <= 1000000 -> closest dist ord nodes p <> None.
  Proof using ord_ok.
    intros PL id q I D N. apply (proj1 C63_none N (id, q) I). destruct (PL p q) as (A & B). unfold in_square, cell_of. cbn [fst snd].
    split; Z.to_euclidean_division_equations; lia.
  Qed.

  (** C63: a node that is found at most 100 m away is a closest one of all. *)
  Theorem C63_exact : planar dist -> forall id d, closest dist ord nodes p = Some (id, d) -> d <= 100000 ->
    forall id' q', In (id', q') nodes -> d <= dist p q'.
  Proof using ord_ok.
    intros PL id d E D id' q' I. destruct (C63_square id d E) as (k & q & K & _ & _ & _ & M & _).
    destruct (Z.le_gt_cases d (dist p q')) as [L|L]; [exact L|]. apply (M id' q' I). destruct (PL p q') as (A & B). unfold in_square, cell_of. cbn [fst snd].
    split; Z.to_euclidean_division_equations; lia.
  Qed.
End Near.

(** Differences along the axes, the greater of the two *)
Definition chess (p q : pos) : Z := Z.max (Z.abs (fst p - fst q)) (Z.abs (snd p - snd q)).
Example near_example : planar chess
  /\ closest chess (fun l => l) [(5, (250000, 0)); (6, (-180000, 20000)); (7, (900000, 900000))] (40000, 0) = Some (6, 220000)
  /\ closest chess (fun l => l) [(5, (250000, 0)); (6, (-180000, 20000)); (7, (900000, 900000))] (870000, 870000) = Some (7, 30000)
  /\ closest chess (fun l => l) [(5, (250000, 0)); (6, (-180000, 20000)); (7, (900000, 900000))] (-2000000, 0) = None.
Proof. split; [intros p q; unfold chess; lia|]. split; [vm_compute; reflexivity|]. split; vm_compute; reflexivity. Qed.

(** C63: in general the node found need not be a closest one: one 295 m away is taken, one 102 m away is not. *)
Theorem C63_nearest_refuted : exists nodes p id d id' q', planar chess /\ closest chess (fun l => l) nodes p = Some (id, d)
  /\ In (id', q') nodes /\ d = 295000 /\ chess p q' = 102000 /\ (forall e, In e nodes -> 0 < fst e).
Proof.
  exists [(1, (-196000, 0)); (2, (201000, 0))], (99000, 0). do 2 eexists. exists 2, (201000, 0).
  split; [intros p q; unfold chess; lia|]. split; [vm_compute; reflexivity|]. split; [cbn; auto|]. split; [reflexivity|]. split; [reflexivity|].
  intros e [<-|[<-|[]]]; cbn; lia.
Qed.

Print Assumptions C63_square.
Print Assumptions C63_none.
Print Assumptions C63_found.
Print Assumptions C63_exact.
Print Assumptions C63_nearest_refuted.

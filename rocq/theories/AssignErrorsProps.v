(** C95, the other side: when no summary is sent.  Without any option, without a composition
    text for one of the tasks, or with task relationships in which nothing is named, the
    request is not answered by a summary. *)
From Coq Require Import String Ascii List Arith ZArith NArith Bool Permutation Lia.
From Verif Require Import Base Decimal10 ZMap Run AlgebraModel AlgebraSpec FormulaModel FormulaSpec
  AssignModel AssignSpec AssignProps AssignServiceModel AssignServiceSpec AssignServiceProofs AssignServiceProps.
Import ListNotations.
Open Scope list_scope.
Open Scope Z_scope.

(** A text in which no operator, no name and no number occurs. *)
Definition names_nothing (text : str) : Prop :=
  text <> [] /\
  forall c, In c text -> ~ In c (lit ".+|p") /\ ~ In c (lit "0123456789").

Lemma no_p s : (forall c, In c s -> ~ In c (lit ".+|p")) -> find_char "p"%char s = None.
Proof.
  induction s as [|c s IH]; intros X; auto. cbn [find_char].
  destruct (Ascii.eqb_spec c "p"%char) as [->|D].
  - exfalso. apply (X "p"%char); [left; auto|]. vm_compute. tauto.
  - destruct (Ascii.eqb_spec "p"%char c); [congruence|]. rewrite IH; auto.
    intros d I. apply X. right. auto.
Qed.

Lemma no_head s : forall i, (forall c, In c s -> ~ In c (lit ".+|p")) -> find_head i s = None.
Proof.
  induction s as [|c s IH]; intros i X; auto. cbn [find_head].
  assert (Y := X c (or_introl eq_refl)). 
  repeat match goal with |- context [Ascii.eqb c ?d] =>
    destruct (Ascii.eqb_spec c d) as [->|_]; [exfalso; apply Y; vm_compute; tauto|] end.
  apply IH. intros d I. apply X. right. auto.
Qed.

Lemma digit_listed c : is_digit c = true -> In c (lit "0123456789").
Proof. destruct c as [[] [] [] [] [] [] [] []]; vm_compute; try discriminate; tauto. Qed.

Lemma no_digits s : (forall c, In c s -> ~ In c (lit "0123456789")) -> digit_prefix s = [].
Proof.
  destruct s as [|c s]; auto. intros X. cbn [digit_prefix].
  destruct (is_digit c) eqn:D; auto. exfalso. apply (X c); [left; auto|]. apply digit_listed; auto.
Qed.

Lemma skip_in s c : In c (skip_space s) -> In c s.
Proof.
  induction s as [|d s IH]; auto. cbn [skip_space]. destruct (is_space d); auto. right. auto.
Qed.

Lemma atoll_none s : (forall c, In c s -> ~ In c (lit "0123456789")) -> atoll s = 0.
Proof.
  intros X. unfold atoll, leading_number. pose proof (skip_in s) as K.
  destruct (skip_space s) as [|c s']; auto.
  assert (Y : forall d, In d (c :: s') -> ~ In d (lit "0123456789")) by (intros d I; auto).
  assert (Y' : forall d, In d s' -> ~ In d (lit "0123456789")) by (intros d I; apply Y; right; auto).
  destruct (Ascii.eqb c "-"); [rewrite (no_digits _ Y'); auto|].
  destruct (Ascii.eqb c "+"); [rewrite (no_digits _ Y'); auto|].
  rewrite (no_digits _ Y). auto.
Qed.

Section Service.
Context (limit : Z) (order : list costEntry -> node -> list Z)
        (ord : zmap planOptions -> zmap planOptions)
        (vord : list (Z * vehicleState) -> list (Z * vehicleState)).
Context (ord_all : forall l, Permutation (ord l) l).

Notation srun := (run (sstep limit order ord vord) []).

Lemma offered_same i h os os' : offered i h os -> offered i h os' -> forall o, In o os <-> In o os'.
Proof. intros (_ & A) (_ & B) o. rewrite A, B. tauto. Qed.

(** A summary is only sent if some option was offered; if without relationships every task
    offered has a composition text; and if relationships are given, only if something is
    named in them (a text naming nothing is read as the number 0, which no option has). *)
Theorem C95_errors evs t1 e o t2 req region ts q os :
  snd (srun evs) = t1 ++ (e, o) :: t2 -> In (OutSummary req region ts) o ->
  let h := fresh (about e) t1 ++ [e] in
  last_request (about e) h = Some q -> offered (about e) h os ->
  flat_map po_options os <> [] /\
  (q_relations q = [] -> forall a, In a os -> po_composition a <> []) /\
  (names_nothing (q_relations q) ->
   exists a x, In a os /\ In x (po_options a) /\ optionId (to_task x) (to_option x) = 0).
Proof.
  intros H IO. cbn zeta. intros LQ OS.
  destruct (step_sends limit order ord vord _ _ _ _ _ H) as (p & K & R & C).
  assert (NE : o <> []) by (intros ->; destruct IO).
  apply R in NE as RD. rewrite (C NE) in IO. clear C R NE H.
  destruct (keeps_none _ _ _ K RD) as (q0 & m & Q1 & M1 & Q2 & M2).
  rewrite LQ in Q2. injection Q2 as <-.
  destruct (keeps_offered ord ord_all _ _ _ K) as (OF & KEY).
  pose proof (offered_same _ _ _ _ OS OF) as SAME.
  unfold calculate in IO. rewrite Q1, M1 in IO. set (l := ord (p_options p)) in *.
  destruct (initializeAlgebra l (q_relations q)) as [alg0| |] eqn:G;
    [|destruct IO as [IO|[]]; discriminate..]. clear IO.
  unfold initializeAlgebra in G.
  destruct (algebraString (map (fun to => (fst to, po_composition (snd to))) l) (q_relations q))
    as [[s| |]|] eqn:A; try discriminate.
  destruct (knownIds l) as [|k known] eqn:KN; [discriminate|].
  assert (IK : forall z, In z (k :: known) -> exists a x,
             In a os /\ In x (po_options a) /\ optionId (to_task x) (to_option x) = z).
  { intros z I. rewrite <- KN in I. unfold knownIds in I. apply in_flat_map in I.
    destruct I as (to & I1 & I2). apply in_map_iff in I2. destruct I2 as (x & E & I2).
    exists (snd to), x. split; [apply SAME, in_map; auto|]. auto. }
  split.
  { destruct (IK k (or_introl eq_refl)) as (a & x & I1 & I2 & _). intros E.
    assert (I : In x (flat_map po_options os)) by (apply in_flat_map; eauto).
    rewrite E in I. destruct I. }
  split.
  - intros E a I EC. rewrite E in A. cbn [algebraString] in A.
    destruct (conversion_failed _ || _) eqn:X in A; [discriminate|].
    apply orb_false_elim in X. destruct X as (_ & X).
    apply SAME, in_map_iff in I. destruct I as (to & <- & I).
    assert (existsb (fun tc : Z * option str => match snd tc with None => true | _ => false end)
              (compositions (map (fun to => (fst to, po_composition (snd to))) l)) = true).
    { apply existsb_exists. exists (fst to, None). split; auto.
      unfold compositions. rewrite map_map. apply in_map_iff. exists to. split; auto.
      cbn [fst snd]. rewrite EC. reflexivity. }
    congruence.
  - intros (NN & W).
    assert (W1 : forall c, In c (q_relations q) -> ~ In c (lit ".+|p")) by (intros c I; apply W; auto).
    assert (W2 : forall c, In c (q_relations q) -> ~ In c (lit "0123456789"))
      by (intros c I; apply W; auto).
    unfold algebraString in A. destruct (q_relations q) as [|c r] eqn:E; [congruence|].
    rewrite <- E in *. unfold relationshipString in A.
    assert (RW : rewrite_ids (Datatypes.S (length (q_relations q))) false
                   (lookup_comp (compositions (map (fun to => (fst to, po_composition (snd to))) l)))
                   (q_relations q) [] = Some (RText (q_relations q))).
    { cbn [rewrite_ids]. rewrite (no_p _ W1). destruct (q_relations q); auto. }
    rewrite RW in A. destruct (conversion_failed _) in A; [discriminate|]. injection A as <-.
    unfold initAlgebraString in G. cbn [parseFormula] in G. rewrite (no_head _ 0 W1) in G.
    rewrite (atoll_none _ W2) in G.
    destruct (existsb (Z.eqb 0) (k :: known)) eqn:X; [|discriminate].
    apply existsb_exists in X. destruct X as (z & I & Z0). apply Z.eqb_eq in Z0. subst z.
    apply IK. auto.
Qed.
End Service.

Print Assumptions C95_errors.

(** *** Cases: a summary is sent in [C95_case]; with blank relationships, with an empty
    composition or without options there is an error instead. *)
Definition ex_blank : request :=
  {| q_id := 7; q_tasks := [1; 2]; q_relations := lit "  "; q_region := 3 |}.
Definition ex_none : request :=
  {| q_id := 7; q_tasks := [1; 2]; q_relations := []; q_region := 3 |}.

Example C95_errors_case :
  names_nothing (q_relations ex_blank) /\
  map snd (snd (ex_run [EvMatrix 7 ex_matrix; EvOptions ex_two; EvRequest ex_blank; EvOptions ex_one]))
  = [[]; []; []; [OutError]] /\
  map snd (snd (ex_run [EvMatrix 7 ex_matrix; EvOptions ex_two; EvRequest ex_none;
                        EvOptions (ex_offer 1 "" (firstn 2 ex_opts))]))
  = [[]; []; []; [OutError]] /\
  map snd (snd (ex_run [EvMatrix 7 ex_matrix; EvOptions (ex_offer 2 "+(p0)" []); EvRequest ex_none;
                        EvOptions (ex_offer 1 "+(p1)" [])]))
  = [[]; []; []; [OutError]].
Proof.
  split.
  { split; [discriminate|]. intros c [<-|[<-|[]]]; vm_compute; intuition discriminate. }
  vm_compute. auto.
Qed.

(** Properties of task relationship expressions (C15, C16, C44). *)
From Coq Require Import List ZArith Permutation Lia Bool.
From Verif Require Import AlgebraModel AlgebraSpec AlgebraProofs.
Import ListNotations.
Open Scope list_scope.

(** *** C15 *)

(** After any legal history the offered actions are exactly those that can come next. *)
Theorem C15_next_actions : forall e h a,
  well_formed e -> legal e h -> (In a (searchNext e h) <-> legal e (h ++ [a])).
Proof.
  intros e h a (W & N) L. apply (gn_next _ _ _ (g_n _ (expr_good e W N))). exact L.
Qed.
Print Assumptions C15_next_actions.

(** None is offered twice or again. *)
Theorem C15_no_repetition : forall e h,
  NoDup (actions e) ->
  NoDup (searchNext e h) /\ (forall a, In a (searchNext e h) -> In a (actions e) /\ ~ In a h).
Proof.
  intros e h N. destruct (next_nodup e N h) as (Q & I & O). split; [exact Q|].
  intros a A. split; [apply I, A|apply O, A].
Qed.
Print Assumptions C15_no_repetition.

(** The order in which the history is written down makes no difference. *)
Theorem C15_order_irrelevant : forall e h h',
  Permutation h h' -> searchNext e h = searchNext e h'.
Proof.
  intros e h h' P. unfold searchNext. rewrite (nextActions_ext e h h'); auto.
  intros a _. split; apply Permutation_in; auto. apply Permutation_sym. auto.
Qed.
Print Assumptions C15_order_irrelevant.

(** A sequence of an alternative and a parallel composition. *)
Definition c15_example : expr :=
  Op Seq [Op Alt [Act 1; Op Seq [Act 2; Act 3]]; Op Par [Act 4; Op Alt [Act 5; Act 6]]]%Z.

Example C15_case :
  well_formed c15_example /\ legal c15_example [2; 3; 6]%Z /\
  searchNext c15_example [2]%Z = [3]%Z /\ searchNext c15_example [2; 3; 6]%Z = [4]%Z.
Proof.
  split; [|split; [|split; reflexivity]].
  - split; [cbn; repeat split; discriminate|].
    cbn. repeat constructor; cbn; intros H; repeat (destruct H as [H|H]; [discriminate|]);
      exact H.
  - exists [4]%Z. cbn. exists [2; 3]%Z, [6; 4]%Z. split; [reflexivity|]. split.
    + right. left. exists [2]%Z, [3]%Z. repeat split. exists [3]%Z, []. auto.
    + exists [6; 4]%Z, []. repeat split. exists [4]%Z, [6]%Z. repeat split.
      * repeat constructor.
      * exists [6]%Z, []. repeat split; [repeat constructor|auto].
Qed.

(** Finding: an operator without operands breaks the property; the expression
    "+(.() p1)" offers nothing although action 1 is allowed. *)
Theorem C15_empty_operator_refuted :
  exists e a, NoDup (actions e) /\ legal e [] /\ legal e ([] ++ [a]) /\
    ~ In a (searchNext e []).
Proof.
  exists (Op Alt [Op Seq []; Act 1%Z]), 1%Z. repeat split.
  - repeat constructor; auto.
  - exists []. cbn. auto.
  - exists []. cbn. auto.
  - intros [].
Qed.
Print Assumptions C15_empty_operator_refuted.

(** Finding: with a repeated action the code offers actions that no execution allows:
    after action 1 of ".(p1 p2 p1)" ... the second 1 counts as done, so the history
    [1; 2] is final although the expression requires another 1. *)
Theorem C15_repeated_action_refuted :
  exists e h, no_empty_op e /\ legal e h /\ searchNext e h = [] /\ ~ traces e h.
Proof.
  exists (Op Seq [Act 1; Act 2; Act 1]%Z), [1; 2]%Z. repeat split; try discriminate.
  - exists [1%Z]. cbn. exists [1%Z], [2; 1]%Z. repeat split.
    exists [2%Z], [1]%Z. repeat split. exists [1%Z], []. auto.
  - cbn. intros (t1 & t2 & E & -> & t3 & t4 & E2 & -> & t5 & t6 & E3 & -> & ->).
    subst. discriminate.
Qed.
Print Assumptions C15_repeated_action_refuted.

(** *** C16 *)

(** Executing offered actions in any way never leaves the legal histories, never repeats an
    action, cannot go on for longer than there are actions, and stops only at complete
    executions. *)
Theorem C16_runs : forall e h,
  well_formed e -> offered_run (searchNext e) h ->
  legal e h /\ NoDup h /\ incl h (actions e) /\ length h <= length (actions e) /\
  (searchNext e h = [] <-> traces e h).
Proof.
  intros e h (W & N) R. pose proof (run_legal e h (conj W N) R) as L.
  pose proof (expr_good e W N) as G. destruct L as (k & T).
  destruct (traces_nodup e N _ T) as (ND & IN).
  apply nodup_split in ND. destruct ND as (ND & _ & _).
  assert (I : incl h (actions e)) by (intros x X; apply IN, in_or_app; auto).
  split; [exists k; auto|]. split; auto. split; auto. split.
  - apply NoDup_incl_length; auto.
  - apply (gn_done _ _ _ (g_n _ G)). exists k. auto.
Qed.
Print Assumptions C16_runs.

(** Conversely every complete execution, and every beginning of one, can be obtained by
    following offers. *)
Theorem C16_all_reachable : forall e h,
  well_formed e -> legal e h -> offered_run (searchNext e) h.
Proof. exact legal_run. Qed.
Print Assumptions C16_all_reachable.

(** Without alternatives a final history contains every action exactly once. *)
Theorem C16_all_done : forall e h,
  well_formed e -> no_alternative e -> offered_run (searchNext e) h -> searchNext e h = [] ->
  Permutation h (actions e).
Proof.
  intros e h W A R F. destruct (C16_runs e h W R) as (_ & _ & _ & _ & T).
  apply no_alt_traces; auto. apply T. auto.
Qed.
Print Assumptions C16_all_done.

Example C16_case :
  well_formed (Op Seq [Op Par [Act 1; Act 2]; Act 3]%Z) /\
  offered_run (searchNext (Op Seq [Op Par [Act 1; Act 2]; Act 3]%Z)) [2; 1; 3]%Z /\
  searchNext (Op Seq [Op Par [Act 1; Act 2]; Act 3]%Z) [2; 1; 3]%Z = [].
Proof.
  split; [|split; [|reflexivity]].
  - split; [cbn; repeat split; discriminate|].
    cbn. repeat constructor; cbn; intros H; repeat (destruct H as [H|H]; [discriminate|]);
      exact H.
  - change [2; 1; 3]%Z with ((([] ++ [2]) ++ [1]) ++ [3])%Z.
    repeat (apply run_step; [|cbn; auto]). apply run_start.
Qed.

(** *** C44 *)

(** Shuffling the tree terminates, keeps the set of complete executions, the actions and
    well-formedness; so after any legal history the same actions are offered. *)
Theorem C44_shuffle : forall small rnd k e,
  exists e' k', shuffle small rnd (depth e) k e = Some (e', k') /\
    (forall t, traces e t <-> traces e' t) /\
    Permutation (actions e) (actions e') /\
    (well_formed e -> forall h a, legal e h -> (In a (searchNext e h) <-> In a (searchNext e' h))).
Proof.
  intros small rnd k e.
  destruct (shuffle_total small rnd (depth e) k e (le_n _)) as (e' & k' & S & W').
  destruct (shuffle_lang _ _ _ _ _ _ _ S) as (L & P).
  exists e', k'. split; auto. split; auto. split; auto.
  intros (W & N) h a H.
  assert (H' : legal e' h) by (destruct H as (t & T); exists t; apply L; auto).
  assert (WF' : well_formed e') by (split; [auto|eapply Permutation_NoDup; eauto]).
  rewrite (C15_next_actions e h a (conj W N) H), (C15_next_actions e' h a WF' H').
  split; intros (t & T); exists t; apply L; auto.
Qed.
Print Assumptions C44_shuffle.

Example C44_case :
  shuffle (fun _ => true) (fun n => n * 7 + 3) (depth c15_example) 0 c15_example
  = Some (Op Seq [Op Alt [Act 1; Op Seq [Act 2; Act 3]]; Op Par [Op Alt [Act 5; Act 6]; Act 4]]%Z, 9).
Proof. vm_compute. reflexivity. Qed.

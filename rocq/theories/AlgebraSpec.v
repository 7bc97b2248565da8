(** Trace semantics of task relationships: which complete orders of actions an expression
    allows. *)
From Coq Require Import List ZArith.
From Verif Require Import AlgebraModel.
Import ListNotations.
Open Scope list_scope.

(** [t] merges [t1] and [t2], keeping the order of each. *)
Inductive interleave : list Z -> list Z -> list Z -> Prop :=
| inter_nil : interleave [] [] []
| inter_left a t1 t2 t : interleave t1 t2 t -> interleave (a :: t1) t2 (a :: t)
| inter_right a t1 t2 t : interleave t1 t2 t -> interleave t1 (a :: t2) (a :: t).

(** The complete executions of an expression: an action is done once; a sequence does its
    children one after the other; an alternative does exactly one of its children;
    a parallel composition does all its children, interleaved. *)
Fixpoint traces (e : expr) (t : list Z) : Prop :=
  match e with
  | Act a => t = [a]
  | Op Seq cs =>
      (fix go (cs : list expr) (t : list Z) : Prop :=
         match cs with
         | [] => t = []
         | c :: cs' => exists t1 t2, t = t1 ++ t2 /\ traces c t1 /\ go cs' t2
         end) cs t
  | Op Alt cs =>
      (fix go (cs : list expr) : Prop :=
         match cs with
         | [] => False
         | c :: cs' => traces c t \/ go cs'
         end) cs
  | Op Par cs =>
      (fix go (cs : list expr) (t : list Z) : Prop :=
         match cs with
         | [] => t = []
         | c :: cs' => exists t1 t2, interleave t1 t2 t /\ traces c t1 /\ go cs' t2
         end) cs t
  end.

(** A history that can still be extended to a complete execution. *)
Definition legal (e : expr) (h : list Z) : Prop := exists k, traces e (h ++ k).

(** Every operator has at least one operand. *)
Fixpoint no_empty_op (e : expr) : Prop :=
  match e with
  | Act _ => True
  | Op _ cs => cs <> [] /\
      (fix go (cs : list expr) : Prop :=
         match cs with [] => True | c :: cs' => no_empty_op c /\ go cs' end) cs
  end.

(** The actions written in an expression. *)
Fixpoint actions (e : expr) : list Z :=
  match e with
  | Act a => [a]
  | Op _ cs => flat_map actions cs
  end.

Definition well_formed (e : expr) : Prop := no_empty_op e /\ NoDup (actions e).

(** A history produced by repeatedly executing one of the offered actions. *)
Inductive offered_run (offers : list Z -> list Z) : list Z -> Prop :=
| run_start : offered_run offers []
| run_step h a : offered_run offers h -> In a (offers h) -> offered_run offers (h ++ [a]).

(** No alternatives anywhere. *)
Fixpoint no_alternative (e : expr) : Prop :=
  match e with
  | Act _ => True
  | Op o cs => o <> Alt /\
      (fix go (cs : list expr) : Prop :=
         match cs with [] => True | c :: cs' => no_alternative c /\ go cs' end) cs
  end.

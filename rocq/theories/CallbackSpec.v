(** What a callback timer is supposed to do, in terms of what is seen and when. *)
From Coq Require Import List ZArith.
From Verif Require Import CallbackModel.
Import ListNotations.
Open Scope list_scope.
Open Scope Z_scope.

Definition ms : Z := 1000000.

(** What is seen, with times. *)
Definition seen (t : list (ev * list out)) : list (Z * out) :=
  flat_map (fun x => map (fun o => (fst (fst x), o)) (snd x)) t.

(** Time does not go back. *)
Fixpoint forward (h : list ev) : Prop :=
  match h with
  | [] => True
  | e :: h' => (forall e', In e' h' -> fst e <= fst e') /\ forward h'
  end.

Definition makes (x : Z * out) : Prop := exists d f, snd x = Made d f.
Definition calls (x : Z * out) : Prop := exists f r, snd x = Called f r.

(** The thread that is at work after [a] was made at [t0] with time [d] and function [f]; [b] is what
    has been seen since. *)
Definition made (a : list (Z * out)) (t0 d f : Z) (b : list (Z * out)) : Prop :=
  exists a0, a = a0 ++ (t0, Made d f) :: b /\ forall x, In x b -> ~ makes x.

(** Combinations, permutations and their numbers. *)
From Coq Require Import List ZArith Bool Factorial.
Import ListNotations.
Open Scope list_scope.

(** [sel] lists every selection of [r] out of the positions 0 .. [n]-1 in ascending order once. *)
Definition all_combinations (n r : nat) (sel : list (list nat)) : Prop :=
  NoDup sel /\
  forall x, In x sel <->
    length x = r /\ (forall i, In i x -> i < n) /\
    (forall p q u v, nth_error x p = Some u -> nth_error x q = Some v -> p < q -> u < v).

(** [sel] lists every selection of [r] out of the positions 0 .. [n]-1 in every order once. *)
Definition all_permutations (n r : nat) (sel : list (list nat)) : Prop :=
  NoDup sel /\
  forall x, In x sel <-> length x = r /\ (forall i, In i x -> i < n) /\ NoDup x.

(** The elements at the positions. *)
Definition at_positions {T} (l : list T) (x : list nat) (y : list T) : Prop :=
  Forall2 (fun i t => nth_error l i = Some t) x y.

(** Calling a function for the elements of a list until it returns true. *)
Fixpoint visits {A St} (g : A -> St -> bool * St) (l : list A) (s : St) : bool * St :=
  match l with
  | [] => (false, s)
  | x :: l' => let (stop, s') := g x s in if stop then (true, s') else visits g l' s'
  end.

Open Scope Z_scope.

Definition factorial (n : Z) : Z := Z.of_nat (fact (Z.to_nat n)).
Close Scope Z_scope.

(** [sel] lists every selection of [r] out of the positions 0 .. [n]-1, arranged on a circle, once:
    of the rotations of an arrangement, the one with the least position first. *)
Definition all_circular (n r : nat) (sel : list (list nat)) : Prop :=
  NoDup sel /\
  forall x, In x sel <->
    length x = r /\ (forall i, In i x -> i < n) /\ NoDup x /\ (forall h, hd_error x = Some h -> forall i, In i x -> h <= i).

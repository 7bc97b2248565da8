(** What options of a task are for, and how they may be combined. *)
From Coq Require Import String Ascii List ZArith.
From Verif Require Import Base AlgebraModel AlgebraSpec FormulaSpec SearchOptionsModel.
Import ListNotations.
Open Scope list_scope.
Open Scope Z_scope.

(** The text says: do one of these actions and nothing else.  With at least one action it is fit for the search of the
    assignment service. *)
Definition chooses_one (text : str) (ids : list Z) : Prop :=
  exists e, writes e text
    /\ (forall t, traces e t <-> exists a, In a ids /\ t = [a])
    /\ (ids <> [] -> well_formed e).

(** The text says: do these actions, one after the other. *)
Definition in_turn (text : str) (ids : list Z) : Prop :=
  exists e, writes e text /\ forall t, traces e t <-> t = ids.

(** Option numbers: from 10 on, ascending. *)
Fixpoint ascending (from : Z) (ids : list Z) : Prop :=
  match ids with [] => True | a :: l => from <= a /\ ascending (a + 1) l end.

(** The vehicles, the view angle, the direction and the cost. *)
Definition content (o : option_) : list Z * (Z * Z) * bool * Z := (o_for o, o_look o, o_back o, o_cost o).

(** Vehicles that a task may use for a request: none named means all. *)
Definition named (l : list Z) (v : Z) : Prop := l = [] \/ In v l.

(** A direction within a wedge, on a circle of [turn] units, widened by [tol] at the far end. *)
Definition within (turn centre half tol h : Z) : Prop :=
  exists k, centre - half <= h + k * turn <= centre + half + tol.

(** Options for these purposes, in this order, with ascending numbers, and exactly one of them is to be done. *)
Definition offers (whats : list (list Z * (Z * Z) * bool * Z)) (r : list option_ * str) : Prop :=
  map content (fst r) = whats /\ ascending 10 (map o_id (fst r))
  /\ (Forall (fun a => a < 2 ^ 63) (map o_id (fst r)) -> chooses_one (snd r) (map o_id (fst r))).

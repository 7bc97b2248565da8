(** Model of the length and the headings that the Impact line search gives its options: ImpactLineSearchTaskService.cpp:372-409, and the same
    for the way back, 439-478.  The waypoints themselves, the cost and the identifiers are those of LineOffsetModel. *)
From Coq Require Import Reals List ZArith Bool.
From Verif Require Import LinePlanModel LineOffsetModel.
Import ListNotations.
Open Scope R_scope.

(** ImpactLineSearchTaskService.cpp:378-409, the loop behind the first waypoint: [prev] is [itWaypointlast], [at_first] says whether it is the
    first; the length, the heading at the start and the heading at the end *)
Fixpoint impact_loop (at_first : bool) (prev : point) (rest : list point) (length start finish : R) : R * R * R :=
  match rest with
  | [] => (length, start, finish)
  | p :: r =>
      let length := length + dist p prev in
      if at_first then impact_loop false p r length (heading prev p) finish
      else match r with
           | [] => impact_loop false p r length start (heading prev p)
           | _ => impact_loop false p r length start finish
           end
  end.

(** ImpactLineSearchTaskService.cpp:374-378 *)
Definition impact_headings (plan : list point) : R * R * R :=
  match plan with [] => (0, 0, 0) | p :: r => impact_loop true p r 0 0 0 end.

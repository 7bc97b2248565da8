(** What a spiral is, in metres and radians. *)
From Coq Require Import Reals List ZArith.
Import ListNotations.
Open Scope R_scope.

(** Half a turn, to eleven decimals. *)
Definition half_turn : R := 3.14159265359.

(** The radius at an angle: nine tenths of a lane per turn, beginning with half of that. *)
Definition radius (lane theta : R) : R := 0.45 * lane * (1 + theta / half_turn).

(** Points (radius, angle) of the spiral from the angle [theta] on: the angle grows by 50 m on the circle, and the last radius is the
    first one beyond [bound]. *)
Fixpoint spiral_from (bound lane theta : R) (l : list (R * R)) : Prop :=
  match l with
  | [] => False
  | (r, t) :: k => t = theta /\ r = radius lane t /\
      match k with [] => bound < r | _ => r <= bound /\ spiral_from bound lane (t + 50 / r) k end
  end.

(** The whole: a first point 50 m from the centre, and the spiral from the angle 1 on if the bound is not within 50 m. *)
Definition spiral_shape (bound lane : R) (l : list (R * R)) : Prop :=
  exists k, l = (50, 0) :: k /\ ((bound < 50 /\ k = []) \/ (50 <= bound /\ spiral_from bound lane 1 k)).

(** The place at a radius and an angle (north is the sine). *)
Definition polar_place (c : R * R) (r theta : R) : R * R := (fst c + r * sin theta, snd c + r * cos theta).

(** The parts of the spiral: the points up to the first one that is not nearer than [inner], and the points from there on; the number is
    how many points come before the part. *)
Inductive part (inner : R) (l : list (R * R)) : nat -> list (R * R) -> Prop :=
| part_whole : Forall (fun x => fst x < inner) l -> part inner l 0 l
| part_inner u x v : Forall (fun x => fst x < inner) u -> inner <= fst x -> l = u ++ x :: v -> part inner l 0 (u ++ [x])
| part_outer u x v : Forall (fun x => fst x < inner) u -> inner <= fst x -> l = u ++ x :: v -> part inner l (length u) (x :: v).

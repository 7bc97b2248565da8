(** Places beside a line, looks at it, and ways that are as far along as a line.  A place is north and east. *)
From Coq Require Import Reals List.
From Verif Require Import LinePlanSpec.
Import ListNotations.
Open Scope R_scope.

(** The course from [a] to [b]: a vector of length one. *)
Definition course (a b u : place) : Prop :=
  fst u ^ 2 + snd u ^ 2 = 1 /\ exists r, 0 < r /\ fst b = fst a + r * fst u /\ snd b = snd a + r * snd u.

(** To the right of a course. *)
Definition right (u : place) : place := (- snd u, fst u).

(** From [w] the place [p] is seen at distance [d], [al] clockwise from the course [u]. *)
Definition sees (w u p : place) (d al : R) : Prop :=
  fst p = fst w + d * (cos al * fst u + sin al * fst (right u)) /\ snd p = snd w + d * (cos al * snd u + sin al * snd (right u)).

(** [w] is [x] to the right of the straight line through [p] on the course [u]. *)
Definition beside (p u w : place) (x : R) : Prop := (fst w - fst p) * fst (right u) + (snd w - snd p) * snd (right u) = x.

(** The point of a line that has [s] of it behind it. *)
Inductive reached : list place -> R -> place -> Prop :=
| reached_here a b l s : 0 <= s < away a b -> reached (a :: b :: l) s (along a b (s / away a b))
| reached_later a b l s p : reached (b :: l) s p -> reached (a :: b :: l) (away a b + s) p.

(** Two straight lines with ends that are not parallel, and cross. *)
Definition crosses (a b c d : place) : Prop :=
  / 10 ^ 10 <= Rabs ((fst b - fst a) * (snd d - snd c) - (snd b - snd a) * (fst d - fst c)) /\
  exists t s, 0 <= t <= 1 /\ 0 <= s <= 1 /\ along a b t = along c d s.

(** Inside everything straight that surrounds the places [l]. *)
Definition surrounded (l : list place) (p : place) : Prop :=
  forall a b c, (forall q, In q l -> a * fst q + b * snd q <= c) -> a * fst p + b * snd p <= c.

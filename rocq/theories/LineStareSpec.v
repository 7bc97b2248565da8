(** Points along a line with altitudes, and the nearest place of a way. *)
From Coq Require Import Reals List.
From Verif Require Import LinePlanSpec.
Import ListNotations.
Open Scope R_scope.

(** A place and its altitude. *)
Notation spot := ((R * R) * R)%type.

Definition between (a b : spot) (t : R) : spot := (along (fst a) (fst b) t, snd a + t * (snd b - snd a)).

(** [p] is on the line, with [s] of the line behind it, measured on the ground. *)
Inductive on_line : list spot -> R -> spot -> Prop :=
| on_here a b l t : 0 <= t <= 1 -> on_line (a :: b :: l) (t * away (fst a) (fst b)) (between a b t)
| on_later a b l s p : on_line (b :: l) s p -> on_line (a :: b :: l) (away (fst a) (fst b) + s) p.

(** The place [t] along the leg that begins with the point [k] of a way. *)
Definition way_place (l : list place) (k : nat) (t : R) : place := along (nth k l (0, 0)) (nth (S k) l (0, 0)) t.

(** It is nearest to [p] of all places of the way, up to [e]. *)
Definition nearest (l : list place) (p : place) (e : R) (k : nat) (t : R) : Prop :=
  (S k < length l)%nat /\ 0 <= t <= 1 /\
  forall j s, (S j < length l)%nat -> 0 <= s <= 1 -> away p (way_place l k t) <= away p (way_place l j s) + e.

(** The part of the way behind it. *)
Definition flown (l : list place) (k : nat) (t : R) : R :=
  (way (firstn (S k) l) + t * away (nth k l (0, 0)) (nth (S k) l (0, 0))) / way l.

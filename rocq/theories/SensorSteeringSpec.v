(** Where a sensor is supposed to look. *)
From Coq Require Import Reals List ZArith.
Import ListNotations.
Open Scope R_scope.

(** North and east. *)
Definition spot := (R * R)%type.

Definition dist (p q : spot) : R := sqrt ((fst p - fst q) ^ 2 + (snd p - snd q) ^ 2).

(** The point between [a] and [b] that is the part [t] of the way from [a]. *)
Definition mix (a b : spot) (t : R) : spot := (fst a + t * (fst b - fst a), snd a + t * (snd b - snd a)).

(** The length of a line through points. *)
Fixpoint len (l : list spot) : R :=
  match l with
  | a :: (b :: _) as r => dist a b + len r
  | _ => 0
  end.

(** The point of such a line at the distance [s] from its start. *)
Inductive along : list spot -> R -> spot -> Prop :=
| along_end a : along [a] 0 a
| along_here a b r t : 0 <= t <= 1 -> along (a :: b :: r) (t * dist a b) (mix a b t)
| along_next a b r s p : along (b :: r) s p -> along (a :: b :: r) (dist a b + s) p.

(** [q] is the point of the leg from [a] to [b] that is nearest to [p]. *)
Definition nearest (a b p q : spot) : Prop :=
  (exists t, 0 <= t <= 1 /\ q = mix a b t) /\ forall u, 0 <= u <= 1 -> dist p q <= dist p (mix a b u).

(** Neighbours are at least [d] apart. *)
Fixpoint spaced (d : R) (l : list spot) : Prop :=
  match l with
  | a :: (b :: _) as r => d <= dist a b /\ spaced d r
  | _ => True
  end.

(** Numbers that increase. *)
Fixpoint increasing (l : list Z) : Prop :=
  match l with
  | i :: (j :: _) as r => (i < j)%Z /\ increasing r
  | _ => True
  end.

(** Each segment begins with the waypoint with which the one before ends, and has at least two. *)
Fixpoint chained (l : list (list Z)) : Prop :=
  match l with
  | a :: r => (2 <= length a)%nat /\ increasing a /\
      match r with b :: _ => hd_error (rev a) = hd_error b | [] => True end /\ chained r
  | [] => True
  end.

(** What it means to fly a list of legs: used to state what a route extension promises. *)
From Coq Require Import Reals List ZArith.
From Verif Require Import RouteExtModel.
Import ListNotations.
Open Scope R_scope.

(** A vehicle is at a place and goes in a direction: an angle from the first axis to the second. *)
Record pose := { px : R; py : R; ph : R }.

(** The center of a turn of radius [r], to the left for 1 and to the right for -1: it is beside the vehicle. *)
Definition center (r : R) (p : pose) (dir : Z) : R * R :=
  (px p - IZR dir * r * sin (ph p), py p + IZR dir * r * cos (ph p)).

(** The pose after going [s] on, straight for direction 0 and on a circle otherwise. *)
Definition fly (r : R) (p : pose) (dir : Z) (s : R) : pose :=
  if Z.eqb dir 0 then {| px := px p + s * cos (ph p); py := py p + s * sin (ph p); ph := ph p |}
  else let h := ph p + IZR dir * (s / r) in
       {| px := fst (center r p dir) + IZR dir * r * sin h; py := snd (center r p dir) - IZR dir * r * cos h; ph := h |}.

(** The legs can be flown one after the other from a pose, with turns of radius [r]: each ends where its waypoint is, and turns go around
    the center that is given with them. *)
Fixpoint flown (r : R) (p : pose) (w : list leg) : Prop :=
  match w with
  | [] => True
  | l :: w => (ldir l = 0 \/ ldir l = 1 \/ ldir l = -1)%Z /\ 0 <= llen l
              /\ lx l = px (fly r p (ldir l) (llen l)) /\ ly l = py (fly r p (ldir l) (llen l))
              /\ (ldir l <> 0%Z -> (ltx l, lty l) = center r p (ldir l))
              /\ flown r (fly r p (ldir l) (llen l)) w
  end.

(** The pose at the end. *)
Fixpoint finish (r : R) (p : pose) (w : list leg) : pose :=
  match w with [] => p | l :: w => finish r (fly r p (ldir l) (llen l)) w end.

(** The way is through this place. *)
Fixpoint through (r : R) (p : pose) (w : list leg) (x y : R) : Prop :=
  match w with
  | [] => False
  | l :: w => (exists s, 0 <= s <= llen l /\ px (fly r p (ldir l) s) = x /\ py (fly r p (ldir l) s) = y)
              \/ through r (fly r p (ldir l) (llen l)) w x y
  end.

(** The length of the way. *)
Definition way (w : list leg) : R := fold_right Rplus 0 (map llen w).

(** A pose looks from [s] to [e]. *)
Definition looks (p : pose) (s e : R * R) : Prop :=
  (px p, py p) = s
  /\ exists l, 0 < l /\ fst e = fst s + l * cos (ph p) /\ snd e = snd s + l * sin (ph p).

(** Two directions are the same. *)
Definition same_way (a b : R) : Prop := cos a = cos b /\ sin a = sin b.

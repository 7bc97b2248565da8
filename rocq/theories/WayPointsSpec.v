(** What is meant by a list of waypoints that passes certain places. *)
From Coq Require Import Reals List ZArith QArith Qreals.
From Verif Require Import SegModel VisModel VisSpec DubinsModel DubinsSpec.
Import ListNotations.
Open Scope R_scope.

(** [l] is [k] with places repeated, one after the other. *)
Inductive repeated {A : Type} : list A -> list A -> Prop :=
| rep_nil : repeated [] []
| rep_one : forall x k l, repeated k l -> repeated (x :: k) (x :: l)
| rep_more : forall x k l, repeated (x :: k) l -> repeated (x :: k) (x :: l).

(** [k] is [l] without the places that are less than a metre from the one kept before. *)
Inductive without_short : list place -> list place -> Prop :=
| ws_nil : without_short [] []
| ws_last : forall a, without_short [a] [a]
| ws_keep : forall a b l k, 1 <= dist a b -> without_short (b :: l) k -> without_short (a :: b :: l) (a :: k)
| ws_drop : forall a b l k, dist a b < 1 -> without_short (a :: l) k -> without_short (a :: b :: l) k.

(** Going from [p] with heading [h] for a distance comes to [q]. *)
Definition ahead (p q : place) (h : R) : Prop :=
  exists d, 0 < d /\ q = (fst p + d * cos h, snd p + d * sin h).

(** The heading at the end of a list of places: north if there is one only, else the direction to the last from the one nearest to the end
    that is more than 10 m away, or from the first of all. *)
Definition heading_at_end (l : list place) (h : R) : Prop :=
  (forall x, l = [x] -> h = 0) /\
  (forall l1 y, l = l1 ++ [y] -> l1 <> [] ->
    exists a x b, l1 = a ++ x :: b /\ (forall z, In z b -> dist y z <= 10) /\ (10 < dist y x \/ a = []) /\ (x <> y -> ahead x y h)).

(** The waypoints [ws] are those of a way of turns and straight legs that can be flown from [P] to [finish] with the heading [h'], see C100. *)
Definition flown (r sep : R) (P : pose) (finish : place) (h' len : R) (ws : list place) : Prop :=
  exists w, ws = map spot w /\
    ((exists s1 s2, follows_straight r sep P finish h' s1 s2 len w) \/ (exists s, follows_turns r sep P finish h' s len w)).

(** A position of the map in north and east, a heading given in degrees, and the place of the corner with a number. *)
Definition at_pos (p : pos) : place := (Q2R (north p), Q2R (east p)).
Definition degrees (d : R) : R := PI * d / 180.
Definition located (ps : list polygon) (i : Z) (q : place) : Prop := exists v, corner ps v /\ fst v = i /\ q = at_pos (snd v).

(** From [x] one sees [y], both being corners or none, or there is a side of a zone between them. *)
Definition named (ps : list polygon) (p : pos) (i : Z) : Prop := i = nowhere \/ corner ps (i, p).
Definition open_leg (ps : list polygon) (x y : place) : Prop :=
  exists p q i j, x = at_pos p /\ y = at_pos q /\ named ps p i /\ named ps q j /\
    (sees ps p q i j \/ exists z v w, In z ps /\ (side z v w \/ side z w v) /\ p = snd v /\ q = snd w).

(** The turn from [P] about the centre nearer to [f], unless [f] is within that circle. *)
Definition nearer_turn (r : R) (P : pose) (f : place) (s : sense) : Prop :=
  (r <= dist (hub P r s) f)%R /\ ((r <= dist (hub P r (other s)) f)%R -> (dist (hub P r s) f <= dist (hub P r (other s)) f)%R).

(** The waypoints [pts] lead from [P] around the corners [cs] to [finish] with the heading [h3].  The first part can be flown and comes
    to the first corner with the heading that comes from one turn, the nearer one, and a straight leg.  Then the corners follow, without those less than
    a metre from the one before.  The last part can be flown from the last of these with the heading at the end of them. *)
Definition around_corners (r sep : R) (P : pose) (cs : list place) (finish : place) (h3 : R) (pts : list place) : Prop :=
  exists c cs' w1 len1 h1 k y h2 w3 len3,
    cs = c :: cs' /\ flown r sep P c h1 len1 w1
    /\ (exists s a l, (0 <= a < 2 * PI)%R /\ (0 <= l)%R /\ nearer_turn r P c s /\ let Q := fly r P [Turn s a; Ahead l] in fst Q = c /\ same_heading (snd Q) h1)
    /\ without_short cs (k ++ [y]) /\ heading_at_end (k ++ [y]) h2
    /\ flown r sep (y, h2) finish h3 len3 w3
    /\ pts = w1 ++ (k ++ [y]) ++ w3.

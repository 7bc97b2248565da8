(** Where the vehicles of a blockade should be. *)
From Coq Require Import Reals List ZArith.
From Verif Require Import Latest FlatEarthModel BlockadeModel.
Import ListNotations.
Open Scope R_scope.

(** What was told about a vehicle, and about the one that is blocked. *)
Definition configured (v : Z) (e : ev) : option config := match e with Config u c => if Z.eqb u v then Some c else None | _ => None end.
Definition activity (v : Z) (e : ev) : option bool :=
  match e with
  | Report st On => if Z.eqb (id st) v then Some true else None
  | Report st Off => if Z.eqb (id st) v then Some false else None
  | Dropped u => if Z.eqb u v then Some false else None
  | _ => None
  end.
Definition sighted (v : Z) (e : ev) : option report := match e with Report st _ => if Z.eqb (id st) v then Some st else None | _ => None end.
(** The vehicles at work. *)
Definition at_work (h : list ev) (l : list Z) : Prop := NoDup l /\ forall v, In v l <-> latest (activity v) h true.

(** Points are meters east and north. *)
Definition dist (p q : R * R) : R := sqrt ((fst q - fst p) ^ 2 + (snd q - snd p) ^ 2).
Definition from (b : R * R) (l : R) (u : R * R) : R * R := (fst b + l * fst u, snd b + l * snd u).
Definition unit_vector (u : R * R) : Prop := fst u ^ 2 + snd u ^ 2 = 1.
Definition at_place (e : earth) (x : R * R) : R * R := (snd (snd (deg_ne_m (fst x) (snd x) e)), fst (snd (deg_ne_m (fst x) (snd x) e))).
(** A converter that has an origin. *)
Definition based (e : earth) : Prop := exists la lo, e = initialize la lo fresh.

(** The place to protect: 100 m west of the enemy if none is given. *)
Definition home (t : task) (e : earth) (en : R * R) (b : R * R) : Prop :=
  match protected t with Some p => b = at_place e p | None => b = (fst (at_place e en) - 100, snd (at_place e en)) end.

(** [c] is where to stop the enemy, who comes to [b] from [l] meters in direction [u], for a vehicle at [v]: at [b] if the enemy is there or if
    the vehicle is further from there than the point in front of the enemy, at this point if the vehicle is there, and else where both
    of them are at the same time at the same speed. *)
Definition meets (b u : R * R) (l gap : R) (v c : R * R) : Prop :=
  l <= gap /\ c = b
  \/ gap < l /\ (l - gap < dist b v /\ c = b
                 \/ dist b v <= l - gap /\ dist (from b (l - gap) u) v < 10 /\ c = from b (l - gap) u
                 \/ dist b v <= l - gap /\ 10 <= dist (from b (l - gap) u) v
                    /\ exists k, 0 <= k <= l - gap /\ c = from b k u
                       /\ (l - gap <= 90000 -> Rabs (dist c v - dist c (from b (l - gap) u)) <= 3 / 10 ^ 4 * dist (from b (l - gap) u) v)).

(** To the right of a direction, within the rounding of constants. *)
Definition right_of (u x : R * R) : Prop := unit_vector x /\ Rabs (fst x - snd u) <= / 10 ^ 10 /\ Rabs (snd x + fst u) <= / 10 ^ 10.

(** Vehicle [me] at [v] is posted at [q]: to the right of where to stop the enemy at [en] by the gap times the number of vehicles with a higher
    identifier less half the number of vehicles.  Places go through degrees once more on the way. *)
Definition posted (t : task) (e : earth) (l : list Z) (me : Z) (v en q : R * R) : Prop :=
  exists b u d c x, home t e en b /\ unit_vector u /\ d = dist b (at_place e en) /\ at_place e en = from b d u
    /\ meets b u d (standoff t) (at_place e v) c /\ right_of u x
    /\ q = from (at_place e (m_ll_deg (snd c) (fst c) e)) (standoff t * (INR (length (filter (fun n => Z.ltb me n) l)) - INR (length l) / 2)) x.

(** Actions at the post: to stay there, and to watch the enemy with all gimbals. *)
Definition speed_of (h : list ev) (st : report) (s : R) : Prop :=
  unsaid (configured (id st)) h /\ s = ground st \/ exists c, latest (configured (id st)) h c /\ s = nominal c.
Definition acts (h : list ev) (st en : report) (la lo s : R) (a : list action) : Prop :=
  unsaid (configured (id st)) h /\ a = [Loiter la lo (altitude st) s 100 false]
  \/ exists c r g, latest (configured (id st)) h c /\ (what c = Surface /\ r = 0 \/ what c = Air /\ r = 300 \/ what c = Other /\ r = 100)
     /\ a = Loiter la lo (altitude st) s r g :: map (fun p => Stare (fst p) (lat en) (lon en)) (filter snd (payloads c)) /\ (g = true <-> what c = Surface).

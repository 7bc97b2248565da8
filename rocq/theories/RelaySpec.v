(** What a relay task was told. *)
From Coq Require Import Reals List ZArith.
From Verif Require Import Latest FlatEarthModel RelayModel.
Import ListNotations.
Open Scope R_scope.

Definition at_ (v : Z) (e : ev) : option pt := match e with Report u p _ _ => if Z.eqb u v then Some p else None | _ => None end.
Definition reported (v : Z) (e : ev) : option (pt * R) := match e with Report u p a _ => if Z.eqb u v then Some (p, a) else None | _ => None end.
(** Configurations of vehicles that may not be sent do not count. *)
Definition listed (t : task) (v : Z) : Prop := eligible t = [] \/ In v (eligible t).
Definition configured (v : Z) (e : ev) : option config := match e with Config u c => if Z.eqb u v then Some c else None | _ => None end.
Definition known_config (t : task) (h : list ev) (v : Z) (c : config) : Prop := listed t v /\ earliest (configured v) h c.

(** The supported one is the last place it reported, or the destination of the task if it names nobody. *)
Definition supported_at (t : task) (h : list ev) (x : pt) : Prop :=
  latest (at_ (supported t)) h x \/ unsaid (at_ (supported t)) h /\ supported t = 0%Z /\ destination t = Some x.
Definition supported_unknown (t : task) (h : list ev) : Prop := forall x, ~ supported_at t h x.
(** The tower is where it reported to be, or where its configuration says. *)
Definition tower_at (t : task) (h : list ev) (y : pt) : Prop :=
  latest (at_ (tower t)) h y \/ unsaid (at_ (tower t)) h /\ exists c, known_config t h (tower t) c /\ radio c = Some y.
Definition tower_unknown (t : task) (h : list ev) : Prop := forall y, ~ tower_at t h y.

(** [z] is in the middle of [x] and [y], up to the precision of the constants that convert degrees. *)
Definition middle (x y z : R) : Prop := Rabs (z - (x + y) / 2) <= / 10 ^ 12 * Rabs ((x + y) / 2).

(** The place of the earth where the converter is exact is not a pole. *)
Definition between_poles (lat : R) : Prop := - PI / 2 < lat < PI / 2.

(** The altitude for a vehicle that is at altitude [a]. *)
Definition altitude_for (t : task) (h : list ev) (v : Z) (a b : R) : Prop :=
  (exists c, known_config t h v c /\ b = nominal c) \/ (forall c, ~ known_config t h v c) /\ b = a.

(** A vehicle at [p] is sent to [q] with altitude [b]; [hs] and [ht] are what was said before about the supported one and the tower.  [before] and [after] are the
    converter of coordinates. *)
Definition sent (t : task) (hs ht : list ev) (v : Z) (p : pt) (a : R) (before after : earth) (q : pt) (b : R) : Prop :=
  supported_unknown t hs /\ q = p /\ b = a
  \/ exists x, supported_at t hs x /\ altitude_for t hs v a b
     /\ (tower_unknown t ht /\ q = p
         \/ exists y, tower_at t ht y /\ exists la lo, after = initialize la lo fresh /\ (before = fresh /\ la = fst y * deg_to_rad \/ after = before)
            /\ (between_poles la -> middle (fst x) (fst y) (fst q) /\ middle (snd x) (snd y) (snd q))).

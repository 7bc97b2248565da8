(** What the route of a vehicle to a rendezvous should be. *)
From Coq Require Import Reals List ZArith.
From Verif Require Import FlatEarthModel RouteExtModel RouteExtSpec RouteExtPathProps RvRouteModel.
Import ListNotations.
Open Scope R_scope.

(** The speed a vehicle is planned with. *)
Definition flies (v : vehicle) (s : R) : Prop :=
  match v_craft v with Some c => s = nominal c | None => s = v_ground v end.

(** The radius of its turns: a fifth more than at its bank angle, which is taken as at least 1 degree, and as 20 degrees if unknown. *)
Definition turns (v : vehicle) (s r : R) : Prop :=
  exists phi, match v_craft v with Some c => phi = Rmax 1 (Rabs (bank c)) | None => phi = 20 end
    /\ r = 1.2 * (s ^ 2 / (9.80665 * tan (phi * 0.01745329251994))).

(** The route to start from: a single waypoint is reached from where the vehicle is; without any it goes to the end of the option. *)
Definition same_but_speed (s : R) (w w' : waypoint) : Prop :=
  wlat w' = wlat w /\ wlon w' = wlon w /\ wnum w' = wnum w /\ wnext w' = wnext w /\ wother w' = wother w /\ wspeed w' = s.
Definition hop (v : vehicle) (s : R) (lat lon : R) (n : Z) (ws : list waypoint) : Prop :=
  exists a b, ws = [a; b] /\ wspeed a = s /\ wspeed b = s
    /\ wlat a = v_lat v /\ wlon a = v_lon v /\ wnum a = n /\ wnext a = (n + 1)%Z
    /\ wlat b = lat /\ wlon b = lon /\ wnum b = (n + 1)%Z /\ wnext b = (n + 1)%Z.
Definition worked (v : vehicle) (goal : R * R) (n : Z) (s : R) (wps ws : list waypoint) : Prop :=
  match wps with
  | [] => hop v s (fst goal) (snd goal) n ws
  | [w] => hop v s (wlat w) (wlon w) (wnum w) ws
  | _ => Forall2 (same_but_speed s) wps ws
  end.

(** The length of a route. *)
Fixpoint along (w0 a : waypoint) (ws : list waypoint) : R :=
  match ws with [] => 0 | b :: ws => apart (local w0 a) (local w0 b) + along w0 b ws end.
Definition long (ws : list waypoint) : R := match ws with [] => 0 | w :: ws => along w w ws end.

(** One segment of a route is left for a while: a way of turns with radius [r] and straight legs goes on from one place of the segment and
    comes back to it further on in the same direction.  The route is longer by [more]. *)
Definition longer (wps out : list waypoint) (r more : R) : Prop :=
  exists w0 i a b l h from net legs mid rest,
    nth_error wps 0 = Some w0 /\ nth_error wps i = Some a /\ nth_error wps (S i) = Some b /\ l = apart (local w0 a) (local w0 b)
    /\ local w0 b = (fst (local w0 a) + l * cos h, snd (local w0 a) + l * sin h)
    /\ 0 <= from /\ 0 <= net /\ from + net <= l
    /\ (let p := {| px := fst (local w0 a) + from * cos h; py := snd (local w0 a) + from * sin h; ph := h |} in
        flown r p legs
        /\ px (finish r p legs) = fst (local w0 a) + (from + net) * cos h /\ py (finish r p legs) = snd (local w0 a) + (from + net) * sin h
        /\ same_way (ph (finish r p legs)) h
        /\ exists pts, Forall2 (put w0 b) mid ((px p, py p) :: pts) /\ forall x y, In (x, y) pts -> through r p legs x y)
    /\ more = way legs - net
    /\ out = firstn (S i) wps ++ mid ++ rest /\ Forall2 alike rest (skipn (S i) wps).

(** No segment of a route can be extended by a time. *)
Definition too_short (ws : list waypoint) (ms : Z) (r : R) : Prop := forall i l, suits ws ms r i l -> l <= / 10 ^ 4.

(** What the simple waypoint plan manager should send. *)
From Coq Require Import Reals List ZArith.
From Verif Require Import Latest FlatEarthModel SimplePlanModel.
Import ListNotations.
Open Scope R_scope.

(** What was told about vehicle [v]. *)
Definition configured (v : Z) (e : ev) : option config := match e with Config u c => if Z.eqb u v then Some c else None | _ => None end.
Definition located (v : Z) (e : ev) : option (R * R) := match e with State u la lo => if Z.eqb u v then Some (la, lo) else None | _ => None end.

(** The radius of a turn: 30 km unless the vehicle is known, else from the nominal speed and the bank angle, which is 45 degrees for vehicles
    that do not bank and within 1 and 89 degrees for others. *)
Definition bank_angle (c : config) (phi : R) : Prop :=
  match banking c with None => phi = 45 | Some b => phi = Rmax 1 (Rmin 89 (Rabs b)) end.
Definition turns (h : list ev) (v : Z) (r : R) : Prop :=
  unsaid (configured v) h /\ r = 30000
  \/ exists c phi, latest (configured v) h c /\ bank_angle c phi /\ r = speed c ^ 2 / (9.80665 * tan (phi * 0.01745329251994)).

(** Meters north and east of the origin of a converter. *)
Definition place (e : earth) (la lo : R) : R * R := snd (deg_ne_m la lo e).
(** The direction from the vehicle to [p]: north if the vehicle is there or nobody knows where it is. *)
Definition direction (h : list ev) (v : Z) (e : earth) (p u : R * R) : Prop :=
  fst u ^ 2 + snd u ^ 2 = 1 /\
  (unsaid (located v) h /\ u = (1, 0)
   \/ exists x, latest (located v) h x /\ let q := place e (fst x) (snd x) in
        (p = q -> u = (1, 0)) /\ fst p - fst q = straight q p * fst u /\ snd p - snd q = straight q p * snd u).

(** The first place that was converted, by the service for a mission with one waypoint or by others, is the origin for all conversions. *)
Definition converts (v : Z) (e : ev) : option (R * R) :=
  match e with
  | Elsewhere la lo => Some (la, lo)
  | Response ms => match find (fun m => Z.eqb (vehicle m) v) ms with Some m => match points m with [w] => Some (lat w, lon w) | _ => None end | None => None end
  | _ => None
  end.
Definition origin (h : list ev) (v : Z) (w : waypoint) (e : earth) : Prop :=
  exists a, (earliest (converts v) h a \/ unsaid (converts v) h /\ a = (lat w, lon w)) /\ e = initialize (fst a * 0.01745329251994) (snd a * 0.01745329251994) fresh.

(** A mission with one waypoint gets a second one behind it, two radii further in the direction of flight. *)
Definition lengthened (h : list ev) (v : Z) (w w1 w2 : waypoint) : Prop :=
  exists e r u, origin h v w e /\ turns h v r /\ direction h v e (place e (lat w) (lon w)) u
    /\ w1 = {| number := number w; next := number w + 1; lat := lat w; lon := lon w; fields := fields w |}
    /\ number w2 = (number w + 1)%Z /\ next w2 = next w /\ fields w2 = fields w
    /\ (lat w2, lon w2) = m_ll_deg (fst (place e (lat w) (lon w)) + 2 * r * fst u) (snd (place e (lat w) (lon w)) + 2 * r * snd u) e.
Definition served (h : list ev) (v : Z) (m m' : mission) : Prop :=
  vehicle m' = vehicle m /\ content m' = content m
  /\ ((exists w w1 w2, points m = [w] /\ points m' = [w1; w2] /\ lengthened h v w w1 w2) \/ length (points m) <> 1%nat /\ points m' = points m).

(** The first mission of a vehicle. *)
Definition first_for (v : Z) (ms : list mission) (m : mission) : Prop :=
  exists l1 l2, ms = l1 ++ m :: l2 /\ vehicle m = v /\ forall x, In x l1 -> vehicle x <> v.

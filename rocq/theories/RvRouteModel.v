(** Model of how a rendezvous makes the route of one vehicle longer, /repo/src/cpp/Tasks/RendezvousTask.cpp:348-395, 460-517
    (isProcessTaskImplementationRouteResponse, the parts before and after those in RvTimeModel), in real numbers.

    Speeds per option are only for AFRL_INTERNAL_ENABLED.  Altitudes and speed types, which are set the same for all waypoints, are left
    out, as are the tasks that are entered in a new waypoint.  The constant 3.14159265359 is taken as pi.  Durations are not limited to
    64 bits.  A speed of 0, for which an infinite number is converted to an integer, is a result of its own. *)
From Coq Require Import Reals List ZArith.
From Verif Require Import FlatEarthModel RouteExtModel.
Import ListNotations.
Open Scope R_scope.

(** What the configuration of an air vehicle says: speeds, and the bank angle of the nominal flight profile in degrees. *)
Record craft := { nominal : R; slowest : R; fastest : R; bank : R }.
(** The vehicle that is asked for: its number, where it is, how fast, and its configuration, if it has one as an air vehicle. *)
Record vehicle := { v_id : Z; v_lat : R; v_lon : R; v_ground : R; v_craft : option craft }.

(** A conversion from double to an integer. *)
Definition trunc (x : R) : Z := if Rlt_dec x 0 then (- Int_part (- x))%Z else Int_part x.

(** 361-365. *)
Definition planned (v : vehicle) : R := match v_craft v with Some c => nominal c | None => v_ground v end.

(** 379-385. *)
Definition at_speed (s : R) (w : waypoint) : waypoint :=
  {| wlat := wlat w; wlon := wlon w; wspeed := s; wnum := wnum w; wnext := wnext w; wother := wother w |}.

(** 367-395: the waypoints that are worked with; [goal] is the end of the option and [n] the number for a new waypoint. *)
Definition prepared (v : vehicle) (goal : R * R) (n : Z) (wps : list waypoint) : list waypoint :=
  let wps := match wps with [] => [{| wlat := fst goal; wlon := snd goal; wspeed := 0; wnum := n; wnext := n; wother := 0 |}] | _ => wps end in
  match map (at_speed (planned v)) wps with
  | [w] => [{| wlat := v_lat v; wlon := v_lon v; wspeed := wspeed w; wnum := wnum w; wnext := wnum w + 1; wother := wother w |};
            {| wlat := wlat w; wlon := wlon w; wspeed := wspeed w; wnum := wnum w + 1; wnext := wnum w + 1; wother := wother w |}]
  | ws => ws
  end.

(** 468-476: the loop over the waypoints. *)
Fixpoint travel (e : earth) (p : R * R) (ws : list waypoint) : R :=
  match ws with
  | [] => 0
  | w :: ws => let q := snd (deg_ne_m (wlat w) (wlon w) e) in
               sqrt ((fst q - fst p) * (fst q - fst p) + (snd q - snd p) * (snd q - snd p)) + travel e q ws
  end.
(** 461-476. *)
Definition travel_dist (wps : list waypoint) : R :=
  match wps with
  | [] => 0
  | w :: ws => travel (initialize (wlat w * deg_to_rad) (wlon w * deg_to_rad) fresh) (0, 0) ws
  end.

(** 485-486, 495-498. *)
Definition gravity : R := 980665 / 10 ^ 5.
Definition radius (v : vehicle) : R :=
  let s := planned v in
  match v_craft v with
  | Some c => let phi := if Rlt_dec (Rabs (bank c)) 1 then 1 else Rabs (bank c) in
              12 / 10 * (s * s / gravity / tan (phi * deg_to_rad))
  | None => 12 / 10 * s * s / gravity / tan (20 * deg_to_rad)
  end.

(** 487-494. *)
Definition min_speed (v : vehicle) : R :=
  let s := planned v in
  match v_craft v with
  | Some c => if Rlt_dec (Rmax (fastest c - s) 0) (Rmax (s - slowest c) 0) then s - Rmax (fastest c - s) 0 else slowest c
  | None => s
  end.

Inductive result := Undefined | Route (ok : bool) (wps : list waypoint).

(** 348-517; [times] is the latest arrival, the vehicle that is latest and the start, if all is known; [prefer] is m_preferSpeedOnly. *)
Definition respond (prefer : bool) (v : vehicle) (goal : R * R) (n : Z) (times : option (Z * Z * Z)) (wps : list waypoint) : result :=
  let wps := prepared v goal n wps in
  match times with
  | None => Route false wps
  | Some (arrival, last, start) =>
    let s := planned v in
    if Req_EM_T s 0 then Undefined else
    let dist := travel_dist wps in
    let ext := (arrival - trunc (dist / s * 1000) - start)%Z in
    if (Z.leb ext 1000 || Z.eqb last (v_id v))%bool then Route true wps else
    let r := radius v in
    let delta := s - min_speed v in
    if (if prefer then if Rlt_dec (/ 10 ^ 4) delta then if Rlt_dec (IZR ext * delta) (dist * 1000) then true else false else false else false)
    then Route true wps
    else
      let seg := 2 * PI * r / 8 in
      match extend_path wps ext r seg with
      | None => Undefined
      | Some (true, out) => Route true out
      | Some (false, out) =>
        match extend_path out (trunc (1000 * seg * 8 / s + 1000)) r seg with
        | None => Undefined
        | Some (_, out) => Route true out
        end
      end
  end.

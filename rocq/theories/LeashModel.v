(** Model of the loiter leash, /repo/src/cpp/Services/LoiterLeash.cpp: a heading command is turned
    into a loiter ahead of the vehicle once a route planner has shown that the way there is free.

    Simplifications: positions, headings, distances, speeds and altitudes are integers; the
    projection of a position ahead (LoiterLeash.cpp:119-124, 141-145, 206-210, a flat earth
    conversion with sine and cosine) is a parameter; of routes only the number of waypoints is
    kept. *)
From Coq Require Import List ZArith Bool.
From Verif Require Import Run.
Import ListNotations.
Open Scope list_scope.
Open Scope Z_scope.

(** [uxas::messages::uxnative::SafeHeadingAction] *)
Record action := {
  a_vehicle : Z;
  a_region : Z;
  a_heading : Z;
  a_lead : Z;                     (* LeadAheadDistance *)
  a_radius : Z;                   (* LoiterRadius *)
  a_rate : bool;                  (* UseHeadingRate *)
  a_altitude : option (Z * Z);    (* UseAltitude: altitude and altitude type *)
  a_speed : option Z;             (* UseSpeed *)
  a_tasks : list Z                (* AssociatedTaskList *)
}.

(** The loiter sent to the vehicle, [afrl::cmasi::VehicleActionCommand] with a [LoiterAction]. *)
Record loiter := {
  l_vehicle : Z; l_centre : Z; l_altitude : Z; l_altitudeType : Z; l_speed : Z; l_radius : Z;
  l_tasks : list Z
}.

(** A route request: number, vehicle, operating region, start, end, altitude of the end. *)
Record ask := {
  k_id : Z; k_vehicle : Z; k_region : Z; k_from : Z; k_to : Z; k_altitude : Z
}.

Record config := { c_altitude : Z; c_altitudeType : Z; c_speed : Z }.

(** Messages received, LoiterLeash.cpp:86-238; a route response has the numbers of waypoints of its
    routes. *)
Inductive ev :=
| State (v : Z) (pos : Z)
| Config (v : Z) (c : config)
| Routes (id : Z) (ns : list nat)
| Heading (a : action).

Inductive out := Ask (k : ask) | Command (l : loiter).

(** LoiterLeash.h:131-140 *)
Record st := {
  pos : option Z;          (* m_lastEntityState *)
  conf : option config;    (* m_entityConfiguration *)
  next : option loiter;    (* m_nextVehicleActionCommand *)
  routeId : Z              (* m_currentRouteId *)
}.
Definition init : st := {| pos := None; conf := None; next := None; routeId := 0 |}.

Section Leash.
  (** The configured vehicle; the distance configured instead of that of the action, if any, and the
      factor of the radius (50-57); the position ahead; the position of latitude and longitude 0. *)
  Context (vehicle : Z) (lead : option Z) (buffer : Z).
  Context (ahead : Z -> Z -> Z -> Z) (origin : Z).

  (** LoiterLeash.cpp:139-141, 203-205 *)
  Definition distance (a : action) : Z := match lead with Some d => d | None => a_lead a end.

  (** LoiterLeash.cpp:125-192; the altitude type is written over the
      altitude (158) and stays at its default, mean sea level. *)
  Definition command (p : Z) (c : config) (a : action) : loiter :=
    {| l_vehicle := vehicle;
       l_centre := if a_rate a then origin else ahead p (a_heading a) (distance a);
       l_altitude := match a_altitude a with Some (_, ty) => ty | None => c_altitude c end;
       l_altitudeType := match a_altitude a with Some _ => 1 | None => c_altitudeType c end;
       l_speed := match a_speed a with Some v => v | None => c_speed c end;
       l_radius := a_radius a; l_tasks := a_tasks a |}.

  (** LoiterLeash.cpp:199-233 *)
  Definition request (id p : Z) (c : config) (a : action) : ask :=
    {| k_id := id; k_vehicle := vehicle; k_region := a_region a; k_from := p;
       k_to := ahead p (a_heading a) (distance a + buffer * a_radius a);
       k_altitude := match a_altitude a with Some (h, _) => h | None => c_altitude c end |}.

  (** LoiterLeash.cpp:76-242 *)
  Definition step (s : st) (e : ev) : st * list out :=
    match e with
    | State v p =>
        (if v =? vehicle then {| pos := Some p; conf := conf s; next := next s; routeId := routeId s |}
         else s, [])
    | Config v c =>
        (if v =? vehicle then {| pos := pos s; conf := Some c; next := next s; routeId := routeId s |}
         else s, [])
    | Routes id ns =>
        match next s, ns with
        | Some l, n :: _ =>
            if (id =? routeId s) && negb (Nat.eqb n 0) && Nat.ltb n 3
            then ({| pos := pos s; conf := conf s; next := None; routeId := routeId s |}, [Command l])
            else (s, [])
        | _, _ => (s, [])
        end
    | Heading a =>
        match pos s, conf s with
        | Some p, Some c =>
            if a_vehicle a =? vehicle then
              ({| pos := pos s; conf := conf s; next := Some (command p c a); routeId := routeId s + 1 |},
               [Ask (request (routeId s + 1) p c a)])
            else (s, [])
        | _, _ => (s, [])
        end
    end.

  Definition history (evs : list ev) : list (ev * list out) := snd (run step init evs).
End Leash.

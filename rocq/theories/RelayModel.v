(** Model of where a radio relay goes, /repo/src/cpp/Tasks/CommRelayTaskService.cpp:59-212 (configureDynamicTask,
    processRecievedLmcpMessageDynamicTask, calculateTargetLocation, moveToHalfWayPoint), with what
    /repo/src/cpp/Tasks/TaskServiceBase.cpp:252-257, 305-312 remembers of states and configurations, in real numbers.

    Whether a location is asked for when a vehicle reports itself is part of the event (TaskServiceBase.cpp:258-265, see C33);
    what is done with the location is modelled elsewhere (DynModel).  States and configurations that are known when the task is
    configured are events before all others (no entity has identifier 0).  The converter of coordinates is the one for the whole program: that another service uses
    it is an event.  Positions are taken not to be null. *)
From Coq Require Import Reals List ZArith.
From Verif Require Import ZMap FlatEarthModel.
Import ListNotations.
Open Scope R_scope.

(** Latitude and longitude. *)
Definition pt := (R * R)%type.

(** The task: who is supported, or 0 and a destination; the tower; who may be sent, all if empty. *)
Record task := { supported : Z; destination : option pt; tower : Z; eligible : list Z }.
(** The nominal altitude and, of a radio tower, its position. *)
Record config := { nominal : R; radio : option pt }.

Inductive ev :=
| Report (v : Z) (p : pt) (altitude : R) (asked : bool)
| Config (v : Z) (c : config)
| Options (v : Z)
| Elsewhere (la lo : R).

Record state := { last : option pt; places : zmap (pt * R); configs : zmap config; converter : earth }.

(** 83-90. *)
Definition init (t : task) : state :=
  {| last := if Z.eqb (supported t) 0 then destination t else None; places := []; configs := []; converter := fresh |}.

(** 171-191: where the tower is. *)
Definition tower_place (t : task) (s : state) : option pt :=
  match zget (places s) (tower t) with
  | Some x => Some (fst x)
  | None => match zget (configs s) (tower t) with Some c => radio c | None => None end
  end.

(** 168-212 (moveToHalfWayPoint) for the supported one at [x] and a vehicle at [p]: the converter and the place. *)
Definition half_way (t : task) (s : state) (x p : pt) : earth * pt :=
  match tower_place t s with
  | None => (converter s, p)
  | Some y =>
    let '(e, (yn, ye)) := deg_ne_m (fst y) (snd y) (converter s) in
    let '(e, (xn, xe)) := deg_ne_m (fst x) (snd x) e in
    (e, m_ll_deg ((yn + xn) / 2) ((ye + xe) / 2) e)
  end.

(** 148-166 (calculateTargetLocation): the converter, the place and its altitude. *)
Definition target (t : task) (s : state) (v : Z) (p : pt) (a : R) : earth * (pt * R) :=
  match last s with
  | None => (converter s, (p, a))
  | Some x => let '(e, q) := half_way t s x p in (e, (q, match zget (configs s) v with Some c => nominal c | None => a end))
  end.

(** TaskServiceBase.cpp:252-257, then the location if one is asked for (DynamicTaskServiceBase.cpp:246), then 137-144. *)
Definition step (t : task) (s : state) (e : ev) : state * list (pt * R) :=
  match e with
  | Report v p a asked =>
    let s := {| last := last s; places := zset (places s) v (p, a); configs := configs s; converter := converter s |} in
    let '(c, out) := if asked then (let '(c, x) := target t s v p a in (c, [x])) else (converter s, []) in
    ({| last := if Z.eqb v (supported t) then Some p else last s; places := places s; configs := configs s; converter := c |}, out)
  | Config v c =>
    (if (match eligible t with [] => true | _ => false end || zin v (eligible t))%bool
     then (match zget (configs s) v with
           | Some _ => s
           | None => {| last := last s; places := places s; configs := zset (configs s) v c; converter := converter s |}
           end)
     else s, [])
  (* DynamicTaskServiceBase.cpp:80-87 *)
  | Options v =>
    match zget (places s) v, zget (configs s) v with
    | Some (p, a), Some _ => let '(c, x) := target t s v p a in ({| last := last s; places := places s; configs := configs s; converter := c |}, [x])
    | _, _ => (s, [])
    end
  | Elsewhere la lo => ({| last := last s; places := places s; configs := configs s; converter := fst (deg_ne_m la lo (converter s)) |}, [])
  end.
Definition run (t : task) (s : state) (evs : list ev) : state := fold_left (fun s e => fst (step t s e)) evs s.

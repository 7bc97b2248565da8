(** Model of what a blockade commands its vehicles, /repo/src/cpp/Tasks/BlockadeTaskService.cpp:98-122, 204-469
    (the blocked entity, activeEntityState, CalculateGimbalActions, CalculateCenterBlockingPosition), in real numbers, with the set of active
    vehicles of TaskServiceBase.cpp:256-291, 571-577.

    Whether a vehicle is on the task is part of its report.  States that are known when the task is configured are reports before all others.
    The converter of coordinates is the one for the whole program: that another service uses it is an event.  The constant 3.14159265359 of
    the code is taken as pi.  States have a location.  The options of the task are modelled elsewhere. *)
From Coq Require Import Reals List ZArith.
From Verif Require Import ZMap FlatEarthModel RouteExtModel.
Import ListNotations.
Open Scope R_scope.

(** Ground and surface vehicles, air vehicles and others; payloads with whether they are gimbals. *)
Inductive kind := Surface | Air | Other.
Record config := { nominal : R; what : kind; payloads : list (Z * bool) }.
Record report := { id : Z; lat : R; lon : R; altitude : R; ground : R }.

(** The part of a blockade task that is used. *)
Record task := { task_id : Z; blocked : Z; standoff : R; protected : option (R * R) }.

Inductive action :=
| Loiter (la lo al sp radius : R) (hover : bool)
| Stare (payload : Z) (la lo : R).
Record waypoint := { w_number : Z; w_next : Z; w_lat : R; w_lon : R; w_alt : R; w_speed : R; w_actions : list action }.
Record mission := { m_vehicle : Z; m_first : Z; m_points : list waypoint }.

(** A report of a vehicle that is not assigned to the task, is on it, or is assigned but not on it. *)
Inductive presence := Away | On | Off.
Inductive ev :=
| Config (v : Z) (c : config)
| Report (st : report) (p : presence)
| Dropped (v : Z)
| Elsewhere (la lo : R).

Record state := { configs : zmap config; enemy : option report; active : list Z; converter : earth }.
Definition init : state := {| configs := []; enemy := None; active := []; converter := fresh |}.

(** Points are east and north, as in DPSS/DpssDataTypes.h:37-63. *)
Definition sub (p q : R * R) : R * R := (fst p - fst q, snd p - snd q).
Definition add (p q : R * R) : R * R := (fst p + fst q, snd p + snd q).
Definition scale (p : R * R) (k : R) : R * R := (fst p * k, snd p * k).
Definition len (p : R * R) : R := sqrt (fst p * fst p + snd p * snd p).
(** DPSS/DpssDataTypes.cpp:14-19 (Rotate). *)
Definition rotate (p : R * R) (th : R) : R * R := (cos th * fst p - sin th * snd p, sin th * fst p + cos th * snd p).
(** 141-149 (Segment::angle). *)
Definition angle (a b : R * R) : R := let q := sub b a in if Rlt_dec (len q) (/ 10 ^ 6) then 0 else atan2 (snd q) (fst q).

Definition tiny : R := / 10 ^ 4.

(** 400-452: how far along the way from the origin to the enemy to go, of [e]; the enemy is on the x-axis. *)
Definition block_dist (e veh : R * R) : R :=
  if Rlt_dec (fst e) (len veh) then 0
  else if Rlt_dec (len (sub veh e)) 10 then 1
  else
    let delta := Rabs (angle e veh) in
    let beta := PI - 2 * delta in
    let xtra := if Rlt_dec (Rabs (beta + PI / 2)) tiny then 0
                else if Rlt_dec tiny (Rabs (tan beta)) then Rabs (snd veh) / tan beta else (fst e - fst veh) / 2 in
    let ell := xtra + fst veh in
    let ell := if Rlt_dec ell 0 then 0 else ell in
    ell / fst e.

(** East and north of a place. *)
Definition spot (e : earth) (la lo : R) : R * R := let p := snd (deg_ne_m la lo e) in (snd p, fst p).

(** 360-469 (CalculateCenterBlockingPosition): the converter afterwards, the place and the direction of the enemy in degrees from north. *)
Definition center (t : task) (e : earth) (vloc : option (R * R)) (target : R * R) : earth * (R * R) * R :=
  let e := match protected t with Some p => fst (deg_ne_m (fst p) (snd p) e) | None => fst (deg_ne_m (fst target) (snd target) e) end in
  let base := match protected t with Some p => spot e (fst p) (snd p) | None => let q := spot e (fst target) (snd target) in (fst q - 100, snd q) end in
  let en := sub (spot e (fst target) (snd target)) base in
  let dir := (PI / 2 - atan2 (snd en) (fst en)) * rad_to_deg in
  let en := match vloc with
            | None => scale en (75 / 100)
            | Some v =>
              if Rlt_dec (standoff t) (len en) then
                let r := atan2 (snd en) (fst en) in
                let veh := rotate (sub (spot e (fst v) (snd v)) base) (- r) in
                let en := rotate en (- r) in
                let en := (fst en - standoff t, snd en) in
                scale (rotate en r) (block_dist en veh)
              else scale en 0
            end in
  let p := add en base in
  (e, m_ll_deg (snd p) (fst p) e, dir).

(** 216-221, 293-296: the speed to fly with. *)
Definition fly_speed (s : state) (st : report) : R := match zget (configs s) (id st) with Some c => nominal c | None => ground st end.

(** 288-358 (CalculateGimbalActions). *)
Definition actions (s : state) (st en : report) (la lo : R) : list action :=
  let '(radius, hover, gimbals) :=
    match zget (configs s) (id st) with
    | None => (100, false, [])
    | Some c => (match what c with Surface => 0 | Air => 300 | Other => 100 end, match what c with Surface => true | _ => false end,
                 map fst (filter snd (payloads c)))
    end in
  Loiter la lo (altitude st) (fly_speed s st) radius hover :: map (fun g => Stare g (lat en) (lon en)) gimbals.

(** 227-246: the place on the wall. *)
Definition post (t : task) (s : state) (st en : report) : earth * (R * R) :=
  let '(e, c, dir) := center t (converter s) (Some (lat st, lon st)) (lat en, lon en) in
  let placement := length (filter (fun n => Z.ltb (id st) n) (active s)) in
  let offset := standoff t * (INR placement - INR (length (active s)) / 2) in
  let theta := PI / 2 - (dir + 90) * deg_to_rad in
  let p := spot e (fst c) (snd c) in
  (e, m_ll_deg (snd p + sin theta * offset) (fst p + cos theta * offset) e).

(** 204-286 (activeEntityState), for a known enemy: the converter and the mission that is sent. *)
Definition command (t : task) (s : state) (st en : report) : earth * mission :=
  let '(e, q) := post t s st en in
  let w := {| w_number := 1; w_next := 2; w_lat := fst q; w_lon := snd q; w_alt := altitude st; w_speed := fly_speed s st; w_actions := [] |} in
  (e, {| m_vehicle := id st; m_first := 1;
         m_points := [w; {| w_number := 2; w_next := w_next w; w_lat := w_lat w; w_lon := w_lon w; w_alt := w_alt w; w_speed := w_speed w;
                            w_actions := actions s st en (fst q) (snd q) |}] |}).

Definition learn (t : task) (s : state) (st : report) : option report := if Z.eqb (id st) (blocked t) then Some st else enemy s.

(** 107-122 after TaskServiceBase.cpp:256-291, and 571-577. *)
Definition step (t : task) (s : state) (e : ev) : state * list mission :=
  match e with
  | Config v c => ({| configs := zset (configs s) v c; enemy := enemy s; active := active s; converter := converter s |}, [])
  | Dropped v => ({| configs := configs s; enemy := enemy s; active := zrem v (active s); converter := converter s |}, [])
  | Elsewhere la lo => ({| configs := configs s; enemy := enemy s; active := active s; converter := fst (deg_ne_m la lo (converter s)) |}, [])
  | Report st Away => ({| configs := configs s; enemy := learn t s st; active := active s; converter := converter s |}, [])
  | Report st Off => ({| configs := configs s; enemy := learn t s st; active := zrem (id st) (active s); converter := converter s |}, [])
  | Report st On =>
    match enemy s with
    | None => ({| configs := configs s; enemy := learn t s st; active := zadd (id st) (active s); converter := converter s |}, [])
    | Some en => let '(c, m) := command t s st en in
                 ({| configs := configs s; enemy := learn t s st; active := zadd (id st) (active s); converter := c |}, [m])
    end
  end.
Definition run (t : task) (s : state) (evs : list ev) : state := fold_left (fun s e => fst (step t s e)) evs s.

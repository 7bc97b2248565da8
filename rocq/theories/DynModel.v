(** Model of the tasks that follow a moving target, /repo/src/cpp/Tasks/DynamicTaskServiceBase.cpp:71-331,
    333-391, 405-479: options offered, routes asked for vehicles on the task, and missions made of the routes.

    Parameters: positions ([P]), zones ([N]), the target the derived task computes for a vehicle (given with
    each report; [None] is the null pointer Escort and Overwatch return, EscortTaskService.cpp:157,
    OverwatchTaskService.cpp:136-148), distances, whether a zone contains a position or touches the circle
    around it, and where the position is moved then; the start of a route with its lead; the loiter radius
    of a speed.  Times are given with each report, for the three readings of the clock.  Which reports are those
    of a vehicle on the task is decided in TaskServiceBase (C33).  The derived tasks'
    changes of a mission (processMissionCommand) are left out. *)
From Coq Require Import List ZArith QArith Bool.
From Verif Require Import ZMap Run.
Import ListNotations.
Open Scope list_scope.
Open Scope Z_scope.

(** The kinds told apart, for states (235, 272) and for configurations (88, 360). *)
Inductive kind := Air | Ground | Surface.

Section Model.
  Context {P N : Type}.

  Inductive action :=
  | Stare (payload : Z) (loc : P)
  | Loiter (loc : P) (altitude radius speed : Q) (hover : bool).

  Record wp := { w_number : Z; w_next : Z; w_speed : Q; w_alt : Q; w_tasks : list Z; w_acts : list action }.
  Record config := { c_kind : kind; c_speed : Q; c_alt : Q; c_gimbals : list Z }.
  Record request := { q_vehicle : Z; q_id : Z; q_start : P; q_end : P }.
  Record mission := { m_vehicle : Z; m_first : Z; m_wps : list wp }.
  Record option_ := { o_id : Z; o_vehicle : Z; o_loc : P }.

  (** A report of a vehicle on the task, a configuration, a zone, a region with its zones, the waypoints of an
      automation response, a response with routes, and a call for options for the listed vehicles with their
      targets. *)
  Inductive ev :=
  | Active (v : Z) (k : kind) (current : Z) (here : P) (target : option P) (t1 t2 t3 : Z)
  | Config (v : Z) (c : config)
  | Zone (i : Z) (z : N)
  | Region (i : Z) (outs : list Z)
  | Automation (ms : list (Z * list wp))
  | Routes (id v : Z) (rs : list (Z * list wp))
  | Options (l : list (Z * bool * option P)).

  (** A null pointer is used: the process ends. *)
  Inductive out := Request (q : request) | Mission (m : mission) | Offer (l : list option_) | Crash.

  Record st := {
    confs : zmap config;        (* m_entityConfigurations *)
    zones : zmap N;             (* m_KeepOutZoneIDVsPolygon *)
    regions : zmap (list Z);    (* m_OperatingRegions *)
    orders : zmap (Q * Q);      (* m_vehicleIDVsSpeedAltitudePair *)
    throttle : zmap Z;          (* m_throttle *)
    lastWp : zmap Z;            (* m_entityIdVsLastWaypoint *)
    aims : zmap P;              (* m_targetLocations *)
    dead : bool
  }.
  Definition init : st :=
    {| confs := []; zones := []; regions := []; orders := []; throttle := []; lastWp := []; aims := []; dead := false |}.

  (** The id of the service and of its task, the vehicles allowed, m_throttle_ms and m_straightLineThreshold_m. *)
  Context (service task : Z) (eligible : list Z) (pause : Z) (threshold : Q).
  Context (shift gap : P -> P -> Q) (inside : N -> P -> bool) (touches : N -> P -> Q -> bool).
  Context (out_of away_from : N -> P -> Q -> P) (lead : P -> P -> P) (radius : Q -> Q).

  (** 405-479: only region 0 is looked at, and the first zone found settles it. *)
  Fixpoint move (zs : zmap N) (ids : list Z) (p : P) (r : Q) : P :=
    match ids with
    | [] => p
    | i :: ids' =>
        match zget zs i with
        | None => move zs ids' p r
        | Some z => if inside z p then out_of z p r
                    else if touches z p r then away_from z p r else move zs ids' p r
        end
    end.
  Definition attempt (s : st) (p : P) (r : Q) : P :=
    match zget (regions s) 0 with Some ids => move (zones s) ids p r | None => p end.

  (** 271-282 *)
  Definition place (s : st) (v : Z) (k : kind) (p : P) : P :=
    match k, zget (confs s) v with
    | Air, Some c => attempt s p (radius (c_speed c) * (3 # 2))
    | _, _ => p
    end.

  Definition set_throttle (s : st) (v t : Z) : st :=
    {| confs := confs s; zones := zones s; regions := regions s; orders := orders s; throttle := zset (throttle s) v t;
       lastWp := lastWp s; aims := aims s; dead := dead s |}.
  Definition set_aim (s : st) (v : Z) (p : P) : st :=
    {| confs := confs s; zones := zones s; regions := regions s; orders := orders s; throttle := throttle s;
       lastWp := lastWp s; aims := zset (aims s) v p; dead := dead s |}.
  Definition die (s : st) : st :=
    {| confs := confs s; zones := zones s; regions := regions s; orders := orders s; throttle := throttle s;
       lastWp := lastWp s; aims := aims s; dead := true |}.

  (** 284-330 *)
  Definition aim (s : st) (v : Z) (k : kind) (here p : P) : st * list out :=
    let p' := place s v k p in
    (set_aim s v p',
     if negb (Qle_bool threshold (gap p' here)) then []
     else [Request {| q_vehicle := v; q_id := service; q_start := lead here p'; q_end := p' |}]).

  (** 247-282 *)
  Definition attend (s : st) (v : Z) (k : kind) (here : P) (target : option P) : st * list out :=
    match target, zget (aims s) v with
    | None, Some _ => (die s, [Crash])
    | None, None => (s, [])
    | Some p, Some p0 => if negb (Qle_bool threshold (shift p p0)) then (s, []) else aim s v k here p
    | Some p, None => aim s v k here p
    end.

  (** 216-245 *)
  Definition active (s : st) (v : Z) (k : kind) (current : Z) (here : P) (target : option P) (t1 t2 t3 : Z) : st * list out :=
    let m := match zget (throttle s) v with Some m => m | None => t1 end in
    if m + pause <=? t2 then
      let s' := set_throttle s v t3 in
      match k, zget (lastWp s') v with
      | Ground, Some w => if w =? current then attend s' v k here target else (s', [])
      | _, _ => attend s' v k here target
      end
    else (set_throttle s v m, []).

  (** 333-350 *)
  Definition stares (c : config) (p : P) : list action := map (fun i => Stare i p) (c_gimbals c).
  (** 351-391 *)
  Definition loiter (s : st) (v : Z) (c : config) (p : P) : action :=
    let alt := match zget (orders s) v with Some (_, a) => a | None => c_alt c end in
    match c_kind c with
    | Air => Loiter p alt (radius (c_speed c)) (c_speed c) false
    | _ => Loiter p alt 0 (c_speed c) true
    end.

  (** 137-147 *)
  Definition dress (o : option (Q * Q)) (w : wp) : wp :=
    {| w_number := w_number w; w_next := w_next w;
       w_speed := match o with Some x => fst x | None => w_speed w end;
       w_alt := match o with Some x => snd x | None => w_alt w end;
       w_tasks := w_tasks w ++ [task]; w_acts := w_acts w |}.
  Definition add_acts (w : wp) (l : list action) : wp :=
    {| w_number := w_number w; w_next := w_next w; w_speed := w_speed w; w_alt := w_alt w;
       w_tasks := w_tasks w; w_acts := w_acts w ++ l |}.
  (** Changes of the first and of the last waypoint, 148-149 and 160-176. *)
  Definition on_first (f : wp -> wp) (l : list wp) : list wp := match l with [] => [] | w :: r => f w :: r end.
  Fixpoint on_last (f : wp -> wp) (l : list wp) : list wp :=
    match l with [] => [] | [w] => [f w] | w :: r => w :: on_last f r end.
  Definition close (w : wp) : wp :=
    {| w_number := w_number w; w_next := w_number w; w_speed := w_speed w; w_alt := w_alt w;
       w_tasks := w_tasks w; w_acts := w_acts w |}.

  (** 134-182 *)
  Definition fly (s : st) (v : Z) (ws : list wp) : mission :=
    let ws1 := on_last close (map (dress (zget (orders s) v)) ws) in
    let ws2 := match zget (confs s) v, zget (aims s) v with
               | Some c, Some p => on_last (fun w => add_acts w [loiter s v c p]) (on_first (fun w => add_acts w (stares c p)) ws1)
               | _, _ => ws1
               end in
    {| m_vehicle := v; m_first := match ws with w :: _ => w_number w | [] => 0 end; m_wps := ws2 |}.

  (** The id of the route asked for, TaskServiceBase.cpp:52. *)
  Definition first_route : Z := 1.

  (** 126-185 *)
  Definition routes (s : st) (id v : Z) (rs : list (Z * list wp)) : st * list out :=
    match rs with
    | (r, w0 :: ws) :: _ =>
        if (id =? service) && (r =? first_route) then
          ({| confs := confs s; zones := zones s; regions := regions s; orders := orders s; throttle := throttle s;
              lastWp := zset (lastWp s) v (w_number (last ws w0)); aims := aims s; dead := dead s |},
           [Mission (fly s v (w0 :: ws))])
        else (s, [])
    | _ => (s, [])
    end.

  (** 197-208 *)
  Definition automation (m : zmap (Q * Q)) (x : Z * list wp) : zmap (Q * Q) :=
    match snd x with
    | [] => m
    | w :: ws => zset m (fst x) (w_speed (last ws w), w_alt (last ws w))
    end.

  (** 71-122: the vehicles listed are those of the request, whether a state is known is given; [None] if a target
      is missing. *)
  Fixpoint offers (s : st) (n : Z) (l : list (Z * bool * option P)) : option (list option_) :=
    match l with
    | [] => Some []
    | (v, known, target) :: l' =>
        match known, zget (confs s) v, target with
        | true, Some c, Some p =>
            match offers s (n + 1) l' with
            | Some os => Some ({| o_id := n; o_vehicle := v;
                                  o_loc := match c_kind c with Air => attempt s p (radius (c_speed c) * (3 # 2)) | _ => p end |} :: os)
            | None => None
            end
        | true, Some _, None => None
        | _, _, _ => offers s n l'
        end
    end.

  (** 124-214; TaskServiceBase.cpp:307-312: the first configuration of an allowed vehicle is kept. *)
  Definition step (s : st) (e : ev) : st * list out :=
    if dead s then (s, []) else
    match e with
    | Active v k current here target t1 t2 t3 => active s v k current here target t1 t2 t3
    | Config v c =>
        (match eligible, zin v eligible, zget (confs s) v with
         | [], _, None | _, true, None =>
             {| confs := zset (confs s) v c; zones := zones s; regions := regions s; orders := orders s;
                throttle := throttle s; lastWp := lastWp s; aims := aims s; dead := dead s |}
         | _, _, _ => s
         end, [])
    | Zone i z => ({| confs := confs s; zones := zset (zones s) i z; regions := regions s; orders := orders s;
                      throttle := throttle s; lastWp := lastWp s; aims := aims s; dead := dead s |}, [])
    | Region i ids => ({| confs := confs s; zones := zones s; regions := zset (regions s) i ids; orders := orders s;
                          throttle := throttle s; lastWp := lastWp s; aims := aims s; dead := dead s |}, [])
    | Automation ms => ({| confs := confs s; zones := zones s; regions := regions s;
                           orders := fold_left automation ms (orders s);
                           throttle := throttle s; lastWp := lastWp s; aims := aims s; dead := dead s |}, [])
    | Routes id v rs => routes s id v rs
    | Options l => match offers s 1 l with Some os => (s, [Offer os]) | None => (die s, [Crash]) end
    end.

  Definition history (evs : list ev) : list (ev * list out) := snd (run step init evs).
End Model.
Arguments action : clear implicits.
Arguments wp : clear implicits.
Arguments ev : clear implicits.
Arguments out : clear implicits.
Arguments mission : clear implicits.
Arguments request : clear implicits.
Arguments option_ : clear implicits.
Arguments st : clear implicits.

(** Model of the common part of all task services, /repo/src/cpp/Tasks/TaskServiceBase.cpp:
    notices about vehicles on the task (255-305), planning of options (322-539, 657-688, 762-825),
    resuming an interrupted task (336-499), assignment (555-595) and implementation of a chosen
    option (596-620, 691-760, 827-1035).

    Simplifications, common to the whole file:
    - positions are opaque values (an integer each); whether two of them are co-located is the
      parameter [coloc] (TaskServiceBase.cpp:57-66);
    - altitude, speed and vehicle actions of waypoints and headings of routes are left out;
    - the virtual functions of the concrete task are inputs: [buildTaskPlanOptions] is given by
      the list of options it makes, [isProcessTaskImplementationRouteResponse] changes nothing,
      [isBuildAndSendImplementationRouteRequest] and [isHandleOptionsRouteResponse] return false
      (their default, TaskServiceBase.h:296-311);
    - log output, sleeping and time stamps of notices are left out. *)
From Coq Require Import List ZArith Bool.
From Verif Require Import ZMap Run.
Import ListNotations.
Open Scope list_scope.
Open Scope Z_scope.

(** A waypoint: its number, the number of the waypoint that follows, its position and the tasks it
    belongs to.  [afrl::cmasi::Waypoint] *)
Record wp := { w_number : Z; w_next : Z; w_pos : Z; w_tasks : list Z }.

(** A planned route.  [uxas::messages::route::RoutePlan] *)
Record route := { r_id : Z; r_cost : Z; r_wps : list wp }.

(** An option as published: number, vehicles that may perform it, cost, where it starts and ends.
    [uxas::messages::task::TaskOption] *)
Record pub := { p_option : Z; p_eligible : list Z; p_cost : Z; p_start : Z; p_end : Z }.

(** What the service keeps about an option.  [TaskOptionClass], TaskServiceBase.h:76-125:
    the option, the route numbers still awaited, the routes by ascending route number, the routes
    that were asked for while planning (start and end of each), the number of the first waypoint on
    the task and, when resuming, the start of and the waypoints left of the interrupted route. *)
Record opt := {
  o_pub : pub;
  o_pending : list Z;
  o_plans : list (Z * route);
  o_ask : list (Z * Z);
  o_first : Z;
  o_restart : option (Z * list wp)
}.

(** [uxas::messages::task::TaskImplementationRequest] *)
Record ireq := {
  i_id : Z; i_task : Z; i_option : Z; i_vehicle : Z;
  i_start : Z;      (* number of the first waypoint *)
  i_from : Z;       (* where the vehicle will be *)
  i_time : Z;       (* when it will be there *)
  i_corr : Z        (* the automation request it is part of *)
}.

(** [uxas::messages::task::UniqueAutomationRequest] and the embedded automation request. *)
Record areq := {
  q_id : Z; q_sandbox : bool; q_redo : bool; q_tasks : list Z; q_entities : list Z
}.

(** The outcome of the concrete task's [buildTaskPlanOptions]: the options with their prepared
    routes, and whether they are published at once (e.g. ImpactPointSearchTaskService.cpp:115-196)
    or only after further routes have been planned (e.g. CmasiAreaSearchTaskService.cpp:196-316). *)
Record built := { u_opts : list (pub * list route); u_now : bool }.

(** Messages received. *)
Inductive ev :=
| State (v : Z) (tasks : list Z) (current : Z)
    (* entity state: vehicle, tasks it works on, waypoint it flies to *)
| Config (v : Z)
| Request (q : areq) (u : built)
| Lanes (l : list (Z * Z * list (Z * Z)))
    (* the concrete task asks for the routes of options: option, vehicle, start and end of each;
       CmasiAreaSearchTaskService.cpp:134-194 on a sensor footprint response *)
| Response (id : Z) (missions : list (Z * list (list Z)))
    (* unique automation response: per vehicle the tasks of each waypoint *)
| Implement (i : ireq)
| Routes (id : Z) (task : Z) (v : Z) (rs : list route).
    (* route plan response *)

(** Messages sent. *)
Inductive out :=
| Active (v : Z)
| Complete (vs : list Z)
| Options (request : Z) (ps : list pub)
| Ask (id : Z) (v : Z) (costOnly : bool) (l : list (Z * (Z * Z)))
    (* route plan request: route number, start and end of each route *)
| Implementation (i_resp i_request i_opt i_veh finalTime : Z) (finalPos : Z) (ws : list wp).

(** TaskServiceBase.h:360-456 *)
Record st := {
  reqs : zmap areq;            (* m_idVsUniqueAutomationRequest *)
  latest : Z;                  (* m_latestUniqueAutomationRequestId *)
  configs : list Z;            (* keys of m_entityConfigurations *)
  assigned : list Z;           (* m_assignedVehicleIds *)
  active : list Z;             (* m_activeEntities *)
  lastWp : zmap Z;             (* m_assignedVehicleIdVsLastTaskWaypoint *)
  optOf : zmap Z;              (* m_assignedVehicleIdVsAssignedOptionId *)
  opts : zmap opt;             (* m_optionIdVsTaskOptionClass *)
  planReq : Z;                 (* request id of m_taskPlanOptions *)
  planOpts : list pub;         (* options of m_taskPlanOptions *)
  rtype : zmap (bool * Z);     (* m_routeType (true: implementation) and m_routeOption *)
  pendOpt : list Z;            (* m_pendingOptionRouteRequests *)
  pendImpl : list Z;           (* m_pendingImplementationRouteRequests *)
  implReq : zmap ireq;         (* m_routeIdVsTaskImplementationRequest *)
  trans : Z;                   (* m_transitionRouteRequestId *)
  nextId : Z                   (* m_uniqueRouteRequestId *)
}.

(** TaskServiceBase.h:360-456 (member initialisers) and TaskServiceBase.cpp:192-195, where the first
    route request number is drawn at random: here [n]. *)
Definition init (n : Z) : st :=
  {| reqs := []; latest := 0; configs := []; assigned := []; active := []; lastWp := [];
     optOf := []; opts := []; planReq := 0; planOpts := []; rtype := []; pendOpt := [];
     pendImpl := []; implReq := []; trans := 0; nextId := n |}.

(** TaskServiceBase.cpp:52 [m_routeIdFromLastTask], 53 [m_firstImplementationRouteId],
    36 [MAX_TOTAL_COST_MS] *)
Definition fromLast : Z := 1.
Definition firstRoute : Z := 2.
Definition maxCost : Z := 9223372036854775.

(** Field updates used below; not code of their own, each models assignments to members. *)
Definition setNotices (s : st) (a : list Z) (m : zmap Z) : st :=
  {| reqs := reqs s; latest := latest s; configs := configs s; assigned := assigned s; active := a;
     lastWp := m; optOf := optOf s; opts := opts s; planReq := planReq s; planOpts := planOpts s;
     rtype := rtype s; pendOpt := pendOpt s; pendImpl := pendImpl s; implReq := implReq s;
     trans := trans s; nextId := nextId s |}.
Definition setOpts (s : st) (os : zmap opt) (ps : list pub) : st :=
  {| reqs := reqs s; latest := latest s; configs := configs s; assigned := assigned s;
     active := active s; lastWp := lastWp s; optOf := optOf s; opts := os; planReq := planReq s;
     planOpts := ps; rtype := rtype s; pendOpt := pendOpt s; pendImpl := pendImpl s;
     implReq := implReq s; trans := trans s; nextId := nextId s |}.
Definition setPending (s : st) (po pi : list Z) (m : zmap ireq) : st :=
  {| reqs := reqs s; latest := latest s; configs := configs s; assigned := assigned s;
     active := active s; lastWp := lastWp s; optOf := optOf s; opts := opts s; planReq := planReq s;
     planOpts := planOpts s; rtype := rtype s; pendOpt := po; pendImpl := pi;
     implReq := m; trans := trans s; nextId := nextId s |}.
Definition setPlan (s : st) (r : Z) (ps : list pub) : st :=
  {| reqs := reqs s; latest := latest s; configs := configs s; assigned := assigned s;
     active := active s; lastWp := lastWp s; optOf := optOf s; opts := opts s; planReq := r;
     planOpts := ps; rtype := rtype s; pendOpt := pendOpt s; pendImpl := pendImpl s;
     implReq := implReq s; trans := trans s; nextId := nextId s |}.
Definition setReqs (s : st) (m : zmap areq) (l : Z) : st :=
  {| reqs := m; latest := l; configs := configs s; assigned := assigned s;
     active := active s; lastWp := lastWp s; optOf := optOf s; opts := opts s; planReq := planReq s;
     planOpts := planOpts s; rtype := rtype s; pendOpt := pendOpt s; pendImpl := pendImpl s;
     implReq := implReq s; trans := trans s; nextId := nextId s |}.
Definition setAssigned (s : st) (a b : list Z) : st :=
  {| reqs := reqs s; latest := latest s; configs := configs s; assigned := a;
     active := b; lastWp := lastWp s; optOf := optOf s; opts := opts s; planReq := planReq s;
     planOpts := planOpts s; rtype := rtype s; pendOpt := pendOpt s; pendImpl := pendImpl s;
     implReq := implReq s; trans := trans s; nextId := nextId s |}.
Definition setConfigs (s : st) (c : list Z) : st :=
  {| reqs := reqs s; latest := latest s; configs := c; assigned := assigned s;
     active := active s; lastWp := lastWp s; optOf := optOf s; opts := opts s; planReq := planReq s;
     planOpts := planOpts s; rtype := rtype s; pendOpt := pendOpt s; pendImpl := pendImpl s;
     implReq := implReq s; trans := trans s; nextId := nextId s |}.
Definition setTrans (s : st) (t : Z) (m : zmap Z) : st :=
  {| reqs := reqs s; latest := latest s; configs := configs s; assigned := assigned s;
     active := active s; lastWp := lastWp s; optOf := m; opts := opts s; planReq := planReq s;
     planOpts := planOpts s; rtype := rtype s; pendOpt := pendOpt s; pendImpl := pendImpl s;
     implReq := implReq s; trans := t; nextId := nextId s |}.

(** TaskServiceBase.cpp:657-669 [getOptionRouteId], [getImplementationRouteId]: a fresh route
    request number and what it is for. *)
Definition newId (s : st) (impl : bool) (option : Z) : st :=
  {| reqs := reqs s; latest := latest s; configs := configs s; assigned := assigned s;
     active := active s; lastWp := lastWp s; optOf := optOf s; opts := opts s; planReq := planReq s;
     planOpts := planOpts s; rtype := zset (rtype s) (nextId s) (impl, option);
     pendOpt := pendOpt s; pendImpl := pendImpl s; implReq := implReq s; trans := trans s;
     nextId := nextId s + 1 |}.

Definition withPub (o : opt) (p : pub) : opt :=
  {| o_pub := p; o_pending := o_pending o; o_plans := o_plans o; o_ask := o_ask o;
     o_first := o_first o; o_restart := o_restart o |}.
Definition withPending (o : opt) (l : list Z) : opt :=
  {| o_pub := o_pub o; o_pending := l; o_plans := o_plans o; o_ask := o_ask o;
     o_first := o_first o; o_restart := o_restart o |}.
Definition withPlans (o : opt) (l : list (Z * route)) : opt :=
  {| o_pub := o_pub o; o_pending := o_pending o; o_plans := l; o_ask := o_ask o;
     o_first := o_first o; o_restart := o_restart o |}.
Definition withAsk (o : opt) (l : list (Z * Z)) : opt :=
  {| o_pub := o_pub o; o_pending := o_pending o; o_plans := o_plans o; o_ask := l;
     o_first := o_first o; o_restart := o_restart o |}.
Definition withFirst (o : opt) (z : Z) : opt :=
  {| o_pub := o_pub o; o_pending := o_pending o; o_plans := o_plans o; o_ask := o_ask o;
     o_first := z; o_restart := o_restart o |}.
Definition withRestart (o : opt) (r : option (Z * list wp)) : opt :=
  {| o_pub := o_pub o; o_pending := o_pending o; o_plans := o_plans o; o_ask := o_ask o;
     o_first := o_first o; o_restart := r |}.
Definition withCost (p : pub) (c : Z) : pub :=
  {| p_option := p_option p; p_eligible := p_eligible p; p_cost := c; p_start := p_start p;
     p_end := p_end p |}.
Definition withNumber (w : wp) (n : Z) : wp :=
  {| w_number := n; w_next := w_next w; w_pos := w_pos w; w_tasks := w_tasks w |}.
Definition withNext (w : wp) (n : Z) : wp :=
  {| w_number := w_number w; w_next := n; w_pos := w_pos w; w_tasks := w_tasks w |}.
Definition withTasks (w : wp) (ts : list Z) : wp :=
  {| w_number := w_number w; w_next := w_next w; w_pos := w_pos w; w_tasks := ts |}.

(** [std::map::operator[] =] on [m_orderedRouteIdVsPlan]: a map kept in ascending key order. *)
Fixpoint putPlan (l : list (Z * route)) (k : Z) (r : route) : list (Z * route) :=
  match l with
  | [] => [(k, r)]
  | (j, x) :: l' =>
      if k =? j then (k, r) :: l'
      else if k <? j then (k, r) :: l
      else (j, x) :: putPlan l' k r
  end.

(** Route numbers first, first+1, ... for a list of routes, TaskServiceBase.cpp:737-744 and
    CmasiAreaSearchTaskService.cpp:518-618. *)
Fixpoint numbered {A} (n : Z) (l : list A) : list (Z * A) :=
  match l with [] => [] | x :: l' => (n, x) :: numbered (n + 1) l' end.

(** [std::set::insert] of several numbers. *)
Definition addAll (l : list Z) (ks : list Z) : list Z := fold_left (fun a k => zadd k a) ks l.

(** TaskServiceBase.cpp:412-451: the waypoints of the interrupted route from the one before the
    waypoint numbered [n] to the end. *)
Fixpoint resume (n : Z) (last : option wp) (acc : list wp) (ws : list wp) : list wp :=
  match ws with
  | [] => acc
  | w :: ws' =>
      let acc1 := match last with
                  | Some l => if n =? w_number w then acc ++ [l] else acc
                  | None => acc
                  end in
      let acc2 := match acc1 with [] => [] | _ => acc1 ++ [w] end in
      resume n (Some w) acc2 ws'
  end.

Section TaskBase.
  (** The task's id and eligible vehicles; [m_isMakeTransitionWaypointsActive]; co-location of
      positions; the cost of the rest of a route for a vehicle (396-474); the iteration order of
      the hash containers of vehicles. *)
  Context (task : Z) (eligible : list Z) (transActive : bool) (coloc : Z -> Z -> bool).
  Context (restCost : Z -> list wp -> Z).
  Context (ordv : list Z -> list Z) (ordw : zmap Z -> list (Z * Z)).

  (** TaskServiceBase.cpp:255-305 *)
  Definition entityState (s : st) (v : Z) (ts : list Z) (current : Z) : st * list out :=
    if zin v (assigned s) then
      if zin task ts then
        (setNotices s (if zin v (active s) then active s else zadd v (active s))
                      (zset (lastWp s) v current),
         if zin v (active s) then [] else [Active v])
      else if zin v (active s) then
        (setNotices s (zrem v (active s)) (zdel (lastWp s) v), [Complete (ordv (assigned s))])
      else (s, [])
    else (s, []).

  (** TaskServiceBase.cpp:307-321.  Only which vehicles have a configuration is kept. *)
  Definition entityConfiguration (s : st) (v : Z) : st :=
    if match eligible with [] => true | _ => zin v eligible end
    then setConfigs s (zadd v (configs s)) else s.

  (** TaskServiceBase.cpp:336-380: the vehicle, waypoint and option to resume, if any. *)
  Definition candidate (s : st) (q : areq) : option (Z * Z * Z * opt) :=
    match (if q_redo q then None
           else find (fun p => zin (fst p) (q_entities q)) (ordw (lastWp s))) with
    | None => None
    | Some (v, w) =>
        let k := match zget (optOf s) v with Some k => k | None => -1 end in
        match zget (opts s) k with
        | None => None
        | Some o =>
            if (0 <? v) && (o_first o <=? w) && (0 <? k) then Some (v, w, k, o) else None
        end
    end.

  (** TaskServiceBase.cpp:382-499 *)
  Definition restart (s : st) (q : areq) (v w k : Z) (o : opt) : st * list out :=
    let ws := match zget (o_plans o) firstRoute with
              | Some r => resume w None [] (r_wps r)
              | None => []
              end in
    match ws with
    | [] => (setPlan (setOpts s (zset (opts s) k (withRestart o (Some (p_start (o_pub o), []))))
                              (planOpts s)) (q_id q) [], [])
    | f :: _ =>
        let p := {| p_option := p_option (o_pub o); p_eligible := [v]; p_cost := restCost v ws;
                    p_start := w_pos f; p_end := w_pos (last ws f) |} in
        (setPlan (setOpts s (zset (opts s) k (withRestart o (Some (w_pos f, ws)))) (planOpts s))
                 (q_id q) [p],
         [Options (q_id q) [p]])
    end.

  (** The options the concrete task inserts in [m_optionIdVsTaskOptionClass]; [insert] keeps the
      first of equal keys.  ImpactPointSearchTaskService.cpp:295, CmasiAreaSearchTaskService.cpp:349 *)
  Definition newOpts (l : list (pub * list route)) : zmap opt :=
    fold_left (fun m x =>
      match zget m (p_option (fst x)) with
      | Some _ => m
      | None => zset m (p_option (fst x))
          {| o_pub := fst x; o_pending := [];
             o_plans := fold_left (fun a r => putPlan a (r_id r) r) (snd x) [];
             o_ask := []; o_first := -1; o_restart := None |}
      end) l [].

  (** TaskServiceBase.cpp:500-538 *)
  Definition fresh (s : st) (q : areq) (u : built) : st * list out :=
    let ps := if u_now u then map fst (u_opts u) else [] in
    (setPlan (setOpts (setPending s [] [] []) (newOpts (u_opts u)) []) (q_id q) ps,
     if u_now u then [Options (q_id q) ps] else []).

  (** TaskServiceBase.cpp:322-554 *)
  Definition automationRequest (s : st) (q : areq) (u : built) : st * list out :=
    let s := setReqs s (zset (reqs s) (q_id q) q) (q_id q) in
    if zin task (q_tasks q) then
      match candidate s q with
      | Some (v, w, k, o) => restart s q v w k o
      | None => fresh s q u
      end
    else (s, []).

  (** CmasiAreaSearchTaskService.cpp:147-191 with 518-618, one footprint: the routes of an option
      are asked for, numbered from 2, and give the option's start and end.  For a footprint of an
      unknown option, or too narrow (164), only a request number is used up; the latter is not a
      case of its own here. *)
  Definition lane (a : st * list out) (x : Z * Z * list (Z * Z)) : st * list out :=
    let '(k, v, l) := x in
    let s := fst a in
    let id := nextId s in
    let s1 := newId s false k in
    match zget (opts s1) k with
    | None => (s1, snd a)
    | Some o =>
        let rs := numbered firstRoute l in
        let p := match l with
                 | [] => o_pub o
                 | x :: _ =>
                     {| p_option := p_option (o_pub o); p_eligible := p_eligible (o_pub o);
                        p_cost := p_cost (o_pub o); p_start := fst x; p_end := snd (last l x) |}
                 end in
        let o' := withPub (withAsk (withPending o (addAll (o_pending o) (map fst rs))) l) p in
        let s2 := setOpts s1 (zset (opts s1) k o') (planOpts s1) in
        (setPending s2 (zadd id (pendOpt s2)) (pendImpl s2) (implReq s2),
         snd a ++ [Ask id v true rs])
    end.
  (** CmasiAreaSearchTaskService.cpp:134-194: only while the latest automation request is known. *)
  Definition lanes (s : st) (l : list (Z * Z * list (Z * Z))) : st * list out :=
    match zget (reqs s) (latest s) with
    | None => (s, [])
    | Some _ => fold_left lane l (s, [])
    end.

  (** TaskServiceBase.cpp:555-595 *)
  Definition automationResponse (s : st) (id : Z) (ms : list (Z * list (list Z))) : st :=
    match zget (reqs s) id with
    | None => s
    | Some q =>
        let s1 :=
          if q_sandbox q then s
          else setAssigned s
                 (fold_left (fun a m => if existsb (zin task) (snd m) then zadd (fst m) a else a) ms
                    (fold_left (fun a m => zrem (fst m) a) ms (assigned s)))
                 (fold_left (fun a m => zrem (fst m) a) ms (active s)) in
        setReqs s1 (zdel (reqs s1) id) (latest s1)
    end.

  (** TaskServiceBase.cpp:596-620, 691-760 *)
  Definition implementationRequest (s : st) (i : ireq) : st * list out :=
    if i_task i =? task then
      match zget (opts s) (i_option i) with
      | None => (s, [])
      | Some o =>
          let id := nextId s in
          let s1 := newId s true (i_option i) in
          let rs := numbered firstRoute (o_ask o) in
          let o' := withPending o (addAll (zadd fromLast (o_pending o)) (map fst rs)) in
          let goal := match o_restart o with
                      | Some (p, _) => p
                      | None => p_start (o_pub o)
                      end in
          let s2 := setOpts s1 (zset (opts s1) (i_option i) o') (planOpts s1) in
          let s3 := setPending s2 (pendOpt s2) (zadd id (pendImpl s2)) (zset (implReq s2) id i) in
          (setTrans s3 fromLast (optOf s3),
           [Ask id (i_vehicle i) false (rs ++ [(fromLast, (i_from i, goal))])])
      end
    else (s, []).

  (** TaskServiceBase.cpp:798-806 *)
  Definition allDone (os : zmap opt) : bool :=
    forallb (fun p => match o_pending (snd p) with [] => true | _ => false end) os.

  (** TaskServiceBase.cpp:774-814, one route of the response; [k] is the option's number. *)
  Definition optionRoute (k : Z) (a : st * list out) (r : route) : st * list out :=
    let s := fst a in
    match zget (opts s) k with
    | None => a
    | Some o =>
        let s1 :=
          if zin (r_id r) (o_pending o) then
            let left := zrem (r_id r) (o_pending o) in
            let c := if 0 <? r_cost r then p_cost (o_pub o) + r_cost r else maxCost in
            let o' := withPub (withPending o left) (withCost (o_pub o) c) in
            setOpts s (zset (opts s) k o')
              (match left with [] => planOpts s ++ [o_pub o'] | _ => planOpts s end)
          else s in
        (s1, snd a ++ if allDone (opts s1) then [Options (planReq s1) (planOpts s1)] else [])
    end.

  (** TaskServiceBase.cpp:762-825 *)
  Definition optionRoutes (s : st) (id k : Z) (rs : list route) : st * list out :=
    if zin id (pendOpt s) then
      fold_left (optionRoute k) rs
        (setPending s (zrem id (pendOpt s)) (pendImpl s) (implReq s), [])
    else (s, []).

  (** TaskServiceBase.cpp:916-961, one waypoint: the waypoints so far, the next number and the
      number of the first waypoint on the task; [transit] tells whether the route leads to the
      task. *)
  Record draft := { d_wps : list wp; d_number : Z; d_first : Z }.
  Definition addWp (sandbox transit : bool) (d : draft) (w : wp) : draft :=
    let n := d_number d in
    let on := negb transit || transActive in
    let w1 := withTasks (withNumber w n) (w_tasks w ++ if on then [task] else []) in
    let f := if on && (d_first d <? 0) && negb transit && negb sandbox then n else d_first d in
    match rev (d_wps d) with
    | [] => {| d_wps := [w1]; d_number := n + 1; d_first := f |}
    | b :: r =>
        let b := withNext b n in
        if coloc (w_pos b) (w_pos w1) then
          {| d_wps := rev r ++ [withNext (withNumber w1 (w_number b)) (w_next b)];
             d_number := w_number b + 1; d_first := f |}
        else
          {| d_wps := rev r ++ [b; w1]; d_number := n + 1; d_first := f |}
    end.
  (** TaskServiceBase.cpp:916-961, one route; also the route with the numbers given to its
      waypoints (920). *)
  Fixpoint addRoute (sandbox transit : bool) (d : draft) (ws : list wp) : draft * list wp :=
    match ws with
    | [] => (d, [])
    | w :: ws' =>
        let (d', l) := addRoute sandbox transit (addWp sandbox transit d w) ws' in
        (d', withNumber w (d_number d) :: l)
    end.
  (** TaskServiceBase.cpp:896-962, all routes.  The waypoints left of an interrupted route replace
      the first route that does not lead to the task, all further ones are left out. *)
  Fixpoint addRoutes (sandbox : bool) (tr : Z) (rest : option (list wp)) (found : bool)
           (d : draft) (ps : list (Z * route)) : draft * list (Z * route) :=
    match ps with
    | [] => (d, [])
    | (k, r) :: ps' =>
        let transit := r_id r =? tr in
        match (if transit then None else rest) with
        | None =>
            let (d1, ws) := addRoute sandbox transit d (r_wps r) in
            let (d2, l) := addRoutes sandbox tr rest found d1 ps' in
            (d2, (k, {| r_id := r_id r; r_cost := r_cost r; r_wps := ws |}) :: l)
        | Some ws =>
            let d1 := if found then d else fst (addRoute sandbox transit d ws) in
            let (d2, l) := addRoutes sandbox tr rest true d1 ps' in
            (d2, (k, r) :: l)
        end
    end.

  (** TaskServiceBase.cpp:967-985 *)
  Definition finish (ws : list wp) : list wp :=
    match rev ws with
    | [] => []
    | b :: r =>
        let b := match w_tasks b with [] => withTasks b [task] | _ => b end in
        if w_next b =? 0 then
          rev r ++ [withNext b (w_number b + 1);
                    {| w_number := w_number b + 1; w_next := w_number b + 1; w_pos := w_pos b;
                       w_tasks := [] |}]
        else rev r ++ [b]
    end.

  (** TaskServiceBase.cpp:850-1022, one route of the response to the request [i]; [q] is the latest
      automation request, [k] the option's number. *)
  Definition implementationRoute (q : areq) (k v : Z) (i : ireq) (a : st * list out) (r : route)
    : st * list out :=
    let s := fst a in
    match zget (opts s) k with
    | None => a
    | Some o =>
        if zin (r_id r) (o_pending o) then
          let left := zrem (r_id r) (o_pending o) in
          let c := if r_id r =? trans s
                   then if 0 <? r_cost r then p_cost (o_pub o) + r_cost r else maxCost
                   else p_cost (o_pub o) in
          let o1 := withPlans (withPub (withPending o left) (withCost (o_pub o) c))
                              (putPlan (o_plans o) (r_id r) r) in
          let s1 := setOpts s (zset (opts s) k o1) (planOpts s) in
          match left with
          | _ :: _ => (s1, snd a)
          | [] =>
              if zin v (configs s) then
                let (d, plans) :=
                  addRoutes (q_sandbox q) (trans s) (option_map snd (o_restart o1)) false
                    {| d_wps := []; d_number := i_start i; d_first := o_first o1 |} (o_plans o1) in
                let ws := finish (d_wps d) in
                let o2 := withRestart (withFirst (withPlans o1 plans) (d_first d)) None in
                let s2 := setOpts s1 (zset (opts s1) k o2) (planOpts s1) in
                match ws with
                | [] => (setTrans s2 0 (optOf s2), snd a)
                | _ => (setTrans s2 0 (zset (optOf s2) v k),
                        snd a ++ [Implementation (i_id i) (i_corr i) k v
                                    (i_time i + p_cost (o_pub o1)) (p_end (o_pub o1)) ws])
                end
              else (s1, snd a ++ [Implementation (i_id i) (i_corr i) k v 0 (i_from i) []])
          end
        else a
    end.

  (** TaskServiceBase.cpp:827-1035 *)
  Definition implementationRoutes (s : st) (id k v : Z) (rs : list route) : st * list out :=
    match zget (reqs s) (latest s) with
    | None => (s, [])
    | Some q =>
        if zin id (pendImpl s) then
          let s1 := setPending s (pendOpt s) (zrem id (pendImpl s)) (implReq s) in
          match zget (opts s1) k, zget (implReq s1) id with
          | Some o, Some i =>
              let s2 := setOpts s1 (zset (opts s1) k (withFirst o (-1))) (planOpts s1) in
              let (s3, l) := fold_left (implementationRoute q k v i) rs (s2, []) in
              (setPending s3 (pendOpt s3) (pendImpl s3) (zdel (implReq s3) id), l)
          | _, _ => (s1, [])
          end
        else (s, [])
    end.

  (** TaskServiceBase.cpp:621-639 with 671-688 *)
  Definition routes (s : st) (id t v : Z) (rs : list route) : st * list out :=
    if t =? task then
      match zget (rtype s) id with
      | None => (s, [])
      | Some (false, k) => optionRoutes s id k rs
      | Some (true, k) => implementationRoutes s id k v rs
      end
    else (s, []).

  (** TaskServiceBase.cpp:248-655 *)
  Definition step (s : st) (e : ev) : st * list out :=
    match e with
    | State v ts c => entityState s v ts c
    | Config v => (entityConfiguration s v, [])
    | Request q u => automationRequest s q u
    | Lanes l => lanes s l
    | Response id ms => (automationResponse s id ms, [])
    | Implement i => implementationRequest s i
    | Routes id t v rs => routes s id t v rs
    end.

  Definition history (n : Z) (evs : list ev) : list (ev * list out) := snd (run step (init n) evs).
End TaskBase.

(** Model of src/cpp/Services/RouteAggregatorService.{h,cpp} with FastPlan off (the default).

    Locations with headings are opaque numbers ([pose]); costs are integers; operating
    regions, relationship texts and the waypoints of plans are left out or opaque.  The
    iteration order of the unordered containers is the parameter [ord]: the keys in the
    order of an association list are visited in the order [ord keys]. *)
From Coq Require Import List ZArith Bool.
From Verif Require Import ZMap.
Import ListNotations.
Open Scope list_scope.
Open Scope Z_scope.

Definition pose := Z.

(** A TaskOption message. *)
Record topt := {
  o_task : Z;
  o_id : Z;
  o_elig : list Z;
  o_start : pose;
  o_end : pose
}.

(** A UniqueAutomationRequest. *)
Record areq := {
  q_id : Z;
  q_entities : list Z;
  q_tasks : list Z;
  q_planning : list (Z * pose);
  q_region : Z;
  q_relation : Z
}.

(** RouteConstraints. *)
Record route := { rt_id : Z; rt_from : pose; rt_to : pose }.

(** A RouteRequest. *)
Record rreq := {
  rq_id : Z;
  rq_task : Z;
  rq_costOnly : bool;
  rq_region : Z;
  rq_vehicles : list Z;
  rq_routes : list route
}.

(** A RoutePlanRequest and the planner group it goes to. *)
Record planReq := {
  pr_id : Z;
  pr_task : Z;
  pr_costOnly : bool;
  pr_region : Z;
  pr_vehicle : Z;
  pr_routes : list route;
  pr_ground : bool
}.

(** A TaskOptionCost: vehicle, initial task and option, destination task and option, time. *)
Record pairing := {
  p_vehicle : Z;
  p_prevTask : Z;
  p_prevOption : Z;
  p_task : Z;
  p_option : Z
}.

(** RouteAggregatorService.cpp:106-184: what is received.  A RoutePlanResponse is its
    response id with route ids and costs. *)
Inductive event :=
| EvState (v : Z) (p : pose) (ground : bool)
| EvConfig (v : Z) (ground : bool)
| EvUnique (q : areq)
| EvOptions (task : Z) (os : list topt)
| EvRouteReq (r : rreq)
| EvPlanResp (id : Z) (plans : list (Z * Z)).

Inductive out :=
| OutPlanReq (p : planReq)
| OutRouteResp (id : Z) (resps : list (Z * list (Z * Z)))
| OutMatrix (req region relation : Z) (tasks : list Z) (entries : list (pairing * Z))
| OutStatus (notFound : list pairing).

(** RouteAggregatorService.h:167-214, the member variables. *)
Record rstate := {
  a_states : zmap pose;
  a_ground : list Z;
  a_next : Z;
  a_reqs : zmap areq;
  a_opts : zmap (list topt);
  a_routeId : Z;
  a_plans : zmap (Z * Z);
  a_pendAuto : zmap (list Z);
  a_pairs : zmap pairing;
  a_rrId : Z;
  a_resps : zmap (list (Z * Z));
  a_pendRoute : zmap (list Z)
}.

Definition rinit : rstate :=
  {| a_states := []; a_ground := []; a_next := 1; a_reqs := []; a_opts := [];
     a_routeId := 1000000; a_plans := []; a_pendAuto := []; a_pairs := []; a_rrId := 1;
     a_resps := []; a_pendRoute := [] |}.

(** Changes of members. *)
Definition set_vehicles (s : rstate) st gr :=
  {| a_states := st; a_ground := gr; a_next := a_next s; a_reqs := a_reqs s;
     a_opts := a_opts s; a_routeId := a_routeId s; a_plans := a_plans s;
     a_pendAuto := a_pendAuto s; a_pairs := a_pairs s; a_rrId := a_rrId s;
     a_resps := a_resps s; a_pendRoute := a_pendRoute s |}.

Definition set_reqs (s : rstate) n rs :=
  {| a_states := a_states s; a_ground := a_ground s; a_next := n; a_reqs := rs;
     a_opts := a_opts s; a_routeId := a_routeId s; a_plans := a_plans s;
     a_pendAuto := a_pendAuto s; a_pairs := a_pairs s; a_rrId := a_rrId s;
     a_resps := a_resps s; a_pendRoute := a_pendRoute s |}.

Definition set_opts (s : rstate) os :=
  {| a_states := a_states s; a_ground := a_ground s; a_next := a_next s; a_reqs := a_reqs s;
     a_opts := os; a_routeId := a_routeId s; a_plans := a_plans s;
     a_pendAuto := a_pendAuto s; a_pairs := a_pairs s; a_rrId := a_rrId s;
     a_resps := a_resps s; a_pendRoute := a_pendRoute s |}.

Definition set_auto (s : rstate) r pl pa pr :=
  {| a_states := a_states s; a_ground := a_ground s; a_next := a_next s; a_reqs := a_reqs s;
     a_opts := a_opts s; a_routeId := r; a_plans := pl;
     a_pendAuto := pa; a_pairs := pr; a_rrId := a_rrId s;
     a_resps := a_resps s; a_pendRoute := a_pendRoute s |}.

Definition set_route (s : rstate) r re pe :=
  {| a_states := a_states s; a_ground := a_ground s; a_next := a_next s; a_reqs := a_reqs s;
     a_opts := a_opts s; a_routeId := a_routeId s; a_plans := a_plans s;
     a_pendAuto := a_pendAuto s; a_pairs := a_pairs s; a_rrId := r;
     a_resps := re; a_pendRoute := pe |}.

(** RouteAggregatorService.cpp:247-264: where the vehicle starts, if it is considered: the
    first planning state for it, else its last reported state. *)
Definition startOf (s : rstate) (q : areq) (v : Z) : option pose :=
  match find (fun p => fst p =? v) (q_planning q) with
  | Some p => Some (snd p)
  | None => zget (a_states s) v
  end.

(** RouteAggregatorService.cpp:266-287: the options of the tasks that [v] may do. *)
Definition eligible (s : rstate) (q : areq) (v : Z) : list topt :=
  flat_map (fun t =>
    match zget (a_opts s) t with
    | None => []
    | Some os => filter (fun o => match o_elig o with
                                  | [] => true
                                  | _ => existsb (fun x => x =? v) (o_elig o)
                                  end) os
    end) (q_tasks q).

(** One leg to be planned: what it is for, where from and where to. *)
Definition leg := (pairing * (pose * pose))%type.

(** RouteAggregatorService.cpp:307-325: legs from the start to each option. *)
Definition initialLegs (v : Z) (start : pose) (os : list topt) : list leg :=
  map (fun o => ({| p_vehicle := v; p_prevTask := 0; p_prevOption := 0;
                    p_task := o_task o; p_option := o_id o |}, (start, o_start o))) os.

(** RouteAggregatorService.cpp:328-353: legs between the options at different positions. *)
Definition indexed {A} (l : list A) : list (nat * A) := combine (seq 0 (length l)) l.

Definition betweenLegs (v : Z) (os : list topt) : list leg :=
  flat_map (fun a => flat_map (fun b =>
    if Nat.eqb (fst a) (fst b) then []
    else [({| p_vehicle := v; p_prevTask := o_task (snd a); p_prevOption := o_id (snd a);
              p_task := o_task (snd b); p_option := o_id (snd b) |},
           (o_end (snd a), o_start (snd b)))]) (indexed os)) (indexed os).

(** RouteAggregatorService.cpp:311-324 and 337-351: a leg gets the next route id, which is
    entered in the pairing and in the pending set of the request. *)
Fixpoint numberLegs (k : Z) (s : rstate) (ls : list leg) : rstate * list route :=
  match ls with
  | [] => (s, [])
  | (p, (a, b)) :: ls' =>
      let id := a_routeId s in
      let pend := match zget (a_pendAuto s) k with Some l => l | None => [] end in
      let s1 := set_auto s (id + 1) (a_plans s) (zset (a_pendAuto s) k (pend ++ [id]))
                         (zset (a_pairs s) id p) in
      let (s2, rs) := numberLegs k s1 ls' in
      (s2, {| rt_id := id; rt_from := a; rt_to := b |} :: rs)
  end.

(** RouteAggregatorService.cpp:244-364: the plan request of each vehicle. *)
Fixpoint vehicleRequests (k : Z) (q : areq) (s : rstate) (vs : list Z)
  : rstate * list planReq :=
  match vs with
  | [] => (s, [])
  | v :: vs' =>
      match startOf s q v with
      | None => vehicleRequests k q s vs'
      | Some start =>
          let os := eligible s q v in
          let (s1, rs) := numberLegs k s (initialLegs v start os ++ betweenLegs v os) in
          let (s2, ps) := vehicleRequests k q s1 vs' in
          (s2, {| pr_id := 0; pr_task := 0; pr_costOnly := false; pr_region := q_region q;
                  pr_vehicle := v; pr_routes := rs; pr_ground := zin v (a_ground s) |} :: ps)
      end
  end.

Section Order.
  Context (ord : list Z -> list Z).

  (** RouteAggregatorService.cpp:215-392, [BuildMatrixRequests]. *)
  Definition buildMatrix (k : Z) (q : areq) (s : rstate) : rstate * list out :=
    let vs := match q_entities q with [] => ord (map fst (a_states s)) | l => l end in
    let q' := {| q_id := q_id q; q_entities := vs; q_tasks := q_tasks q;
                 q_planning := q_planning q; q_region := q_region q;
                 q_relation := q_relation q |} in
    let s1 := set_auto (set_reqs s (a_next s) (zset (a_reqs s) k q'))
                (a_routeId s) (a_plans s) (zset (a_pendAuto s) k []) (a_pairs s) in
    let (s2, ps) := vehicleRequests k q' s1 vs in
    (s2, map OutPlanReq (filter (fun p => negb (pr_ground p)) ps
                         ++ filter pr_ground ps)).

  (** RouteAggregatorService.cpp:186-213, [CheckAllTaskOptionsReceived]. *)
  Definition checkOptions (s : rstate) : rstate * list out :=
    fold_left (fun st k =>
      match zget (a_reqs (fst st)) k with
      | None => st
      | Some q =>
          if forallb (fun t => zhas (a_opts (fst st)) t) (q_tasks q)
          then let (s', o) := buildMatrix k q (fst st) in (s', snd st ++ o)
          else st
      end) (ord (map fst (a_reqs s))) (s, []).

  (** RouteAggregatorService.cpp:507-531, [SendRouteResponse]. *)
  Definition sendRouteResponse (k : Z) (ids : list Z) (s : rstate) : rstate * list out :=
    let '(s', rs) :=
      fold_left (fun st r =>
        let '(s1, acc) := st in
        match zget (a_resps s1) r with
        | None => st
        | Some ps =>
            (set_auto (set_route s1 (a_rrId s1) (zdel (a_resps s1) r) (a_pendRoute s1))
               (a_routeId s1) (fold_left (fun m p => zdel m (fst p)) ps (a_plans s1))
               (a_pendAuto s1) (a_pairs s1),
             acc ++ [(r, ps)])
        end) (ord ids) (s, []) in
    (s', [OutRouteResp k rs]).

  (** RouteAggregatorService.cpp:533-605, [SendMatrix].  Without a request with the number the code
      dereferences a null pointer (line 536); a pending matrix always has one, so the branch with no
      message is never taken. *)
  Definition sendMatrix (k : Z) (ids : list Z) (s : rstate) : rstate * list out :=
    let '(s', entries) :=
      fold_left (fun st id =>
        let '(s1, acc) := st in
        match zget (a_plans s1) id with
        | None => st
        | Some (r, c) =>
            let '(pairs, acc1) :=
              match zget (a_pairs s1) id with
              | None => (a_pairs s1, acc)
              | Some p => (zdel (a_pairs s1) id, acc ++ [(p, c)])
              end in
            (set_auto (set_route s1 (a_rrId s1) (zdel (a_resps s1) r) (a_pendRoute s1))
               (a_routeId s1) (zdel (a_plans s1) id) (a_pendAuto s1) pairs, acc1)
        end) (ord ids) (s, []) in
    match zget (a_reqs s) k with
    | None => (s', [])
    | Some q =>
        (set_opts s' [],
         [OutMatrix (q_id q) (q_region q) (q_relation q) (q_tasks q) entries;
          OutStatus (map fst (filter (fun e => snd e <? 0) entries))])
    end.

  (** RouteAggregatorService.cpp:454-477: the pending route requests. *)
  Definition checkRoutes (s : rstate) : rstate * list out :=
    fold_left (fun st k =>
      match zget (a_pendRoute (fst st)) k with
      | None => st
      | Some ids =>
          if forallb (fun r => zhas (a_resps (fst st)) r) ids then
            let (s1, o) := sendRouteResponse k ids (fst st) in
            (set_route s1 (a_rrId s1) (a_resps s1) (zdel (a_pendRoute s1) k), snd st ++ o)
          else st
      end) (ord (map fst (a_pendRoute s))) (s, []).

  (** RouteAggregatorService.cpp:479-504: the pending automation requests. *)
  Definition checkMatrices (s : rstate) : rstate * list out :=
    fold_left (fun st k =>
      match zget (a_pendAuto (fst st)) k with
      | None => st
      | Some ids =>
          if forallb (fun r => zhas (a_plans (fst st)) r) ids then
            let (s1, o) := sendMatrix k ids (fst st) in
            let s2 := set_reqs s1 (a_next s1) (zdel (a_reqs s1) k) in
            (set_auto s2 (a_routeId s2) (a_plans s2) (zdel (a_pendAuto s2) k) (a_pairs s2),
             snd st ++ o)
          else st
      end) (ord (map fst (a_pendAuto s))) (s, []).

  (** RouteAggregatorService.cpp:452-505, [CheckAllRoutePlans]. *)
  Definition checkPlans (s : rstate) : rstate * list out :=
    let (s1, o1) := checkRoutes s in
    let (s2, o2) := checkMatrices s1 in
    (s2, o1 ++ o2).

  (** RouteAggregatorService.cpp:394-450, [HandleRouteRequest].  An id already pending gets
      further plan requests. *)
  Fixpoint routeVehicles (r : rreq) (s : rstate) (vs : list Z) : rstate * list out :=
    match vs with
    | [] => (s, [])
    | v :: vs' =>
        let id := a_rrId s in
        let pend := match zget (a_pendRoute s) (rq_id r) with Some l => l | None => [] end in
        let s1 := set_route s (id + 1) (a_resps s) (zset (a_pendRoute s) (rq_id r) (pend ++ [id])) in
        let (s2, o) := routeVehicles r s1 vs' in
        (s2, OutPlanReq {| pr_id := id; pr_task := rq_task r; pr_costOnly := rq_costOnly r;
                           pr_region := rq_region r; pr_vehicle := v;
                           pr_routes := rq_routes r; pr_ground := zin v (a_ground s) |} :: o)
    end.

  Definition handleRouteRequest (r : rreq) (s : rstate) : rstate * list out :=
    routeVehicles r s (match rq_vehicles r with [] => ord (map fst (a_states s)) | l => l end).

  (** RouteAggregatorService.cpp:104-184, [processReceivedLmcpMessage]. *)
  Definition rstep (s : rstate) (e : event) : rstate * list out :=
    match e with
    | EvState v p g =>
        (set_vehicles s (zset (a_states s) v p) (if g then zadd v (a_ground s) else a_ground s),
         [])
    | EvConfig v g =>
        (set_vehicles s (a_states s) (if g then zadd v (a_ground s) else a_ground s), [])
    | EvUnique q =>
        checkOptions (set_reqs s (a_next s + 1) (zset (a_reqs s) (a_next s) q))
    | EvOptions t os => checkOptions (set_opts s (zset (a_opts s) t os))
    | EvRouteReq r => handleRouteRequest r s
    | EvPlanResp id ps =>
        let s1 := set_route s (a_rrId s) (zset (a_resps s) id ps) (a_pendRoute s) in
        checkPlans (set_auto s1 (a_routeId s1)
                      (fold_left (fun m p => zset m (fst p) (id, snd p)) ps (a_plans s1))
                      (a_pendAuto s1) (a_pairs s1))
    end.
End Order.

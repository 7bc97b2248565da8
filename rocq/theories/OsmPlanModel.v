(** Model of the ground route planner answering requests for route plans.
    /repo/src/cpp/Services/OsmPlannerService.cpp:157-181, 212-221 (processReceivedLmcpMessage) and 261-524
    (bProcessRoutePlanRequest).

    The map, the closest junction and the way between junctions are those of OsmMapModel and OsmNearModel.  Positions
    are whole millimetres, speeds millimetres per second; the cost of a route is given as a length and a speed, of
    which the code takes the quotient in floats.  Latitudes, longitudes and heights of the waypoints, turn type,
    metrics and plot files are left out. *)
From Coq Require Import List ZArith Bool.
From Verif Require Import ZMap AStarModel OsmMapModel OsmNearModel.
Import ListNotations.
Open Scope list_scope.
Open Scope Z_scope.

(** afrl::cmasi::Waypoint: Number, NextWaypoint, place, Speed *)
Record waypoint := { p_num : Z; p_next : Z; p_pos : pos; p_speed : Z }.
(** uxas::messages::route::RouteConstraints *)
Record route_req := { q_id : Z; q_from : pos; q_to : pos }.
(** uxas::messages::route::RoutePlanRequest *)
Record request := { r_id : Z; r_task : Z; r_region : Z; r_vehicle : Z; r_cost_only : bool; r_routes : list route_req }.
(** uxas::messages::route::RoutePlan; [None] is cost -1 *)
Record plan := { n_id : Z; n_cost : option (Z * Z); n_points : list waypoint }.
(** uxas::messages::route::RoutePlanResponse *)
Record response := { a_id : Z; a_task : Z; a_region : Z; a_vehicle : Z; a_plans : list plan }.

(** OsmPlannerService.cpp:366-379; the number of the new waypoint becomes the next of the last one *)
Definition add_point (speed : Z) (l : list waypoint) (p : pos) : list waypoint :=
  let n := Z.of_nat (length l) + 1 in
  match rev l with
  | [] => [{| p_num := n; p_next := 0; p_pos := p; p_speed := speed |}]
  | w :: r => rev r ++ [{| p_num := p_num w; p_next := n; p_pos := p_pos w; p_speed := p_speed w |};
                        {| p_num := n; p_next := 0; p_pos := p; p_speed := speed |}]
  end.
(** OsmPlannerService.cpp:437-448; the last one is its own next *)
Definition add_last (speed : Z) (l : list waypoint) (p : pos) : list waypoint :=
  let l1 := add_point speed l p in
  match rev l1 with
  | [] => []
  | w :: r => rev r ++ [{| p_num := p_num w; p_next := p_num w; p_pos := p_pos w; p_speed := p_speed w |}]
  end.

(** OsmPlannerService.cpp:359-389; up to the first node that is not known *)
Fixpoint add_nodes (speed : Z) (ps : zmap pos) (l : list waypoint) (ids : list Z) : list waypoint :=
  match ids with
  | [] => l
  | n :: r => match zget ps n with Some p => add_nodes speed ps (add_point speed l p) r | None => l end
  end.
(** OsmPlannerService.cpp:346-433 *)
Fixpoint add_path (speed : Z) (m : road_map) (l : list waypoint) (path : list Z) : list waypoint :=
  match path with
  | [] => l
  | a :: r => match r with
              | [] => add_nodes speed (positions (m_nodes m)) l [a]
              | b :: _ => add_path speed m (match tget (m_table m) (a, b) with
                                            | Some s => add_nodes speed (positions (m_nodes m)) l (s_nodes s)
                                            | None => l
                                            end) r
              end
  end.

(** OsmPlannerService.cpp:1152-1161; m_cellVsPlanningNodeIds *)
Definition junction_places (m : road_map) : list (Z * pos) :=
  flat_map (fun n => match zget (positions (m_nodes m)) n with Some p => [(n, p)] | None => [] end) (planning (m_nodes m)).

Section Plan.
  Context (dist : pos -> pos -> Z) (ord : list (Z * pos) -> list (Z * pos)) (both : bool) (choose : list (Z * Z) -> Z).

  (** OsmPlannerService.cpp:280-519; [None] if the search does not end or reads beyond its tables *)
  Definition plan_route (fuel : nat) (m : option road_map) (speed : Z) (cost_only : bool) (q : route_req) : option plan :=
    let none := {| n_id := q_id q; n_cost := None; n_points := [] |} in
    match m with
    | None => Some none
    | Some m =>
        match closest dist ord (junction_places m) (q_from q), closest dist ord (junction_places m) (q_to q) with
        | Some (a, l1), Some (b, l2) =>
            match shortest dist both choose fuel m a b with
            | Way len path =>
                Some {| n_id := q_id q; n_cost := Some (l1 + l2 + 1000 * len, speed);
                        n_points := if cost_only then []
                                    else add_last speed (add_path speed m (add_point speed [] (q_from q)) path) (q_to q) |}
            | NoWay => Some none
            | Astray | Busy => None
            end
        | _, _ => Some none
        end
    end.

  Fixpoint plan_routes (fuel : nat) (m : option road_map) (speed : Z) (cost_only : bool) (qs : list route_req) : option (list plan) :=
    match qs with
    | [] => Some []
    | q :: r => match plan_route fuel m speed cost_only q, plan_routes fuel m speed cost_only r with
                | Some x, Some y => Some (x :: y)
                | _, _ => None
                end
    end.

  (** Messages: a GroundVehicleConfiguration with its nominal speed, and a RoutePlanRequest with its sender *)
  Inductive message := Config (id speed : Z) | Request (sender : Z) (r : request).
  (** The answer; [None] if the service does not come to one *)
  Inductive output := Answer (receiver : Z) (a : option response).

  (** processReceivedLmcpMessage; the state is m_entityConfigurations with the nominal speeds *)
  Definition step (fuel : nat) (m : option road_map) (st : zmap Z) (msg : message) : zmap Z * list output :=
    match msg with
    | Config id speed => (zset st id speed, [])
    | Request sender r =>
        match zget st (r_vehicle r) with
        | None => (st, [])
        | Some v =>
            let speed := if v <? 1000 then 1000 else v in
            (st, [Answer sender (match plan_routes fuel m speed (r_cost_only r) (r_routes r) with
                                 | None => None
                                 | Some ps => Some {| a_id := r_id r; a_task := r_task r; a_region := r_region r;
                                                      a_vehicle := r_vehicle r; a_plans := ps |}
                                 end)])
        end
    end.
End Plan.

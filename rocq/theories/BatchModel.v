(** Model of src/cpp/Services/BatchSummaryService.cpp.

    Positions are numbers; the distance between two positions, the flight time between two waypoints and
    the test whether the circle of a loiter meets a keep-out zone are parameters.  Times and distances are
    integers: the rounding of floating point numbers is not modelled.  EnergyRemaining and BestEffort are
    left out, and so are m_workingRequests and m_pendingTaskAutomationRequests, which are only written. *)
From Coq Require Import List ZArith Bool.
From Verif Require Import ZMap.
Import ListNotations.
Open Scope list_scope.
Open Scope Z_scope.

Record loiter := { l_pos : Z; l_radius : Z }.

(** A waypoint with its number, AssociatedTasks, position and loiter actions. *)
Record wp := { w_number : Z; w_tasks : list Z; w_pos : Z; w_loiters : list loiter }.

Record mission := { m_vehicle : Z; m_wps : list wp }.

(** BatchSummaryRequest; [q_related]: TaskRelationships is not empty. *)
Record query := { q_id : Z; q_vehicles : list Z; q_tasks : list Z; q_related : bool }.

(** VehicleSummary, TaskSummary and BatchSummaryResponse. *)
Record vsum := {
  v_vehicle : Z; v_init : Z; v_dest : Z;
  v_wps : list wp; v_onTask : Z; v_arrive : Z; v_first : Z;
  v_roz : bool; v_beyond : bool }.
Record tsum := { t_task : Z; t_vehicles : list vsum }.
Record summary := { p_id : Z; p_sums : list tsum }.

(** The AutomationRequest inside a TaskAutomationRequest: its tasks, its one entity and the order of two
    tasks asked for by the relationship ".(pI pJ)". *)
Record plan := { a_tasks : list Z; a_vehicle : Z; a_order : option (Z * Z) }.

(** What UpdateVehicleSummary reads: m_entityStates, the radio ranges in m_entityConfigs,
    m_towerLocations, m_towerRanges and m_keepOutZones. *)
Record world := {
  states : zmap Z; radios : zmap (list Z); towers : zmap Z; ranges : zmap (Z * bool); zones : zmap Z }.

Inductive event :=
| Request (q : query)
| Response (rid : Z) (ms : list mission)                     (* TaskAutomationResponse *)
| Config (id : Z) (rs : list Z)                              (* EntityConfiguration *)
| TowerConfig (id : Z) (rs : list Z) (pos range : Z) (on : bool)
| State (id pos : Z)                                         (* EntityState *)
| TowerState (id pos : Z) (on : bool)
| Zone (id z : Z).                                           (* KeepOutZone *)

Inductive out :=
| OutPlan (rid : Z) (a : plan)            (* TaskAutomationRequest, a sandbox request *)
| OutSummary (p : summary).

(** h:125-130. *)
Record state := {
  next_batch : Z;                         (* m_responseId *)
  next_plan : Z;                          (* m_taskAutomationRequestId *)
  owner : zmap (list Z);                  (* m_batchSummaryRequestVsTaskAutomation *)
  working : zmap summary;                 (* m_workingResponse *)
  env : world }.

Definition init : state :=
  {| next_batch := 1; next_plan := 1; owner := []; working := [];
     env := {| states := []; radios := []; towers := []; ranges := []; zones := [] |} |}.

(** A new VehicleSummary (cpp:249-253, 270-274, 297-302). *)
Definition blank (v i d : Z) : vsum :=
  {| v_vehicle := v; v_init := i; v_dest := d; v_wps := []; v_onTask := -1; v_arrive := -1; v_first := 0;
     v_roz := false; v_beyond := false |}.

(** find_if and push_back on the summary of the task (cpp:240-257, 269-279, 296-308). *)
Fixpoint addTo (t : Z) (x : vsum) (l : list tsum) : list tsum :=
  match l with
  | [] => []
  | y :: l' => if t_task y =? t then {| t_task := t_task y; t_vehicles := t_vehicles y ++ [x] |} :: l'
               else y :: addTo t x l'
  end.

(** cpp:226-317: the task summaries and the requests. *)
Definition split (q : query) : list tsum * list plan :=
  let start := (map (fun t => {| t_task := t; t_vehicles := [] |}) (q_tasks q), []) in
  if q_related q then
    fold_left (fun acc v =>
      fold_left (fun acc i =>
        let acc := (addTo i (blank v 0 i) (fst acc), snd acc) in
        fold_left (fun acc j =>
          if i =? j then acc
          else (addTo j (blank v i j) (fst acc),
                snd acc ++ [{| a_tasks := [i; j]; a_vehicle := v; a_order := Some (i, j) |}]))
        (q_tasks q) acc) (q_tasks q) acc) (q_vehicles q) start
  else
    fold_left (fun acc t =>
      fold_left (fun acc v =>
        (addTo t (blank v 0 t) (fst acc),
         snd acc ++ [{| a_tasks := [t]; a_vehicle := v; a_order := None |}]))
      (q_vehicles q) acc) (q_tasks q) start.

(** The ids given out at cpp:325-326. *)
Fixpoint number (n : Z) (l : list plan) : list (Z * plan) :=
  match l with
  | [] => []
  | a :: l' => (n, a) :: number (n + 1) l'
  end.

(** FinalizeBatchRequest (cpp:193-213). *)
Definition finalize (s : state) (k : Z) : state * list out :=
  match zget (working s) k with
  | None => (s, [])
  | Some p => ({| next_batch := next_batch s; next_plan := next_plan s; owner := owner s;
                  working := zdel (working s) k; env := env s |}, [OutSummary p])
  end.

(** HandleBatchSummaryRequest (cpp:216-338). *)
Definition onRequest (s : state) (q : query) : state * list out :=
  let k := next_batch s in
  let (sums, plans) := split q in
  let numbered := number (next_plan s) plans in
  let s := {| next_batch := k + 1;
              next_plan := next_plan s + Z.of_nat (length plans);
              owner := match numbered with [] => owner s | _ => zset (owner s) k (map fst numbered) end;
              working := zset (working s) k {| p_id := q_id q; p_sums := sums |};
              env := env s |} in
  match numbered with
  | [] => finalize s k
  | _ => (s, map (fun x => OutPlan (fst x) (snd x)) numbered)
  end.

(** [auto workingTask = 0] (cpp:402-403) is an int, so that a task id is cut to 32 bits. *)
Definition int32 (x : Z) : Z := (x + 2147483648) mod 4294967296 - 2147483648.

(** The loop at cpp:404-438.  [acc] holds the waypoints from taskStart up to the current one.  Each
    element of the result is a call of UpdateSummaryUtil: prevTask, workingTask and the waypoints. *)
Fixpoint walk (acc : list wp) (toTask : bool) (workingTask prevTask : Z) (ws : list wp) : list (Z * Z * list wp) :=
  match ws with
  | [] => []
  | w :: rest =>
      match w_tasks w, rest with
      | t :: _, _ :: _ =>
          if toTask then walk (acc ++ [w]) false (int32 t) workingTask rest
          else walk (acc ++ [w]) false workingTask prevTask rest
      | _, _ =>
          if toTask then walk (acc ++ [w]) true workingTask prevTask rest
          else (prevTask, workingTask, acc ++ [w]) :: walk [w] true workingTask prevTask rest
      end
  end.

(** EntityConfiguration and EntityState messages (cpp:96-122), KeepOutZone (cpp:131-137). *)
Definition learn (e : world) (ev : event) : world :=
  match ev with
  | Config id rs =>
      {| states := states e; radios := zset (radios e) id rs; towers := towers e; ranges := ranges e; zones := zones e |}
  | TowerConfig id rs pos range on =>
      {| states := states e; radios := zset (radios e) id rs; towers := zset (towers e) id pos;
         ranges := zset (ranges e) id (range, on); zones := zones e |}
  | State id pos =>
      {| states := zset (states e) id pos; radios := radios e; towers := towers e; ranges := ranges e; zones := zones e |}
  | TowerState id pos on =>
      {| states := zset (states e) id pos; radios := radios e; towers := zset (towers e) id pos;
         ranges := match zget (ranges e) id with
                   | Some (r, _) => zset (ranges e) id (r, on)
                   | None => ranges e
                   end; zones := zones e |}
  | Zone id z =>
      {| states := states e; radios := radios e; towers := towers e; ranges := ranges e; zones := zset (zones e) id z |}
  | Request _ | Response _ _ => e
  end.

Section Batch.
  Context (flight : wp -> wp -> Z) (dist : Z -> Z -> Z) (hits : Z -> loiter -> bool).

  (** The loop at cpp:359-378: TimeOnTask and TimeToArrive. *)
  Fixpoint times (prev : option wp) (ws : list wp) (onTask arrive : Z) : Z * Z :=
    match ws with
    | [] => (onTask, arrive)
    | w :: rest =>
        let '(onTask, arrive) :=
          match prev with
          | None => (onTask, arrive)
          | Some u => match w_tasks u with
                      | [] => (onTask, arrive + flight u w)
                      | _ => (onTask + flight u w, arrive)
                      end
          end in
        times (Some w) rest onTask arrive
    end.

  (** UpdateSummaryUtil (cpp:339-391).  The waypoints are added to those already there. *)
  Definition fill (ws : list wp) (x : vsum) : vsum :=
    match ws with
    | [] => x
    | _ =>
        let '(onTask, arrive) := times None ws 0 0 in
        let l := v_wps x ++ ws in
        {| v_vehicle := v_vehicle x; v_init := v_init x; v_dest := v_dest x; v_wps := l;
           v_onTask := onTask; v_arrive := arrive;
           v_first := match l with w :: _ => w_number w | [] => v_first x end;
           v_roz := v_roz x; v_beyond := v_beyond x |}
    end.

  (** cpp:424-431: the first summary that matches. *)
  Fixpoint placeV (v i d : Z) (ws : list wp) (l : list vsum) : list vsum :=
    match l with
    | [] => []
    | x :: l' => if (v_vehicle x =? v) && (v_dest x =? d) && (v_init x =? i) then fill ws x :: l'
                 else x :: placeV v i d ws l'
    end.

  (** cpp:419-433. *)
  Fixpoint place (v i d : Z) (ws : list wp) (l : list tsum) : list tsum :=
    match l with
    | [] => []
    | y :: l' => if t_task y =? d then {| t_task := t_task y; t_vehicles := placeV v i d ws (t_vehicles y) |} :: l'
                 else y :: place v i d ws l'
    end.

  (** UpdateTaskSummariesUtil (cpp:393-441).  The walk does not read the summaries, so that the calls are
      collected first. *)
  Definition update (ms : list mission) (l : list tsum) : list tsum :=
    fold_left (fun l m => fold_left (fun l c => let '(i, d, ws) := c in place (m_vehicle m) i d ws l)
                                    (walk [] true 0 0 (m_wps m)) l) ms l.

  (** cpp:514-536: the farthest point of a waypoint from the tower. *)
  Definition farthest (tower : Z) (w : wp) : Z :=
    fold_left (fun d l => if d <? l_radius l + dist (l_pos l) tower then l_radius l + dist (l_pos l) tower else d)
              (w_loiters w) (dist tower (w_pos w)).

  (** cpp:475-538. *)
  Definition beyondTower (e : world) (v : Z) (ws : list wp) (t : Z * Z) : bool :=
    match zget (states e) v, zget (ranges e) (fst t) with
    | Some pos, Some (range, on) =>
        let range := if on then range else 1 in
        let range := match zget (radios e) v with
                     | Some rs => fold_left (fun r x => if r <? x then x else r) rs range
                     | None => range
                     end in
        (range <? dist (snd t) pos) || existsb (fun w => range <? farthest (snd t) w) ws
    | _, _ => false
    end.

  (** UpdateVehicleSummary (cpp:444-547), without the energy. *)
  Definition assess (e : world) (x : vsum) : vsum :=
    {| v_vehicle := v_vehicle x; v_init := v_init x; v_dest := v_dest x; v_wps := v_wps x;
       v_onTask := v_onTask x; v_arrive := v_arrive x; v_first := v_first x;
       v_roz := v_roz x || existsb (fun w => existsb (fun l => existsb (fun z => hits (snd z) l) (zones e)) (w_loiters w)) (v_wps x);
       v_beyond := negb (existsb (fun t => negb (beyondTower e (v_vehicle x) (v_wps x) t)) (towers e)) |}.

  Definition assessAll (e : world) (l : list tsum) : list tsum :=
    map (fun t => {| t_task := t_task t; t_vehicles := map (assess e) (t_vehicles t) |}) l.

  (** HandleTaskAutomationResponse (cpp:142-190). *)
  Definition onResponse (s : state) (rid : Z) (ms : list mission) : state * list out :=
    match find (fun x => zin rid (snd x)) (owner s) with
    | None => (s, [])
    | Some (k, ids) =>
        let work := match zget (working s) k with
                    | Some p => zset (working s) k {| p_id := p_id p; p_sums := assessAll (env s) (update ms (p_sums p)) |}
                    | None => working s
                    end in
        let left := zrem rid ids in
        let s := {| next_batch := next_batch s; next_plan := next_plan s; owner := zset (owner s) k left;
                    working := work; env := env s |} in
        match left with
        | [] => let (s, o) := finalize s k in
                ({| next_batch := next_batch s; next_plan := next_plan s; owner := zdel (owner s) k;
                    working := working s; env := env s |}, o)
        | _ => (s, [])
        end
    end.

  (** processReceivedLmcpMessage (cpp:89-140). *)
  Definition step (s : state) (ev : event) : state * list out :=
    match ev with
    | Request q => onRequest s q
    | Response rid ms => onResponse s rid ms
    | _ => ({| next_batch := next_batch s; next_plan := next_plan s; owner := owner s; working := working s;
               env := learn (env s) ev |}, [])
    end.
End Batch.

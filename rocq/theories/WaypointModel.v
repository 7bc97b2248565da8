(** Model of src/cpp/Services/WaypointPlanManagerService.{h,cpp}.

    Left out: the options that add loiter, gimbal and zero speed actions or loop back to the
    first waypoint (all off by default), and the turn type, which is set on every waypoint.
    [m_isMoveToNextWaypoint] is never set, because the only assignment is under
    [#ifdef STEVETEST] (WaypointPlanManagerService.cpp:250-262), so lines 177-187 are dead. *)
From Coq Require Import List ZArith Bool.
Import ListNotations.
Open Scope list_scope.
Open Scope Z_scope.

(** A waypoint; [w_data] stands for everything but its number. *)
Record wp := { w_num : Z; w_data : Z }.

(** A segment, which is a MissionCommand. *)
Record seg := { s_cmd : Z; s_first : Z; s_wps : list wp }.

(** WaypointPlanManagerService.h:146-153 and the configuration. *)
Record cfg := { c_vehicle : Z; c_serve : Z; c_overlap : Z }.

(** WaypointPlanManagerService.cpp:104-116: an overlap below 2 is raised to 2. *)
Definition configured (vehicle serve overlap : Z) : cfg :=
  {| c_vehicle := vehicle; c_serve := serve;
     c_overlap := if overlap <? 2 then 2 else overlap |}.

Definition size (s : seg) : Z := Z.of_nat (length (s_wps s)).

Definition push (w : wp) (s : seg) : seg :=
  {| s_cmd := s_cmd s; s_first := s_first s; s_wps := s_wps s ++ [w] |}.

Definition setFirst (n : Z) (s : seg) : seg :=
  {| s_cmd := s_cmd s; s_first := n; s_wps := s_wps s |}.

(** WaypointPlanManagerService.cpp:293-305: a new segment with a fresh command id. *)
Definition fresh (id : Z) : seg := {| s_cmd := id; s_first := -1; s_wps := [] |}.

(** The variables of the loop: [missionSegment_01], [missionSegment_02], [m_missionSegments],
    [isSucceeded] and the id counter (LmcpObjectNetworkClientBase.h:213-217). *)
Record loop := { l_one : seg; l_two : seg; l_done : list seg; l_ok : bool; l_ids : Z }.

(** WaypointPlanManagerService.cpp:308-366, one turn of the loop.  The sizes are unsigned: a
    negative [c_serve] becomes a huge number in both comparisons. *)
Definition cutStep (c : cfg) (st : loop) (w : wp) : loop :=
  if (c_serve c <? 0) || (size (l_one st) <? c_serve c) then
    let one := push w (l_one st) in
    let two := if (0 <=? c_serve c) && (c_serve c - size one <? c_overlap c)
               then push w (l_two st) else l_two st in
    {| l_one := if size one <=? 2 then setFirst (w_num w) one else one;
       l_two := if size two <=? 2 then setFirst (w_num w) two else two;
       l_done := l_done st; l_ok := l_ok st; l_ids := l_ids st |}
  else
    let two := push w (l_two st) in
    if 0 <=? s_first (l_one st) then
      {| l_one := two; l_two := fresh (l_ids st);
         l_done := l_done st ++ [l_one st]; l_ok := l_ok st; l_ids := l_ids st + 1 |}
    else
      {| l_one := l_one st; l_two := two; l_done := l_done st; l_ok := false;
         l_ids := l_ids st |}.

(** WaypointPlanManagerService.cpp:277-447, [isInitializePlan]: success, the segments and the
    id counter. *)
Definition initPlan (c : cfg) (ids : Z) (wps : list wp) (old : list seg) : bool * list seg * Z :=
  if 0 <? c_vehicle c then
    match wps with
    | [] => (false, [], ids)
    | _ =>
        let st := fold_left (cutStep c) wps
                    {| l_one := fresh ids; l_two := fresh (ids + 1); l_done := []; l_ok := true;
                       l_ids := ids + 2 |} in
        let segs := if 0 <=? s_first (l_one st) then l_done st ++ [l_one st] else l_done st in
        (l_ok st && negb (match segs with [] => true | _ => false end), segs, l_ids st)
    end
  else (false, old, ids).

(** WaypointPlanManagerService.cpp:458-471: the search for waypoint [w] in one segment; [first]
    tells whether the iterator is at the first waypoint. *)
Fixpoint scan (w : Z) (s : seg) (first : bool) (l : list wp) (temp : option seg) : option seg :=
  match l with
  | [] => temp
  | x :: l' =>
      scan w s false l'
        (if w_num x =? w
         then if negb first || match temp with None => true | Some _ => false end
              then Some s else temp
         else temp)
  end.

(** WaypointPlanManagerService.cpp:455-472: the search over all segments. *)
Definition choose (w : Z) (segs : list seg) : option seg :=
  fold_left (fun temp s => scan w s true (s_wps s) temp) segs None.

(** WaypointPlanManagerService.h:139-171, the member variables. *)
Record wstate := { p_segs : list seg; p_cur : Z; p_next : option seg; p_ids : Z }.

Definition winit : wstate := {| p_segs := []; p_cur := 0; p_next := None; p_ids := 1 |}.

(** WaypointPlanManagerService.cpp:449-493, [isGetCurrentSegment]. *)
Definition getCurrent (w : Z) (s : wstate) : wstate :=
  match choose w (p_segs s) with
  | None => s
  | Some g =>
      if s_cmd g =? p_cur s then s
      else {| p_segs := p_segs s; p_cur := s_cmd g;
              p_next := Some (match s_wps g with
                              | x :: _ => if w =? w_num x then g else setFirst w g
                              | [] => g
                              end);
              p_ids := p_ids s |}
  end.

(** WaypointPlanManagerService.cpp:166-275 and 530-538.  [EvIds n]: other services draw [n]
    ids from the shared counter. *)
Inductive event :=
| EvState (v w : Z)
| EvResponse (ms : list (Z * list wp))
| EvMission (v : Z) (wps : list wp)
| EvTimer
| EvIds (n : nat).

(** WaypointPlanManagerService.cpp:205-213 and 224-238. *)
Definition newMission (c : cfg) (wps : list wp) (s : wstate) : wstate :=
  let '(ok, segs, ids) := initPlan c (p_ids s) wps (p_segs s) in
  let s1 := {| p_segs := segs; p_cur := p_cur s; p_next := p_next s; p_ids := ids |} in
  match wps with
  | x :: _ => if ok then getCurrent (w_num x) s1 else s1
  | [] => s1
  end.

Definition wstep (c : cfg) (s : wstate) (e : event) : wstate * list seg :=
  match e with
  | EvState v w => (if v =? c_vehicle c then getCurrent w s else s, [])
  | EvResponse ms =>
      (match find (fun m => fst m =? c_vehicle c) ms with
       | Some m => newMission c (snd m) s
       | None => s
       end, [])
  | EvMission v wps => (if v =? c_vehicle c then newMission c wps s else s, [])
  | EvTimer =>
      ({| p_segs := p_segs s; p_cur := p_cur s; p_next := None; p_ids := p_ids s |},
       match p_next s with Some g => [g] | None => [] end)
  | EvIds n =>
      ({| p_segs := p_segs s; p_cur := p_cur s; p_next := p_next s;
          p_ids := p_ids s + Z.of_nat n |}, [])
  end.

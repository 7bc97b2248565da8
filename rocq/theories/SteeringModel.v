(** Model of the steering service, /repo/src/cpp/Services/SteeringService.cpp: it flies a vehicle
    along the waypoints of its mission by heading commands.

    Modelled: all messages handled, the choice of the waypoint, the commands and the reports sent.
    Simplifications: places are pairs of integers; the flat earth conversion of a place to north and
    east relative to the vehicle (a conversion starts at the first place it is given,
    SteeringService.cpp:402-409) is a parameter giving millimetres; speeds are in mm/s and angles
    in thousandths of a degree.  The heading of a command is kept as the points it is computed from;
    the computation is modelled in SteeringCourseModel.v over the real numbers.  The turn radius
    belonging to a speed and bank angle is a parameter.  The clock is read once per message.
    Left out: command ids, command status, the configuration of the gains. *)
From Coq Require Import List ZArith Bool.
From Verif Require Import ZMap.
Import ListNotations.
Open Scope list_scope.
Open Scope Z_scope.

(** Places as latitude and longitude; points as north and east. *)
Definition place := (Z * Z)%type.
Definition point := (Z * Z)%type.

(** [afrl::cmasi::LoiterAction]; the duration is in milliseconds. *)
Record loiter := {
  l_place : place; l_radius : Z; l_clockwise : bool; l_duration : Z; l_speed : Z
}.

(** Vehicle actions of a waypoint: only loiters are looked at (SteeringService.cpp:113-142). *)
Inductive vaction := Loiter (l : loiter) | OtherAction.

(** [afrl::cmasi::Waypoint]; the altitude stands for altitude, altitude type and climb rate. *)
Record wp := {
  w_num : Z; w_next : Z; w_place : place; w_short : bool;      (* TurnType is TurnShort *)
  w_speed : Z; w_speedType : Z; w_altitude : Z; w_tasks : list Z; w_actions : list vaction
}.

(** [afrl::cmasi::MissionCommand] *)
Record mission := { m_vehicle : Z; m_first : Z; m_wps : list wp }.

(** What the heading of a command is computed from: the begin and end of the leg and the position of
    the vehicle (SteeringService.cpp:497-521), or the centre, radius and direction of a loiter and
    the position (461-491). *)
Inductive heading :=
| Along (from to at_ : point)
| Around (centre : point) (radius : Z) (clockwise : bool) (at_ : point).

(** [SafeHeadingAction], [VehicleActionCommand] with a [FlightDirectorAction], and [AirVehicleState]
    with its waypoint number and tasks. *)
Record safe := {
  s_vehicle : Z; s_region : Z; s_lead : Z; s_radius : Z; s_heading : heading; s_altitude : Z; s_speed : Z
}.
Record direct := {
  d_vehicle : Z; d_heading : heading; d_altitude : Z; d_speed : Z; d_speedType : Z
}.
Inductive out :=
| Safe (a : safe)
| Direct (a : direct)
| Report (vehicle : Z) (p : place) (wpnum : Z) (tasks : list Z).

(** Messages received.  [Request] is a UniqueAutomationRequest with its id, whether it is a sandbox
    request and the operating region of the original request, if there is one; [Response] a
    UniqueAutomationResponse with the vehicles of the missions of the original response, if there is
    one; [Actions] a VehicleActionCommand, with for each action whether it is a flight director
    action; [State] an AirVehicleState.  [now] is the time at which a message is handled. *)
Inductive ev :=
| Config (v speed bank : Z)
| Request (id : Z) (sandbox : bool) (region : option Z)
| Response (id : Z) (vehicles : option (list Z))
| Automation (now : Z) (ms : list mission)
| Mission (now : Z) (m : mission)
| Override (v speed : Z)
| Actions (v : Z) (l : list bool)
| State (v now : Z) (p : place).

(** SteeringService.h:83-113 *)
Record st := {
  wps : list wp;               (* m_pMissionCmd; empty before the first mission *)
  cur : Z;                     (* m_currentWpID *)
  since : Z;                   (* m_currentStartTimestamp_ms *)
  ended : bool;                (* m_isLastWaypoint *)
  from : option place;         (* m_previousLocation *)
  region : Z;                  (* m_operatingRegion *)
  regions : zmap Z;            (* m_requestToRegionMap *)
  radius : Z;                  (* m_loiterRadius_m *)
  lead : Z;                    (* m_leadAheadDistance_m *)
  reach : Z;                   (* m_acceptanceDistance, in micrometres *)
  speed : option Z;            (* m_isSpeedOverridden, m_overrideSpeed *)
  by_task : bool               (* m_isHeadingControlledByTask *)
}.

Section Steering.
  (** The configured vehicle, acceptance time in ms, use of safe heading actions and region override
      (SteeringService.cpp:216-238); the conversion to north and east, the turn radius of a speed and
      a bank angle. *)
  Context (vehicle accept : Z) (use_safe : bool) (over : option Z).
  Context (rel : place -> place -> point) (turn : Z -> Z -> Z).

  (** SteeringService.h:83-107, SteeringService.cpp:233-238 *)
  Definition init : st :=
    {| wps := []; cur := 0; since := 0; ended := false; from := None;
       region := match over with Some r => r | None => 0 end; regions := []; radius := 250000;
       lead := 1000000; reach := 0; speed := None; by_task := false |}.

  (** SteeringService.cpp:95-111 (getWaypoint) *)
  Definition wp_of (ws : list wp) (n : Z) : option wp := find (fun w => w_num w =? n) ws.

  (** SteeringService.cpp:113-142 (isOrbitType, getAssociatedLoiter) *)
  Fixpoint loiter_of (l : list vaction) : option loiter :=
    match l with
    | [] => None
    | Loiter a :: _ => Some a
    | OtherAction :: r => loiter_of r
    end.

  (** SteeringService.cpp:154-172 (getNorthEast_m); a loiter always has a location. *)
  Definition point_of (p : place) (w : wp) : point :=
    rel p (match loiter_of (w_actions w) with Some a => l_place a | None => w_place w end).

  (** Difference of points. *)
  Definition sub (a b : point) : point := (fst a - fst b, snd a - snd b).
  (** SteeringService.cpp:70-73 *)
  Definition dot (a b : point) : Z := fst a * fst b + snd a * snd b.

  (** SteeringService.cpp:174-177 (CheckLineAcceptance) *)
  Definition crossed (at_ prev c : point) : bool := dot (sub prev c) (sub at_ c) <=? 0.

  (** SteeringService.cpp:607-610 (withinDistance), by squares; [k] times the distance is at most [d]. *)
  Definition within (k : Z) (a b : point) (d : Z) : bool :=
    (0 <=? d) && (k * k * dot (sub a b) (sub a b) <=? d * d).

  (** SteeringService.cpp:612-619 (CheckProximity) *)
  Definition near (s : st) (at_ c : point) (w : wp) : bool :=
    (0 <? accept) && w_short w && within 1000 at_ c (reach s).

  (** SteeringService.cpp:179-199 (CheckOrbitAcceptance) *)
  Definition loitered (now start : Z) (a : loiter) : bool :=
    negb (l_duration a =? -1) && (l_duration a <=? now - start).

  (** The condition of the loop, SteeringService.cpp:416-418, without m_isLastWaypoint. *)
  Definition accepted (s : st) (now start : Z) (at_ prev c : point) (w : wp) : bool :=
    match loiter_of (w_actions w) with
    | Some a => loitered now start a
    | None => crossed at_ prev c || within 1 c prev 1000 || near s at_ c w
    end.

  (** SteeringService.cpp:414-450: the loop passing waypoints.  [seen] is acceptedWaypoints; the
      result has the waypoint, the begin of the leg, the location kept for later, the time and
      whether the mission has ended.  [None]: out of fuel. *)
  Fixpoint pass (fuel : nat) (s : st) (now : Z) (p : place) (seen : list Z) (w : wp) (prev : point)
           (pl : option place) (start : Z) (last : bool) : option (wp * point * option place * Z * bool) :=
    match fuel with
    | O => None
    | S fuel' =>
        let c := point_of p w in
        if negb last && accepted s now start (rel p p) prev c w then
          if zin (w_num w) seen then Some (w, prev, pl, start, true)
          else
            match wp_of (wps s) (w_next w) with
            | Some w' =>
                if w_next w =? w_num w then pass fuel' s now p (w_num w :: seen) w c (Some (w_place w)) start true
                else pass fuel' s now p (w_num w :: seen) w' c (Some (w_place w)) now last
            | None => pass fuel' s now p (w_num w :: seen) w c (Some (w_place w)) start true
            end
        else Some (w, prev, pl, start, last)
    end.

  (** SteeringService.cpp:584-605 (reset) with the flags cleared before it (355-356, 366-367). *)
  Definition take (s : st) (now : Z) (m : mission) : st :=
    {| wps := m_wps m; cur := m_first m; since := now;
       ended := (length (m_wps m) =? 1)%nat;
       from := option_map w_place (find (fun w => w_next w =? m_first m) (m_wps m));
       region := region s; regions := regions s; radius := radius s; lead := lead s; reach := reach s;
       speed := None; by_task := false |}.

  (** The state with another region and table of regions. *)
  Definition set_region (s : st) (r : Z) (rs : zmap Z) : st :=
    {| wps := wps s; cur := cur s; since := since s; ended := ended s; from := from s;
       region := r; regions := rs; radius := radius s; lead := lead s; reach := reach s;
       speed := speed s; by_task := by_task s |}.

  (** SteeringService.cpp:455-565: the command for the waypoint [w] with the leg from [prev]. *)
  Definition command (s : st) (p : place) (w : wp) (prev : point) (last : bool) : list out :=
    let at_ := rel p p in
    let c := point_of p w in
    let h := match loiter_of (w_actions w) with
             | Some a => Around c (l_radius a) (l_clockwise a) at_
             | None => Along (if last then at_ else prev) c at_
             end in
    let v0 := match loiter_of (w_actions w) with Some a => l_speed a | None => w_speed w end in
    let ty := match loiter_of (w_actions w) with Some _ => 0 | None => w_speedType w end in
    let v := match speed s with Some v => v | None => v0 end in
    if by_task s then []
    else if use_safe
    then [Safe {| s_vehicle := vehicle; s_region := region s; s_lead := lead s; s_radius := radius s;
                  s_heading := h; s_altitude := w_altitude w; s_speed := v |}]
    else [Direct {| d_vehicle := vehicle; d_heading := h; d_altitude := w_altitude w; d_speed := v;
                    d_speedType := ty |}].

  (** SteeringService.cpp:284-582 (processReceivedLmcpMessage) *)
  Definition step (s : st) (e : ev) : st * list out :=
    match e with
    | Config v sp bank =>                                                        (* 288-303 *)
        (if v =? vehicle
         then let r := turn sp (Z.max 1000 (Z.abs bank)) in
              {| wps := wps s; cur := cur s; since := since s; ended := ended s; from := from s;
                 region := region s; regions := regions s; radius := r; lead := 3 * r;
                 reach := if 0 <? accept then accept * sp else reach s;
                 speed := speed s; by_task := by_task s |}
         else s, [])
    | Request id sandbox r =>                                                    (* 304-315 *)
        (set_region s (region s)
           (match sandbox, r with
            | false, Some x => zset (regions s) id x
            | _, _ => zdel (regions s) id
            end), [])
    | Response id vs =>                                                          (* 316-344 *)
        (match vs with
         | None => s
         | Some l =>
             set_region s
               (if zin vehicle l
                then match over, zget (regions s) id with
                     | None, Some r => r
                     | None, None => 0
                     | Some r, _ => r
                     end
                else region s)
               (zdel (regions s) id)
         end, [])
    | Automation now ms =>                                                       (* 345-359 *)
        (match find (fun m => m_vehicle m =? vehicle) ms with
         | Some m => take s now m
         | None => s
         end, [])
    | Mission now m =>                                                           (* 360-370 *)
        (if m_vehicle m =? vehicle then take s now m else s, [])
    | Override v sp =>                                                           (* 371-379 *)
        (if v =? vehicle
         then {| wps := wps s; cur := cur s; since := since s; ended := ended s; from := from s;
                 region := region s; regions := regions s; radius := radius s; lead := lead s;
                 reach := reach s; speed := Some sp; by_task := by_task s |}
         else s, [])
    | Actions v l =>                                                             (* 380-394 *)
        (if (v =? vehicle) && existsb (fun b => b) l
         then {| wps := wps s; cur := cur s; since := since s; ended := ended s; from := from s;
                 region := region s; regions := regions s; radius := radius s; lead := lead s;
                 reach := reach s; speed := speed s; by_task := true |}
         else s, [])
    | State v now p =>                                                           (* 395-579 *)
        if v =? vehicle then
          match wp_of (wps s) (cur s) with
          | None => (s, [Report v p (cur s) []])
          | Some w =>
              let prev := match from s with Some l => rel p l | None => rel p p end in
              match pass (S (S (length (wps s)))) s now p [] w prev (from s) (since s) (ended s) with
              | None => (s, [])
              | Some (w', prev', pl, start, last) =>
                  ({| wps := wps s; cur := w_num w'; since := start; ended := last; from := pl;
                      region := region s; regions := regions s; radius := radius s; lead := lead s;
                      reach := reach s; speed := speed s; by_task := by_task s |},
                   command s p w' prev' last ++ [Report v p (w_num w') (w_tasks w')])
              end
          end
        else (s, [])
    end.
End Steering.

(** Model of src/cpp/Services/StatusReportService.{h,cpp} on top of the model of the timer manager
    ([TimerModel]).

    The thread of the service handles messages ([Recv]), the thread of the timer manager calls the
    three callbacks of the service; both hold [m_mutex] while they touch the report.  A history is
    a sequence of
    - [Boot], [initialize] and [start] of the service;
    - [Recv], a message handled by the service;
    - [Timer], any other use of the timer manager in the process: timers of other services, the
      worker that looks at the queue ([EvTurn]) and the end of a callback ([EvDone]);
    - [Body], the locked part of the callback of the service that is running.
    What is seen of the service is its calls of the timer manager with their results ([Call]), the
    reports it sends ([Sent]) and that its other two callbacks did their work ([Expired],
    [Outdated]).  Left out: subscriptions, the destructor, log messages, the destruction of the
    timers. *)
From Coq Require Import List ZArith Bool.
From Verif Require Import ZMap TimerModel.
Import ListNotations.
Open Scope list_scope.
Open Scope Z_scope.

(** uxas.messages.uxnative.OnboardStatusReport, mdms/UXNATIVE.xml:161-178. *)
Record report := {
  r_vehicle : Z; r_connected : list Z; r_tasks : list Z; r_state : bool;
  r_authorized : bool; r_speed : bool; r_gimbal : bool; r_time : Z }.

(** The messages; a state is an EntityState or a descendant of it. *)
Inductive msg :=
| State (id time : Z) (tasks : list Z)
| Join (id : Z)
| Exit (id : Z)
| KeepAlive (autopilot speed gimbal : bool)
| Else.

(** StatusReportService.h:113-120. *)
Record config := { c_vehicle : Z; c_period : Z; c_stale : Z; c_expiry : Z }.

(** StatusReportService.cpp:76-92: the options that are given, the ID of the entity, the defaults
    of StatusReportService.h:113-120. *)
Definition configure (entity : Z) (vehicle period stale expiry : option Z) : config :=
  let or o d := match o with Some x => x | None => d end in
  let period := or period 5000 in
  let stale := or stale 5000 in
  let expiry := or expiry 7000 in
  {| c_vehicle := or vehicle entity;
     c_period := if period <? 100 then 100 else period;
     c_stale := if stale <? 10 then 10 else stale;
     c_expiry := if expiry <? 1000 then 1000 else expiry |}.

(** [now] and [later] are the times read by the first and the second start of a timer. *)
Inductive event :=
| Boot (now : Z)
| Recv (m : msg) (now later : Z)
| Timer (e : TimerModel.event)
| Body.

Inductive out :=
| Call (e : TimerModel.event) (o : list TimerModel.out)
| Sent (r : report)
| Expired
| Outdated.

(** StatusReportService.h:122-146.  [s_waiting]: the callback that runs has not yet taken the
    lock. *)
Record state := {
  s_timers : TimerModel.state;
  s_report_id : Z; s_keep_id : Z; s_stale_id : Z; s_booted : bool;
  s_links : list Z; s_report : report; s_waiting : bool }.

(** StatusReportService.cpp:39-46 and 80. *)
Definition init (c : config) : state :=
  {| s_timers := tinit; s_report_id := 0; s_keep_id := 0; s_stale_id := 0; s_booted := false;
     s_links := [];
     s_report := {| r_vehicle := c_vehicle c; r_connected := []; r_tasks := []; r_state := false;
                    r_authorized := false; r_speed := false; r_gimbal := false; r_time := 0 |};
     s_waiting := false |}.

Definition setTimers (s : state) t : state :=
  {| s_timers := t; s_report_id := s_report_id s; s_keep_id := s_keep_id s;
     s_stale_id := s_stale_id s; s_booted := s_booted s; s_links := s_links s;
     s_report := s_report s; s_waiting := s_waiting s |}.

Definition setReport (s : state) r : state :=
  {| s_timers := s_timers s; s_report_id := s_report_id s; s_keep_id := s_keep_id s;
     s_stale_id := s_stale_id s; s_booted := s_booted s; s_links := s_links s;
     s_report := r; s_waiting := s_waiting s |}.

Definition setLinks (s : state) l : state :=
  {| s_timers := s_timers s; s_report_id := s_report_id s; s_keep_id := s_keep_id s;
     s_stale_id := s_stale_id s; s_booted := s_booted s; s_links := l;
     s_report := s_report s; s_waiting := s_waiting s |}.

Definition setWaiting (s : state) b : state :=
  {| s_timers := s_timers s; s_report_id := s_report_id s; s_keep_id := s_keep_id s;
     s_stale_id := s_stale_id s; s_booted := s_booted s; s_links := s_links s;
     s_report := s_report s; s_waiting := b |}.

(** A call of the timer manager. *)
Definition call (s : state) (e : TimerModel.event) : state * list out :=
  let (t, o) := tstep (s_timers s) e in (setTimers s t, [Call e o]).

(** What [createTimer] returned; 0 is the ID of no timer. *)
Definition idOf (o : list TimerModel.out) : Z := match o with [OutId i] => i | _ => 0 end.

(** StatusReportService.cpp:108-133. *)
Definition boot (c : config) (s : state) (now : Z) : state * list out :=
  let (t1, o1) := tstep (s_timers s) EvCreate in
  let (t2, o2) := tstep t1 EvCreate in
  let (t3, o3) := tstep t2 EvCreate in
  let e := EvPeriodic (idOf o1) (c_period c) (c_period c) now false in
  let (t4, o4) := tstep t3 e in
  ({| s_timers := t4; s_report_id := idOf o1; s_keep_id := idOf o2; s_stale_id := idOf o3;
      s_booted := true; s_links := s_links s; s_report := s_report s; s_waiting := s_waiting s |},
   [Call EvCreate o1; Call EvCreate o2; Call EvCreate o3; Call e o4]).

(** StatusReportService.cpp:159-161 and 166-168: the entities connected, in the order of an
    unordered set, here some order. *)
Definition link (s : state) (l : list Z) : state :=
  let r := s_report s in
  setReport (setLinks s l)
    {| r_vehicle := r_vehicle r; r_connected := l; r_tasks := r_tasks r; r_state := r_state r;
       r_authorized := r_authorized r; r_speed := r_speed r; r_gimbal := r_gimbal r;
       r_time := r_time r |}.

(** StatusReportService.cpp:143-145. *)
Definition fresh (r : report) (time : Z) (tasks : list Z) : report :=
  {| r_vehicle := r_vehicle r; r_connected := r_connected r; r_tasks := tasks; r_state := true;
     r_authorized := r_authorized r; r_speed := r_speed r; r_gimbal := r_gimbal r;
     r_time := time |}.

(** StatusReportService.cpp:173-175 and 195-197. *)
Definition authorize (r : report) (autopilot speed gimbal : bool) : report :=
  {| r_vehicle := r_vehicle r; r_connected := r_connected r; r_tasks := r_tasks r;
     r_state := r_state r; r_authorized := autopilot; r_speed := speed; r_gimbal := gimbal;
     r_time := r_time r |}.

(** StatusReportService.cpp:203. *)
Definition outdate (r : report) : report :=
  {| r_vehicle := r_vehicle r; r_connected := r_connected r; r_tasks := r_tasks r;
     r_state := false; r_authorized := r_authorized r; r_speed := r_speed r;
     r_gimbal := r_gimbal r; r_time := r_time r |}.

(** StatusReportService.cpp:135-181. *)
Definition receive (c : config) (s : state) (m : msg) (now later : Z) : state * list out :=
  match m with
  | State id time tasks =>
      if c_vehicle c =? id then
        let s := setReport s (fresh (s_report s) time tasks) in
        let (s1, o1) := call s (EvSingle (s_stale_id s) (c_stale c) now false) in
        let (t2, o2) := tstep (s_timers s1) (EvActive (s_report_id s)) in
        let s2 := setTimers s1 t2 in
        match o2 with
        | [OutBool true] => (s2, o1 ++ [Call (EvActive (s_report_id s)) o2])
        | _ =>
            let (s3, o3) := call s2 (EvPeriodic (s_report_id s) (c_period c) (c_period c) later
                                                false) in
            (s3, o1 ++ Call (EvActive (s_report_id s)) o2 :: o3)
        end
      else (s, [])
  | Join id => (link s (zadd id (s_links s)), [])
  | Exit id => (link s (zrem id (s_links s)), [])
  | KeepAlive a v g =>
      let s := setReport s (authorize (s_report s) a v g) in
      call s (EvSingle (s_keep_id s) (c_expiry c) now false)
  | Else => (s, [])
  end.

(** StatusReportService.cpp:183-204. *)
Definition body (s : state) : state * list out :=
  match t_call (s_timers s) with
  | Some i =>
      if negb (s_waiting s) then (s, [])
      else if i =? s_report_id s then (setWaiting s false, [Sent (s_report s)])
      else if i =? s_keep_id s then
        (setWaiting (setReport s (authorize (s_report s) false false false)) false, [Expired])
      else if i =? s_stale_id s then
        (setWaiting (setReport s (outdate (s_report s))) false, [Outdated])
      else (s, [])
  | None => (s, [])
  end.

(** A timer of the service. *)
Definition mine (s : state) (i : Z) : bool :=
  s_booted s && ((i =? s_report_id s) || (i =? s_keep_id s) || (i =? s_stale_id s)).

(** The rest of the process.  A callback of the service does not end before its body has run
    (UxAS_TimerManager.cpp:425-428). *)
Definition elsewhere (s : state) (e : TimerModel.event) : state * list out :=
  match e with
  | EvDone => if s_waiting s then (s, []) else call s e
  | EvTurn _ =>
      let (s', o) := call s e in
      match o with
      | [Call _ [OutCall i]] => (setWaiting s' (mine s i), o)
      | _ => (s', o)
      end
  | _ => call s e
  end.

(** The service boots once. *)
Definition step (c : config) (s : state) (e : event) : state * list out :=
  match e with
  | Boot now => if s_booted s then (s, []) else boot c s now
  | Recv m now later => receive c s m now later
  | Timer e => elsewhere s e
  | Body => body s
  end.

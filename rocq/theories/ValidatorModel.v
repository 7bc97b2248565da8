(** Model of src/cpp/Services/AutomationRequestValidatorService.{h,cpp}.

    One received message or one timer callback is one step.  In the code the callbacks run
    on the thread of the timer manager without synchronisation with the thread that handles
    messages; such interleavings inside a step are not modelled.  Texts of error messages
    are reduced to what they report; logging is left out. *)
From Coq Require Import List ZArith Bool.
From Verif Require Import ZMap.
Import ListNotations.
Open Scope list_scope.
Open Scope Z_scope.

(** The fields of an AutomationRequest that the service reads. *)
Record autoReq := {
  ar_entities : list Z;
  ar_tasks : list Z;
  ar_region : Z
}.

(** A UniqueAutomationRequest; of the planning states only the entity ids are kept. *)
Record ureq := {
  u_id : Z;
  u_req : autoReq;
  u_planning : list Z;
  u_sandbox : bool
}.

(** AutomationRequestValidatorService.h:186-199, [AutomationRequestType] and
    [RequestDetails]. *)
Inductive rtype := TAuto | TImpact | TTask.

Record details := {
  rd_type : rtype;
  rd_play : Z;
  rd_soln : Z;
  rd_task : Z
}.

Definition details0 : details := {| rd_type := TAuto; rd_play := 0; rd_soln := 0; rd_task := 0 |}.

(** What a task needs to be known before it can be requested
    (AutomationRequestValidatorService.cpp:591-629). *)
Inductive taskNeed := NeedNone | NeedArea (id : Z) | NeedLine (id : Z) | NeedPoint (id : Z).

Record region := { rg_in : list Z; rg_out : list Z }.

(** The entries of the info list of a response. *)
Inductive info :=
| InvalidRequest (id : Z)
| ResponseTimedOut (id : Z)
| TasksTimedOut (id : Z)
| Reported (n : Z).

(** The plan part of a response: what the planning pipeline answered (a number stands for
    its content), or an error response made here. *)
Inductive content :=
| Plan (n : Z)
| Errors (l : list info).

(** What is received: messages and timer expiries.  For [EvAuto] the first argument is the
    number returned by [getUniqueEntitySendMessageId] (236). *)
Inductive event :=
| EvConfig (id : Z)
| EvState (id : Z)
| EvTask (id : Z) (need : taskNeed)
| EvStatus (error : bool) (infos : list Z)
| EvRemove (ids : list Z)
| EvInit (id : Z)
| EvArea (id : Z)
| EvLine (id : Z)
| EvPoint (id : Z)
| EvKeepIn (id : Z)
| EvKeepOut (id : Z)
| EvRegion (id : Z) (r : region)
| EvAuto (uid : Z) (q : autoReq)
| EvImpact (rid play soln : Z) (q : autoReq)
| EvTaskReq (rid : Z) (q : autoReq) (planning : list Z) (sandbox : bool)
| EvResponse (id : Z) (c : Z) (finals : list Z)
| EvResponseTimer
| EvTaskTimer.

(** What is sent. *)
Inductive out :=
| OutRequest (u : ureq)
| OutSentStatus (id : Z)
| OutAuto (c : content)
| OutImpact (play soln : Z) (c : content)
| OutTask (rid : Z) (c : content) (finals : list Z).

(** AutomationRequestValidatorService.h:179-217, the member variables.  A timer is the
    information whether it is queued in the timer manager. *)
Record vstate := {
  v_pending : list ureq;
  v_waiting : list ureq;
  v_errId : Z;
  v_errInfo : list info;
  v_map : zmap details;
  v_configs : list Z;
  v_states : list Z;
  v_keepIn : list Z;
  v_keepOut : list Z;
  v_areas : list Z;
  v_lines : list Z;
  v_points : list Z;
  v_regions : zmap region;
  v_tasks : zmap taskNeed;
  v_inited : list Z;
  v_respTimer : bool;
  v_taskTimer : bool
}.

(** AutomationRequestValidatorService.cpp:52-64; the response id of a new message is 0. *)
Definition vinit : vstate :=
  {| v_pending := []; v_waiting := []; v_errId := 0; v_errInfo := []; v_map := [];
     v_configs := []; v_states := []; v_keepIn := []; v_keepOut := []; v_areas := [];
     v_lines := []; v_points := []; v_regions := []; v_tasks := []; v_inited := [];
     v_respTimer := false; v_taskTimer := false |}.

(** Changes of single members. *)
Definition set_queues (s : vstate) p w :=
  {| v_pending := p; v_waiting := w; v_errId := v_errId s; v_errInfo := v_errInfo s;
     v_map := v_map s; v_configs := v_configs s; v_states := v_states s;
     v_keepIn := v_keepIn s; v_keepOut := v_keepOut s; v_areas := v_areas s;
     v_lines := v_lines s; v_points := v_points s; v_regions := v_regions s;
     v_tasks := v_tasks s; v_inited := v_inited s; v_respTimer := v_respTimer s;
     v_taskTimer := v_taskTimer s |}.

Definition set_err (s : vstate) i l :=
  {| v_pending := v_pending s; v_waiting := v_waiting s; v_errId := i; v_errInfo := l;
     v_map := v_map s; v_configs := v_configs s; v_states := v_states s;
     v_keepIn := v_keepIn s; v_keepOut := v_keepOut s; v_areas := v_areas s;
     v_lines := v_lines s; v_points := v_points s; v_regions := v_regions s;
     v_tasks := v_tasks s; v_inited := v_inited s; v_respTimer := v_respTimer s;
     v_taskTimer := v_taskTimer s |}.

Definition set_map (s : vstate) m :=
  {| v_pending := v_pending s; v_waiting := v_waiting s; v_errId := v_errId s;
     v_errInfo := v_errInfo s;
     v_map := m; v_configs := v_configs s; v_states := v_states s;
     v_keepIn := v_keepIn s; v_keepOut := v_keepOut s; v_areas := v_areas s;
     v_lines := v_lines s; v_points := v_points s; v_regions := v_regions s;
     v_tasks := v_tasks s; v_inited := v_inited s; v_respTimer := v_respTimer s;
     v_taskTimer := v_taskTimer s |}.

Definition set_timers (s : vstate) r t :=
  {| v_pending := v_pending s; v_waiting := v_waiting s; v_errId := v_errId s;
     v_errInfo := v_errInfo s;
     v_map := v_map s; v_configs := v_configs s; v_states := v_states s;
     v_keepIn := v_keepIn s; v_keepOut := v_keepOut s; v_areas := v_areas s;
     v_lines := v_lines s; v_points := v_points s; v_regions := v_regions s;
     v_tasks := v_tasks s; v_inited := v_inited s; v_respTimer := r;
     v_taskTimer := t |}.

Definition set_known (s : vstate) cf st ki ko ar li po re ta ini :=
  {| v_pending := v_pending s; v_waiting := v_waiting s; v_errId := v_errId s;
     v_errInfo := v_errInfo s; v_map := v_map s;
     v_configs := cf; v_states := st; v_keepIn := ki; v_keepOut := ko; v_areas := ar;
     v_lines := li; v_points := po; v_regions := re; v_tasks := ta; v_inited := ini;
     v_respTimer := v_respTimer s; v_taskTimer := v_taskTimer s |}.

(** [TimerManager::startSingleShotTimer] (UxAS_TimerManager.cpp:191-308): a call made from
    within a timer callback, that is on the thread of the timer manager, is refused
    (217-223) and leaves the timer as it is; otherwise the timer is queued. *)
Definition startTimer (callback : bool) (active : bool) : bool :=
  if callback then active else true.

(** AutomationRequestValidatorService.cpp:292-328, [SendResponse]. *)
Definition sendResponse (s : vstate) (id : Z) (c : content) (finals : list Z) : out :=
  match zget (v_map s) id with
  | None => OutAuto c
  | Some d =>
      match rd_type d with
      | TTask => OutTask (rd_task d) c finals
      | TAuto => OutAuto c
      | TImpact => OutImpact (rd_play d) (rd_soln d) c
      end
  end.

(** AutomationRequestValidatorService.cpp:372-403, [sendNextRequest]. *)
Definition sendNextRequest (callback : bool) (s : vstate) : vstate * list out :=
  match v_pending s with
  | [] => (set_timers s false (v_taskTimer s), [])
  | u :: _ =>
      let s1 := set_err s (u_id u) [] in
      (set_timers s1 (startTimer callback (v_respTimer s1)) (v_taskTimer s1),
       [OutRequest u; OutSentStatus (u_id u)])
  end.

(** AutomationRequestValidatorService.cpp:412-423: all tasks of a request are initialised. *)
Definition tasksReady (s : vstate) (u : ureq) : bool :=
  forallb (fun t => zin t (v_inited s)) (ar_tasks (u_req u)).

(** AutomationRequestValidatorService.cpp:410-435: the ready requests at the front of the
    waiting queue, and the rest. *)
Fixpoint takeReady (s : vstate) (w : list ureq) : list ureq * list ureq :=
  match w with
  | [] => ([], [])
  | u :: w' => if tasksReady s u
               then let (r, k) := takeReady s w' in (u :: r, k)
               else ([], w)
  end.

(** AutomationRequestValidatorService.cpp:405-456, [checkTasksInitialized]. *)
Definition checkTasksInitialized (callback : bool) (s : vstate) : vstate * list out :=
  let '(ready, rest) := takeReady s (v_waiting s) in
  let s1 := set_queues s (v_pending s ++ ready) rest in
  let '(s2, outs) :=
    match ready with
    | [] =>
        if negb (v_taskTimer s1) && negb (match rest with [] => true | _ => false end)
        then (set_timers s1 (v_respTimer s1) (startTimer callback (v_taskTimer s1)), [])
        else (s1, [])
    | _ =>
        let s1' := set_timers s1 (v_respTimer s1) (startTimer callback (v_taskTimer s1)) in
        if negb (v_respTimer s1') then sendNextRequest callback s1' else (s1', [])
    end in
  match rest with
  | [] => (set_timers s2 (v_respTimer s2) false, outs)
  | _ => (s2, outs)
  end.

(** AutomationRequestValidatorService.cpp:464-557: the check of the entities.  The test at
    526-544 compares the configured ids with themselves and always succeeds if there is
    one. *)
Definition entitiesOk (s : vstate) (u : ureq) : bool :=
  match ar_entities (u_req u) with
  | [] => negb (match v_configs s with [] => true | _ => false end)
          && negb (match v_states s with [] => true | _ => false end)
          && existsb (fun i => existsb (Z.eqb i) (v_configs s)) (v_configs s)
  | ids =>
      (match v_configs s with
       | [] => false
       | _ => forallb (fun i => zin i (v_configs s)) ids
       end)
      && (match v_states s with
          | [] => false
          | _ => forallb (fun i => zin i (v_states s) || existsb (Z.eqb i) (u_planning u)) ids
          end)
  end.

(** AutomationRequestValidatorService.cpp:559-588: the check of the operating region. *)
Definition regionOk (s : vstate) (u : ureq) : bool :=
  if ar_region (u_req u) =? 0 then true
  else match zget (v_regions s) (ar_region (u_req u)) with
       | None => false
       | Some r => forallb (fun z => zin z (v_keepIn s)) (rg_in r)
                   && forallb (fun z => zin z (v_keepOut s)) (rg_out r)
       end.

(** AutomationRequestValidatorService.cpp:597-632: what a task needs is available. *)
Definition needOk (s : vstate) (n : taskNeed) : bool :=
  match n with
  | NeedNone => true
  | NeedArea i => (i =? 0) || zin i (v_areas s)
  | NeedLine i => (i =? 0) || zin i (v_lines s)
  | NeedPoint i => (i =? 0) || zin i (v_points s)
  end.

(** AutomationRequestValidatorService.cpp:590-639: the check of the tasks. *)
Definition tasksOk (s : vstate) (u : ureq) : bool :=
  forallb (fun t => match zget (v_tasks s) t with
                    | None => false
                    | Some n => needOk s n
                    end) (ar_tasks (u_req u)).

(** AutomationRequestValidatorService.cpp:458-661, [isCheckAutomationRequestRequirements].
    An error response is sent for a request that is refused, and its map entry erased. *)
Definition checkRequirements (s : vstate) (u : ureq) : vstate * list out * bool :=
  if entitiesOk s u && regionOk s u && tasksOk s u then (s, [], true)
  else (set_map s (zdel (v_map s) (u_id u)),
        [sendResponse s (u_id u) (Errors [InvalidRequest (u_id u)]) []], false).

(** The map entry before it is assigned to: [m_sandboxMap[id]] creates a default one. *)
Definition entry (s : vstate) (id : Z) : details :=
  match zget (v_map s) id with Some d => d | None => details0 end.

(** AutomationRequestValidatorService.cpp:270-275: queue a request. *)
Definition queueRequest (s : vstate) (u : ureq) (d : details) : vstate * list out :=
  let s1 := set_map s (zset (v_map s) (u_id u) d) in
  match checkRequirements s1 u with
  | (s2, outs, true) =>
      let (s3, outs3) := checkTasksInitialized false
                           (set_queues s2 (v_pending s2) (v_waiting s2 ++ [u])) in
      (s3, outs ++ outs3)
  | (s2, outs, false) => (s2, outs)
  end.

(** AutomationRequestValidatorService.cpp:234-275, [HandleAutomationRequest]. *)
Definition handleAuto (s : vstate) (uid : Z) (q : autoReq) : vstate * list out :=
  queueRequest s {| u_id := uid; u_req := q; u_planning := []; u_sandbox := false |}
    {| rd_type := TAuto; rd_play := rd_play (entry s uid); rd_soln := rd_soln (entry s uid);
       rd_task := rd_task (entry s uid) |}.

Definition handleImpact (s : vstate) (rid play soln : Z) (q : autoReq) : vstate * list out :=
  queueRequest s {| u_id := rid; u_req := q; u_planning := []; u_sandbox := true |}
    {| rd_type := TImpact; rd_play := play; rd_soln := soln; rd_task := rd_task (entry s rid) |}.

Definition handleTaskReq (s : vstate) (rid : Z) (q : autoReq) (planning : list Z)
    (sandbox : bool) : vstate * list out :=
  queueRequest s {| u_id := rid; u_req := q; u_planning := planning; u_sandbox := sandbox |}
    {| rd_type := TTask; rd_play := rd_play (entry s rid); rd_soln := rd_soln (entry s rid);
       rd_task := rid |}.

(** AutomationRequestValidatorService.cpp:277-290, [HandleAutomationResponse]. *)
Definition handleResponse (s : vstate) (id : Z) (c : Z) (finals : list Z)
  : vstate * list out :=
  match v_pending s with
  | [] => (s, [])
  | u :: p =>
      if (u_id u =? id) && zhas (v_map s) id then
        let o := sendResponse s id (Plan c) finals in
        let s1 := set_queues (set_map s (zdel (v_map s) id)) p (v_waiting s) in
        let (s2, outs) := sendNextRequest false s1 in
        (s2, o :: outs)
      else (s, [])
  end.

(** AutomationRequestValidatorService.cpp:330-349, [OnResponseTimeout], called by the timer
    manager, which has removed the timer from its queue before
    (UxAS_TimerManager.cpp:421-431). *)
Definition onResponseTimeout (s : vstate) : vstate * list out :=
  match v_pending s with
  | [] => sendNextRequest true s
  | u :: p =>
      let s1 := set_queues s p (v_waiting s) in
      let s2 := set_err s1 (v_errId s1) (v_errInfo s1 ++ [ResponseTimedOut (u_id u)]) in
      let o := sendResponse s2 (v_errId s2) (Errors (v_errInfo s2)) [] in
      let s3 := set_map s2 (zdel (v_map s2) (v_errId s2)) in
      let (s4, outs) := sendNextRequest true s3 in
      (s4, o :: outs)
  end.

(** AutomationRequestValidatorService.cpp:351-370, [OnTasksReadyTimeout]. *)
Definition onTasksReadyTimeout (s : vstate) : vstate * list out :=
  match v_waiting s with
  | [] => checkTasksInitialized true s
  | u :: w =>
      let s1 := set_queues s (v_pending s) w in
      let s2 := set_err s1 (v_errId s1) (v_errInfo s1 ++ [TasksTimedOut (u_id u)]) in
      let o := sendResponse s2 (v_errId s2) (Errors (v_errInfo s2)) [] in
      let s3 := set_map s2 (zdel (v_map s2) (v_errId s2)) in
      let (s4, outs) := checkTasksInitialized true s3 in
      (s4, o :: outs)
  end.

(** AutomationRequestValidatorService.cpp:148-232, [processReceivedLmcpMessage], and the
    timer expiries.  A timer that is not queued does not expire. *)
Definition vstep (s : vstate) (e : event) : vstate * list out :=
  let k := set_known s in
  match e with
  | EvConfig i => (k (zadd i (v_configs s)) (v_states s) (v_keepIn s) (v_keepOut s)
                     (v_areas s) (v_lines s) (v_points s) (v_regions s) (v_tasks s)
                     (v_inited s), [])
  | EvState i => (k (v_configs s) (zadd i (v_states s)) (v_keepIn s) (v_keepOut s)
                     (v_areas s) (v_lines s) (v_points s) (v_regions s) (v_tasks s)
                     (v_inited s), [])
  | EvTask i n => (k (v_configs s) (v_states s) (v_keepIn s) (v_keepOut s)
                     (v_areas s) (v_lines s) (v_points s) (v_regions s)
                     (zset (v_tasks s) i n) (zrem i (v_inited s)), [])
  | EvStatus er l => (if er then set_err s (v_errId s) (v_errInfo s ++ map Reported l) else s,
                      [])
  | EvRemove ids => (k (v_configs s) (v_states s) (v_keepIn s) (v_keepOut s)
                     (v_areas s) (v_lines s) (v_points s) (v_regions s)
                     (fold_left zdel ids (v_tasks s))
                     (fold_left (fun m i => zrem i m) ids (v_inited s)), [])
  | EvInit i => checkTasksInitialized false
                  (k (v_configs s) (v_states s) (v_keepIn s) (v_keepOut s)
                     (v_areas s) (v_lines s) (v_points s) (v_regions s) (v_tasks s)
                     (zadd i (v_inited s)))
  | EvArea i => (k (v_configs s) (v_states s) (v_keepIn s) (v_keepOut s)
                     (zadd i (v_areas s)) (v_lines s) (v_points s) (v_regions s) (v_tasks s)
                     (v_inited s), [])
  | EvLine i => (k (v_configs s) (v_states s) (v_keepIn s) (v_keepOut s)
                     (v_areas s) (zadd i (v_lines s)) (v_points s) (v_regions s) (v_tasks s)
                     (v_inited s), [])
  | EvPoint i => (k (v_configs s) (v_states s) (v_keepIn s) (v_keepOut s)
                     (v_areas s) (v_lines s) (zadd i (v_points s)) (v_regions s) (v_tasks s)
                     (v_inited s), [])
  | EvKeepIn i => (k (v_configs s) (v_states s) (zadd i (v_keepIn s)) (v_keepOut s)
                     (v_areas s) (v_lines s) (v_points s) (v_regions s) (v_tasks s)
                     (v_inited s), [])
  | EvKeepOut i => (k (v_configs s) (v_states s) (v_keepIn s) (zadd i (v_keepOut s))
                     (v_areas s) (v_lines s) (v_points s) (v_regions s) (v_tasks s)
                     (v_inited s), [])
  | EvRegion i r => (k (v_configs s) (v_states s) (v_keepIn s) (v_keepOut s)
                     (v_areas s) (v_lines s) (v_points s) (zset (v_regions s) i r) (v_tasks s)
                     (v_inited s), [])
  | EvAuto uid q => handleAuto s uid q
  | EvImpact rid p so q => handleImpact s rid p so q
  | EvTaskReq rid q pl sb => handleTaskReq s rid q pl sb
  | EvResponse i c f => handleResponse s i c f
  | EvResponseTimer => if v_respTimer s
                       then onResponseTimeout (set_timers s false (v_taskTimer s))
                       else (s, [])
  | EvTaskTimer => if v_taskTimer s
                   then onTasksReadyTimeout (set_timers s (v_respTimer s) false)
                   else (s, [])
  end.

(** A history: the state after it and what was sent at each step. *)
Definition vrun_from (s : vstate) (evs : list event) : vstate * list (event * list out) :=
  fold_left (fun st e => let (s', o) := vstep (fst st) e in (s', snd st ++ [(e, o)]))
            evs (s, []).

Definition vrun (evs : list event) : vstate * list (event * list out) := vrun_from vinit evs.

(** Model of src/cpp/Utilities/UxAS_TimerManager.{h,cpp}.

    Every operation holds [m_mutex] from start to end, except the waits in [startTimerImpl]
    (UxAS_TimerManager.cpp:272-274), which are never reached, and the callback in
    [executeManagement] (425-428), so histories are sequences of atomic operations, of the start
    of callbacks ([EvTurn] with an output) and of their end ([EvDone]).  The loops that retry
    while holding the lock (336-354 and 134-156) cannot make progress after the first attempt,
    because the thread that would change the outcome needs the lock; they are modelled by one
    attempt.  Times are in milliseconds, conversions from uint64_t do not overflow.  [t_ub] is
    set where the behaviour of the code is undefined; nothing happens after that. *)
From Coq Require Import List ZArith Bool.
From Verif Require Import ZMap.
Import ListNotations.
Open Scope list_scope.
Open Scope Z_scope.

(** UxAS_TimerManager.h:78-86; the handler is left out. *)
Record timer := {
  x_due : Z; x_period : Z; x_exec : bool; x_off : bool; x_doomed : bool }.

(** UxAS_TimerManager.h:232-243.  [t_queue] is the multiset in its order, [t_call] the timer
    whose callback the worker thread runs. *)
Record state := {
  t_timers : zmap timer; t_queue : list Z; t_next : Z; t_call : option Z; t_ub : bool }.

(** [worker]: the call is made on the thread of the timer manager, from a callback. *)
Inductive event :=
| EvCreate
| EvSingle (id delay now : Z) (worker : bool)
| EvPeriodic (id delay period now : Z) (worker : bool)
| EvActive (id : Z)
| EvDisable (id : Z)
| EvDestroy (id : Z)
| EvDestroyAll (ids : list Z) (timeout : bool)
| EvTurn (now : Z)
| EvDone.

Inductive out :=
| OutId (id : Z)
| OutBool (b : bool)
| OutCount (n : Z)
| OutCall (id : Z).

Definition tinit : state :=
  {| t_timers := []; t_queue := []; t_next := 1; t_call := None; t_ub := false |}.

Definition setTimers (s : state) m : state :=
  {| t_timers := m; t_queue := t_queue s; t_next := t_next s; t_call := t_call s;
     t_ub := t_ub s |}.

Definition setQueue (s : state) q : state :=
  {| t_timers := t_timers s; t_queue := q; t_next := t_next s; t_call := t_call s;
     t_ub := t_ub s |}.

Definition setCall (s : state) c : state :=
  {| t_timers := t_timers s; t_queue := t_queue s; t_next := t_next s; t_call := c;
     t_ub := t_ub s |}.

Definition broken (s : state) : state :=
  {| t_timers := t_timers s; t_queue := t_queue s; t_next := t_next s; t_call := t_call s;
     t_ub := true |}.

(** The time of a timer in the queue.  The queue holds references to elements of
    [m_timersById]; a reference to an erased one is undefined behaviour, which is recorded when
    the element is erased. *)
Definition dueOf (m : zmap timer) (id : Z) : Z :=
  match zget m id with Some x => x_due x | None => 0 end.

(** [std::multiset::insert] with the comparison of UxAS_TimerManager.h:89-96: after the elements
    with the same time. *)
Fixpoint enqueue (m : zmap timer) (id : Z) (q : list Z) : list Z :=
  match q with
  | [] => [id]
  | j :: q' => if dueOf m id <? dueOf m j then id :: q else j :: enqueue m id q'
  end.

(** [m_queue.erase(std::ref(timer))]: every element with the same time. *)
Definition dequeue (m : zmap timer) (d : Z) (q : list Z) : list Z :=
  filter (fun j => negb (dueOf m j =? d)) q.

(** [m_queue.find(std::ref(timer))]. *)
Definition queued (m : zmap timer) (d : Z) (q : list Z) : option Z :=
  find (fun j => dueOf m j =? d) q.

(** UxAS_TimerManager.cpp:182-188. *)
Definition createTimer (s : state) : state * list out :=
  ({| t_timers := zset (t_timers s) (t_next s)
                       {| x_due := 0; x_period := 0; x_exec := false; x_off := false;
                          x_doomed := false |};
      t_queue := t_queue s; t_next := t_next s + 1; t_call := t_call s; t_ub := t_ub s |},
   [OutId (t_next s)]).

(** UxAS_TimerManager.cpp:191-307.  If the timer found in the queue executes its callback, the
    loop at 257-279 may wait; the timer then is in the queue twice, which is recorded as
    undefined behaviour before. *)
Definition startTimer (s : state) (id delay period now : Z) (worker : bool) : state * list out :=
  if t_next s - 1 <? id then (s, [OutBool false]) else
  match zget (t_timers s) id with
  | None => (s, [OutBool false])
  | Some x =>
      if worker then (s, [OutBool false]) else
      let q := match queued (t_timers s) (x_due x) (t_queue s) with
               | Some _ => dequeue (t_timers s) (x_due x) (t_queue s)
               | None => t_queue s
               end in
      let m := zset (t_timers s) id
                    {| x_due := now + delay; x_period := period; x_exec := false;
                       x_off := false; x_doomed := false |} in
      (setQueue (setTimers s m) (enqueue m id q), [OutBool true])
  end.

(** UxAS_TimerManager.cpp:91-110. *)
Definition isActive (s : state) (id : Z) : bool :=
  match zget (t_timers s) id with
  | None => false
  | Some x => match queued (t_timers s) (x_due x) (t_queue s) with
              | Some _ => true
              | None => false
              end
  end.

(** UxAS_TimerManager.cpp:310-396.  Erasing a timer while its callback runs leaves the worker
    with a dangling reference. *)
Definition stopTimer (s : state) (id : Z) (destroy : bool) : state * bool :=
  if t_next s - 1 <? id then (s, false) else
  match zget (t_timers s) id with
  | None => (s, true)
  | Some x =>
      if x_exec x then
        (setTimers s (zset (t_timers s) id
           {| x_due := x_due x; x_period := x_period x; x_exec := true; x_off := true;
              x_doomed := x_doomed x || destroy |}), false)
      else
        let q := match queued (t_timers s) (x_due x) (t_queue s) with
                 | Some _ => dequeue (t_timers s) (x_due x) (t_queue s)
                 | None => t_queue s
                 end in
        if destroy then
          let s' := setQueue (setTimers s (zdel (t_timers s) id)) q in
          (match t_call s with
           | Some c => if c =? id then broken s' else s'
           | None => s'
           end, true)
        else (setQueue s q, true)
  end.

(** UxAS_TimerManager.cpp:127-179.  At 173 the name of a timer that could not be destroyed is
    read; for an id that was never given out the iterator is the end of the map. *)
Definition destroyTimers (s : state) (ids : list Z) (timeout : bool) : state * list out :=
  let '(s', n) := fold_left (fun st id => let (s1, ok) := stopTimer (fst st) id true in
                                          (s1, if ok then snd st + 1 else snd st)) ids (s, 0) in
  (if timeout && existsb (fun id => t_next s - 1 <? id) ids then broken s' else s',
   [OutCount n]).

(** UxAS_TimerManager.cpp:404-426: the worker looks at the front of the queue. *)
Definition turn (s : state) (now : Z) : state * list out :=
  match t_call s, t_queue s with
  | None, id :: q =>
      match zget (t_timers s) id with
      | Some x =>
          if x_due x <=? now then
            (setCall (setQueue (setTimers s (zset (t_timers s) id
               {| x_due := x_due x; x_period := x_period x; x_exec := true; x_off := x_off x;
                  x_doomed := x_doomed x |})) q) (Some id), [OutCall id])
          else (s, [])
      | None => (broken s, [])
      end
  | _, _ => (s, [])
  end.

(** UxAS_TimerManager.cpp:428-464: the callback has returned.  Changing the time of a timer that
    is in the queue breaks the order of the multiset. *)
Definition done (s : state) : state * list out :=
  match t_call s with
  | None => (s, [])
  | Some id =>
      match zget (t_timers s) id with
      | None => (broken s, [])
      | Some x =>
          let s := setCall s None in
          let put due off := zset (t_timers s) id
            {| x_due := due; x_period := x_period x; x_exec := false; x_off := off;
               x_doomed := x_doomed x |} in
          if x_doomed x then
            let s' := setTimers s (zdel (t_timers s) id) in
            (if zin id (t_queue s) then broken s' else s', [])
          else if x_off x then (setTimers s (put (x_due x) true), [])
          else if 0 <? x_period x then
            let m := put (x_due x + x_period x) false in
            let s' := setQueue (setTimers s m) (enqueue m id (t_queue s)) in
            (if zin id (t_queue s) then broken s' else s', [])
          else (setTimers s (put (x_due x) true), [])
      end
  end.

(** UxAS_TimerManager.cpp:56-88 and 112-124. *)
Definition tstep (s : state) (e : event) : state * list out :=
  if t_ub s then (s, []) else
  match e with
  | EvCreate => createTimer s
  | EvSingle id delay now w => startTimer s id delay 0 now w
  | EvPeriodic id delay period now w =>
      if 0 <? period then startTimer s id delay period now w else (s, [OutBool false])
  | EvActive id => (s, [OutBool (isActive s id)])
  | EvDisable id => let (s', b) := stopTimer s id false in (s', [OutBool b])
  | EvDestroy id => let (s', b) := stopTimer s id true in (s', [OutBool b])
  | EvDestroyAll ids timeout => destroyTimers s ids timeout
  | EvTurn now => turn s now
  | EvDone => done s
  end.

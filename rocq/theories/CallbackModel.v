(** Model of the callback timer (src/cpp/Utilities/CallbackTimer.cpp, CallbackTimer.h).

    A timer has a thread of its own that looks at the clock, at a command and at an argument, and calls
    a function when its time is over.  The functions of the timer, called from another thread, change
    the command and the argument.  Each access to the three shared variables is under a mutex and is
    one step here; steps of the two threads alternate in any order.  Each step has a time stamp.

    Simplifications: one thread calls the functions of the timer (the calls that the called back
    function makes are those that happen between [Calling] and the next step of the timer's thread,
    apart from waiting for the end of its own thread); clocks are whole nanoseconds; the function that
    is called back is a number; console output is left out. *)
From Coq Require Import List ZArith Bool.
Import ListNotations.
Open Scope list_scope.
Open Scope Z_scope.

(** CallbackTimer.h:83-90 (enTimerCommands) *)
Inductive command := NoCommand | KillIt | CancelIt | ResetIt | ExtendIt.
(** CallbackTimer.h:92-97 (enReturnValue); the error is never used. *)
Inductive result := Normal | Cancelled.

(** The functions of the timer: CallbackTimer.cpp:44-108. *)
Inductive call :=
| Start (time f : Z)
| Reset
| Extend (time : Z)
| Cancel
| Kill
| Destroy.

(** Where the calling thread is.  Waiting for the end of the thread is followed by making a new one or,
    in the destructor, by nothing. *)
Inductive caller :=
| Free
| Asking (c : call)                              (* about to ask whether the thread runs *)
| Argument (time : Z)                            (* about to set the argument of ExtendTime *)
| Telling (k : command) (next : option (option (Z * Z)))  (* about to set the command *)
| Again (time f : Z)                             (* KillTimer within StartCallbackTimer *)
| Joining (next : option (Z * Z))
| Marking (time f : Z)                           (* about to say that the thread runs *)
| Making (time f : Z)                            (* about to make the thread *)
| Gone.

(** Where the thread of the timer is: CallbackTimer.cpp:110-171. *)
Inductive place :=
| Begin                  (* about to read the clock for the first time *)
| Check                  (* while (get_isThreadRunning()) *)
| Look                   (* about to read the clock *)
| Switch (elapsed : Z)   (* about to read the command *)
| Calling (r : result)   (* about to call the function *)
| Back                   (* the function has returned after the time was over *)
| Stop                   (* about to say that the thread does not run *)
| Clear                  (* about to clear the command *)
| Restart                (* about to read the clock for ResetTime *)
| Amount (elapsed : Z)   (* about to read the argument *)
| Later (time : Z)       (* about to read the clock for ExtendTime *)
| Clear2                 (* about to clear the command of ExtendTime *)
| Clear3                 (* about to clear its argument *)
| Done.

(** The local variables of CallbackTimerExecutitve (CallbackTimer.cpp:110-113). *)
Record thread := { func : Z; start : Z; timeout : Z; at_ : place }.

(** CallbackTimer.h:205-220 *)
Record st := {
  running : bool;          (* _isThreadRunning *)
  told : command;          (* _currentCommand *)
  arg : Z;                 (* _commandArgument_1 *)
  thr : option thread;     (* _thrThread *)
  who : caller
}.
(** CallbackTimer.h:207-220 *)
Definition init : st := {| running := false; told := NoCommand; arg := 0; thr := None; who := Free |}.

(** What can be seen from outside: a call of the function, that a new thread was made, that a function
    of the timer has returned. *)
Inductive out := Called (f : Z) (r : result) | Made (time f : Z) | Returned.

(** A step of the thread of the timer, or of the thread that uses it.  If no call is in progress the
    step begins the call [c], otherwise it goes on with the one in progress. *)
Inductive actor := Timer | User (c : call).
Definition ev := (Z * actor)%type.

(** CallbackTimer.cpp:64, 93: the argument of ExtendTime is a [uint32_t]. *)
Definition uint32 (x : Z) : Z := x mod 4294967296.

Section Timer.
  Context (periodic : bool).

  Definition set_who (s : st) (w : caller) : st :=
    {| running := running s; told := told s; arg := arg s; thr := thr s; who := w |}.
  Definition set_told (s : st) (k : command) : st :=
    {| running := running s; told := k; arg := arg s; thr := thr s; who := who s |}.
  Definition set_running (s : st) (b : bool) : st :=
    {| running := b; told := told s; arg := arg s; thr := thr s; who := who s |}.
  Definition set_arg (s : st) (x : Z) : st :=
    {| running := running s; told := told s; arg := x; thr := thr s; who := who s |}.
  Definition set_thr (s : st) (t : thread) : st :=
    {| running := running s; told := told s; arg := arg s; thr := Some t; who := who s |}.

  (** The thread has ended or there is none: [_thrThread->join()] returns (CallbackTimer.cpp:47-53, 98-104). *)
  Definition over (s : st) : bool :=
    match thr s with None => true | Some t => match at_ t with Done => true | _ => false end end.

  Definition go (t : thread) (p : place) : thread :=
    {| func := func t; start := start t; timeout := timeout t; at_ := p |}.
  Definition since (t : thread) (now : Z) : thread :=
    {| func := func t; start := now; timeout := timeout t; at_ := at_ t |}.

  (** One step of CallbackTimerExecutitve (CallbackTimer.cpp:110-171); durations are cut to whole
      milliseconds (:117). *)
  Definition timer_step (now : Z) (s : st) (t : thread) : st * list out :=
    match at_ t with
    | Begin => (set_thr s (go (since t now) Check), [])
    | Check => (set_thr s (go t (if running s then Look else Done)), [])
    | Look =>
        let elapsed := Z.quot (now - start t) 1000000 in
        (set_thr s (go t (if elapsed <? timeout t then Switch elapsed else Calling Normal)), [])
    | Switch elapsed =>
        (set_thr s (go t (match told s with
                          | NoCommand => Check
                          | KillIt => Stop
                          | CancelIt => Calling Cancelled
                          | ResetIt => Restart
                          | ExtendIt => Amount elapsed
                          end)), [])
    | Calling r => (set_thr s (go t (match r with Normal => Back | Cancelled => Stop end)), [Called (func t) r])
    | Back =>
        if periodic then (set_thr s (go (since t now) Check), [])
        else (set_thr (set_running s false) (go t Check), [])
    | Stop => (set_thr (set_running s false) (go t Clear), [])
    | Clear => (set_thr (set_told s NoCommand) (go t Check), [])
    | Restart => (set_thr s (go (since t now) Clear), [])
    | Amount elapsed =>
        (set_thr s (go t (if timeout t - elapsed <? arg s then Later (arg s) else Clear2)), [])
    | Later time =>
        (set_thr s {| func := func t; start := now; timeout := time; at_ := Clear2 |}, [])
    | Clear2 => (set_thr (set_told s NoCommand) (go t Clear3), [])
    | Clear3 => (set_thr (set_arg s 0) (go t Check), [])
    | Done => (s, [])
    end.

  (** What follows once a command is set. *)
  Definition follow (s : st) (next : option (option (Z * Z))) : st * list out :=
    match next with
    | None => (set_who s Free, [Returned])
    | Some j => (set_who s (Joining j), [])
    end.

  (** One step of the thread that uses the timer (CallbackTimer.cpp:44-108). *)
  Definition user_step (s : st) (c : call) : st * list out :=
    match who s with
    | Free => (set_who s (Asking c), [])
    | Asking (Start time f) =>
        (set_who s (if running s then Asking (Extend time) else Again time f), [])
    | Asking (Extend time) =>
        if running s then (set_who s (Argument (uint32 time)), []) else (set_who s Free, [Returned])
    | Asking Destroy =>
        (set_who s (if running s then Telling KillIt (Some None) else Joining None), [])
    | Asking c' =>
        if running s
        then (set_who s (Telling (match c' with Reset => ResetIt | Cancel => CancelIt | _ => KillIt end) None), [])
        else (set_who s Free, [Returned])
    | Argument time => (set_who (set_arg s time) (Telling ExtendIt None), [])
    | Telling k next => follow (set_told s k) next
    | Again time f =>
        (set_who s (if running s then Telling KillIt (Some (Some (time, f))) else Joining (Some (time, f))), [])
    | Joining next =>
        if over s
        then match next with
             | None => (set_who s Gone, [Returned])
             | Some (time, f) => (set_who s (Marking time f), [])
             end
        else (s, [])
    | Marking time f => (set_who (set_running s true) (Making time f), [])
    | Making time f =>
        (set_who (set_thr s {| func := f; start := 0; timeout := time; at_ := Begin |}) Free, [Made time f; Returned])
    | Gone => (s, [])
    end.

  Definition step (s : st) (e : ev) : st * list out :=
    match snd e with
    | Timer => match thr s with None => (s, []) | Some t => timer_step (fst e) s t end
    | User c => user_step s c
    end.
End Timer.

(** Model of src/cpp/Services/SerialAutomationRequestTestService.cpp.

    The response timer is one timer of the timer manager, started for [m_maxResponseTime_ms].  The
    timer manager refuses to start a timer on its own thread (UxAS_TimerManager.cpp:214, see
    TimerModel), so the start at line 129 has an effect only if OnResponseTimeout was called from
    processReceivedLmcpMessage, not if the timer called it.  The service and the timer thread share
    the queue without a lock; here each call is one step. *)
From Coq Require Import List ZArith Bool.
Import ListNotations.
Open Scope list_scope.
Open Scope Z_scope.

Inductive event :=
| EvRequest (r : Z)       (* an AutomationRequest or ImpactAutomationRequest *)
| EvResponse              (* an AutomationResponse or ImpactAutomationResponse *)
| EvTimeout.              (* the timer expires: only while it is started *)

Inductive output := OutForward (r : Z).   (* sent to "UniqueAutomationRequest" *)

(** m_waitingRequests, m_isAllClear (h:136-137) and whether the timer is started. *)
Record state := { waiting : list Z; clear : bool; armed : bool }.

Definition init : state := {| waiting := []; clear := true; armed := false |}.

(** OnResponseTimeout (116-131); [restart]: the caller is not the timer thread. *)
Definition release (restart : bool) (s : state) : state * list output :=
  match waiting s with
  | [] => ({| waiting := []; clear := true; armed := armed s |}, [])
  | r :: rest => ({| waiting := rest; clear := clear s; armed := restart || armed s |}, [OutForward r])
  end.

(** processReceivedLmcpMessage (90-114). *)
Definition step (s : state) (e : event) : state * list output :=
  match e with
  | EvRequest r =>
      if (match waiting s with [] => true | _ => false end) && clear s
      then ({| waiting := waiting s; clear := false; armed := true |}, [OutForward r])
      else ({| waiting := waiting s ++ [r]; clear := clear s; armed := armed s |}, [])
  | EvResponse => release true s
  | EvTimeout =>
      if armed s then release false {| waiting := waiting s; clear := clear s; armed := false |}
      else (s, [])
  end.

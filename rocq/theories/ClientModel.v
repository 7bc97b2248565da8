(** Model of the thread of a service or bridge,
    src/cpp/Communications/LmcpObjectNetworkClientBase.cpp:275-441.

    The subclass is arbitrary: every event carries what the subclass answers, should it be asked.
    Receiving a message is an event; waiting without one is not.  A payload that cannot be
    unpacked is not modelled; for a plain client it counts as no message (290-293). *)
From Coq Require Import List ZArith Bool.
Import ListNotations.
Open Scope list_scope.
Open Scope Z_scope.

(** What a call of the subclass does: return false, return true, throw. *)
Inductive answer := Again | Yes | Throws.

(** Messages: KillService with a service id, or another. *)
Inductive msg := Kill (id : Z) | Other (k : Z).

Inductive event :=
| EvMsg (m : msg) (r : answer)
| EvTry (r : answer).

(** A message is handed to the subclass; a warning or an error is logged after so many
    milliseconds; the thread ends and from now on [getIsTerminationFinished] (h:297) is
    [finished]. *)
Inductive out :=
| OutGiven (m : msg)
| OutWarn (ms : Z)
| OutAbort (ms : Z)
| OutExit (finished : bool).

Inductive phase := Run | Term (ms : Z) | Gone.

(** The parameters: the id of the client, whether KillService is looked at here
    (LmcpObjectNetworkClientBase.h:505), and the durations of h:510-512. *)
Record config := { k_id : Z; k_kill : bool; k_abort : Z; k_warn : Z; k_period : Z }.

(** The 32 bit counter of cpp:323 and 408. *)
Definition u32 (x : Z) : Z := x mod 4294967296.

Section Client.
  Context (k : config).

  (** cpp:302-310.  The subclass is asked only if the message does not kill this client;
      exceptions are caught inside the loop (313-316). *)
  Definition handlePlain (m : msg) (r : answer) : phase * list out :=
    if k_kill k && match m with Kill id => id =? k_id k | Other _ => false end
    then (Term 0, [])
    else match r with
         | Yes => (Term 0, [OutGiven m])
         | Again | Throws => (Run, [OutGiven m])
         end.

  (** cpp:382-400.  A KillService for someone else is dropped.  Exceptions leave the loop and end
      the thread (434-437) before [m_isBaseClassTerminationFinished] is set. *)
  Definition handleSerialized (m : msg) (r : answer) : phase * list out :=
    match k_kill k, m with
    | true, Kill id => if id =? k_id k then (Term 0, []) else (Run, [])
    | _, _ =>
        match r with
        | Yes => (Term 0, [OutGiven m])
        | Again => (Run, [OutGiven m])
        | Throws => (Gone, [OutGiven m; OutExit false])
        end
    end.

  (** cpp:326-343 and 411-429: one attempt to end the subclass.  Only the serialized variant
      counts an aborted subclass as finished.  An exception ends the thread. *)
  Definition attempt (serialized : bool) (ms : Z) (r : answer) : phase * list out :=
    match r with
    | Yes => (Gone, [OutExit true])
    | Throws => (Gone, [OutExit false])
    | Again =>
        let ms := u32 (ms + k_period k) in
        if k_warn k <? ms then (Term ms, [OutWarn ms])
        else if k_abort k <? ms then (Gone, [OutAbort ms; OutExit serialized])
        else (Term ms, [])
    end.

  (** cpp:283-345 (plain) and 362-431 (serialized). *)
  Definition cstep (serialized : bool) (s : phase) (e : event) : phase * list out :=
    match s, e with
    | Run, EvMsg m r => if serialized then handleSerialized m r else handlePlain m r
    | Term ms, EvTry r => attempt serialized ms r
    | _, _ => (s, [])
    end.
End Client.

(** Model of src/cpp/Services/ServiceManager.cpp and of the ids of network clients in
    src/cpp/Communications/LmcpObjectNetworkClientBase.{h,cpp}.

    The sequences of events are the interleavings of the thread that handles the messages of the
    service manager, the main thread in [runUntil] and the threads of the services.  Each event
    is atomic: the lock [m_servicesByIdMutex] is not taken around the insertion in
    [createService] (ServiceManager.cpp:344), so this is a simplification.  Bridges
    (ServiceManager.cpp:280, 557) are left out: there are none. *)
From Coq Require Import List ZArith Bool.
From Verif Require Import ZMap.
Import ListNotations.
Open Scope list_scope.
Open Scope Z_scope.

Definition u32 (z : Z) : Z := z mod 2 ^ 32.

(** LmcpObjectNetworkClientBase.cpp:32-37: [m_networkId = s_nextNetworkClientId++]; the id and
    the counter after it. *)
Definition construct (next : Z) : Z * Z := (next, u32 (next + 1)).

(** LmcpObjectNetworkClientBase.h:226-230: [s_nextNetworkClientId++; return it]. *)
Definition reserve (next : Z) : Z * Z := (u32 (next + 1), u32 (next + 1)).

(** The kinds of draws from the counter: a client that keeps the id it was constructed with, a
    client that is given another id (ServiceManager.cpp:447-451) or is thrown away, a
    reservation. *)
Inductive draw := Keep | Drop | Reserve.

(** The ids given for a sequence of draws. *)
Fixpoint draws (next : Z) (l : list draw) : list (draw * Z) :=
  match l with
  | [] => []
  | d :: l' =>
      let (id, next') := match d with Reserve => reserve next | _ => construct next end in
      (d, id) :: draws next' l'
  end.

(** A service object and its id. *)
Record svc := { v_uid : Z; v_id : Z }.

(** How the creation of a service goes: the XML or the type is refused before an object exists
    (ServiceManager.cpp:402-416, 464-467), configuring or starting fails (456-463), or it
    works. *)
Inductive outcome := Refused | Failed | Works.

Inductive event :=
| EvConstruct                        (* some other network client is constructed *)
| EvReserve                          (* getUniqueNetworkClientId *)
| EvCreate (id : Z) (oc : outcome)   (* CreateNewService, or -1 and a configured service *)
| EvKill (id : Z)                    (* KillService *)
| EvFinish (uid : Z)                 (* the thread of a service has ended *)
| EvSweep                            (* one turn of a loop in runUntil *)
| EvExpire.                          (* the run duration is over *)

Inductive out :=
| OutId (id : Z)
| OutStarted (uid id : Z)
| OutDestroyed (uid : Z)             (* the object is destroyed while its thread runs *)
| OutResult (ok : bool)
| OutKill (id : Z)
| OutRunning (n : nat)
| OutExit.

(** ServiceManager.h:150-160: [g_map] is m_servicesById, [g_term] m_isServiceManagerTermination,
    [g_up] not m_isTerminateNetworkClient.  [g_done] are the objects for which
    getIsTerminationFinished holds, [g_left] the sweeps left after the duration is over,
    [g_exit] whether runUntil has returned. *)
Record state := {
  g_map : zmap svc; g_done : list Z; g_next : Z; g_uid : Z;
  g_term : bool; g_up : bool; g_left : option nat; g_exit : bool }.

Section Manager.
  (** [own] is the id of the service manager, [ord] the order in which the map is iterated
      over. *)
  Context (own : Z) (ord : zmap svc -> list (Z * svc)).

  Definition ginit (next : Z) : state :=
    {| g_map := []; g_done := []; g_next := next; g_uid := 0;
       g_term := false; g_up := true; g_left := None; g_exit := false |}.

  Definition setMap (s : state) m : state :=
    {| g_map := m; g_done := g_done s; g_next := g_next s; g_uid := g_uid s;
       g_term := g_term s; g_up := g_up s; g_left := g_left s; g_exit := g_exit s |}.

  Definition setNext (s : state) n : state :=
    {| g_map := g_map s; g_done := g_done s; g_next := n; g_uid := g_uid s;
       g_term := g_term s; g_up := g_up s; g_left := g_left s; g_exit := g_exit s |}.

  (** LmcpObjectNetworkClientBase.h:297. *)
  Definition finished (s : state) (v : svc) : bool := zin (v_uid v) (g_done s).

  (** ServiceManager.cpp:323-351 and 396-473. *)
  Definition createService (s : state) (id : Z) (oc : outcome) : state * list out :=
    match oc with
    | Refused => (s, [OutResult false])
    | Failed => (setNext s (snd (construct (g_next s))), [OutResult false])
    | Works =>
        let (temp, next) := construct (g_next s) in
        let v := {| v_uid := g_uid s; v_id := if 0 <? id then id else temp |} in
        let key := u32 (v_id v) in
        let s' := {| g_map := g_map s; g_done := g_done s; g_next := next;
                     g_uid := g_uid s + 1; g_term := g_term s; g_up := g_up s;
                     g_left := g_left s; g_exit := g_exit s |} in
        match zget (g_map s) key with
        | Some _ => (s', [OutStarted (v_uid v) (v_id v); OutDestroyed (v_uid v); OutResult true])
        | None => (setMap s' (zset (g_map s) key v),
                   [OutStarted (v_uid v) (v_id v); OutResult true])
        end
    end.

  (** ServiceManager.cpp:554-585. *)
  Definition terminateAll (s : state) : list out :=
    map (fun p => OutKill (v_id (snd p)))
        (filter (fun p => negb (finished s (snd p))) (ord (g_map s))).

  (** LmcpObjectNetworkClientBase.cpp:302-310 and ServiceManager.cpp:533-549.  The base class
      comes first. *)
  Definition killService (s : state) (id : Z) : state * list out :=
    if id =? own then
      ({| g_map := g_map s; g_done := g_done s; g_next := g_next s; g_uid := g_uid s;
          g_term := g_term s; g_up := false; g_left := g_left s; g_exit := g_exit s |}, [])
    else if id =? -1 then
      ({| g_map := g_map s; g_done := g_done s; g_next := g_next s; g_uid := g_uid s;
          g_term := true; g_up := false; g_left := g_left s; g_exit := g_exit s |},
       terminateAll s)
    else (s, []).

  (** ServiceManager.cpp:256-284. *)
  Definition sweep (s : state) : state * nat :=
    let m := filter (fun p => negb (finished s (snd p))) (g_map s) in
    (setMap s m, length m).

  (** ServiceManager.cpp:154: runUntil ends and stops the message thread. *)
  Definition leave (s : state) : state :=
    {| g_map := g_map s; g_done := g_done s; g_next := g_next s; g_uid := g_uid s;
       g_term := g_term s; g_up := false; g_left := g_left s; g_exit := true |}.

  (** ServiceManager.cpp:110-146: one turn of the first or the second loop. *)
  Definition turn (s : state) : state * list out :=
    if g_exit s then (s, []) else
    let (s', n) := sweep s in
    match g_left s with
    | None =>
        if g_term s && (n =? 0)%nat then (leave s', [OutRunning n; OutExit])
        else (s', [OutRunning n])
    | Some k =>
        if (n =? 0)%nat || (k <=? 1)%nat then (leave s', [OutRunning n; OutExit])
        else ({| g_map := g_map s'; g_done := g_done s'; g_next := g_next s'; g_uid := g_uid s';
                 g_term := g_term s'; g_up := g_up s'; g_left := Some (k - 1)%nat;
                 g_exit := g_exit s' |}, [OutRunning n])
    end.

  (** ServiceManager.cpp:111 and 126-131: the first loop ends because the time is over. *)
  Definition expire (s : state) : state * list out :=
    if g_exit s then (s, []) else
    match g_left s with
    | Some _ => (s, [])
    | None =>
        if g_term s then (leave s, [OutExit])
        else ({| g_map := g_map s; g_done := g_done s; g_next := g_next s; g_uid := g_uid s;
                 g_term := g_term s; g_up := g_up s; g_left := Some 20%nat;
                 g_exit := g_exit s |}, terminateAll s)
    end.

  Definition gstep (s : state) (e : event) : state * list out :=
    match e with
    | EvConstruct => let (id, n) := construct (g_next s) in (setNext s n, [OutId id])
    | EvReserve => let (id, n) := reserve (g_next s) in (setNext s n, [OutId id])
    | EvCreate id oc => if g_up s then createService s id oc else (s, [])
    | EvKill id => if g_up s then killService s id else (s, [])
    | EvFinish uid =>
        ({| g_map := g_map s; g_done := uid :: g_done s; g_next := g_next s; g_uid := g_uid s;
            g_term := g_term s; g_up := g_up s; g_left := g_left s; g_exit := g_exit s |}, [])
    | EvSweep => turn s
    | EvExpire => expire s
    end.
End Manager.

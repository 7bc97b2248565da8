(** Model of src/cpp/Tasks/AssignmentCoordinatorTaskService.cpp.

    The base class (TaskServiceBase) and the timer are not modelled: a call of the timer is an event with
    the time it reads.  Headings and positions of a planning state are one number, and so is what an
    automation request holds besides its entities. *)
From Coq Require Import List ZArith Bool.
From Verif Require Import ZMap.
Import ListNotations.
Open Scope list_scope.
Open Scope Z_scope.

(** PlanningState (UXTASK.xml:52-62). *)
Record pstate := { p_entity : Z; p_where : Z }.

(** CoordinatedAutomationRequest (UXTASK.xml:76-94): its id, the entities of the original request, what
    else the original request holds ([None] if it was made by the default constructor) and the maximum
    response time. *)
Record request := { r_id : Z; r_entities : list Z; r_body : option Z; r_max : Z }.

(** What std::make_shared<CoordinatedAutomationRequest>() yields. *)
Definition default_request : request := {| r_id := 0; r_entities := []; r_body := None; r_max := -1 |}.

(** struct CoordinationElements (h:140-144). *)
Record elements := { e_request : request; e_states : zmap pstate }.

Record state := {
  last : option Z;                 (* m_lastLocalEntityState *)
  elems : zmap elements;           (* m_requestIdVsCoordinationElements *)
  deadlines : list (Z * Z) }.      (* m_maxTimeVsCoordinatedAutomationRequestId, in its order *)

Definition init : state := {| last := None; elems := []; deadlines := [] |}.

Inductive event :=
| VehicleState (id w : Z)                (* AirVehicleState *)
| Report (rid : Z) (p : pstate)          (* AssignmentCoordination *)
| Request (r : request) (now : Z)        (* CoordinatedAutomationRequest *)
| Response (rid : Z) (resp : Z)          (* TaskAutomationResponse with its original response *)
| Tick (now : Z).                        (* CheckForAssignmentTimeMax *)

Inductive out :=
| OutReport (rid : Z) (p : pstate)
| OutTask (rid : Z) (entities : list Z) (body : option Z) (states : list pstate)
| OutResponse (resp : Z).

Definition set_elems (s : state) (m : zmap elements) : state :=
  {| last := last s; elems := m; deadlines := deadlines s |}.

(** operator[] after the insertion of an empty entry if there was none (cpp:144-147, 158-161). *)
Definition entry (s : state) (rid : Z) : elements :=
  match zget (elems s) rid with
  | Some x => x
  | None => {| e_request := default_request; e_states := [] |}
  end.

(** std::multimap::insert: after the entries with the same key. *)
Fixpoint insert (d rid : Z) (l : list (Z * Z)) : list (Z * Z) :=
  match l with
  | [] => [(d, rid)]
  | x :: l' => if d <? fst x then (d, rid) :: l else x :: insert d rid l'
  end.

Section Coord.
  (** The id of this entity, and the order in which an unordered_map is traversed. *)
  Context (me : Z) (ord : list pstate -> list pstate).

  (** CheckAssignmentReady (cpp:208-252). *)
  Definition checkReady (s : state) (rid : Z) : state * list out :=
    match zget (elems s) rid with
    | None => (s, [])
    | Some x =>
        if (rid =? r_id (e_request x)) && forallb (zhas (e_states x)) (r_entities (e_request x))
        then (set_elems s (zdel (elems s) rid),
              [OutTask rid (r_entities (e_request x)) (r_body (e_request x)) (ord (map snd (e_states x)))])
        else (s, [])
    end.

  (** cpp:140-154. *)
  Definition onReport (s : state) (rid : Z) (p : pstate) : state * list out :=
    let x := entry s rid in
    let s := set_elems s (zset (elems s) rid {| e_request := e_request x; e_states := zset (e_states x) (p_entity p) p |}) in
    checkReady s rid.

  (** cpp:155-192.  [insert] keeps a planning state that is there already. *)
  Definition onRequest (s : state) (r : request) (now : Z) : state * list out :=
    let x := entry s (r_id r) in
    let d := insert (now + r_max r) (r_id r) (deadlines s) in
    let '(states, o) :=
      match last s with
      | Some w =>
          let p := {| p_entity := me; p_where := w |} in
          (if zhas (e_states x) me then e_states x else zset (e_states x) me p, [OutReport (r_id r) p])
      | None => (e_states x, [])
      end in
    let s := {| last := last s; elems := zset (elems s) (r_id r) {| e_request := r; e_states := states |}; deadlines := d |} in
    let '(s, o') := checkReady s (r_id r) in
    (s, o ++ o').

  (** cpp:193-205. *)
  Definition onResponse (s : state) (rid resp : Z) : state * list out :=
    (set_elems s (zdel (elems s) rid), [OutResponse resp]).

  (** cpp:281-299: one entry whose time has passed.  The entry of the request is not erased. *)
  Definition expire (s : state) (rid : Z) : list out :=
    match zget (elems s) rid with
    | None => []
    | Some x =>
        let l := ord (map snd (e_states x)) in
        [OutTask rid (map p_entity l) (r_body (e_request x)) l]
    end.

  (** CheckForAssignmentTimeMax (cpp:267-304).  The keys below the time are a prefix of the multimap. *)
  Definition onTick (s : state) (now : Z) : state * list out :=
    let gone := filter (fun x => fst x <? now) (deadlines s) in
    ({| last := last s; elems := elems s; deadlines := filter (fun x => negb (fst x <? now)) (deadlines s) |},
     flat_map (fun x => expire s (snd x)) gone).

  (** processReceivedLmcpMessageTask (cpp:129-206). *)
  Definition step (s : state) (ev : event) : state * list out :=
    match ev with
    | VehicleState id w =>
        (if id =? me then {| last := Some w; elems := elems s; deadlines := deadlines s |} else s, [])
    | Report rid p => onReport s rid p
    | Request r now => onRequest s r now
    | Response rid resp => onResponse s rid resp
    | Tick now => onTick s now
    end.
End Coord.

(** Model of how a rendezvous finds out when its vehicles arrive, /repo/src/cpp/Tasks/RendezvousTask.cpp:93-186
    (processReceivedLmcpMessageTask, updateStartTimes) and 397-458 (the first part of isProcessTaskImplementationRouteResponse).

    The order in which the map of selected options is gone through is a parameter.  Times are not limited to 64 bits.  The messages are
    those that reach the task: the task also gets the requests that are its own. *)
From Coq Require Import List ZArith Bool.
From Verif Require Import ZMap.
Import ListNotations.
Open Scope list_scope.
Open Scope Z_scope.

(** One entry of an assignment. *)
Record assign := { a_task : Z; a_option : Z; a_vehicle : Z }.
(** One entry of a cost matrix. *)
Record cost := { c_vehicle : Z; c_from : Z; c_from_option : Z; c_to : Z; c_to_option : Z; c_time : Z }.

Inductive ev :=
| Summary (r : Z) (l : list assign)
| Matrix (r : Z) (l : list cost)
| Request (r v t start : Z)
| Response (r v t final : Z)
| Answer (r : Z).

(** RendezvousTask.h: the maps by request; start times and marks by request and vehicle.  A missing inner map is the same as an empty
    one: 402-405 return in both cases. *)
Record state := { summaries : zmap (list assign); matrices : zmap (list cost); starts : Z -> zmap Z; met : Z -> list Z }.
Definition init : state := {| summaries := []; matrices := []; starts := fun _ => []; met := fun _ => [] |}.

Definition at_key {A} (f : Z -> A) (k : Z) (x : A) : Z -> A := fun j => if j =? k then x else f j.

(** 164-166: vehicles of the assignment without a start time. *)
Fixpoint fill (l : list assign) (start : Z) (m : zmap Z) : zmap Z :=
  match l with
  | [] => m
  | a :: l => fill l start (if zhas m (a_vehicle a) then m else zset m (a_vehicle a) start)
  end.

(** 131-167. *)
Definition on_request (task : Z) (s : state) (r v t start : Z) : state :=
  let seen := zin v (met s r) in
  let m := if seen then starts s r else zset (starts s r) v start in
  let k := if seen then met s r else if t =? task then v :: met s r else met s r in
  let m := match zget (summaries s) r with Some l => fill l start m | None => m end in
  {| summaries := summaries s; matrices := matrices s; starts := at_key (starts s) r m; met := at_key (met s) r k |}.

(** 169-186. *)
Definition on_response (task : Z) (s : state) (r v t final : Z) : state :=
  if negb (t =? task) && negb (zin v (met s r)) then
    {| summaries := summaries s; matrices := matrices s; starts := at_key (starts s) r (zset (starts s r) v final); met := met s |}
  else s.

(** 93-126. *)
Definition step (task : Z) (s : state) (e : ev) : state :=
  match e with
  | Summary r l => {| summaries := zset (summaries s) r l; matrices := matrices s; starts := starts s; met := met s |}
  | Matrix r l => {| summaries := summaries s; matrices := zset (matrices s) r l; starts := starts s; met := met s |}
  | Request r v t start => on_request task s r v t start
  | Response r v t final => on_response task s r v t final
  | Answer r => {| summaries := zdel (summaries s) r; matrices := zdel (matrices s) r; starts := at_key (starts s) r []; met := met s |}
  end.
Definition run (task : Z) (evs : list ev) : state := fold_left (step task) evs init.

(** 408-420: the option of each vehicle for the task, and what the vehicle does before. *)
Fixpoint selected (task : Z) (l : list assign) (sel : zmap Z) (prev : zmap (Z * Z)) : zmap Z * zmap (Z * Z) :=
  match l with
  | [] => (sel, prev)
  | a :: l => if a_task a =? task then selected task l (zset sel (a_vehicle a) (a_option a)) prev
              else if zhas sel (a_vehicle a) then selected task l sel prev
              else selected task l sel (zset prev (a_vehicle a) (a_task a, a_option a))
  end.

(** 435-439. *)
Definition matches (task v o : Z) (before : Z * Z) (c : cost) : bool :=
  (c_vehicle c =? v) && (c_to c =? task) && (c_to_option c =? o) && (c_from c =? fst before) && (c_from_option c =? snd before).

(** 433-457: the costs of one vehicle. *)
Fixpoint through_costs (task v o : Z) (before : Z * Z) (start : Z) (l : list cost) (best : Z * Z) : Z * Z :=
  match l with
  | [] => best
  | c :: l => through_costs task v o before start l
                (if matches task v o before c then if fst best <? c_time c + start then (c_time c + start, v) else best else best)
  end.

(** 424-458: the vehicles; [now] is the time of the state of the vehicle that is asked for, used for those without a start time. *)
Fixpoint through_vehicles (task now : Z) (sel : list (Z * Z)) (prev : zmap (Z * Z)) (st : zmap Z) (l : list cost) (best : Z * Z) : Z * Z :=
  match sel with
  | [] => best
  | (v, o) :: sel =>
    let before := match zget prev v with Some p => p | None => (0, 0) end in
    let start := match zget st v with Some t => t | None => now end in
    through_vehicles task now sel prev st l (through_costs task v o before start l best)
  end.

Section Order.
  (** The order in which the map from vehicles to options is gone through. *)
  Context (order : list (Z * Z) -> list (Z * Z)).

  (** 397-458: the latest arrival, the vehicle that is latest, and the start time of the vehicle that is asked for. *)
  Definition latest (task : Z) (s : state) (r v now : Z) : option (Z * Z * Z) :=
    match zget (summaries s) r, zget (matrices s) r, zget (starts s r) v with
    | Some l, Some m, Some t =>
      let (sel, prev) := selected task l [] [] in
      Some (through_vehicles task now (order sel) prev (starts s r) m (0, 0), t)
    | _, _, _ => None
    end.
End Order.

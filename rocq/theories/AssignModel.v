(** Model of src/cpp/Services/AssignmentTreeBranchBoundBase.{h,cpp}: the tables built from
    the messages and the branch and bound search.  All times are unbounded integers; 64 bit
    overflow is not modelled. *)
From Coq Require Import List Arith ZArith Bool.
From Verif Require Import AlgebraModel.
Import ListNotations.
Open Scope list_scope.
Open Scope Z_scope.

(** AssignmentTreeBranchBoundBase.h:182-185. *)
Definition packId (task option : Z) : Z := task * 100000 + option.

(** AssignmentTreeBranchBoundBase.h:186-188; division of [int64_t] rounds towards zero. *)
Definition getTaskID (id : Z) : Z := Z.quot id 100000.

(** AssignmentTreeBranchBoundBase.h:190-192. *)
Definition getOptionID (id : Z) : Z := Z.rem id 100000.

(** The fields of a TaskOption message that are used. *)
Record taskOption := {
  to_task : Z;
  to_option : Z;
  to_eligible : list Z;
  to_cost : Z
}.

(** The fields of a TaskOptionCost message that are used. *)
Record costEntry := {
  ce_vehicle : Z;
  ce_fromTask : Z;
  ce_fromOption : Z;
  ce_toTask : Z;
  ce_toOption : Z;
  ce_time : Z
}.

(** AssignmentTreeBranchBoundBase.cpp:515-531, [m_taskOptionIdVsInformation]: whether there
    is an entry for an option. *)
Definition optionKnown (opts : list taskOption) (id : Z) : bool :=
  existsb (fun o => packId (to_task o) (to_option o) =? id) opts.

(** AssignmentTreeBranchBoundBase.cpp:515-531 and 643-652,
    [c_TaskInformationStatic::getTravelTime_ms]: later entries overwrite earlier ones, -1
    if there is none. *)
Definition taskTime (opts : list taskOption) (id vehicle : Z) : Z :=
  fold_left (fun t o =>
    if (packId (to_task o) (to_option o) =? id) && existsb (Z.eqb vehicle) (to_eligible o)
    then to_cost o else t) opts (-1).

(** AssignmentTreeBranchBoundBase.cpp:538-539: the place an entry starts from. *)
Definition entryFrom (e : costEntry) : Z :=
  let f := packId (ce_fromTask e) (ce_fromOption e) in
  if f =? 0 then ce_vehicle e else f.

(** AssignmentTreeBranchBoundBase.cpp:533-557 and 626-639,
    [c_VehicleInformationStatic::getTravelTime_ms]: later entries overwrite earlier ones,
    -1 if there is none. *)
Definition travelTime (matrix : list costEntry) (vehicle from to : Z) : Z :=
  fold_left (fun t e =>
    if (ce_vehicle e =? vehicle) && (entryFrom e =? from)
       && (packId (ce_toTask e) (ce_toOption e) =? to)
    then ce_time e else t) matrix (-1).

(** AssignmentTreeBranchBoundBase.cpp:533-551: the vehicles of the search are those of the
    cost matrix. *)
Definition vehiclesOf (matrix : list costEntry) : list Z :=
  nodup Z.eq_dec (map ce_vehicle matrix).

(** A TaskAssignment message as filled in at 1035-1041. *)
Record taskAssignment := {
  ta_task : Z;
  ta_option : Z;
  ta_vehicle : Z;
  ta_threshold : Z;
  ta_completed : Z
}.

(** AssignmentTreeBranchBoundBase.h:74-118, [c_VehicleAssignmentState].
    [m_isAcceptingNewAssignments] is left out, it is never set to false. *)
Record vehicleState := {
  vs_total : Z;
  vs_tasks : list taskAssignment
}.

(** AssignmentTreeBranchBoundBase.h:212-272, [c_Node_Base].  The children are passed around
    separately.  [m_taskIdVsAssignmentState] is left out, it is only read for prerequisite
    tasks, which are never given (775: the prerequisite is always -1).  [m_isPruneable] and
    [m_isLeafNode] are left out, they only decide which finished children are freed. *)
Record node := {
  n_assigned : list Z;
  n_vehicles : list (Z * vehicleState);
  n_cost : Z
}.

(** AssignmentTreeBranchBoundBase.h:142-165, the parts of [c_StaticAssignmentParameters]
    that change during the search. *)
Record search := {
  s_cand : Z;
  s_best : list (Z * vehicleState);
  s_visited : Z;
  s_complete : Z;
  s_stop : bool
}.

Definition int64_max : Z := 9223372036854775807.

(** AssignmentTreeBranchBoundBase.h:142-156, the initial values.  The root node was counted
    in the parameters that [calculateAssignment] replaces (503). *)
Definition search0 : search :=
  {| s_cand := int64_max; s_best := []; s_visited := 0; s_complete := 0; s_stop := false |}.

Fixpoint vlookup (l : list (Z * vehicleState)) (v : Z) : option vehicleState :=
  match l with
  | [] => None
  | (w, s) :: l' => if w =? v then Some s else vlookup l' v
  end.

Fixpoint vupdate (l : list (Z * vehicleState)) (v : Z) (x : vehicleState)
  : list (Z * vehicleState) :=
  match l with
  | [] => []
  | (w, s) :: l' => if w =? v then (w, x) :: l' else (w, s) :: vupdate l' v x
  end.

(** AssignmentTreeBranchBoundBase.cpp:977-984: where the vehicle is. *)
Definition startingLocation (vehicle : Z) (s : vehicleState) : Z :=
  match rev (vs_tasks s) with
  | [] => vehicle
  | t :: _ => packId (ta_task t) (ta_option t)
  end.

(** AssignmentTreeBranchBoundBase.cpp:1119-1134, [calculateAssignmentCostBase] without
    AFRL_INTERNAL_ENABLED. *)
Definition assignmentCost (vehicles : list (Z * vehicleState)) (v total : Z) : Z :=
  fold_left (fun c ws => if negb (fst ws =? v) && (c <? vs_total (snd ws))
                         then vs_total (snd ws) else c) vehicles total.

(** [std::multimap::insert]: behind the elements with an equal key. *)
Fixpoint insertChild (c : node) (l : list node) : list node :=
  match l with
  | [] => [c]
  | d :: l' => if n_cost c <? n_cost d then c :: d :: l' else d :: insertChild c l'
  end.

Section Search.

(** The tables, the node limit and the relationship expression. *)
Variable opts : list taskOption.
Variable matrix : list costEntry.
Variable limit : Z.
Variable alg : expr.

(** The order in which the vehicles of a node are visited.  The code iterates over an
    [unordered_map] that is copied for every node, so the order may differ from node to
    node; it is a parameter here, depending on the node. *)
Variable order : node -> list Z.

(** AssignmentTreeBranchBoundBase.cpp:932-937: the test at the start of [NodeAssignment]. *)
Definition checkStop (st : search) : search :=
  if (0 <=? limit) && (limit <=? s_visited st) && (0 <? s_complete st)
  then {| s_cand := s_cand st; s_best := s_best st; s_visited := s_visited st;
          s_complete := s_complete st; s_stop := true |}
  else st.

(** AssignmentTreeBranchBoundBase.h:49-60, [m_maxVehicleTravelTime_ms] is never set. *)
Definition maxVehicleTravelTime : Z := -1.

(** AssignmentTreeBranchBoundBase.cpp:925-1070, [NodeAssignment], with the prerequisite
    always -1. *)
Definition nodeAssignment (n : node) (option vehicle : Z) (st : search) (children : list node)
  : search * list node :=
  let st := checkStop st in
  match vlookup (n_vehicles n) vehicle with
  | None => (st, children)
  | Some vs =>
      if existsb (fun e => ce_vehicle e =? vehicle) matrix && optionKnown opts option then
        let task := taskTime opts option vehicle in
        let travel := travelTime matrix vehicle (startingLocation vehicle vs) option in
        if 0 <=? travel then
          let total := task + travel + vs_total vs in
          if (maxVehicleTravelTime <? 0) || (total <? maxVehicleTravelTime) then
            (* the copy counts as a visited node *)
            let st := {| s_cand := s_cand st; s_best := s_best st;
                         s_visited := s_visited st + 1;
                         s_complete := s_complete st; s_stop := s_stop st |} in
            let cost := assignmentCost (n_vehicles n) vehicle total in
            if cost <? s_cand st then
              let ta := {| ta_task := getTaskID option; ta_option := getOptionID option;
                           ta_vehicle := vehicle; ta_threshold := 0; ta_completed := total |} in
              let child :=
                {| n_assigned := n_assigned n ++ [option];
                   n_vehicles := vupdate (n_vehicles n) vehicle
                     {| vs_total := total; vs_tasks := vs_tasks vs ++ [ta] |};
                   n_cost := cost |} in
              (st, insertChild child children)
            else (st, children)
          else (st, children)
        else (st, children)
      else (st, children)
  end.

(** AssignmentTreeBranchBoundBase.cpp:771-788, the loops of [ExpandNode] over the next
    objectives and the vehicles. *)
Definition makeChildren (n : node) (next : list Z) (st : search) : search * list node :=
  fold_left (fun sc ov => nodeAssignment n (fst ov) (snd ov) (fst sc) (snd sc))
    (list_prod next (order n)) (st, []).

(** AssignmentTreeBranchBoundBase.cpp:838-851: a new best leaf. *)
Definition leaf (n : node) (st : search) : search :=
  if n_cost n <? s_cand st then
    {| s_cand := n_cost n; s_best := n_vehicles n; s_visited := s_visited st;
       s_complete := s_complete st + 1; s_stop := s_stop st |}
  else st.

(** AssignmentTreeBranchBoundBase.cpp:761-882, [ExpandNode].  [fuel] bounds the depth of
    the recursion; [None] means that it did not suffice.  The children are freed in several
    ways at the end, which has no effect on the search. *)
Fixpoint expandNode (fuel : nat) (n : node) (st : search) : option search :=
  match fuel with
  | O => None
  | S f =>
      let next := searchNext alg (n_assigned n) in
      let '(st, children) := makeChildren n next st in
      if s_stop st then Some st
      else match children with
           | [] => match next with
                   | [] => Some (leaf n st)
                   | _ => Some st
                   end
           | _ =>
               (fix go (l : list node) (st : search) : option search :=
                  match l with
                  | [] => Some st
                  | c :: l' =>
                      if (n_cost c <? s_cand st) && negb (s_stop st) then
                        match expandNode f c st with
                        | Some st' => go l' st'
                        | None => None
                        end
                      else go l' st
                  end) children st
           end
  end.

(** AssignmentTreeBranchBoundBase.cpp:495-621, [calculateAssignment]: [None] when the fuel
    was too small, [Some None] when no assignment summary is sent ([m_candidate...] empty,
    594), otherwise the assignments of the summary by vehicle. *)
Definition root (vehicles : list Z) : node :=
  {| n_assigned := [];
     n_vehicles := map (fun v => (v, {| vs_total := 0; vs_tasks := [] |})) vehicles;
     n_cost := 0 |}.

Definition calculateAssignment (fuel : nat) : option (option (list (Z * vehicleState))) :=
  match expandNode fuel (root (vehiclesOf matrix)) search0 with
  | None => None
  | Some st => match s_best st with
               | [] => Some None
               | b => Some (Some b)
               end
  end.

End Search.

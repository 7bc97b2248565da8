(** Model of the message handling of
    src/cpp/Services/AssignmentTreeBranchBoundBase.{h,cpp} without AFRL_INTERNAL_ENABLED: what
    is kept for each automation request, when an assignment is worked out, and what is sent.
    The search itself is [AssignModel], the reading of the texts [FormulaModel].

    The iteration order of the unordered maps is given by parameters.  Left out: the texts of
    error messages (a calculation that fails sends at least one; here it is one [OutError]),
    the status message "AssignmentComplete", the assignment type of the PISR project, and what
    subclasses do with further messages. *)
From Coq Require Import List Arith ZArith Bool.
From Verif Require Import Base ZMap AlgebraModel AlgebraSpec FormulaModel AssignModel.
Import ListNotations.
Open Scope list_scope.
Open Scope Z_scope.

(** The fields of a UniqueAutomationRequest that are used. *)
Record request := {
  q_id : Z;
  q_tasks : list Z;
  q_relations : str;
  q_region : Z
}.

(** The fields of a TaskPlanOptions message that are used. *)
Record planOptions := {
  po_request : Z;
  po_task : Z;
  po_composition : str;
  po_options : list taskOption
}.

(** AssignmentTreeBranchBoundBase.cpp:127-200: what is received. *)
Inductive event :=
| EvRequest (q : request)
| EvOptions (o : planOptions)
| EvMatrix (req : Z) (costs : list costEntry).

(** What is sent.  [OutCrash] stands for an exception that leaves the service or for
    undefined behaviour. *)
Inductive out :=
| OutSummary (req region : Z) (tasks : list taskAssignment)
| OutError
| OutCrash.

(** AssignmentTreeBranchBoundBase.h:330-370, [AssigmentPrerequisites]. *)
Record prereq := {
  p_request : option request;
  p_options : zmap planOptions;
  p_matrix : option (list costEntry)
}.

(** AssignmentTreeBranchBoundBase.cpp:136, 150, 163: a new entry. *)
Definition prereq0 : prereq := {| p_request := None; p_options := []; p_matrix := None |}.

(** AssignmentTreeBranchBoundBase.h:374, [m_idVsAssigmentPrerequisites]. *)
Definition state := zmap prereq.

(** AssignmentTreeBranchBoundBase.cpp:206-260, [isAssignmentReady].  The warnings about
    options without eligible entities (240-245) are left out. *)
Definition ready (p : prereq) : bool :=
  match p_request p, p_matrix p with
  | Some q, Some _ =>
      match q_tasks q with
      | [] => false
      | ts => forallb (fun t => zhas (p_options p) t) ts
      end
  | _, _ => false
  end.

Section Service.
(** The node limit; the order in which the vehicles of a node are visited; the order in which
    the options messages are visited ([m_taskIdVsTaskPlanOptions], the same at 270, 413, 433
    and 514 since the map is not changed); the order in which the vehicles of the result are
    visited (599). *)
Context (limit : Z) (order : list costEntry -> node -> list Z)
        (ord : zmap planOptions -> zmap planOptions)
        (vord : list (Z * vehicleState) -> list (Z * vehicleState)).

(** AssignmentTreeBranchBoundBase.cpp:431-446: the ids of all options, for
    [initAtomicObjectives].  The set that orders them and removes duplicates is left out, they
    are only looked up. *)
Definition knownIds (os : zmap planOptions) : list Z :=
  flat_map (fun to => map (fun o => packId (to_task o) (to_option o)) (po_options (snd to))) os.

(** What [isInitializeAlgebra] ends with. *)
Inductive algebra :=
| GTree (e : expr)
| GError
| GCrash.

(** AssignmentTreeBranchBoundBase.cpp:266-481, [isInitializeAlgebra]; Algebra.cpp:605-608 for
    the case without any option. *)
Definition initializeAlgebra (os : zmap planOptions) (relations : str) : algebra :=
  match algebraString (map (fun to => (fst to, po_composition (snd to))) os) relations with
  | Some (AString s) =>
      match knownIds os with
      | [] => GError
      | known =>
          match initAlgebraString known s with
          | Some (PTree e) => GTree e
          | Some PNull => GError
          | _ => GCrash
          end
      end
  | Some AFail => GError
  | _ => GCrash
  end.

(** AssignmentTreeBranchBoundBase.cpp:483-622, [calculateAssignment].  The fuel of the search
    is one more than the number of options in the expression, which suffices (C19). *)
Definition calculate (p : prereq) : list out :=
  match p_request p, p_matrix p with
  | Some q, Some m =>
      let os := ord (p_options p) in
      match initializeAlgebra os (q_relations q) with
      | GTree alg =>
          match calculateAssignment (flat_map (fun to => po_options (snd to)) os) m limit alg (order m)
                  (S (length (actions alg))) with
          | Some (Some r) =>
              [OutSummary (q_id q) (q_region q) (flat_map (fun vs => vs_tasks (snd vs)) (vord r))]
          | Some None => [OutError]
          | None => [OutCrash]
          end
      | GError => [OutError]
      | GCrash => [OutCrash]
      end
  | _, _ => []
  end.

(** AssignmentTreeBranchBoundBase.cpp:132-169 and 188-192, common to the three kinds of
    message: the entry is made if there is none, changed, and taken out if it is complete. *)
Definition handle (id : Z) (change : prereq -> prereq) (s : state) : state * list out :=
  let p := change (match zget s id with Some p => p | None => prereq0 end) in
  if ready p then (zdel s id, calculate p) else (zset s id p, []).

(** AssignmentTreeBranchBoundBase.cpp:127-200, [processReceivedLmcpMessage]. *)
Definition sstep (s : state) (e : event) : state * list out :=
  match e with
  | EvRequest q =>
      handle (q_id q)
        (fun p => {| p_request := Some q; p_options := p_options p; p_matrix := p_matrix p |}) s
  | EvOptions o =>
      handle (po_request o)
        (fun p => {| p_request := p_request p;
                     p_options := zset (p_options p) (po_task o) o;
                     p_matrix := p_matrix p |}) s
  | EvMatrix id m =>
      handle id
        (fun p => {| p_request := p_request p; p_options := p_options p;
                     p_matrix := Some m |}) s
  end.
End Service.

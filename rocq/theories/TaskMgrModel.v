(** Model of src/cpp/Tasks/TaskManagerService.{h,cpp}.

    Messages that carry an id and are stored as they are, are pairs of the id and a token for
    the rest.  Option strings and type names are tokens. *)
From Coq Require Import List ZArith Bool.
From Verif Require Import ZMap.
Import ListNotations.
Open Scope list_scope.
Open Scope Z_scope.

(** What TaskManagerService.cpp:285-359 looks up for the types of tasks. *)
Inductive need :=
| NeedNone
| NeedArea (a : Z)
| NeedLine (l : Z)
| NeedPoint (p : Z)
| NeedLines.

Record task := { t_id : Z; t_type : Z; t_need : need; t_body : Z }.

(** The kinds of messages stored by id (TaskManagerService.h:141-149). *)
Inductive kind := KConf | KState | KArea | KLine | KPoint | KMission | KIn | KOut | KRegion.

Definition kind_eqb (a b : kind) : bool :=
  match a, b with
  | KConf, KConf | KState, KState | KArea, KArea | KLine, KLine | KPoint, KPoint
  | KMission, KMission | KIn, KIn | KOut, KOut | KRegion, KRegion => true
  | _, _ => false
  end.

(** A CreateNewService message; [k_info] gives the lists of messages in it by kind. *)
Record create := {
  k_service : Z; k_task : task; k_options : list Z; k_info : kind -> list (Z * Z) }.

Inductive out :=
| OutCreate (c : create)
| OutKill (s : Z)
| OutRequest (id r : Z).

Inductive event :=
| EvTask (t : task)
| EvInfo (k : kind) (id d : Z)
| EvResponse (ms : list (Z * Z))
| EvRequest (r : Z)
| EvRemove (ids : list Z)
| EvDraw (n : nat).

(** TaskManagerService.h:141-161 and the id counter (LmcpObjectNetworkClientBase.h:226-230),
    which other network clients draw from as well. *)
Record state := {
  m_live : zmap Z; m_info : kind -> zmap Z; m_request : Z; m_next : Z }.

(** TaskManagerService.h:157: options by task id and then by type; [None] is the empty type
    name, [m_noTaskTypeString]. *)
Definition options := zmap (list (option Z * list Z)).

Definition byType (l : list (option Z * list Z)) (ty : option Z) : list Z :=
  match find (fun p => match fst p, ty with
                       | None, None => true
                       | Some a, Some b => a =? b
                       | _, _ => false
                       end) l with
  | Some p => snd p
  | None => []
  end.

(** TaskManagerService.cpp:193-238. *)
Definition taskOptions (opts : options) (t : task) : list Z :=
  (match zget opts 0 with Some l => byType l None | None => [] end) ++
  match zget opts (t_id t) with
  | Some l => byType l None
  | None => match zget opts 0 with Some l => byType l (Some (t_type t)) | None => [] end
  end.

Section Manager.
  (** The order in which a map is iterated over. *)
  Context (ord : zmap Z -> list (Z * Z)) (opts : options).

  Definition minit (next : Z) : state :=
    {| m_live := []; m_info := fun _ => []; m_request := 1; m_next := next |}.

  Definition pick (m : zmap Z) (k : Z) : option (list (Z * Z)) :=
    match zget m k with Some d => Some [(k, d)] | None => None end.

  (** TaskManagerService.cpp:257-359: the messages added for a task, or [None] if one is
      missing. *)
  Definition gather (info : kind -> zmap Z) (t : task) : option (kind -> list (Z * Z)) :=
    let base := fun k => match k with
                         | KConf | KState | KIn | KOut | KRegion => ord (info k)
                         | _ => []
                         end in
    let with_ := fun k l j => if kind_eqb j k then l else base j in
    match t_need t with
    | NeedNone => Some base
    | NeedArea a =>
        match pick (info KArea) a with Some l => Some (with_ KArea l) | None => None end
    | NeedLine a =>
        match pick (info KLine) a with Some l => Some (with_ KLine l) | None => None end
    | NeedPoint p =>
        if 0 <? p then
          match pick (info KPoint) p with Some l => Some (with_ KPoint l) | None => None end
        else Some base
    | NeedLines =>
        Some (fun j => match j with
                       | KLine => ord (info KLine)
                       | KMission => ord (info KMission)
                       | _ => base j
                       end)
    end.

  (** TaskManagerService.cpp:172-367. *)
  Definition newTask (s : state) (t : task) : state * list out :=
    let '(live, kills) := match zget (m_live s) (t_id t) with
                          | Some sv => (zdel (m_live s) (t_id t), [OutKill sv])
                          | None => (m_live s, [])
                          end in
    let sv := m_next s + 1 in
    match gather (m_info s) t with
    | Some info =>
        ({| m_live := zset live (t_id t) sv; m_info := m_info s; m_request := m_request s;
            m_next := sv |},
         kills ++ [OutCreate {| k_service := sv; k_task := t; k_options := taskOptions opts t;
                                k_info := info |}])
    | None =>
        ({| m_live := live; m_info := m_info s; m_request := m_request s; m_next := sv |}, kills)
    end.

  (** TaskManagerService.cpp:446-463, one turn of the loop. *)
  Definition removeTask (st : zmap Z * list out) (id : Z) : zmap Z * list out :=
    match zget (fst st) id with
    | Some sv => (zdel (fst st) id, snd st ++ [OutKill sv])
    | None => st
    end.

  Definition store (info : kind -> zmap Z) (k : kind) (id d : Z) : kind -> zmap Z :=
    fun j => if kind_eqb j k then zset (info j) id d else info j.

  (** TaskManagerService.cpp:161-476.  FollowPathCommands are stored as missions
      (432-441).  AutomationRequests (399-408) are handled but not subscribed to. *)
  Definition mstep (s : state) (e : event) : state * list out :=
    match e with
    | EvTask t => newTask s t
    | EvInfo k id d =>
        ({| m_live := m_live s; m_info := store (m_info s) k id d;
            m_request := m_request s; m_next := m_next s |}, [])
    | EvResponse ms =>
        ({| m_live := m_live s;
            m_info := fold_left (fun i p => store i KMission (fst p) (snd p)) ms (m_info s);
            m_request := m_request s; m_next := m_next s |}, [])
    | EvRequest r =>
        ({| m_live := m_live s; m_info := m_info s; m_request := m_request s + 1;
            m_next := m_next s |}, [OutRequest (m_request s) r])
    | EvRemove ids =>
        let (live, o) := fold_left removeTask ids (m_live s, []) in
        ({| m_live := live; m_info := m_info s; m_request := m_request s; m_next := m_next s |}, o)
    | EvDraw n =>
        ({| m_live := m_live s; m_info := m_info s; m_request := m_request s;
            m_next := m_next s + Z.of_nat n |}, [])
    end.
End Manager.

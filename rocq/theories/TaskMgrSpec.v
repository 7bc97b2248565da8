(** What a task manager is supposed to do. *)
From Coq Require Import List ZArith Bool.
From Verif Require Import TaskMgrModel.
Import ListNotations.
Open Scope list_scope.
Open Scope Z_scope.

(** The services that have been created and not been killed: pairs of task and service id. *)
Definition alive_ (l : list (Z * Z)) (o : out) : list (Z * Z) :=
  match o with
  | OutCreate c => l ++ [(t_id (k_task c), k_service c)]
  | OutKill s => filter (fun p => negb (snd p =? s)) l
  | OutRequest _ _ => l
  end.

Definition alive (os : list out) : list (Z * Z) := fold_left alive_ os [].

(** The ids of all services ever created. *)
Definition created (os : list out) : list Z :=
  flat_map (fun o => match o with OutCreate c => [k_service c] | _ => [] end) os.

(** The messages of kind [k] received, in order. *)
Definition heard (k : kind) (evs : list event) : list (Z * Z) :=
  flat_map (fun e => match e with
                     | EvInfo j id d => if kind_eqb j k then [(id, d)] else []
                     | EvResponse ms => if kind_eqb KMission k then ms else []
                     | _ => []
                     end) evs.

(** [d] is the last value given for [id]. *)
Definition latest (l : list (Z * Z)) (id d : Z) : Prop :=
  exists a b, l = a ++ (id, d) :: b /\ ~ In id (map fst b).

(** A list with the latest value of each id. *)
Definition all_latest (l r : list (Z * Z)) : Prop :=
  NoDup (map fst r) /\ forall id d, In (id, d) r <-> latest l id d.

(** What a task needs has been received. *)
Definition needs_met (evs : list event) (t : task) : Prop :=
  match t_need t with
  | NeedArea a => In a (map fst (heard KArea evs))
  | NeedLine a => In a (map fst (heard KLine evs))
  | NeedPoint p => p <= 0 \/ In p (map fst (heard KPoint evs))
  | _ => True
  end.

(** The messages of kind [k] a new service for task [t] is told about. *)
Definition told (evs : list event) (t : task) (k : kind) (r : list (Z * Z)) : Prop :=
  match k, t_need t with
  | (KConf | KState | KIn | KOut | KRegion), _ => all_latest (heard k evs) r
  | KArea, NeedArea a => exists d, r = [(a, d)] /\ latest (heard k evs) a d
  | KLine, NeedLine a => exists d, r = [(a, d)] /\ latest (heard k evs) a d
  | KPoint, NeedPoint p =>
      (p <= 0 /\ r = []) \/ (0 < p /\ exists d, r = [(p, d)] /\ latest (heard k evs) p d)
  | (KLine | KMission), NeedLines => all_latest (heard k evs) r
  | _, _ => r = []
  end.

(** [l] are the options configured for a task id and a type of tasks. *)
Definition listing (opts : options) (id : Z) (ty : option Z) (l : list Z) : Prop :=
  (exists per, In (id, per) opts /\ In (ty, l) per) \/
  (l = [] /\ forall per l', In (id, per) opts -> ~ In (ty, l') per).

(** No task id and no type is configured twice. *)
Definition well_configured (opts : options) : Prop :=
  NoDup (map fst opts) /\ forall id per, In (id, per) opts -> NoDup (map fst per).

(** The automation requests passed on, and those received. *)
Definition requests (os : list out) : list (Z * Z) :=
  flat_map (fun o => match o with OutRequest i r => [(i, r)] | _ => [] end) os.

Definition asked (evs : list event) : list Z :=
  flat_map (fun e => match e with EvRequest r => [r] | _ => [] end) evs.

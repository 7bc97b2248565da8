(** What a service manager and the ids of network clients are supposed to do. *)
From Coq Require Import List ZArith Bool.
From Verif Require Import ZMap ServiceMgrModel.
Import ListNotations.
Open Scope list_scope.
Open Scope Z_scope.

(** ** Ids *)

(** The ids clients have: those they were constructed with and keep, and the reserved ones. *)
Definition kept (l : list (draw * Z)) : list Z :=
  map snd (filter (fun p => match fst p with Drop => false | _ => true end) l).

(** Somewhere a client that keeps its id is constructed right after a reservation. *)
Definition keep_after_reserve (l : list draw) : Prop :=
  exists a b, l = a ++ Reserve :: Keep :: b.

(** ** Services: histories are lists of events with what was done at each. *)
Definition trace := list (event * list out).

Definition outs (t : trace) : list out := flat_map snd t.

(** Object and id of all services started. *)
Definition started (t : trace) : list (Z * Z) :=
  flat_map (fun o => match o with OutStarted u i => [(u, i)] | _ => [] end) (outs t).

Definition destroyed (t : trace) : list Z :=
  flat_map (fun o => match o with OutDestroyed u => [u] | _ => [] end) (outs t).

Definition ended (t : trace) : list Z :=
  flat_map (fun p => match fst p with EvFinish u => [u] | _ => [] end) t.

(** The services that have been started, have not been destroyed and have not ended. *)
Definition running (t : trace) : list (Z * Z) :=
  filter (fun p => negb (zin (fst p) (destroyed t)) && negb (zin (fst p) (ended t))) (started t).

(** The service manager handles messages. *)
Definition listening (own : Z) (t : trace) : Prop :=
  ~ In (EvKill own) (map fst t) /\ ~ In (EvKill (-1)) (map fst t) /\ ~ In OutExit (outs t).

(** The ids handed out by reservations. *)
Definition reserved (t : trace) : list Z :=
  flat_map (fun p => match p with (EvReserve, [OutId i]) => [i] | _ => [] end) t.

(** Whether the last id drawn from the counter was a reservation. *)
Fixpoint fresh_reservation (evs : list event) (b : bool) : bool :=
  match evs with
  | [] => b
  | EvReserve :: evs' => fresh_reservation evs' true
  | EvConstruct :: evs' => fresh_reservation evs' false
  | EvCreate _ (Works | Failed) :: evs' => fresh_reservation evs' false
  | _ :: evs' => fresh_reservation evs' b
  end.

(** A disciplined use of ids: an id that comes with a request to create a service has been
    reserved and is used only once, and no service or other client that keeps the id it was
    constructed with is made right after a reservation. *)
Definition disciplined (t : trace) : Prop :=
  forall a e o b, t = a ++ (e, o) :: b ->
    match e with
    | EvCreate id _ =>
        (0 < id /\ In id (reserved a) /\ forall oc, ~ In (EvCreate id oc) (map fst a)) \/
        (id <= 0 /\ fresh_reservation (map fst a) false = false)
    | EvConstruct => fresh_reservation (map fst a) false = false
    | _ => True
    end.

(** What timers are supposed to do. *)
From Coq Require Import List ZArith Bool.
From Verif Require Import ZMap TimerModel.
Import ListNotations.
Open Scope list_scope.
Open Scope Z_scope.

Definition trace := list (event * list out).

(** The timer whose callback runs. *)
Definition calling (t : trace) : option Z :=
  fold_left (fun c x => match x with
                        | (_, [OutCall id]) => Some id
                        | (EvDone, _) => None
                        | _ => c
                        end) t None.

(** A successful start of a timer. *)
Definition starts (id : Z) (x : event * list out) : Prop :=
  match x with
  | (EvSingle i _ _ _, [OutBool true]) | (EvPeriodic i _ _ _ _, [OutBool true]) => i = id
  | _ => False
  end.

(** The first time a start makes a timer due, and the period. *)
Definition first_due (e : event) : Z * Z :=
  match e with
  | EvSingle _ delay now _ => (now + delay, 0)
  | EvPeriodic _ delay period now _ => (now + delay, period)
  | _ => (0, 0)
  end.

(** A request to stop a timer. *)
Definition stops (id : Z) (e : event) : Prop :=
  match e with
  | EvDisable i | EvDestroy i => i = id
  | EvDestroyAll ids _ => In id ids
  | _ => False
  end.

(** How often the callback of a timer was called. *)
Definition calls (id : Z) (t : trace) : Z :=
  Z.of_nat (length (filter (fun o => match o with OutCall i => i =? id | _ => false end)
                           (flat_map snd t))).

(** The timer was started, has not been stopped or started again since, and its next callback is
    due at [d], which for a single shot is its first, for a periodic one as many periods after
    the first as there were callbacks. *)
Definition due (t : trace) (id d : Z) : Prop :=
  exists a e o b first period,
    t = a ++ (e, o) :: b /\ starts id (e, o) /\ first_due e = (first, period) /\
    (forall e' o', In (e', o') b -> ~ starts id (e', o') /\ ~ stops id e') /\
    d = first + calls id b * period /\ (period = 0 -> calls id b = 0).

(** The timer waits for the time [d]; while its callback runs it waits for nothing. *)
Definition waits (t : trace) (id d : Z) : Prop := due t id d /\ calling t <> Some id.

Definition given (t : trace) (id : Z) : Prop := In (OutId id) (flat_map snd t).

(** No timer is started from another thread while its callback runs, and timers that were never
    created are not destroyed in bulk. *)
Definition disciplined (t : trace) : Prop :=
  forall a e o b, t = a ++ (e, o) :: b ->
    match e with
    | EvSingle id _ _ false | EvPeriodic id _ _ _ false => calling a <> Some id
    | EvDestroyAll ids true => forall id, In id ids -> given a id
    | _ => True
    end.

(** No two timers ever wait for the same time, and none for time 0, the time of timers that have
    never been started. *)
Definition apart (t : trace) : Prop :=
  forall a b a' b' i j d, t = a ++ b -> t = a' ++ b' -> waits a i d -> waits a' j d ->
    d <> 0 /\ i = j.

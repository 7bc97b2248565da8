(** What status reports are supposed to say, and when. *)
From Coq Require Import List ZArith Bool.
From Verif Require Import Latest TimerModel TimerSpec StatusReportModel.
Import ListNotations.
Open Scope list_scope.
Open Scope Z_scope.

Definition trace := list (event * list out).

(** The use of the timer manager in a history. *)
Definition timers (t : trace) : TimerSpec.trace :=
  flat_map (fun x => flat_map (fun o => match o with Call e r => [(e, r)] | _ => [] end) (snd x)) t.

(** The timers that were created for the reports, for keep-alives and for states. *)
Definition named (t : trace) (r k s : Z) : Prop :=
  exists now o, In (Boot now, Call EvCreate [OutId r] :: Call EvCreate [OutId k] ::
                              Call EvCreate [OutId s] :: o) t.

Definition touches (i : Z) (e : TimerModel.event) : Prop :=
  match e with
  | EvSingle j _ _ _ | EvPeriodic j _ _ _ _ | EvDisable j | EvDestroy j => j = i
  | EvDestroyAll ids _ => In i ids
  | _ => False
  end.

(** Nobody else starts or stops the timers of the service, and no message is handled before the
    service is started. *)
Definition sane (t : trace) : Prop :=
  (forall r k s e o, named t r k s -> In (Timer e, o) t ->
     ~ touches r e /\ ~ touches k e /\ ~ touches s e) /\
  (forall a m now later o b, t = a ++ (Recv m now later, o) :: b ->
     exists now' o', In (Boot now', o') a).

(** Timers are never started while their callbacks run and never wait for the same instant; see
    [C30]. *)
Definition calm (t : trace) : Prop := disciplined (timers t) /\ apart (timers t).

(** What each thing that happens says about one part of the report. *)
Definition linked (x : Z) (y : event * list out) : option bool :=
  match fst y with
  | Recv (Join i) _ _ => if i =? x then Some true else None
  | Recv (Exit i) _ _ => if i =? x then Some false else None
  | _ => None
  end.

Definition own (v : Z) (y : event * list out) : option (Z * list Z) :=
  match fst y with
  | Recv (State i time tasks) _ _ => if i =? v then Some (time, tasks) else None
  | _ => None
  end.

Definition vital (v : Z) (y : event * list out) : option bool :=
  match y with
  | (Recv (State i _ _) _ _, _) => if i =? v then Some true else None
  | (_, [Outdated]) => Some false
  | _ => None
  end.

Definition pulse (y : event * list out) : option (bool * bool * bool) :=
  match y with
  | (Recv (KeepAlive a v g) _ _, _) => Some (a, v, g)
  | (_, [Expired]) => Some (false, false, false)
  | _ => None
  end.

(** The callback of a timer is called. *)
Definition calls_back (i : Z) (y : event * list out) : Prop :=
  exists e, In (Call e [OutCall i]) (snd y).

(** The report [r] is sent in the callback that was called after [a], for the time [d]; [b] is
    what happened between the call and the sending. *)
Definition sending (t : trace) (i : Z) (a b : trace) (d : Z) (r : report) : Prop :=
  exists x y c, t = a ++ x :: b ++ y :: c /\ calls_back i x /\
    (forall z, In z b -> ~ calls_back i z) /\ In (Sent r) (snd y) /\ due (timers a) i d.

(** What the coordinator is to do, in terms of a history of events with what was sent at each. *)
From Coq Require Import List ZArith Bool.
From Verif Require Import CoordModel.
Import ListNotations.
Open Scope list_scope.
Open Scope Z_scope.

Definition trace := list (event * list out).

Definition forwarded (rid : Z) (o : list out) : Prop := exists es b ps, In (OutTask rid es b ps) o.

(** Request [rid] is done with: it was answered, or forwarded because a report or the request itself
    completed it. *)
Definition closes (rid : Z) (x : event * list out) : Prop :=
  match fst x with
  | Response rid' _ => rid' = rid
  | Report _ _ | Request _ _ => forwarded rid (snd x)
  | _ => False
  end.

(** [l] is what happened since request [rid] was last done with, [pre] what was before. *)
Definition since (rid : Z) (t pre l : trace) : Prop :=
  t = pre ++ l /\ (pre = [] \/ exists p x, pre = p ++ [x] /\ closes rid x) /\ forall x, In x l -> ~ closes rid x.

(** The latest state of the vehicle of this entity. *)
Definition located (me : Z) (t : trace) (w : Z) : Prop :=
  exists x o y, t = x ++ (VehicleState me w, o) :: y /\ forall w' o', ~ In (VehicleState me w', o') y.

(** The planning states known for [rid]: the latest report of each other entity, and where this entity
    was at the time of the request. *)
Definition known (me rid : Z) (pre l : trace) (p : pstate) : Prop :=
  (exists x o y, l = x ++ (Report rid p, o) :: y /\
     forall p' o', In (Report rid p', o') y -> p_entity p' <> p_entity p) \/
  (exists x r now o y w, l = x ++ (Request r now, o) :: y /\ r_id r = rid /\ located me (pre ++ x) w /\
     p = {| p_entity := me; p_where := w |}).

Definition asked (rid : Z) (l : trace) (r : request) : Prop :=
  exists now o, In (Request r now, o) l /\ r_id r = rid.

(** [ps] lists exactly the planning states with property [K], one for each entity. *)
Definition exactly (ps : list pstate) (K : pstate -> Prop) : Prop :=
  NoDup (map p_entity ps) /\ forall p, In p ps <-> K p.

(** Something about request [rid]. *)
Definition about (rid : Z) (ev : event) : Prop :=
  match ev with
  | Report rid' _ => rid' = rid
  | Request r _ => r_id r = rid
  | _ => False
  end.

(** Ids of requests. *)
Definition ids (evs : list event) : list Z :=
  flat_map (fun ev => match ev with Request r _ => [r_id r] | _ => [] end) evs.

(** Requests have different ids, none of them 0, and no one else reports for this entity. *)
Definition proper (me : Z) (evs : list event) : Prop :=
  NoDup (ids evs) /\ ~ In 0 (ids evs) /\ (forall p, ~ In (Report 0 p) evs) /\
  forall rid p, In (Report rid p) evs -> p_entity p <> me.

(** The deadline [d] of request [r] has not been noticed yet. *)
Definition pending (t : trace) (r : request) (d : Z) : Prop :=
  exists x now o y, t = x ++ (Request r now, o) :: y /\ d = now + r_max r /\
    forall now' o', In (Tick now', o') y -> now' <= d.

(** How often [rid] was forwarded. *)
Definition times (rid : Z) (o : list out) : nat :=
  length (filter (fun x => match x with OutTask rid' _ _ _ => rid' =? rid | _ => false end) o).

(** What an assignment problem asks for, stated from the messages: the task options with
    their eligible vehicles and costs, the travel times of the cost matrix, and the
    relationship expression. *)
From Coq Require Import List ZArith Bool Permutation.
From Verif Require Import AlgebraModel AlgebraSpec AssignModel.
Import ListNotations.
Open Scope list_scope.
Open Scope Z_scope.

(** The number under which an option appears in the relationship expression. *)
Definition optionId (task option : Z) : Z := task * 100000 + option.

(** A schedule: who does which option, in the order of execution. *)
Definition schedule := list (Z * Z).

(** The options of one vehicle, in order. *)
Definition route (v : Z) (s : schedule) : list Z :=
  map fst (filter (fun ov => snd ov =? v) s).

Section Problem.
Variable opts : list taskOption.
Variable matrix : list costEntry.
Variable alg : expr.

(** The vehicles for which there is any cost entry. *)
Definition fleet (v : Z) : Prop := exists e, In e matrix /\ ce_vehicle e = v.

(** Time to perform option [o] by vehicle [v], if the vehicle is eligible for it; the latest
    message about it counts. *)
Definition work (o v : Z) : option Z :=
  option_map to_cost
    (find (fun t => (optionId (to_task t) (to_option t) =? o)
                    && existsb (Z.eqb v) (to_eligible t)) (rev opts)).

(** Time to travel to option [o]: from where the vehicle is now ([None]) or from the end of
    another option.  A negative entry means that there is no way. *)
Definition leg (v : Z) (from : option Z) (o : Z) : option Z :=
  match find (fun e => (ce_vehicle e =? v)
                 && (optionId (ce_fromTask e) (ce_fromOption e) =?
                     match from with None => 0 | Some p => p end)
                 && (optionId (ce_toTask e) (ce_toOption e) =? o)) (rev matrix) with
  | Some e => if 0 <=? ce_time e then Some (ce_time e) else None
  | None => None
  end.

(** The options of a tour with the times at which they are completed; [None] if a leg is
    missing or the vehicle is not eligible. *)
Fixpoint timeline (v : Z) (from : option Z) (start : Z) (os : list Z) : option (list (Z * Z)) :=
  match os with
  | [] => Some []
  | o :: os' =>
      match leg v from o, work o v with
      | Some t, Some w =>
          match timeline v (Some o) (start + t + w) os' with
          | Some l => Some ((o, start + t + w) :: l)
          | None => None
          end
      | _, _ => None
      end
  end.

(** When a vehicle is done. *)
Definition finish (v : Z) (s : schedule) : option Z :=
  option_map (fun l => last (map snd l) 0) (timeline v None 0 (route v s)).

(** A schedule that obeys the relationships and can be carried out by eligible vehicles. *)
Definition feasible (s : schedule) : Prop :=
  traces alg (map fst s) /\ forall v, timeline v None 0 (route v s) <> None.

(** The time at which the last vehicle is done. *)
Definition makespan (s : schedule) (t : Z) : Prop :=
  (forall v f, fleet v -> finish v s = Some f -> f <= t) /\
  (t = 0 \/ exists v, fleet v /\ finish v s = Some t).

(** What the service answers for a schedule: for every vehicle its options in order, with
    completion times. *)
Definition describes (r : list (Z * vehicleState)) (s : schedule) : Prop :=
  NoDup (map fst r) /\ (forall v, In v (map fst r) <-> fleet v) /\
  forall v vs, In (v, vs) r ->
    timeline v None 0 (route v s)
    = Some (map (fun t => (optionId (ta_task t) (ta_option t), ta_completed t)) (vs_tasks vs)) /\
    Forall (fun t => ta_vehicle t = v) (vs_tasks vs).

(** Conditions on the messages. *)

(** Numbers of options are not numbers of vehicles and not 0. *)
Definition ids_apart : Prop :=
  (forall a, In a (actions alg) -> a <> 0 /\ ~ fleet a) /\
  (forall e, In e matrix -> optionId (ce_fromTask e) (ce_fromOption e) <> 0 ->
             ~ fleet (optionId (ce_fromTask e) (ce_fromOption e))).

(** The cost matrix has entries for eligible vehicles only. *)
Definition only_eligible : Prop :=
  forall e, In e matrix -> 0 <= ce_time e ->
    work (optionId (ce_toTask e) (ce_toOption e)) (ce_vehicle e) <> None.

Definition costs_nonneg : Prop := forall t, In t opts -> 0 <= to_cost t.

End Problem.

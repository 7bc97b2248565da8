(** What is expected of the route aggregator, in terms of the messages received and sent. *)
From Coq Require Import List ZArith Bool Permutation.
From Verif Require Import Run AggregatorModel.
Import ListNotations.
Open Scope list_scope.
Open Scope Z_scope.

(** A history with the messages sent at each step. *)
Definition trace := list (event * list out).

(** *** Route requests *)

(** The ids of the plan requests sent to the planners for the route request [q]. *)
Definition asked (t : trace) (q : Z) : list Z :=
  flat_map (fun x =>
    match fst x with
    | EvRouteReq r =>
        if rq_id r =? q
        then flat_map (fun o => match o with OutPlanReq p => [pr_id p] | _ => [] end) (snd x)
        else []
    | _ => []
    end) t.

(** The last answer of the planners to the plan request [r]. *)
Definition answer (h : list event) (r : Z) : option (list (Z * Z)) :=
  fold_left (fun a e => match e with
                        | EvPlanResp i ps => if i =? r then Some ps else a
                        | _ => a
                        end) h None.

(** The responses sent for the route request [q]. *)
Definition route_replies (l : list out) (q : Z) : list (list (Z * list (Z * Z))) :=
  flat_map (fun o => match o with
                     | OutRouteResp i rs => if i =? q then [rs] else []
                     | _ => []
                     end) l.

Definition route_ids (evs : list event) : list Z :=
  flat_map (fun e => match e with EvRouteReq r => [rq_id r] | _ => [] end) evs.

(** What is assumed of the other parties: route requests have different ids and use route
    ids below the range reserved for cost matrices (RouteAggregatorService.h:193), and
    planners answer what they were asked. *)
Record orderly (evs : list event) (t : trace) : Prop := {
  or_distinct : NoDup (route_ids evs);
  or_low : forall r x, In (EvRouteReq r) evs -> In x (rq_routes r) -> rt_id x < 1000000;
  or_echo : forall t1 i ps o t2, t = t1 ++ (EvPlanResp i ps, o) :: t2 ->
            exists p, In (OutPlanReq p) (sent t1) /\ pr_id p = i /\
                      forall x, In x ps -> In (fst x) (map rt_id (pr_routes p))
}.

(** *** Cost matrices *)

(** The last reported state of a vehicle. *)
Definition last_state (h : list event) (v : Z) : option pose :=
  fold_left (fun a e => match e with
                        | EvState i p _ => if i =? v then Some p else a
                        | _ => a
                        end) h None.

(** The last options reported for a task since the last cost matrix. *)
Definition options (t : trace) (task : Z) : option (list topt) :=
  fold_left (fun a x =>
    if existsb (fun o => match o with OutMatrix _ _ _ _ _ => true | _ => false end) (snd x)
    then None
    else match fst x with
         | EvOptions i os => if i =? task then Some os else a
         | _ => a
         end) t None.

(** The last cost reported for a route. *)
Definition cost_in (ps : list (Z * Z)) (a : option Z) (id : Z) : option Z :=
  fold_left (fun a p => if fst p =? id then Some (snd p) else a) ps a.

Definition cost_of (h : list event) (id : Z) : option Z :=
  fold_left (fun a e => match e with EvPlanResp _ ps => cost_in ps a id | _ => a end) h None.

(** Where a vehicle starts: the planning state in the request, if there is one, else the last
    reported state. *)
Definition starts (t : trace) (q : areq) (v : Z) : option pose :=
  match find (fun p => fst p =? v) (q_planning q) with
  | Some p => Some (snd p)
  | None => last_state (map fst t) v
  end.

(** The options of the tasks of a request that [v] may do; an empty list of eligible
    vehicles stands for all. *)
Definition may_do (v : Z) (o : topt) : bool :=
  match o_elig o with [] => true | l => existsb (Z.eqb v) l end.

Definition choices (t : trace) (q : areq) (v : Z) : list topt :=
  flat_map (fun k => match options t k with Some os => filter (may_do v) os | None => [] end)
           (q_tasks q).

(** The legs needed for [v]: from its start to each of its options, and from each of its
    options to each other one. *)
Definition first_leg (v : Z) (p : pose) (o : topt) : leg :=
  ({| p_vehicle := v; p_prevTask := 0; p_prevOption := 0;
      p_task := o_task o; p_option := o_id o |}, (p, o_start o)).

Definition next_leg (v : Z) (a b : topt) : leg :=
  ({| p_vehicle := v; p_prevTask := o_task a; p_prevOption := o_id a;
      p_task := o_task b; p_option := o_id b |}, (o_end a, o_start b)).

Definition needed (t : trace) (q : areq) (v : Z) : list leg :=
  match starts t q v with
  | None => []
  | Some p =>
      let os := choices t q v in
      map (first_leg v p) os ++
      flat_map (fun ij => match nth_error os (fst ij), nth_error os (snd ij) with
                          | Some a, Some b => [next_leg v a b]
                          | _, _ => []
                          end)
        (filter (fun ij => negb (Nat.eqb (fst ij) (snd ij)))
                (list_prod (seq 0 (length os)) (seq 0 (length os))))
  end.

(** The vehicles of a request: the listed ones, or, if none is listed, those with a reported
    state at some time [h]. *)
Definition vehicles_of (h : list event) (q : areq) (vs : list Z) : Prop :=
  match q_entities q with
  | [] => NoDup vs /\ forall v, In v vs <-> last_state h v <> None
  | l => vs = l
  end.

(** The requests for which cost matrices were sent. *)
Definition matrices (l : list out) : list Z :=
  flat_map (fun o => match o with OutMatrix i _ _ _ _ => [i] | _ => [] end) l.

Definition auto_ids (evs : list event) : list Z :=
  flat_map (fun e => match e with EvUnique q => [q_id q] | _ => [] end) evs.

(** The matrix with the given contents, sent at the step [e] after [t], is right: it belongs
    to a received request [q]; [vs] are the vehicles of the request; when the options of all
    its tasks were known, after [t0], a route was requested for each leg needed (the numbered
    legs [rr]); and the matrix has one entry for each leg, with the cost last reported for the
    route requested for that leg. *)
Definition prefix {A} (a b : list A) : Prop := exists c, b = a ++ c.

Definition right_matrix (t : trace) (e : event) (i region relation : Z) (tasks : list Z)
  (entries : list (pairing * Z)) : Prop :=
  (exists j ps, e = EvPlanResp j ps) /\
  exists q h t0 vs (rr : list (leg * Z)) cost,
    In (EvUnique q) (map fst h) /\ prefix h t0 /\ prefix t0 t /\
    i = q_id q /\ region = q_region q /\ relation = q_relation q /\ tasks = q_tasks q /\
    vehicles_of (map fst h) q vs /\
    (forall x, In x tasks -> options t0 x <> None) /\
    map fst rr = flat_map (needed t0 q) vs /\
    NoDup (map snd rr) /\
    (forall l id, In (l, id) rr ->
       cost_of (map fst t ++ [e]) id = Some (cost id) /\
       exists p, In (OutPlanReq p) (sent t0) /\ pr_vehicle p = p_vehicle (fst l) /\
         In {| rt_id := id; rt_from := fst (snd l); rt_to := snd (snd l) |} (pr_routes p)) /\
    Permutation entries (map (fun x => (fst (fst x), cost (snd x))) rr).

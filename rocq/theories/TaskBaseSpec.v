(** What the common part of the task services promises, in terms of the messages received and sent
    only.  Nothing here refers to the state or the functions of the model. *)
From Coq Require Import List ZArith Bool Sorted.
From Verif Require Import TaskBaseModel.
Import ListNotations.
Open Scope list_scope.
Open Scope Z_scope.

(** The automation request numbered [id] that was received and not answered yet. *)
Definition asked (evs : list ev) (id : Z) : option areq :=
  fold_left (fun a e =>
    match e with
    | Request q _ => if q_id q =? id then Some q else a
    | Response i _ => if i =? id then None else a
    | _ => a
    end) evs None.

(** The automation request received last, if it was not answered yet. *)
Definition current (evs : list ev) : option areq :=
  asked evs (fold_left (fun a e => match e with Request q _ => q_id q | _ => a end) evs 0).

(** The message [e], received after [evs], gives vehicle [v] a new mission. *)
Definition reassigns (evs : list ev) (e : ev) (v : Z) : Prop :=
  exists id ms q, e = Response id ms /\ asked evs id = Some q /\ q_sandbox q = false /\
                  In v (map fst ms).

(** Vehicle [v] has not received a new mission by the messages [l], received after [evs]. *)
Definition keeps (evs l : list ev) (v : Z) : Prop :=
  forall l1 e l2, l = l1 ++ e :: l2 -> ~ reassigns (evs ++ l1) e v.

(** The last mission of vehicle [v] has a waypoint of task [task]. *)
Definition assignedTo (task : Z) (evs : list ev) (v : Z) : Prop :=
  exists a id ms b q ts,
    evs = a ++ Response id ms :: b /\ asked a id = Some q /\ q_sandbox q = false /\
    In (v, ts) ms /\ (exists l, In l ts /\ In task l) /\ keeps (a ++ [Response id ms]) b v.

(** In its last report since its last mission vehicle [v] was working on [task]. *)
Definition workingOn (task : Z) (evs : list ev) (v : Z) : Prop :=
  exists a ts c b,
    evs = a ++ State v ts c :: b /\ In task ts /\
    (forall ts' c', ~ In (State v ts' c') b) /\ keeps a (State v ts c :: b) v.

(** The notices sent on reports of vehicle [v]: true for active, false for complete. *)
Definition notices (v : Z) (t : list (ev * list out)) : list bool :=
  flat_map (fun x =>
    match fst x with
    | State w _ _ =>
        if w =? v then flat_map (fun o => match o with
                                          | Active _ => [true]
                                          | Complete _ => [false]
                                          | _ => []
                                          end) (snd x)
        else []
    | _ => []
    end) t.
Fixpoint alternating (b : bool) (l : list bool) : Prop :=
  match l with
  | [] => True
  | x :: l' => x = b /\ alternating (negb b) l'
  end.

(** ** Implementations *)

(** A waypoint of the planned routes and whether it is part of the task. *)
Definition leg := (wp * bool)%type.

Section Waypoints.
  Context (task : Z) (coloc : Z -> Z -> bool).

  (** Consecutive waypoints at the same place. *)
  Fixpoint together (l : list leg) : Prop :=
    match l with
    | x :: ((y :: _) as l') => coloc (w_pos (fst x)) (w_pos (fst y)) = true /\ together l'
    | _ => True
    end.
  (** The last waypoint of a group is not where the first of the next one is. *)
  Fixpoint apart (g : list (list leg)) : Prop :=
    match g with
    | a :: ((b :: _) as g') =>
        (forall l x y r, a = l ++ [x] -> b = y :: r ->
                         coloc (w_pos (fst x)) (w_pos (fst y)) = false) /\ apart g'
    | _ => True
    end.
  (** [g] divides the waypoints [l] in the longest groups at the same place. *)
  Definition groups (l : list leg) (g : list (list leg)) : Prop :=
    concat g = l /\ (forall a, In a g -> a <> [] /\ together a) /\ apart g.

  (** Of a group, waypoint [w] is kept: it has the place and tasks of the group's last. *)
  Definition kept (a : list leg) (w : wp) : Prop :=
    exists l x b, a = l ++ [(x, b)] /\ w_pos w = w_pos x /\
                  w_tasks w = w_tasks x ++ (if b then [task] else []).
  (** Where the route planner wants a group's waypoint, numbered [n], to lead, if nothing follows. *)
  Definition leads (a : list leg) (n : Z) : Z :=
    match a with [(x, _)] => w_next x | _ => n + 1 end.

  (** Numbered consecutively from [start], each pointing to the next one. *)
  Definition linked (start : Z) (ws : list wp) : Prop :=
    forall j w, nth_error ws j = Some w ->
      w_number w = start + Z.of_nat j /\
      ((S j < length ws)%nat -> w_next w = start + Z.of_nat j + 1).

  (** The waypoints [ws] are an implementation of the planned waypoints [l]: one for each group of
      waypoints at the same place, numbered and linked; a last waypoint without task is given the
      task; and if the last one leads nowhere, a copy of it without task is added which leads to
      itself. *)
  Definition implements (start : Z) (l : list leg) (ws : list wp) : Prop :=
    exists g gz body z,
      groups l (g ++ [gz]) /\ Forall2 kept (g ++ [gz]) (body ++ [z]) /\ linked start ws /\
      let n := start + Z.of_nat (length body) in
      let open := leads gz n =? 0 in
      map w_pos ws = map w_pos (body ++ [z]) ++ (if open then [w_pos z] else []) /\
      map w_tasks ws = map w_tasks body ++
                       [match w_tasks z with [] => [task] | ts => ts end] ++
                       (if open then [[]] else []) /\
      (forall r w, ws = r ++ [w] -> w_next w = (if open then w_number w else leads gz n)).
End Waypoints.

(** The planned waypoints of the routes [rs], flown in this order; route 1 leads to the task, its
    waypoints belong to the task only if [ta]. *)
Definition legs (ta : bool) (rs : list route) : list leg :=
  flat_map (fun r => map (fun w => (w, negb (r_id r =? 1) || ta)) (r_wps r)) rs.

(** [rs] are the routes [new] and those routes of [old] not replaced by one of [new], in the order
    of their numbers. *)
Definition overlay (old new rs : list route) : Prop :=
  StronglySorted (fun a b => r_id a < r_id b) rs /\
  forall r, In r rs <-> In r new \/ (In r old /\ ~ In (r_id r) (map r_id new)).

(** In the history [t] every route request was answered completely by the first response to it,
    while the latest automation request was open. *)
Definition allAnswered (task : Z) (t0 t : list (ev * list out)) : Prop :=
  forall a e o b id v co l,
    t = a ++ (e, o) :: b -> In (Ask id v co l) o ->
    exists b1 v' rs o' b2,
      b = b1 ++ (Routes id task v' rs, o') :: b2 /\
      (forall v2 rs2, ~ In (Routes id task v2 rs2) (map fst b1)) /\
      current (map fst (t0 ++ a ++ (e, o) :: b1)) <> None /\
      incl (map fst l) (map r_id rs).
Definition isAsk (o : out) : bool := match o with Ask _ _ _ _ => true | _ => false end.

(** The request [q], received after [evs], cannot resume the task: it asks to redo all tasks, or no
    vehicle it names has ever reported to work on the task. *)
Definition anew (task : Z) (evs : list ev) (q : areq) : Prop :=
  In task (q_tasks q) /\
  (q_redo q = true \/
   forall v ts c, In v (q_entities q) -> In (State v ts c) evs -> ~ In task ts).

(** ** Planning of options *)

(** The first response to each of the route requests [ids], in the order of arrival. *)
Definition answers (task : Z) (ids : list Z) (evs : list ev) : list (Z * list route) :=
  fold_left (fun acc e =>
    match e with
    | Routes id t _ rs =>
        if (t =? task) && existsb (Z.eqb id) ids && negb (existsb (Z.eqb id) (map fst acc))
        then acc ++ [(id, rs)] else acc
    | _ => acc
    end) evs [].

(** [o] asks for the costs of the routes of each option in [l], numbered from 2. *)
Definition requests (l : list (Z * Z * list (Z * Z))) (o : list out) : Prop :=
  Forall2 (fun x a => exists id rts, a = Ask id (snd (fst x)) true rts /\ map snd rts = snd x /\
             forall j y, nth_error rts j = Some y -> fst y = 2 + Z.of_nat j) l o.
Definition idsOf (o : list out) : list Z :=
  flat_map (fun a => match a with Ask id _ _ _ => [id] | _ => [] end) o.
(** Request [id] is for the routes [rts] of option [k] with lanes [ls]. *)
Definition asksFor (l : list (Z * Z * list (Z * Z))) (o : list out) (id k : Z) (ls : list (Z * Z))
           (rts : list (Z * (Z * Z))) : Prop :=
  exists j v, nth_error l j = Some (k, v, ls) /\ nth_error o j = Some (Ask id v true rts).

(** [p] offers the option [p0] along the lanes [ls], with the costs of the routes [rs]. *)
Definition offer (p0 : pub) (ls : list (Z * Z)) (rs : list route) (p : pub) : Prop :=
  p_option p = p_option p0 /\ p_eligible p = p_eligible p0 /\
  (exists x r, ls = x :: r /\ p_start p = fst x) /\ (exists x r, ls = r ++ [x] /\ p_end p = snd x) /\
  ((forall r, In r rs -> 0 < r_cost r) ->
   p_cost p = p_cost p0 + fold_right (fun r a => r_cost r + a) 0 rs).

(** In [t] the task is neither planned anew nor implemented, and no routes for options are asked. *)
Definition quietly (task : Z) (t : list (ev * list out)) : Prop :=
  forall e, In e (map fst t) ->
    match e with
    | Request q _ => ~ In task (q_tasks q)
    | Lanes _ => False
    | Implement i => i_task i <> task
    | _ => True
    end.

(** ** Resuming *)

(** No two positions in sequence are co-located. *)
Definition spaced (coloc : Z -> Z -> bool) (ps : list Z) : Prop :=
  forall l a b r, ps = l ++ a :: b :: r -> coloc a b = false.

(** The same waypoint, except for its number. *)
Definition alike (a b : wp) : Prop :=
  w_pos a = w_pos b /\ w_next a = w_next b /\ w_tasks a = w_tasks b.

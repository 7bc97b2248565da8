(** What the plan builder is supposed to do, in terms of the messages it received and sent. *)
From Coq Require Import List ZArith Bool.
From Verif Require Import ZMap Run BuilderModel.
Import ListNotations.
Open Scope list_scope.
Open Scope Z_scope.

(** A history: each received message with the messages sent while handling it. *)
Definition trace := list (event * list out).

Definition impl_of (q : Z) (o : out) : list ireq :=
  match o with OutImpl i => if i_corr i =? q then [i] else [] | _ => [] end.

(** The implementation requests sent for the automation request [q], oldest first. *)
Definition impls (q : Z) (t : trace) : list ireq := flat_map (impl_of q) (sent t).

Definition resp_of (q : Z) (o : out) : list (list mission * list (Z * pose)) :=
  match o with OutResp q' ms fs => if q' =? q then [(ms, fs)] else [] | _ => [] end.

(** The responses sent for [q]. *)
Definition resps (q : Z) (t : trace) : list (list mission * list (Z * pose)) :=
  flat_map (resp_of q) (sent t).

Definition replies (t : trace) : list iresp :=
  flat_map (fun eo => match fst eo with EvImpl x => [x] | _ => [] end) t.

(** The implementations received that answer an implementation request of [q]. *)
Definition answers (q : Z) (t : trace) : list iresp :=
  filter (fun x => existsb (fun i => i_id i =? x_id x) (impls q t)) (replies t).

(** The assignment an implementation request asks for. *)
Definition asked (i : ireq) : asg :=
  {| g_task := i_task i; g_option := i_option i; g_vehicle := i_vehicle i;
     g_threshold := i_threshold i |}.

(** The implementation [x] answers the implementation request [i]. *)
Definition answered (i : ireq) (x : iresp) : Prop :=
  i_id i = x_id x /\ i_vehicle i = x_vehicle x.

Definition requestIds (t : trace) : list Z :=
  flat_map (fun eo => match fst eo with EvUnique u => [u_id u] | _ => [] end) t.

Definition summaryIds (t : trace) : list Z :=
  flat_map (fun eo => match fst eo with EvSummary q _ => [q] | _ => [] end) t.

(** What the builder relies on from the rest of the system: request ids are unique, each
    request gets one assignment, and each implementation request is answered at most once, by
    an implementation for the vehicle it names. *)
Record orderly (t : trace) : Prop := {
  or_unique : NoDup (requestIds t);
  or_summary : NoDup (summaryIds t);
  or_once : NoDup (map x_id (replies t));
  or_echo : forall t1 x o t2, t = t1 ++ (EvImpl x, o) :: t2 ->
    exists i, In (OutImpl i) (sent t1) /\ i_id i = x_id x /\ i_vehicle i = x_vehicle x
}.

(** The last waypoint of a piece of route leads to waypoint [n]. *)
Definition lead_to (n : Z) (p : list wp) : list wp :=
  match rev p with
  | [] => []
  | w :: r => rev ({| w_num := w_num w; w_next := n; w_data := w_data w |} :: r)
  end.

(** Pieces of route joined into one: each piece leads to the first waypoint of the next. *)
Fixpoint join (ps : list (list wp)) : list wp :=
  match ps with
  | [] => []
  | p :: ps' =>
      match join ps' with
      | [] => p
      | w :: _ => lead_to (w_num w) p ++ join ps'
      end
  end.

(** The non-empty routes received for vehicle [v], oldest first. *)
Definition pieces (v : Z) (xs : list iresp) : list (list wp) :=
  map x_wps (filter (fun x => (x_vehicle x =? v) && negb (match x_wps x with [] => true | _ => false end)) xs).

(** [ms] is the plan that results from the implementations [xs]: one mission for each vehicle
    with a non-empty route, made of the joined routes. *)
Definition is_plan (xs : list iresp) (ms : list mission) : Prop :=
  NoDup (map m_vehicle ms) /\
  (forall v, In v (map m_vehicle ms) <-> pieces v xs <> []) /\
  (forall m, In m ms ->
     m_wps m = join (pieces (m_vehicle m) xs) /\
     exists w, hd_error (m_wps m) = Some w /\ m_first m = w_num w).

(** The last implementation with a non-empty route for vehicle [v]. *)
Definition latest (v : Z) (xs : list iresp) : option iresp :=
  find (fun x => (x_vehicle x =? v) && negb (match x_wps x with [] => true | _ => false end)) (rev xs).

(** Consecutive waypoints are linked by their numbers. *)
Fixpoint chained (l : list wp) : Prop :=
  match l with
  | w :: ((w' :: _) as l') => w_next w = w_num w' /\ chained l'
  | _ => True
  end.

(** Waypoints numbered consecutively from [n]. *)
Fixpoint numbered (n : Z) (l : list wp) : Prop :=
  match l with
  | [] => True
  | w :: l' => w_num w = n /\ numbered (n + 1) l'
  end.

(** The missions of all responses. *)
Definition missions (t : trace) : list mission :=
  flat_map (fun o => match o with OutResp _ ms _ => ms | _ => [] end) (sent t).

(** The last reported state of vehicle [v]. *)
Definition lastState (v : Z) (t : trace) : option (pose * Z) :=
  fold_left (fun acc eo => match fst eo with
                           | EvState v' p tm => if v' =? v then Some (p, tm) else acc
                           | _ => acc
                           end) t None.

(** The vehicles that take part in planning for request [u], when its assignment arrives after
    the history [ta]: those listed, or every known vehicle if none is listed. *)
Definition participates (u : ureq) (ta : trace) (v : Z) : Prop :=
  match u_entities u with
  | [] => lastState v ta <> None
  | l => In v l
  end.

(** The conditions under which an assignment [ts] for [q] arriving after [ta] is acted on. *)
Definition acceptable (ta : trace) (q : Z) (ts : list asg) (u : ureq) : Prop :=
  ts <> [] /\ In (EvUnique u) (map fst ta) /\ u_id u = q /\
  forall v, In v (u_entities u) -> lastState v ta <> None.

Section Lead.
  Context (lead : pose -> pose).

  (** Where planning for [v] has got to after the implementations [xs]: the number of the next
      waypoint, the pose and the time.  Before any implementation this is the pose prescribed
      by the request or a point ahead of the vehicle. *)
  Definition reached (u : ureq) (ta : trace) (v : Z) (xs : list iresp) : option (Z * pose * Z) :=
    match latest v xs with
    | Some x => Some (w_num (last (x_wps x) {| w_num := 0; w_next := 0; w_data := 0 |}) + 1,
                      x_pose x, x_time x)
    | None =>
        match lastState v ta with
        | None => None
        | Some (p, tm) =>
            Some (1, match find (fun y => fst y =? v) (u_planning u) with
                     | Some y => snd y
                     | None => lead p
                     end, tm)
        end
    end.

  (** [l] gives, for every participating vehicle other than those excluded, the pose planning
      has reached. *)
  Definition poses (u : ureq) (ta : trace) (xs : list iresp) (excl : Z -> Prop)
      (l : list (Z * pose)) : Prop :=
    forall v, match find (fun y => fst y =? v) l with
              | Some y => participates u ta v /\ ~ excl v /\
                          exists n tm, reached u ta v xs = Some (n, snd y, tm)
              | None => ~ participates u ta v \/ excl v
              end.

  (** The implementation request [i] carries on from where planning has got to. *)
  Definition carries_on (u : ureq) (ta : trace) (xs : list iresp) (i : ireq) : Prop :=
    reached u ta (i_vehicle i) xs = Some (i_start i, i_pose i, i_time i) /\
    i_region i = u_region u /\
    poses u ta xs (eq (i_vehicle i)) (i_neighbours i).
End Lead.

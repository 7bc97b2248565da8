(** What is said about batch summaries (C38, C47). *)
From Coq Require Import List ZArith Bool.
From Verif Require Import ZMap BatchModel.
Import ListNotations.
Open Scope list_scope.
Open Scope Z_scope.

Definition trace := list (event * list out).

(** ** Splitting *)

(** What is to be planned: each task by each vehicle, or each ordered pair of two tasks by each vehicle. *)
Definition wanted (q : query) : list plan :=
  if q_related q then
    flat_map (fun v => flat_map (fun i => map (fun j => {| a_tasks := [i; j]; a_vehicle := v; a_order := Some (i, j) |})
                                              (filter (fun j => negb (i =? j)) (q_tasks q))) (q_tasks q)) (q_vehicles q)
  else
    flat_map (fun t => map (fun v => {| a_tasks := [t]; a_vehicle := v; a_order := None |}) (q_vehicles q)) (q_tasks q).

(** The lines (vehicle, from task, to task) reported for task [t]; from task 0 means from where the vehicle is. *)
Definition lines (q : query) (t : Z) : list (Z * Z * Z) :=
  if q_related q then
    flat_map (fun v => map (fun i => (v, if i =? t then 0 else i, t)) (q_tasks q)) (q_vehicles q)
  else map (fun v => (v, 0, t)) (q_vehicles q).

Definition line (x : vsum) : Z * Z * Z := (v_vehicle x, v_init x, v_dest x).

(** ** Ids and answers *)

(** The ids of the planning requests in some output. *)
Definition ids (o : list out) : list Z := flat_map (fun x => match x with OutPlan rid _ => [rid] | _ => [] end) o.
Definition plans (o : list out) : list plan := flat_map (fun x => match x with OutPlan _ a => [a] | _ => [] end) o.

(** Which of the ids [l] are not answered in [t]. *)
Fixpoint unanswered (l : list Z) (t : trace) : list Z :=
  match t with
  | [] => l
  | (Response rid _, _) :: t' => unanswered (zrem rid l) t'
  | _ :: t' => unanswered l t'
  end.

(** The missions of the first answer to each of the ids [l], in the order in which they come. *)
Fixpoint answers (l : list Z) (t : trace) : list mission :=
  match t with
  | [] => []
  | (Response rid ms, _) :: t' => if zin rid l then ms ++ answers (zrem rid l) t' else answers l t'
  | _ :: t' => answers l t'
  end.

(** ** Legs of a mission *)

Definition idle (w : wp) : Prop := w_tasks w = [].
Definition busy (w : wp) : Prop := w_tasks w <> [].

(** [k] are waypoints on task, the first for task [t]. *)
Definition on_task (k : list wp) (t : Z) : Prop :=
  exists w k' ts, k = w :: k' /\ w_tasks w = t :: ts /\ Forall busy k.

(** [legs z c p ws L]: the waypoints [ws], of a mission that ends with [z], hold the legs [L] if the vehicle
    comes from task [p] with the waypoints [c].  A leg goes from the end of the task before to the first
    waypoint after the task, or to the last waypoint. *)
Inductive legs (z : wp) : list wp -> Z -> list wp -> list (Z * Z * list wp) -> Prop :=
| legs_none c p a : Forall idle a -> legs z c p a []
| legs_last c p a k t : Forall idle a -> on_task k t -> legs z c p (a ++ k) [(p, t, c ++ a ++ k ++ [z])]
| legs_more c p a k t e r L : Forall idle a -> on_task k t -> idle e -> legs z [e] t r L ->
    legs z c p (a ++ k ++ e :: r) ((p, t, c ++ a ++ k ++ [e]) :: L).

Definition mission_legs (m : mission) (L : list (Z * Z * list wp)) : Prop :=
  (m_wps m = [] /\ L = []) \/ exists ws z, m_wps m = ws ++ [z] /\ legs z [] 0 ws L.

(** The legs among those of the missions that belong to a line. *)
Definition mine (k : Z * Z * Z) (ms : list mission) (Ls : list (list (Z * Z * list wp))) : list (list wp) :=
  flat_map (fun x => if m_vehicle (fst x) =? fst (fst k)
                     then map snd (filter (fun c => (fst (fst c) =? snd (fst k)) && (snd (fst c) =? snd k)) (snd x))
                     else []) (combine ms Ls).

(** Task ids of 32 bits. *)
Definition small (m : mission) : Prop :=
  forall w t, In w (m_wps m) -> In t (w_tasks w) -> -2147483648 <= t < 2147483648.

Definition proper (q : query) : Prop := NoDup (q_tasks q) /\ NoDup (q_vehicles q) /\ ~ In 0 (q_tasks q).

Section Spec.
  Context (flight : wp -> wp -> Z) (dist : Z -> Z -> Z) (hits : Z -> loiter -> bool).

  (** The flight time of the stretches of a leg that start at waypoints chosen by [sel]. *)
  Fixpoint spent (sel : wp -> bool) (ws : list wp) : Z :=
    match ws with
    | u :: (w :: _) as r => (if sel u then flight u w else 0) + spent sel r
    | _ => 0
    end.

  Definition tasked (w : wp) : bool := match w_tasks w with [] => false | _ => true end.

  (** A line that reports the legs [l]. *)
  Definition reports (x : vsum) (l : list (list wp)) : Prop :=
    v_wps x = concat l /\
    v_first x = match concat l with w :: _ => w_number w | [] => 0 end /\
    match rev l with
    | [] => v_onTask x = -1 /\ v_arrive x = -1
    | ws :: _ => v_onTask x = spent tasked ws /\ v_arrive x = spent (fun w => negb (tasked w)) ws
    end.

  (** The summary of [q] made from the answers [ms]. *)
  Definition sums_up (q : query) (ms : list mission) (p : summary) : Prop :=
    p_id p = q_id q /\ map t_task (p_sums p) = q_tasks q /\
    (proper q -> Forall small ms ->
     forall y, In y (p_sums p) ->
       map line (t_vehicles y) = lines q (t_task y) /\
       forall x Ls, In x (t_vehicles y) -> Forall2 mission_legs ms Ls -> reports x (mine (line x) ms Ls)).

  (** ** Communication *)

  (** A tower or the vehicle itself can bridge the distance [d]. *)
  Definition bridged (e : world) (v t d : Z) : Prop :=
    exists r on, zget (ranges e) t = Some (r, on) /\
      (d <= (if on then r else 1) \/ exists rs x, zget (radios e) v = Some rs /\ In x rs /\ d <= x).

  (** All of the way is within reach of the tower. *)
  Definition within (e : world) (v : Z) (ws : list wp) (t pos : Z) : Prop :=
    (forall at_, zget (states e) v = Some at_ -> bridged e v t (dist pos at_)) /\
    forall w, In w ws -> bridged e v t (dist pos (w_pos w)) /\
      forall l, In l (w_loiters w) -> bridged e v t (l_radius l + dist (l_pos l) pos).

  (** A line is judged by what is known of the world. *)
  Definition judged (e : world) (x : vsum) : Prop :=
    (v_beyond x = false <-> exists t pos, zget (towers e) t = Some pos /\
       (zget (states e) (v_vehicle x) = None \/ zget (ranges e) t = None \/ within e (v_vehicle x) (v_wps x) t pos)) /\
    ((exists w l id z, In w (v_wps x) /\ In l (w_loiters w) /\ zget (zones e) id = Some z /\ hits z l = true) -> v_roz x = true).
End Spec.

(** ** The world as last reported *)

(** The last answer of [f] in a history. *)
Fixpoint lastly {A} (f : event -> option A) (t : trace) : option A :=
  match t with
  | [] => None
  | (ev, _) :: t' => match lastly f t' with Some x => Some x | None => f ev end
  end.

Definition when {A} (b : bool) (x : A) : option A := if b then Some x else None.

Definition says_state (id : Z) (ev : event) : option Z :=
  match ev with State i p | TowerState i p _ => when (i =? id) p | _ => None end.
Definition says_radios (id : Z) (ev : event) : option (list Z) :=
  match ev with Config i rs | TowerConfig i rs _ _ _ => when (i =? id) rs | _ => None end.
Definition says_tower (id : Z) (ev : event) : option Z :=
  match ev with TowerConfig i _ p _ _ | TowerState i p _ => when (i =? id) p | _ => None end.
Definition says_range (id : Z) (ev : event) : option Z :=
  match ev with TowerConfig i _ _ r _ => when (i =? id) r | _ => None end.
Definition says_on (id : Z) (ev : event) : option bool :=
  match ev with TowerConfig i _ _ _ on | TowerState i _ on => when (i =? id) on | _ => None end.
Definition says_zone (id : Z) (ev : event) : option Z :=
  match ev with Zone i z => when (i =? id) z | _ => None end.

(** [e] is the world as last reported in [t]. *)
Definition knows (t : trace) (e : world) : Prop :=
  forall id,
    zget (states e) id = lastly (says_state id) t /\
    zget (radios e) id = lastly (says_radios id) t /\
    zget (towers e) id = lastly (says_tower id) t /\
    zget (zones e) id = lastly (says_zone id) t /\
    zget (ranges e) id = match lastly (says_range id) t, lastly (says_on id) t with
                         | Some r, Some on => Some (r, on)
                         | _, _ => None
                         end.

(** Model of the task tracker, /repo/src/cpp/Tasks/TaskTrackerService.cpp: which tasks a vehicle is
    working on, as seen from the waypoints it reports to fly to, and the notices that it completed
    one of them.

    Simplifications: of waypoints only the number, the number of the next one and the associated
    tasks are kept; [m_tasks] and [m_states] are written but never read and left out; 64 bit
    numbers are unbounded. *)
From Coq Require Import List ZArith Bool.
From Verif Require Import ZMap Run.
Import ListNotations.
Open Scope list_scope.
Open Scope Z_scope.

(** [afrl::cmasi::Waypoint] *)
Record wp := { w_number : Z; w_next : Z; w_tasks : list Z }.

(** The kind of a task message, TaskTrackerService.cpp:106-156: a loiter with its duration, a point
    search with the duration of its loiter if it has one, one of the other kinds that end (must fly,
    area, line, pattern and angled area search, comm relay, point search of CMASI), one of those that
    never end (watch, multi vehicle watch, blockade, cordon, escort), or a kind not tracked. *)
Inductive kind := Loiter (duration : Z) | Point (duration : option Z) | Ends | Endless | Untracked.

(** Messages received, TaskTrackerService.cpp:84-157 *)
Inductive ev :=
| State (v : Z) (current : Z)
| Response (l : list (Z * list wp))
| Mission (v : Z) (ws : list wp)
| Task (t : Z) (k : kind).

(** [uxas::messages::task::TaskComplete]: vehicle and task. *)
Inductive out := Complete (v t : Z).

(** TaskTrackerService.h:143-160 *)
Record st := {
  elig : list Z;               (* isTaskEligible *)
  missions : zmap (list wp);   (* m_missions *)
  prog : zmap (list Z);        (* m_tasksInProgress; no entry and an empty one behave alike *)
  over : zmap (Z * Z);         (* m_override: task and waypoint *)
  emit : zmap Z;               (* m_taskEmit *)
  taskWp : zmap (zmap Z)       (* m_taskWp *)
}.

(** TaskTrackerService.h:143-160 *)
Definition init : st :=
  {| elig := []; missions := []; prog := []; over := []; emit := []; taskWp := [] |}.

(** TaskTrackerService.cpp:126-155 *)
Definition task (s : st) (t : Z) (k : kind) : st :=
  let ok := match k with
            | Loiter d => 0 <? d
            | Point (Some d) => 0 <? d
            | Point None => false
            | Ends => true
            | Endless | Untracked => false
            end in
  {| elig := if ok then zadd t (elig s) else elig s; missions := missions s; prog := prog s;
     over := over s; emit := emit s; taskWp := taskWp s |}.

(** TaskTrackerService.cpp:297-314: the task of the last waypoint that has one. *)
Fixpoint lastTask (ws : list wp) : Z :=   (* [ws] from the last waypoint to the first *)
  match ws with
  | [] => 0
  | w :: ws' =>
      match w_tasks w with
      | [] => if 10000 <=? w_number w then Z.quot (w_number w) 10000 else lastTask ws'
      | t :: _ => t
      end
  end.

(** TaskTrackerService.cpp:282-321 *)
Definition mission (s : st) (v : Z) (ws : list wp) : st :=
  {| elig := elig s; missions := zset (missions s) v ws; prog := zset (prog s) v [];
     over := match rev ws with
             | w :: _ =>
                 if (w_number w =? w_next w) && (0 <? lastTask (rev ws))
                 then zset (zdel (over s) v) v (lastTask (rev ws), w_number w)
                 else zdel (over s) v
             | [] => zdel (over s) v
             end;
     emit := emit s; taskWp := taskWp s |}.

Definition getl {A} (m : zmap (list A)) (k : Z) : list A :=
  match zget m k with Some l => l | None => [] end.

Section Tracker.
  (** The iteration order of a hash set of tasks. *)
  Context (ord : list Z -> list Z).

  (** TaskTrackerService.cpp:225-277, one task in progress: [block] and [inner] are the task and
      waypoint read off the waypoint's number, [ts] its associated tasks. *)
  Definition check (v block inner : Z) (ts : list Z) (a : st * list out) (t : Z) : st * list out :=
    let s := fst a in
    let same := t =? block in
    let mine := getl (taskWp s) v in
    let back := match zget mine t with Some n => inner <? n | None => inner <? 0 end in
    let complete := if same then back else negb (zin t ts) in
    let wps1 := if same then zset (taskWp s) v (zset mine t inner) else taskWp s in
    if complete then
      let t' := match zget (emit s) t with Some x => x | None => t end in
      ({| elig := elig s; missions := missions s; prog := zset (prog s) v (zrem t (getl (prog s) v));
          over := over s; emit := zdel (emit s) t; taskWp := zset wps1 v [] |},
       snd a ++ if zin t' (elig s) then [Complete v t'] else [])
    else
      ({| elig := elig s; missions := missions s; prog := prog s; over := over s; emit := emit s;
          taskWp := wps1 |}, snd a).

  (** TaskTrackerService.cpp:206-278 *)
  Definition at_waypoint (s : st) (v : Z) (w : wp) : st * list out :=
    let block := Z.quot (w_number w) 10000 in
    let inner := Z.rem (w_number w) 10000 in
    let p0 := getl (prog s) v in
    let p1 := if 0 <? block then zadd block p0 else p0 in
    let e1 := if 0 <? block then match w_tasks w with t :: _ => zset (emit s) block t | [] => emit s end
              else emit s in
    let p2 := fold_left (fun a t => zadd t a) (w_tasks w) p1 in
    fold_left (check v block inner (w_tasks w)) (ord p2)
      ({| elig := elig s; missions := missions s; prog := zset (prog s) v p2; over := over s;
          emit := e1; taskWp := taskWp s |}, []).

  (** TaskTrackerService.cpp:181-203: the task set is created and the waypoint looked up. *)
  Definition flown (s : st) (v current : Z) : st * list out :=
    match zget (missions s) v with
    | None => (s, [])
    | Some ws =>
        match find (fun w => w_number w =? current) ws with
        | None => (s, [])
        | Some w => at_waypoint s v w
        end
    end.

  (** TaskTrackerService.cpp:160-280 *)
  Definition state (s : st) (v current : Z) : st * list out :=
    match zget (over s) v with
    | Some (t, n) =>
        if current =? n then
          ({| elig := elig s; missions := missions s;
              prog := match zget (prog s) v with
                      | Some l => zset (prog s) v (zrem t l)
                      | None => prog s
                      end;
              over := zdel (over s) v; emit := emit s; taskWp := taskWp s |},
           if zin t (elig s) then [Complete v t] else [])
        else flown s v current
    | None => flown s v current
    end.

  (** TaskTrackerService.cpp:77-158 *)
  Definition step (s : st) (e : ev) : st * list out :=
    match e with
    | State v c => state s v c
    | Response l => (fold_left (fun s m => mission s (fst m) (snd m)) l s, [])
    | Mission v ws => (mission s v ws, [])
    | Task t k => (task s t k, [])
    end.

  Definition history (evs : list ev) : list (ev * list out) := snd (run step init evs).
End Tracker.

(** What the task tracker is expected to report, in terms of the messages alone. *)
From Coq Require Import List ZArith.
From Verif Require Import TrackerModel.
Import ListNotations.
Open Scope list_scope.
Open Scope Z_scope.

(** A task of this kind comes to an end by itself. *)
Definition ending (k : kind) : Prop :=
  match k with
  | Loiter d => d > 0
  | Point (Some d) => d > 0
  | Point None => False
  | Ends => True
  | Endless | Untracked => False
  end.

(** In the messages [h] the task was announced as one that comes to an end. *)
Definition endable (h : list ev) (t : Z) : Prop := exists k, In (Task t k) h /\ ending k.

(** The message gives the vehicle [v] the mission [M]. *)
Definition gives (v : Z) (M : list wp) (e : ev) : Prop :=
  match e with
  | Mission v' ws => v' = v /\ ws = M
  | Response l => exists l1 l2, l = l1 ++ (v, M) :: l2 /\ forall M', ~ In (v, M') l2
  | _ => False
  end.

(** After [h] the mission of [v] is [M], and since it was given the vehicle reported to fly to the
    waypoints [rs], the latest last. *)
Definition since (v : Z) (h : list ev) (M : list wp) (rs : list Z) : Prop :=
  exists h1 e h2, h = h1 ++ e :: h2 /\ gives v M e /\ (forall e' M', In e' h2 -> ~ gives v M' e') /\
    rs = flat_map (fun e' => match e' with State v' c => if v' =? v then [c] else [] | _ => [] end) h2.

(** In the mission the waypoint numbered [c] has the tasks [ts]. *)
Definition place (M : list wp) (c : Z) (ts : list Z) : Prop :=
  exists a w b, M = a ++ w :: b /\ w_number w = c /\ w_tasks w = ts /\
    forall x, In x a -> w_number x <> c.

(** The mission ends in a waypoint numbered [c] that leads nowhere, and [t] is the task of the last
    waypoint that has one. *)
Definition closing (M : list wp) (t c : Z) : Prop :=
  (exists a w, M = a ++ [w] /\ w_number w = c /\ w_next w = c) /\
  0 < t /\ exists a x b ts, M = a ++ x :: b /\ w_tasks x = t :: ts /\ forall y, In y b -> w_tasks y = [].

(** The report [c] is the first one, after the reports [rs], of the end of the mission. *)
Definition arrives (M : list wp) (rs : list Z) (c : Z) : Prop :=
  (exists t, closing M t c) /\ ~ In c rs.

(** After the reports [rs] the vehicle works on the task: the latest report of a waypoint of the
    mission was of one of the task, the first report of the end of the mission being left out; and
    the task was not ended by that. *)
Definition working (M : list wp) (rs : list Z) (t : Z) : Prop :=
  exists a c b ts, rs = a ++ c :: b /\ ~ arrives M a c /\ place M c ts /\ In t ts /\
    forall a' c' b', b = a' ++ c' :: b' ->
      (arrives M (a ++ c :: a') c' /\ ~ closing M t c') \/
      (~ arrives M (a ++ c :: a') c' /\ forall ts', ~ place M c' ts').

(** The numbers of waypoints in all missions are those of ordinary ones, see
    TaskTrackerService.cpp:206, and tasks have positive numbers. *)
Definition ordinary (h : list ev) : Prop :=
  forall v M e w, In e h -> gives v M e -> In w M ->
    0 <= w_number w < 10000 /\ forall t, In t (w_tasks w) -> 0 < t.

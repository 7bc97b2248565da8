(** What it means for a vehicle to fly along the waypoints of a mission: the words in which the
    theorems on the steering service (C67) are stated.  Nothing here refers to how the service works. *)
From Coq Require Import List ZArith Bool.
From Verif Require Import SteeringModel.
Import ListNotations.
Open Scope list_scope.
Open Scope Z_scope.

(** The waypoint with number [n]: the first one in the list. *)
Definition numbered (ws : list wp) (n : Z) (w : wp) : Prop :=
  exists a b, ws = a ++ w :: b /\ w_num w = n /\ forall x, In x a -> w_num x <> n.
(** The loiter at a waypoint: the first one among its actions. *)
Definition loiters (w : wp) (l : loiter) : Prop :=
  exists a b, w_actions w = a ++ Loiter l :: b /\ forall x, In x a -> x = OtherAction.
Definition plain (w : wp) : Prop := forall l, ~ In (Loiter l) (w_actions w).

(** The place flown to: that of the loiter, or else that of the waypoint. *)
Definition goal (w : wp) (x : place) : Prop :=
  (exists l, loiters w l /\ x = l_place l) \/ (plain w /\ x = w_place w).

(** The square of the distance between two points. *)
Definition dist2 (a b : point) : Z := (fst a - fst b) * (fst a - fst b) + (snd a - snd b) * (snd a - snd b).

(** The waypoint after [w]. *)
Definition follows (ws : list wp) (w w' : wp) : Prop := numbered ws (w_next w) w' /\ w_next w <> w_num w.

Section Spec.
  (** The acceptance time, the acceptance distance in micrometres, and the conversion to north and east. *)
  Context (accept reach : Z) (rel : place -> place -> point).

  (** At time [now] and place [p] the waypoint [w] is passed, where [prev] is the begin of the leg and
      [start] the time at which the vehicle was sent to [w]:
      - the vehicle is on or beyond the line through the waypoint at a right angle to the leg,
      - or the leg is at most a metre long,
      - or the turn may be short and the vehicle is within the acceptance distance,
      - or, for a loiter that is not for ever, its duration has passed since [start]. *)
  Inductive passed (now : Z) (p : place) (w : wp) (prev : point) (start : Z) : Prop :=
  | passed_line : plain w ->
      (fst prev - fst (rel p (w_place w))) * (fst (rel p p) - fst (rel p (w_place w))) +
      (snd prev - snd (rel p (w_place w))) * (snd (rel p p) - snd (rel p (w_place w))) <= 0 ->
      passed now p w prev start
  | passed_short : plain w -> dist2 (rel p (w_place w)) prev <= 1000 * 1000 -> passed now p w prev start
  | passed_near : plain w -> w_short w = true -> 0 < accept -> 0 <= reach ->
      1000 * 1000 * dist2 (rel p p) (rel p (w_place w)) <= reach * reach -> passed now p w prev start
  | passed_time : forall l, loiters w l -> l_duration l <> -1 -> l_duration l <= now - start ->
      passed now p w prev start.

  (** Flying on from [w], with the leg from [prev], past the waypoints [l], to [w']: each one is passed
      and the next one follows it; the next leg begins where the last one ended. *)
  Inductive flies (ws : list wp) (now : Z) (p : place) :
    wp -> point -> Z -> list wp -> wp -> point -> Z -> Prop :=
  | flies_here : forall w prev start, flies ws now p w prev start [] w prev start
  | flies_on : forall w prev start x w1 l w' prev' start',
      passed now p w prev start -> follows ws w w1 -> goal w x ->
      flies ws now p w1 (rel p x) now l w' prev' start' ->
      flies ws now p w prev start (w :: l) w' prev' start'.
End Spec.

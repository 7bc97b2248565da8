(** What cutting a mission into segments is supposed to do. *)
From Coq Require Import List ZArith Bool.
From Verif Require Import Run WaypointModel.
Import ListNotations.
Open Scope list_scope.
Open Scope Z_scope.

(** [l] is cut into the segments [gs]: every segment but the last has [n] elements; the end
    [c] of each segment is repeated at the start of the next, and the number of repeated
    elements satisfies [P]. *)
Inductive segmented {A : Type} (n : nat) (P : nat -> Prop) : list A -> list (list A) -> Prop :=
| seg_last l : l <> [] -> (length l <= n)%nat -> segmented n P l [l]
| seg_more a c l gs :
    length (a ++ c) = n -> P (length c) -> l <> [] -> a <> [] ->
    segmented n P (c ++ l) gs -> segmented n P (a ++ c ++ l) ((a ++ c) :: gs).

(** The number of the waypoint to head for: the second one of a segment, or the only one. *)
Definition heading (l : list wp) : option Z :=
  match l with
  | [] => None
  | [x] => Some (w_num x)
  | _ :: y :: _ => Some (w_num y)
  end.

(** Waypoints [x] and [y] follow one another in [l]. *)
Definition follows (l : list wp) (x y : wp) : Prop := exists a b, l = a ++ x :: y :: b.

(** [g] is a part of [l] without gaps. *)
Definition part {A : Type} (g l : list A) : Prop := exists a b, l = a ++ g ++ b.

(** A mission as a vehicle can fly it: waypoint numbers are not negative and not repeated. *)
Definition flyable (l : list wp) : Prop :=
  l <> [] /\ NoDup (map w_num l) /\ forall w, In w l -> 0 <= w_num w.

Definition trace := list (event * list seg).

(** The missions received for vehicle [v]. *)
Definition mission_of (v : Z) (e : event) : list (list wp) :=
  match e with
  | EvMission v' wps => if v' =? v then [wps] else []
  | EvResponse ms => match find (fun m => fst m =? v) ms with Some m => [snd m] | None => [] end
  | _ => []
  end.

(** The waypoint reported by vehicle [v]. *)
Definition report_of (v : Z) (e : event) : list Z :=
  match e with EvState v' w => if v' =? v then [w] else [] | _ => [] end.

(** In mission [l], waypoint number [w'] is [w] or comes after it. *)
Definition along (l : list wp) (w w' : Z) : Prop :=
  exists p q, map w_num l = p ++ w :: q /\ In w' (w :: q).

(** The mission of vehicle [v] and the waypoint of it the vehicle was last known to head for:
    the first one after a new mission, then whatever the vehicle reports. *)
Definition at_ (v : Z) (p : list wp * option Z) (e : event) : list wp * option Z :=
  match mission_of v e with
  | m :: _ => (m, hd_error (map w_num m))
  | [] => match report_of v e with
          | w :: _ => (fst p, if existsb (fun x => w_num x =? w) (fst p) then Some w else snd p)
          | [] => p
          end
  end.

Definition position (v : Z) (evs : list event) : list wp * option Z :=
  fold_left (at_ v) evs ([], None).

(** The last mission received for vehicle [v] that has waypoints. *)
Definition plan (v : Z) (evs : list event) : list wp :=
  fold_left (fun p e => match mission_of v e with (_ :: _) as m :: _ => m | _ => p end) evs [].

(** Missions for the vehicle are empty or can be flown. *)
Definition sensible (v : Z) (evs : list event) : Prop :=
  forall e m, In e evs -> In m (mission_of v e) -> m = [] \/ flyable m.

(** The vehicle never reports a waypoint that comes before its current one. *)
Definition forward (v : Z) (evs : list event) : Prop :=
  forall a w b w0, evs = a ++ EvState v w :: b -> snd (position v a) = Some w0 ->
    In w (map w_num (fst (position v a))) -> along (fst (position v a)) w0 w.

(** Segment [g] sends the vehicle to waypoint [w], or past it if it is the first of [g]. *)
Definition aims (g : seg) (w : Z) : Prop :=
  if match hd_error (map w_num (s_wps g)) with Some f => w =? f | None => false end
  then heading (s_wps g) = Some (s_first g)
  else s_first g = w.

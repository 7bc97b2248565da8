(** Model of how a rendezvous controls the speed of its vehicles, /repo/src/cpp/Tasks/RendezvousTask.cpp:85-91, 519-707
    (the distances of processReceivedLmcpMessageTask, SpeedClip, activeEntityState, ArrivalDistance, FindWaypointIndex), in real numbers.

    Whether a vehicle is at the task when it reports is part of the report; TaskServiceBase.cpp:256-265 decides it.  The order in which the
    map of distances is gone through is a parameter.  Pointers to waypoints are not null, and states have a location.  Times are not
    limited to 64 bits.  A neighbour without configuration, for which the code dereferences the end of a map, is a result of its own. *)
From Coq Require Import Reals List ZArith Bool.
From Verif Require Import ZMap FlatEarthModel RvRouteModel.
Import ListNotations.
Open Scope R_scope.

(** The speeds in the configuration of an air vehicle. *)
Record speeds := { s_nominal : R; s_min : R; s_max : R }.
Record point := { p_lat : R; p_lon : R; p_num : Z; p_next : Z; p_tasks : list Z }.
(** A report of a vehicle; [r_air] is the airspeed, if it is an air vehicle. *)
Record report := { r_id : Z; r_time : Z; r_lat : R; r_lon : R; r_ground : R; r_air : option R; r_current : Z }.

Inductive ev :=
| Config (v : Z) (c : option speeds)
| Mission (v : Z) (ws : list point)
| Report (st : report) (active : bool).

(** Configurations (without speeds if they are not for air vehicles), missions, and distances with the times they are from. *)
Record state := { configs : zmap (option speeds); missions : zmap (list point); distances : zmap (Z * R) }.
Definition init : state := {| configs := []; missions := []; distances := [] |}.

Definition tiny : R := / 10 ^ 4.

(** 519-533 (SpeedClip): the limits, and the nominal speed, which is an argument by reference. *)
Definition speed_clip (c : option speeds) (nom : R) : R * R * R :=
  match c with
  | None => (nom, nom, nom)
  | Some c =>
    let nom := if Rlt_dec (s_nominal c) tiny then nom else s_nominal c in
    let lo := if Rlt_dec (s_min c) tiny then nom else if Rlt_dec nom (s_min c) then nom else s_min c in
    let hi := if Rlt_dec (s_max c) nom then nom else s_max c in
    (lo, hi, nom)
  end.

(** 699-707 (FindWaypointIndex), with the waypoint. *)
Fixpoint find_point (i : nat) (ws : list point) (n : Z) : option (nat * point) :=
  match ws with
  | [] => None
  | w :: ws => if Z.eqb (p_num w) n then Some (i, w) else find_point (S i) ws n
  end.

(** 671-694: the loop; [fuel] is enough if it is more than the number of waypoints. *)
Fixpoint follow (fuel : nat) (task : Z) (ws : list point) (seen : list nat) (n : Z) : list point :=
  match fuel with
  | O => []
  | S fuel =>
    match find_point 0 ws n with
    | None => []
    | Some (i, w) => if existsb (Nat.eqb i) seen then []
                     else if zin task (p_tasks w) then w :: follow fuel task ws (i :: seen) (p_next w) else []
    end
  end.

(** 676, 685-689: the length of the way from a place. *)
Fixpoint length_from (e : earth) (p : R * R) (ws : list point) : R :=
  match ws with
  | [] => 0
  | w :: ws => let q := snd (deg_ne_m (p_lat w) (p_lon w) e) in
               sqrt ((fst q - fst p) * (fst q - fst p) + (snd q - snd p) * (snd q - snd p)) + length_from e q ws
  end.

(** 655-697 (ArrivalDistance). *)
Definition arrival_distance (task : Z) (s : state) (st : report) : R :=
  match zget (missions s) (r_id st) with
  | None => 0
  | Some ws => length_from (initialize (r_lat st * deg_to_rad) (r_lon st * deg_to_rad) fresh) (0, 0)
                 (follow (S (length ws)) task ws [] (r_current st))
  end.

(** What is gathered about the times: the earliest and the latest one that suits all, and the nominal ones. *)
Record window := { earliest : Z; last : Z; wanted : list Z }.

(** 563-595: one neighbour; no result stands for undefined behaviour. *)
Definition neighbour (s : state) (st : report) (nom : R) (w : window) (x : Z * (Z * R)) : option window :=
  let '(v, (t, d)) := x in
  if Rlt_dec d nom then Some w else if Z.eqb v (r_id st) then Some w else
  match zget (configs s) v with
  | None => None
  | Some c =>
    let '(lo, hi, n) := speed_clip c nom in
    let dt := Z.max 0 (r_time st - t) in
    let tmid := trunc (d / n * 1000 - IZR dt) in
    let tmax := trunc (d / lo * 1000 - IZR dt) in
    let tmin := trunc (d / hi * 1000 - IZR dt) in
    if (Z.ltb 1000 tmid && Z.ltb dt 5000)%bool then
      Some {| earliest := if Z.ltb (earliest w) tmin then tmin else earliest w;
              last := if Z.ltb tmax (last w) then tmax else last w;
              wanted := wanted w ++ [tmid] |}
    else Some w
  end.
Fixpoint neighbours (s : state) (st : report) (nom : R) (w : window) (l : list (Z * (Z * R))) : option window :=
  match l with
  | [] => Some w
  | x :: l => match neighbour s st nom w x with Some w => neighbours s st nom w l | None => None end
  end.

(** 597-617: when to be there. *)
Definition meeting (w : window) : Z :=
  if Z.leb (earliest w) (last w) then
    Z.max (earliest w) (Z.min (last w) (Z.quot (fold_left Z.add (wanted w) 0%Z) (Z.of_nat (length (wanted w)))))
  else (Z.quot (earliest w - last w) 2 + earliest w)%Z.

(** 630-640: the speed to be there then. *)
Definition desired (lo hi nom dist : R) (rtime : Z) : R :=
  let d := if Z.ltb 1000 rtime then if Rlt_dec nom dist then Rmax lo (Rmin hi (dist / (IZR rtime / 1000))) else nom else nom in
  let d := d + 2 * (d - nom) in
  Rmax lo (Rmin hi d).

(** A command to a vehicle to fly at a speed. *)
Record command := { c_vehicle : Z; c_speed : R }.

Section Order.
  (** The order in which the map of distances is gone through. *)
  Context (order : list (Z * (Z * R)) -> list (Z * (Z * R))).

  (** 535-653 (activeEntityState). *)
  Definition control (task : Z) (s : state) (st : report) : option (list command) :=
    match zget (configs s) (r_id st) with
    | Some (Some c) =>
      let nom := if Rlt_dec (s_nominal c) tiny then match r_air st with Some a => a | None => r_ground st end else s_nominal c in
      if Rlt_dec nom tiny then Some [] else
      let '(lo, hi, nom) := speed_clip (Some c) nom in
      let dist := arrival_distance task s st in
      let w := {| earliest := trunc (dist / hi * 1000); last := trunc (dist / lo * 1000); wanted := [trunc (dist / nom * 1000)] |} in
      match neighbours s st nom w (order (distances s)) with
      | None => None
      | Some w => Some [{| c_vehicle := r_id st; c_speed := desired lo hi nom dist (meeting w) |}]
      end
    | _ => Some []
    end.

  (** 85-91 and TaskServiceBase.cpp:256-265, 641-649. *)
  Definition step (task : Z) (s : state) (e : ev) : option (state * list command) :=
    match e with
    | Config v c => Some ({| configs := zset (configs s) v c; missions := missions s; distances := distances s |}, [])
    | Mission v ws => Some ({| configs := configs s; missions := zset (missions s) v ws; distances := distances s |}, [])
    | Report st active =>
      match (if active then control task s st else Some []) with
      | None => None
      | Some out => Some ({| configs := configs s; missions := missions s;
                             distances := zset (distances s) (r_id st) (r_time st, arrival_distance task s st) |}, out)
      end
    end.
  Fixpoint run (task : Z) (s : state) (evs : list ev) : option (state * list (list command)) :=
    match evs with
    | [] => Some (s, [])
    | e :: evs => match step task s e with
                  | None => None
                  | Some (s, o) => match run task s evs with Some (s, os) => Some (s, o :: os) | None => None end
                  end
    end.
End Order.

(** Model of the spiral pattern of src/cpp/Tasks/PatternSearchTaskService.cpp (isCalculatePatternScanRoute_Spiral, lines 438-591): the
    waypoints of the vehicle, the road on which its sensor looks, cut into segments, and the cost.

    Numbers are real.  The loop has fuel; [Running] is a loop that has not ended.  Left out: the altitude and speed of the
    waypoints, which are the same for all, and the entry of the route and the option in the lists of the task. *)
From Coq Require Import Reals List ZArith.
From Verif Require Import FlatEarthModel SteeringCourseModel SensorSteeringModel SectorModel.
Import ListNotations.
Open Scope R_scope.

(** The task and its settings (PatternSearchTaskService.h:173-174): the centre is in metres north and east; [inner] is the least
    distance of the vehicle from it. *)
Record spiral := { middle : R * R; reach : R; width : R; inner : R; level : R; speed : R }.

(** PatternSearchTaskService.cpp:489-560: radius and angle of each pass; 50 m between them. *)
Fixpoint passes (fuel : nat) (p : spiral) (previous theta : R) (first : bool) : option (list (R * R)) :=
  match fuel with
  | O => None
  | S f =>
      if Rle_dec previous (reach p + 55 / 100 * width p) then
        let r := if first then 50 else 45 / 100 * width p * (1 + theta / dPi) in
        option_map (cons (r, theta)) (passes f p r (if Rlt_dec 0 r then theta + 50 / r else theta) false)
      else Some []
  end.

(** PatternSearchTaskService.cpp:497-498, 512-513: the place at a radius and an angle. *)
Definition around (p : spiral) (r theta : R) : R * R := (r * sin theta + fst (middle p), r * cos theta + snd (middle p)).

(** PatternSearchTaskService.cpp:500. *)
Definition road_point (p : spiral) (x : R * R) : point :=
  let (n, e) := around p (fst x) (snd x) in {| north := n; east := e; altitude := 0 |}.

(** PatternSearchTaskService.cpp:502-513. *)
Definition vehicle (p : spiral) (x : R * R) : R * R :=
  around p (if Rlt_dec (fst x) (inner p) then inner p else fst x) (snd x).

(** PatternSearchTaskService.cpp:516-523: degrees. *)
Definition location (e : earth) (p : spiral) (x : R * R) : R * R := m_ll_deg (fst (vehicle p x)) (snd (vehicle p x)) e.

(** PatternSearchTaskService.cpp:526; SensorSteering.h:61-64. *)
Definition way_point (e : earth) (p : spiral) (x : R * R) : point :=
  let (la, lo) := location e p x in
  let (_, q) := rad_ne_m (deg_to_rad * la) (deg_to_rad * lo) e in
  {| north := fst q; east := snd q; altitude := level p |}.

(** PatternSearchTaskService.cpp:500-549, 561-566: the segments, as waypoints and road points. *)
Fixpoint segments (e : earth) (p : spiral) (initial : bool) (n : Z) (ways roads : list (Z * point)) (l : list (R * R))
  : list (list (Z * point) * list (Z * point)) :=
  match l with
  | [] => match ways, roads with [], _ | _, [] => [] | _, _ => [(ways, roads)] end
  | x :: r =>
      let w := (n, way_point e p x) in let q := ((n - 1)%Z, road_point p x) in
      if andb initial (if Rlt_dec (fst x) (inner p) then false else true)
      then (ways ++ [w], roads ++ [q]) :: segments e p false (n + 1) [w] [q] r
      else segments e p initial (n + 1) (ways ++ [w]) (roads ++ [q]) r
  end.

(** PatternSearchTaskService.cpp:514-515, 550, 557-558: the distance. *)
Fixpoint distance (p : spiral) (last : R * R) (l : list (R * R)) : R :=
  match l with
  | [] => 0
  | x :: r => let v := vehicle p x in
      sqrt ((fst v - fst last) ^ 2 + (snd v - snd last) ^ 2) + distance p v r
  end.

(** PatternSearchTaskService.cpp:514-515, 568: the heading at the end, in degrees. *)
Fixpoint end_heading (p : spiral) (last delta : R * R) (l : list (R * R)) : R :=
  match l with
  | [] => atan2 (snd delta) (fst delta) * rad_to_deg
  | x :: r => let v := vehicle p x in end_heading p v (fst v - fst last, snd v - snd last) r
  end.

(** The waypoints of the route with their numbers. *)
Fixpoint numbered {A} (n : Z) (l : list A) : list (Z * A) :=
  match l with [] => [] | x :: r => (n, x) :: numbered (n + 1) r end.

(** The plan: waypoints with latitude and longitude, segments, heading at the end, cost in milliseconds. *)
Record route_plan := { route_points : list (Z * (R * R)); steer : list (Z * steering); final : R; cost : Z }.
(** [Invalid] is the use of the last waypoint of an empty list (569). *)
Inductive outcome := Running | Refused | Invalid | Planned (r : route_plan).

(** PatternSearchTaskService.cpp:438-591. *)
Definition plan (fuel : nat) (e : earth) (lat lon ext lane center alt v : R) : outcome :=
  if Rlt_dec 0 lane then
    let (e, c) := deg_ne_m lat lon e in
    let p := {| middle := c; reach := ext; width := lane; inner := center; level := alt; speed := v |} in
    match passes fuel p 0 0 true with
    | None => Running
    | Some [] => Invalid
    | Some l =>
        Planned {| route_points := numbered 1 (map (location e p) l);
                   steer := fold_left (fun m s => add (fst s) (snd s) m) (segments e p true 1 [] [] l) [];
                   final := end_heading p (0, 0) (0, 0) l;
                   cost := trunc ((if Rlt_dec 0 v then distance p (0, 0) l / v else 0) * 1000) |}
    end
  else Refused.

(** PatternSearchTaskService.cpp:583: std::unordered_map::insert, which keeps an entry with the same key; the map is never cleared. *)
Definition keep {A} (m : list (Z * A)) (x : Z * A) : list (Z * A) := match find (fst x) m with Some _ => m | None => m ++ [x] end.

(** PatternSearchTaskService.cpp:727-731: the segments used for an option, after the plans with option numbers so far. *)
Definition active (plans : list (Z * list (Z * steering))) (option_id : Z) : option (list (Z * steering)) :=
  find option_id (fold_left keep plans []).

(** Model of how the waypoints of a route are listed by the route planner once the way around the zones is found:
    [isCalculateWaypoints] (Services/RoutePlannerVisibilityService.cpp:432-446, 546-568), [isGenerateWaypoints] and [errGenerateWaypoints]
    (Plans/VisibilityGraph.cpp:1212-1266, 1306-1535), [errSmoothPath] (1540-1980), [dCalculateFinalHeading_rad] (Plans/Assignment.h:435-471),
    and of Plans/Trajectory.cpp [dMinimumDistance] (31-68), [dMinimumDistanceEuclidean] (71-118), [dMinimumDistanceDubins] (121-264) and
    [CalculateTaskHeading] (269-377).

    The way comes from [VisModel], the ways of turns from [DubinsModel].  Of a waypoint only its place is put into the plan
    (VisibilityGraph.cpp:1252-1256).  Left out: the rounding of distances and sines to 1.0e-9 in [CalculateTaskHeading], altitudes, the change
    to latitude and longitude (see [FlatEarthModel]).  The planner hands over one heading for the end, with no stand off and no free turn, so
    the loop over the headings at 134-224 has one round.  In [errSmoothPath] the flag for rounding off corners is never set (1568), so that
    part does nothing. *)
From Coq Require Import Reals List ZArith QArith Qreals.
From Verif Require Import SteeringCourseModel SegModel VisModel DubinsModel.
Import ListNotations.
Open Scope R_scope.

(** Constants: degrees to radians *)
Definition rad_of (d : R) : R := d * (PI / 180).

(** Trajectory.cpp:269-377, with no stand off: the heading back from [f] for a vehicle at [p] with heading [h].  The case at 318-331 does not
    come up without a stand off: the two centres are two radii apart. *)
Definition task_heading (p : place) (h : R) (f : place) (r : R) : R :=
  let c1 := (fst p - r * sin h, snd p + r * cos h) in
  let c2 := (fst p + r * sin h, snd p - r * cos h) in
  let to := angle_at f p in
  let d := apart p f in
  if Rle_dec (Rabs d) (1 / 1000000000) then h else
  let d1 := apart c1 f in
  let d2 := apart c2 f in
  let diff := norm_angle ((PI / 2 - h) - to) in
  let case := if Rlt_dec (PI / 2) diff then (if Rlt_dec diff (3 * (PI / 2)) then 1 else -1) else -1 in
  let left_ := if Rle_dec r d2 then (if Rlt_dec d2 d1 then true else if Rlt_dec d1 r then true else false) else false in
  let phi := if left_ then - asin (r / d2) + case * acos ((- (r * r) + d2 * d2 + d * d) / (2 * d2 * d))
             else asin (r / d1) - case * acos ((- (r * r) + d1 * d1 + d * d) / (2 * d1 * d)) in
  norm_angle (PI / 2 - (to - phi)).

(** Trajectory.cpp:31-68: the waypoints from [p] with heading [h] to [f]; [back] is the heading from [f] back, if it is given *)
Definition leg (straight : bool) (p : place) (h : R) (f : place) (back : option R) (r sep : R) : list place :=
  if (if straight then true else if Rlt_dec r 1 then true else false) then [p; f]
  else
    let b := match back with Some b => b | None => task_heading p h f r end in
    match dubins p h f (norm_angle (b + PI)) r sep with
    | Some (_, ws) => map spot ws
    | None => []
    end.

(** VisibilityGraph.cpp:1547-1562: a place less than a metre behind the one before is taken out, and the search begins again *)
Fixpoint take_out (l : list place) : option (list place) :=
  match l with
  | [] => None
  | a :: t =>
      match t with
      | [] => None
      | b :: r =>
          if Rlt_dec (apart a b) 1 then Some (a :: r)
          else match take_out t with Some t' => Some (a :: t') | None => None end
      end
  end.
Fixpoint thin (rounds : nat) (l : list place) : list place :=
  match rounds with
  | O => l
  | S k => match take_out l with Some l' => thin k l' | None => l end
  end.

(** Assignment.h:440-454: from the back to the first place more than 10 m away, or to the first of all; [l] is backwards *)
Fixpoint behind (last : place) (l : list place) : place :=
  match l with
  | [] => last
  | [x] => x
  | x :: r => if Rlt_dec 10 (apart last x) then x else behind last r
  end.
(** Assignment.h:435-471 *)
Definition final_heading (l : list place) : R :=
  match rev l with
  | last :: x :: r => PI / 2 - angle_at (behind last (x :: r)) last
  | _ => 0
  end.

(** VisibilityGraph.cpp:1540-1980: the places kept and the heading behind them.  The last place of the path is not among them. *)
Definition smooth (path : list place) : list place * R :=
  let t := thin (length path) path in
  let kept := match t with [a] => [a] | _ => removelast t end in
  (kept, final_heading kept).

Inductive result :=
| Listed (ws : list place)      (* waypoints are put into the plan *)
| Failed                        (* errPathConstruction *)
| Undefined.                    (* the last element of an empty vector is used *)

(** VisibilityGraph.cpp:1306-1535: [corners] are those passed, none if there is nothing between, [None] if they cannot be listed *)
Definition generate (straight : bool) (start : place) (h : R) (corners : option (list place)) (direct : bool) (finish : place) (back r sep : R) :
  result :=
  if direct then Listed (leg straight start h finish (Some back) r sep)
  else
    match corners with
    | None => Failed
    | Some [] => Failed
    | Some (c :: cs) =>
        match leg straight start h c None r sep with
        | [] => Undefined
        | w :: ws =>
            let path := (c :: cs) ++ [finish] in
            let '(mids, h2) := if straight then (path, 0) else smooth path in
            let so_far := (w :: ws) ++ mids in
            Listed (so_far ++ leg straight (last so_far start) h2 finish (Some back) r sep)
        end
    end.

(** Positions of the graph are rational. *)
Definition place_of (p : pos) : place := (Q2R (north p), Q2R (east p)).
(** VisibilityGraph.h, vposGetVerticiesBase: the corner with a number *)
Definition corner_place (ps : list polygon) (i : Z) : place :=
  match List.find (fun v => Z.eqb (fst v) i) (flat_map p_verts ps) with Some v => place_of (snd v) | None => (0, 0) end.

(** RoutePlannerVisibilityService.cpp:410-446 and VisibilityGraph.cpp:1212-1266: the waypoints put into the plan for a request from [A] to [B]
    with headings in degrees and whether each is to be used.  Nothing is listed if the places cannot be. *)
Definition plan_points (ps : list polygon) (dist parent : Z -> Z -> Z) (n : nat) (A B : pos) (use_start use_end : bool) (hs he r sep : R) : result :=
  let p := find_path dist ps A B in
  let straight := negb use_end && negb use_start in
  generate straight (place_of (pa_start p)) (rad_of hs)
    (match trail parent n p with Some is => Some (map (corner_place ps) is) | None => None end) (Z.ltb (pa_first p) 0)
    (place_of (pa_end p)) (rad_of (he - 180)) r sep.

(** Model of how the way between two places with given headings is worked out for the route planner: Plans/Trajectory.cpp:1052-1644
    ([dCalculateTrajectoryDubins], [szMinimumDistanceCircle], [szMinimumDistanceTurnTurnTurn], [AddWaypointsForTurn]) with
    [CPosition] (Plans/Position.h), [CCircle] (Plans/Circle.h), [CAssignment::dGetDistanceTotal] (Plans/Assignment.h:180-197) and the angles
    of Includes/Constants/Convert.h.  The way is a list of waypoints, each with the length of the leg to it and the circle it is on.

    Coordinates are real numbers and [dPi] is pi.  Left out: rounding, altitudes, speeds and times of the legs, numbers of the waypoints and
    the marks that keep a waypoint from being removed.  The path types for wind and [dLengthenPath] are not used by the planner. *)
From Coq Require Import Reals List ZArith.
From Verif Require Import SteeringCourseModel.
Import ListNotations.
Open Scope R_scope.

(** Position.h: metres north and east *)
Notation place := (R * R)%type.

(** Circle.h:51-57: clockwise is -1 and counterclockwise is 1; none does not come up here *)
Inductive sense := Cw | Ccw.
Definition sign (s : sense) : R := match s with Cw => -1 | Ccw => 1 end.
Definition same_sense (s t : sense) : bool := match s, t with Cw, Cw | Ccw, Ccw => true | _, _ => false end.

(** Circle.h:48, a place with a radius and a direction *)
Record circle := { mid : place; rad : R; way : sense }.
(** Waypoint.h: the place, the segment length, and the turn, none for a straight leg *)
Record waypoint := { spot : place; long : R; turn : option circle }.

(** Convert.h:279-283, iRound *)
Definition iround (x : R) : R := IZR (cut (x + 1 / 2)).

(** Convert.h:221-235, dNormalizeAngleRad with the reference 0; bCompareDouble (181-203) has a tolerance for "greater or equal" only *)
Definition norm_angle (x : R) : R :=
  let m := fmod x (2 * PI) in
  if Rlt_dec m 0 then m + 2 * PI
  else if Rlt_dec (2 * PI) m then m - 2 * PI
  else if Rle_dec (Rabs (m - 2 * PI)) (1 / 1000000000) then m - 2 * PI else m.

(** Position.h:129-144, relativeAngle2D_rad: [c] is at the vertex *)
Definition angle_at (c p : place) : R := norm_angle (atan2 (fst p - fst c) (snd p - snd c)).
(** Position.h:146-162, relativeDistance2D_m *)
Definition apart (a b : place) : R :=
  sqrt ((fst a - fst b) * (fst a - fst b) + (snd a - snd b) * (snd a - snd b)).
(** Position.h:252-259, TransformPoint2D *)
Definition to_frame (c : place) (a : R) (p : place) : place :=
  ((fst p - fst c) * cos a + (snd p - snd c) * sin a, (snd p - snd c) * cos a - (fst p - fst c) * sin a).
(** Position.h:261-270, ReTransformPoint2D *)
Definition from_frame (c : place) (a : R) (p : place) : place :=
  (fst p * cos a - snd p * sin a + fst c, fst p * sin a + snd p * cos a + snd c).

(** Trajectory.cpp:1604-1628, the loop over the points between: [k] rounds are left *)
Fixpoint stops (c : circle) (sep inc angle : R) (k : nat) : list waypoint :=
  match k with
  | O => []
  | S k' => {| spot := (rad c * sin angle + fst (mid c), rad c * cos angle + snd (mid c)); long := sep; turn := Some c |}
            :: stops c sep inc (angle + inc) k'
  end.

(** Trajectory.cpp:1585-1591, the number of increments; the cast cuts towards zero *)
Definition increments (r arc sep : R) : Z :=
  if Req_EM_T (sep / r) 0 then 0%Z else cut (arc / r / (sep / r)).

(** Trajectory.cpp:1564-1643, AddWaypointsForTurn *)
Definition turn_points (start finish : place) (arc : R) (c : circle) (sep : R) : list waypoint :=
  let inner :=
    if Rlt_dec 0 (rad c) then
      if Rlt_dec sep arc then
        let inc := sep / rad c * sign (way c) in
        stops c sep inc (inc + angle_at (mid c) start) (Z.to_nat (increments (rad c) arc sep - 1))
      else []
    else [] in
  let gone := INR (length inner) * sep in
  inner ++ [{| spot := finish; long := if Rlt_dec arc gone then 0 else arc - gone; turn := Some c |}].

(** Trajectory.cpp:1213-1267, the angles at which the straight leg leaves the first circle and comes to the second, and its ends, in the
    frame of the two circles; [d] is the distance of the centres *)
Definition tangent (c1 c2 : circle) (d : R) : R * R * place * place :=
  if same_sense (way c1) (way c2) then
    match way c2 with
    | Ccw => (3 / 2 * PI, 3 / 2 * PI, (- rad c1, 0), (- rad c2, d))
    | Cw => (1 / 2 * PI, 1 / 2 * PI, (rad c1, 0), (rad c2, d))
    end
  else
    let ratio := 2 * rad c1 / d in
    let a := if Rlt_dec ratio 1 then norm_angle (acos ratio) else 0 in
    let n := rad c1 * sin a in
    let e := rad c1 * cos a in
    match way c2 with
    | Ccw => (a, norm_angle (a + PI), (n, e), (- n, d - e))
    | Cw => let a' := norm_angle (2 * PI - a) in (a', norm_angle (a' + PI), (- n, e), (n, d - e))
    end.

(** Trajectory.cpp:1270-1280, "prevent going around too much of a circle" *)
Definition snap (star angle : R) : R :=
  let g := Rabs (star - angle) in
  if Rlt_dec g (5 / 1000) then angle else if Rlt_dec (Rabs (g - 2 * PI)) (5 / 1000) then angle else star.

(** Trajectory.cpp:1290-1314 and 1321-1346, the angle of a turn *)
Definition swing (s : sense) (a b : R) : R :=
  match s with
  | Cw => if Rle_dec b a then a - b else a + (2 * PI - b)
  | Ccw => if Rle_dec a b then b - a else (2 * PI - a) + b
  end.

(** Trajectory.cpp:1154-1429, szMinimumDistanceCircle: the first circle is handed over by reference and comes back; no list is an error *)
Definition turn_straight_turn (start finish : place) (c1 c2 : circle) (sep : R) : circle * option (list waypoint) :=
  let d0 := iround (apart (mid c2) (mid c1)) in
  let th0 := angle_at (mid c1) (mid c2) in
  let close := if Rle_dec (Rabs d0) (1 / 100) then true else false in
  let c1 := if close then c2 else c1 in
  let d := if close then 0 else d0 in
  let th := if close then 0 else th0 in
  let b := to_frame (mid c1) (- th) start in
  let e := to_frame (mid c1) (- th) finish in
  let m2 := to_frame (mid c1) (- th) (mid c2) in
  if (if Rlt_dec d (iround (rad c1 + rad c2)) then negb (same_sense (way c1) (way c2)) else false) then (c1, None) else
  let alpha := norm_angle (atan2 (fst b) (snd b)) in
  let beta := norm_angle (atan2 (fst e - fst m2) (snd e - snd m2)) in
  let '(alpha_star, beta_star, t1, t2) := tangent c1 c2 d in
  let len1 := swing (way c1) alpha (snap alpha_star alpha) * rad c1 in
  let len2 := apart t2 t1 in
  let len3 := swing (way c2) (snap beta_star beta) beta * rad c2 in
  let p1 := from_frame (mid c1) (- th) t1 in
  let p2 := from_frame (mid c1) (- th) t2 in
  (c1, Some ((if Rle_dec 1 len1 then turn_points start p1 len1 c1 sep else [])
             ++ {| spot := p2; long := len2; turn := None |}
             :: (if Rle_dec 1 len3 then turn_points p2 finish len3 c2 sep else []))).

(** Trajectory.cpp:1434-1560, szMinimumDistanceTurnTurnTurn, for two circles of the same sense.  No list: [acos] of a number above one is
    not a number, nor are the lengths, so that the comparison at 1139 fails and the way is not taken. *)
Definition turn_turn_turn (start finish : place) (c1 c2 : circle) (sep : R) : circle * option (list waypoint) :=
  let r := rad c1 in
  let d0 := apart (mid c1) (mid c2) in
  let gam := acos (d0 / (4 * r)) in
  let th0 := angle_at (mid c1) (mid c2) in
  let close := if Rle_dec (Rabs d0) (1 / 100) then true else false in
  let c1 := if close then c2 else c1 in
  let th := if close then 0 else th0 in
  let b := to_frame (mid c1) (- th) start in
  let e := to_frame (mid c1) (- th) finish in
  let m2 := to_frame (mid c1) (- th) (mid c2) in
  let alpha := norm_angle (atan2 (fst b) (snd b)) in
  let beta := norm_angle (atan2 (fst e - fst m2) (snd e - snd m2)) in
  let f := match way c1 with Cw => -1 | Ccw => 1 end in
  let t1 := (f * (sin gam * r), cos gam * r) in
  let t2 := (f * (sin gam * r + fst m2), - cos gam * r + snd m2) in
  let m := (f * (sin gam * (2 * r)), cos gam * (2 * r)) in
  let lenA := match way c1 with
              | Ccw => if Rle_dec alpha gam then (gam - alpha) * r else (2 * PI + gam - alpha) * r
              | Cw => if Rle_dec alpha (2 * PI - gam) then (gam + alpha) * r else (gam + alpha - 2 * PI) * r
              end in
  let lenB := (PI + 2 * gam) * r in
  let lenC := match way c1 with
              | Ccw => if Rle_dec beta (PI - gam) then (PI + beta + gam) * r else (beta + gam - PI) * r
              | Cw => if Rle_dec beta (PI + gam) then (PI + gam - beta) * r else (3 * PI + gam - beta) * r
              end in
  let p1 := from_frame (mid c1) (- th) t1 in
  let p2 := from_frame (mid c1) (- th) t2 in
  let pm := from_frame (mid c1) (- th) m in
  let other := match way c1 with Ccw => Cw | Cw => Ccw end in
  (c1, if Rle_dec (d0 / (4 * r)) 1 then
         Some (turn_points start p1 lenA c1 sep ++ turn_points p1 p2 lenB {| mid := pm; rad := r; way := other |} sep
               ++ turn_points p2 finish lenC {| mid := mid c2; rad := r; way := way c2 |} sep)
       else None).

(** Assignment.h:180-197, dGetDistanceTotal: a leg without a length counts as the distance from the waypoint before, if there is one *)
Fixpoint total (last : option place) (ws : list waypoint) : R :=
  match ws with
  | [] => 0
  | w :: rest =>
      (if Rlt_dec 0 (long w) then long w else match last with Some q => apart (spot w) q | None => 0 end) + total (Some (spot w)) rest
  end.

(** Trajectory.cpp:1090 and 1107-1118 and 1135-1143, the shortest so far; none stands for the largest number *)
Definition keep (best : option (R * list waypoint)) (ws : option (list waypoint)) : option (R * list waypoint) :=
  match ws with
  | None => best
  | Some l =>
      match best with
      | None => Some (total None l, l)
      | Some (t, _) => if Rlt_dec (total None l) t then Some (total None l, l) else best
      end
  end.

(** Trajectory.cpp:1121-1130, whether a way of three turns is tried *)
Definition three_turns (start finish : place) (c1 c2 : circle) : bool :=
  if same_sense (way c1) (way c2) then
    let n := (fst finish - fst start) * (fst finish - fst start) in
    let e := snd finish - snd start in
    let check1 := sqrt (n + (e - rad c1) * (e - rad c1)) in
    let check2 := sqrt (n + (e + rad c1) * (e + rad c1)) in
    let d := apart (mid c1) (mid c2) in
    if Rlt_dec (4 * rad c1 + 1 / 1000000000) d then false
    else if Rlt_dec check1 (3 * rad c1) then true else if Rlt_dec check2 (3 * rad c1) then true else false
  else false.

(** Trajectory.cpp:1096-1147, the body of the inner loop.  The condition at 1096-1098 always holds: a closing parenthesis is misplaced,
    so that the condition is the number 1.0e-8 behind a comma. *)
Definition attempt (start finish : place) (sep : R) (st : circle * option (R * list waypoint)) (c2 : circle) :
  circle * option (R * list waypoint) :=
  let '(c1, best) := st in
  let '(c1, ws) := turn_straight_turn start finish c1 c2 sep in
  let best := keep best ws in
  if three_turns start finish c1 c2 then
    let '(c1, ws) := turn_turn_turn start finish c1 c2 sep in (c1, keep best ws)
  else (c1, best).

(** Trajectory.cpp:1066-1087, the circles at a place with a heading *)
Definition circles (p : place) (h r : R) : list circle :=
  [ {| mid := (fst p + r * cos (h + PI / 2), snd p + r * sin (h + PI / 2)); rad := r; way := Cw |};
    {| mid := (fst p + r * cos (h - PI / 2), snd p + r * sin (h - PI / 2)); rad := r; way := Ccw |} ].

(** Trajectory.cpp:1052-1150, dCalculateTrajectoryDubins *)
Definition dubins (start : place) (h : R) (finish : place) (h' r sep : R) : option (R * list waypoint) :=
  fold_left (fun best c1 => snd (fold_left (attempt start finish sep) (circles finish h' r) (c1, best))) (circles start h r) None.

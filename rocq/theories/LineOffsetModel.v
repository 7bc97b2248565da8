(** Model of how a line search makes its way from the thinned line: DPSS/PlanOffset.cpp ([OffsetPlanForward], [OffsetPlanReverse],
    [CleanUpStareAngles], [CorrespondingStarePoints]) with the segments of DPSS/DpssDataTypes.{h,cpp}, and the cost and the headings of the
    option, CmasiLineSearchTaskService.cpp:353-409.

    Coordinates are real numbers and [dPi] is pi.  Left out: rounding, the identifiers of the points, and a way of length zero with three
    or more points, for which the code divides zero by zero.  [CombinePlans] is only used by [SmoothPath], which no task calls. *)
From Coq Require Import Reals List ZArith Bool.
From Verif Require Import RouteExtModel LinePlanModel.
Import ListNotations.
Open Scope R_scope.

(** Dpss.h:254-269: [m_NominalAzimuth], [m_NominalElevation] (which is not negative), [m_NominalAltitudeInMeters], [m_TerrainFollowing],
    [m_SameSidePlan]; the tasks leave the last two as Dpss.cpp:28-30 sets them, [true] and 0. *)
Record settings := { azimuth : R; elevation : R; nominal : R; terrain : bool; same_side : bool }.

(** DpssDataTypes.h:38-46, the operators of xyPoint *)
Definition padd (p q : point) : point := {| px := px p + px q; py := py p + py q; pz := pz p + pz q; fixed := false |}.
Definition psub (p q : point) : point := {| px := px p - px q; py := py p - py q; pz := pz p - pz q; fixed := false |}.
Definition pscale (p : point) (s : R) : point := {| px := px p * s; py := py p * s; pz := pz p * s; fixed := false |}.

(** DpssDataTypes.h:49, len *)
Definition plen (p : point) : R := sqrt (px p * px p + py p * py p).

(** DpssDataTypes.cpp:14-19, Rotate: the third coordinate stays *)
Definition rotate (p : point) (th : R) : point :=
  {| px := cos th * px p - sin th * py p; py := sin th * px p + cos th * py p; pz := pz p; fixed := fixed p |}.

(** PlanOffset.cpp:36-43 and 88-95 without the factor for points in between *)
Definition reach (s : settings) (p : point) : R :=
  if Rlt_dec (elevation s) (PI / 180) then 0 else if Rlt_dec (89 * (PI / 180)) (elevation s) then 0
  else (if terrain s then nominal s else nominal s - pz p) / tan (elevation s).

(** PlanOffset.cpp:56-59 and 111-114: turned by [th], [d] long, from [p] *)
Definition shifted (v : point) (th d : R) (p : point) : point :=
  let v := rotate v th in
  let v := if Rlt_dec (/ 10 ^ 10) (plen v) then pscale v (d / plen v) else v in
  padd v p.

(** PlanOffset.cpp:31-62, the point [k] of the forward plan *)
Definition forward_point (s : settings) (ps : list point) (k : nat) : point :=
  let p i := nth i ps origin in
  let at_end := Nat.eqb k 0 || Nat.eqb k (length ps - 1) in
  let d := if at_end then reach s (p k) else reach s (p k) * sin (azimuth s) in
  let v := if Nat.eqb k 0 then psub (p 1%nat) (p 0%nat) else psub (p k) (p (k - 1)%nat) in
  let th := if at_end then PI - azimuth s else (PI - fst (separation (p (k - 1)%nat) (p k) (p (S k)))) / 2 in
  let w := shifted v th d (p k) in
  {| px := px w; py := py w; pz := pz w; fixed := fixed (p k) |}.

Definition forward_points (s : settings) (ps : list point) : list point := map (forward_point s ps) (seq 0 (length ps)).

(** PlanOffset.cpp:80-117, the point [k] of the reverse plan *)
Definition reverse_point (s : settings) (ps : list point) (k : nat) : point :=
  let p i := nth i ps origin in
  let az := if same_side s then - azimuth s else azimuth s in
  let at_end := Nat.eqb k 0 || Nat.eqb k (length ps - 1) in
  let d := if at_end then reach s (p k) else reach s (p k) * sin (azimuth s) in
  let v := if Nat.eqb k (length ps - 1) then psub (p (length ps - 2)%nat) (p (length ps - 1)%nat) else psub (p k) (p (S k)) in
  let th := if at_end then PI - az else (PI - fst (separation (p (S k)) (p k) (p (k - 1)%nat))) / 2 in
  let d := if at_end then d else if same_side s then d * -1 else d in
  shifted v th d (p k).

Definition reverse_points (s : settings) (ps : list point) : list point := map (reverse_point s ps) (rev (seq 0 (length ps))).

(** DpssDataTypes.cpp:69-78, side of the segment from [a] to [b] *)
Definition side (a b t : point) : Z :=
  let qx := px t - px a in let qy := py t - py a in let rx := px b - px a in let ry := py b - py a in
  let d := rx * qy - qx * ry in
  if Rlt_dec (Rabs d) (/ 10 ^ 10) then 0%Z else if Rlt_dec 0 d then 1%Z else (-1)%Z.

(** DpssDataTypes.cpp:80-89, swathSide *)
Definition swath_side (a b p : point) : Z :=
  let v := psub b a in
  let w := {| px := - py v; py := px v; pz := 0; fixed := false |} in
  let sa := side a (padd a w) p in let sb := side b (padd b w) p in
  if Z.leb sa 0 && Z.leb 0 sb then 0%Z else if Z.ltb 0 sa then 1%Z else (-1)%Z.

(** DpssDataTypes.cpp:91-100, intersect *)
Definition intersects (a b c d : point) : bool :=
  let sc := side a b c in let sd := side a b d in
  if Z.eqb sc 0 then true else if Z.eqb sd 0 then true else negb (Z.eqb sc sd).

(** DpssDataTypes.cpp:102-118, intersectPoint: (0, 0, -1) if the lines are parallel *)
Definition meet (a b c d : point) : point :=
  let a1 := py b - py a in let b1 := px a - px b in let c1 := px b * py a - px a * py b in
  let a2 := py d - py c in let b2 := px c - px d in let c2 := px d * py c - px c * py d in
  let denom := a1 * b2 - a2 * b1 in
  if Rlt_dec (Rabs denom) (/ 10 ^ 10) then {| px := 0; py := 0; pz := -1; fixed := false |}
  else {| px := (b1 * c2 - b2 * c1) / denom; py := (a2 * c1 - a1 * c2) / denom; pz := 0; fixed := false |}.

(** PlanOffset.cpp:174-181: whether the look from [a] to [b] crosses the one from [c] to [d] *)
Definition looks_cross (a b c d : point) : bool :=
  if Rlt_dec (/ 10 ^ 4) (plen (psub b a)) then
    if Rlt_dec (/ 10 ^ 4) (plen (psub d c)) then
      let i := meet a b c d in
      (intersects a b c d && (if Rlt_dec (pz i) 0 then true else false)) || (Z.eqb (swath_side a b i) 0 && Z.eqb (swath_side c d i) 0)
    else false
  else false.

(** PlanOffset.cpp:204-218, the length of a plan or a road *)
Fixpoint total (ps : list point) : R :=
  match ps with a :: ((b :: _) as r) => plen (psub b a) + total r | _ => 0 end.

(** PlanOffset.cpp:232-245: the point of the road that has [target] behind it *)
Fixpoint locate (road : list point) (covered target : R) : point :=
  match road with
  | a :: ((b :: _) as r) =>
      let l := plen (psub b a) in
      if Rlt_dec target (covered + l) then
        (if Rlt_dec (/ 10 ^ 6) l then padd a (pscale (psub b a) ((target - covered) / l)) else a)
      else locate r (covered + l) target
  | _ => origin
  end.

(** PlanOffset.cpp:223-248, the loop: [done] is the way up to [a]; the last point of the plan is left to the caller *)
Fixpoint stares_from (road : list point) (all done : R) (a : point) (rest : list point) : list point :=
  match rest with
  | b :: ((_ :: _) as r) =>
      let done := done + plen (psub b a) in
      locate road 0 (done / all * total road) :: stares_from road all done b r
  | _ => []
  end.

(** PlanOffset.cpp:200-250, CorrespondingStarePoints *)
Definition stare_points (plan road : list point) : list point :=
  match plan with
  | [] => [nth 0 road origin; nth (length road - 1) road origin]
  | a :: rest => nth 0 road origin :: stares_from road (total plan) 0 a rest ++ [nth (length road - 1) road origin]
  end.

(** PlanOffset.cpp:171-185: the first point from [k] on whose look crosses that of the point before *)
Fixpoint first_crossing (plan stares : list point) (k : nat) : option nat :=
  match plan, stares with
  | a :: ((b :: _) as plan'), s :: ((t :: _) as stares') =>
      if looks_cross b t a s then Some k else first_crossing plan' stares' (S k)
  | _, _ => None
  end.

(** PlanOffset.cpp:187-196: two points become the one between them *)
Definition merge (plan : list point) (k : nat) : list point :=
  let k := if Nat.eqb k (length plan - 1) then (k - 1)%nat else k in
  let p := pscale (padd (nth (k - 1) plan origin) (nth k plan origin)) (/ 2) in
  update (k - 1) p (erase k plan).

(** PlanOffset.cpp:159-198, the loop; [fuel]: no more passes than there are points *)
Fixpoint clean_up (fuel : nat) (road plan : list point) : list point :=
  match fuel with
  | O => plan
  | S f => if Nat.ltb (length plan) 3 then plan
           else match first_crossing plan (stare_points plan road) 1 with
                | None => plan
                | Some k => clean_up f road (merge plan k)
                end
  end.

(** PlanOffset.cpp:14-68, OffsetPlanForward; [road] is [m_PlanningRoad] *)
Definition offset_forward (s : settings) (road ps : list point) : list point :=
  match remove_zero ps with
  | [] => []
  | [p] => [p]
  | qs => let plan := remove_zero (forward_points s qs) in remove_zero (clean_up (length plan) road plan)
  end.

(** PlanOffset.cpp:70-135, OffsetPlanReverse *)
Definition offset_reverse (s : settings) (road ps : list point) : list point :=
  match remove_zero ps with
  | [] | [_] => []
  | qs => let plan := rev (remove_zero (reverse_points s qs)) in remove_zero (rev (clean_up (length plan) road plan))
  end.

(** CmasiLineSearchTaskService.cpp:360-409: length and cost in milliseconds of the option, and the headings of its ends in radians *)
Definition way_length (plan : list point) : R := (fix go ps := match ps with a :: ((b :: _) as r) => dist b a + go r | _ => 0 end) plan.
Definition option_cost (plan : list point) (speed : R) : Z :=
  Int_part ((if Rlt_dec 0 speed then way_length plan / speed else 0) * 1000).
Definition heading (a b : point) : R := atan2 (py b - py a) (px b - px a).
Definition start_heading (plan : list point) : R := heading (nth 0 plan origin) (nth 1 plan origin).
Definition end_heading (plan : list point) : R := heading (nth (length plan - 2) plan origin) (nth (length plan - 1) plan origin).

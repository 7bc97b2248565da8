(** Model of the shape of a sensor footprint, /repo/src/cpp/Services/SensorManagerService.cpp:342-371
    (CalculateSensorFootprint), in real numbers.

    The quotient of the altitude and the tangent is written with cosine and sine, so that it is also right for a camera that
    points straight down. *)
From Coq Require Import Reals.
Open Scope R_scope.

(** Includes/Constants/Convert.h:181-203 (bCompareDouble, enEqual with 0) for a quotient [a / b]. *)
Definition level (a b : R) : Prop := Rabs a <= / 10 ^ 9 * Rabs b.
Definition level_dec (a b : R) : {level a b} + {~ level a b} := Rle_dec _ _.

(** 352-358: the distance over ground at which a ray that points [t] below the horizon meets the ground. *)
Definition across (alt t : R) : R := if level_dec (sin t) (cos t) then 0 else alt * cos t / sin t.

(** 350-351: the distance to it. *)
Definition slant (alt t : R) : R := if level_dec (sin t) 1 then 0 else alt / sin t.

(** 345, 347: angles are kept between level in front and level behind. *)
Definition clip (x : R) : R := if Rlt_dec 0 x then 0 else if Rlt_dec x (- PI) then - PI else x.

Record shape := { leading : R; trailing : R; center : R; width : R; distance : R }.

(** 342-371; angles in radians, the elevation is negative below the horizon. *)
Definition footprint (fov aspect elev alt : R) : shape :=
  let v := fov / aspect in
  let top := clip (elev + v / 2) in
  let bottom := clip (elev - v / 2) in
  {| leading := across alt (- top); trailing := across alt (- bottom); center := across alt (- elev);
     width := 2 * slant alt (- elev) * tan (1 / 2 * fov); distance := slant alt (- elev) |}.

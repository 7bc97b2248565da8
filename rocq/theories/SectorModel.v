(** Model of the sector pattern of src/cpp/Tasks/PatternSearchTaskService.cpp (isCalculatePatternScanRoute_Sector, lines 593-706): legs
    through the place to be searched, in directions one lane apart at the extent, and the routes that are requested for them.

    Numbers are real.  The loop over the directions has fuel; [None] is a loop that has not ended.  The extent 0, for which the
    code divides by zero and finds no direction (the quotient is infinite), is a case of its own.  Left out: the altitude of the
    locations, which is the same for all, the bookkeeping of pending routes. *)
From Coq Require Import Reals List ZArith.
From Verif Require Import FlatEarthModel SteeringCourseModel.
Import ListNotations.
Open Scope R_scope.

(** Includes/Constants/Convert.h:117-120. *)
Definition dPi : R := 314159265359 / 10 ^ 11.

(** Includes/Constants/Convert.h:229-260: the reference is 0; an angle within the tolerance (181-203) of a full turn counts as one. *)
Definition wrap (x full : R) : R :=
  let y := fmod x full in
  if Rlt_dec y 0 then y + full else if Rle_dec (full - / 10 ^ 9) y then y - full else y.

(** Plans/Position.h:128-134, relativeAngle2D_rad: the direction of [p] as seen from [q]. *)
Definition seen (p q : R * R) : R := wrap (atan2 (fst p - fst q) (snd p - snd q)) (2 * dPi).

(** PatternSearchTaskService.h:161-169. *)
Record leg := { start : R * R; stop : R * R; heading : R }.

(** The task, the spacing of the lanes, and the footprint: metres north and east. *)
Record sector := { centre : R * R; extent : R; lane : R; leading : R; trailing : R }.

(** PatternSearchTaskService.cpp:630, 636: the headings, for a start and an end. *)
Definition course (a b : R * R) : R := wrap ((dPi + dPi / 2 - seen a b) * rad_to_deg) 360.

(** PatternSearchTaskService.cpp:611-639. *)
Definition one (p : sector) (theta : R) (up : bool) : leg :=
  let off1 := if up then leading p else - trailing p in
  let off2 := if up then trailing p else - leading p in
  let r1 := extent p + off1 in
  let r2 := extent p - off2 in
  let p1 := (fst (centre p) - r1 * sin theta, snd (centre p) - r1 * cos theta) in
  let p2 := (fst (centre p) + r2 * sin theta, snd (centre p) + r2 * cos theta) in
  if up then {| start := p1; stop := p2; heading := course p1 p2 |}
  else {| start := p2; stop := p1; heading := course p2 p1 |}.

(** PatternSearchTaskService.cpp:609-643. *)
Fixpoint turn (fuel : nat) (p : sector) (step last theta : R) (up : bool) : option (list leg) :=
  match fuel with
  | O => None
  | S f => if Rlt_dec theta last then option_map (cons (one p theta up)) (turn f p step last (theta + step) (negb up)) else Some []
  end.

(** PatternSearchTaskService.cpp:604-643. *)
Definition legs (fuel : nat) (p : sector) : option (list leg) :=
  if Req_EM_T (extent p) 0 then Some [] else
  let step := lane p / extent p in turn fuel p step (dPi - step / 2) 0 true.

(** uxas::messages::route::RouteConstraints: latitude and longitude in degrees. *)
Record request := { route : Z; from : R * R; from_heading : R; to : R * R; to_heading : R }.

(** PatternSearchTaskService.cpp:645-704. *)
Fixpoint requests (e : earth) (last : option ((R * R) * R)) (id : Z) (l : list leg) : list request :=
  match l with
  | [] => []
  | g :: r =>
      let s := m_ll_deg (fst (start g)) (snd (start g)) e in
      let t := m_ll_deg (fst (stop g)) (snd (stop g)) e in
      let search := fun id => {| route := id; from := s; from_heading := heading g; to := t; to_heading := heading g |} in
      match last with
      | None => search id :: requests e (Some (t, heading g)) (id + 1) r
      | Some (q, h) =>
          {| route := id; from := q; from_heading := h; to := s; to_heading := heading g |} ::
          search (id + 1)%Z :: requests e (Some (t, heading g)) (id + 1 + 1) r
      end
  end.

(** PatternSearchTaskService.cpp:593-706; TaskServiceBase.cpp:53 has the first number. *)
Definition plan (fuel : nat) (e : earth) (lat lon ext spacing lead trail : R) : option (list request) :=
  let (e, c) := deg_ne_m lat lon e in
  option_map (requests e None 2)
    (legs fuel {| centre := c; extent := ext; lane := spacing; leading := lead; trailing := trail |}).

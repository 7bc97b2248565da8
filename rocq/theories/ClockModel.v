(** Model of the clock of UxAS (src/cpp/Utilities/UxAS_Time.cpp, UxAS_Time.h): real and discrete time,
    the one instance that is made anew when the mode has changed, calibration with a date in UTC.

    Every use of the clock goes through [getInstance], so that an access here is a call of [getInstance]
    and of one function of the result; references that are kept over a change of the mode dangle in the
    code and are left out.  What the system clock says, in nanoseconds since 1970, is an input of each
    access: once for the call and once for each unit in which the time of the start is kept.

    Simplifications: accesses are atomic; [timegm] and [gmtime] are the formula of POSIX for seconds
    since the epoch; int is not bounded for the arguments; logging and the setting of the clocks of the
    host (compiled for one kind of board only) are left out.  Signed overflow in the conversion of
    dates and in discrete time is the result [None].  In real time nothing overflows as long as the
    times themselves, in nanoseconds, are representable. *)
From Coq Require Import List ZArith Bool.
Import ListNotations.
Open Scope list_scope.
Open Scope Z_scope.

(** UxAS_Time.h:29-33 *)
Inductive mode := RealTime | DiscreteTime.
(** The units in which the functions of the clock answer. *)
Inductive time_unit := Hr | Min | Sec | Ms | Us | Ns.

(** The functions of the clock: UxAS_Time.h:74-152 (Epoch), 162-228 (Start), 237-302 (Duration), 312-317
    (Count), 332-349 (Calibrate, CalibrateWeeks), 393-423. *)
Inductive act :=
| Calibrate (year month day hour minutes seconds milliseconds : Z)
| CalibrateWeeks (year month day weeks milliseconds : Z)
| SetDiscrete (t : Z)
| ResetDiscrete (t : Z)
| Discrete
| Epoch (u : time_unit)
| Start (u : time_unit)
| Duration (u : time_unit)
| Count.

(** A call: what the system clock says if the clock is made in this call, what it says then. *)
Record access := { made : time_unit -> Z; now : Z; what : act }.
Inductive ev := SetMode (m : mode) | Use (a : access).

(** UxAS_Time.h:351-374, 427: the members that matter. *)
Record clock := { start : time_unit -> Z; delta : Z; count : Z; discrete : Z }.
(** UxAS_Time.cpp:25-27 *)
Record state := { current : mode; desired : mode; instance : option clock }.
Definition init : state := {| current := RealTime; desired := RealTime; instance := None |}.

(** UxAS_Time.h:78-151: duration_cast from nanoseconds. *)
Definition nanos (u : time_unit) : Z :=
  match u with
  | Hr => 3600 * 10 ^ 9
  | Min => 60 * 10 ^ 9
  | Sec => 10 ^ 9
  | Ms => 10 ^ 6
  | Us => 10 ^ 3
  | Ns => 1
  end.
Definition cast (u : time_unit) (t : Z) : Z := Z.quot t (nanos u).

(** UxAS_Time.cpp:32-66 *)
Definition mode_eqb (m n : mode) : bool :=
  match m, n with RealTime, RealTime | DiscreteTime, DiscreteTime => true | _, _ => false end.
Definition fresh (a : access) : clock :=
  {| start := fun u => cast u (made a u); delta := 0; count := 0; discrete := 0 |}.
Definition get_instance (s : state) (a : access) : clock :=
  match instance s with
  | Some c => if mode_eqb (current s) (desired s) then c else fresh a
  | None => fresh a
  end.

(** int64_t *)
Definition i64 (z : Z) : option Z := if (- 2 ^ 63 <=? z) && (z <? 2 ^ 63) then Some z else None.

(** POSIX, 4.16 Seconds Since the Epoch, for timegm (UxAS_Time.cpp:185): [year] is the year minus 1900,
    [month] from 0; days beyond the end of the month run into the next. *)
Definition leap_year (y : Z) : bool := (y mod 4 =? 0) && (negb (y mod 100 =? 0) || (y mod 400 =? 0)).
Definition before_month (month : Z) : Z :=
  nth (Z.to_nat month) [0; 31; 59; 90; 120; 151; 181; 212; 243; 273; 304; 334] 0.
Definition yday (year month day : Z) : Z :=
  before_month month + (if (2 <=? month) && leap_year (year + 1900) then 1 else 0) + day - 1.
Definition timegm (year month day hour min sec : Z) : Z :=
  sec + min * 60 + hour * 3600 + yday year month day * 86400 + (year - 70) * 31536000 +
  (year - 69) / 4 * 86400 - (year - 1) / 100 * 86400 + (year + 299) / 400 * 86400.

(** UxAS_Time.h:355 *)
Definition minimum_year : Z := 2016.

(** UxAS_Time.cpp:187-190, 208-211: conversion of seconds to the system clock's nanoseconds. *)
Definition from_seconds (s : Z) : option Z := i64 (s * 10 ^ 9).

(** UxAS_Time.cpp:93-218: the time in milliseconds that is set; [Some None] is a refusal.  The year of
    [gmtime] is less than the minimum if the time is before the first second of the minimum year. *)
Definition reference (year month day weeks hour minutes seconds milliseconds : Z) : option (option Z) :=
  if (0 <? month) && (month <? 13) && (0 <? day) && (day <? 32) then
    if (weeks <? 0) && negb ((-1 <? hour) && (hour <? 24) && (-1 <? minutes) && (minutes <? 60) && (-1 <? seconds) && (seconds <? 61)) then Some None
    else
      let t := if weeks <? 0 then timegm (year - 1900) (month - 1) day hour minutes seconds else timegm (year - 1900) (month - 1) day 0 0 0 in
      match from_seconds t with
      | None => None
      | Some ns =>
        let ref := if weeks <? 0 then cast Ms ns + milliseconds else cast Ms ns + weeks * 7 * 24 * 3600 * 1000 + milliseconds in
        match from_seconds (Z.quot ref 1000) with
        | None => None
        | Some _ => if Z.quot ref 1000 <? timegm (minimum_year - 1900) 0 1 0 0 0 then Some None else Some (Some ref)
        end
      end
  else Some None.
(** UxAS_Time.cpp:69-91 *)
Definition calibration (a : act) : option (option Z) :=
  match a with
  | Calibrate y mo d h mi s ms => if y <? minimum_year then Some None else reference y mo d (-1) h mi s ms
  | CalibrateWeeks y mo d w ms => if w <? 0 then Some None else reference y mo d w 0 0 0 ms
  | _ => Some None
  end.

(** UxAS_Time.cpp:220-248 *)
Definition calibrate (c : clock) (now : Z) (r : option (option Z)) : clock * option Z :=
  match r with
  | None => (c, None)
  | Some None => (c, Some 0)
  | Some (Some ref) =>
    ({| start := start c; delta := ref - cast Ms now;
        count := if count c <? 2 ^ 64 - 1 then count c + 1 else count c; discrete := discrete c |}, Some 1)
  end.

(** The calibrated part of an answer: UxAS_Time.h:74-152, 162-228; none for micro- and nanoseconds. *)
Definition offset (c : clock) (u : time_unit) : Z :=
  match u with
  | Hr => Z.quot (delta c) (3600 * 1000)
  | Min => Z.quot (delta c) (60 * 1000)
  | Sec => Z.quot (delta c) 1000
  | Ms => delta c
  | Us | Ns => 0
  end.
(** Discrete time in a unit: UxAS_Time.h:462-588. *)
Definition units (t : Z) (u : time_unit) : option Z :=
  match u with
  | Hr => i64 (Z.quot t (3600 * 1000))
  | Min => i64 (Z.quot t (60 * 1000))
  | Sec => i64 (Z.quot t 1000)
  | Ms => i64 t
  | Us => i64 (t * 1000)
  | Ns => i64 (t * 1000000)
  end.

(** The answers. *)
Definition answer (m : mode) (c : clock) (a : access) : clock * option Z :=
  match what a with
  | Calibrate _ _ _ _ _ _ _ | CalibrateWeeks _ _ _ _ _ => calibrate c (now a) (calibration (what a))
  | SetDiscrete t => ({| start := start c; delta := delta c; count := count c; discrete := t |}, Some 0)
  | ResetDiscrete t => ({| start := fun _ => 0; delta := delta c; count := count c; discrete := t |}, Some 0)
  | Discrete => (c, Some (discrete c))
  | Epoch u =>
    (c, match m with
        | RealTime => Some (cast u (now a) + offset c u)
        | DiscreteTime => match units (discrete c) u with Some t => i64 (t + start c u) | None => None end
        end)
  | Start u => (c, Some (start c u + offset c u))
  | Duration u =>
    (c, match m with
        | RealTime => Some (cast u (now a) - start c u)
        | DiscreteTime => units (discrete c) u
        end)
  | Count => (c, Some (count c mod 2 ^ 32))
  end.

(** UxAS_Time.cpp:29-67, UxAS_Time.h:383-386 *)
Definition step (s : state) (e : ev) : state * list (option Z) :=
  match e with
  | SetMode m => ({| current := current s; desired := m; instance := instance s |}, [])
  | Use a =>
    let (c, o) := answer (desired s) (get_instance s a) a in
    ({| current := desired s; desired := desired s; instance := Some c |}, [o])
  end.

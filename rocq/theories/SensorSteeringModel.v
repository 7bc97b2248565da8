(** Model of src/cpp/Utilities/SensorSteering.{h,cpp}, by which a pattern search task points the sensor of a vehicle: the part of
    the way flown so far is mapped to the same part of a road on the ground.

    Coordinates are real numbers, a [std::map] is a list with increasing keys, and the data of the points are fresh, as they are
    when [PatternSearchTaskService] adds segments.  Left out: rounding (the two [float]s of the projection among it), log messages.
    The projection on two waypoints at the same place divides zero by zero; the conversion of the result to an integer is
    undefined, which is the outcome [Undefined]. *)
From Coq Require Import Reals List ZArith.
From Verif Require Import FlatEarthModel.
Import ListNotations.
Open Scope R_scope.

(** Plans/Position.h:273-275: north, east, altitude. *)
Record point := { north : R; east : R; altitude : R }.

(** SensorSteering.h:59-78, PointData. *)
Record datum := { number : Z; place : point; cumulative : R }.

(** SensorSteering.h:86-93. *)
Record steering := { waypoints : list (Z * datum); road : list (Z * datum); way_length : R; road_length : R }.

(** What becomes of the stare point: nothing, a place (the altitude is kept if none is given), undefined. *)
Inductive answer := Unchanged | Stare (lat lon : R) (alt : option R) | Undefined.

(** Plans/Position.h:144-160, relativeDistance2D_m. *)
Definition gap (p q : point) : R :=
  let dn := north p - north q in let de := east p - east q in sqrt (dn * dn + de * de).

(** [static_cast] of a double to an integer: towards zero. *)
Definition trunc (x : R) : Z := if Rlt_dec x 0 then Z.opp (Int_part (- x)) else Int_part x.

(** std::map::operator[] and assignment. *)
Fixpoint insert {A} (k : Z) (v : A) (m : list (Z * A)) : list (Z * A) :=
  match m with
  | [] => [(k, v)]
  | (j, w) :: r => if Z.ltb k j then (k, v) :: m else if Z.eqb k j then (k, v) :: r else (j, w) :: insert k v r
  end.

Fixpoint find {A} (k : Z) (m : list (Z * A)) : option A :=
  match m with [] => None | (j, w) :: r => if Z.eqb k j then Some w else find k r end.

(** What is before lower_bound, and what begins there. *)
Definition before {A} (k : Z) (m : list (Z * A)) : list (Z * A) := filter (fun e => Z.ltb (fst e) k) m.
Definition from {A} (k : Z) (m : list (Z * A)) : list (Z * A) := filter (fun e => Z.leb k (fst e)) m.

(** The last entry of a map. *)
Definition back {A} (m : list (Z * A)) : option (Z * A) := hd_error (rev m).

(** SensorSteering.cpp:44-58 and 61-70: the distances along the points. *)
Fixpoint measure (last : option point) (len : R) (ps : list (Z * point)) : list datum * R :=
  match ps with
  | [] => ([], len)
  | (i, p) :: r =>
      let len := match last with Some q => len + gap q p | None => len end in
      let (ds, total) := measure (Some p) len r in
      ({| number := i; place := p; cumulative := len |} :: ds, total)
  end.

(** SensorSteering.cpp:74-78. *)
Definition norm (total : R) (d : datum) : Z := if Rlt_dec 0 total then trunc (cumulative d / total * 1000) else 0%Z.

(** SensorSteering.cpp:36-81. *)
Definition initialize (ways roads : list (Z * point)) : steering :=
  let (wd, wl) := measure None 0 ways in
  let (rd, rl) := measure None 0 roads in
  {| waypoints := fold_left (fun m d => insert (number d) d m) wd [];
     road := fold_left (fun m d => insert (norm rl d) d m) rd [];
     way_length := wl; road_length := rl |}.

(** SensorSteering.cpp:96-106: how far the vehicle at [p] is, in thousandths. *)
Definition progress (s : steering) (a b : datum) (p : R * R) : option Z :=
  if Rlt_dec 0 (way_length s) then
    let bn := north (place b) - north (place a) in let be := east (place b) - east (place a) in
    let an := fst p - north (place a) in let ae := snd p - east (place a) in
    let square := bn * bn + be * be in
    if Req_EM_T square 0 then None else
    let factor := (an * bn + ae * be) / square in
    let factor := if Rlt_dec factor 0 then 0 else if Rlt_dec 1 factor then 1 else factor in
    let position := factor * (cumulative b - cumulative a) + cumulative a in
    Some (trunc (position / way_length s * 1000))
  else Some 1000%Z.

(** SensorSteering.cpp:108-138. *)
Definition look (s : steering) (n : Z) (e : earth) : answer :=
  match from n (road s) with
  | [] => Stare 0 0 None
  | (k, d) :: _ =>
      match back (before n (road s)) with
      | None => let (la, lo) := m_ll_deg (north (place d)) (east (place d)) e in Stare la lo None
      | Some (j, c) =>
          let delta := IZR (k - j) in
          let fraction := if Rlt_dec 0 delta then IZR (n - j) / delta else 0 in
          let (la, lo) := m_ll_deg ((north (place d) - north (place c)) * fraction + north (place c))
                                   ((east (place d) - east (place c)) * fraction + east (place c)) e in
          Stare la lo (Some (altitude (place d)))
      end
  end.

(** SensorSteering.cpp:83-144; the place of the vehicle is in degrees. *)
Definition stare (s : steering) (id : Z) (lat lon : R) (e : earth) : earth * answer :=
  match find id (waypoints s) with
  | None => (e, Unchanged)
  | Some b =>
      match back (before id (waypoints s)) with
      | None => (e, look s 0 e)
      | Some (_, a) =>
          let (e, p) := rad_ne_m (deg_to_rad * lat) (deg_to_rad * lon) e in
          match progress s a b p with
          | None => (e, Undefined)
          | Some n => (e, look s n e)
          end
      end
  end.

(** SensorSteering.cpp:147-159. *)
Definition add (ways roads : list (Z * point)) (m : list (Z * steering)) : list (Z * steering) :=
  match ways with
  | [] => m
  | (i, _) :: _ => insert i (initialize ways roads) m
  end.

(** SensorSteering.cpp:161-191: the segment before lower_bound, or the first one. *)
Definition find_stare (m : list (Z * steering)) (id : Z) (lat lon : R) (e : earth) : earth * answer :=
  match m with
  | [] => (e, Unchanged)
  | (_, first) :: _ =>
      match from id m with
      | [] => match back m with Some (_, s) => stare s id lat lon e | None => (e, Unchanged) end
      | _ => match back (before id m) with
             | Some (_, s) => stare s id lat lon e
             | None => stare first id lat lon e
             end
      end
  end.

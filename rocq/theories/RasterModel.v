(** Model of the lanes of an area search: isCalculateRasterScanRoute of src/cpp/Tasks/CmasiAreaSearchTaskService.cpp (lines 360-638) and of
    src/cpp/Tasks/AngledAreaSearchTaskService.cpp (347-685), with the intersections of Plans/Polygon.h and Plans/Edge.cpp.

    Numbers are real.  The loop over the lanes has fuel; [None] is a loop that has not ended.  Left out: altitudes, the flags that
    tell the route planner to disregard the headings of a lane, the bookkeeping of pending routes, areas of other types (which give no
    lane), areas without boundary points (for which an assertion fails), the classification of the boundary (its result is not
    used here and it never reports an error). *)
From Coq Require Import Reals List ZArith.
From Verif Require Import FlatEarthModel SteeringCourseModel SectorModel.
Import ListNotations.
Open Scope R_scope.

(** Metres north and east. *)
Notation place := (R * R)%type.

(** Plans/Edge.cpp:36. *)
Definition sign (a : R) : R := if Req_EM_T a 0 then 1 else a / Rabs a.
Definition apart (a b : R) : bool :=
  if Req_EM_T a 0 then false else if Req_EM_T b 0 then false else if Req_EM_T (sign a) (sign b) then true else false.

(** Plans/Edge.cpp:38-160: [None] if the segments do not meet, else the point given out. *)
Definition meet (a1 a2 b1 b2 : place) : option place :=
  let x1 := snd a1 in let y1 := fst a1 in let x2 := snd a2 in let y2 := fst a2 in
  let x3 := snd b1 in let y3 := fst b1 in let x4 := snd b2 in let y4 := fst b2 in
  let ka := y2 - y1 in let la := x1 - x2 in let ma := x2 * y1 - x1 * y2 in
  if apart (ka * x3 + la * y3 + ma) (ka * x4 + la * y4 + ma) then None else
  let kb := y4 - y3 in let lb := x3 - x4 in let mb := x4 * y3 - x3 * y4 in
  if apart (kb * x1 + lb * y1 + mb) (kb * x2 + lb * y2 + mb) then None else
  let denom := ka * lb - kb * la in
  if Req_EM_T denom 0 then None else
  let offset := if Rlt_dec denom 0 then - denom / 2 else denom / 2 in
  let rounded := fun num => (if Rlt_dec num 0 then num - offset else num + offset) / denom in
  Some (rounded (kb * ma - ka * mb), rounded (la * mb - lb * ma)).

(** Plans/Polygon.h:440-452: the sides, the last one back to the first point. *)
Fixpoint sides (first : place) (l : list place) : list (place * place) :=
  match l with
  | [] => []
  | [a] => [(a, first)]
  | a :: ((b :: _) as r) => (a, b) :: sides first r
  end.

(** Plans/Polygon.h:610-620. *)
Definition intersections (ss : list (place * place)) (b1 b2 : place) : list place :=
  flat_map (fun s => match meet (fst s) (snd s) b1 b2 with Some p => [p] | None => [] end) ss.

(** Plans/Position.h:252-259. *)
Definition transform (c : place) (angle : R) (p : place) : place :=
  let n := fst p - fst c in let e := snd p - snd c in
  (n * cos angle + e * sin angle, e * cos angle - n * sin angle).

(** Plans/Position.h:261-270. *)
Definition retransform (c : place) (angle : R) (p : place) : place :=
  (fst p * cos angle - snd p * sin angle + fst c, fst p * sin angle + snd p * cos angle + snd c).

(** The least and the greatest of a list (Cmasi 468-497, Angled 466-493). *)
Definition least (x : R) (l : list R) : R := fold_left Rmin l x.
Definition greatest (x : R) (l : list R) : R := fold_left Rmax l x.

(** The two services; the second has the number of the option. *)
Inductive service := Cmasi | Angled (option_id : Z).

(** What is common to all lanes: the boundary in the rotated frame, the frame, the range of north, the edges of the footprint. *)
Record scan := { border : list (place * place); pole : place; axis : R; south : R; north : R; lead : R; trail : R }.

(** Cmasi 501-502, Angled 501-502. *)
Definition heading_up (s : scan) : R := axis s * rad_to_deg.
Definition heading_down (s : scan) : R := wrap (heading_up s + 180) 360.

(** Cmasi 518-563, Angled 545-587: the leg in the lane at [x]; [None] if there are too few intersections. *)
Definition in_lane (s : scan) (x : R) (up : bool) : option leg :=
  match intersections (border s) (south s - 100000, x) (north s + 100000, x) with
  | p :: (_ :: _) as l =>
      let q := last l p in
      let (n, m) := if Rlt_dec (fst p) (fst q) then (q, p) else (p, q) in
      Some (if up
            then {| start := retransform (pole s) (axis s) (fst m - lead s, snd m);
                    stop := retransform (pole s) (axis s) (fst n - trail s, snd n); heading := heading_up s |}
            else {| start := retransform (pole s) (axis s) (fst n + lead s, snd n);
                    stop := retransform (pole s) (axis s) (fst m + trail s, snd m); heading := heading_down s |})
  | _ => None
  end.

(** Cmasi 516-628, Angled 542-675: the lanes from [x] on, [over] apart, between [west] and [east]; a lane without a leg ends them. *)
Fixpoint sweep (fuel : nat) (s : scan) (west east over x : R) (up : bool) : option (list leg) :=
  match fuel with
  | O => None
  | S f =>
      if (if Rlt_dec 0 over then if Rlt_dec x east then true else false else if Rlt_dec west x then true else false) then
        match in_lane s x up with
        | Some g => option_map (cons g) (sweep f s west east over (x + over) (negb up))
        | None => Some []
        end
      else Some []
  end.

(** Where the lanes begin, how far apart they are and whether the first one is flown upwards (Cmasi 496-499, 515;
    Angled 495-524, 529-532). *)
Definition begin (k : service) (west east lane : R) : R * R * bool :=
  match k with
  | Cmasi => ((if Rlt_dec ((east - west) / 2) lane then west + (east - west) / 2 else west + lane / 2), lane, true)
  | Angled i =>
      let o := Z.rem i 4 in
      let low := orb (Z.eqb o 1) (Z.eqb o 3) in
      ((if Rlt_dec ((east - west) * (11 / 10)) lane then west + (east - west) / 2
        else if low then west + lane / 2 else east - lane / 2),
       (if low then lane else - lane), negb (orb (Z.eqb o 3) (Z.eqb o 0)))
  end.

(** Cmasi 463-637, Angled 460-684: the legs, for a boundary and a centre. *)
Definition raster (fuel : nat) (k : service) (ps : list place) (c : place) (angle lane_ lead_ trail_ : R) : option (list leg) :=
  match map (transform c angle) ps with
  | [] => Some []
  | (v :: r) as vs =>
      let west := least (snd v) (map snd r) in let east := greatest (snd v) (map snd r) in
      let '(x, over, up) := begin k west east lane_ in
      sweep fuel {| border := sides v vs; pole := c; axis := angle; south := least (fst v) (map fst r);
                    north := greatest (fst v) (map fst r); lead := lead_; trail := trail_ |} west east over x up
  end.

(** afrl::cmasi::AbstractGeometry: latitude, longitude and rotation in degrees. *)
Inductive shape :=
| Circle (centre : R * R) (radius : R)
| Polygon (points : list (R * R))
| Rectangle (centre : R * R) (width height rotation : R).

(** The points of a polygon in metres, one after the other (Cmasi 403-408, Angled 391-398). *)
Fixpoint places (e : earth) (l : list (R * R)) : earth * list place :=
  match l with
  | [] => (e, [])
  | p :: r => let (e1, q) := deg_ne_m (fst p) (snd p) e in let (e2, qs) := places e1 r in (e2, q :: qs)
  end.

(** numeric_limits<double>::min(), with which the search for the greatest coordinate of a polygon begins (Cmasi 398, Angled 385). *)
Definition tiny : R := / 2 ^ 1022.

(** Cmasi 370-455, Angled 359-452: boundary, centre and direction of the lanes. *)
Definition boundary (k : service) (a : shape) (heading_rad : R) (e : earth) : earth * (list place * place * R) :=
  let angle := wrap heading_rad (2 * dPi) in
  match a with
  | Circle c r =>
      let (e, c) := deg_ne_m (fst c) (snd c) e in
      (e, (map (fun i => let t := INR i * (dPi / 18) in (r * sin t + fst c, r * cos t + snd c)) (seq 0 36), c, angle))
  | Polygon l =>
      let (e, ps) := places e l in
      let half := fun f : place -> R =>
        match map f ps with [] => 0 | x :: r => (greatest tiny (x :: r) - least x r) / 2 end in
      (e, (ps, (half fst, half snd), angle))
  | Rectangle c w h rotation =>
      let (e, c) := deg_ne_m (fst c) (snd c) e in
      match k with
      | Cmasi =>
          let n := fst c + h / 2 in let s := fst c - h / 2 in let o := snd c + w / 2 in let v := snd c - w / 2 in
          (e, ([(n, v); (n, o); (s, o); (s, v)], c, angle))
      | Angled _ =>
          let rot := rotation * deg_to_rad in
          let corner := fun a b => (fst c + a * cos rot - b * sin rot, snd c + a * sin rot + b * cos rot) in
          (e, ([corner (h / 2) (- (w / 2)); corner (h / 2) (w / 2); corner (- (h / 2)) (w / 2); corner (- (h / 2)) (- (w / 2))], c, rot))
      end
  end.

(** The whole: the routes that are asked for; TaskServiceBase.cpp:53 has the first number.  The requests of the two services
    (Cmasi 565-622, Angled 589-668) are made as those of the sector pattern. *)
Definition plan (fuel : nat) (k : service) (a : shape) (heading_rad lane_ lead_ trail_ : R) (e : earth) : option (list request) :=
  let '(e, (ps, c, angle)) := boundary k a heading_rad e in
  option_map (requests e None 2) (raster fuel k ps c angle lane_ lead_ trail_).

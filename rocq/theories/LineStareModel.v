(** Model of where a line search points the sensor of a vehicle: DPSS/SensorSteering2.cpp ([CalculateStarePoint],
    [CalculateWpToRdIndexMap], [BuildConversionMappings]) and DPSS/CoordinateConversions.cpp ([CorrespondingNormalizedRoadLocation],
    [NormalizedRoadPosToXyRoadPos]), as CmasiLineSearchTaskService.cpp:599-613 calls them.

    Only plans in a single direction are modelled ([m_SingleDirectionPlan]), with two waypoints or more and a road of positive
    length; the return plan of the Impact line search and the debug output are left out.  Coordinates are real numbers. *)
From Coq Require Import Reals List ZArith Bool.
From Verif Require Import LinePlanModel LineOffsetModel.
Import ListNotations.
Open Scope R_scope.

(** DpssDataTypes.cpp:120-133, closestPoint *)
Definition closest (a b t : point) : point :=
  let v := psub b a in
  let i := meet a b t (padd t {| px := - py v; py := px v; pz := 0; fixed := false |}) in
  if Rlt_dec (pz i) 0 then a
  else if Z.eqb (swath_side a b i) 1 then a else if Z.eqb (swath_side a b i) (-1) then b else i.

(** DpssDataTypes.cpp:62-67, distToClosestPoint *)
Definition closest_dist (a b t : point) : R := plen (psub (closest a b t) t).

(** CoordinateConversions.cpp:443-460, the waypoint that the vehicle is on its way to: [best] with its distance, then [k] and so on *)
Fixpoint heading_for (way : list point) (p : point) (best : nat) (d : R) (k fuel : nat) : nat :=
  match fuel with
  | O => best
  | S f =>
      let e := closest_dist (nth k way origin) (nth (k - 1) way origin) p in
      if Rlt_dec e d then heading_for way p k e (S k) f else heading_for way p best d (S k) f
  end.

Definition to_waypoint (way : list point) (p : point) : nat :=
  heading_for way p 1 (closest_dist (nth 0 way origin) (nth 1 way origin) p) 2 (length way - 2).

(** SensorSteering2.cpp:132-141 and 168-176, [m_TrueRoadLengths]: the loop behind the first entry *)
Fixpoint shares_from (len acc : R) (road : list point) : list R :=
  match road with
  | a :: ((b :: (_ :: _)) as r) => let acc := acc + plen (psub b a) / len in acc :: shares_from len acc r
  | _ => [1]
  end.

Definition shares (len : R) (road : list point) : list R := 0 :: shares_from len 0 road.

(** SensorSteering2.cpp:143-152, the forward solution *)
Fixpoint targets_from (len covered : R) (way : list point) : list R :=
  match way with
  | a :: ((b :: (_ :: _)) as r) => let covered := covered + plen (psub b a) in covered / len :: targets_from len covered r
  | _ => []
  end.

(** SensorSteering2.cpp:206-235: the place of the new point in the road, and the point; [n] is the index of the second point of [road] *)
Fixpoint find_place (road : list point) (n : nat) (covered target : R) : nat * point :=
  match road with
  | a :: ((b :: r') as r) =>
      let l := plen (psub b a) in
      if Rle_dec target (covered + l) then
        (n, if Rlt_dec (/ 10 ^ 6) l then padd a (pscale (psub b a) ((target - covered) / l)) else a)
      else match r' with [] => (n, b) | _ => find_place r (S n) (covered + l) target end
  | _ => (n, origin)
  end.

(** std::vector::insert *)
Definition insert_at {A} (n : nat) (x : A) (l : list A) : list A := firstn n l ++ x :: skipn n l.

(** SensorSteering2.cpp:202-238, the loop: the road with the new points, and the indices of the new points *)
Fixpoint add_points (len : R) (road : list point) (targets : list R) : list point * list nat :=
  match targets with
  | [] => (road, [])
  | t :: r =>
      let (n, p) := find_place road 1 0 (t * len) in
      let (road', ids) := add_points len (insert_at n p road) r in
      (road', n :: ids)
  end.

(** SensorSteering2.cpp:87-181 and 187-239: the road with the new points, and the index in it for each waypoint ([m_RdIDList]) *)
Definition road_map (way road : list point) : list point * list nat :=
  let (road', ids) := add_points (total road) road (targets_from (total way) 0 way) in
  (road', 0%nat :: ids ++ [(length road' - 1)%nat]).

(** CoordinateConversions.cpp:548-568: along the road from [k], at most [fuel] legs *)
Fixpoint walk (road : list point) (sh : list R) (covered : R) (k fuel : nat) : R :=
  match fuel with
  | O => nth k sh 0
  | S f =>
      let l := plen (psub (nth (S k) road origin) (nth k road origin)) in
      if Rlt_dec l covered then walk road sh (covered - l) (S k) f
      else if Rlt_dec (/ 10 ^ 6) l then nth k sh 0 + covered / l * (nth (S k) sh 0 - nth k sh 0)
      else nth k sh 0
  end.

(** CoordinateConversions.cpp:508-530: the length of the road between two indices *)
Fixpoint stretch (road : list point) (k fuel : nat) : R :=
  match fuel with
  | O => 0
  | S f => plen (psub (nth (S k) road origin) (nth k road origin)) + stretch road (S k) f
  end.

(** CoordinateConversions.cpp:431-569, CorrespondingNormalizedRoadLocation of a position *)
Definition road_location (way : list point) (road' : list point) (ids : list nat) (sh : list R) (p : point) : R :=
  let w := to_waypoint way p in
  let a := nth (w - 1) way origin in let b := nth w way origin in
  let f := nth (w - 1) ids 0%nat in let g := nth w ids 0%nat in
  let l := plen (psub b a) in
  let part := if Rlt_dec (/ 10 ^ 10) l then plen (psub (closest a b p) a) / l else 0 in
  if Nat.eqb f g then nth f sh 0 else walk road' sh (part * stretch road' f (g - f)) f (g - f).

(** CoordinateConversions.cpp:273-288: the first index from [n] whose share is [x] or more *)
Fixpoint upper_index (sh : list R) (n : nat) (x : R) : nat :=
  match sh with
  | [] => 0%nat
  | y :: r => if Rle_dec x y then n else upper_index r (S n) x
  end.

(** CoordinateConversions.cpp:257-302, NormalizedRoadPosToXyRoadPos for a position between 0 and 1 *)
Definition road_point (road' : list point) (sh : list R) (x : R) : point :=
  let u := upper_index (tl sh) 1 x in
  let a := nth (u - 1) road' origin in let b := nth u road' origin in
  let s := nth (u - 1) sh 0 in let t := nth u sh 0 in
  if Rlt_dec (/ 10 ^ 6) (t - s) then padd a (pscale (psub b a) ((x - s) / (t - s))) else a.

(** SensorSteering2.cpp:57-85, CalculateStarePoint *)
Definition stare_point (way road : list point) (p : point) : point :=
  let (road', ids) := road_map way road in
  let sh := shares (total road) road' in
  let x := road_location way road' ids sh p in
  if Req_EM_T x 1 then nth (length road' - 1) road' origin
  else if Req_EM_T x 0 then nth 0 road' origin
  else road_point road' sh x.

(** Model of the map from a vehicle's plan to the point of a road it looks at (src/cpp/DPSS/SegmentMap.cpp): the nearest point of a line
    (62-87), the point looked at, once from a plan and a road (138-207) and once from what Initialize stored of them (34-60, 89-132).

    Points, segments and nearest points are those of [EscortModel] (DpssDataTypes): east and north, in real numbers.  Initialize with no
    point of the plan or of the road runs over the end of an array, since the sizes are unsigned; this is the outcome [None].  Left out: heights. *)
From Coq Require Import Reals List.
From Verif Require Import EscortModel.
Import ListNotations.
Open Scope R_scope.

(** SegmentMap.cpp:102, 127, 176, 198: 1e-6 *)
Definition short : R := / 10 ^ 6.
(** DpssDataTypes.cpp:135-139 (Segment::len) *)
Definition seg_len (a b : pt) : R := len (sub b a).
(** SegmentMap.cpp:46-51, 56-60, 162-175: the sum of the lengths *)
Fixpoint total (ps : list pt) : R := match ps with p :: ((q :: _) as r) => seg_len p q + total r | _ => 0 end.

(** SegmentMap.cpp:77-86: the loop over the later segments; [d], [k], [c] are dist, segmentIndex and snappedLocation *)
Fixpoint snap_loop (t : pt) (n : nat) (d : R) (k : nat) (c : pt) (ps : list pt) : nat * pt :=
  match ps with
  | p :: ((q :: _) as r) =>
      if Rlt_dec (dist_to_closest p q t) d then snap_loop t (S n) (dist_to_closest p q t) n (closest_point p q t) r else snap_loop t (S n) d k c r
  | _ => (k, c)
  end.
(** SegmentMap.cpp:63-88 (SnapToSegment); none is -1 *)
Definition snap (ps : list pt) (t : pt) : option (nat * pt) :=
  match ps with
  | [] => None
  | [p] => Some (0%nat, p)
  | p :: ((q :: _) as r) => Some (snap_loop t 1 (dist_to_closest p q t) 0 (closest_point p q t) r)
  end.

(** SegmentMap.cpp:110-119, 179-189: the part of the plan that lies behind *)
Definition behind (plan : list pt) (k : nat) (c : pt) : R := total (firstn (S k) plan) + dist c (nth k plan c).

(** SegmentMap.cpp:130-131, 201-202: from [p] in the direction of [q] *)
Definition toward (p q : pt) (d : R) : pt := add p (scale (scale (sub q p) (/ seg_len p q)) d).

(** SegmentMap.cpp:191-208: [f] is uavPercentPlan, [l] roadLength, [run] runningDistance *)
Fixpoint walk_road (f l run : R) (ps : list pt) : pt :=
  match ps with
  | p :: ((q :: _) as r) =>
      if Rle_dec f ((run + seg_len p q) / l) then (if Rlt_dec (seg_len p q) short then p else toward p q (f * l - run)) else walk_road f l (run + seg_len p q) r
  | [p] => p
  | [] => (0, 0)
  end.

(** SegmentMap.cpp:143-209 (CalculateStarePoint of a plan and a road) *)
Definition stare (plan road : list pt) (t : pt) : pt :=
  match road with
  | [] => (0, 0)
  | [p] => p
  | p :: _ =>
      match plan with
      | [] | [_] => p
      | _ =>
        if Rlt_dec (total plan) short then p else if Rlt_dec (total road) short then p else
        match snap plan t with
        | None => p
        | Some (k, c) => walk_road (behind plan k c / total plan) (total road) 0 road
        end
      end
  end.

(** SegmentMap.h:27-31: the stored values *)
Record segment_map := { m_path : list pt; m_plan : list pt; m_norm : list R; m_plan_length : R; m_path_length : R }.
(** SegmentMap.cpp:46-54: the lengths up to each point but the last, as parts of the whole; then 1 *)
Fixpoint norms (l run : R) (ps : list pt) : list R :=
  match ps with p :: ((q :: _) as r) => run / l :: norms l (run + seg_len p q) r | _ => [1] end.
(** SegmentMap.cpp:34-61 (Initialize) *)
Definition initialize (plan road : list pt) : option segment_map :=
  match plan, road with
  | [], _ | _, [] => None
  | _, _ => Some {| m_path := road; m_plan := plan; m_norm := norms (total road) 0 road; m_plan_length := total plan; m_path_length := total road |}
  end.

(** SegmentMap.cpp:121-136 *)
Fixpoint walk_stored (f l : R) (ns : list R) (ps : list pt) : pt :=
  match ps, ns with
  | p :: ((q :: _) as r), n :: ((n' :: _) as ns') =>
      if Rle_dec f n' then (if Rlt_dec (seg_len p q) short then p else toward p q (f * l - n)) else walk_stored f l ns' r
  | [p], _ => p
  | _, _ => (0, 0)
  end.
(** SegmentMap.cpp:90-137 (CalculateStarePoint of the stored values) *)
Definition stare_stored (m : segment_map) (t : pt) : pt :=
  match m_path m with
  | [] => (0, 0)
  | [p] => p
  | p :: _ =>
      match m_plan m with
      | [] | [_] => p
      | _ =>
        if Rlt_dec (m_plan_length m) short then p else if Rlt_dec (m_path_length m) short then p else
        match snap (m_plan m) t with
        | None => p
        | Some (k, c) => walk_stored (behind (m_plan m) k c / m_plan_length m) (m_path_length m) (m_norm m) (m_path m)
        end
      end
  end.

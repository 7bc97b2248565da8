(** Model of the ground planner answering requests for points along roads.
    /repo/src/cpp/Services/OsmPlannerService.cpp:181-195 (processReceivedLmcpMessage), 526-905
    (isProcessRoadPointsRequest), 912-940 (isGetRoadPoints), 1134-1164 (m_cellVsAllNodeIds), 1291-1300
    (m_nodeIdVsSegmentBeginEndIds) and 1822-1873 (isGetNodesOnSegment).

    The map, the closest node and the way between junctions are those of OsmMapModel and OsmNearModel.  The order of
    the elements of equal key of the unordered_multimap is a function [seg_ord].  A line is given by the ids of its
    nodes instead of latitudes, longitudes and heights.  Costs are unbounded, so every way is cheaper than the greatest
    int32_t.  Metrics, plot files and log output are left out. *)
From Coq Require Import List ZArith Bool.
From Verif Require Import ZMap AStarModel OsmMapModel OsmNearModel OsmEgressModel.
Import ListNotations.
Open Scope list_scope.
Open Scope Z_scope.

(** OsmPlannerService.cpp:1833-1864: the nodes from [s] to [e]; [last] is edgeNodeIdLast, [acc] nodeIds *)
Fixpoint scan (extra : bool) (s e : Z) (first : bool) (last : Z) (nodes acc : list Z) : list Z :=
  match nodes with
  | [] => if extra then match acc with [] => [] | _ => acc ++ [last] end else acc
  | n :: r =>
      let last1 := if extra then last else n in
      if ((s <=? 0) && first) || (n =? s) then scan extra s e false n r (acc ++ [last1])
      else if (0 <? e) && (last1 =? e)
           then match acc with [] => [] | _ => acc ++ last1 :: (if extra then [] else [n]) end
           else scan extra s e false n r (match acc with [] => [] | _ => acc ++ [last1] end)
  end.
(** isGetNodesOnSegment with an empty vector; it succeeds if the result is not empty *)
Definition on_segment (t : table) (k : Z * Z) (extra : bool) (s e : Z) : list Z :=
  match tget t k with
  | None => []
  | Some x => match s_nodes x with [] => [] | n :: _ => scan extra s e true n (s_nodes x) [] end
  end.

(** OsmPlannerService.cpp:571-596; the first of the sections of the start that is one of the end *)
Fixpoint same_edge (ks1 ks2 : list (Z * Z)) : option (Z * Z) :=
  match ks1 with
  | [] => None
  | k :: r => if existsb (fun k2 => (fst k =? fst k2) && (snd k =? snd k2)) ks2 then Some k else same_edge r ks2
  end.

(** m_cellVsAllNodeIds *)
Definition all_places (m : road_map) : list (Z * pos) :=
  flat_map (fun n => match zget (positions (m_nodes m)) n with Some p => [(n, p)] | None => [] end) (map fst (positions (m_nodes m))).

(** uxas::messages::route::RoadPointsConstraints *)
Record item := { i_id : Z; i_from : pos; i_to : pos }.
(** afrl::impact::LineOfInterest: LineID and the nodes of Line *)
Definition line := (Z * list Z)%type.

Section Road.
  Context (dist : pos -> pos -> Z) (ord : list (Z * pos) -> list (Z * pos)) (seg_ord : list (Z * Z) -> list (Z * Z)).
  Context (both : bool) (choose : list (Z * Z) -> Z).

  (** isGetRoadPoints *)
  Definition road_way (fuel : nat) (m : road_map) (a b : Z) : way_found :=
    if a =? b then Way 0 [a] else shortest dist both choose fuel m a b.

  (** OsmPlannerService.cpp:653-691; the distance to the end of a section *)
  Definition to_end (m : road_map) (p : pos) (n : Z) : Z :=
    match zget (positions (m_nodes m)) n with Some q => dist p q | None => far end.

  (** OsmPlannerService.cpp:700-735, one of the four ways; [None] if the search comes to no end *)
  Definition try_way (fuel : nat) (m : road_map) (p q : pos) (acc : option (option (Z * list Z))) (ab : Z * Z) : option (option (Z * list Z)) :=
    match acc with
    | None => None
    | Some best =>
        match road_way fuel m (fst ab) (snd ab) with
        | Astray | Busy => None
        | NoWay => acc
        | Way len ids =>
            let c := len + Z.quot (to_end m p (fst ab) + to_end m q (snd ab)) 1000 in
            match best with
            | None => Some (Some (c, ids))
            | Some (c0, _) => if c <? c0 then Some (Some (c, ids)) else acc
            end
        end
    end.

  (** OsmPlannerService.cpp:758-778; the nodes of the legs and isSuccess *)
  Fixpoint legs (t : table) (front : Z) (path : list Z) : list Z * bool :=
    match path with
    | a :: ((b :: _) as r) => let l := on_segment t (a, b) false a front in
                              let (k, ok) := legs t front r in
                              (l ++ k, match l with [] => false | _ => ok end)
    | _ => ([], true)
    end.

  (** OsmPlannerService.cpp:741-799; the nodes of the line and isSuccess *)
  Definition long_line (m : road_map) (k1 k2 : Z * Z) (s e : Z) (path : list Z) : list Z * bool :=
    match path with
    | [] => ([], true)
    | front :: _ =>
        let back := List.last path front in
        let t := m_table m in
        let first := on_segment t ((if snd k1 =? front then fst k1 else snd k1), front) false s front in
        match first with
        | [] => ([], false)
        | _ => let (mid, ok) := legs t front path in
               let fin := on_segment t (back, (if back =? fst k2 then snd k2 else fst k2)) false back e in
               (first ++ mid ++ fin, match fin with [] => false | _ => ok end)
        end
    end.

  (** OsmPlannerService.cpp:616-643 and 801-833 *)
  Definition put_line (m : road_map) (id : Z) (nodes : list Z) : option (list line) :=
    if forallb (fun n => zhas (positions (m_nodes m)) n) nodes then Some [(id, nodes)] else None.

  (** OsmPlannerService.cpp:534-902, one item.  [Stuck] if the search comes to no end, [Fail] if isSuccess is false. *)
  Inductive outcome := Stuck | Fail | Lines (l : list line).
  Definition lines_of (o : option (list line)) : outcome := match o with Some l => Lines l | None => Fail end.
  Definition road_item (fuel : nat) (m : road_map) (q : item) : outcome :=
    match closest dist ord (all_places m) (i_from q), closest dist ord (all_places m) (i_to q) with
    | Some (s, _), Some (e, _) =>
        match seg_ord (segments_of (m_table m) s), seg_ord (segments_of (m_table m) e) with
        | k1 :: r1, k2 :: r2 =>
            match same_edge (k1 :: r1) (k2 :: r2) with
            | Some k =>
                let l1 := on_segment (m_table m) k true s e in
                let l := match l1 with [] => on_segment (m_table m) (snd k, fst k) true s e | _ => l1 end in
                match l with [] => Lines [] | _ => lines_of (put_line m (i_id q) l) end
            | None =>
                match fold_left (try_way fuel m (i_from q) (i_to q))
                        [(fst k1, fst k2); (fst k1, snd k2); (snd k1, fst k2); (snd k1, snd k2)] (Some None) with
                | None => Stuck
                | Some None => Lines []
                | Some (Some (_, path)) =>
                    match path with
                    | [] => Lines []
                    | _ => let (l, ok) := long_line m k1 k2 s e path in
                           if ok then lines_of (put_line m (i_id q) l) else Fail
                    end
                end
            end
        | _, _ => Lines []
        end
    | _, _ => Fail
    end.

  (** OsmPlannerService.cpp:531-905; after a failure no item counts *)
  Fixpoint road_items (fuel : nat) (m : road_map) (qs : list item) : outcome :=
    match qs with
    | [] => Lines []
    | q :: r => match road_item fuel m q with
                | Stuck => Stuck
                | Fail => Fail
                | Lines l => match road_items fuel m r with Lines k => Lines (l ++ k) | o => o end
                end
    end.

  (** processReceivedLmcpMessage: the receiver, the id of the response and its lines; [None] if the service does not
      come to an end.  Without a map the response is as it was made, with id 0. *)
  Definition answer_points (fuel : nat) (m : option road_map) (sender id : Z) (qs : list item) : option (list (Z * (Z * list line))) :=
    match m with
    | None => Some [(sender, (0, []))]
    | Some m => match road_items fuel m qs with
                | Stuck => None
                | Fail => Some []
                | Lines l => Some [(sender, (id, l))]
                end
    end.
End Road.

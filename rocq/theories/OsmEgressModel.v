(** Model of the ground planner answering requests for the roads that leave a circle.
    /repo/src/cpp/Services/OsmPlannerService.cpp:199-210 (processReceivedLmcpMessage), 223-259 (bProcessEgressRequest),
    1291-1300 (m_nodeIdVsSegmentBeginEndIds) and 1707-1820 (findRoadIntersectionsOfCircle).

    The map is that of OsmMapModel; positions are whole millimetres.  The iteration orders of an unordered_set and of
    the elements of equal key of an unordered_multimap are functions [set_ord] and [seg_ord].  Places are given by the
    ids of their nodes instead of latitude, longitude and height.  Nodes of recorded sections always have a position
    (they are dereferenced when the sections are recorded), so the branch for an unknown node only skips it. *)
From Coq Require Import List ZArith Bool.
From Verif Require Import ZMap OsmMapModel OsmNearModel OsmPlanModel.
Import ListNotations.
Open Scope list_scope.
Open Scope Z_scope.

(** OsmPlannerService.cpp:1293-1299; the sections a node lies on *)
Definition segments_of (t : table) (n : Z) : list (Z * Z) :=
  flat_map (fun e => flat_map (fun x => if x =? n then [fst e] else []) (s_nodes (snd e))) t.

Section Egress.
  Context (dist : pos -> pos -> Z) (set_ord : list Z -> list Z) (seg_ord : list (Z * Z) -> list (Z * Z)).

  (** intersections.push_back and nodeIdsFinal.insert; OsmPlannerService.cpp:1773-1779 *)
  Definition add_once (l : list Z) (n : Z) : list Z := if zin n l then l else l ++ [n].

  (** OsmPlannerService.cpp:1760-1813, one pair of nodes *)
  Definition cross (ps : zmap pos) (center : pos) (radius : Z) (l : list Z) (a b : Z) : list Z :=
    match zget ps a, zget ps b with
    | Some p, Some q =>
        let d1 := dist center p in
        let d2 := dist center q in
        if ((radius <=? d1) && (d2 <=? radius)) || ((d1 <=? radius) && (radius <=? d2))
        then if d2 <? d1 then add_once l a
             else if d1 <? d2 then add_once l b
             else add_once (add_once l a) b
        else l
    | _, _ => l
    end.
  (** OsmPlannerService.cpp:1755-1818 *)
  Fixpoint cross_all (ps : zmap pos) (center : pos) (radius : Z) (l : list Z) (nodes : list Z) : list Z :=
    match nodes with
    | a :: ((b :: _) as r) => cross_all ps center radius (cross ps center radius l a b) r
    | _ => l
    end.

  (** OsmPlannerService.cpp:1712-1715; the sum in metres truncated, then divided by 100 *)
  Definition extent (x : Z) : Z := Z.quot (Z.quot x 1000) 100.
  (** OsmPlannerService.cpp:1711-1739; the planning nodes in the cells from corner to corner *)
  Definition in_extent (m : road_map) (center : pos) (radius : Z) : list Z :=
    map fst (filter (fun e => let (n, c) := node_cell (snd e) in
                              (extent (fst center - radius) <=? n) && (n <=? extent (fst center + radius))
                              && (extent (snd center - radius) <=? c) && (c <=? extent (snd center + radius)))
                    (junction_places m)).

  (** findRoadIntersectionsOfCircle *)
  Definition crossings (m : road_map) (center : pos) (radius : Z) : list Z :=
    fold_left (fun l n =>
      fold_left (fun l k => match tget (m_table m) k with
                            | Some s => cross_all (positions (m_nodes m)) center radius l (s_nodes s)
                            | None => l
                            end) (seg_ord (segments_of (m_table m) n)) l)
      (set_ord (in_extent m center radius)) [].

  (** uxas::messages::route::EgressRouteRequest and EgressRouteResponse with headings and places *)
  Record egress_request := { g_id : Z; g_center : pos; g_radius : Z }.
  Record egress_response := { e_id : Z; e_headings : list Z; e_nodes : list Z }.

  (** bProcessEgressRequest; without a map the tables are empty *)
  Definition egress (m : option road_map) (r : egress_request) : egress_response :=
    let l := match m with Some m => crossings m (g_center r) (g_radius r) | None => [] end in
    {| e_id := g_id r; e_headings := map (fun _ => 0) l; e_nodes := l |}.

  (** processReceivedLmcpMessage; the receiver and the response *)
  Definition answer_egress (m : option road_map) (sender : Z) (r : egress_request) : list (Z * egress_response) := [(sender, egress m r)].
End Egress.

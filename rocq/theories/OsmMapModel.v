(** Model of the road map of the ground route planner: how a file of OpenStreetMap is turned into junctions, road
    sections and a graph, and how the graph is searched.  /repo/src/cpp/Services/OsmPlannerService.cpp:942-1182
    (isBuildRoadGraphWithOsm), 1187-1303 (isProcessHighwayNodes), 1367-1451 (isBuildGraph), 1512-1594
    (isFindShortestRoute) and OsmPlannerService.h:317-349 (the guess of the distance).

    The parsed file is given: ways with id, whether a tag says "highway", and node ids; nodes with id and position.
    Ways and nodes without id are skipped by the code and left out here.  Positions are whole millimetres north and
    east of the origin (double metres in the code), distances come from a function [dist], so sums do not round;
    conversions to whole metres are modelled.  Node ids, indices and lengths are unbounded.  The elements of equal key
    of an unordered_multimap come in an order [ord] that the library determines.  Dereferencing the end of a map is
    [None] (the code has undefined behaviour).  Plot files, metrics and log output are left out. *)
From Coq Require Import List ZArith Bool.
From Verif Require Import ZMap AStarModel.
Import ListNotations.
Open Scope list_scope.
Open Scope Z_scope.

(** n_FrameworkLib::CPosition: m_north_m, m_east_m in millimetres *)
Definition pos := (Z * Z)%type.

(** An element "way" of the file; OsmPlannerService.cpp:973-998 *)
Record way := { w_id : Z; w_road : bool; w_nodes : list Z }.

(** OsmPlannerService.cpp:1012-1045; the ends of a road, and nodes met before, are used for planning *)
Fixpoint flag_nodes (first : bool) (l : list Z) (m : zmap bool) : zmap bool :=
  match l with
  | [] => m
  | n :: r => flag_nodes false r (zset m n (first || (match r with [] => true | _ => false end) || zhas m n))
  end.
Definition flag_way (m : zmap bool) (w : way) : zmap bool := if w_road w then flag_nodes true (w_nodes w) m else m.
Definition flags (ws : list way) : zmap bool := fold_left flag_way ws [].

(** OsmPlannerService.cpp:1002; highWayIds *)
Definition highways (ws : list way) : list Z := map w_id (filter w_road ws).

(** OsmPlannerService.cpp:1063-1129; m_idVsNode, m_nodeIdVsPlanningIndex, m_planningIndexVsNodeId, planningNodeIds,
    planinngIndex *)
Record loaded := { positions : zmap pos; index : zmap Z; back : zmap Z; planning : list Z; count : Z }.
Definition load_init : loaded := {| positions := []; index := []; back := []; planning := []; count := 0 |}.

Definition load_node (fl : zmap bool) (st : loaded) (e : Z * option pos) : loaded :=
  let (id, p) := e in
  match zget fl id with
  | None => st
  | Some pl =>
      if zhas (positions st) id then st
      else
        let st1 := if pl
                   then {| positions := positions st; index := zset (index st) id (count st + 1);
                           back := (if zhas (back st) (count st + 1) then back st else zset (back st) (count st + 1) id);
                           planning := zadd id (planning st); count := count st + 1 |}
                   else st in
        match p with
        | None => st1
        | Some x => {| positions := zset (positions st1) id x; index := index st1; back := back st1;
                       planning := planning st1; count := count st1 |}
        end
  end.
Definition load (fl : zmap bool) (ns : list (Z * option pos)) : loaded := fold_left (load_node fl) ns load_init.

(** s_EdgeIds; OsmPlannerService.h:216-221 *)
Record section := { s_nodes : list Z; s_way : Z; s_dist : Z }.
(** m_nodeIdsVsEdgeNodeIds *)
Definition table := list ((Z * Z) * section).
Fixpoint tget (t : table) (k : Z * Z) : option section :=
  match t with
  | [] => None
  | ((a, b), s) :: r => if (a =? fst k) && (b =? snd k) then Some s else tget r k
  end.

(** OsmPlannerService.cpp:1232-1250; forward, then reverse, each only if there is none yet *)
Definition tput (t : table) (k : Z * Z) (s : section) : table :=
  match tget t k with Some _ => t | None => t ++ [(k, s)] end.

(** n_FrameworkLib::CPosition's int64_t maximum, OsmPlannerService.h:330 *)
Definition far : Z := 9223372036854775807.

(** The state after configure *)
Record road_map := { m_nodes : loaded; m_table : table; m_edges : list edge }.

Section Map.
  Context (dist : pos -> pos -> Z) (ord : list Z -> list Z).

  (** m_wayIdVsNodeId.equal_range; OsmPlannerService.cpp:1016 and 1199 *)
  Definition way_nodes (ws : list way) (id : Z) : list Z :=
    ord (flat_map (fun w => if w_road w && (w_id w =? id) then w_nodes w else []) ws).

  (** OsmPlannerService.cpp:1189-1289, one highway: itEdgeFirst with the nodes since then, previousNode and distance.
      The flag is isSuccess. *)
  Fixpoint cut (fl : zmap bool) (ps : zmap pos) (id : Z) (cur : option (Z * list Z * pos * Z)) (t : table)
           (l : list Z) : option (table * bool) :=
    match l with
    | [] => Some (t, true)
    | n :: r =>
        match zget fl n with
        | None => Some (t, false)
        | Some true =>
            match zget ps n with
            | None => None
            | Some p =>
                match cur with
                | None => cut fl ps id (Some (n, [n], p, 0)) t r
                | Some (a, c, prev, d) =>
                    let nodes := c ++ [n] in
                    let d' := d + dist prev p in
                    let t1 := tput t (a, n) {| s_nodes := nodes; s_way := id; s_dist := d' |} in
                    let t2 := tput t1 (n, a) {| s_nodes := rev nodes; s_way := id; s_dist := d' |} in
                    cut fl ps id (Some (n, [n], p, 0)) t2 r
                end
            end
        | Some false =>
            match cur with
            | None => cut fl ps id None t r
            | Some (a, c, prev, d) =>
                match zget ps n with
                | None => None
                | Some p => cut fl ps id (Some (a, c ++ [n], p, d + dist prev p)) t r
                end
            end
        end
    end.

  Fixpoint cut_all (fl : zmap bool) (ps : zmap pos) (ws : list way) (t : table) (ids : list Z) : option (table * bool) :=
    match ids with
    | [] => Some (t, true)
    | id :: r =>
        match cut fl ps id None t (way_nodes ws id) with
        | None => None
        | Some (t1, ok) => match cut_all fl ps ws t1 r with Some (t2, ok2) => Some (t2, ok && ok2) | None => None end
        end
    end.

  (** OsmPlannerService.cpp:1378-1435, the nodes of one highway: runningLength_m, itLastNode, currentWayId and
      startIndex, the edges so far and isSuccess *)
  Record walk_st := { k_way : Z; k_start : Z; k_edges : list edge; k_ok : bool }.
  Fixpoint walk (ld : loaded) (id : Z) (running : Z) (last : option pos) (st : walk_st) (l : list Z) : option walk_st :=
    match l with
    | [] => Some st
    | n :: r =>
        if zin n (planning ld)
        then
          if negb (id =? k_way st)
          then match zget (positions ld) n with
               | Some p =>
                   match zget (index ld) n with
                   | Some i => walk ld id running (Some p) {| k_way := id; k_start := i; k_edges := k_edges st; k_ok := k_ok st |} r
                   | None => walk ld id running last {| k_way := -1; k_start := k_start st; k_edges := k_edges st; k_ok := k_ok st |} r
                   end
               | None => walk ld id running last {| k_way := -1; k_start := k_start st; k_edges := k_edges st; k_ok := k_ok st |} r
               end
          else match zget (positions ld) n with
               | Some p =>
                   match zget (index ld) n with
                   | Some i =>
                       match last with
                       | None => None
                       | Some q =>
                           walk ld id running (Some p)
                             {| k_way := k_way st; k_start := i;
                                k_edges := k_edges st ++ [(k_start st, i, (dist p q + running) / 1000)]; k_ok := k_ok st |} r
                       end
                   | None => walk ld id running last {| k_way := k_way st; k_start := k_start st; k_edges := k_edges st; k_ok := false |} r
                   end
               | None => walk ld id running last st r
               end
        else match zget (positions ld) n with
             | Some p => match last with
                         | None => None
                         | Some q => walk ld id (running + dist p q) (Some p) st r
                         end
             | None => walk ld id running last st r
             end
    end.

  Fixpoint walk_all (ld : loaded) (ws : list way) (st : walk_st) (ids : list Z) : option walk_st :=
    match ids with
    | [] => Some st
    | id :: r => match walk ld id 0 None st (way_nodes ws id) with Some st' => walk_all ld ws st' r | None => None end
    end.

  (** isBuildRoadGraphWithOsm; [None] is a crash, a road map without graph is not used by the service *)
  Inductive built := Crash | Failed | Built (m : road_map).
  Definition build (ws : list way) (ns : list (Z * option pos)) : built :=
    let ld := load (flags ws) ns in
    match cut_all (flags ws) (positions ld) ws [] (highways ws) with
    | None => Crash
    | Some (t, false) => Failed
    | Some (t, true) =>
        match walk_all ld ws {| k_way := -1; k_start := -1; k_edges := []; k_ok := true |} (highways ws) with
        | None => Crash
        | Some st => if k_ok st then Built {| m_nodes := ld; m_table := t; m_edges := k_edges st |} else Failed
        end
    end.

  (** num_vertices of the graph: planningNodeIds.size(), more if an edge names a higher one;
      OsmPlannerService.cpp:1467-1468 *)
  Definition vertex_count (m : road_map) : Z :=
    fold_right (fun e acc => let '(a, b, _) := e in Z.max acc (1 + Z.max a b)) (Z.of_nat (length (planning (m_nodes m)))) (m_edges m).

  (** OsmPlannerService.h:328-343; in whole metres *)
  Definition guess (m : road_map) (goal : pos) (v : Z) : Z :=
    match zget (back (m_nodes m)) v with
    | None => far
    | Some id => match zget (positions (m_nodes m)) id with None => far | Some p => dist goal p / 1000 end
    end.

  Fixpoint names (b : zmap Z) (l : list Z) : option (list Z) :=
    match l with
    | [] => Some []
    | v :: r => match zget b v, names b r with Some n, Some ns => Some (n :: ns) | _, _ => None end
    end.

  (** isFindShortestRoute; [Astray] is an access beyond the vertices of the graph *)
  Inductive way_found := Astray | NoWay | Way (len : Z) (ids : list Z) | Busy.
  Definition shortest (both : bool) (choose : list (Z * Z) -> Z) (fuel : nat) (m : road_map) (a b : Z) : way_found :=
    match zget (index (m_nodes m)) a, zget (index (m_nodes m)) b, zget (positions (m_nodes m)) b with
    | Some i, Some j, Some p =>
        if vertex_count m <=? i then Astray
        else match search (m_edges m) (guess m p) both choose j fuel (search_init i) with
             | Running => Busy
             | NotFound => NoWay
             | Found len s =>
                 match trail (length (dst s)) (par s) j [] with
                 | None => NoWay
                 | Some l => match names (back (m_nodes m)) l with None => NoWay | Some ids => Way len ids end
                 end
             end
    | _, _, _ => NoWay
    end.
End Map.

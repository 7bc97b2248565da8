(** Model of the search for a shortest way in a road network: boost::astar_search on an undirected adjacency list with
    vertices in a vector, as it is called and as its result is read by
    /repo/src/cpp/Services/OsmPlannerService.cpp:1511-1591, with the visitor of OsmPlannerService.h:351-372.

    The library is not part of the repository; it is modelled after its documentation and source: an updatable heap
    ordered by distance plus heuristic, vertices that are reached on a shorter way after they were left are put into
    the heap again.  boost::relax works in both directions of an undirected edge, boost::relax_target in one; which
    one astar_search calls depends on the version, and [both] stands for it.  Which of several best vertices is at the
    top of the heap is left open ([choose]).  Weights and distances are unbounded (int32_t in the code), vertices
    are numbers.  The loop needs a bound on the number of steps, [fuel]; that there is always one that suffices is
    proved. *)
From Coq Require Import List ZArith Bool.
From Verif Require Import ZMap.
Import ListNotations.
Open Scope list_scope.
Open Scope Z_scope.

(** An edge between two vertices, with its length; OsmPlannerService.h:143, Graph_t *)
Definition edge := (Z * Z * Z)%type.

(** The distance map, the predecessor map and the contents of the heap.  A vertex that has no distance is white, one
    in the heap is grey, another one is black. *)
Record search_st := { dst : zmap Z; par : zmap Z; opened : list Z }.

Inductive outcome := Found (len : Z) (st : search_st) | NotFound | Running.

Section AStar.
  Context (es : list edge) (h : Z -> Z) (both : bool) (choose : list (Z * Z) -> Z).

  (** out_edges of an undirected graph *)
  Definition out_edges (u : Z) : list (Z * Z) :=
    flat_map (fun e => let '(a, b, w) := e in (if a =? u then [(b, w)] else []) ++ (if b =? u then [(a, w)] else [])) es.

  (** tree_edge, gray_target and black_target of detail::astar_bfs_visitor; for a vertex [u] without distance, which
      does not occur, nothing happens *)
  Definition relax (u : Z) (s : search_st) (e : Z * Z) : search_st :=
    let (v, w) := e in
    match zget (dst s) u with
    | None => s
    | Some du =>
        match zget (dst s) v with
        | None => {| dst := zset (dst s) v (du + w); par := zset (par s) v u; opened := v :: opened s |}
        | Some dv =>
            if du + w <? dv
            then {| dst := zset (dst s) v (du + w); par := zset (par s) v u; opened := zadd v (opened s) |}
            else if both && (dv + w <? du)
            then {| dst := zset (dst s) u (dv + w); par := zset (par s) u v; opened := zadd v (opened s) |}
            else s
        end
    end.

  (** The cost of a vertex in the heap *)
  Definition cost (s : search_st) (v : Z) : Z := match zget (dst s) v with Some d => d + h v | None => h v end.

  (** breadth_first_visit *)
  Fixpoint search (goal : Z) (fuel : nat) (s : search_st) : outcome :=
    match fuel with
    | O => Running
    | S fuel' =>
        match opened s with
        | [] => NotFound
        | _ =>
            let u := choose (map (fun v => (v, cost s v)) (opened s)) in
            (** OsmPlannerService.h:363-367; examine_vertex throws found_goal *)
            if u =? goal
            then match zget (dst s) u with Some d => Found d s | None => NotFound end
            else search goal fuel' (fold_left (relax u) (out_edges u)
                                      {| dst := dst s; par := par s; opened := zrem u (opened s) |})
        end
    end.

  (** astar_search: initialisation; every vertex is its own predecessor *)
  Definition search_init (start : Z) : search_st := {| dst := [(start, 0)]; par := [(start, start)]; opened := [start] |}.
End AStar.

(** OsmPlannerService.cpp:1548-1565, from the goal back to the vertex that is its own predecessor *)
Fixpoint trail (fuel : nat) (p : zmap Z) (v : Z) (acc : list Z) : option (list Z) :=
  match fuel with
  | O => None
  | S fuel' => match zget p v with
               | None => None
               | Some u => if u =? v then Some (v :: acc) else trail fuel' p u (v :: acc)
               end
  end.

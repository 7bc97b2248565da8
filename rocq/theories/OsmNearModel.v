(** Model of the search for the node of a road map that is closest to a position.
    /repo/src/cpp/Services/OsmPlannerService.cpp:1134-1164 (cells of the nodes), 1596-1632 (isFindClosestNodeId),
    1634-1672 (isExamineCellsInSquare) and 1674-1705 (isExamineCell).

    Positions and distances are as in OsmMapModel; cells are unbounded (int32_t in the code).  Only nodes with a
    position are entered in the cells, so the branch for a node that is not found is left out.  The nodes of a cell
    come in an order [ord] that the library determines. *)
From Coq Require Import List ZArith Bool.
From Verif Require Import OsmMapModel.
Import ListNotations.
Open Scope list_scope.
Open Scope Z_scope.

(** OsmPlannerService.cpp:1145-1147 and 1156-1158; metres divided by 100, then truncated *)
Definition node_cell (p : pos) : Z * Z := (Z.quot (fst p) 100000, Z.quot (snd p) 100000).
(** OsmPlannerService.cpp:1606-1607; metres truncated, then divided by 100 *)
Definition pos_cell (p : pos) : Z * Z := (Z.quot (Z.quot (fst p) 1000) 100, Z.quot (Z.quot (snd p) 1000) 100).

(** OsmPlannerService.cpp:1649-1669; the numbers from [a] on, [n] of them *)
Fixpoint from (a : Z) (n : nat) : list Z := match n with O => [] | S n' => a :: from (a + 1) n' end.
(** OsmPlannerService.cpp:1645-1669; the cells in the order in which they are examined *)
Definition ring (c : Z * Z) (k : Z) : list (Z * Z) :=
  let (n, e) := c in
  flat_map (fun x => [(x, e - k); (x, e + k)]) (from (n - k) (Z.to_nat (2 * k + 1)))
  ++ flat_map (fun y => [(n - k, y); (n + k, y)]) (from (e - k + 1) (Z.to_nat (2 * k))).

Section Near.
  Context (dist : pos -> pos -> Z) (ord : list (Z * pos) -> list (Z * pos)).

  (** nodeId and length_m; [None] is -1 with the greatest double *)
  Definition best := option (Z * Z).

  (** OsmPlannerService.cpp:1687-1694 *)
  Definition better (p : pos) (b : best) (e : Z * pos) : best :=
    let d := dist p (snd e) in
    match b with
    | None => Some (fst e, d)
    | Some (_, d0) => if d <? d0 then Some (fst e, d) else b
    end.
  (** isExamineCell *)
  Definition examine_cell (nodes : list (Z * pos)) (p : pos) (b : best) (c : Z * Z) : best :=
    fold_left (better p) (ord (filter (fun e => (fst (node_cell (snd e)) =? fst c) && (snd (node_cell (snd e)) =? snd c)) nodes)) b.

  (** OsmPlannerService.cpp:1612-1629 *)
  Fixpoint rings (nodes : list (Z * pos)) (p : pos) (ks : list Z) (b : best) : best :=
    match ks with
    | [] => b
    | k :: r => let b1 := fold_left (examine_cell nodes p) (ring (pos_cell p) k) b in
                if (match b1 with Some (id, _) => 0 <? id | None => false end) && (0 <? k) then b1 else rings nodes p r b1
    end.
  (** isFindClosestNodeId; [Some] if a node was found *)
  Definition closest (nodes : list (Z * pos)) (p : pos) : best := rings nodes p (from 0 11) None.
End Near.

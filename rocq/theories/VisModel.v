(** Model of the visibility graph, /repo/src/cpp/Plans/VisibilityGraph.cpp, Polygon.cpp, Edge.cpp: which
    pairs of corners of the zones are joined, which way is chosen from a start to an end, and the corners
    it passes.

    The input are the polygons left by the expansion and merging of the zones (VisibilityGraph.cpp:83-184,
    VisiLibity), with the corners numbered; that merging is not modelled.  The test whether a point lies in a
    polygon ([inside], Polygon.cpp:49-90, CGrid.cpp), the classification of a polygon as not convex
    ([notconvex], Polygon.cpp:181-297) and the all pairs shortest paths of the boost library ([dist],
    [parent], VisibilityGraph.cpp:549-600) are parameters.  The smoothing of the way into turns is not
    modelled.  Coordinates are rational and the arithmetic is exact; the conversion of a distance to an
    integer is modelled for the lengths of ways, not for single legs, which would have to be longer than
    2^31 m to leave the range. *)
From Coq Require Import List ZArith QArith Qround Bool.
From Verif Require Import SegModel.
Import ListNotations.
Open Scope list_scope.
Open Scope Z_scope.

(** A corner: its index in the vertex container, and its position. *)
Definition vertex : Type := (Z * pos)%type.

(** Polygon.h: the fields that matter. *)
Record polygon := { p_in : bool; p_verts : list vertex }.

(** Polygon.h:440-452: every corner with its successor, the last with the first. *)
Definition ring (vs : list vertex) : list (vertex * vertex) :=
  match vs with [] => [] | v :: r => combine vs (r ++ [v]) end.

(** Position.h:153-160, cut to an integer. *)
Definition metres (a b : pos) : Z :=
  let dn := (north a - north b)%Q in
  let de := (east a - east b)%Q in
  Z.sqrt (Qfloor (dn * dn + de * de)%Q).

(** Edge.cpp:168-190 and 192-214: an edge that shares a corner is not crossed. *)
Definition hit (A B : pos) (ia ib : Z) (e : vertex * vertex) : bool :=
  if (fst (fst e) =? ia) || (fst (fst e) =? ib) || (fst (snd e) =? ia) || (fst (snd e) =? ib) then false
  else crosses (snd (fst e)) (snd (snd e)) A B.

(** VisibilityGraph.cpp:605-622; also the checks of Polygon.cpp:397-411 and 458-470, whose order by
    distance does not matter, and Polygon.h:595-608. *)
Definition blocked (ps : list polygon) (A B : pos) (ia ib : Z) : bool :=
  existsb (fun p => existsb (hit A B ia ib) (ring (p_verts p))) ps.

(** VisibilityGraph.cpp:240-242, Polygon.cpp:330-331, 385-386 *)
Definition mid (a b : pos) : pos :=
  {| east := ((east b - east a) / 2 + east a)%Q; north := ((north b - north a) / 2 + north a)%Q |}.

(** An edge of the graph: the indices of its ends and its length. *)
Definition wedge : Type := (Z * Z * Z)%type.
Definition join (a b : vertex) : wedge := (fst a, fst b, metres (snd a) (snd b)).

(** PathInformation.h:53-60: the indices, the length ([None] if the conversion of VisibilityGraph.cpp:848 is
    undefined) and the ends. *)
Record path := { pa_first : Z; pa_last : Z; pa_len : option Z; pa_start : pos; pa_end : pos }.
Definition no_path : path :=
  {| pa_first := -1; pa_last := -1; pa_len := Some (-1);
     pa_start := {| east := 0; north := 0 |}; pa_end := {| east := 0; north := 0 |} |}.

Definition int_max : Z := 2147483647.

Section Graph.
  Context (inside : polygon -> pos -> bool) (notconvex : polygon -> bool).

  (** VisibilityGraph.cpp:233-260 *)
  Definition good_side (ps : list polygon) (e : vertex * vertex) : bool :=
    forallb (fun c =>
      if p_in c then
        let one := inside c (snd (fst e)) in
        let two := inside c (snd (snd e)) in
        let three := inside c (mid (snd (fst e)) (snd (snd e))) in
        negb (xorb one two || xorb one three)
      else true) ps.

  (** VisibilityGraph.cpp:213-267 *)
  Definition sides (ps : list polygon) : list wedge :=
    flat_map (fun p =>
      map (fun e => join (fst e) (snd e))
          (if p_in p then ring (p_verts p) else filter (good_side ps) (ring (p_verts p)))) ps.

  (** Polygon.cpp:371-424 *)
  Definition visible_from (ps : list polygon) (p q : polygon) : list wedge :=
    flat_map (fun v => flat_map (fun w =>
      if (negb (p_in p) || inside p (mid (snd v) (snd w)))
         && negb (blocked ps (snd v) (snd w) (fst v) (fst w))
      then [join v w] else []) (p_verts q)) (p_verts p).

  (** VisibilityGraph.cpp:289-298 *)
  Fixpoint between (ps rest : list polygon) : list wedge :=
    match rest with
    | [] => []
    | p :: rest' => flat_map (visible_from ps p) rest' ++ between ps rest'
    end.

  (** Every pair of a list, the earlier one first. *)
  Fixpoint pairs {A : Type} (l : list A) : list (A * A) :=
    match l with [] => [] | x :: r => map (fun y => (x, y)) r ++ pairs r end.

  (** Polygon.cpp:310-322: the pair is no side of the polygon. *)
  Definition new_pair (p : polygon) (e : vertex * vertex) : bool :=
    negb (existsb (fun s => ((fst (fst s) =? fst (fst e)) && (fst (snd s) =? fst (snd e)))
                         || ((fst (fst s) =? fst (snd e)) && (fst (snd s) =? fst (fst e))))
                  (ring (p_verts p))).

  (** Polygon.cpp:300-361 *)
  Definition self_visible (p : polygon) : list (vertex * vertex) :=
    if notconvex p then
      filter (fun e => new_pair p e
                       && Bool.eqb (inside p (mid (snd (fst e)) (snd (snd e)))) (p_in p)
                       && negb (blocked [p] (snd (fst e)) (snd (snd e)) (fst (fst e)) (fst (snd e))))
             (pairs (p_verts p))
    else [].

  (** Polygon.cpp:427-480, except that the candidates found again at every call are added once. *)
  Definition extra (ps : list polygon) (p : polygon) : list wedge :=
    map (fun e => join (fst e) (snd e))
      (filter (fun e => (negb (p_in p) || inside p (mid (snd (fst e)) (snd (snd e))))
                        && negb (blocked ps (snd (fst e)) (snd (snd e)) (fst (fst e)) (fst (snd e))))
              (self_visible p)).

  (** VisibilityGraph.cpp:189-322 *)
  Definition build (ps : list polygon) : list wedge :=
    sides ps ++ between ps ps ++ flat_map (extra ps) ps.
End Graph.

Section Way.
  Context (dist parent : Z -> Z -> Z).

  (** VisibilityGraph.cpp:755-778 and 783-803: the corners seen from a position, with the length of the leg.
      The maps are ordered by the index; here by the order of the polygons, which is the same order when the
      corners are numbered along the polygons (VisibilityGraph.cpp:148-177). *)
  Definition seen_from (ps : list polygon) (A : pos) : list (Z * Z) :=
    flat_map (fun p => flat_map (fun e =>
      let v := fst e in
      if blocked ps A (snd v) (-1) (fst v) then [] else [(fst v, metres A (snd v))]) (ring (p_verts p))) ps.
  Definition seen_to (ps : list polygon) (B : pos) : list (Z * Z) :=
    flat_map (fun p => flat_map (fun e =>
      let v := fst e in
      if blocked ps (snd v) B (fst v) (-1) then [] else [(fst v, metres B (snd v))]) (ring (p_verts p))) ps.

  (** VisibilityGraph.cpp:826-829 *)
  Definition candidates (s e : list (Z * Z)) : list (Z * Z * Z) :=
    flat_map (fun x => map (fun y => (fst x, fst y, snd x + dist (fst x) (fst y) + snd y)) e) s.

  (** VisibilityGraph.cpp:831-840: the first of the least candidates. *)
  Definition better (m : option (Z * Z * Z)) (c : Z * Z * Z) : option (Z * Z * Z) :=
    match m with
    | None => Some c
    | Some b => if snd c <? snd b then Some c else Some b
    end.

  (** VisibilityGraph.cpp:724-861, 662-676.  A direct way has the indices -1. *)
  Definition find_path (ps : list polygon) (A B : pos) : path :=
    if blocked ps A B (-1) (-1) then
      match fold_left better (candidates (seen_from ps A) (seen_to ps B)) None with
      | Some (i, j, l) =>
          {| pa_first := i; pa_last := j; pa_len := if l <=? int_max then Some l else None;
             pa_start := A; pa_end := B |}
      | None => no_path
      end
    else {| pa_first := -1; pa_last := -1; pa_len := Some (metres A B); pa_start := A; pa_end := B |}.

  (** VisibilityGraph.cpp:1076-1085: [errFindShortestPathLinear] has no way to fail. *)
  Definition is_find_path (ps : list polygon) (A B : pos) : bool * path := (true, find_path ps A B).

  (** VisibilityGraph.cpp:1440-1459: from the last corner along the parents to the first one; [None] is
      [errPathConstruction]. *)
  Fixpoint climb (fuel : nat) (b cur : Z) (acc : list Z) : option (list Z) :=
    if cur =? b then Some (b :: acc)
    else match fuel with
         | O => None
         | S f => climb f b (parent b cur) (cur :: acc)
         end.

  (** VisibilityGraph.cpp:1429-1460: the corners passed by a way that is not direct; [n] is their number. *)
  Definition trail (n : nat) (p : path) : option (list Z) :=
    if pa_first p <? 0 then Some []
    else climb (S n) (pa_first p) (parent (pa_first p) (pa_last p)) [pa_last p].
End Way.

(** What is meant by a way around zones. *)
From Coq Require Import List ZArith QArith.
From Verif Require Import SegModel SegSpec VisModel.
Import ListNotations.
Open Scope list_scope.
Open Scope Z_scope.

(** A corner of one of the zones. *)
Definition corner (ps : list polygon) (v : vertex) : Prop := exists p, In p ps /\ In v (p_verts p).

(** Going along the boundary of [p], [b] follows [a]. *)
Definition side (p : polygon) (a b : vertex) : Prop :=
  (exists l r, p_verts p = l ++ a :: b :: r)
  \/ (exists l r, p_verts p = l ++ [a] /\ p_verts p = b :: r).

(** From [A] one sees [B]: no side of a zone, apart from those at the corners [ia] and [ib], is in the way.
    A side that lies in the line of sight is not in the way. *)
Definition sees (ps : list polygon) (A B : pos) (ia ib : Z) : Prop :=
  forall p a b, In p ps -> side p a b ->
    fst a <> ia -> fst a <> ib -> fst b <> ia -> fst b <> ib ->
    meet (snd a) (snd b) A B -> parallel (snd a) (snd b) A B.

(** No corner has this number. *)
Definition nowhere : Z := -1.

(** [l] is the distance in whole metres. *)
Definition distance (A B : pos) (l : Z) : Prop :=
  let d2 := ((north A - north B) * (north A - north B) + (east A - east B) * (east A - east B))%Q in
  0 <= l /\ (inject_Z (l * l) <= d2)%Q /\ (d2 < inject_Z ((l + 1) * (l + 1)))%Q.

(** Two corners joined by an edge of length [w], which can be passed both ways. *)
Definition joined (es : list wedge) (a b w : Z) : Prop := In (a, b, w) es \/ In (b, a, w) es.

(** The corners [vs], one after the other, over the edges [es]. *)
Inductive walk (es : list wedge) : list Z -> Z -> Prop :=
| walk_one : forall a, walk es [a] 0
| walk_more : forall a b w r l, joined es a b w -> walk es (b :: r) l -> walk es (a :: b :: r) (w + l).

Definition starts (vs : list Z) (a : Z) : Prop := exists r, vs = a :: r.
Definition ends (vs : list Z) (b : Z) : Prop := exists r, vs = r ++ [b].

(** A way of length [l] from [A] to [B] that passes the corners [vs]. *)
Definition way (ps : list polygon) (es : list wedge) (A B : pos) (vs : list Z) (l : Z) : Prop :=
  exists v w la lw lb,
    corner ps v /\ corner ps w
    /\ starts vs (fst v) /\ ends vs (fst w)
    /\ sees ps A (snd v) nowhere (fst v)
    /\ sees ps (snd w) B (fst w) nowhere
    /\ distance A (snd v) la /\ walk es vs lw /\ distance (snd w) B lb
    /\ l = la + lw + lb.

(** What is asked of the library: the length of a shortest walk, 2^31 - 1 if there is none, and for every
    corner the one before it on a shortest walk. *)
Record shortest_walks (es : list wedge) (n : nat) (dist parent : Z -> Z -> Z) : Prop := {
  sw_least : forall a b vs l, starts vs a -> ends vs b -> walk es vs l -> dist a b <= l;
  sw_range : forall a b, dist a b <= 2147483647;
  sw_walk : forall a b, dist a b < 2147483647 ->
    exists vs, starts vs a /\ ends vs b /\ walk es vs (dist a b) /\ (length vs <= n)%nat /\ NoDup vs
      /\ forall l x y r, vs = l ++ x :: y :: r -> parent a y = x;
  sw_self : forall a, parent a a = a
}.

(** The corners are numbered from 0 and no number is used twice. *)
Definition numbered (ps : list polygon) : Prop :=
  NoDup (map fst (flat_map p_verts ps)) /\ forall v, corner ps v -> 0 <= fst v.

(** The point half way between two. *)
Definition half_way (A B : pos) : pos :=
  {| east := ((east B - east A) / 2 + east A)%Q; north := ((north B - north A) / 2 + north A)%Q |}.

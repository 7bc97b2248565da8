(** Roads, junctions and sections, in terms of the file. *)
From Coq Require Import List ZArith Bool.
From Verif Require Import OsmMapModel.
Import ListNotations.
Open Scope list_scope.
Open Scope Z_scope.

(** The roads of the file, as lists of nodes *)
Definition road (ws : list way) (l : list Z) : Prop := exists w, In w ws /\ w_road w = true /\ w_nodes w = l.

(** Neighbours in a list *)
Definition next_in (l : list Z) (a b : Z) : Prop := exists l1 l2, l = l1 ++ a :: b :: l2.
(** One can drive from [a] to [b] without passing another node. *)
Definition neighbours (ws : list way) (a b : Z) : Prop := exists l, road ws l /\ (next_in l a b \/ next_in l b a).

(** One can drive from [a] to [b]. *)
Inductive drive (ws : list way) : Z -> Z -> Prop :=
| drive_there : forall a, drive ws a a
| drive_on : forall a b c, drive ws a b -> neighbours ws b c -> drive ws a c.

(** How often roads pass a node *)
Definition passes (ws : list way) (n : Z) : nat := count_occ Z.eq_dec (flat_map (fun w => if w_road w then w_nodes w else []) ws) n.
(** A node where a road begins or ends, or that is passed more than once *)
Definition junction (ws : list way) (n : Z) : Prop :=
  (exists l, road ws l /\ (hd_error l = Some n \/ hd_error (rev l) = Some n)) \/ (2 <= passes ws n)%nat.

(** A stretch of a road from one junction to the next, in the direction of the road *)
Definition stretch (ws : list way) (a b : Z) (l : list Z) : Prop :=
  exists r mid l1 l2, road ws r /\ r = l1 ++ l ++ l2 /\ l = a :: mid ++ [b]
    /\ junction ws a /\ junction ws b /\ forall x, In x mid -> ~ junction ws x.
(** Or against it *)
Definition section_between (ws : list way) (a b : Z) (l : list Z) : Prop := stretch ws a b l \/ stretch ws b a (rev l).

(** Length of a list of nodes; [pos_of] gives their positions. *)
Fixpoint length_of (dist : pos -> pos -> Z) (pos_of : Z -> pos) (l : list Z) : Z :=
  match l with
  | a :: ((b :: _) as r) => dist (pos_of a) (pos_of b) + length_of dist pos_of r
  | _ => 0
  end.

(** The hops of a list of nodes that end at inner nodes *)
Fixpoint inner_hops (dist : pos -> pos -> Z) (pos_of : Z -> pos) (inner : Z -> bool) (l : list Z) : Z :=
  match l with
  | a :: ((b :: _) as r) => (if inner b then dist (pos_of a) (pos_of b) else 0) + inner_hops dist pos_of inner r
  | _ => 0
  end.

(** A file all whose roads have their own ids and all whose road nodes have a position, given once *)
Definition good_file (ws : list way) (ns : list (Z * option pos)) (pos_of : Z -> pos) : Prop :=
  NoDup (map w_id (filter w_road ws))
  /\ (forall w, In w ws -> w_road w = true -> w_id w <> -1)
  /\ NoDup (map fst ns)
  /\ forall l n, road ws l -> In n l -> In (n, Some (pos_of n)) ns.

(** Distances of the plane *)
Definition metric (dist : pos -> pos -> Z) : Prop :=
  (forall a b, 0 <= dist a b) /\ (forall a, dist a a = 0) /\ (forall a b, dist a b = dist b a)
  /\ forall a b c, dist a c <= dist a b + dist b c.

(** A way over sections from junction to junction, the junctions in order, and its length. *)
Inductive by_sections (dist : pos -> pos -> Z) (pos_of : Z -> pos) (ws : list way) : Z -> list Z -> Z -> Z -> Prop :=
| by_end : forall a, by_sections dist pos_of ws a [a] a 0
| by_leg : forall a b c s l len, section_between ws a b s -> by_sections dist pos_of ws b l c len ->
    by_sections dist pos_of ws a (a :: l) c (length_of dist pos_of s + len).

(** No road has a node that is not a junction before one of its sections, in the order in which it is kept. *)
Definition short_roads (ord : list Z -> list Z) (ws : list way) : Prop :=
  forall r l1 l l2 a b, road ws r -> ord r = l1 ++ l ++ l2 -> section_between ws a b l -> forall x, In x l1 -> junction ws x.

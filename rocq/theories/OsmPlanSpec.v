(** What a route plan of the ground planner promises. *)
From Coq Require Import List ZArith Bool.
From Verif Require Import OsmMapModel OsmMapSpec OsmPlanModel OsmNearProps.
Import ListNotations.
Open Scope list_scope.
Open Scope Z_scope.

(** The waypoints are numbered from 1 and each names the one after it; the last names itself. *)
Definition numbered (l : list waypoint) : Prop :=
  forall i w, nth_error l i = Some w ->
    p_num w = Z.of_nat i + 1 /\ p_next w = (if Nat.eqb (S i) (length l) then Z.of_nat i + 1 else Z.of_nat i + 2).

Section Spec.
  Context (dist : pos -> pos -> Z) (pos_of : Z -> pos) (ws : list way).

  (** A junction closest to a place, of those in some square around it *)
  Definition picked (p : pos) (a : Z) : Prop :=
    junction ws a /\ exists k, 1 <= k <= 10 /\ in_square k p (pos_of a)
      /\ forall c, junction ws c -> in_square k p (pos_of c) -> dist p (pos_of a) <= dist p (pos_of c).
  (** No junction is near. *)
  Definition remote (p : pos) : Prop := forall c, junction ws c -> ~ in_square 10 p (pos_of c).

  (** Nodes along roads: each is the same as the one before, or next to it. *)
  Definition along_roads (l : list Z) : Prop := forall x y, next_in l x y -> x = y \/ neighbours ws x y.

  (** Waypoints from a place, along the nodes, to a place *)
  Definition leads (speed : Z) (p q : pos) (nodes : list Z) (l : list waypoint) : Prop :=
    map p_pos l = p :: map pos_of nodes ++ [q] /\ numbered l /\ forall w, In w l -> p_speed w = speed.

  (** A plan for a route *)
  Definition planned (speed : Z) (cost_only : bool) (q : route_req) (pl : plan) : Prop :=
    n_id pl = q_id q
    /\ match n_cost pl with
       | None => n_points pl = []
                 /\ (remote (q_from q) \/ remote (q_to q) \/ exists a b, picked (q_from q) a /\ picked (q_to q) b /\ ~ drive ws a b)
       | Some (len, v) =>
           v = speed /\ exists a b ids d, picked (q_from q) a /\ picked (q_to q) b /\ NoDup ids
             /\ by_sections dist pos_of ws a ids b d
             /\ dist (q_from q) (pos_of a) + d + dist (q_to q) (pos_of b) <= len + 999 * (Z.of_nat (length ids) - 1)
             /\ if cost_only then n_points pl = []
                else exists nodes, leads speed (q_from q) (q_to q) nodes (n_points pl)
                       /\ hd_error nodes = Some a /\ hd_error (rev nodes) = Some b /\ along_roads nodes
                       /\ by_sections dist pos_of ws a ids b (length_of dist pos_of nodes)
       end.
End Spec.

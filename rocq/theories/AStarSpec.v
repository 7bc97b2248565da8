(** What a way over the edges of an undirected graph is. *)
From Coq Require Import List ZArith.
Import ListNotations.
Open Scope list_scope.
Open Scope Z_scope.

(** An edge can be passed both ways. *)
Definition linked (es : list (Z * Z * Z)) (a b w : Z) : Prop := In (a, b, w) es \/ In (b, a, w) es.

(** From the first to the last of the vertices, over edges of this length altogether. *)
Inductive route (es : list (Z * Z * Z)) : Z -> list Z -> Z -> Z -> Prop :=
| route_end : forall a, route es a [a] a 0
| route_more : forall a b c w l len, linked es a b w -> route es b l c len -> route es a (a :: l) c (w + len).

(** Guesses of the distance that along any edge drop by at most the length of the edge plus [slack]. *)
Definition guess_drops (es : list (Z * Z * Z)) (h : Z -> Z) (slack : Z) : Prop :=
  forall a b w, linked es a b w -> h a <= h b + w + slack.

(** The first of a pair with the least second. *)
Definition best_of (choose : list (Z * Z) -> Z) : Prop :=
  forall l, l <> [] -> exists c, In (choose l, c) l /\ forall v c', In (v, c') l -> c <= c'.

(** Where a vehicle with a plan beside a road should look. *)
From Coq Require Import Reals List.
From Verif Require Import EscortModel EscortSpec.
Import ListNotations.
Open Scope R_scope.

(** The length of a line. *)
Fixpoint way (ps : list pt) : R := match ps with p :: ((q :: _) as r) => gap p q + way r | _ => 0 end.

(** [c], on leg [k], is the point of the line nearest to [t], up to a hair. *)
Definition nearest_on (ps : list pt) (t : pt) (k : nat) (c : pt) : Prop :=
  exists a b, leg ps k a b /\ nearest a b t c /\ forall q, on ps q -> gap t c <= gap t q + hair.
(** How far [c] on leg [k] is from the begin of the line, along it. *)
Definition progressed (ps : list pt) (k : nat) (c : pt) (x : R) : Prop := exists a b, leg ps k a b /\ x = way (firstn (S k) ps) + gap a c.

(** [s] is as far along the road as the vehicle at [t] along its plan, as parts of the whole. *)
Definition looked_at (plan road : list pt) (t s : pt) : Prop :=
  exists k c x, nearest_on plan t k c /\ progressed plan k c x /\ match road with [] => False | p :: r => travel r p (x / way plan * way road) s end.

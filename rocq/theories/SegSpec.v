(** Segments in the plane. *)
From Coq Require Import QArith.
From Verif Require Import SegModel.
Open Scope Q_scope.

(** [P] lies on the segment from [A] to [B], ends included. *)
Definition on_segment (P A B : pos) : Prop :=
  exists s, 0 <= s /\ s <= 1
    /\ east P == east A + s * (east B - east A)
    /\ north P == north A + s * (north B - north A).

(** The two segments have a point in common. *)
Definition meet (A1 A2 B1 B2 : pos) : Prop := exists P, on_segment P A1 A2 /\ on_segment P B1 B2.

(** They have the same direction, or one of them is a single point. *)
Definition parallel (A1 A2 B1 B2 : pos) : Prop :=
  (east A2 - east A1) * (north B2 - north B1) == (north A2 - north A1) * (east B2 - east B1).

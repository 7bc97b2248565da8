(** What the operating region is. *)
From Coq Require Import List ZArith Bool.
From Verif Require Import RegionModel.
Import ListNotations.
Open Scope Z_scope.

(** A zone message with both times -1 withdraws the zone. *)
Definition withdraws (z : zone) : Prop := z_start z = -1 /\ z_end z = -1.

Definition defines_in (id : Z) (e : event) : Prop :=
  exists z, e = EvKeepIn z /\ z_id z = id /\ ~ withdraws z.

Definition defines_out (id : Z) (e : event) : Prop :=
  exists z, e = EvKeepOut z /\ z_id z = id /\ ~ withdraws z.

Definition removes_in (id : Z) (e : event) : Prop :=
  (exists z, e = EvKeepIn z /\ z_id z = id /\ withdraws z) \/ (exists ids, e = EvRemove ids /\ In id ids).

Definition removes_out (id : Z) (e : event) : Prop :=
  (exists z, e = EvKeepOut z /\ z_id z = id /\ withdraws z) \/ (exists ids, e = EvRemove ids /\ In id ids).

(** Defined and not removed since. *)
Definition live (defines removes : event -> Prop) (evs : list event) : Prop :=
  exists a e b, evs = a ++ e :: b /\ defines e /\ forall r, In r b -> ~ removes r.

Definition live_in (evs : list event) (id : Z) : Prop := live (defines_in id) (removes_in id) evs.
Definition live_out (evs : list event) (id : Z) : Prop := live (defines_out id) (removes_out id) evs.

(** The same zone with more padding. *)
Definition widened (by_ : Z) (z z' : zone) : Prop :=
  z_id z' = z_id z /\ z_start z' = z_start z /\ z_end z' = z_end z /\ z_padding z' = z_padding z + by_.

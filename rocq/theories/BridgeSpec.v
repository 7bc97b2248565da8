(** What may happen in a network of entities joined by bridges. *)
From Coq Require Import List ZArith Bool.
From Verif Require Import BridgeModel.
Import ListNotations.
Open Scope list_scope.
Open Scope Z_scope.

(** A history of a network whose bridges satisfy [B]: clients send under the id of their entity, a
    bridge only takes messages that are on some bus, and the two ends of a link are on different
    entities.  [F b m] says what systems outside may send to [b]. *)
Inductive history (B : bridge -> Prop) (F : bridge -> msg -> Prop) : list event -> Prop :=
| h_nil : history B F []
| h_publish evs e m : history B F evs -> entity m = e -> history B F (evs ++ [Publish e m])
| h_inject evs b m : history B F evs -> B b -> F b m -> history B F (evs ++ [Inject b m])
| h_cross evs c b b' : history B F evs -> In c (run evs) -> B b -> B b' -> b_entity b <> b_entity b' ->
    history B F (evs ++ [Cross c b b']).

(** Bridges that look at the entity of the source, set up not to relabel what comes in. *)
Definition checking (b : bridge) : Prop :=
  b_self b = false /\ b_kind b <> Tcp /\ b_kind b <> Impact.

(** Only a Zyre bridge needs not be told the truth by the systems outside. *)
Definition not_forged (b : bridge) (m : msg) : Prop := b_kind b = Zyre \/ entity m <> b_entity b.

Definition anything (b : bridge) (m : msg) : Prop := True.

(** Bridges set up as by default. *)
Definition as_default (b : bridge) : Prop := b_self b = default_self (b_kind b).

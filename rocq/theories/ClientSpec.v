(** What is expected of the thread of a client. *)
From Coq Require Import List ZArith Bool.
From Verif Require Import ClientModel.
Import ListNotations.
Open Scope list_scope.
Open Scope Z_scope.

Definition trace := list (event * list out).

Section Spec.
  Context (k : config) (serialized : bool).

  (** The message is taken by the base class and not shown to the subclass. *)
  Definition taken (m : msg) : Prop :=
    k_kill k = true /\
    match m with Kill id => serialized = true \/ id = k_id k | Other _ => False end.

  (** The message with this answer of the subclass makes the client stop. *)
  Definition stopping (m : msg) (r : answer) : Prop :=
    (k_kill k = true /\ m = Kill (k_id k)) \/ (~ taken m /\ r = Yes).

  (** The exception that a serialized client does not survive. *)
  Definition fatal (m : msg) (r : answer) : Prop :=
    serialized = true /\ ~ taken m /\ r = Throws.

  (** The client listens: none of its messages stopped or broke it. *)
  Definition listens (t : trace) : Prop :=
    forall m r o, In (EvMsg m r, o) t -> ~ stopping m r /\ ~ fatal m r.

  Definition exited (t : trace) : Prop := exists f, In (OutExit f) (flat_map snd t).

  (** How often the subclass was told to terminate without having done so: the attempts after
      the message that stopped the client. *)
  Inductive attempts : trace -> Z -> Prop :=
  | attempts_stop a m r o :
      listens a -> stopping m r -> attempts (a ++ [(EvMsg m r, o)]) 0
  | attempts_msg t m r o n :
      attempts t n -> attempts (t ++ [(EvMsg m r, o)]) n
  | attempts_try t r o n :
      attempts t n -> attempts (t ++ [(EvTry r, o)]) (n + 1).
End Spec.

(** The messages handed to the subclass. *)
Definition handed (o : list out) : list msg :=
  flat_map (fun x => match x with OutGiven m => [m] | _ => [] end) o.

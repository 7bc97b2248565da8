(** What is asked of the serialised forwarding of requests. *)
From Coq Require Import List ZArith Bool.
From Verif Require Import SerialReqModel.
Import ListNotations.
Open Scope Z_scope.

(** The requests in the order of arrival, and those forwarded. *)
Definition requests (evs : list event) : list Z :=
  flat_map (fun e => match e with EvRequest r => [r] | _ => [] end) evs.

Definition forwarded (outs : list output) : list Z := map (fun o => match o with OutForward r => r end) outs.

Definition releases (e : event) : Prop := e = EvResponse \/ e = EvTimeout.

(** What is expected of a bridge to peers, in terms of the peers entering and leaving and the local
    messages only. *)
From Coq Require Import List ZArith.
From Verif Require Import ZyreModel.
Import ListNotations.
Open Scope list_scope.
Open Scope Z_scope.

(** Every header has a readable entity id, and one that the notice of leaving can carry. *)
Definition readable (e : ev) : Prop :=
  match e with
  | Enter _ id _ _ => exists i, id = Some i /\ i < 2147483648
  | _ => True
  end.

(** Peer [u], of another entity than [entity], entered asking for address [a] and has not left. *)
Definition asking (entity : Z) (evs : list ev) (u : Z) (a : addr) : Prop :=
  exists before i label wants after,
    evs = before ++ Enter u (Some i) label wants :: after
    /\ i <> entity /\ In a wants /\ ~ In (Exit u) after.

(** Peer [u] is connected, and was last introduced as entity [i], of another entity, with [label]. *)
Definition connected (entity : Z) (evs : list ev) (u i label : Z) : Prop :=
  exists before wants after,
    evs = before ++ Enter u (Some i) label wants :: after
    /\ i <> entity /\ ~ In (Exit u) after
    /\ (forall j l w, In (Enter u (Some j) l w) after -> j = entity).

(** Some peer asked for [a] at some time. *)
Definition asked_ever (evs : list ev) (a : addr) : Prop :=
  exists u id label wants, In (Enter u id label wants) evs /\ In a wants.

(** Address [a] begins with [p]. *)
Definition begins (p a : addr) : Prop := exists rest, a = p ++ rest.

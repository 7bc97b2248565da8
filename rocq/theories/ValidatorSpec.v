(** What is expected of the validation of automation requests, in terms of the messages
    received and sent. *)
From Coq Require Import List ZArith Permutation.
From Verif Require Import ValidatorModel.
Import ListNotations.
Open Scope list_scope.
Open Scope Z_scope.

(** A history with the messages sent at each step. *)
Definition trace := list (event * list out).

Definition sent (t : trace) : list out := flat_map snd t.

(** The unique requests sent to the planning services. *)
Definition released_of (l : list out) : list ureq :=
  flat_map (fun o => match o with OutRequest u => [u] | _ => [] end) l.

Definition released (t : trace) : list ureq := released_of (sent t).

(** The kinds of requests, with the numbers the reply has to carry. *)
Inductive kind := KAuto | KImpact (play soln : Z) | KTask (rid : Z).

Definition replies_of (l : list out) : list kind :=
  flat_map (fun o => match o with
                     | OutAuto _ => [KAuto]
                     | OutImpact p s _ => [KImpact p s]
                     | OutTask r _ _ => [KTask r]
                     | _ => []
                     end) l.

Definition replies (t : trace) : list kind := replies_of (sent t).

(** The request in a message, as it has to be passed on. *)
Definition request_of (e : event) : option (ureq * kind) :=
  match e with
  | EvAuto uid q =>
      Some ({| u_id := uid; u_req := q; u_planning := []; u_sandbox := false |}, KAuto)
  | EvImpact rid p s q =>
      Some ({| u_id := rid; u_req := q; u_planning := []; u_sandbox := true |}, KImpact p s)
  | EvTaskReq rid q pl sb =>
      Some ({| u_id := rid; u_req := q; u_planning := pl; u_sandbox := sb |}, KTask rid)
  | _ => None
  end.

Definition requests (evs : list event) : list (ureq * kind) :=
  flat_map (fun e => match request_of e with Some x => [x] | None => [] end) evs.

(** [subseq a b]: [a] is [b] with some elements left out. *)
Inductive subseq {A} : list A -> list A -> Prop :=
| sub_nil : subseq [] []
| sub_take x a b : subseq a b -> subseq (x :: a) (x :: b)
| sub_skip x a b : subseq a b -> subseq a (x :: b).

(** [stutters a b]: [a] is [b] with every element repeated one or more times. *)
Inductive stutters {A} : list A -> list A -> Prop :=
| stu_nil : stutters [] []
| stu_first x a b : stutters a b -> stutters (x :: a) (x :: b)
| stu_again x a b : stutters (x :: a) (x :: b) -> stutters (x :: x :: a) (x :: b).

(** A request is no longer outstanding when its response or the expiry of the response
    timer comes. *)
Definition ends (u : ureq) (e : event) : Prop :=
  match e with
  | EvResponse i _ _ => i = u_id u
  | EvResponseTimer => True
  | _ => False
  end.

(** What is known after a history. *)
Definition configured (h : list event) (i : Z) : Prop := In (EvConfig i) h.
Definition state_known (h : list event) (i : Z) : Prop := In (EvState i) h.

(** The last definition of a region. *)
Definition region_is (h : list event) (i : Z) (r : region) : Prop :=
  exists a b, h = a ++ EvRegion i r :: b /\ forall r', ~ In (EvRegion i r') b.

(** The messages that change the status of a task. *)
Definition touches (t : Z) (e : event) : Prop :=
  match e with
  | EvTask i _ => i = t
  | EvRemove ids => In t ids
  | _ => False
  end.

(** The task is defined and not removed since. *)
Definition task_is (h : list event) (t : Z) (n : taskNeed) : Prop :=
  exists a b, h = a ++ EvTask t n :: b /\ forall e, In e b -> ~ touches t e.

(** The task has reported initialisation since it was last defined or removed. *)
Definition initialised (h : list event) (t : Z) : Prop :=
  exists a b, h = a ++ EvInit t :: b /\ forall e, In e b -> ~ touches t e.

Definition need_met (h : list event) (n : taskNeed) : Prop :=
  match n with
  | NeedNone => True
  | NeedArea i => i = 0 \/ In (EvArea i) h
  | NeedLine i => i = 0 \/ In (EvLine i) h
  | NeedPoint i => i = 0 \/ In (EvPoint i) h
  end.

(** Everything a request refers to is known. *)
Record complete (h : list event) (u : ureq) : Prop := {
  co_config : forall i, In i (ar_entities (u_req u)) -> configured h i;
  co_state : forall i, In i (ar_entities (u_req u)) ->
             state_known h i \/ In i (u_planning u);
  co_some : (exists i, configured h i) /\ (exists i, state_known h i);
  co_region : ar_region (u_req u) <> 0 ->
              exists r, region_is h (ar_region (u_req u)) r /\
                (forall z, In z (rg_in r) -> In (EvKeepIn z) h) /\
                (forall z, In z (rg_out r) -> In (EvKeepOut z) h);
  co_tasks : forall t, In t (ar_tasks (u_req u)) ->
             exists n, task_is h t n /\ need_met h n
}.

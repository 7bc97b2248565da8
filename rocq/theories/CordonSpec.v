(** Posting vehicles at exits. *)
From Coq Require Import String Ascii List ZArith.
From Verif Require Import AlgebraModel AlgebraSpec CordonModel.
Import ListNotations.
Open Scope list_scope.
Open Scope Z_scope.

Definition is_exit (n : nat) (x : Z) : Prop := 1 <= x <= Z.of_nat n.

(** A posting gives distinct vehicles distinct exits, as many as possible: if there are more vehicles than exits,
    every exit in turn, otherwise every vehicle in turn. *)
Definition posting (vehicles : list Z) (n : nat) (ps : list (Z * Z)) : Prop :=
  NoDup (map fst ps) /\ NoDup (map snd ps)
  /\ (forall v x, In (v, x) ps -> In v vehicles /\ is_exit n x)
  /\ ((n < length vehicles)%nat -> map snd ps = map Z.of_nat (seq 1 n))
  /\ ((length vehicles <= n)%nat -> map fst ps = vehicles).

(** The actions are the options for the pairs, in order. *)
Definition done_by (l : list option_) (t : list Z) (ps : list (Z * Z)) : Prop :=
  Forall2 (fun a p => exists o, In o l /\ o_id o = a /\ o_vehicle o = fst p /\ o_exit o = snd p) t ps.

(** One option for every eligible vehicle at every exit, with ids of their own. *)
Definition complete (l : list option_) (eligible : list Z) (n : nat) : Prop :=
  NoDup (map o_id l)
  /\ (forall o, In o l -> In (o_vehicle o) eligible /\ is_exit n (o_exit o))
  /\ (forall v x, In v eligible -> is_exit n x -> exists o, In o l /\ o_vehicle o = v /\ o_exit o = x
        /\ forall o', In o' l -> o_vehicle o' = v -> o_exit o' = x -> o' = o).

(** The exits have been found for the first time since a request for the task, the latest: [before] is what came
    before the request, [es] its vehicles, [gs] the groups of the eligible ones, [n] the number of exits and [o] the
    answer. *)
Definition found (task : Z) (h before : list (ev * list out)) (es : list Z) (gs : list (list Z)) (n : nat) (o : list out) : Prop :=
  exists id o1 since later,
    h = before ++ (Ask id es (Some gs), o1) :: since ++ (Egress task n, o) :: later
    /\ (forall e o', In (e, o') since -> o' = [] /\ e <> Done id /\ forall id' es' m, e <> Ask id' es' m)
    /\ (forall e o', In (e, o') before -> ~ In Crash o').

(** Every earlier request for the task had the same eligible vehicles. *)
Definition same_vehicles (before : list (ev * list out)) (eligible : list Z) : Prop :=
  forall id es gs o, In (Ask id es (Some gs), o) before -> concat gs = eligible.

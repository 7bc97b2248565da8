(** The planning services connected: what the route aggregator sends is what the assignment
    service receives, and what the assignment service sends is what the plan builder
    receives.  All three receive the automation requests, and the first two the options of
    the tasks. *)
From Coq Require Import List ZArith.
From Verif Require Import Run AssignModel AssignSpec AssignServiceModel AssignServiceSpec.
From Verif Require AggregatorModel AggregatorSpec BuilderModel BuilderSpec.
Import ListNotations.
Open Scope list_scope.
Open Scope Z_scope.

(** The same messages as the models of the services see them. *)
Definition as_cost (x : AggregatorModel.pairing * Z) : costEntry :=
  {| ce_vehicle := AggregatorModel.p_vehicle (fst x);
     ce_fromTask := AggregatorModel.p_prevTask (fst x);
     ce_fromOption := AggregatorModel.p_prevOption (fst x);
     ce_toTask := AggregatorModel.p_task (fst x);
     ce_toOption := AggregatorModel.p_option (fst x);
     ce_time := snd x |}.

Definition same_option (x : AggregatorModel.topt) (y : taskOption) : Prop :=
  AggregatorModel.o_task x = to_task y /\ AggregatorModel.o_id x = to_option y /\
  AggregatorModel.o_elig x = to_eligible y.

Definition as_asg (t : taskAssignment) : BuilderModel.asg :=
  {| BuilderModel.g_task := ta_task t; BuilderModel.g_option := ta_option t;
     BuilderModel.g_vehicle := ta_vehicle t; BuilderModel.g_threshold := ta_threshold t |}.

(** The histories of the three services fit together as far as request [i] is concerned. *)
Record pipeline (i : Z) (a : AggregatorSpec.trace) (s : trace) (b : BuilderSpec.trace) : Prop := {
  pl_matrix : forall m, In (EvMatrix i m) (map fst s) ->
    exists region relation tasks entries,
      In (AggregatorModel.OutMatrix i region relation tasks entries) (sent a) /\
      m = map as_cost entries;
  pl_tasks : forall q q', In (EvRequest q) (map fst s) ->
    In (AggregatorModel.EvUnique q') (map fst a) ->
    q_id q = i -> AggregatorModel.q_id q' = i -> AggregatorModel.q_tasks q' = q_tasks q;
  pl_options : forall o xs, In (EvOptions o) (map fst s) -> po_request o = i ->
    In (AggregatorModel.EvOptions (po_task o) xs) (map fst a) ->
    Forall2 same_option xs (po_options o);
  pl_summary : forall gs, In (BuilderModel.EvSummary i gs) (map fst b) ->
    exists region ts, In (OutSummary i region ts) (sent s) /\ gs = map as_asg ts
}.

(** Every option lists the vehicles that may do it. *)
Definition listed (os : list planOptions) : Prop :=
  forall o x, In o os -> In x (po_options o) -> to_eligible x <> [].

(** The numbers of the options are not 0 and not ids of vehicles. *)
Definition apart (os : list planOptions) (m : list costEntry) : Prop :=
  forall o x, In o os -> In x (po_options o) ->
    optionId (to_task x) (to_option x) <> 0 /\ ~ fleet m (optionId (to_task x) (to_option x)).

(** What the plan builder asks a vehicle to do, in order. *)
Definition orders (v : Z) (is : list BuilderModel.ireq) : list Z :=
  map (fun x => optionId (BuilderModel.i_task x) (BuilderModel.i_option x))
      (filter (fun x => BuilderModel.i_vehicle x =? v) is).

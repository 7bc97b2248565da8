(** Properties of the assignment search (C17, C18, C19) and of option ids (C42). *)
From Coq Require Import List Arith ZArith Bool Permutation Lia.
From Verif Require Import AlgebraModel AlgebraSpec AlgebraProofs AssignModel AssignSpec AssignProofs.
Import ListNotations.
Open Scope list_scope.
Open Scope Z_scope.

(** Enough fuel for the depth of the search: one more than the number of actions. *)
Definition answer opts matrix limit alg order : option (option (list (Z * vehicleState))) :=
  calculateAssignment opts matrix limit alg order (S (length (actions alg))).

Lemma found0 opts matrix alg : found opts matrix alg search0.
Proof. left. auto. Qed.

Lemma answer_some opts matrix limit alg order :
  exists st, expandNode opts matrix limit alg order (S (length (actions alg)))
               (root (vehiclesOf matrix)) search0 = Some st /\
    found opts matrix alg st /\ (s_stop st = true -> 0 < s_complete st) /\
    answer opts matrix limit alg order
    = Some (match s_best st with [] => None | b => Some b end).
Proof.
  unfold answer, calculateAssignment.
  destruct (expandNode opts matrix limit alg order (S (length (actions alg)))
              (root (vehiclesOf matrix)) search0) as [st|] eqn:E.
  - exists st. split; auto.
    destruct (expand_found _ _ _ _ _ _ _ _ _ _ (root_node opts matrix alg) (found0 _ _ _) E)
      as (F & _ & _). split; auto. split.
    + apply (expand_stopped _ _ _ _ _ _ _ _ _ _ (root_node opts matrix alg) (found0 _ _ _)) in E;
        [apply E|discriminate].
    + destruct (s_best st); auto.
  - exfalso. apply (expand_total opts matrix alg order limit (S (length (actions alg)))
      (root (vehiclesOf matrix)) [] search0 (root_node opts matrix alg)); auto.
    cbn. lia.
Qed.

Lemma node_describes opts matrix alg n h :
  ids_apart matrix alg -> only_eligible opts matrix -> node_of opts matrix alg n h ->
  describes opts matrix (n_vehicles n) h.
Proof.
  intros IA OE N. split; [|split].
  - rewrite (no_keys _ _ _ _ _ N). apply vehicles_nodup.
  - intros v. rewrite (no_keys _ _ _ _ _ N). apply vehicles_fleet.
  - intros v vs I. destruct (no_tasks _ _ _ _ _ N v vs I) as (T & F). split; auto.
    rewrite (built_timeline opts matrix alg); auto; [|apply N]. rewrite <- T. auto.
Qed.

(** *** C17 *)

(** Whatever the tables, the search ends and the options of the answer, put together in some
    order, are a complete legal execution of the relationships; every vehicle's options come
    in that order. *)
Theorem C17_relationships : forall opts matrix limit alg order r,
  well_formed alg -> answer opts matrix limit alg order = Some (Some r) ->
  exists s, traces alg (map fst s) /\
    forall v vs, In (v, vs) r ->
      map (fun t => optionId (ta_task t) (ta_option t)) (vs_tasks vs) = route v s /\
      Forall (fun t => ta_vehicle t = v) (vs_tasks vs).
Proof.
  intros opts matrix limit alg order r W A.
  destruct (answer_some opts matrix limit alg order) as (st & _ & F & _ & E).
  rewrite E in A. destruct F as [(_ & B)|(_ & n & h & N & D & B & C)].
  { rewrite B in A. discriminate. }
  assert (R : r = n_vehicles n) by (rewrite B in A; destruct (n_vehicles n); congruence).
  subst r. exists h. split.
  - pose proof (built_run _ _ _ _ (no_built _ _ _ _ _ N)) as R. pose proof W as (W1 & W2).
    apply (gn_done _ _ _ (g_n _ (expr_good alg W1 W2))); auto.
    apply (run_legal alg (map fst h)); auto.
  - intros v vs I. destruct (no_tasks _ _ _ _ _ N v vs I) as (T & Fv). split; auto.
    rewrite <- (times_fst opts matrix v (route v h) v 0), <- T, map_map. auto.
Qed.
Print Assumptions C17_relationships.

(** With a cost matrix for eligible vehicles and ids that do not clash, the answer is a
    feasible schedule: eligible vehicles, existing legs, correct completion times. *)
Theorem C17_assignment : forall opts matrix limit alg order r,
  well_formed alg -> ids_apart matrix alg -> only_eligible opts matrix ->
  answer opts matrix limit alg order = Some (Some r) ->
  exists s, feasible opts matrix alg s /\ describes opts matrix r s.
Proof.
  intros opts matrix limit alg order r W IA OE A.
  destruct (answer_some opts matrix limit alg order) as (st & _ & F & _ & E).
  rewrite E in A. destruct F as [(_ & B)|(_ & n & h & N & D & B & C)].
  { rewrite B in A. discriminate. }
  assert (R : r = n_vehicles n) by (rewrite B in A; destruct (n_vehicles n); congruence).
  subst r. exists h. split.
  - apply built_feasible; auto. apply N.
  - apply (node_describes opts matrix alg); auto.
Qed.
Print Assumptions C17_assignment.

(** Two vehicles, three options: option 1 of task 1 or option 2 of task 1, then task 2. *)
Definition ex_opts : list taskOption :=
  [ {| to_task := 1; to_option := 1; to_eligible := [10; 11]; to_cost := 50 |};
    {| to_task := 1; to_option := 2; to_eligible := [11]; to_cost := 10 |};
    {| to_task := 2; to_option := 0; to_eligible := [10; 11]; to_cost := 20 |} ].

Definition entry v ft fo tt to t : costEntry :=
  {| ce_vehicle := v; ce_fromTask := ft; ce_fromOption := fo; ce_toTask := tt;
     ce_toOption := to; ce_time := t |}.

Definition ex_matrix : list costEntry :=
  [ entry 10 0 0 1 1 5; entry 10 0 0 2 0 100; entry 10 1 1 2 0 30;
    entry 11 0 0 1 1 7; entry 11 0 0 1 2 60; entry 11 0 0 2 0 15; entry 11 1 2 2 0 1;
    entry 11 1 1 2 0 (-1) ].

Definition ex_alg : expr := Op Seq [Op Alt [Act 100001; Act 100002]; Act 200000].

Definition ex_order (n : node) : list Z := [11; 10].

Lemma ex_conditions :
  well_formed ex_alg /\ ids_apart ex_matrix ex_alg /\ only_eligible ex_opts ex_matrix /\
  costs_nonneg ex_opts.
Proof.
  split; [split|split; [split|split]].
  - cbn. repeat split; discriminate.
  - cbn. repeat constructor; cbn; intuition discriminate.
  - assert (FL : forall v, fleet ex_matrix v -> v = 10 \/ v = 11).
    { intros v (e & I & <-). cbn in I. intuition (subst; cbn; auto). }
    intros a A. split; [cbn in A; intuition (subst; discriminate)|].
    intros F. apply FL in F. cbn in A. intuition (subst; discriminate).
  - assert (FL : forall v, fleet ex_matrix v -> v = 10 \/ v = 11).
    { intros v (e & I & <-). cbn in I. intuition (subst; cbn; auto). }
    intros e I _ F. apply FL in F. cbn in I. unfold optionId in F.
    repeat (destruct I as [<-|I]; [cbn in F; destruct F; discriminate|]). destruct I.
  - intros e I _. cbn in I.
    repeat (destruct I as [<-|I]; [vm_compute; discriminate|]). destruct I.
  - intros t I. cbn in I. repeat (destruct I as [<-|I]; [cbn; lia|]). destruct I.
Qed.

Example C17_case :
  exists r, answer ex_opts ex_matrix (-1) ex_alg ex_order = Some (Some r) /\
  map (fun vs => (fst vs, map (fun t => (ta_task t, ta_option t, ta_completed t))
                              (vs_tasks (snd vs)))) r
  = [(10, [(1, 1, 55)]); (11, [(2, 0, 35)])].
Proof. eexists. split; vm_compute; reflexivity. Qed.

(** Finding: eligibility is not checked by the search, only the presence of a travel time.
    A cost entry for a vehicle that is not eligible gets it assigned, at a cost of -1. *)
Theorem C17_ineligible_refuted :
  exists opts matrix limit alg order r v vs t,
    well_formed alg /\ ids_apart matrix alg /\
    answer opts matrix limit alg order = Some (Some r) /\
    In (v, vs) r /\ In t (vs_tasks vs) /\
    work opts (optionId (ta_task t) (ta_option t)) v = None.
Proof.
  exists [ {| to_task := 1; to_option := 1; to_eligible := [11]; to_cost := 50 |} ],
    [ entry 10 0 0 1 1 5; entry 11 0 0 1 1 5 ], (-1), (Act 100001), (fun _ => [10; 11]).
  eexists. exists 10. eexists. eexists. split; [|split; [|split; [|split; [|split]]]].
  - split; [exact I|]. repeat constructor. intros [].
  - split.
    + intros a [<-|[]]. split; [discriminate|]. intros (e & I & E).
      destruct I as [<-|[<-|[]]]; discriminate.
    + intros e I F. destruct I as [<-|[<-|[]]]; cbn in F; congruence.
  - vm_compute. reflexivity.
  - left. reflexivity.
  - left. reflexivity.
  - vm_compute. reflexivity.
Qed.
Print Assumptions C17_ineligible_refuted.

(** Finding: the place where a vehicle starts is stored under the vehicle's id, in the same
    table as the options.  A vehicle whose id equals an option's number gets legs that are
    not in the matrix. *)
Theorem C17_id_clash_refuted :
  exists opts matrix limit alg order r,
    well_formed alg /\ only_eligible opts matrix /\ costs_nonneg opts /\
    answer opts matrix limit alg order = Some (Some r) /\
    ~ exists s, feasible opts matrix alg s.
Proof.
  exists [ {| to_task := 1; to_option := 0; to_eligible := [100000]; to_cost := 0 |};
           {| to_task := 2; to_option := 0; to_eligible := [100000]; to_cost := 0 |} ],
    [ entry 100000 1 0 2 0 5 ], (-1), (Act 200000), (fun _ => [100000]).
  eexists. split; [|split; [|split; [|split]]].
  - split; [exact I|]. repeat constructor. intros [].
  - intros e [<-|[]] _. vm_compute. discriminate.
  - intros t [<-|[<-|[]]]; cbn; lia.
  - vm_compute. reflexivity.
  - intros (s & T & L). cbn in T. destruct s as [|(o, v) [|]]; try discriminate.
    injection T as ->. specialize (L v).
    assert (R : route v [(200000, v)] = [200000]) by (unfold route; cbn; rewrite Z.eqb_refl; auto).
    rewrite R in L. apply L. cbn [timeline]. unfold leg. cbn [rev app find ce_vehicle entry].
    destruct (Z.eqb_spec 100000 v); auto.
Qed.
Print Assumptions C17_id_clash_refuted.

(** *** C18 *)

Lemma ex_monotone opts matrix alg :
  ids_apart matrix alg -> only_eligible opts matrix -> costs_nonneg opts -> monotone opts matrix.
Proof.
  intros IA OE CN v loc o V T K.
  assert (E : exists e, In e matrix /\ ce_vehicle e = v /\ 0 <= ce_time e /\
              optionId (ce_toTask e) (ce_toOption e) = o).
  { unfold travelTime in T. rewrite (fold_last _ ce_time) in T.
    destruct (find _ (rev matrix)) as [e|] eqn:F; [|lia]. apply find_some in F.
    destruct F as (I & F). apply in_rev in I. apply andb_prop in F. destruct F as (F & F2).
    apply andb_prop in F. destruct F as (F0 & _). apply Z.eqb_eq in F0, F2. exists e. auto. }
  destruct E as (e & I & EV & ET & EO).
  pose proof (OE e I ET) as W. rewrite EV, EO in W. rewrite taskTime_work.
  destruct (work opts o v) as [w|] eqn:WK; [|congruence]. eapply work_nonneg; eauto.
Qed.

Lemma built_finish opts matrix alg h v :
  ids_apart matrix alg -> only_eligible opts matrix -> built opts matrix alg h ->
  finish opts matrix v h = Some (total opts matrix v h).
Proof.
  intros IA OE B. unfold finish. rewrite (built_timeline opts matrix alg); auto.
Qed.

Lemma built_makespan opts matrix alg h t :
  ids_apart matrix alg -> only_eligible opts matrix -> costs_nonneg opts ->
  built opts matrix alg h -> (makespan opts matrix h t <-> t = maxTotal opts matrix h).
Proof.
  intros IA OE CN B. pose proof (ex_monotone _ _ _ IA OE CN) as M.
  assert (FI : forall v, finish opts matrix v h = Some (total opts matrix v h))
    by (intros; eapply built_finish; eauto).
  split.
  - intros (U & A). apply maxTotal_unique.
    + destruct A as [->|(v & V & F)]; [lia|]. rewrite FI in F. injection F as <-.
      apply (total_nonneg opts matrix alg); auto.
    + intros v V. apply (U v); auto. apply vehicles_fleet. auto.
    + destruct A as [->|(v & V & F)]; auto. right. exists v. split; [apply vehicles_fleet; auto|].
      rewrite FI in F. congruence.
  - intros ->. split.
    + intros v f V F. rewrite FI in F. injection F as <-. apply maxTotal_ge.
      apply vehicles_fleet. auto.
    + destruct (maxTotal_attained opts matrix h) as [->|(v & V & E)]; auto.
      right. exists v. split; [apply vehicles_fleet; auto|]. rewrite FI. congruence.
Qed.

Lemma traces_nonempty e : no_empty_op e -> ~ traces e [].
Proof.
  induction e as [a|o cs IH] using expr_ind'; cbn [no_empty_op traces]; [discriminate|].
  intros (NE & R). destruct cs as [|c cs]; [congruence|]. clear NE.
  inversion IH as [|? ? I1 I2]; subst. destruct R as (R1 & R2). destruct o.
  - intros (t1 & t2 & E & T & _). symmetry in E. apply app_eq_nil in E. destruct E as (-> & ->).
    apply I1; auto.
  - intros [T|T]; [apply I1; auto|].
    clear I1 R1 IH. revert T R2. induction I2 as [|d cs D I2 IHc]; [auto|].
    intros [T|T] (R1 & R2); [apply D; auto|apply IHc; auto].
  - intros (t1 & t2 & E & T & _). inversion E; subst. apply I1; auto.
Qed.

Lemma feasible_fleet opts matrix alg s :
  well_formed alg -> feasible opts matrix alg s -> vehiclesOf matrix <> [].
Proof.
  intros (W & _) (T & L) E. destruct s as [|(o, v) s].
  - apply (traces_nonempty alg W T).
  - specialize (L v).
    assert (R : route v ((o, v) :: s) = o :: route v s) by (unfold route; cbn; rewrite Z.eqb_refl; auto).
    rewrite R in L. cbn [timeline] in L.
    destruct (leg matrix v None o) as [t|] eqn:G; [|congruence].
    destruct (leg_entry _ _ _ _ _ G) as (_ & e & I & EV & _).
    assert (V : In v (vehiclesOf matrix)) by (apply vehicles_fleet; exists e; auto).
    rewrite E in V. destruct V.
Qed.

(** The cost recorded for the best assignment is its makespan. *)
Lemma expand_cost opts matrix alg order limit :
  monotone opts matrix ->
  forall f n h st st', node_of opts matrix alg n h -> n_cost n = maxTotal opts matrix h ->
  (s_complete st = 0 \/ exists n0 h0, node_of opts matrix alg n0 h0 /\
     searchNext alg (map fst h0) = [] /\ s_best st = n_vehicles n0 /\
     s_cand st = maxTotal opts matrix h0) ->
  0 <= s_complete st ->
  expandNode opts matrix limit alg order f n st = Some st' ->
  (s_complete st' = 0 \/ exists n0 h0, node_of opts matrix alg n0 h0 /\
     searchNext alg (map fst h0) = [] /\ s_best st' = n_vehicles n0 /\
     s_cand st' = maxTotal opts matrix h0) /\ 0 <= s_complete st'.
Proof.
  intros M. induction f as [|f IH]; intros n h st st' N NC F P E; [discriminate|].
  rewrite expandNode_eq in E. cbn zeta in E. rewrite (no_assigned _ _ _ _ _ N) in E.
  destruct (makeChildren opts matrix limit order n (searchNext alg (map fst h)) st)
    as (st1, ch) eqn:MC.
  apply makeChildren_spec in MC. destruct MC as ((S1 & S2 & S3) & C & _).
  rewrite S1, S2, S3 in *. clear st S1 S2 S3.
  assert (K : forall c, In c ch -> exists h', node_of opts matrix alg c h' /\
                                    n_cost c = maxTotal opts matrix h').
  { intros c' I. apply C in I. destruct I as (o' & v' & O' & _ & K').
    destruct (childOf_node _ _ _ _ _ _ _ _ _ N O' K') as (N' & _ & NC').
    exists (h ++ [(o', v')]). split; auto. rewrite NC'. eapply child_cost; eauto. apply N'. }
  destruct (s_stop st1); [injection E as <-; auto|].
  assert (G : forall l s s', (forall c, In c l -> exists h', node_of opts matrix alg c h' /\
                                    n_cost c = maxTotal opts matrix h') ->
    (s_complete s = 0 \/ exists n0 h0, node_of opts matrix alg n0 h0 /\
     searchNext alg (map fst h0) = [] /\ s_best s = n_vehicles n0 /\
     s_cand s = maxTotal opts matrix h0) -> 0 <= s_complete s ->
    visit opts matrix alg order limit f l s = Some s' ->
    (s_complete s' = 0 \/ exists n0 h0, node_of opts matrix alg n0 h0 /\
     searchNext alg (map fst h0) = [] /\ s_best s' = n_vehicles n0 /\
     s_cand s' = maxTotal opts matrix h0) /\ 0 <= s_complete s').
  { clear - IH. induction l as [|c l IHl]; intros s s' Kl F P E; cbn in E.
    - injection E as <-. auto.
    - assert (Kl' : forall c, In c l -> exists h', node_of opts matrix alg c h' /\
                                    n_cost c = maxTotal opts matrix h')
          by (intros; apply Kl; right; auto).
      destruct ((n_cost c <? s_cand s) && negb (s_stop s)); [|apply (IHl s); auto].
      destruct (Kl c (or_introl eq_refl)) as (h' & N' & NC').
      destruct (expandNode opts matrix limit alg order f c s) as [s1|] eqn:E1; [|discriminate].
      destruct (IH _ _ _ _ N' NC' F P E1) as (F1 & P1).
      apply (IHl s1); auto. }
  destruct ch as [|c ch].
  - destruct (searchNext alg (map fst h)) eqn:SN; injection E as <-; [|auto].
    unfold leaf. destruct (n_cost n <? s_cand st1); [|auto].
    cbn. split; [|lia]. right. exists n, h. auto.
  - apply (G (c :: ch) st1 st'); auto.
Qed.

Lemma answer_cost opts matrix limit alg order :
  monotone opts matrix ->
  exists st, expandNode opts matrix limit alg order (S (length (actions alg)))
               (root (vehiclesOf matrix)) search0 = Some st /\
    (s_stop st = true -> 0 < s_complete st) /\
    answer opts matrix limit alg order
    = Some (match s_best st with [] => None | b => Some b end) /\
    ((s_complete st = 0 /\ s_best st = [] /\ s_cand st = int64_max) \/
     exists n h, node_of opts matrix alg n h /\ searchNext alg (map fst h) = [] /\
                 s_best st = n_vehicles n /\ s_cand st = maxTotal opts matrix h).
Proof.
  intros M. destruct (answer_some opts matrix limit alg order) as (st & E & F & SP & A).
  exists st. repeat (split; [auto|]).
  assert (R0 : 0 = maxTotal opts matrix []).
  { apply maxTotal_unique; [lia| |auto]. intros v _. unfold total, route. cbn. lia. }
  destruct (expand_cost opts matrix alg order limit M _ _ [] search0 _ (root_node opts matrix alg) R0
              (or_introl eq_refl) (Z.le_refl 0) E) as (C & P).
  destruct F as [(F1 & F2)|(F1 & F2)].
  2:{ right. destruct C as [C|C]; [lia|auto]. }
  destruct C as [C|C]; [|right; auto]. left. repeat split; auto.
  (* nothing found: the candidate was never changed *)
  revert E F1. generalize (S (length (actions alg))). intros f.
  assert (G : forall f n s s', expandNode opts matrix limit alg order f n s = Some s' ->
             0 <= s_complete s ->
             s_complete s <= s_complete s' /\ (s_complete s' = s_complete s -> s_cand s' = s_cand s)).
  { clear. induction f as [|f IH]; intros n s s' E P; [discriminate|].
    rewrite expandNode_eq in E. cbn zeta in E.
    destruct (makeChildren opts matrix limit order n (searchNext alg (n_assigned n)) s)
      as (st1, ch) eqn:MC.
    apply makeChildren_spec in MC. destruct MC as ((S1 & S2 & S3) & _).
    rewrite S1, S3 in *. clear s S1 S2 S3.
    destruct (s_stop st1); [injection E as <-; split; [lia|auto]|].
    assert (G : forall l s s', visit opts matrix alg order limit f l s = Some s' ->
             0 <= s_complete s ->
             s_complete s <= s_complete s' /\ (s_complete s' = s_complete s -> s_cand s' = s_cand s)).
    { induction l as [|c l IHl]; intros s t E' P'; cbn in E'.
      - injection E' as <-. split; [lia|auto].
      - destruct ((n_cost c <? s_cand s) && negb (s_stop s)); [|apply (IHl s); auto].
        destruct (expandNode opts matrix limit alg order f c s) as [s1|] eqn:E1; [|discriminate].
        destruct (IH _ _ _ E1 P') as (L1 & Q1).
        destruct (IHl s1 t E') as (L2 & Q2); [lia|]. split; [lia|].
        intros Q. rewrite Q2, Q1; auto; lia. }
    destruct ch as [|c ch]; [|apply (G (c :: ch)); auto].
    destruct (searchNext alg (n_assigned n)); injection E as <-; [|split; [lia|auto]].
    unfold leaf. destruct (n_cost n <? s_cand st1); cbn; split; auto; lia. }
  intros E F1. destruct (G _ _ _ _ E) as (_ & Q); [cbn; lia|]. apply Q. auto.
Qed.

(** With a negative limit the answer is optimal: whenever any feasible schedule exists (of a
    length that can be represented) there is an answer, and no feasible schedule finishes
    earlier. *)
Theorem C18_optimal : forall opts matrix limit alg order s t,
  limit < 0 -> well_formed alg -> ids_apart matrix alg -> only_eligible opts matrix ->
  costs_nonneg opts -> (forall n, Permutation (order n) (vehiclesOf matrix)) ->
  feasible opts matrix alg s -> makespan opts matrix s t -> t < int64_max ->
  exists r s' t',
    answer opts matrix limit alg order = Some (Some r) /\
    feasible opts matrix alg s' /\ describes opts matrix r s' /\
    makespan opts matrix s' t' /\ t' <= t.
Proof.
  intros opts matrix limit alg order s t L W IA OE CN PO FS MS LT.
  pose proof (ex_monotone _ _ _ IA OE CN) as M.
  destruct (answer_cost opts matrix limit alg order M) as (st & E & ST & A & C).
  destruct (feasible_built opts matrix alg s W IA OE FS) as (B & D).
  apply (built_makespan opts matrix alg) in MS; auto.
  assert (R0 : 0 = maxTotal opts matrix []).
  { apply maxTotal_unique; [lia| |auto]. intros v _. unfold total, route. cbn. lia. }
  assert (AV : all_vehicles matrix order).
  { intros n v V. apply (Permutation_in v (Permutation_sym (PO n))). auto. }
  pose proof (expand_optimal opts matrix alg order limit M AV L _ _ [] search0 _
    (root_node opts matrix alg) R0 (found0 _ _ _) eq_refl E s B D) as OPT. cbn [app] in OPT.
  destruct C as [(C1 & C2 & C3)|(n & h & N & DH & BE & CA)].
  { exfalso. rewrite C3 in OPT. lia. }
  exists (n_vehicles n), h, (maxTotal opts matrix h).
  split.
  { rewrite A, BE. pose proof (feasible_fleet opts matrix alg s W FS) as NE.
    rewrite <- (no_keys _ _ _ _ _ N) in NE. destruct (n_vehicles n); auto. cbn in NE. congruence. }
  split; [apply built_feasible; auto; apply N|].
  split; [apply (node_describes opts matrix alg); auto|].
  split; [apply (built_makespan opts matrix alg); auto; apply N|]. lia.
Qed.
Print Assumptions C18_optimal.

Example C18_case :
  let s := [(100001, 10); (200000, 11)] in
  feasible ex_opts ex_matrix ex_alg s /\ makespan ex_opts ex_matrix s 55 /\
  (forall n, Permutation (ex_order n) (vehiclesOf ex_matrix)).
Proof.
  cbn zeta. split; [split|split].
  - cbn. exists [100001], [200000]. repeat split; auto. exists [200000], []. auto.
  - intros v. unfold route. cbn [filter snd map fst].
    destruct (Z.eqb_spec 10 v) as [<-|N1]; [vm_compute; discriminate|].
    destruct (Z.eqb_spec 11 v) as [<-|N2]; [vm_compute; discriminate|]. cbn. discriminate.
  - split.
    + intros v f (e & I & <-) F. cbn in I.
      repeat (destruct I as [<-|I]; [vm_compute in F; injection F as <-; lia|]). destruct I.
    + right. exists 10. split; [|vm_compute; reflexivity]. exists (entry 10 0 0 1 1 5).
      split; [left; auto|auto].
  - intros n. vm_compute. apply perm_swap.
Qed.

(** The default limit of 0 takes the first complete assignment found: not optimal. *)
Theorem C18_default_limit_refuted :
  exists opts matrix alg order r s t,
    well_formed alg /\ ids_apart matrix alg /\ only_eligible opts matrix /\ costs_nonneg opts /\
    (forall n, Permutation (order n) (vehiclesOf matrix)) /\
    feasible opts matrix alg s /\ makespan opts matrix s t /\
    answer opts matrix 0 alg order = Some (Some r) /\
    exists v vs, In (v, vs) r /\ t < vs_total vs.
Proof.
  exists [ {| to_task := 1; to_option := 1; to_eligible := [10]; to_cost := 10 |};
           {| to_task := 2; to_option := 1; to_eligible := [10]; to_cost := 10 |} ],
    [ entry 10 0 0 1 1 1; entry 10 0 0 2 1 2; entry 10 1 1 2 1 50; entry 10 2 1 1 1 1 ],
    (Op Par [Act 100001; Act 200001]), (fun _ => [10]).
  eexists. exists [(200001, 10); (100001, 10)], 23.
  set (m := [entry 10 0 0 1 1 1; entry 10 0 0 2 1 2; entry 10 1 1 2 1 50; entry 10 2 1 1 1 1]).
  assert (FL : forall v, fleet m v -> v = 10).
  { intros v (e & I & <-). cbn in I. intuition (subst; cbn; auto). }
  split; [|split; [|split; [|split; [|split; [|split; [|split; [|split]]]]]]].
  - split; [cbn; repeat split; discriminate|]. cbn. repeat constructor; cbn; intuition discriminate.
  - split.
    + intros a A. split; [cbn in A; intuition (subst; discriminate)|].
      intros F. apply FL in F. cbn in A. intuition (subst; discriminate).
    + intros e I _ F. apply FL in F. cbn in I. unfold optionId in F.
      repeat (destruct I as [<-|I]; [cbn in F; discriminate|]). destruct I.
  - intros e I _. cbn in I. repeat (destruct I as [<-|I]; [vm_compute; discriminate|]). destruct I.
  - intros t I. cbn in I. repeat (destruct I as [<-|I]; [cbn; lia|]). destruct I.
  - intros n. vm_compute. apply Permutation_refl.
  - split.
    + cbn. exists [100001], [200001]. split; [repeat constructor|]. split; auto.
      exists [200001], []. repeat split; auto. repeat constructor.
    + intros v. unfold route. cbn [filter snd map fst].
      destruct (Z.eqb_spec 10 v) as [<-|N1]; [vm_compute; discriminate|]. cbn. discriminate.
  - split.
    + intros v f F E. apply FL in F. subst v. vm_compute in E. injection E as <-. lia.
    + right. exists 10. split; [|vm_compute; reflexivity]. exists (entry 10 0 0 1 1 1).
      split; [left; auto|auto].
  - vm_compute. reflexivity.
  - exists 10. eexists. split; [left; reflexivity|]. cbn. lia.
Qed.
Print Assumptions C18_default_limit_refuted.

(** *** C19 *)

(** The search ends for every input, limit and iteration order. *)
Theorem C19_terminates : forall opts matrix limit alg order,
  answer opts matrix limit alg order <> None.
Proof.
  intros. destruct (answer_some opts matrix limit alg order) as (st & _ & _ & _ & A).
  rewrite A. discriminate.
Qed.
Print Assumptions C19_terminates.

Lemma limits_compare opts matrix l1 l2 alg order :
  limit_le l1 l2 -> monotone opts matrix ->
  exists st1 st2,
    (s_stop st1 = true -> 0 < s_complete st1) /\
    (st1 = st2 \/ (s_stop st1 = true /\ s_cand st2 <= s_cand st1)) /\
    (forall st l, (st = st1 /\ l = l1) \/ (st = st2 /\ l = l2) ->
      expandNode opts matrix l alg order (S (length (actions alg)))
               (root (vehiclesOf matrix)) search0 = Some st /\
      answer opts matrix l alg order = Some (match s_best st with [] => None | b => Some b end) /\
      ((s_complete st = 0 /\ s_best st = [] /\ s_cand st = int64_max) \/
       exists n h, node_of opts matrix alg n h /\ searchNext alg (map fst h) = [] /\
                 s_best st = n_vehicles n /\ s_cand st = maxTotal opts matrix h)).
Proof.
  intros LL M.
  destruct (answer_cost opts matrix l1 alg order M) as (st1 & E1 & S1 & A1 & C1).
  destruct (answer_cost opts matrix l2 alg order M) as (st2 & E2 & S2 & A2 & C2).
  exists st1, st2. split; auto. split.
  - eapply expand_limits; eauto. apply root_node. apply found0.
  - intros st l [(-> & ->)|(-> & ->)]; auto.
Qed.

(** Whatever the limit, there is an answer whenever a feasible schedule exists. *)
Theorem C19_found : forall opts matrix limit alg order s t,
  well_formed alg -> ids_apart matrix alg -> only_eligible opts matrix ->
  costs_nonneg opts -> (forall n, Permutation (order n) (vehiclesOf matrix)) ->
  feasible opts matrix alg s -> makespan opts matrix s t -> t < int64_max ->
  exists r, answer opts matrix limit alg order = Some (Some r).
Proof.
  intros opts matrix limit alg order s t W IA OE CN PO FS MS LT.
  pose proof (ex_monotone _ _ _ IA OE CN) as M.
  destruct (limits_compare opts matrix limit (-1) alg order) as (st1 & st2 & S1 & CMP & K); auto.
  { left. lia. }
  destruct (C18_optimal opts matrix (-1) alg order s t) as (r & _ & _ & A & _); auto; [lia|].
  destruct (K st1 limit (or_introl (conj eq_refl eq_refl))) as (E1 & A1 & C1).
  destruct (K st2 (-1) (or_intror (conj eq_refl eq_refl))) as (E2 & A2 & C2).
  assert (FN : found opts matrix alg st1).
  { destruct (expand_found _ _ _ _ _ _ _ _ _ _ (root_node opts matrix alg) (found0 _ _ _) E1); auto. }
  destruct CMP as [->|(ST & _)]; [exists r; rewrite A1, <- A2; auto|].
  specialize (S1 ST). destruct C1 as [(C1 & _)|(n & h & N & _ & BE & _)]; [lia|].
  exists (n_vehicles n). rewrite A1, BE.
  pose proof (feasible_fleet opts matrix alg s W FS) as NE.
  rewrite <- (no_keys _ _ _ _ _ N) in NE. destruct (n_vehicles n); auto. cbn in NE. congruence.
Qed.
Print Assumptions C19_found.

(** A larger limit never gives a worse answer; a negative limit counts as infinite. *)
Theorem C19_monotone : forall opts matrix l1 l2 alg order r1,
  l2 < 0 \/ 0 <= l1 <= l2 ->
  well_formed alg -> ids_apart matrix alg -> only_eligible opts matrix -> costs_nonneg opts ->
  answer opts matrix l1 alg order = Some (Some r1) ->
  exists s1 t1 r2 s2 t2,
    feasible opts matrix alg s1 /\ describes opts matrix r1 s1 /\ makespan opts matrix s1 t1 /\
    answer opts matrix l2 alg order = Some (Some r2) /\
    feasible opts matrix alg s2 /\ describes opts matrix r2 s2 /\ makespan opts matrix s2 t2 /\
    t2 <= t1.
Proof.
  intros opts matrix l1 l2 alg order r1 LL W IA OE CN A.
  pose proof (ex_monotone _ _ _ IA OE CN) as M.
  destruct (limits_compare opts matrix l1 l2 alg order LL M) as (st1 & st2 & S1 & CMP & K).
  destruct (K st1 l1 (or_introl (conj eq_refl eq_refl))) as (E1 & A1 & C1).
  destruct (K st2 l2 (or_intror (conj eq_refl eq_refl))) as (E2 & A2 & C2).
  rewrite A1 in A. destruct C1 as [(_ & B & _)|(n & h & N & D & BE & CA)].
  { rewrite B in A. discriminate. }
  assert (R : r1 = n_vehicles n) by (rewrite BE in A; destruct (n_vehicles n); congruence).
  assert (NE : n_vehicles n <> []) by (intros X; rewrite BE, X in A; discriminate).
  subst r1. clear A.
  assert (KEYS : map fst (n_vehicles n) = vehiclesOf matrix) by apply N.
  destruct C2 as [(X1 & X2 & X3)|(n2 & h2 & N2 & D2 & BE2 & CA2)].
  { exfalso. assert (EQ : st1 = st2 \/ s_cand st2 <= s_cand st1) by tauto.
    destruct EQ as [->|LE]; [congruence|].
    assert (LT : s_cand st1 < int64_max).
    { destruct (expand_found _ _ _ _ _ _ _ _ _ _ (root_node opts matrix alg) (found0 _ _ _) E1)
        as (_ & LE1 & _). cbn in LE1.
      destruct (Z.eq_dec (s_cand st1) int64_max) as [EQ|]; [|lia]. exfalso.
      rewrite X3 in LE.
      (* an accepted leaf is strictly below the previous candidate *)
      assert (G : forall f nd s s',
        expandNode opts matrix l1 alg order f nd s = Some s' ->
        s_best s' = s_best s \/ s_cand s' < s_cand s).
      { clear. induction f as [|f IH]; intros nd s s' E; [discriminate|].
        rewrite expandNode_eq in E. cbn zeta in E.
        destruct (makeChildren opts matrix l1 order nd (searchNext alg (n_assigned nd)) s)
          as (q, ch) eqn:MC.
        apply makeChildren_spec in MC. destruct MC as ((Q1 & Q2 & Q3) & _).
        rewrite Q1, Q2. clear s Q1 Q2 Q3.
        destruct (s_stop q); [injection E as <-; auto|].
        assert (G : forall l s s', visit opts matrix alg order l1 f l s = Some s' ->
          s_best s' = s_best s \/ s_cand s' < s_cand s).
        { assert (LEQ : forall f nd s s', expandNode opts matrix l1 alg order f nd s = Some s' ->
             s_cand s' <= s_cand s).
          { clear. induction f as [|f IH]; intros nd s s' E; [discriminate|].
            rewrite expandNode_eq in E. cbn zeta in E.
            destruct (makeChildren opts matrix l1 order nd (searchNext alg (n_assigned nd)) s)
              as (q, ch) eqn:MC.
            apply makeChildren_spec in MC. destruct MC as ((Q1 & Q2 & Q3) & _).
            rewrite Q1. clear s Q1 Q2 Q3.
            destruct (s_stop q); [injection E as <-; lia|].
            assert (G : forall l s s', visit opts matrix alg order l1 f l s = Some s' ->
              s_cand s' <= s_cand s).
            { induction l as [|c l IHl]; intros s t E'; cbn in E'; [injection E' as <-; lia|].
              destruct ((n_cost c <? s_cand s) && negb (s_stop s)); [|apply (IHl s); auto].
              destruct (expandNode opts matrix l1 alg order f c s) as [s1|] eqn:E1; [|discriminate].
              specialize (IH _ _ _ E1). specialize (IHl _ _ E'). lia. }
            destruct ch as [|c ch]; [|apply (G (c :: ch)); auto].
            destruct (searchNext alg (n_assigned nd)); injection E as <-; [|lia].
            unfold leaf. destruct (Z.ltb_spec (n_cost nd) (s_cand q)); cbn; lia. }
          assert (LEV : forall l s s', visit opts matrix alg order l1 f l s = Some s' ->
              s_cand s' <= s_cand s).
          { induction l as [|c l IHl]; intros s t E'; cbn in E'; [injection E' as <-; lia|].
            destruct ((n_cost c <? s_cand s) && negb (s_stop s)); [|apply (IHl s); auto].
            destruct (expandNode opts matrix l1 alg order f c s) as [s1|] eqn:E1; [|discriminate].
            specialize (LEQ _ _ _ _ E1). specialize (IHl _ _ E'). lia. }
          induction l as [|c l IHl]; intros s t E'; cbn in E'; [injection E' as <-; auto|].
          destruct ((n_cost c <? s_cand s) && negb (s_stop s)); [|apply (IHl s); auto].
          destruct (expandNode opts matrix l1 alg order f c s) as [s1|] eqn:E1; [|discriminate].
          pose proof (IH _ _ _ E1). pose proof (IHl _ _ E'). pose proof (LEV _ _ _ E').
          pose proof (LEQ _ _ _ _ E1).
          destruct H as [H|]; [|right; lia]. destruct H0; [left; congruence|right; lia]. }
        destruct ch as [|c ch]; [|apply (G (c :: ch)); auto].
        destruct (searchNext alg (n_assigned nd)); injection E as <-; [|auto].
        unfold leaf. destruct (Z.ltb_spec (n_cost nd) (s_cand q)); cbn; auto. }
      destruct (G _ _ _ _ E1) as [Q|Q]; [cbn in Q; congruence|cbn in Q; lia]. }
    rewrite X3 in LE. lia. }
  exists h, (maxTotal opts matrix h), (n_vehicles n2), h2, (maxTotal opts matrix h2).
  split; [apply built_feasible; auto; apply N|].
  split; [apply (node_describes opts matrix alg); auto|].
  split; [apply (built_makespan opts matrix alg); auto; apply N|].
  split.
  { rewrite A2, BE2. destruct (n_vehicles n2) eqn:Q; auto.
    pose proof (no_keys _ _ _ _ _ N2) as K2. rewrite Q in K2. cbn in K2.
    rewrite <- K2 in KEYS. destruct (n_vehicles n); [congruence|discriminate]. }
  split; [apply built_feasible; auto; apply N2|].
  split; [apply (node_describes opts matrix alg); auto|].
  split; [apply (built_makespan opts matrix alg); auto; apply N2|].
  destruct CMP as [->|(_ & LE)]; lia.
Qed.
Print Assumptions C19_monotone.

Example C19_case :
  exists r, answer ex_opts ex_matrix 0 ex_alg ex_order = Some (Some r) /\
  map (fun vs => vs_total (snd vs)) r = [55; 35].
Proof. eexists. split; vm_compute; reflexivity. Qed.

(** *** C42 *)

Theorem C42_roundtrip : forall task option,
  0 <= task -> 0 <= option < 100000 ->
  getTaskID (packId task option) = task /\ getOptionID (packId task option) = option.
Proof.
  intros t o T O. unfold getTaskID, getOptionID, packId.
  rewrite Z.quot_div_nonneg, Z.rem_mod_nonneg by lia.
  rewrite Z.add_comm, Z.div_add, Z.mod_add by lia.
  rewrite Z.div_small, Z.mod_small by lia. auto.
Qed.
Print Assumptions C42_roundtrip.

Theorem C42_injective : forall t1 o1 t2 o2,
  0 <= o1 < 100000 -> 0 <= o2 < 100000 -> packId t1 o1 = packId t2 o2 -> t1 = t2 /\ o1 = o2.
Proof. unfold packId. intros. lia. Qed.
Print Assumptions C42_injective.

(** The bound on options is necessary: option 100000 of task 1 is option 0 of task 2. *)
Theorem C42_large_option_refuted :
  exists t1 o1 t2 o2, 0 <= t1 /\ 0 <= o1 /\ 0 <= t2 /\ 0 <= o2 /\
    (t1, o1) <> (t2, o2) /\ packId t1 o1 = packId t2 o2.
Proof. exists 1, 100000, 2, 0. repeat split; try lia; try discriminate. Qed.
Print Assumptions C42_large_option_refuted.

Example C42_case : getTaskID (packId 42 7) = 42 /\ getOptionID (packId 42 7) = 7.
Proof. vm_compute. auto. Qed.

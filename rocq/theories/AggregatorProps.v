(** C23 and C24: route responses and cost matrices. *)
From Coq Require Import List ZArith Bool Permutation Lia.
From Verif Require Import ZMap Run AggregatorModel AggregatorSpec AggregatorProofs AggregatorRoutes
  AggregatorMatrix.
Import ListNotations.
Open Scope list_scope.
Open Scope Z_scope.

(** *** Checking concrete histories *)

Fixpoint echoes (seen : list out) (t : trace) : bool :=
  match t with
  | [] => true
  | (e, o) :: t' =>
      match e with
      | EvPlanResp i ps =>
          existsb (fun x => match x with
                            | OutPlanReq p => (pr_id p =? i) &&
                                forallb (fun y => zin (fst y) (map rt_id (pr_routes p))) ps
                            | _ => false
                            end) seen
      | _ => true
      end && echoes (seen ++ o) t'
  end.

Fixpoint distinct (l : list Z) : bool :=
  match l with [] => true | x :: l' => negb (zin x l') && distinct l' end.

Lemma distinct_sound l : distinct l = true -> NoDup l.
Proof.
  induction l as [|x l IH]; cbn; [constructor|]. intros H. apply andb_prop in H.
  destruct H as (A & B). constructor; auto. apply zin_false. destruct (zin x l); auto.
Qed.

Definition orderlyb (evs : list event) (t : trace) : bool :=
  distinct (route_ids evs) &&
  forallb (fun e => match e with
                    | EvRouteReq r => forallb (fun x => rt_id x <? 1000000) (rq_routes r)
                    | _ => true
                    end) evs &&
  echoes [] t.

Lemma echoes_sound t : forall seen, echoes seen t = true ->
  forall t1 i ps o t2, t = t1 ++ (EvPlanResp i ps, o) :: t2 ->
  exists p, In (OutPlanReq p) (seen ++ sent t1) /\ pr_id p = i /\
            forall x, In x ps -> In (fst x) (map rt_id (pr_routes p)).
Proof.
  induction t as [|(e, o0) t IH]; intros seen H t1 i ps o t2 E; [destruct t1; discriminate|].
  cbn [echoes] in H. apply andb_prop in H. destruct H as (H1 & H2).
  destruct t1 as [|x t1].
  - injection E as -> <- <-. apply existsb_exists in H1. destruct H1 as (x & X1 & X2).
    destruct x as [p| | |]; try discriminate. apply andb_prop in X2. destruct X2 as (X2 & X3).
    exists p. rewrite app_nil_r. split; auto. split; [lia|]. intros y Y.
    rewrite forallb_forall in X3. apply zin_In. auto.
  - injection E as <- ->. destruct (IH _ H2 t1 i ps o t2 eq_refl) as (p & P & P').
    exists p. split; auto. cbn. rewrite <- app_assoc in P. auto.
Qed.

Lemma orderlyb_sound evs t : orderlyb evs t = true -> orderly evs t.
Proof.
  unfold orderlyb. intros H. apply andb_prop in H. destruct H as (H & H3).
  apply andb_prop in H. destruct H as (H1 & H2). constructor.
  - apply distinct_sound. auto.
  - intros r x I J. rewrite forallb_forall in H2. specialize (H2 _ I). cbn in H2.
    rewrite forallb_forall in H2. specialize (H2 _ J). lia.
  - intros t1 i ps o t2 E. apply (echoes_sound _ [] H3 _ _ _ _ _ E).
Qed.

Section Order.
Context (ord : list Z -> list Z) (ord_perm : forall l, Permutation (ord l) l).

Notation arun := (run (rstep ord) rinit).

(** *** C23 *)

(** At every time, a route request for which plans were requested has been answered exactly
    once if all of these plans have arrived, and not at all otherwise. *)
Theorem C23_once evs q :
  let t := snd (arun evs) in
  orderly evs t -> asked t q <> [] ->
  ((forall r, In r (asked t q) -> answer evs r <> None) -> length (route_replies (sent t) q) = 1%nat) /\
  ((exists r, In r (asked t q) /\ answer evs r = None) -> length (route_replies (sent t) q) = 0%nat).
Proof.
  cbn zeta. intros O A. pose proof (invA_run ord ord_perm evs O) as I.
  destruct (zget (a_pendRoute (fst (arun evs))) q) as [ids|] eqn:P.
  - destruct (ia_pend _ _ _ I _ _ P) as (-> & R & _ & (r & R1 & R2)). rewrite R. split; auto.
    intros H. specialize (H r R1). congruence.
  - destruct (ia_done _ _ _ I _ P) as [(X & _)|(_ & (rs & R) & H)]; [congruence|].
    rewrite R. split; auto. intros (r & R1 & R2). specialize (H r R1). congruence.
Qed.

(** The response is sent when a plan arrives.  It contains, for each of the plan requests
    made for the route request, what the planner last answered to it. *)
Theorem C23_contents evs t1 e o t2 q rs :
  orderly evs (snd (arun evs)) -> snd (arun evs) = t1 ++ (e, o) :: t2 ->
  In (OutRouteResp q rs) o ->
  (exists i ps, e = EvPlanResp i ps) /\
  Permutation (map fst rs) (asked t1 q) /\
  forall r ps, In (r, ps) rs -> answer (map fst t1 ++ [e]) r = Some ps.
Proof. intros O E I. exact (ia_fits _ _ _ (invA_run ord ord_perm evs O) _ _ _ _ _ _ E I). Qed.

(** On a route request, one plan is requested for each vehicle named in it, or for each
    vehicle with a reported state if none is named; each asks for all the routes. *)
Theorem C23_asks evs t1 r o t2 :
  orderly evs (snd (arun evs)) -> snd (arun evs) = t1 ++ (EvRouteReq r, o) :: t2 ->
  exists ps, o = map OutPlanReq ps /\ NoDup (map pr_id ps) /\
    (forall p, In p ps -> pr_routes p = rq_routes r /\
                          forall p', In (OutPlanReq p') (sent t1) -> pr_id p' <> pr_id p) /\
    match rq_vehicles r with
    | [] => NoDup (map pr_vehicle ps) /\
            forall v, In v (map pr_vehicle ps) <-> last_state (map fst t1) v <> None
    | vs => map pr_vehicle ps = vs
    end.
Proof.
  intros O E. destruct (run_split _ _ _ _ _ _ E) as (s & S1 & S2 & S3). cbn [fst snd rstep] in S3.
  unfold handleRouteRequest in S3.
  destruct (routeVehicles r s _) as (s', o') eqn:V. cbn [snd] in S3. subst o'.
  assert (O1 : orderly (map fst t1) t1).
  { pose proof (run_events (rstep ord) rinit evs) as EV. rewrite E, map_app in EV. cbn in EV.
    destruct O as [D L H]. constructor.
    - rewrite <- EV in D. unfold route_ids in *. rewrite flat_map_app in D.
      apply NoDup_app_l in D. auto.
    - intros r0 x I. apply (L r0 x). rewrite <- EV. apply in_or_app. auto.
    - intros ta i ps o1 tb ET. apply (H ta i ps o1 (tb ++ (EvRouteReq r, o) :: t2)).
      rewrite E, ET, <- app_assoc. auto. }
  assert (O2 : orderly (map fst t1) (snd (arun (map fst t1)))) by (rewrite S1; auto).
  pose proof (ranges_run ord ord_perm (map fst t1) O2) as G.
  destruct (invB_run ord ord_perm (map fst t1) O2) as (B & _).
  rewrite S1 in G, B. cbn [fst snd] in G, B.
  apply routeVehicles_spec in V. destruct V as [_ _ _ _ (ps & T5 & T6 & T7 & T8)].
  exists ps. split; auto. split; [rewrite T6; apply NoDup_zseq|]. split.
  - intros p I. split; auto. intros p' I' EQ.
    apply (in_map pr_id) in I. rewrite T6, In_zseq in I.
    destruct (g_sent _ _ G p' I') as [(X & _)|(X & _)]; pose proof (g_rr _ _ G); lia.
  - rewrite T7. destruct (rq_vehicles r); auto.
    split; [apply (ord_NoDup ord ord_perm); apply B|]. intros v.
    rewrite (ord_In ord ord_perm), <- (ib_states _ _ _ B).
    destruct (zget (a_states s) v) eqn:Z1.
    + split; [discriminate|]. intros _. apply In_zget in Z1. apply (in_map fst) in Z1. auto.
    + apply zget_none in Z1. tauto.
Qed.

(** A route request for which no plan was requested is never answered. *)
Theorem C23_no_vehicles evs q :
  orderly evs (snd (arun evs)) -> asked (snd (arun evs)) q = [] ->
  route_replies (sent (snd (arun evs))) q = [].
Proof.
  intros O A. pose proof (invA_run ord ord_perm evs O) as I.
  destruct (zget (a_pendRoute (fst (arun evs))) q) as [ids|] eqn:P.
  - apply (ia_pend _ _ _ I _ _ P).
  - destruct (ia_done _ _ _ I _ P) as [(_ & X)|(X & _)]; [auto|congruence].
Qed.

(** *** C24 *)

(** Every cost matrix has exactly one entry for each leg between options eligible for each
    vehicle (and from its start), with the cost reported for the route requested for that leg:
    see [right_matrix]. *)
Theorem C24_matrix evs t1 e o t2 i region relation tasks entries :
  orderly evs (snd (arun evs)) -> snd (arun evs) = t1 ++ (e, o) :: t2 ->
  In (OutMatrix i region relation tasks entries) o ->
  right_matrix t1 e i region relation tasks entries.
Proof. intros O E I. exact (proj2 (invB_run ord ord_perm evs O) _ _ _ _ _ _ _ _ _ E I). Qed.

(** At most one matrix is sent for each request. *)
Theorem C24_at_most_one evs :
  orderly evs (snd (arun evs)) ->
  exists open, Permutation (matrices (sent (snd (arun evs))) ++ open) (auto_ids evs).
Proof. intros O. exists (ids_of (a_reqs (fst (arun evs)))). apply (invB_run ord ord_perm evs O). Qed.

Lemma auto_ids_inj evs q q' :
  NoDup (auto_ids evs) -> In (EvUnique q) evs -> In (EvUnique q') evs -> q_id q = q_id q' -> q = q'.
Proof.
  assert (G : forall evs (q : areq), In (EvUnique q) evs -> In (q_id q) (auto_ids evs)).
  { intros l x I. apply in_flat_map. eexists. split; [exact I|]. cbn. auto. }
  induction evs as [|e evs IH]; intros N I I' E; [destruct I|].
  destruct I as [I|I], I' as [I'|I'].
  - congruence.
  - subst e. exfalso. cbn in N. apply NoDup_cons_iff in N. apply (proj1 N). rewrite E. auto.
  - subst e. exfalso. cbn in N. apply NoDup_cons_iff in N. apply (proj1 N). rewrite <- E. auto.
  - apply IH; auto. cbn in N. apply (NoDup_app_remove_l _ _ N) || (destruct e; cbn in N; auto).
    apply NoDup_cons_iff in N. apply N.
Qed.

(** If all the options of a request were known together at some time after it arrived, then
    the matrix has been sent once a plan has arrived and all the costs asked for are known. *)
Theorem C24_sent evs i ps q t0 :
  let h := evs ++ [EvPlanResp i ps] in
  let t := snd (arun h) in
  orderly h t -> NoDup (auto_ids h) ->
  prefix t0 t -> In (EvUnique q) (map fst t0) ->
  (forall x, In x (q_tasks q) -> options t0 x <> None) ->
  (forall p r, In (OutPlanReq p) (sent t) -> pr_id p = 0 -> In r (pr_routes p) ->
     cost_of h (rt_id r) <> None) ->
  In (q_id q) (matrices (sent t)).
Proof.
  cbn zeta. intros O ND PF IQ KN CO. set (h := evs ++ [EvPlanResp i ps]) in *.
  destruct (invB_run ord ord_perm h O) as (B & _).
  pose proof (ranges_run ord ord_perm h O) as G.
  assert (ET : map fst (snd (arun h)) = h) by apply run_events.
  assert (IH : In (EvUnique q) h).
  { destruct PF as (c & PF). rewrite <- ET, PF, map_app. apply in_or_app. auto. }
  assert (IA : In (q_id q) (matrices (sent (snd (arun h))) ++ ids_of (a_reqs (fst (arun h))))).
  { apply (Permutation_in _ (Permutation_sym (ib_ids _ _ _ B))). apply in_flat_map.
    eexists. split; [exact IH|]. cbn. auto. }
  apply in_app_or in IA. destruct IA as [IA|IA]; auto. exfalso.
  apply in_map_iff in IA. destruct IA as ((k, q') & E1 & E2). cbn [snd] in E1.
  apply (zget_In _ _ _ (ib_keys _ _ _ B)) in E2.
  assert (TK : q_tasks q' = q_tasks q).
  { destruct (ib_reqs _ _ _ B _ _ E2) as [X|(h0 & q1 & (c & X1) & X2)].
    - f_equal. eapply auto_ids_inj; eauto.
    - destruct X2 as (Y1 & _ & Y3 & Y4 & _). rewrite Y4. f_equal.
      eapply auto_ids_inj; eauto; [|congruence].
      rewrite <- ET, X1, map_app. apply in_or_app. auto. }
  assert (PN : zget (a_pendAuto (fst (arun h))) k <> None).
  { eapply (ib_built _ _ _ B k q' t0); eauto.
    - rewrite E1. apply in_flat_map. eexists. split; [exact IQ|]. cbn. auto.
    - rewrite TK. auto. }
  destruct (zget (a_pendAuto (fst (arun h))) k) as [a|] eqn:P; [|congruence].
  destruct (ib_pend _ _ _ B _ _ P) as (t1 & h1 & q1 & q2 & rr & [PA PB PC PD PK PE PF' PG PH]).
  assert (DUE : matrix_due (fst (arun h)) k).
  { exists a. split; auto. apply forallb_forall. intros id I.
    assert (C : option_map snd (zget (a_plans (fst (arun h))) id) <> None).
    { rewrite (ib_cost _ _ _ B _ _ _ P I).
      assert (I' := I). rewrite <- PF' in I'. apply in_map_iff in I'.
      destruct I' as (x & X1 & X2). destruct (PH x X2) as (p & Q1 & Q2 & Q3).
      assert (S1 : In (OutPlanReq p) (sent (snd (arun h)))).
      { destruct PC as (c & PC). rewrite PC, sent_app. apply in_or_app. auto. }
      pose proof (g_pend _ _ G _ _ _ P I) as RG. rewrite <- X1. change (snd x) with (rt_id (route_of x)).
      destruct (g_sent _ _ G p S1) as [(Z1 & Z2)|(Z1 & Z2)]; [eauto|].
      specialize (Z2 _ Q3). cbn in Z2. lia. }
    unfold zhas. destruct (zget _ id); [auto|]. cbn in C. congruence. }
  revert DUE. unfold h. rewrite run_snoc. cbn [fst rstep]. unfold checkPlans.
  destruct (checkRoutes ord _) as (s1, o1). destruct (checkMatrices ord s1) as (s2, o2) eqn:C2.
  cbn [fst]. intros D. exact (checkMatrices_done ord ord_perm _ _ _ _ C2 D).
Qed.
End Order.

Print Assumptions C23_once.
Print Assumptions C23_contents.
Print Assumptions C23_asks.
Print Assumptions C23_no_vehicles.
Print Assumptions C24_matrix.
Print Assumptions C24_at_most_one.
Print Assumptions C24_sent.

(** *** Concrete histories *)

Definition opt (t i : Z) (el : list Z) (a b : pose) : topt :=
  {| o_task := t; o_id := i; o_elig := el; o_start := a; o_end := b |}.

Definition areq_ (i : Z) (ts : list Z) : areq :=
  {| q_id := i; q_entities := []; q_tasks := ts; q_planning := []; q_region := 0; q_relation := 0 |}.

Definition rreq_ (i : Z) (vs rs : list Z) : rreq :=
  {| rq_id := i; rq_task := 0; rq_costOnly := false; rq_region := 0; rq_vehicles := vs;
     rq_routes := map (fun r => {| rt_id := r; rt_from := 1; rt_to := 2 |}) rs |}.

Definition orun := run (rstep (fun l => l)) rinit.

Definition two_requests : list event :=
  [EvState 1 10 false; EvState 2 20 true; EvRouteReq (rreq_ 7 [] [100; 101]);
   EvRouteReq (rreq_ 8 [1] [100]); EvPlanResp 2 [(100, 5); (101, 6)]; EvPlanResp 3 [(100, 9)];
   EvPlanResp 2 [(100, 15); (101, 16)]; EvPlanResp 1 [(100, 50); (101, 60)];
   EvPlanResp 1 [(100, 51)]].

Example C23_once_example :
  orderly two_requests (snd (orun two_requests)) /\
  asked (snd (orun two_requests)) 7 = [1; 2] /\ asked (snd (orun two_requests)) 8 = [3] /\
  length (sent (snd (orun two_requests))) = 5%nat.
Proof.
  split; [apply orderlyb_sound; vm_compute; reflexivity|].
  split; [vm_compute; reflexivity|]. split; vm_compute; reflexivity.
Qed.

Example C23_contents_example :
  sent (skipn 4 (snd (orun two_requests))) =
  [OutRouteResp 8 [(3, [(100, 9)])];
   OutRouteResp 7 [(1, [(100, 50); (101, 60)]); (2, [(100, 15); (101, 16)])]].
Proof. vm_compute. reflexivity. Qed.

(** Two route requests with one id get one response between them. *)
Theorem C23_duplicate_id_refuted :
  exists evs, route_ids evs = [7; 7] /\
    (forall r, In r (asked (snd (orun evs)) 7) -> answer evs r <> None) /\
    length (route_replies (sent (snd (orun evs))) 7) = 1%nat.
Proof.
  exists [EvRouteReq (rreq_ 7 [1] [100]); EvRouteReq (rreq_ 7 [2] [100]);
          EvPlanResp 1 [(100, 5)]; EvPlanResp 2 [(100, 6)]].
  split; [reflexivity|]. split; [|vm_compute; reflexivity].
  assert (E : asked (snd (orun [EvRouteReq (rreq_ 7 [1] [100]); EvRouteReq (rreq_ 7 [2] [100]);
          EvPlanResp 1 [(100, 5)]; EvPlanResp 2 [(100, 6)]])) 7 = [1; 2]) by (vm_compute; reflexivity).
  rewrite E. intros r [<-|[<-|[]]]; vm_compute; discriminate.
Qed.
Print Assumptions C23_duplicate_id_refuted.

(** A route request with a route id from the range used for cost matrices may never be
    answered although all its plans arrive. *)
Theorem C23_route_id_refuted :
  exists evs, NoDup (route_ids evs) /\ asked (snd (orun evs)) 7 = [1; 2] /\
    (forall r, In r [1; 2] -> answer evs r <> None) /\
    route_replies (sent (snd (orun evs))) 7 = [].
Proof.
  exists [EvState 1 10 false; EvUnique (areq_ 50 [5]); EvOptions 5 [opt 5 1 [] 30 31];
          EvRouteReq (rreq_ 7 [1; 2] [1000000]); EvPlanResp 1 [(1000000, 5)];
          EvPlanResp 2 [(1000000, 6)]].
  split; [repeat constructor; intros []|]. split; [vm_compute; reflexivity|]. split.
  - intros r [<-|[<-|[]]]; vm_compute; discriminate.
  - vm_compute. reflexivity.
Qed.
Print Assumptions C23_route_id_refuted.

Definition one_matrix : list event :=
  [EvState 1 10 false; EvState 2 20 false; EvUnique (areq_ 50 [5; 6]);
   EvOptions 5 [opt 5 1 [] 30 31]; EvOptions 6 [opt 6 1 [1] 40 41];
   EvPlanResp 0 [(1000003, 3); (1000002, 2); (1000001, 1)]; EvPlanResp 0 [(1000000, 7)];
   EvPlanResp 0 [(1000004, 4)]].

Example C24_example :
  orderly one_matrix (snd (orun one_matrix)) /\ NoDup (auto_ids one_matrix) /\
  sent (skipn 7 (snd (orun one_matrix))) =
  [OutMatrix 50 0 0 [5; 6]
     [({| p_vehicle := 2; p_prevTask := 0; p_prevOption := 0; p_task := 5; p_option := 1 |}, 7);
      ({| p_vehicle := 1; p_prevTask := 0; p_prevOption := 0; p_task := 5; p_option := 1 |}, 1);
      ({| p_vehicle := 1; p_prevTask := 0; p_prevOption := 0; p_task := 6; p_option := 1 |}, 2);
      ({| p_vehicle := 1; p_prevTask := 5; p_prevOption := 1; p_task := 6; p_option := 1 |}, 3);
      ({| p_vehicle := 1; p_prevTask := 6; p_prevOption := 1; p_task := 5; p_option := 1 |}, 4)];
   OutStatus []].
Proof.
  split; [apply orderlyb_sound; vm_compute; reflexivity|].
  split; [apply distinct_sound; vm_compute; reflexivity|]. vm_compute. reflexivity.
Qed.

Definition forgetful : list event :=
  [EvState 1 10 false; EvUnique (areq_ 50 [5]); EvOptions 5 [opt 5 1 [] 30 31];
     EvUnique (areq_ 51 [6; 7]); EvOptions 6 [opt 6 1 [] 40 41];
     EvPlanResp 0 [(1000002, 1)]; EvOptions 7 [opt 7 1 [] 50 51];
     EvPlanResp 0 [(1000000, 1)]; EvPlanResp 0 [(1000001, 1)]].

Lemma forgetful_costs :
  forallb (fun o => match o with
        | OutPlanReq p => forallb (fun r => match cost_of forgetful (rt_id r) with
                                            | Some _ => true | None => false end) (pr_routes p)
        | _ => true end) (sent (snd (orun forgetful))) = true.
Proof. vm_compute. reflexivity. Qed.

Lemma all_costs evs l :
  forallb (fun o => match o with
        | OutPlanReq p => forallb (fun r => match cost_of evs (rt_id r) with
                                            | Some _ => true | None => false end) (pr_routes p)
        | _ => true end) l = true ->
  forall p r, In (OutPlanReq p) l -> In r (pr_routes p) -> cost_of evs (rt_id r) <> None.
Proof.
  intros H p r I J C. rewrite forallb_forall in H. specialize (H _ I). cbn in H.
  rewrite forallb_forall in H. specialize (H _ J). cbn in H. rewrite C in H. discriminate.
Qed.

(** The options reported for a request before another request's matrix is sent are
    forgotten: a request may never be answered although options for all its tasks and all
    the costs asked for were reported after it. *)
Theorem C24_forgotten_refuted :
  exists evs q, orderly evs (snd (orun evs)) /\ NoDup (auto_ids evs) /\
    (exists h1 h2 i ps, evs = h1 ++ EvUnique q :: h2 ++ [EvPlanResp i ps] /\
       forall x, In x (q_tasks q) -> exists os, In (EvOptions x os) h2) /\
    (forall p r, In (OutPlanReq p) (sent (snd (orun evs))) -> pr_id p = 0 -> In r (pr_routes p) ->
       cost_of evs (rt_id r) <> None) /\
    ~ In (q_id q) (matrices (sent (snd (orun evs)))).
Proof.
  exists forgetful, (areq_ 51 [6; 7]).
  split; [apply orderlyb_sound; vm_compute; reflexivity|].
  split; [apply distinct_sound; vm_compute; reflexivity|]. split.
  { exists (firstn 3 forgetful), (firstn 4 (skipn 4 forgetful)), 0, [(1000001, 1)].
    split; [reflexivity|]. intros x [<-|[<-|[]]].
    - eexists. left. reflexivity.
    - eexists. right. right. left. reflexivity. }
  split.
  - intros p r I _ J. exact (all_costs _ _ forgetful_costs p r I J).
  - assert (E : matrices (sent (snd (orun forgetful))) = [50]) by (vm_compute; reflexivity).
    rewrite E. intros [X|[]]. vm_compute in X. discriminate.
Qed.
Print Assumptions C24_forgotten_refuted.

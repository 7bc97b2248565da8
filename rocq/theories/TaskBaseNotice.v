(** Proofs about assignment and notices of the task services. *)
From Coq Require Import List ZArith Bool Lia.
From Verif Require Import ZMap Run TaskBaseModel TaskBaseSpec.
Import ListNotations.
Open Scope list_scope.
Open Scope Z_scope.

Lemma split_last {A} (l : list A) e a x b :
  l ++ [e] = a ++ x :: b ->
  (b = [] /\ a = l /\ x = e) \/ (exists b', b = b' ++ [e] /\ l = a ++ x :: b').
Proof.
  destruct b as [|y b] using rev_ind.
  - intros H. apply app_inj_tail in H. destruct H; subst; auto.
  - clear IHb. rewrite app_comm_cons, app_assoc. intros H. apply app_inj_tail in H.
    destruct H as (E1 & E2); subst; eauto.
Qed.

Lemma keeps_snoc evs l e v :
  keeps evs (l ++ [e]) v <-> keeps evs l v /\ ~ reassigns (evs ++ l) e v.
Proof.
  split.
  - intros K. split.
    + intros l1 x l2 ->. apply (K l1 x (l2 ++ [e])). rewrite <- app_assoc. reflexivity.
    + apply (K l e []). reflexivity.
  - intros (K & N) l1 x l2 E. apply split_last in E. destruct E as [(-> & -> & ->)|(b' & -> & ->)].
    + exact N.
    + eapply K; reflexivity.
Qed.

Lemma keeps_nil evs v : keeps evs [] v.
Proof. intros l1 e l2 E. destruct l1; discriminate. Qed.

Lemma assignedTo_snoc task evs e v :
  assignedTo task (evs ++ [e]) v <->
  (exists id ms q ts, e = Response id ms /\ asked evs id = Some q /\ q_sandbox q = false /\
                      In (v, ts) ms /\ exists l, In l ts /\ In task l) \/
  (assignedTo task evs v /\ ~ reassigns evs e v).
Proof.
  split.
  - intros (a & id & ms & b & q & ts & E & H1 & H2 & H3 & H4 & K).
    apply split_last in E. destruct E as [(-> & -> & <-)|(b' & -> & ->)].
    + left. exists id, ms, q, ts. auto.
    + right. apply keeps_snoc in K. destruct K as (K & N). rewrite <- app_assoc in N. split; auto.
      exists a, id, ms, b', q, ts. auto 10.
  - intros [(id & ms & q & ts & -> & H1 & H2 & H3 & H4)|((a & id & ms & b & q & ts & -> & H1 & H2 & H3 & H4 & K) & N)].
    + exists evs, id, ms, [], q, ts. repeat split; auto. apply keeps_nil.
    + exists a, id, ms, (b ++ [e]), q, ts. repeat split; auto.
      * rewrite <- app_assoc. reflexivity.
      * apply keeps_snoc. split; auto. rewrite <- app_assoc. exact N.
Qed.

Lemma workingOn_snoc task evs e v :
  workingOn task (evs ++ [e]) v <->
  (exists ts c, e = State v ts c /\ In task ts) \/
  (workingOn task evs v /\ (forall ts c, e <> State v ts c) /\ ~ reassigns evs e v).
Proof.
  split.
  - intros (a & ts & c & b & E & H1 & H2 & K).
    apply split_last in E. destruct E as [(-> & -> & <-)|(b' & -> & ->)].
    + left. eauto.
    + right. rewrite app_comm_cons in K. apply keeps_snoc in K. destruct K as (K & N).
      repeat split.
      * exists a, ts, c, b'. repeat split; auto. intros ts' c' Q. apply (H2 ts' c').
        apply in_or_app. auto.
      * intros ts' c' ->. apply (H2 ts' c'). apply in_or_app. cbn. auto.
      * exact N.
  - intros [(ts & c & -> & H)|((a & ts & c & b & -> & H1 & H2 & K) & H3 & N)].
    + exists evs, ts, c, []. repeat split; auto.
      intros l1 e l2 E. destruct l1 as [|y [|z l1]]; try discriminate.
      injection E as <- <-. intros (id & ms & q & Q & _). discriminate.
    + exists a, ts, c, (b ++ [e]). repeat split; auto.
      * rewrite <- app_assoc. reflexivity.
      * intros ts' c' Q. apply in_app_or in Q. destruct Q as [Q|[Q|[]]]; [eapply H2; eauto|].
        subst e. eapply H3; eauto.
      * rewrite app_comm_cons. apply keeps_snoc. split; auto.
Qed.

Lemma asked_snoc evs e id :
  asked (evs ++ [e]) id =
  match e with
  | Request q _ => if q_id q =? id then Some q else asked evs id
  | Response i _ => if i =? id then None else asked evs id
  | _ => asked evs id
  end.
Proof. unfold asked. rewrite fold_left_app. reflexivity. Qed.

(** The state fields about assignment and notices are the same. *)
Definition frame (s s' : st) : Prop :=
  reqs s' = reqs s /\ latest s' = latest s /\ assigned s' = assigned s /\
  active s' = active s /\ lastWp s' = lastWp s /\ configs s' = configs s.

Lemma frame_refl s : frame s s.
Proof. repeat split. Qed.
Lemma frame_trans a b c : frame a b -> frame b c -> frame a c.
Proof.
  intros (A1 & A2 & A3 & A4 & A5 & A6) (B1 & B2 & B3 & B4 & B5 & B6).
  repeat split; congruence.
Qed.

Lemma fold_frame {A} (f : st * list out -> A -> st * list out) l :
  (forall a x, frame (fst a) (fst (f a x))) -> forall a, frame (fst a) (fst (fold_left f l a)).
Proof.
  intros H. induction l as [|x l IH]; intros a; cbn [fold_left]; [apply frame_refl|].
  eapply frame_trans; [apply H|apply IH].
Qed.

Section Notice.
  Context (task : Z) (eligible : list Z) (transActive : bool) (coloc : Z -> Z -> bool).
  Context (restCost : Z -> list wp -> Z).
  Context (ordv : list Z -> list Z) (ordw : zmap Z -> list (Z * Z)).
  Context (ordv_in : forall l x, In x (ordv l) <-> In x l).

  Notation step := (step task eligible transActive coloc restCost ordv ordw).
  Notation run := (run step).

  Lemma lane_frame a x : frame (fst a) (fst (lane a x)).
  Proof.
    destruct x as ((k, v), l). unfold lane. cbn zeta.
    destruct (zget _ k); repeat split.
  Qed.
  Lemma lanes_frame s l : frame s (fst (lanes s l)).
  Proof.
    unfold lanes. destruct (zget _ _); [|apply frame_refl].
    apply (fold_frame _ l lane_frame (s, [])).
  Qed.
  Lemma implementationRequest_frame s i : frame s (fst (implementationRequest task s i)).
  Proof.
    unfold implementationRequest. destruct (_ =? _); [|apply frame_refl].
    destruct (zget _ _); [|apply frame_refl]. repeat split.
  Qed.
  Lemma optionRoute_frame k a r : frame (fst a) (fst (optionRoute k a r)).
  Proof.
    unfold optionRoute. destruct (zget _ _); [|apply frame_refl]. cbn [fst].
    destruct (zin _ _); [|apply frame_refl]. repeat split.
  Qed.
  Lemma implementationRoute_frame q k v i a r :
    frame (fst a) (fst (implementationRoute task transActive coloc q k v i a r)).
  Proof.
    unfold implementationRoute. destruct (zget _ _); [|apply frame_refl].
    destruct (zin (r_id r) _); [|apply frame_refl]. cbn zeta.
    destruct (zrem _ _); [|repeat split].
    destruct (zin v _); [|repeat split].
    destruct (addRoutes _ _ _ _ _ _ _ _ _) as (d, ps).
    destruct (finish _ _); repeat split.
  Qed.
  Lemma routes_frame s id t v rs : frame s (fst (routes task transActive coloc s id t v rs)).
  Proof.
    unfold routes. destruct (_ =? _); [|apply frame_refl].
    destruct (zget (rtype s) id) as [[[|] k]|]; [| |apply frame_refl].
    - unfold implementationRoutes. destruct (zget (reqs s) _) as [q|]; [|apply frame_refl].
      destruct (zin id _); [|apply frame_refl]. cbn zeta.
      destruct (zget _ k) as [o|]; [|repeat split].
      destruct (zget _ id) as [i|]; [|repeat split].
      match goal with |- context [fold_left ?f rs ?a] =>
        pose proof (fold_frame f rs (implementationRoute_frame q k v i) a) as F;
        destruct (fold_left f rs a) as (s3, l) end.
      cbn [fst] in *. eapply frame_trans; [|eapply frame_trans; [apply F|]]; repeat split.
    - unfold optionRoutes. destruct (zin id _); [|apply frame_refl].
      match goal with |- context [fold_left ?f rs ?a] =>
        pose proof (fold_frame f rs (optionRoute_frame k) a) as F end.
      eapply frame_trans; [|apply F]; repeat split.
  Qed.

  (** Messages that neither report a vehicle nor belong to an automation request change nothing. *)
  Lemma step_frame s e :
    match e with
    | Lanes _ | Implement _ | Routes _ _ _ _ => frame s (fst (step s e))
    | _ => True
    end.
  Proof.
    destruct e; cbn [TaskBaseModel.step]; auto.
    - apply lanes_frame.
    - apply implementationRequest_frame.
    - apply routes_frame.
  Qed.

  Definition lastReq (evs : list ev) : Z :=
    fold_left (fun a e => match e with Request q _ => q_id q | _ => a end) evs 0.

  Record ninv (evs : list ev) (s : st) : Prop := {
    n_reqs : forall id, zget (reqs s) id = asked evs id;
    n_latest : latest s = lastReq evs;
    n_assigned : forall v, In v (assigned s) <-> assignedTo task evs v;
    n_active : forall v, In v (active s) <-> assignedTo task evs v /\ workingOn task evs v
  }.

  Lemma in_fold_rem (ms : list (Z * list (list Z))) l v :
    In v (fold_left (fun a m => zrem (fst m) a) ms l) <-> In v l /\ ~ In v (map fst ms).
  Proof.
    revert l. induction ms as [|m ms IH]; intros l; cbn [fold_left map]; [cbn; tauto|].
    rewrite IH, In_zrem. cbn [In]. intuition.
  Qed.
  Lemma in_fold_add (ms : list (Z * list (list Z))) l v :
    In v (fold_left (fun a m => if existsb (zin task) (snd m) then zadd (fst m) a else a) ms l) <->
    In v l \/ exists ts, In (v, ts) ms /\ exists x, In x ts /\ In task x.
  Proof.
    revert l. induction ms as [|m ms IH]; intros l; cbn [fold_left]; [firstorder|].
    rewrite IH. destruct m as (w, ts). cbn [fst snd].
    assert (Q : existsb (zin task) ts = true <-> exists x, In x ts /\ In task x).
    { rewrite existsb_exists. split; intros (x & H1 & H2); exists x; split; auto; apply zin_In; auto. }
    destruct (existsb (zin task) ts) eqn:E.
    - rewrite In_zadd. split.
      + intros [[->|H]|(ts' & H & H')]; auto.
        * right. exists ts. split; [cbn; auto|]. apply Q; reflexivity.
        * right. exists ts'. cbn. auto.
      + intros [H|(ts' & [H|H] & H')]; auto.
        * injection H as -> ->. auto.
        * right. eauto.
    - split.
      + intros [H|(ts' & H & H')]; auto. right. exists ts'. cbn. auto.
      + intros [H|(ts' & [H|H] & H')]; auto.
        * injection H as -> ->. apply Q in H'. discriminate.
        * right. eauto.
  Qed.

  Lemma not_reassigns_other evs e v :
    (forall id ms, e <> Response id ms) -> ~ reassigns evs e v.
  Proof. intros H (id & ms & q & E & _). eapply H; eauto. Qed.

  Lemma assignedTo_other evs e v :
    (forall id ms, e <> Response id ms) ->
    (assignedTo task (evs ++ [e]) v <-> assignedTo task evs v).
  Proof.
    intros H. rewrite assignedTo_snoc. split.
    - intros [(id & ms & q & ts & E & _)|(A & _)]; auto. edestruct H; eauto.
    - intros A. right. split; auto. apply not_reassigns_other; auto.
  Qed.
  Lemma workingOn_other evs e v :
    (forall id ms, e <> Response id ms) -> (forall ts c, e <> State v ts c) ->
    (workingOn task (evs ++ [e]) v <-> workingOn task evs v).
  Proof.
    intros H H'. rewrite workingOn_snoc. split.
    - intros [(ts & c & E & _)|(A & _)]; auto. edestruct H'; eauto.
    - intros A. right. repeat split; auto. apply not_reassigns_other; auto.
  Qed.

  Lemma lastReq_snoc evs e :
    lastReq (evs ++ [e]) = match e with Request q _ => q_id q | _ => lastReq evs end.
  Proof. unfold lastReq. rewrite fold_left_app. reflexivity. Qed.

  (** A message which changes neither the assignment nor the notices keeps the invariant. *)
  Lemma ninv_frame evs e s s' :
    ninv evs s ->
    reqs s' = reqs s -> latest s' = latest s -> assigned s' = assigned s -> active s' = active s ->
    (forall id ms, e <> Response id ms) -> (forall v ts c, e <> State v ts c) ->
    (forall q u, e <> Request q u) -> ninv (evs ++ [e]) s'.
  Proof.
    intros I F1 F2 F3 F4 H1 H2 H3. constructor.
    - intros id. rewrite F1, (n_reqs _ _ I), asked_snoc.
      destruct e; auto; [exfalso; eapply H3; eauto|exfalso; eapply H1; eauto].
    - rewrite F2, (n_latest _ _ I), lastReq_snoc. destruct e; auto. exfalso; eapply H3; eauto.
    - intros v. rewrite F3, assignedTo_other by auto. apply I.
    - intros v. rewrite F4, assignedTo_other, workingOn_other by auto. apply I.
  Qed.

  Lemma restart_fields s q v w k o :
    frame s (fst (restart restCost s q v w k o)).
  Proof.
    unfold restart.
    destruct (match zget (o_plans o) firstRoute with Some r => _ | None => _ end); repeat split.
  Qed.

  Lemma request_frame s q u :
    frame (setReqs s (zset (reqs s) (q_id q) q) (q_id q))
          (fst (automationRequest task restCost ordw s q u)).
  Proof.
    unfold automationRequest. cbn zeta. destruct (zin task (q_tasks q)); [|apply frame_refl].
    destruct (candidate _ _ _) as [(((v, w), k), o)|]; [apply restart_fields|].
    unfold fresh. repeat split.
  Qed.

  Lemma ninv_step evs s e : ninv evs s -> ninv (evs ++ [e]) (fst (step s e)).
  Proof.
    intros I. destruct e as [v ts c|v|q u|l|id ms|i|id t v rs].
    - cbn [TaskBaseModel.step]. unfold entityState.
      pose proof (n_assigned _ _ I v) as A. pose proof (n_active _ _ I v) as B.
      assert (HA : forall w, assignedTo task (evs ++ [State v ts c]) w <-> assignedTo task evs w).
      { intros w. apply assignedTo_other. discriminate. }
      assert (HW : forall w, w <> v ->
        (workingOn task (evs ++ [State v ts c]) w <-> workingOn task evs w)).
      { intros w N. apply workingOn_other; [discriminate|]. congruence. }
      assert (HV : workingOn task (evs ++ [State v ts c]) v <-> In task ts).
      { rewrite workingOn_snoc. split.
        - intros [(ts' & c' & E & H)|(_ & H & _)]; [congruence|]. edestruct H; eauto.
        - left. eauto. }
      destruct (zin v (assigned s)) eqn:E1.
      + apply zin_In in E1. destruct (zin task ts) eqn:E2.
        * apply zin_In in E2. constructor; cbn [fst setNotices reqs latest assigned active].
          -- intros id. rewrite asked_snoc. apply I.
          -- rewrite lastReq_snoc. apply I.
          -- intros w. rewrite HA. apply I.
          -- intros w. rewrite HA. destruct (Z.eq_dec w v) as [->|N].
             ++ rewrite HV. destruct (zin v (active s)) eqn:E3.
                ** apply zin_In in E3. tauto.
                ** rewrite In_zadd. tauto.
             ++ rewrite HW by auto. rewrite <- (n_active _ _ I w).
                destruct (zin v (active s)); [tauto|]. rewrite In_zadd. tauto.
        * apply zin_false in E2. destruct (zin v (active s)) eqn:E3.
          -- constructor; cbn [fst setNotices reqs latest assigned active].
             ++ intros id. rewrite asked_snoc. apply I.
             ++ rewrite lastReq_snoc. apply I.
             ++ intros w. rewrite HA. apply I.
             ++ intros w. rewrite HA, In_zrem. destruct (Z.eq_dec w v) as [->|N].
                ** rewrite HV. tauto.
                ** rewrite HW by auto. rewrite <- (n_active _ _ I w). tauto.
          -- apply zin_false in E3. constructor; cbn [fst].
             ++ intros id. rewrite asked_snoc. apply I.
             ++ rewrite lastReq_snoc. apply I.
             ++ intros w. rewrite HA. apply I.
             ++ intros w. rewrite HA. destruct (Z.eq_dec w v) as [->|N].
                ** rewrite HV. tauto.
                ** rewrite HW by auto. apply I.
      + apply zin_false in E1. constructor; cbn [fst].
        * intros id. rewrite asked_snoc. apply I.
        * rewrite lastReq_snoc. apply I.
        * intros w. rewrite HA. apply I.
        * intros w. rewrite HA. destruct (Z.eq_dec w v) as [->|N].
          -- rewrite HV. tauto.
          -- rewrite HW by auto. apply I.
    - apply (ninv_frame _ _ s); auto; try discriminate; cbn [TaskBaseModel.step fst];
        unfold entityConfiguration;
        destruct (match eligible with [] => true | _ => _ end); reflexivity.
    - cbn [TaskBaseModel.step]. destruct (request_frame s q u) as (F1 & F2 & F3 & F4 & _).
      cbn [setReqs reqs latest assigned active] in *. constructor.
      + intros id. rewrite F1, asked_snoc, zget_set, (n_reqs _ _ I).
        rewrite Z.eqb_sym. reflexivity.
      + rewrite F2, lastReq_snoc. reflexivity.
      + intros w. rewrite F3, assignedTo_other by discriminate. apply I.
      + intros w. rewrite F4, assignedTo_other, workingOn_other by discriminate. apply I.
    - destruct (step_frame s (Lanes l)) as (F1 & F2 & F3 & F4 & _).
      apply (ninv_frame _ _ s); auto; discriminate.
    - cbn [TaskBaseModel.step fst]. unfold automationResponse.
      pose proof (n_reqs _ _ I id) as R.
      destruct (zget (reqs s) id) as [q|] eqn:E.
      + symmetry in R. destruct (q_sandbox q) eqn:SB.
        * assert (N : forall w, ~ reassigns evs (Response id ms) w).
          { intros w (id' & ms' & q' & E1 & E2 & E3 & _). injection E1 as <- <-. congruence. }
          assert (HA : forall w, assignedTo task (evs ++ [Response id ms]) w <-> assignedTo task evs w).
          { intros w. rewrite assignedTo_snoc. split.
            - intros [(id' & ms' & q' & ts & E1 & E2 & E3 & _)|(H & _)]; auto.
              injection E1 as <- <-. congruence.
            - intros H. right. auto. }
          assert (HW : forall w, workingOn task (evs ++ [Response id ms]) w <-> workingOn task evs w).
          { intros w. rewrite workingOn_snoc. split.
            - intros [(ts & c & E1 & _)|(H & _)]; [discriminate|auto].
            - intros H. right. repeat split; auto; discriminate. }
          constructor; cbn [setReqs reqs latest assigned active].
          -- intros j. rewrite asked_snoc, zget_del, (n_reqs _ _ I), Z.eqb_sym. reflexivity.
          -- rewrite lastReq_snoc. apply I.
          -- intros w. rewrite HA. apply I.
          -- intros w. rewrite HA, HW. apply I.
        * constructor; cbn [setReqs setAssigned reqs latest assigned active].
          -- intros j. rewrite asked_snoc, zget_del, (n_reqs _ _ I), Z.eqb_sym. reflexivity.
          -- rewrite lastReq_snoc. apply I.
          -- intros w. rewrite in_fold_add, in_fold_rem, assignedTo_snoc, (n_assigned _ _ I w). split.
             ++ intros [(H1 & H2)|(ts & H1 & H2)].
                ** right. split; auto. intros (id' & ms' & q' & E1 & E2 & E3 & E4).
                   injection E1 as <- <-. auto.
                ** left. exists id, ms, q, ts. auto.
             ++ intros [(id' & ms' & q' & ts & E1 & E2 & E3 & H1 & H2)|(H1 & H2)].
                ** right. injection E1 as <- <-. eauto.
                ** left. split; auto. intros H. apply H2. exists id, ms, q. auto.
          -- intros w. rewrite in_fold_rem, assignedTo_snoc, workingOn_snoc, (n_active _ _ I w). split.
             ++ intros ((H1 & H2) & H3).
                assert (~ reassigns evs (Response id ms) w).
                { intros (id' & ms' & q' & E1 & E2 & E3 & E4). injection E1 as <- <-. auto. }
                split; right; repeat split; auto; discriminate.
             ++ intros (HA & [(ts & c & E1 & _)|(H1 & _ & H2)]); [discriminate|].
                assert (N : ~ In w (map fst ms)).
                { intros H. apply H2. exists id, ms, q. auto. }
                repeat split; auto.
                destruct HA as [(id' & ms' & q' & ts & E1 & _ & _ & H3 & _)|(H3 & _)]; auto.
                injection E1 as <- <-. destruct N. apply (in_map fst) in H3. exact H3.
      + symmetry in R.
        assert (N : forall w, ~ reassigns evs (Response id ms) w).
        { intros w (id' & ms' & q' & E1 & E2 & _). injection E1 as <- <-. congruence. }
        constructor.
        * intros j. rewrite asked_snoc, (n_reqs _ _ I). destruct (id =? j) eqn:Q; auto.
          apply Z.eqb_eq in Q. subst j. exact R.
        * rewrite lastReq_snoc. apply I.
        * intros w. rewrite assignedTo_snoc, (n_assigned _ _ I w). split; auto.
          intros [(id' & ms' & q' & ts & E1 & E2 & _)|(H & _)]; auto. congruence.
        * intros w. rewrite assignedTo_snoc, workingOn_snoc, (n_active _ _ I w). split.
          -- intros (H1 & H2). split; right; repeat split; auto; discriminate.
          -- intros ([(id' & ms' & q' & ts & E1 & E2 & _)|(H & _)] &
                     [(ts' & c & E3 & _)|(H1 & _)]); auto; congruence.
    - destruct (step_frame s (Implement i)) as (F1 & F2 & F3 & F4 & _).
      apply (ninv_frame _ _ s); auto; discriminate.
    - destruct (step_frame s (Routes id t v rs)) as (F1 & F2 & F3 & F4 & _).
      apply (ninv_frame _ _ s); auto; discriminate.
  Qed.

  Lemma ninv_init n : ninv [] (init n).
  Proof.
    constructor; cbn; auto.
    - intros v. split; [intros []|]. intros (a & id & ms & b & q & ts & E & _). destruct a; discriminate.
    - intros v. split; [intros []|]. intros ((a & id & ms & b & q & ts & E & _) & _).
      destruct a; discriminate.
  Qed.

  Lemma ninv_run n evs : ninv evs (fst (run (init n) evs)).
  Proof.
    induction evs as [|e evs IH] using rev_ind; [apply ninv_init|].
    rewrite run_snoc. cbn [fst]. apply ninv_step, IH.
  Qed.

  (** Each step of a history is a step of the model from a state with the invariant. *)
  Lemma hist_step n evs t1 e o t2 :
    snd (run (init n) evs) = t1 ++ (e, o) :: t2 ->
    o = snd (step (fst (run (init n) (map fst t1))) e) /\
    snd (run (init n) (map fst t1)) = t1.
  Proof.
    intros H. apply run_split in H. destruct H as (s & H1 & _ & H3). cbn [fst snd] in *.
    rewrite H1. split; auto.
  Qed.

  (** Which notices are sent on a vehicle's report. *)
  Lemma state_exact n (t1 : list (ev * list out)) v ts c :
    let evs := map fst t1 in
    let s := fst (run (init n) evs) in
    let o := snd (step s (State v ts c)) in
    (assignedTo task evs v -> In task ts -> ~ workingOn task evs v -> o = [Active v]) /\
    (assignedTo task evs v -> ~ In task ts -> workingOn task evs v ->
       exists vs, o = [Complete vs] /\ forall x, In x vs <-> assignedTo task evs x) /\
    ((~ assignedTo task evs v \/ (In task ts <-> workingOn task evs v)) -> o = []).
  Proof.
    cbn zeta. pose proof (ninv_run n (map fst t1)) as I.
    pose proof (n_assigned _ _ I v) as A. pose proof (n_active _ _ I v) as B.
    cbn [TaskBaseModel.step]. unfold entityState.
    destruct (zin v (assigned _)) eqn:E1; [apply zin_In in E1|apply zin_false in E1].
    - destruct (zin task ts) eqn:E2; [apply zin_In in E2|apply zin_false in E2].
      + destruct (zin v (active _)) eqn:E3; [apply zin_In in E3|apply zin_false in E3]; cbn [snd];
          repeat split; intros; try tauto.
      + destruct (zin v (active _)) eqn:E3; [apply zin_In in E3|apply zin_false in E3]; cbn [snd].
        * repeat split; intros; try tauto. eexists. split; [reflexivity|].
          intros x. rewrite ordv_in. apply I.
        * repeat split; intros; try tauto.
    - repeat split; intros; try tauto.
  Qed.

  (** No other message leads to a notice. *)
  Definition quiet (o : out) : bool :=
    match o with Active _ | Complete _ => false | _ => true end.

  Lemma quiet_fold {A} (f : st * list out -> A -> st * list out) l :
    (forall a x, forallb quiet (snd a) = true -> forallb quiet (snd (f a x)) = true) ->
    forall a, forallb quiet (snd a) = true -> forallb quiet (snd (fold_left f l a)) = true.
  Proof.
    intros H. induction l as [|x l IH]; intros a Q; cbn [fold_left]; auto.
  Qed.
  Lemma quiet_lane a x : forallb quiet (snd a) = true -> forallb quiet (snd (lane a x)) = true.
  Proof.
    destruct x as ((k, v), l). intros Q. unfold lane. cbn zeta. destruct (zget _ k); auto.
    cbn [snd]. rewrite forallb_app, Q. reflexivity.
  Qed.
  Lemma quiet_optionRoute k a r :
    forallb quiet (snd a) = true -> forallb quiet (snd (optionRoute k a r)) = true.
  Proof.
    intros Q. unfold optionRoute. destruct (zget _ k); auto.
    cbn [snd]. rewrite forallb_app, Q. destruct (allDone _); reflexivity.
  Qed.
  Lemma quiet_implementationRoute q k v i a r :
    forallb quiet (snd a) = true ->
    forallb quiet (snd (implementationRoute task transActive coloc q k v i a r)) = true.
  Proof.
    intros Q. unfold implementationRoute. destruct (zget _ k); auto.
    destruct (zin (r_id r) _); auto. cbn zeta. destruct (zrem _ _); auto.
    destruct (zin v _).
    - destruct (addRoutes _ _ _ _ _ _ _ _ _) as (d, ps). destruct (finish _ _); auto.
      cbn [snd]. rewrite forallb_app, Q. reflexivity.
    - cbn [snd]. rewrite forallb_app, Q. reflexivity.
  Qed.
  Lemma quiet_step s e :
    (forall v ts c, e <> State v ts c) -> forallb quiet (snd (step s e)) = true.
  Proof.
    intros H. destruct e as [v ts c|v|q u|l|id ms|i|id t v rs]; cbn [TaskBaseModel.step snd]; auto.
    - edestruct H; reflexivity.
    - unfold automationRequest. cbn zeta. destruct (zin task _); auto.
      destruct (candidate _ _ _) as [(((v, w), k), o)|].
      + unfold restart. destruct (match zget (o_plans o) firstRoute with Some r => _ | None => _ end);
          reflexivity.
      + unfold fresh. destruct (u_now u); reflexivity.
    - unfold lanes. destruct (zget _ _); auto. apply quiet_fold; auto. intros; apply quiet_lane; auto.
    - unfold implementationRequest. destruct (_ =? _); auto. destruct (zget _ _); auto.
    - unfold routes. destruct (_ =? _); auto. destruct (zget _ _) as [[[|] k]|]; auto.
      + unfold implementationRoutes. destruct (zget (reqs s) _) as [q|]; auto.
        destruct (zin id _); auto. cbn zeta.
        destruct (zget _ k); auto. destruct (zget _ id); auto.
        match goal with |- context [fold_left ?f rs ?a] =>
          assert (F : forallb quiet (snd (fold_left f rs a)) = true) by
            (apply quiet_fold; auto; intros; apply quiet_implementationRoute; auto);
          destruct (fold_left f rs a) as (s3, l) end.
        exact F.
      + unfold optionRoutes. destruct (zin id _); auto. apply quiet_fold; auto.
        intros; apply quiet_optionRoute; auto.
  Qed.
End Notice.

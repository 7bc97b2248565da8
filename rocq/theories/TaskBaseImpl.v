(** Implementation of an option: the routes kept, the fold over a response, and general facts about
    the state of a task service. *)
From Coq Require Import List ZArith Bool Lia Sorted.
From Verif Require Import ZMap Run TaskBaseModel TaskBaseSpec TaskBaseNotice TaskBaseInv TaskBaseStep
  TaskBaseWps.
Import ListNotations.
Open Scope list_scope.
Open Scope Z_scope.

(** ** Routes by number *)

Definition byNumber (l : list (Z * route)) : Prop :=
  StronglySorted (fun a b => fst a < fst b) l /\ forall k r, In (k, r) l -> r_id r = k.

Lemma in_putPlan (l : list (Z * route)) (k : Z) (r : route) (j : Z) (x : route) :
  StronglySorted (fun a b => fst a < fst b) l ->
  (In (j, x) (putPlan l k r) <-> (j = k /\ x = r) \/ (j <> k /\ In (j, x) l)).
Proof.
  induction l as [|(a, y) l IH]; intros S; cbn [putPlan].
  - cbn. intuition congruence.
  - inversion S as [|? ? S1 F]; subst. rewrite Forall_forall in F.
    assert (F' : forall b z, In (b, z) l -> a < b) by (intros b z Q; apply (F (b, z) Q)).
    destruct (k =? a) eqn:E1; [apply Z.eqb_eq in E1; subst a|apply Z.eqb_neq in E1].
    + cbn [In]. split.
      * intros [Q|Q]; [injection Q as <- <-; auto|]. right. specialize (F' _ _ Q). split; [lia|auto].
      * intros [(-> & ->)|(N & [Q|Q])]; auto. injection Q as <- <-. lia.
    + destruct (k <? a) eqn:E2; [apply Z.ltb_lt in E2|apply Z.ltb_ge in E2].
      * cbn [In]. split.
        -- intros [Q|[Q|Q]]; [injection Q as <- <-; auto|injection Q as <- <-; right; split; [lia|auto]|].
           right. specialize (F' _ _ Q). split; [lia|auto].
        -- intros [(-> & ->)|(N & Q)]; auto.
      * cbn [In]. rewrite IH by auto. split.
        -- intros [Q|[Q|(N & Q)]]; auto. injection Q as <- <-. right. split; [lia|auto].
        -- intros [Q|(N & [Q|Q])]; auto.
Qed.

Lemma putPlan_byNumber (l : list (Z * route)) (r : route) :
  byNumber l -> byNumber (putPlan l (r_id r) r).
Proof.
  intros (S & H). split.
  - clear H. induction l as [|(a, y) l IH]; cbn [putPlan]; [repeat constructor|].
    inversion S as [|? ? S1 F]; subst.
    destruct (r_id r =? a) eqn:E1; [apply Z.eqb_eq in E1|apply Z.eqb_neq in E1].
    + constructor; auto. rewrite Forall_forall in *. intros (b, z) Q. cbn [fst].
      specialize (F _ Q). cbn in F. lia.
    + destruct (r_id r <? a) eqn:E2; [apply Z.ltb_lt in E2|apply Z.ltb_ge in E2].
      * constructor; auto. constructor; [cbn; lia|]. rewrite Forall_forall in *. intros (b, z) Q.
        specialize (F _ Q). cbn in *. lia.
      * constructor; auto. rewrite Forall_forall in *. intros (b, z) Q. cbn [fst].
        apply in_putPlan in Q; auto. destruct Q as [(-> & _)|(_ & Q)]; [lia|apply (F _ Q)].
  - intros k x Q. apply in_putPlan in Q; auto. destruct Q as [(-> & ->)|(_ & Q)]; auto.
Qed.

Definition putAll (base : list (Z * route)) (rs : list route) : list (Z * route) :=
  fold_left (fun a r => putPlan a (r_id r) r) rs base.

Lemma putAll_byNumber (rs : list route) : forall base, byNumber base -> byNumber (putAll base rs).
Proof.
  induction rs as [|r rs IH]; intros base B; cbn; auto. apply IH, putPlan_byNumber, B.
Qed.

Lemma in_putAll (rs : list route) : forall base k x, byNumber base -> NoDup (map r_id rs) ->
  (In (k, x) (putAll base rs) <->
   (In x rs /\ k = r_id x) \/ (In (k, x) base /\ ~ In k (map r_id rs))).
Proof.
  induction rs as [|r rs IH]; intros base k x B N; cbn [putAll fold_left].
  - cbn. tauto.
  - cbn [map] in *. inversion N as [|? ? N1 N2]; subst.
    fold (putAll (putPlan base (r_id r) r) rs).
    rewrite IH by (auto using putPlan_byNumber). rewrite in_putPlan by apply B. cbn [In]. split.
    + intros [(Q1 & Q2)|([(-> & ->)|(Q1 & Q2)] & Q3)]; auto. right. split; auto. intuition.
    + intros [([->|Q1] & Q2)|(Q1 & Q2)]; auto.
      * right. subst k. split; [auto|]. exact N1.
      * right. split; [right; split; auto|]; intuition.
Qed.

Lemma byNumber_nil : byNumber [].
Proof. split; [constructor|intros k r []]. Qed.

Lemma putAll_overlay prepared rs :
  NoDup (map r_id prepared) -> NoDup (map r_id rs) ->
  overlay prepared rs (map snd (putAll (putAll [] prepared) rs)).
Proof.
  intros N1 N2.
  assert (B0 : byNumber (putAll [] prepared)) by (apply putAll_byNumber, byNumber_nil).
  assert (B1 : byNumber (putAll (putAll [] prepared) rs)) by (apply putAll_byNumber, B0).
  split.
  - destruct B1 as (S & H). revert H. induction S as [|(k, r) l S1 IH F]; intros H; cbn [map]; constructor.
    + apply IH. intros j x Q. apply H. cbn; auto.
    + rewrite Forall_forall in *. intros x Q. apply in_map_iff in Q. destruct Q as ((j, y) & <- & Q).
      cbn [snd]. rewrite (H k r), (H j y) by (cbn; auto). apply (F _ Q).
  - intros r. rewrite in_map_iff. split.
    + intros ((k, x) & E & Q). cbn in E. subst x. apply in_putAll in Q; auto.
      destruct Q as [(Q & _)|(Q1 & Q2)]; auto. apply in_putAll in Q1; auto using byNumber_nil.
      destruct Q1 as [(Q1 & ->)|([] & _)]. auto.
    + intros [Q|(Q1 & Q2)]; exists (r_id r, r); (split; [reflexivity|]); apply in_putAll; auto.
      right. split; auto. apply in_putAll; auto using byNumber_nil.
Qed.

(** ** General facts *)

Section Impl.
  Context (task : Z) (eligible : list Z) (transActive : bool) (coloc : Z -> Z -> bool).
  Context (restCost : Z -> list wp -> Z).
  Context (ordv : list Z -> list Z) (ordw : zmap Z -> list (Z * Z)).
  Context (ordw_in : forall m x, In x (ordw m) -> In x m).
  Notation step := (step task eligible transActive coloc restCost ordv ordw).
  Notation run := (run step).

  (** Steps along a part of a history. *)
  Definition at_ (n : Z) (t : list (ev * list out)) : st := fst (run (init n) (map fst t)).

  Lemma hist_next n evs a e o b :
    snd (run (init n) evs) = a ++ (e, o) :: b ->
    at_ n (a ++ [(e, o)]) = fst (step (at_ n a) e) /\ o = snd (step (at_ n a) e).
  Proof.
    intros H. apply run_split in H. destruct H as (s & H1 & H2 & H3). cbn [fst snd] in *.
    unfold at_. rewrite map_app. cbn [map fst]. rewrite H2, H1. cbn [fst]. auto.
  Qed.

  Lemma hist_ind n evs (P : list (ev * list out) -> st -> Prop) t0 mid t3 :
    snd (run (init n) evs) = t0 ++ mid ++ t3 ->
    P [] (at_ n t0) ->
    (forall a e o b, mid = a ++ (e, o) :: b -> P a (at_ n (t0 ++ a)) ->
       o = snd (step (at_ n (t0 ++ a)) e) ->
       P (a ++ [(e, o)]) (fst (step (at_ n (t0 ++ a)) e))) ->
    P mid (at_ n (t0 ++ mid)).
  Proof.
    intros H H0 HS.
    assert (G : forall a b, mid = a ++ b -> P a (at_ n (t0 ++ a))).
    { induction a as [|(e, o) a IH] using rev_ind; intros b E; [rewrite app_nil_r; auto|].
      rewrite <- app_assoc in E. cbn [app] in E. pose proof H as H'. rewrite E in H'.
      rewrite <- app_assoc, app_assoc in H'. cbn [app] in H'. apply hist_next in H'.
      destruct H' as (H1 & H2). rewrite app_assoc, H1. eapply HS; eauto. }
    apply (G mid []). rewrite app_nil_r. reflexivity.
  Qed.

  (** Invariants of all histories: request numbers, who has a configuration, who may have worked on
      the task, and what the route requests are for. *)
  Record ginv (evs : list ev) (s : st) : Prop := {
    g_fresh : forall id x, zget (rtype s) id = Some x -> id < nextId s;
    g_pend : forall id, In id (pendImpl s) -> id < nextId s;
    g_conf : forall v, In (Config v) evs -> eligible = [] \/ In v eligible -> In v (configs s);
    g_last : forall v, zget (lastWp s) v <> None -> exists ts c, In (State v ts c) evs /\ In task ts;
    g_impl : forall id i, zget (implReq s) id = Some i ->
      In (Implement i) evs /\ i_task i = task /\ zget (rtype s) id = Some (true, i_option i)
  }.

  Lemma ginv_prog evs e s s' :
    ginv evs s -> rtype s' = rtype s -> nextId s' = nextId s ->
    (forall id, In id (pendImpl s') -> In id (pendImpl s)) ->
    (forall id i, zget (implReq s') id = Some i -> zget (implReq s) id = Some i) ->
    configs s' = configs s -> (forall v, e <> Config v) ->
    (forall v, zget (lastWp s') v <> None ->
       zget (lastWp s) v <> None \/ exists ts c, e = State v ts c /\ In task ts) ->
    ginv (evs ++ [e]) s'.
  Proof.
    intros G E1 E2 E3 E4 E5 E6 E7. constructor.
    - rewrite E1, E2. apply G.
    - intros id Q. rewrite E2. apply (g_pend _ _ G). auto.
    - intros v Q. rewrite E5. apply in_app_or in Q. destruct Q as [Q|[Q|[]]]; [|edestruct E6; eauto].
      apply (g_conf _ _ G); auto.
    - intros v Q. apply E7 in Q. destruct Q as [Q|(ts & c & -> & Q)].
      + apply (g_last _ _ G) in Q. destruct Q as (ts & c & Q1 & Q2). exists ts, c.
        split; auto. apply in_or_app; auto.
      + exists ts, c. split; auto. apply in_or_app. cbn; auto.
    - intros id i Q. apply E4 in Q. apply (g_impl _ _ G) in Q. rewrite E1.
      destruct Q as (Q1 & Q2). split; auto. apply in_or_app; auto.
  Qed.

  Lemma ginv_lane evs a x : ginv evs (fst a) -> ginv evs (fst (lane a x)).
  Proof.
    destruct x as ((k, v), l), a as (s, o). cbn [fst]. intros G.
    assert (G1 : ginv evs (newId s false k)).
    { constructor; cbn [newId rtype nextId pendImpl configs lastWp implReq].
      - intros id x. rewrite zget_set. destruct (id =? nextId s) eqn:E.
        + apply Z.eqb_eq in E. intros _. lia.
        + intros Q. apply (g_fresh _ _ G) in Q. lia.
      - intros id Q. apply (g_pend _ _ G) in Q. lia.
      - apply G.
      - apply G.
      - intros id i Q. apply (g_impl _ _ G) in Q. destruct Q as (Q1 & Q2 & Q3). repeat split; auto.
        rewrite zget_set_other; auto. apply (g_fresh _ _ G) in Q3. lia. }
    unfold lane. cbn [fst snd]. destruct (zget (opts (newId s false k)) k); auto.
    cbn [fst]. destruct G1 as [H1 H2 H3 H4 H5]. constructor; cbn in *; auto.
  Qed.

  Lemma ginv_lanes evs l : forall a, ginv evs (fst a) -> ginv evs (fst (fold_left lane l a)).
  Proof. induction l as [|x l IH]; intros a G; cbn [fold_left]; auto. apply IH, ginv_lane, G. Qed.

  Lemma ginv_step evs s e : ginv evs s -> ginv (evs ++ [e]) (fst (step s e)).
  Proof.
    intros G. destruct e as [v ts c|v|q u|l|id ms|i|id tk v rs]; cbn [TaskBaseModel.step].
    - assert (D : forall s', rtype s' = rtype s -> nextId s' = nextId s -> pendImpl s' = pendImpl s ->
               implReq s' = implReq s -> configs s' = configs s ->
               (forall v0, zget (lastWp s') v0 <> None -> zget (lastWp s) v0 <> None \/
                   (v0 = v /\ In task ts)) -> ginv (evs ++ [State v ts c]) s').
      { intros s' E1 E2 E3 E4 E5 E6. eapply ginv_prog; eauto; try congruence; try discriminate.
        intros v0 Q. apply E6 in Q. destruct Q as [Q|(-> & Q)]; eauto. }
      unfold entityState. destruct (zin v (assigned s)); [|apply D; auto].
      destruct (zin task ts) eqn:Z.
      + apply zin_In in Z. apply D; auto. intros v0. cbn [fst setNotices lastWp]. rewrite zget_set.
        destruct (v0 =? v) eqn:E; auto. apply Z.eqb_eq in E. auto.
      + destruct (zin v (active s)); [|apply D; auto]. apply D; auto. intros v0.
        cbn [fst setNotices lastWp]. intros Q. left. intros R. apply Q.
        destruct (Z.eq_dec v0 v) as [->|N]; [apply zget_del_same|rewrite zget_del_other; auto].
    - cbn [fst]. unfold entityConfiguration.
      assert (NE : forall s', rtype s' = rtype s -> nextId s' = nextId s -> pendImpl s' = pendImpl s ->
               implReq s' = implReq s -> lastWp s' = lastWp s ->
               (forall v0, In v0 (configs s) -> In v0 (configs s')) ->
               (eligible = [] \/ In v eligible -> In v (configs s')) -> ginv (evs ++ [Config v]) s').
      { intros s' E1 E2 E3 E4 E5 E6 E7. constructor; rewrite ?E1, ?E2, ?E3, ?E4, ?E5; try apply G.
        - intros v0 Q EL. apply in_app_or in Q. destruct Q as [Q|[Q|[]]].
          + apply E6, (g_conf _ _ G); auto.
          + injection Q as ->. auto.
        - intros v0 Q. apply (g_last _ _ G) in Q. destruct Q as (ts & c & Q1 & Q2). exists ts, c.
          split; auto. apply in_or_app; auto.
        - intros id i Q. apply (g_impl _ _ G) in Q. destruct Q as (Q1 & Q2). split; auto.
          apply in_or_app; auto. }
      destruct (match eligible with [] => true | _ => zin v eligible end) eqn:EL.
      + apply NE; try reflexivity; cbn [setConfigs configs]; intros; apply In_zadd; auto.
      + apply NE; auto. intros [->|Q]; [discriminate|]. destruct eligible; [discriminate|].
        apply zin_false in EL. contradiction.
    - pose proof (request_frame task restCost ordw s q u) as F.
      destruct F as (_ & _ & _ & _ & F5 & F6). cbn [setReqs lastWp configs] in *.
      assert (R : rtype (fst (automationRequest task restCost ordw s q u)) = rtype s /\
                  nextId (fst (automationRequest task restCost ordw s q u)) = nextId s /\
                  (forall id, In id (pendImpl (fst (automationRequest task restCost ordw s q u))) ->
                              In id (pendImpl s)) /\
                  (forall id i, zget (implReq (fst (automationRequest task restCost ordw s q u))) id = Some i ->
                              zget (implReq s) id = Some i)).
      { unfold automationRequest. cbn zeta. destruct (zin task (q_tasks q)); [|auto].
        destruct (candidate _ _ _) as [(((v, w), k), o)|].
        - unfold restart. destruct (match zget (o_plans o) firstRoute with Some _ => _ | None => _ end);
            cbn; auto.
        - cbn. repeat split; auto; try tauto; try discriminate. }
      destruct R as (R1 & R2 & R3 & R4).
      eapply ginv_prog; eauto; try discriminate. intros v Q. rewrite F5 in Q. auto.
    - unfold lanes. destruct (zget (reqs s) _).
      + apply ginv_lanes. cbn [fst]. eapply ginv_prog; eauto; try discriminate.
      + cbn [fst]. eapply ginv_prog; eauto; try discriminate.
    - cbn [fst]. unfold automationResponse. destruct (zget (reqs s) id) as [q|].
      + destruct (q_sandbox q); eapply ginv_prog; eauto; try discriminate; auto.
      + eapply ginv_prog; eauto; try discriminate.
    - unfold implementationRequest. destruct (i_task i =? task) eqn:T.
      2:{ cbn [fst]. eapply ginv_prog; eauto; try discriminate. }
      destruct (zget (opts s) (i_option i)).
      2:{ cbn [fst]. eapply ginv_prog; eauto; try discriminate. }
      cbn zeta. cbn [fst]. apply Z.eqb_eq in T. constructor;
        cbn [setTrans setPending setOpts newId rtype nextId pendImpl configs lastWp implReq].
      + intros id x. rewrite zget_set. destruct (id =? nextId s) eqn:E.
        * apply Z.eqb_eq in E. intros _. lia.
        * intros Q. apply (g_fresh _ _ G) in Q. lia.
      + intros id Q. apply In_zadd in Q. destruct Q as [->|Q]; [lia|]. apply (g_pend _ _ G) in Q. lia.
      + intros v Q. apply in_app_or in Q. destruct Q as [Q|[Q|[]]]; [|discriminate].
        apply (g_conf _ _ G); auto.
      + intros v Q. apply (g_last _ _ G) in Q. destruct Q as (ts & c & Q1 & Q2). exists ts, c.
        split; auto. apply in_or_app; auto.
      + intros id j. rewrite !zget_set. destruct (id =? nextId s) eqn:E.
        * intros Q. injection Q as <-. repeat split; auto. apply in_or_app. cbn; auto.
        * intros Q. apply (g_impl _ _ G) in Q. destruct Q as (Q1 & Q2). split; auto.
          apply in_or_app; auto.
    - pose proof (routes_frame task transActive coloc s id tk v rs) as F.
      destruct F as (_ & _ & _ & _ & F5 & F6).
      assert (R : rtype (fst (routes task transActive coloc s id tk v rs)) = rtype s /\
                  nextId (fst (routes task transActive coloc s id tk v rs)) = nextId s /\
                  (forall j, In j (pendImpl (fst (routes task transActive coloc s id tk v rs))) ->
                              In j (pendImpl s)) /\
                  (forall j i, zget (implReq (fst (routes task transActive coloc s id tk v rs))) j = Some i ->
                              zget (implReq s) j = Some i)).
      { unfold routes. destruct (tk =? task); [|auto].
        destruct (zget (rtype s) id) as [[[|] k]|]; [| |auto].
        - unfold implementationRoutes. destruct (zget (reqs s) _); [|auto].
          destruct (zin id (pendImpl s)); [|auto]. cbn zeta. cbn [setPending opts implReq].
          destruct (zget (opts s) k); [destruct (zget (implReq s) id)|].
          + match goal with |- context [fold_left ?f rs ?a] =>
              pose proof (fold_prog f k rs (implementationRoute_prog task eligible transActive coloc restCost ordv _ k v _) a) as P;
              destruct (fold_left f rs a) as (s3, o3) end.
            cbn [fst] in *. destruct P as (P1 & P2 & P3 & P4 & P5 & _).
            cbn [setPending setOpts rtype nextId pendImpl implReq] in *.
            repeat split; auto.
            * intros j Q. rewrite P4 in Q. apply In_zrem in Q. tauto.
            * intros j i0 Q. rewrite P5 in Q. destruct (Z.eq_dec j id) as [->|N].
              -- rewrite zget_del_same in Q. discriminate.
              -- rewrite zget_del_other in Q; auto.
          + cbn. repeat split; auto. intros j Q. apply In_zrem in Q. tauto.
          + cbn. repeat split; auto. intros j Q. apply In_zrem in Q. tauto.
        - unfold optionRoutes. destruct (zin id (pendOpt s)); [|auto].
          match goal with |- context [fold_left ?f rs ?a] =>
              pose proof (fold_prog f k rs (optionRoute_prog task eligible coloc restCost ordv k) a) as P;
              destruct (fold_left f rs a) as (s3, o3) end.
          cbn [fst] in *. destruct P as (P1 & P2 & P3 & P4 & P5 & _). cbn in *.
          rewrite P1, P2, P4, P5. auto. }
      destruct R as (R1 & R2 & R3 & R4).
      eapply ginv_prog; eauto; try discriminate. intros v0 Q. rewrite F5 in Q. auto.
  Qed.

  Lemma ginv_run n evs : ginv evs (fst (run (init n) evs)).
  Proof.
    induction evs as [|e evs IH] using rev_ind.
    - constructor; cbn; try discriminate; try tauto.
    - rewrite run_snoc. cbn [fst]. apply ginv_step, IH.
  Qed.

  (** A request that cannot resume the task makes the options anew. *)
  Lemma anew_fresh evs s q u :
    ginv evs s -> anew task evs q ->
    let s1 := setReqs s (zset (reqs s) (q_id q) q) (q_id q) in
    step s (Request q u) = fresh s1 q u.
  Proof.
    intros G (HT & H). cbn [TaskBaseModel.step]. unfold automationRequest. cbn zeta.
    apply zin_In in HT. rewrite HT. unfold candidate. destruct (q_redo q); [reflexivity|].
    destruct H as [H|H]; [discriminate|]. cbn [setReqs lastWp optOf opts].
    destruct (find _ (ordw (lastWp s))) as [(v, w)|] eqn:F; [|reflexivity].
    apply find_some in F. destruct F as (F1 & F2). cbn [fst] in F2. apply zin_In in F2.
    apply ordw_in in F1. destruct (g_last _ _ G v) as (ts & c & Q1 & Q2).
    - intros Q. apply zget_none in Q. apply Q. apply (in_map fst) in F1. exact F1.
    - edestruct H; eauto.
  Qed.
End Impl.

(** Every step keeps the account of outstanding route requests. *)
From Coq Require Import List ZArith Bool Lia.
From Verif Require Import ZMap Run TaskBaseModel TaskBaseSpec TaskBaseNotice TaskBaseInv.
Import ListNotations.
Open Scope list_scope.
Open Scope Z_scope.

(** Routes with the numbers [ids] of option [k] were received; nothing was asked. *)
Definition prog (k : Z) (s s' : st) (ids : list Z) : Prop :=
  rtype s' = rtype s /\ nextId s' = nextId s /\ pendOpt s' = pendOpt s /\
  pendImpl s' = pendImpl s /\ implReq s' = implReq s /\
  (forall j, j <> k -> zget (opts s') j = zget (opts s) j) /\
  match zget (opts s) k with
  | None => zget (opts s') k = None
  | Some op => exists op', zget (opts s') k = Some op' /\
                 forall x, In x (o_pending op') <-> In x (o_pending op) /\ ~ In x ids
  end.

Lemma prog_refl k s : prog k s s [].
Proof.
  repeat split; auto. destruct (zget (opts s) k) eqn:E; auto.
  exists o. split; auto. intros x. cbn. tauto.
Qed.

Lemma prog_trans k a b c i j : prog k a b i -> prog k b c j -> prog k a c (i ++ j).
Proof.
  intros (A1 & A2 & A3 & A4 & A5 & A6 & A7) (B1 & B2 & B3 & B4 & B5 & B6 & B7).
  unfold prog. repeat split; try congruence.
  - intros x N. rewrite B6, A6; auto.
  - destruct (zget (opts a) k) as [op|].
    + destruct A7 as (op1 & A7 & A8). rewrite A7 in B7. destruct B7 as (op2 & B7 & B8).
      exists op2. split; auto. intros x. rewrite B8, A8, in_app_iff. tauto.
    + rewrite A7 in B7. exact B7.
Qed.

Lemma fold_prog (f : st * list out -> route -> st * list out) k l :
  (forall a r, prog k (fst a) (fst (f a r)) [r_id r]) ->
  forall a, prog k (fst a) (fst (fold_left f l a)) (map r_id l).
Proof.
  intros H. induction l as [|x l IH]; intros a; cbn [fold_left map]; [apply prog_refl|].
  change (r_id x :: map r_id l) with ([r_id x] ++ map r_id l). eapply prog_trans; [apply H|apply IH].
Qed.

Definition noAsk (o : list out) : Prop := forall x, In x o -> isAsk x = false.
Lemma noAsk_app a b : noAsk a -> noAsk b -> noAsk (a ++ b).
Proof. intros A B x H. apply in_app_or in H. destruct H; auto. Qed.
Lemma noAsk_nil : noAsk [].
Proof. intros x []. Qed.
Lemma noAsk_one x : isAsk x = false -> noAsk [x].
Proof. intros H y [<-|[]]. exact H. Qed.

Lemma fold_noAsk (f : st * list out -> route -> st * list out) l :
  (forall a r, noAsk (snd a) -> noAsk (snd (f a r))) ->
  forall a, noAsk (snd a) -> noAsk (snd (fold_left f l a)).
Proof. intros H. induction l as [|x l IH]; intros a Q; cbn [fold_left]; auto. Qed.

Section Step.
  Context (task : Z) (eligible : list Z) (transActive : bool) (coloc : Z -> Z -> bool).
  Context (restCost : Z -> list wp -> Z).
  Context (ordv : list Z -> list Z) (ordw : zmap Z -> list (Z * Z)).
  Notation step := (step task eligible transActive coloc restCost ordv ordw).
  Notation run := (run step).

  Lemma prog_set k s op op' ids s' :
    zget (opts s) k = Some op ->
    rtype s' = rtype s -> nextId s' = nextId s -> pendOpt s' = pendOpt s ->
    pendImpl s' = pendImpl s -> implReq s' = implReq s ->
    (forall j, zget (opts s') j = if j =? k then Some op' else zget (opts s) j) ->
    (forall x, In x (o_pending op') <-> In x (o_pending op) /\ ~ In x ids) ->
    prog k s s' ids.
  Proof.
    intros G E1 E2 E3 E4 E5 E6 H. unfold prog. repeat split; auto.
    - intros j N. rewrite E6. apply Z.eqb_neq in N. rewrite N. reflexivity.
    - rewrite G. exists op'. split; [|auto]. rewrite E6, Z.eqb_refl. reflexivity.
  Qed.

  Lemma zrem_pending (x y : Z) l : In x (zrem y l) <-> In x l /\ ~ In x [y].
  Proof. rewrite In_zrem. cbn. intuition. Qed.
  Lemma kept_pending (x y : Z) l : ~ In y l -> (In x l <-> In x l /\ ~ In x [y]).
  Proof. intros N. cbn. intuition. subst. auto. Qed.

  Lemma optionRoute_prog k a r : prog k (fst a) (fst (optionRoute k a r)) [r_id r].
  Proof.
    unfold optionRoute. destruct (zget (opts (fst a)) k) as [op|] eqn:G.
    - cbn [fst]. destruct (zin (r_id r) (o_pending op)) eqn:Z.
      + eapply (prog_set k (fst a) op); try reflexivity; auto; [intros j; apply zget_set|].
        intros x. cbn [o_pending withPub withPending]. apply zrem_pending.
      + apply zin_false in Z. unfold prog. repeat split; auto. rewrite G.
        exists op. split; auto. intros x. apply kept_pending; auto.
    - unfold prog. repeat split; auto. rewrite G. auto.
  Qed.

  Lemma implementationRoute_prog q k v i a r :
    prog k (fst a) (fst (implementationRoute task transActive coloc q k v i a r)) [r_id r].
  Proof.
    unfold implementationRoute. destruct (zget (opts (fst a)) k) as [op|] eqn:G.
    - destruct (zin (r_id r) (o_pending op)) eqn:Z.
      + cbn zeta.
        destruct (zrem (r_id r) (o_pending op)) as [|y l] eqn:L.
        * assert (P : forall x, In x [] <-> In x (o_pending op) /\ ~ In x [r_id r]).
          { intros x. rewrite <- zrem_pending, L. tauto. }
          destruct (zin v (configs (fst a))).
          -- destruct (addRoutes _ _ _ _ _ _ _ _ _) as (d, ps).
             destruct (finish _ _).
             ++ eapply (prog_set k (fst a) op); try reflexivity; auto.
                ** intros j. cbn [setTrans setOpts opts fst]. rewrite !zget_set.
                   destruct (j =? k); reflexivity.
                ** exact P.
             ++ eapply (prog_set k (fst a) op); try reflexivity; auto.
                ** intros j. cbn [setTrans setOpts opts fst]. rewrite !zget_set.
                   destruct (j =? k); reflexivity.
                ** exact P.
          -- eapply (prog_set k (fst a) op); try reflexivity; auto; [intros j; apply zget_set|exact P].
        * eapply (prog_set k (fst a) op); try reflexivity; auto; [intros j; apply zget_set|].
          intros x. cbn [o_pending withPlans withPub withPending]. rewrite <- L. apply zrem_pending.
      + apply zin_false in Z. unfold prog. repeat split; auto. rewrite G.
        exists op. split; auto. intros x. apply kept_pending; auto.
    - unfold prog. repeat split; auto. rewrite G. auto.
  Qed.

  Lemma optionRoute_noAsk k a r : noAsk (snd a) -> noAsk (snd (optionRoute k a r)).
  Proof.
    intros H. unfold optionRoute. destruct (zget _ k); auto. cbn [snd]. apply noAsk_app; auto.
    destruct (allDone _); [apply noAsk_one; reflexivity|apply noAsk_nil].
  Qed.
  Lemma implementationRoute_noAsk q k v i a r :
    noAsk (snd a) -> noAsk (snd (implementationRoute task transActive coloc q k v i a r)).
  Proof.
    intros H. unfold implementationRoute. destruct (zget _ k); auto.
    destruct (zin (r_id r) _); auto. cbn zeta. destruct (zrem _ _); auto.
    destruct (zin v _).
    - destruct (addRoutes _ _ _ _ _ _ _ _ _) as (d, ps). destruct (finish _ _); auto.
      cbn [snd]. apply noAsk_app; auto. apply noAsk_one; reflexivity.
    - cbn [snd]. apply noAsk_app; auto. apply noAsk_one; reflexivity.
  Qed.

  (** A route request number that is used up. *)
  Lemma cinv_burn pre t s x : cinv task pre t s -> cinv task pre t (newId s (fst x) (snd x)).
  Proof.
    intros I.
    assert (RO : forall id y, zget (rtype s) id = Some y ->
                 zget (rtype (newId s (fst x) (snd x))) id = Some y).
    { intros id y Q. cbn [newId rtype]. rewrite zget_set_other; auto.
      apply (c_fresh _ _ _ _ I) in Q. lia. }
    constructor.
    - intros id y. cbn [newId rtype nextId]. rewrite zget_set. destruct (id =? nextId s) eqn:Q.
      + apply Z.eqb_eq in Q. lia.
      + intros H. apply (c_fresh _ _ _ _ I) in H. lia.
    - intros a e o b id v co l ET HI. destruct (c_ask _ _ _ _ I _ _ _ _ _ _ _ _ ET HI)
        as (k & op & Q1 & Q2 & Q3). exists k, op. repeat split; auto.
    - apply I.
    - apply I.
    - intros k op y HG HX. destruct (c_pending _ _ _ _ I _ _ _ HG HX)
        as (a & e1 & o1 & b & j & v1 & co1 & l1 & ET & Q2 & Q3 & Q4 & Q5).
      exists a, e1, o1, b, j, v1, co1, l1. repeat split; auto.
  Qed.

  Lemma lane_cinv pre t e a x :
    cinv task pre (t ++ [(e, snd a)]) (fst a) ->
    cinv task pre (t ++ [(e, snd (lane a x))]) (fst (lane a x)).
  Proof.
    destruct x as ((k, v), l), a as (s, o). cbn [fst snd]. intros I. unfold lane. cbn [fst snd].
    cbn [newId opts]. destruct (zget (opts s) k) as [op|] eqn:G.
    - cbn [fst snd]. eapply (cinv_ask task pre t e o s _ v true _ k op _ I G); try reflexivity.
      + intros y. cbn [o_pending withPub withAsk withPending]. rewrite in_addAll. auto.
      + repeat split.
    - cbn [fst snd]. apply (cinv_burn pre _ s (false, k)). exact I.
  Qed.

  Lemma lanes_cinv pre t e l : forall a,
    cinv task pre (t ++ [(e, snd a)]) (fst a) ->
    cinv task pre (t ++ [(e, snd (fold_left lane l a))]) (fst (fold_left lane l a)).
  Proof.
    induction l as [|x l IH]; intros a I; cbn [fold_left]; auto. apply IH, lane_cinv, I.
  Qed.

  Lemma req_current evs s : ninv task evs s -> zget (reqs s) (latest s) = current evs.
  Proof. intros I. rewrite (n_reqs _ _ _ I), (n_latest _ _ _ I). reflexivity. Qed.

  Lemma cinv_step pre t s e :
    cinv task pre t s -> ninv task (pre ++ map fst t) s ->
    (forall q u, e = Request q u -> ~ In task (q_tasks q)) ->
    cinv task pre (t ++ [(e, snd (step s e))]) (fst (step s e)).
  Proof.
    intros I NI NQ.
    destruct e as [v ts c|v|q u|l|id ms|i|id tk v rs]; cbn [TaskBaseModel.step].
    - apply (cinv_out task pre t _ []); [|unfold entityState|apply noAsk_nil].
      + apply (cinv_other task pre t _ s); auto; try discriminate; unfold entityState;
          destruct (zin v (assigned s)); auto; destruct (zin task ts); auto;
          destruct (zin v (active s)); auto.
      + destruct (zin v (assigned s)); [|apply noAsk_nil]. destruct (zin task ts);
          destruct (zin v (active s)); try apply noAsk_nil; apply noAsk_one; reflexivity.
    - cbn [snd fst]. apply (cinv_other task pre t _ s); auto; try discriminate;
        unfold entityConfiguration; destruct (match eligible with [] => true | _ => _ end); reflexivity.
    - unfold automationRequest. cbn zeta.
      assert (N : zin task (q_tasks q) = false) by (apply zin_false; eapply NQ; eauto).
      rewrite N. cbn [snd fst]. apply (cinv_other task pre t _ s); auto; discriminate.
    - unfold lanes. destruct (zget (reqs s) _).
      + apply lanes_cinv. cbn [fst snd]. apply (cinv_other task pre t _ s); auto; discriminate.
      + cbn [snd fst]. apply (cinv_other task pre t _ s); auto; discriminate.
    - cbn [snd fst]. unfold automationResponse. destruct (zget (reqs s) id) as [q|].
      + destruct (q_sandbox q); apply (cinv_other task pre t _ s); auto; discriminate.
      + apply (cinv_other task pre t _ s); auto; discriminate.
    - assert (I0 : cinv task pre (t ++ [(Implement i, [])]) s)
        by (apply (cinv_other task pre t _ s); auto; discriminate).
      unfold implementationRequest. destruct (i_task i =? task); [|exact I0].
      destruct (zget (opts s) (i_option i)) as [op|] eqn:G; [|exact I0].
      cbn zeta. cbn [fst snd].
      eapply (cinv_ask task pre t (Implement i) [] s _ (i_vehicle i) false _ (i_option i) op _ I0 G);
        try reflexivity.
      + intros y. cbn [o_pending withPending]. rewrite in_addAll, In_zadd, map_app, in_app_iff. cbn.
        intuition.
      + split; [reflexivity|]. split; [reflexivity|]. eexists. reflexivity.
    - assert (NR : tk <> task -> cinv task pre (t ++ [(Routes id tk v rs, [])]) s).
      { intros D. apply (cinv_other task pre t _ s); auto. congruence. }
      unfold routes. destruct (tk =? task) eqn:T; [apply Z.eqb_eq in T; subst tk|
        apply Z.eqb_neq in T; cbn [fst snd]; auto].
      pose proof (req_current _ _ NI) as CU.
      assert (IGN : forall impl k,
        zget (rtype s) id = Some (impl, k) ->
        (impl = false -> ~ In id (pendOpt s)) ->
        (impl = true -> current (pre ++ map fst t) = None \/ ~ In id (pendImpl s)) ->
        cinv task pre (t ++ [(Routes id task v rs, [])]) s).
      { intros impl k G N1 N2. apply (cinv_routes task pre t id v rs [] s s k impl); auto.
        - apply noAsk_nil.
        - intros j. split; [|tauto]. intros H. split; auto. intros -> ->. apply N1; auto.
        - intros j. split; [|tauto]. intros H. split; auto. intros -> C ->.
          destruct N2 as [N2|N2]; auto.
        - intros j op H. eauto.
        - intros j op H. exists op. split; auto. apply incl_refl.
        - intros op' _ Q. exfalso. destruct impl.
          + destruct Q as (Q1 & _ & Q2). destruct (N2 eq_refl); auto.
          + apply (N1 eq_refl Q). }
      destruct (zget (rtype s) id) as [[[|] k]|] eqn:G.
      + unfold implementationRoutes. rewrite CU.
        destruct (current (pre ++ map fst t)) as [q|] eqn:C.
        2:{ cbn [fst snd]. apply (IGN true k); auto. discriminate. }
        destruct (zin id (pendImpl s)) eqn:Z.
        2:{ apply zin_false in Z. cbn [fst snd]. apply (IGN true k); auto. discriminate. }
        apply zin_In in Z. cbn zeta. cbn [setPending opts implReq].
        destruct (zget (opts s) k) as [op|] eqn:GO.
        * destruct (zget (implReq s) id) as [i|] eqn:GI.
          -- match goal with |- context [fold_left ?f rs ?a] =>
               pose proof (fold_prog f k rs (implementationRoute_prog q k v i) a) as P;
               assert (NA : noAsk (snd (fold_left f rs a))) by
                 (apply fold_noAsk; [intros; apply implementationRoute_noAsk; auto|apply noAsk_nil]);
               destruct (fold_left f rs a) as (s3, o) end.
             cbn [fst snd] in *. destruct P as (P1 & P2 & P3 & P4 & P5 & P6 & P7).
             cbn [setOpts setPending opts rtype nextId pendOpt pendImpl implReq] in *.
             rewrite zget_set_same in P7. destruct P7 as (op' & P7 & P8). cbn [withFirst o_pending] in P8.
             apply (cinv_routes task pre t id v rs o s _ k true); auto;
               cbn [setPending opts rtype nextId pendOpt pendImpl implReq].
             ++ intros j. rewrite P3. intuition congruence.
             ++ intros j. rewrite P4, In_zrem, C. intuition (try congruence).
             ++ intros j N. rewrite zget_del_other, P5 by auto. reflexivity.
             ++ intros j op1 H. destruct (Z.eq_dec j k) as [->|N]; [eauto|].
                rewrite P6 by auto. rewrite zget_set_other by auto. eauto.
             ++ intros j op1 H. destruct (Z.eq_dec j k) as [->|N].
                ** exists op. split; auto. rewrite P7 in H. injection H as <-.
                   intros x Q. apply P8 in Q. tauto.
                ** rewrite P6, zget_set_other in H by auto. exists op1. split; auto. apply incl_refl.
             ++ intros op1 H _ x Q. rewrite P7 in H. injection H as <-. apply P8 in Q. tauto.
          -- cbn [fst snd]. apply (cinv_routes task pre t id v rs [] s _ k true); auto;
               cbn [setPending opts rtype nextId pendOpt pendImpl implReq]; auto.
             ++ apply noAsk_nil.
             ++ intros j. intuition congruence.
             ++ intros j. rewrite In_zrem, C. intuition (try congruence).
             ++ eauto.
             ++ intros j op1 H. exists op1. split; auto. apply incl_refl.
             ++ intros op1 H (_ & Q & _). congruence.
        * cbn [fst snd]. apply (cinv_routes task pre t id v rs [] s _ k true); auto;
               cbn [setPending opts rtype nextId pendOpt pendImpl implReq]; auto.
             ++ apply noAsk_nil.
             ++ intros j. intuition congruence.
             ++ intros j. rewrite In_zrem, C. intuition (try congruence).
             ++ eauto.
             ++ intros j op1 H. exists op1. split; auto. apply incl_refl.
             ++ intros op1 H. congruence.
      + unfold optionRoutes. destruct (zin id (pendOpt s)) eqn:Z.
        2:{ apply zin_false in Z. cbn [fst snd]. apply (IGN false k); auto. discriminate. }
        apply zin_In in Z.
        match goal with |- context [fold_left ?f rs ?a] =>
          pose proof (fold_prog f k rs (optionRoute_prog k) a) as P;
          assert (NA : noAsk (snd (fold_left f rs a))) by
            (apply fold_noAsk; [intros; apply optionRoute_noAsk; auto|apply noAsk_nil]);
          destruct (fold_left f rs a) as (s3, o) end.
        cbn [fst snd] in *. destruct P as (P1 & P2 & P3 & P4 & P5 & P6 & P7).
        cbn [setPending opts rtype nextId pendOpt pendImpl implReq] in *.
        apply (cinv_routes task pre t id v rs o s _ k false); auto.
        * intros j. rewrite P3, In_zrem. intuition.
        * intros j. rewrite P4. intuition congruence.
        * intros j N. rewrite P5. reflexivity.
        * intros j op1 H. destruct (Z.eq_dec j k) as [->|N].
          -- rewrite H in P7. destruct P7 as (op' & P7 & _). eauto.
          -- rewrite P6 by auto. eauto.
        * intros j op1 H. destruct (Z.eq_dec j k) as [->|N].
          -- destruct (zget (opts s) k) as [op|]; [|congruence]. destruct P7 as (op' & P7 & P8).
             exists op. split; auto. rewrite P7 in H. injection H as <-. intros x Q. apply P8 in Q. tauto.
          -- rewrite P6 in H by auto. exists op1. split; auto. apply incl_refl.
        * intros op1 H _ x Q. destruct (zget (opts s) k) as [op|]; [|congruence].
          destruct P7 as (op' & P7 & P8). rewrite P7 in H. injection H as <-. apply P8 in Q. tauto.
      + cbn [fst snd].
        (* no such request was ever made *)
        assert (NA : forall a e o b v1 co l, t = a ++ (e, o) :: b -> ~ In (Ask id v1 co l) o).
        { intros a e o b v1 co l ET HI. destruct (c_ask _ _ _ _ I _ _ _ _ _ _ _ _ ET HI)
            as (k & op & Q & _). congruence. }
        constructor.
        * apply I.
        * intros a e o b j v1 co l ET HI. apply split_last in ET.
          destruct ET as [(-> & -> & Q)|(b' & -> & ->)].
          -- injection Q as -> ->. destruct HI.
          -- destruct (c_ask _ _ _ _ I _ _ _ _ _ _ _ _ eq_refl HI) as (k & op & Q1 & Q2 & Q3).
             exists k, op. repeat split; auto. intros U. apply Q3. rewrite map_app in U.
             apply unanswered_app in U. tauto.
        * intros j HJ. destruct (c_popt _ _ _ _ I _ HJ) as (a & e1 & o1 & b & v1 & l1 & -> & Q2 & Q3).
          exists a, e1, o1, (b ++ [(Routes id task v rs, [])]), v1, l1. rewrite <- app_assoc.
          repeat split; auto. rewrite map_app. apply unanswered_app. split; auto.
          intros v2 rs2 [Q|[]]. cbn [fst] in Q. injection Q as <- _ _. eapply NA; eauto.
        * intros j HJ. destruct (c_pimpl _ _ _ _ I _ HJ) as (a & e1 & o1 & b & v1 & l1 & -> & Q2 & Q3).
          exists a, e1, o1, (b ++ [(Routes id task v rs, [])]), v1, l1. rewrite <- app_assoc.
          repeat split; auto. intros b1 v' rs' o' b2 Q. apply split_last in Q.
          destruct Q as [(-> & -> & Q)|(b3 & -> & ->)]; [|eapply Q3; reflexivity].
          injection Q as <- _ _ _. exfalso. eapply NA; eauto.
        * intros k1 op' x HG HX. destruct (c_pending _ _ _ _ I _ _ _ HG HX)
            as (a & e1 & o1 & b & j & v1 & co1 & l1 & -> & Q2 & Q3 & Q4 & Q5).
          exists a, e1, o1, (b ++ [(Routes id task v rs, [])]), j, v1, co1, l1. rewrite <- app_assoc.
          repeat split; auto.
          intros (b1 & v' & rs' & o' & b2 & Q & U & R & IX). apply split_last in Q.
          destruct Q as [(-> & -> & Q)|(b3 & -> & ->)].
          -- injection Q as <- _ _ _. eapply NA; eauto.
          -- apply Q5. exists b1, v', rs', o', b3. auto.
  Qed.
End Step.

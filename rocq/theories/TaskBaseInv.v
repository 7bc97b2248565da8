(** Which route requests of a task service are outstanding. *)
From Coq Require Import List ZArith Bool Lia.
From Verif Require Import ZMap Run TaskBaseModel TaskBaseSpec TaskBaseNotice.
Import ListNotations.
Open Scope list_scope.
Open Scope Z_scope.

(** The list has no response to the route request [id] of the task. *)
Definition unanswered (task id : Z) (l : list ev) : Prop :=
  forall v rs, ~ In (Routes id task v rs) l.

(** [t] is what happened since the options were made, after the messages [pre]. *)
Record cinv (task : Z) (pre : list ev) (t : list (ev * list out)) (s : st) : Prop := {
  c_fresh : forall id x, zget (rtype s) id = Some x -> id < nextId s;
  c_ask : forall a e o b id v co l, t = a ++ (e, o) :: b -> In (Ask id v co l) o ->
    exists k op, zget (rtype s) id = Some (negb co, k) /\ zget (opts s) k = Some op /\
      (unanswered task id (map fst b) ->
         if co then In id (pendOpt s) else In id (pendImpl s) /\ zget (implReq s) id <> None);
  c_popt : forall id, In id (pendOpt s) ->
    exists a e o b v l, t = a ++ (e, o) :: b /\ In (Ask id v true l) o /\
                        unanswered task id (map fst b);
  c_pimpl : forall id, In id (pendImpl s) ->
    exists a e o b v l, t = a ++ (e, o) :: b /\ In (Ask id v false l) o /\
      forall b1 v' rs o' b2, b = b1 ++ (Routes id task v' rs, o') :: b2 ->
        current (pre ++ map fst (a ++ (e, o) :: b1)) = None;
  c_pending : forall k op x, zget (opts s) k = Some op -> In x (o_pending op) ->
    exists a e o b id v co l, t = a ++ (e, o) :: b /\ In (Ask id v co l) o /\ In x (map fst l) /\
      zget (rtype s) id = Some (negb co, k) /\
      ~ (exists b1 v' rs o' b2, b = b1 ++ (Routes id task v' rs, o') :: b2 /\
           unanswered task id (map fst b1) /\
           current (pre ++ map fst (a ++ (e, o) :: b1)) <> None /\ In x (map r_id rs))
}.

Lemma in_addAll ks : forall l x, In x (addAll l ks) <-> In x l \/ In x ks.
Proof.
  unfold addAll. induction ks as [|k ks IH]; intros l x; cbn [fold_left]; [cbn; tauto|].
  rewrite IH, In_zadd. cbn. intuition.
Qed.

Lemma unanswered_app task id a b :
  unanswered task id (a ++ b) <-> unanswered task id a /\ unanswered task id b.
Proof.
  unfold unanswered. split.
  - intros H. split; intros v rs Q; apply (H v rs), in_or_app; auto.
  - intros (H1 & H2) v rs Q. apply in_app_or in Q. destruct Q; firstorder.
Qed.

(** The step [e] gave no response to a route request which the service waits for. *)
Lemma split_end {A} (t : list A) x a y b :
  t ++ [x] = a ++ y :: b -> b = [] \/ exists b', b = b' ++ [x] /\ t = a ++ y :: b'.
Proof. intros H. apply split_last in H. destruct H as [(-> & _)|H]; auto. Qed.

Section Inv.
  Context (task : Z).

  (** A further output of the last step: a route request. *)
  Lemma cinv_ask pre t e o s s' v co l k op op' :
    cinv task pre (t ++ [(e, o)]) s ->
    zget (opts s) k = Some op ->
    rtype s' = zset (rtype s) (nextId s) (negb co, k) -> nextId s' = nextId s + 1 ->
    opts s' = zset (opts s) k op' ->
    (forall x, In x (o_pending op') -> In x (o_pending op) \/ In x (map fst l)) ->
    (if co then pendOpt s' = zadd (nextId s) (pendOpt s) /\ pendImpl s' = pendImpl s /\
                implReq s' = implReq s
     else pendOpt s' = pendOpt s /\ pendImpl s' = zadd (nextId s) (pendImpl s) /\
          exists i, implReq s' = zset (implReq s) (nextId s) i) ->
    cinv task pre (t ++ [(e, o ++ [Ask (nextId s) v co l])]) s'.
  Proof.
    intros I EO ER EN ES HP HQ. set (n := nextId s) in *.
    assert (FR : forall id x, zget (rtype s) id = Some x -> id < n) by apply I.
    assert (RO : forall id x, zget (rtype s) id = Some x -> zget (rtype s') id = Some x).
    { intros id x Q. rewrite ER, zget_set_other; auto. apply FR in Q. lia. }
    assert (OS : forall k0 op0, zget (opts s) k0 = Some op0 ->
                 exists op1, zget (opts s') k0 = Some op1).
    { intros k0 op0 Q. rewrite ES, zget_set. destruct (_ =? _); eauto. }
    (* positions in the history with the old and the new outputs of the last step *)
    assert (POS : forall a e1 o1 b, t ++ [(e, o)] = a ++ (e1, o1) :: b ->
      exists o2 b', t ++ [(e, o ++ [Ask n v co l])] = a ++ (e1, o2) :: b' /\ incl o1 o2 /\
        map fst b' = map fst b /\
        (forall b1' y b2', b' = b1' ++ y :: b2' ->
           exists b1 z b2, b = b1 ++ z :: b2 /\ map fst b1 = map fst b1' /\ fst z = fst y)).
    { intros a e1 o1 b Q. apply split_last in Q. destruct Q as [(-> & -> & Q)|(b' & -> & ->)].
      - injection Q as -> ->. exists (o ++ [Ask n v co l]), []. repeat split; auto.
        + intros x Q. apply in_or_app; auto.
        + intros b1 y b2 Q. destruct b1; discriminate.
      - exists o1, (b' ++ [(e, o ++ [Ask n v co l])]). rewrite <- app_assoc. repeat split.
        + apply incl_refl.
        + rewrite !map_app. reflexivity.
        + intros b1 y b2 Q. apply split_last in Q. destruct Q as [(-> & -> & ->)|(b3 & -> & ->)].
          * exists b', (e, o), []. auto.
          * exists b1, y, (b3 ++ [(e, o)]). rewrite <- app_assoc. auto. }
    constructor.
    - intros id x. rewrite ER, EN, zget_set. destruct (id =? n) eqn:Q.
      + apply Z.eqb_eq in Q. intros _. lia.
      + intros H. apply FR in H. lia.
    - intros a e1 o1 b id v1 co1 l1 ET HI.
      assert (OLD : forall b0 o0, t ++ [(e, o)] = a ++ (e1, o0) :: b0 -> In (Ask id v1 co1 l1) o0 ->
        map fst b0 = map fst b ->
        exists k op, zget (rtype s') id = Some (negb co1, k) /\ zget (opts s') k = Some op /\
          (unanswered task id (map fst b) ->
            if co1 then In id (pendOpt s') else In id (pendImpl s') /\ zget (implReq s') id <> None)).
      { intros b0 o0 EQ HI' EM. destruct (c_ask _ _ _ _ I _ _ _ _ _ _ _ _ EQ HI') as (k1 & op1 & Q1 & Q2 & Q3).
        destruct (OS _ _ Q2) as (op2 & Q4). exists k1, op2. split; [auto|]. split; auto.
        rewrite EM in Q3. intros U. specialize (Q3 U). destruct co1.
        - destruct co.
          + destruct HQ as (-> & _). apply In_zadd. auto.
          + destruct HQ as (-> & _). auto.
        - destruct Q3 as (Q3 & Q5). destruct co.
          + destruct HQ as (_ & -> & ->). auto.
          + destruct HQ as (_ & -> & i & ->). split; [apply In_zadd; auto|].
            rewrite zget_set. destruct (_ =? _); auto. discriminate. }
      apply split_last in ET. destruct ET as [(-> & -> & Q)|(b' & -> & ->)].
      + injection Q as -> ->. apply in_app_or in HI. destruct HI as [HI|[HI|[]]].
        * eapply OLD; eauto.
        * injection HI as <- <- <- <-. exists k, op'. split; [|split].
          -- rewrite ER. apply zget_set_same.
          -- rewrite ES. apply zget_set_same.
          -- intros _. destruct co.
             ++ destruct HQ as (-> & _). apply In_zadd. auto.
             ++ destruct HQ as (_ & -> & i & ->). split; [apply In_zadd; auto|].
                rewrite zget_set_same. discriminate.
      + eapply (OLD (b' ++ [(e, o)])); eauto.
        * rewrite <- app_assoc. reflexivity.
        * rewrite !map_app. reflexivity.
    - intros id HI.
      assert (C : In id (pendOpt s) \/ (co = true /\ id = n)).
      { destruct co.
        - destruct HQ as (E & _). rewrite E in HI. apply In_zadd in HI. tauto.
        - destruct HQ as (E & _). rewrite E in HI. auto. }
      destruct C as [C|(-> & ->)].
      + destruct (c_popt _ _ _ _ I _ C) as (a & e1 & o1 & b & v1 & l1 & Q1 & Q2 & Q3).
        destruct (POS _ _ _ _ Q1) as (o2 & b' & P1 & P2 & P3 & P4).
        exists a, e1, o2, b', v1, l1. split; [auto|]. split; [auto|]. rewrite P3. auto.
      + exists t, e, (o ++ [Ask n v true l]), [], v, l. split; [reflexivity|]. split.
        * apply in_or_app. cbn; auto.
        * intros v0 rs [].
    - intros id HI.
      assert (C : In id (pendImpl s) \/ (co = false /\ id = n)).
      { destruct co.
        - destruct HQ as (_ & E & _). rewrite E in HI. auto.
        - destruct HQ as (_ & E & _). rewrite E in HI. apply In_zadd in HI. tauto. }
      destruct C as [C|(-> & ->)].
      + destruct (c_pimpl _ _ _ _ I _ C) as (a & e1 & o1 & b & v1 & l1 & Q1 & Q2 & Q3).
        destruct (POS _ _ _ _ Q1) as (o2 & b' & P1 & P2 & P3 & P4).
        exists a, e1, o2, b', v1, l1. split; [auto|]. split; [auto|].
        intros b1 v' rs o' b2 EB. destruct (P4 _ _ _ EB) as (b3 & (e3, o3) & b4 & R1 & R2 & R3).
        cbn [fst] in R3. subst e3. specialize (Q3 _ _ _ _ _ R1).
        rewrite map_app in Q3 |- *. cbn [map] in Q3 |- *. rewrite R2 in Q3. exact Q3.
      + exists t, e, (o ++ [Ask n v false l]), [], v, l. split; [reflexivity|]. split.
        * apply in_or_app. cbn; auto.
        * intros b1 v' rs o' b2 Q. destruct b1; discriminate.
    - intros k1 op1 x HG HX.
      assert (C : (exists op0, zget (opts s) k1 = Some op0 /\ In x (o_pending op0)) \/
                  (k1 = k /\ In x (map fst l))).
      { rewrite ES, zget_set in HG. destruct (k1 =? k) eqn:Q.
        - apply Z.eqb_eq in Q. subst k1. injection HG as <-. apply HP in HX.
          destruct HX; [left; eauto|auto].
        - left. eauto. }
      destruct C as [(op0 & C1 & C2)|(-> & C)].
      + destruct (c_pending _ _ _ _ I _ _ _ C1 C2)
          as (a & e1 & o1 & b & id & v1 & co1 & l1 & Q1 & Q2 & Q3 & Q4 & Q5).
        destruct (POS _ _ _ _ Q1) as (o2 & b' & P1 & P2 & P3 & P4).
        exists a, e1, o2, b', id, v1, co1, l1. repeat split; auto.
        intros (b1 & v' & rs & o' & b2 & EB & U & R & IX). apply Q5.
        destruct (P4 _ _ _ EB) as (b3 & (e3, o3) & b4 & R1 & R2 & R3). cbn [fst] in R3. subst e3.
        exists b3, v', rs, o3, b4. rewrite R2. repeat split; auto.
        rewrite map_app in R |- *. cbn [map] in R |- *. rewrite R2. exact R.
      + exists t, e, (o ++ [Ask n v co l]), [], n, v, co, l. repeat split; auto.
        * apply in_or_app. cbn; auto.
        * rewrite ER. apply zget_set_same.
        * intros (b1 & v' & rs & o' & b2 & EB & _). destruct b1; discriminate.
  Qed.

  (** A message that is no response to a route request of the task and makes none. *)
  Lemma cinv_other pre t e s s' :
    cinv task pre t s ->
    (forall id v rs, e <> Routes id task v rs) ->
    rtype s' = rtype s -> nextId s' = nextId s -> pendOpt s' = pendOpt s -> pendImpl s' = pendImpl s ->
    implReq s' = implReq s -> opts s' = opts s ->
    cinv task pre (t ++ [(e, [])]) s'.
  Proof.
    intros I NR E1 E2 E3 E4 E5 E6.
    assert (UN : forall id l, unanswered task id (map fst l) -> unanswered task id (map fst (l ++ [(e, [] : list out)]))).
    { intros id l U v rs Q. rewrite map_app in Q. apply in_app_or in Q. destruct Q as [Q|[Q|[]]].
      - eapply U; eauto.
      - eapply NR; eauto. }
    constructor; rewrite ?E1, ?E2, ?E3, ?E4, ?E5, ?E6.
    - apply I.
    - intros a e1 o1 b id v co l ET HI. apply split_last in ET.
      destruct ET as [(-> & -> & Q)|(b' & -> & ->)].
      + injection Q as -> ->. destruct HI.
      + destruct (c_ask _ _ _ _ I _ _ _ _ _ _ _ _ eq_refl HI) as (k & op & Q1 & Q2 & Q3).
        exists k, op. repeat split; auto. intros U. apply Q3. rewrite map_app in U.
        apply unanswered_app in U. tauto.
    - intros id HI. destruct (c_popt _ _ _ _ I _ HI) as (a & e1 & o1 & b & v1 & l1 & -> & Q2 & Q3).
      exists a, e1, o1, (b ++ [(e, [])]), v1, l1. rewrite <- app_assoc. auto.
    - intros id HI. destruct (c_pimpl _ _ _ _ I _ HI) as (a & e1 & o1 & b & v1 & l1 & -> & Q2 & Q3).
      exists a, e1, o1, (b ++ [(e, [])]), v1, l1. rewrite <- app_assoc. repeat split; auto.
      intros b1 v' rs o' b2 Q. apply split_last in Q. destruct Q as [(_ & _ & Q)|(b3 & -> & ->)].
      + injection Q as Q _. edestruct NR; eauto.
      + eapply Q3; reflexivity.
    - intros k op x HG HX. destruct (c_pending _ _ _ _ I _ _ _ HG HX)
        as (a & e1 & o1 & b & id & v1 & co1 & l1 & -> & Q2 & Q3 & Q4 & Q5).
      exists a, e1, o1, (b ++ [(e, [])]), id, v1, co1, l1. rewrite <- app_assoc. repeat split; auto.
      intros (b1 & v' & rs & o' & b2 & Q & U & R & IX). apply Q5.
      apply split_last in Q. destruct Q as [(_ & _ & Q)|(b3 & -> & ->)].
      + injection Q as Q _. edestruct NR; eauto.
      + exists b1, v', rs, o', b3. auto.
  Qed.

  (** Outputs other than route requests do not matter. *)
  Lemma cinv_out pre t e o s o' :
    cinv task pre (t ++ [(e, o)]) s -> (forall x, In x o' -> isAsk x = false) ->
    (forall x, In x o -> isAsk x = false) ->
    cinv task pre (t ++ [(e, o')]) s.
  Proof.
    intros I N1 N2.
    assert (POS : forall a e1 o1 b id v co l, In (Ask id v co l) o1 ->
      t ++ [(e, o)] = a ++ (e1, o1) :: b ->
      exists b0, t = a ++ (e1, o1) :: b0 /\ b = b0 ++ [(e, o)]).
    { intros a e1 o1 b id v co l HI Q. apply split_last in Q.
      destruct Q as [(-> & -> & Q)|(b' & -> & ->)]; [|eauto].
      injection Q as -> ->. apply N2 in HI. discriminate. }
    assert (LST : forall b0 b1 (y : ev * list out) b2, b0 ++ [(e, o')] = b1 ++ y :: b2 ->
      exists z b3, b0 ++ [(e, o)] = b1 ++ z :: b3 /\ fst z = fst y).
    { intros b0 b1 y b2 Q. apply split_last in Q. destruct Q as [(-> & -> & ->)|(b' & -> & ->)].
      - exists (e, o), []. auto.
      - exists y, (b' ++ [(e, o)]). rewrite <- app_assoc. auto. }
    constructor.
    - apply I.
    - intros a e1 o1 b id v co l ET HI. apply split_last in ET.
      destruct ET as [(-> & -> & Q)|(b' & -> & ->)].
      + injection Q as -> ->. apply N1 in HI. discriminate.
      + assert (ET : (a ++ (e1, o1) :: b') ++ [(e, o)] = a ++ (e1, o1) :: (b' ++ [(e, o)])) by
          (rewrite <- app_assoc; reflexivity).
        destruct (c_ask _ _ _ _ I _ _ _ _ _ _ _ _ ET HI) as (k & op & Q1 & Q2 & Q3).
        exists k, op. rewrite map_app in *. auto.
    - intros id HI. destruct (c_popt _ _ _ _ I _ HI) as (a & e1 & o1 & b & v1 & l1 & Q1 & Q2 & Q3).
      destruct (POS _ _ _ _ _ _ _ _ Q2 Q1) as (b0 & -> & ->).
      exists a, e1, o1, (b0 ++ [(e, o')]), v1, l1. rewrite <- app_assoc. repeat split; auto.
      rewrite map_app in *. auto.
    - intros id HI. destruct (c_pimpl _ _ _ _ I _ HI) as (a & e1 & o1 & b & v1 & l1 & Q1 & Q2 & Q3).
      destruct (POS _ _ _ _ _ _ _ _ Q2 Q1) as (b0 & -> & ->).
      exists a, e1, o1, (b0 ++ [(e, o')]), v1, l1. rewrite <- app_assoc. repeat split; auto.
      intros b1 v' rs o2 b2 Q. destruct (LST _ _ _ _ Q) as ((e3, o3) & b3 & R1 & R2).
      cbn [fst] in R2. subst e3. eapply Q3; eauto.
    - intros k op x HG HX. destruct (c_pending _ _ _ _ I _ _ _ HG HX)
        as (a & e1 & o1 & b & id & v1 & co1 & l1 & Q1 & Q2 & Q3 & Q4 & Q5).
      destruct (POS _ _ _ _ _ _ _ _ Q2 Q1) as (b0 & -> & ->).
      exists a, e1, o1, (b0 ++ [(e, o')]), id, v1, co1, l1. rewrite <- app_assoc. repeat split; auto.
      intros (b1 & v' & rs & o2 & b2 & Q & U & R & IX). apply Q5.
      destruct (LST _ _ _ _ Q) as ((e3, o3) & b3 & R1 & R2). cbn [fst] in R2. subst e3.
      exists b1, v', rs, o3, b3. auto.
  Qed.

  (** A response to a route request: [id] is no longer awaited, if it was and the response is heard;
      of the option's awaited routes those in the response are removed. *)
  Lemma cinv_routes pre t id v rs o s s' k impl :
    cinv task pre t s ->
    (forall x, In x o -> isAsk x = false) ->
    zget (rtype s) id = Some (impl, k) ->
    rtype s' = rtype s -> nextId s' = nextId s ->
    (forall j, In j (pendOpt s') <-> In j (pendOpt s) /\ (impl = false -> j <> id)) ->
    (forall j, In j (pendImpl s') <->
       In j (pendImpl s) /\
       (impl = true -> current (pre ++ map fst t) <> None -> j <> id)) ->
    (forall j, j <> id -> zget (implReq s') j = zget (implReq s) j) ->
    (forall j op, zget (opts s) j = Some op -> exists op', zget (opts s') j = Some op') ->
    (forall j op', zget (opts s') j = Some op' ->
       exists op, zget (opts s) j = Some op /\ incl (o_pending op') (o_pending op)) ->
    (forall op', zget (opts s') k = Some op' ->
       (if impl then In id (pendImpl s) /\ zget (implReq s) id <> None /\
                     current (pre ++ map fst t) <> None
        else In id (pendOpt s)) ->
       forall x, In x (o_pending op') -> ~ In x (map r_id rs)) ->
    cinv task pre (t ++ [(Routes id task v rs, o)]) s'.
  Proof.
    intros I NA ER E1 E2 HO HI HR HS HP HK.
    assert (POS : forall a e1 o1 b j v1 co l, In (Ask j v1 co l) o1 ->
      t ++ [(Routes id task v rs, o)] = a ++ (e1, o1) :: b ->
      exists b0, t = a ++ (e1, o1) :: b0 /\ b = b0 ++ [(Routes id task v rs, o)]).
    { intros a e1 o1 b j v1 co l Q1 Q. apply split_last in Q.
      destruct Q as [(-> & -> & Q)|(b' & -> & ->)]; [|eauto].
      injection Q as -> ->. apply NA in Q1. discriminate. }
    constructor.
    - rewrite E1, E2. apply I.
    - intros a e1 o1 b j v1 co l ET HA. destruct (POS _ _ _ _ _ _ _ _ HA ET) as (b0 & -> & ->).
      destruct (c_ask _ _ _ _ I _ _ _ _ _ _ _ _ eq_refl HA) as (k1 & op & Q1 & Q2 & Q3).
      destruct (HS _ _ Q2) as (op' & Q4). exists k1, op'. rewrite E1. repeat split; auto.
      intros U. rewrite map_app in U. apply unanswered_app in U. destruct U as (U1 & U2).
      assert (N : j <> id). { intros ->. eapply U2. cbn. eauto. }
      specialize (Q3 U1). destruct co; [apply HO; auto|].
      destruct Q3 as (Q3 & Q5). split; [apply HI; auto|]. rewrite HR; auto.
    - intros j HJ. apply HO in HJ. destruct HJ as (HJ & N).
      destruct (c_popt _ _ _ _ I _ HJ) as (a & e1 & o1 & b & v1 & l1 & -> & Q2 & Q3).
      destruct (c_ask _ _ _ _ I _ _ _ _ _ _ _ _ eq_refl Q2) as (k1 & op & R1 & _).
      exists a, e1, o1, (b ++ [(Routes id task v rs, o)]), v1, l1. rewrite <- app_assoc.
      repeat split; auto. rewrite map_app. apply unanswered_app. split; auto.
      intros v2 rs2 [Q|[]]. cbn [fst] in Q. injection Q as Q _ _. subst j.
      rewrite ER in R1. injection R1 as -> _. apply N; auto.
    - intros j HJ. apply HI in HJ. destruct HJ as (HJ & N).
      destruct (c_pimpl _ _ _ _ I _ HJ) as (a & e1 & o1 & b & v1 & l1 & -> & Q2 & Q3).
      destruct (c_ask _ _ _ _ I _ _ _ _ _ _ _ _ eq_refl Q2) as (k1 & op & R1 & _).
      exists a, e1, o1, (b ++ [(Routes id task v rs, o)]), v1, l1. rewrite <- app_assoc.
      repeat split; auto. intros b1 v' rs' o' b2 Q. apply split_last in Q.
      destruct Q as [(-> & -> & Q)|(b3 & -> & ->)]; [|eapply Q3; reflexivity].
      injection Q as -> _ _ _. rewrite ER in R1. injection R1 as -> _.
      destruct (current (pre ++ map fst (a ++ (e1, o1) :: b))) eqn:C; auto.
      exfalso. apply N; auto. discriminate.
    - intros k1 op' x HG HX. destruct (HP _ _ HG) as (op & G & INC).
      destruct (c_pending _ _ _ _ I _ _ _ G (INC _ HX))
        as (a & e1 & o1 & b & j & v1 & co1 & l1 & ET & Q2 & Q3 & Q4 & Q5).
      exists a, e1, o1, (b ++ [(Routes id task v rs, o)]), j, v1, co1, l1. rewrite E1.
      split; [rewrite ET, <- app_assoc; reflexivity|]. repeat split; auto.
      intros (b1 & v' & rs' & o' & b2 & Q & U & R & IX). apply split_last in Q.
      destruct Q as [(-> & -> & Q)|(b3 & -> & ->)].
      + injection Q as -> -> -> ->. rewrite ER in Q4. injection Q4 as -> ->.
        destruct (c_ask _ _ _ _ I _ _ _ _ _ _ _ _ ET Q2) as (k2 & op2 & R1 & R2 & R3).
        specialize (R3 U).
        apply (HK op' HG) with (x := x); auto.
        destruct co1; cbn [negb]; auto. rewrite ET. tauto.
      + apply Q5. exists b1, v', rs', o', b3. auto.
  Qed.
End Inv.

Lemma current_snoc evs e :
  (forall q u, e <> Request q u) -> (forall i ms, e <> Response i ms) ->
  current (evs ++ [e]) = current evs.
Proof.
  intros H1 H2. unfold current. rewrite asked_snoc, fold_left_app. cbn [fold_left].
  destruct e; auto; [edestruct H1; eauto|edestruct H2; eauto].
Qed.

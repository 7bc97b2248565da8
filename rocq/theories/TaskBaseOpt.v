(** One option from the request that made it to its implementation. *)
From Coq Require Import List ZArith Bool Lia Sorted.
From Verif Require Import ZMap Run TaskBaseModel TaskBaseSpec TaskBaseNotice TaskBaseInv TaskBaseStep
  TaskBaseWps TaskBaseImpl.
Import ListNotations.
Open Scope list_scope.
Open Scope Z_scope.

Lemma newOpts_find l k :
  zget (newOpts l) k =
  match find (fun x => p_option (fst x) =? k) l with
  | Some x => Some {| o_pub := fst x; o_pending := []; o_plans := putAll [] (snd x);
                      o_ask := []; o_first := -1; o_restart := None |}
  | None => None
  end.
Proof.
  unfold newOpts.
  assert (G : forall l m, zget (fold_left (fun m x =>
      match zget m (p_option (fst x)) with
      | Some _ => m
      | None => zset m (p_option (fst x))
          {| o_pub := fst x; o_pending := [];
             o_plans := fold_left (fun a r => putPlan a (r_id r) r) (snd x) [];
             o_ask := []; o_first := -1; o_restart := None |}
      end) l m) k =
    match zget m k with
    | Some y => Some y
    | None => match find (fun x => p_option (fst x) =? k) l with
              | Some x => Some {| o_pub := fst x; o_pending := []; o_plans := putAll [] (snd x);
                                  o_ask := []; o_first := -1; o_restart := None |}
              | None => None
              end
    end).
  { clear l. induction l as [|x l IH]; intros m; cbn [fold_left find].
    - destruct (zget m k); reflexivity.
    - rewrite IH. destruct (p_option (fst x) =? k) eqn:E.
      + apply Z.eqb_eq in E. rewrite E. destruct (zget m k) eqn:Q; [rewrite Q; reflexivity|].
        rewrite zget_set_same. reflexivity.
      + apply Z.eqb_neq in E. destruct (zget m (p_option (fst x))); [reflexivity|].
        rewrite zget_set_other by congruence. reflexivity. }
  rewrite G. reflexivity.
Qed.

(** No lanes of option [k] in these messages. *)
Definition noLanes (k : Z) (t : list (ev * list out)) : Prop :=
  forall l v ls, In (Lanes l) (map fst t) -> ~ In (k, v, ls) l.

Record oinv (k : Z) (p : pub) (prepared : list route) (t : list (ev * list out)) (s : st) : Prop := {
  v_opt : exists op, zget (opts s) k = Some op /\ o_plans op = putAll [] prepared /\
    o_restart op = None /\ p_option (o_pub op) = p_option p /\
    (noLanes k t -> o_pub op = p /\ o_ask op = [] /\ o_pending op = []);
  v_impl : forall id i, zget (implReq s) id = Some i -> i_option i <> k
}.

Section Opt.
  Context (task : Z) (eligible : list Z) (transActive : bool) (coloc : Z -> Z -> bool).
  Context (restCost : Z -> list wp -> Z).
  Context (ordv : list Z -> list Z) (ordw : zmap Z -> list (Z * Z)).
  Notation step := (step task eligible transActive coloc restCost ordv ordw).
  Notation run := (run step).

  Lemma noLanes_app k a b : noLanes k (a ++ b) -> noLanes k a.
  Proof. intros H l v ls Q. apply (H l). rewrite map_app. apply in_or_app; auto. Qed.

  Lemma oinv_same k p prepared t e o s s' :
    oinv k p prepared t s -> opts s' = opts s ->
    (forall id i, zget (implReq s') id = Some i -> zget (implReq s) id = Some i) ->
    oinv k p prepared (t ++ [(e, o)]) s'.
  Proof.
    intros [(op & H1 & H2 & H3 & H4 & H5) HI] E1 E2. constructor.
    - exists op. rewrite E1. do 4 (split; [auto|]). intros N'; apply H5; eapply noLanes_app; eauto.
    - intros id i Q. eapply HI; eauto.
  Qed.

  Lemma lane_other k a k' v ls :
    k' <> k -> zget (opts (fst (lane a (k', v, ls)))) k = zget (opts (fst a)) k.
  Proof.
    intros N. unfold lane. cbn [newId opts]. destruct (zget (opts (fst a)) k'); [|reflexivity].
    cbn [fst setPending setOpts opts newId]. apply zget_set_other. auto.
  Qed.
  Lemma lane_impl a x : implReq (fst (lane a x)) = implReq (fst a).
  Proof.
    destruct x as ((k, v), l). unfold lane. cbn [newId opts].
    destruct (zget (opts (fst a)) k); reflexivity.
  Qed.
  Lemma lane_same k a v ls op :
    zget (opts (fst a)) k = Some op ->
    exists op', zget (opts (fst (lane a (k, v, ls)))) k = Some op' /\ o_plans op' = o_plans op /\
      o_restart op' = o_restart op /\ p_option (o_pub op') = p_option (o_pub op).
  Proof.
    intros G. unfold lane. cbn [newId opts]. rewrite G.
    cbn [fst setPending setOpts opts newId]. rewrite zget_set_same. eexists. split; [reflexivity|].
    destruct ls; auto.
  Qed.

  Lemma lanes_opt k l : forall a op,
    zget (opts (fst a)) k = Some op ->
    exists op', zget (opts (fst (fold_left lane l a))) k = Some op' /\ o_plans op' = o_plans op /\
      o_restart op' = o_restart op /\ p_option (o_pub op') = p_option (o_pub op) /\
      ((forall v ls, ~ In (k, v, ls) l) -> op' = op).
  Proof.
    induction l as [|((k', v), ls) l IH]; intros a op G; cbn [fold_left]; [exists op; auto|].
    destruct (Z.eq_dec k' k) as [->|N].
    - destruct (lane_same k a v ls op G) as (op1 & G1 & A1 & A2 & A3).
      destruct (IH _ _ G1) as (op' & G2 & B1 & B2 & B3 & _). exists op'.
      repeat split; try congruence. intros Q. edestruct Q. cbn. eauto.
    - destruct (IH (lane a (k', v, ls)) op) as (op' & G2 & B1 & B2 & B3 & B4).
      { rewrite lane_other; auto. }
      exists op'. repeat split; auto. intros Q. apply B4. intros v0 ls0 Q0. eapply Q. cbn; eauto.
  Qed.
  Lemma lanes_impl l : forall a, implReq (fst (fold_left lane l a)) = implReq (fst a).
  Proof.
    induction l as [|x l IH]; intros a; cbn [fold_left]; auto. rewrite IH. apply lane_impl.
  Qed.

  Lemma optionRoute_opt k rs : forall a op,
    zget (opts (fst a)) k = Some op ->
    exists op', zget (opts (fst (fold_left (optionRoute k) rs a))) k = Some op' /\
      o_plans op' = o_plans op /\ o_restart op' = o_restart op /\
      p_option (o_pub op') = p_option (o_pub op) /\
      (o_pending op = [] -> op' = op).
  Proof.
    induction rs as [|r rs IH]; intros a op G; cbn [fold_left]; [exists op; auto|].
    unfold optionRoute at 2. rewrite G. destruct (zin (r_id r) (o_pending op)) eqn:Z.
    - match goal with |- context [fold_left _ rs ?a1] =>
        destruct (IH a1 (withPub (withPending op (zrem (r_id r) (o_pending op)))
          (withCost (o_pub op) (if 0 <? r_cost r then p_cost (o_pub op) + r_cost r else maxCost))))
          as (op' & B1 & B2 & B3 & B4 & B5) end.
      { cbn [fst setOpts opts]. apply zget_set_same. }
      exists op'. repeat split; auto. intros Q. rewrite Q in Z. discriminate.
    - match goal with |- context [fold_left _ rs ?a1] =>
        destruct (IH a1 op G) as (op' & B1 & B2 & B3 & B4 & B5) end.
      exists op'. auto.
  Qed.

  Lemma oinv_step k p prepared t evs s e o :
    oinv k p prepared t s -> ginv task eligible evs s ->
    (forall q u, e = Request q u -> ~ In task (q_tasks q)) ->
    (forall i, e = Implement i -> i_task i = task -> i_option i <> k) ->
    oinv k p prepared (t ++ [(e, o)]) (fst (step s e)).
  Proof.
    intros V G NQ NI.
    destruct e as [v ts c|v|q u|l|id ms|i|id tk v rs]; cbn [TaskBaseModel.step].
    - apply (oinv_same _ _ _ _ _ _ s); auto; unfold entityState; destruct (zin v (assigned s)); auto;
        destruct (zin task ts); auto; destruct (zin v (active s)); auto.
    - cbn [fst]. apply (oinv_same _ _ _ _ _ _ s); auto; unfold entityConfiguration;
        destruct (match eligible with [] => true | _ => _ end); auto.
    - unfold automationRequest. cbn zeta.
      assert (N : zin task (q_tasks q) = false) by (apply zin_false; eapply NQ; eauto).
      rewrite N. cbn [fst]. apply (oinv_same _ _ _ _ _ _ s); auto.
    - unfold lanes. destruct (zget (reqs s) _).
      2:{ cbn [fst]. apply (oinv_same _ _ _ _ _ _ s); auto. }
      destruct V as [(op & H1 & H2 & H3 & H4 & H5) HI]. constructor.
      + destruct (lanes_opt k l (s, []) op H1) as (op' & B1 & B2 & B3 & B4 & B5).
        exists op'. split; [exact B1|]. do 3 (split; [congruence|]). intros N.
        assert (E : op' = op) by
              (apply B5; intros v0 ls0; apply (N l); rewrite map_app; apply in_or_app; cbn; auto);
             subst op'; apply H5; eapply noLanes_app; eauto.
      + intros id i Q. rewrite lanes_impl in Q. eapply HI; eauto.
    - cbn [fst]. apply (oinv_same _ _ _ _ _ _ s); auto; unfold automationResponse;
        destruct (zget (reqs s) id) as [q|]; auto; destruct (q_sandbox q); auto.
    - unfold implementationRequest. destruct (i_task i =? task) eqn:T.
      2:{ cbn [fst]. apply (oinv_same _ _ _ _ _ _ s); auto. }
      destruct (zget (opts s) (i_option i)) as [opi|].
      2:{ cbn [fst]. apply (oinv_same _ _ _ _ _ _ s); auto. }
      apply Z.eqb_eq in T. specialize (NI i eq_refl T).
      destruct V as [(op & H1 & H2 & H3 & H4 & H5) HI]. cbn zeta. cbn [fst]. constructor.
      + exists op. cbn [setTrans setPending setOpts newId opts]. rewrite zget_set_other by auto.
        do 4 (split; [auto|]). intros N'; apply H5; eapply noLanes_app; eauto.
      + intros id j. cbn [setTrans setPending setOpts newId implReq]. rewrite zget_set.
        destruct (id =? nextId s); [intros Q; injection Q as <-; auto|apply HI].
    - unfold routes. destruct (tk =? task).
      2:{ cbn [fst]. apply (oinv_same _ _ _ _ _ _ s); auto. }
      destruct (zget (rtype s) id) as [[[|] k']|] eqn:R.
      3:{ cbn [fst]. apply (oinv_same _ _ _ _ _ _ s); auto. }
      + unfold implementationRoutes. destruct (zget (reqs s) _) as [q|].
        2:{ cbn [fst]. apply (oinv_same _ _ _ _ _ _ s); auto. }
        destruct (zin id (pendImpl s)).
        2:{ cbn [fst]. apply (oinv_same _ _ _ _ _ _ s); auto. }
        cbn zeta. cbn [setPending opts implReq].
        destruct (zget (opts s) k') as [op1|] eqn:O; [destruct (zget (implReq s) id) as [i|] eqn:GI|];
          [|cbn [fst]; apply (oinv_same _ _ _ _ _ _ s); auto|cbn [fst]; apply (oinv_same _ _ _ _ _ _ s); auto].
        match goal with |- context [fold_left ?f rs ?a] =>
          pose proof (fold_prog f k' rs (implementationRoute_prog task eligible transActive coloc restCost ordv q k' v i) a) as P;
          destruct (fold_left f rs a) as (s3, o3) end.
        cbn [fst] in *. destruct P as (_ & _ & _ & _ & P5 & P6 & _).
        cbn [setPending setOpts opts implReq] in *.
        apply (g_impl _ _ _ _ G) in GI as GI'. destruct GI' as (_ & _ & GI').
        assert (N : k' <> k).
        { rewrite R in GI'. injection GI' as ->. apply (v_impl _ _ _ _ _ V id i GI). }
        destruct V as [(op & H1 & H2 & H3 & H4 & H5) HI]. constructor.
        * exists op. cbn [setPending opts]. rewrite P6, zget_set_other by auto.
          do 4 (split; [auto|]). intros N'; apply H5; eapply noLanes_app; eauto.
        * intros j i'. cbn [setPending implReq]. intros Q.
          destruct (Z.eq_dec j id) as [->|NJ].
          -- rewrite zget_del_same in Q. discriminate.
          -- rewrite zget_del_other, P5 in Q by auto. eauto.
      + unfold optionRoutes. destruct (zin id (pendOpt s)).
        2:{ cbn [fst]. apply (oinv_same _ _ _ _ _ _ s); auto. }
        destruct V as [(op & H1 & H2 & H3 & H4 & H5) HI].
        match goal with |- context [fold_left ?f rs ?a] =>
          pose proof (fold_prog f k' rs (optionRoute_prog task eligible coloc restCost ordv k') a) as P;
          pose proof (optionRoute_opt k' rs a) as Q;
          destruct (fold_left f rs a) as (s3, o3) end.
        cbn [fst] in *. destruct P as (_ & _ & _ & _ & P5 & P6 & _).
        cbn [setPending opts implReq] in *. constructor.
        * destruct (Z.eq_dec k' k) as [->|N].
          -- destruct (Q op H1) as (op' & B1 & B2 & B3 & B4 & B5). exists op'.
             split; [exact B1|]. do 3 (split; [congruence|]). intros N'.
             assert (N2 : noLanes k t) by (eapply noLanes_app; eauto);
                  destruct (H5 N2) as (C1 & C2 & C3); rewrite (B5 C3); auto.
          -- exists op. rewrite P6 by auto.
             do 4 (split; [auto|]). intros N'; apply H5; eapply noLanes_app; eauto.
        * rewrite P5. auto.
  Qed.

  (** ** While nothing is asked and only route request [id] is outstanding *)
  Record core (id : Z) (s s' : st) : Prop := {
    k_opts : opts s' = opts s;
    k_popt : pendOpt s' = pendOpt s;
    k_pimpl : pendImpl s' = pendImpl s;
    k_ireq : implReq s' = implReq s;
    k_trans : trans s' = trans s;
    k_rt : zget (rtype s') id = zget (rtype s) id
  }.
  Lemma core_refl id s : core id s s.
  Proof. constructor; auto. Qed.
  Lemma core_trans id a b c : core id a b -> core id b c -> core id a c.
  Proof. intros [] []. constructor; congruence. Qed.

  Lemma lane_quiet a x :
    (forall j z, zget (rtype (fst a)) j = Some z -> j < nextId (fst a)) ->
    forall id z, zget (rtype (fst a)) id = Some z ->
    noAsk (snd (lane a x)) -> core id (fst a) (fst (lane a x)).
  Proof.
    intros F id z Q. destruct x as ((k, v), l). unfold lane. cbn [newId opts].
    destruct (zget (opts (fst a)) k).
    - cbn [snd]. intros N. specialize (N (Ask (nextId (fst a)) v true (numbered firstRoute l))).
      cbn in N. discriminate N. apply in_or_app. cbn. auto.
    - intros _. constructor; try reflexivity. cbn [fst newId rtype]. apply zget_set_other.
      apply F in Q. lia.
  Qed.
  Lemma lane_out a x : exists o, snd (lane a x) = snd a ++ o.
  Proof.
    destruct x as ((k, v), l). unfold lane. destruct (zget _ k); [eexists; reflexivity|].
    exists []. cbn. rewrite app_nil_r. reflexivity.
  Qed.
  Lemma lanes_out l : forall a, exists o, snd (fold_left lane l a) = snd a ++ o.
  Proof.
    induction l as [|x l IH]; intros a; cbn [fold_left]; [exists []; rewrite app_nil_r; auto|].
    destruct (IH (lane a x)) as (o & E). destruct (lane_out a x) as (o1 & E1).
    exists (o1 ++ o). rewrite E, E1, app_assoc. reflexivity.
  Qed.
  Lemma lanes_quiet evs id z l : forall a,
    ginv task eligible evs (fst a) -> zget (rtype (fst a)) id = Some z ->
    noAsk (snd (fold_left lane l a)) -> core id (fst a) (fst (fold_left lane l a)).
  Proof.
    induction l as [|x l IH]; intros a G Q N; cbn [fold_left] in *; [apply core_refl|].
    assert (C : core id (fst a) (fst (lane a x))).
    { eapply lane_quiet; eauto; [apply G|]. intros y HY. apply N.
      destruct (lanes_out l (lane a x)) as (o & E). rewrite E. apply in_or_app; auto. }
    eapply core_trans; [exact C|]. apply IH; auto.
    - apply ginv_lane, G.
    - rewrite (k_rt _ _ _ C). exact Q.
  Qed.

  Lemma quiet_core evs id s e z :
    ginv task eligible evs s -> zget (rtype s) id = Some z ->
    pendOpt s = [] -> (forall j, In j (pendImpl s) -> j = id) ->
    (forall q u, e = Request q u -> ~ In task (q_tasks q)) ->
    (forall v rs, e <> Routes id task v rs) ->
    noAsk (snd (step s e)) -> core id s (fst (step s e)).
  Proof.
    intros G R P1 P2 NQ NR NA.
    destruct e as [v ts c|v|q u|l|j ms|i|j tk v rs]; cbn [TaskBaseModel.step] in *.
    - unfold entityState. destruct (zin v (assigned s)); [|apply core_refl].
      destruct (zin task ts); [constructor; reflexivity|].
      destruct (zin v (active s)); constructor; reflexivity.
    - cbn [fst]. unfold entityConfiguration.
      destruct (match eligible with [] => true | _ => _ end); constructor; reflexivity.
    - unfold automationRequest. cbn zeta.
      assert (N : zin task (q_tasks q) = false) by (apply zin_false; eapply NQ; eauto).
      rewrite N. constructor; reflexivity.
    - unfold lanes in *. destruct (zget (reqs s) _); [|apply core_refl].
      apply (lanes_quiet evs id z l (s, [])); auto.
    - cbn [fst]. unfold automationResponse. destruct (zget (reqs s) j) as [q|]; [|apply core_refl].
      destruct (q_sandbox q); constructor; reflexivity.
    - unfold implementationRequest in *. destruct (i_task i =? task); [|apply core_refl].
      destruct (zget (opts s) (i_option i)); [|apply core_refl]. cbn zeta in *. cbn [snd] in NA.
      match type of NA with noAsk [?x] => specialize (NA x) end. cbn in NA.
      discriminate NA. auto.
    - unfold routes. destruct (tk =? task) eqn:T; [apply Z.eqb_eq in T; subst tk|apply core_refl].
      destruct (zget (rtype s) j) as [[[|] k]|]; [| |apply core_refl].
      + unfold implementationRoutes. destruct (zget (reqs s) _); [|apply core_refl].
        destruct (zin j (pendImpl s)) eqn:Z; [|apply core_refl].
        apply zin_In, P2 in Z. subst j. edestruct NR; eauto.
      + unfold optionRoutes. rewrite P1. apply core_refl.
  Qed.

  (** ** The routes of a response *)
  Definition costs (tr c : Z) (rs : list route) : Z :=
    fold_left (fun c r => if r_id r =? tr then if 0 <? r_cost r then c + r_cost r else maxCost else c)
      rs c.

  Lemma impl_fold q k v i : forall rs s o op,
    rs <> [] -> NoDup (map r_id rs) -> zget (opts s) k = Some op ->
    (forall x, In x (o_pending op) <-> In x (map r_id rs)) -> In v (configs s) ->
    snd (fold_left (implementationRoute task transActive coloc q k v i) rs (s, o)) =
    o ++ match finish task (d_wps (fst (addRoutes task transActive coloc (q_sandbox q) (trans s)
                 (option_map snd (o_restart op)) false
                 {| d_wps := []; d_number := i_start i; d_first := o_first op |}
                 (putAll (o_plans op) rs)))) with
         | [] => []
         | ws => [Implementation (i_id i) (i_corr i) k v
                    (i_time i + costs (trans s) (p_cost (o_pub op)) rs) (p_end (o_pub op)) ws]
         end.
  Proof.
    induction rs as [|r rs IH]; intros s o op NE N G P C; [contradiction|].
    cbn [fold_left]. unfold implementationRoute at 2. cbn [fst snd]. rewrite G.
    cbn [map] in *. inversion N as [|? ? N1 N2]; subst.
    assert (Z : zin (r_id r) (o_pending op) = true) by (apply zin_In, P; cbn; auto).
    rewrite Z.
    assert (L : forall x, In x (zrem (r_id r) (o_pending op)) <-> In x (map r_id rs)).
    { intros x. rewrite In_zrem, P. cbn [In]. split.
      - intros ([Q|Q] & D); [congruence|exact Q].
      - intros Q. split; [auto|]. intros ->. contradiction. }
    cbn zeta. destruct (zrem (r_id r) (o_pending op)) as [|y l] eqn:ZR.
    - assert (E : rs = []).
      { destruct rs as [|r2 rs2]; auto. destruct (L (r_id r2)) as (_ & Q). destruct Q. cbn; auto. }
      subst rs. cbn [fold_left]. apply zin_In in C as ZC. rewrite ZC.
      cbn [withPlans withPub withPending o_restart o_first o_plans putAll fold_left costs o_pub withCost
           p_cost p_end].
      unfold putAll. cbn [fold_left]. 
      destruct (addRoutes _ _ _ _ _ _ _ _ _) as (d, ps). cbn [fst].
      destruct (finish task (d_wps d)); cbn [snd]; [rewrite app_nil_r|]; reflexivity.
    - rewrite (IH _ o (withPlans (withPub (withPending op (y :: l))
          (withCost (o_pub op)
             (if r_id r =? trans s
              then if 0 <? r_cost r then p_cost (o_pub op) + r_cost r else maxCost
              else p_cost (o_pub op)))) (putPlan (o_plans op) (r_id r) r))); auto.
      + intros ->. destruct (L y) as (Q & _). destruct Q. cbn; auto.
      + cbn [setOpts opts]. apply zget_set_same.
  Qed.
End Opt.

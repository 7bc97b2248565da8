(** C34: the waypoints of a task implementation. *)
From Coq Require Import List ZArith Bool Lia Sorted.
From Verif Require Import ZMap Run TaskBaseModel TaskBaseSpec TaskBaseNotice TaskBaseInv TaskBaseStep
  TaskBaseWps TaskBaseImpl TaskBaseOpt.
Import ListNotations.
Open Scope list_scope.
Open Scope Z_scope.

Section C34.
  Context (task : Z) (eligible : list Z) (transActive : bool) (coloc : Z -> Z -> bool).
  Context (restCost : Z -> list wp -> Z).
  Context (ordv : list Z -> list Z) (ordw : zmap Z -> list (Z * Z)).
  Context (ordw_in : forall m x, In x (ordw m) -> In x m).
  Notation step := (step task eligible transActive coloc restCost ordv ordw).
  Notation run := (run step).
  Notation history := (history task eligible transActive coloc restCost ordv ordw).
  Notation at_ := (at_ task eligible transActive coloc restCost ordv ordw).

  Lemma ninv_at n t : ninv task (map fst t) (at_ n t).
  Proof. apply ninv_run. Qed.
  Lemma ginv_at n t : ginv task eligible (map fst t) (at_ n t).
  Proof. apply ginv_run. Qed.

  Lemma legs_map (ps : list (Z * route)) :
    flat_map (fun p => map (fun w => (w, negb (r_id (snd p) =? 1) || transActive)) (r_wps (snd p))) ps
    = legs transActive (map snd ps).
  Proof. unfold legs. induction ps as [|y ys IH]; cbn; [reflexivity|]. rewrite IH. reflexivity. Qed.

  (** The state when everything asked for since a fresh request has been answered. *)
  Lemma settled n evs t0 q u o0 mid t3 k p prepared :
    history n evs = t0 ++ (Request q u, o0) :: mid ++ t3 ->
    anew task (map fst t0) q ->
    find (fun x => p_option (fst x) =? k) (u_opts u) = Some (p, prepared) ->
    (forall q' u', In (Request q' u') (map fst mid) -> ~ In task (q_tasks q')) ->
    (forall i', In (Implement i') (map fst mid) -> i_task i' = task -> i_option i' <> k) ->
    allAnswered task (t0 ++ [(Request q u, o0)]) mid ->
    let s := at_ n (t0 ++ (Request q u, o0) :: mid) in
    pendOpt s = [] /\ pendImpl s = [] /\
    exists op, zget (opts s) k = Some op /\ o_plans op = putAll [] prepared /\ o_pending op = [] /\
      o_restart op = None /\ p_option (o_pub op) = p_option p /\
      (noLanes k mid -> o_pub op = p /\ o_ask op = []).
  Proof.
    intros H AN F NQ NI AA. cbn zeta. set (R := (Request q u, o0)) in *.
    assert (H1 : snd (run (init n) evs) = t0 ++ R :: (mid ++ t3)) by (rewrite <- H; reflexivity).
    pose proof (hist_next _ _ _ _ _ _ _ _ _ _ _ _ _ H1) as (S1 & O1).
    rewrite (anew_fresh task eligible transActive coloc restCost ordv ordw ordw_in (map fst t0)) in S1, O1
      by (auto using ginv_at).
    set (s1 := setReqs (at_ n t0) (zset (reqs (at_ n t0)) (q_id q) q) (q_id q)) in *.
    assert (NO : noAsk o0).
    { rewrite O1. unfold fresh. cbn [snd]. destruct (u_now u); [apply noAsk_one|apply noAsk_nil]; auto. }
    assert (CI : cinv task (map fst t0) [R] (at_ n (t0 ++ [R]))).
    { unfold R. rewrite S1. constructor.
      - cbn [fresh fst setPlan setOpts setPending setReqs s1 rtype nextId]. apply (ginv_at n t0).
      - intros a e o b id v co l E HI. exfalso. destruct a as [|y a].
        + cbn in E. injection E as <- <- <-. apply NO in HI. discriminate.
        + injection E as _ E. destruct a; discriminate.
      - cbn. tauto.
      - cbn. tauto.
      - intros k0 op x G HX. unfold fresh in G. cbn [fst setPlan setOpts opts] in G.
        rewrite newOpts_find in G. destruct (find (fun x => p_option (fst x) =? k0) (u_opts u)); [|discriminate].
        injection G as <-.
        destruct HX. }
    assert (OI : oinv k p prepared [] (at_ n (t0 ++ [R]))).
    { unfold R. rewrite S1. constructor.
      - unfold fresh. cbn [fst setPlan setOpts opts]. rewrite newOpts_find, F. eexists.
        split; [reflexivity|]. cbn. repeat split; auto.
      - cbn. discriminate. }
    assert (H2 : snd (run (init n) evs) = (t0 ++ [R]) ++ mid ++ t3)
      by (rewrite <- app_assoc; exact H1).
    assert (CM : cinv task (map fst t0) (R :: mid) (at_ n ((t0 ++ [R]) ++ mid))).
    { apply (hist_ind task eligible transActive coloc restCost ordv ordw n evs
        (fun a s => cinv task (map fst t0) (R :: a) s) _ _ _ H2 CI).
      intros a e o b E IH EO. rewrite app_comm_cons, EO. apply cinv_step; auto.
      - rewrite <- map_app. change (t0 ++ R :: a) with (t0 ++ [R] ++ a). rewrite app_assoc. apply ninv_at.
      - intros q' u' ->. apply (NQ q' u'). rewrite E, map_app. apply in_or_app. cbn; auto. }
    assert (OM : oinv k p prepared mid (at_ n ((t0 ++ [R]) ++ mid))).
    { apply (hist_ind task eligible transActive coloc restCost ordv ordw n evs
        (fun a s => oinv k p prepared a s) _ _ _ H2 OI).
      intros a e o b E IH EO. eapply oinv_step; eauto.
      - apply ginv_at.
      - intros q' u' ->. apply (NQ q' u'). rewrite E, map_app. apply in_or_app. cbn; auto.
      - intros i' ->. apply (NI i'). rewrite E, map_app. apply in_or_app. cbn; auto. }
    rewrite <- app_assoc in CM, OM. cbn [app] in CM, OM.
    (* an Ask since the request was made in [mid] and answered *)
    assert (POS : forall a e o b id v co l, R :: mid = a ++ (e, o) :: b -> In (Ask id v co l) o ->
      exists b1 v' rs o' b2, b = b1 ++ (Routes id task v' rs, o') :: b2 /\
        unanswered task id (map fst b1) /\
        current (map fst t0 ++ map fst (a ++ (e, o) :: b1)) <> None /\
        incl (map fst l) (map r_id rs)).
    { intros a e o b id v co l E HI. destruct a as [|y a].
      - cbn in E. injection E as <- <- <-. apply NO in HI. discriminate.
      - injection E as <- E. destruct (AA _ _ _ _ _ _ _ _ E HI) as (b1 & v' & rs & o' & b2 & Q1 & Q2 & Q3 & Q4).
        exists b1, v', rs, o', b2. repeat split; auto.
        rewrite <- map_app. rewrite <- app_assoc in Q3. exact Q3. }
    split; [|split].
    - destruct (pendOpt _) as [|id l] eqn:E; auto. exfalso.
      destruct (c_popt _ _ _ _ CM id) as (a & e & o & b & v & l1 & Q1 & Q2 & Q3);
        [rewrite E; cbn; auto|].
      destruct (POS _ _ _ _ _ _ _ _ Q1 Q2) as (b1 & v' & rs & o' & b2 & -> & _).
      apply (Q3 v' rs). rewrite map_app. apply in_or_app. cbn; auto.
    - destruct (pendImpl _) as [|id l] eqn:E; auto. exfalso.
      destruct (c_pimpl _ _ _ _ CM id) as (a & e & o & b & v & l1 & Q1 & Q2 & Q3);
        [rewrite E; cbn; auto|].
      destruct (POS _ _ _ _ _ _ _ _ Q1 Q2) as (b1 & v' & rs & o' & b2 & -> & _ & Q4 & _).
      apply Q4. eapply Q3. reflexivity.
    - destruct OM as [(op & A1 & A2 & A3 & A4 & A5) _]. exists op. repeat split; auto; [|apply A5; auto|apply A5; auto].
      destruct (o_pending op) as [|x l] eqn:E; auto. exfalso.
      destruct (c_pending _ _ _ _ CM k op x) as (a & e & o & b & id & v & co & l1 & Q1 & Q2 & Q3 & Q4 & Q5);
        [auto|rewrite E; cbn; auto|].
      destruct (POS _ _ _ _ _ _ _ _ Q1 Q2) as (b1 & v' & rs & o' & b2 & -> & U & Q6 & Q7).
      apply Q5. exists b1, v', rs, o', b2. repeat split; auto.
  Qed.

  (** An option made by a request and not asked to be implemented since, with all its routes
      planned, is implemented when the routes asked for on the implementation request arrive,
      completely, while the latest automation request is open:  The response repeats the request's
      numbers and option.  Its waypoints are those of the routes prepared for the option, replaced
      by the routes received, in the order of their numbers, where of waypoints in sequence at the
      same place only the last one is kept; they are numbered from the start asked for, each
      leading to the next.  For an option without routes of its own the vehicle is sent from where
      it is to the option's start, and the response announces the end of the option as place and
      the time asked for plus the time of the way there and the option's cost.  *)
  Theorem C34_implementation n evs t0 q u o0 mid i id v l mid2 v' rs o t3 p prepared :
    history n evs = t0 ++ (Request q u, o0) :: mid ++ (Implement i, [Ask id v false l]) ::
                    mid2 ++ (Routes id task v' rs, o) :: t3 ->
    anew task (map fst t0) q ->
    find (fun x => p_option (fst x) =? i_option i) (u_opts u) = Some (p, prepared) ->
    NoDup (map r_id prepared) ->
    (forall q' u', In (Request q' u') (map fst (mid ++ mid2)) -> ~ In task (q_tasks q')) ->
    (forall i', In (Implement i') (map fst mid) -> i_task i' = task -> i_option i' <> i_option i) ->
    allAnswered task (t0 ++ [(Request q u, o0)]) mid ->
    (forall e o', In (e, o') mid2 -> forall x, In x o' -> isAsk x = false) ->
    (forall v2 rs2, ~ In (Routes id task v2 rs2) (map fst mid2)) ->
    let before := map fst (t0 ++ (Request q u, o0) :: mid ++ (Implement i, [Ask id v false l]) :: mid2) in
    current before <> None ->
    NoDup (map r_id rs) -> (forall x, In x (map fst l) <-> In x (map r_id rs)) ->
    In (Config v') before -> (eligible = [] \/ In v' eligible) ->
    v = i_vehicle i /\ i_task i = task /\
    exists plan ft fp,
      overlay prepared rs plan /\
      (legs transActive plan = [] -> o = []) /\
      (legs transActive plan <> [] -> exists ws,
         o = [Implementation (i_id i) (i_corr i) (i_option i) v' ft fp ws] /\
         implements task coloc (i_start i) (legs transActive plan) ws) /\
      ((forall ls a b, In (Lanes ls) (map fst mid) -> ~ In (i_option i, a, b) ls) ->
         l = [(1, (i_from i, p_start p))] /\ fp = p_end p /\
         forall r, rs = [r] -> 0 < r_cost r -> ft = i_time i + (p_cost p + r_cost r)).
  Proof.
    intros H AN F ND NQ NI AA NA NR before CU NDR SET CF EL.
    set (R := (Request q u, o0)) in *. set (M := (Implement i, [Ask id v false l])) in *.
    assert (ST : let s := at_ n (t0 ++ R :: mid) in
      pendOpt s = [] /\ pendImpl s = [] /\
      exists op, zget (opts s) (i_option i) = Some op /\ o_plans op = putAll [] prepared /\ o_pending op = [] /\
      o_restart op = None /\ p_option (o_pub op) = p_option p /\ (noLanes (i_option i) mid -> o_pub op = p /\ o_ask op = [])).
    { eapply settled; eauto. intros q' u' Q. apply (NQ q' u'). rewrite map_app. apply in_or_app; auto. }
    cbn zeta in ST. destruct ST as (P1 & P2 & op & G & PL & PE & RE & _ & NL).
    assert (H1 : snd (run (init n) evs) = (t0 ++ R :: mid) ++ M :: mid2 ++ (Routes id task v' rs, o) :: t3).
    { rewrite <- app_assoc. exact H. }
    pose proof (hist_next _ _ _ _ _ _ _ _ _ _ _ _ _ H1) as (S2 & O2). fold M in S2.
    set (s2 := at_ n (t0 ++ R :: mid)) in *.
    cbn [TaskBaseModel.step] in S2, O2. unfold implementationRequest in S2, O2.
    destruct (i_task i =? task) eqn:T; [|discriminate O2]. apply Z.eqb_eq in T.
    rewrite G, RE in O2. rewrite G in S2. cbn zeta in S2, O2. cbn [fst snd] in S2, O2.
    injection O2 as EI EV EL2.
    split; [exact EV|]. split; [exact T|].
    set (s3 := at_ n ((t0 ++ R :: mid) ++ [M])) in *.
    set (op3 := withPending op (addAll (zadd fromLast (o_pending op)) (map fst (numbered firstRoute (o_ask op))))) in *.
    assert (G3 : zget (opts s3) (i_option i) = Some op3).
    { rewrite S2. cbn [setTrans setPending setOpts newId opts]. apply zget_set_same. }
    assert (PO3 : pendOpt s3 = []) by (rewrite S2; exact P1).
    assert (PI3 : pendImpl s3 = [id]).
    { rewrite S2. cbn [setTrans setPending setOpts newId pendImpl]. rewrite P2, <- EI. reflexivity. }
    assert (IR3 : zget (implReq s3) id = Some i).
    { rewrite S2, <- EI. cbn [setTrans setPending setOpts newId implReq]. apply zget_set_same. }
    assert (RT3 : zget (rtype s3) id = Some (true, i_option i)).
    { rewrite S2, EI. cbn [setTrans setPending setOpts newId rtype]. apply zget_set_same. }
    assert (TR3 : trans s3 = 1) by (rewrite S2; reflexivity).
    (* nothing happens to the option meanwhile *)
    assert (H2 : snd (run (init n) evs) =
                 ((t0 ++ R :: mid) ++ [M]) ++ mid2 ++ (Routes id task v' rs, o) :: t3).
    { rewrite <- app_assoc. exact H1. }
    assert (CO : core id s3 (at_ n (((t0 ++ R :: mid) ++ [M]) ++ mid2))).
    { apply (hist_ind task eligible transActive coloc restCost ordv ordw n evs
        (fun _ s => core id s3 s) _ _ _ H2); [apply core_refl|].
      intros a e o1 b E IH EO. eapply core_trans; [exact IH|].
      eapply (quiet_core task eligible transActive coloc restCost ordv ordw (map fst (((t0 ++ R :: mid) ++ [M]) ++ a))).
      - apply ginv_at.
      - rewrite (k_rt _ _ _ IH). exact RT3.
      - rewrite (k_popt _ _ _ IH). exact PO3.
      - intros j Q. rewrite (k_pimpl _ _ _ IH), PI3 in Q. destruct Q as [<-|[]]; auto.
      - intros q' u' ->. apply (NQ q' u'). rewrite E, !map_app. apply in_or_app. right. apply in_or_app. cbn; auto.
      - intros v2 rs2 ->. apply (NR v2 rs2). rewrite E, map_app. apply in_or_app. cbn; auto.
      - rewrite <- EO. intros x HX. eapply NA; eauto. rewrite E. apply in_or_app. cbn; auto. }
    assert (H3 : snd (run (init n) evs) =
                 (((t0 ++ R :: mid) ++ [M]) ++ mid2) ++ (Routes id task v' rs, o) :: t3).
    { rewrite <- app_assoc. exact H2. }
    pose proof (hist_next _ _ _ _ _ _ _ _ _ _ _ _ _ H3) as (_ & O4).
    assert (EB : before = map fst (((t0 ++ R :: mid) ++ [M]) ++ mid2)).
    { unfold before. rewrite <- !app_assoc. reflexivity. }
    rewrite EB in CU, CF. set (s4 := at_ n (((t0 ++ R :: mid) ++ [M]) ++ mid2)) in *.
    pose proof (req_current _ _ _ (ninv_at n (((t0 ++ R :: mid) ++ [M]) ++ mid2))) as RC. fold s4 in RC.
    destruct (current _) as [q4|]; [|contradiction].
    cbn [TaskBaseModel.step] in O4. unfold routes in O4.
    rewrite Z.eqb_refl, (k_rt _ _ _ CO), RT3 in O4. unfold implementationRoutes in O4.
    rewrite RC, (k_pimpl _ _ _ CO), PI3 in O4.
    assert (ZI : zin id [id] = true) by (apply zin_In; cbn; auto). rewrite ZI in O4.
    cbn zeta in O4. cbn [setPending opts implReq] in O4.
    rewrite (k_opts _ _ _ CO), G3, (k_ireq _ _ _ CO), IR3 in O4.
    match type of O4 with context [fold_left ?f rs (?a, [])] =>
      pose proof (impl_fold task transActive coloc q4 (i_option i) v' i rs a [] (withFirst op3 (-1))) as IF;
      destruct (fold_left f rs (a, [])) as (s5, o5) end.
    cbn [snd] in O4, IF. subst o5.
    assert (NE : rs <> []).
    { intros ->. destruct (SET 1) as (Q & _). apply Q. rewrite EL2, map_app. apply in_or_app. cbn; auto. }
    rewrite IF; clear IF.
    2: exact NE. 2: exact NDR.
    2:{ cbn [setOpts opts]. apply zget_set_same. }
    2:{ intros x. rewrite <- SET, EL2, map_app, in_app_iff. cbn [withFirst o_pending op3 withPending].
        rewrite in_addAll, In_zadd, PE. cbn. unfold fromLast. intuition. }
    2:{ apply (g_conf _ _ _ _ (ginv_at n (((t0 ++ R :: mid) ++ [M]) ++ mid2))); auto. }
    cbn [setPending setOpts trans withFirst op3 withPending o_plans o_restart o_first o_pub].
    rewrite (k_trans _ _ _ CO), TR3, PL, RE. cbn [option_map app].
    exists (map snd (putAll (putAll [] prepared) rs)), (i_time i + costs 1 (p_cost (o_pub op)) rs), (p_end (o_pub op)).
    split; [apply putAll_overlay; auto|].
    set (d := addRoutes task transActive coloc (q_sandbox q4) 1 None false _ _).
    pose proof (addRoutes_put task transActive coloc (q_sandbox q4) 1 (putAll (putAll [] prepared) rs) false
                  {| d_wps := []; d_number := i_start i; d_first := -1 |}) as AP. fold d in AP.
    cbn [d_wps d_number] in AP.
    assert (EG : flat_map (fun p0 => map (fun w => (w, negb (r_id (snd p0) =? 1) || transActive)) (r_wps (snd p0)))
                   (putAll (putAll [] prepared) rs)
                 = legs transActive (map snd (putAll (putAll [] prepared) rs))).
    { apply legs_map. }
    rewrite EG in AP. set (L := legs transActive (map snd (putAll (putAll [] prepared) rs))) in *.
    pose proof (fold_put_shape task coloc (i_start i) L [] ([], i_start i) (put_start task coloc _)) as SH.
    rewrite <- AP in SH. cbn [app] in SH.
    split; [|split].
    - intros EL0. rewrite EL0 in AP. cbn [fold_left] in AP. injection AP as A1 _. rewrite A1. reflexivity.
    - intros NEL. pose proof (finish_implements task coloc (i_start i) L _ NEL SH) as IM. cbn [fst] in IM.
      destruct (finish task (d_wps (fst d))) as [|w ws] eqn:FI.
      + exfalso. apply finish_nil in FI. destruct SH as (_ & [(Q & _)|(g & gz & body & z & _ & _ & Q & _)]).
        * contradiction.
        * cbn [fst] in Q. rewrite FI in Q. destruct body; discriminate.
      + exists (w :: ws). split; [reflexivity|exact IM].
    - intros NLA. destruct (NL NLA) as (EP & EA). rewrite EP. rewrite EA in EL2. cbn in EL2. rewrite EP in EL2.
      split; [exact EL2|]. split; [reflexivity|].
      intros r -> RC0. unfold costs. cbn [fold_left].
      assert (R1 : r_id r = 1).
      { assert (Q : In 1 (map r_id [r])) by (apply SET; rewrite EL2; cbn; auto).
        destruct Q as [Q|[]]. exact Q. }
      rewrite R1. cbn [Z.eqb Pos.eqb]. apply Z.ltb_lt in RC0. rewrite RC0. reflexivity.
  Qed.

  (** ** Every response *)

  Lemma addRoute_putl sb tr ws d : exists l,
    (d_wps (fst (addRoute task transActive coloc sb tr d ws)),
     d_number (fst (addRoute task transActive coloc sb tr d ws))) =
    fold_left (put task coloc) l (d_wps d, d_number d).
  Proof. eexists. apply addRoute_put. Qed.

  Lemma addRoutes_putl sb tr rest ps : forall found d, exists l,
    (d_wps (fst (addRoutes task transActive coloc sb tr rest found d ps)),
     d_number (fst (addRoutes task transActive coloc sb tr rest found d ps))) =
    fold_left (put task coloc) l (d_wps d, d_number d).
  Proof.
    induction ps as [|(k, r) ps IH]; intros found d; cbn [addRoutes]; [exists []; reflexivity|].
    destruct (if r_id r =? tr then None else rest) as [ws|].
    - destruct found.
      + destruct (IH true d) as (l & E).
        destruct (addRoutes _ _ _ _ _ _ _ _ _) as (d2, l2). cbn [fst] in *. eauto.
      + destruct (addRoute_putl sb (r_id r =? tr) ws d) as (l1 & E1).
        destruct (IH true (fst (addRoute task transActive coloc sb (r_id r =? tr) d ws))) as (l & E).
        destruct (addRoutes _ _ _ _ _ _ _ _ _) as (d2, l2). cbn [fst] in *.
        exists (l1 ++ l). rewrite fold_left_app, <- E1. exact E.
    - destruct (addRoute_putl sb (r_id r =? tr) (r_wps r) d) as (l1 & E1).
      destruct (addRoute _ _ _ _ _ _ _) as (d1, w1). cbn [fst] in E1.
      destruct (IH found d1) as (l & E).
      destruct (addRoutes _ _ _ _ _ _ _ _ _) as (d2, l2). cbn [fst] in *.
      exists (l1 ++ l). rewrite fold_left_app, <- E1. exact E.
  Qed.

  Lemma finish_linked sb tr rest found start f ps :
    linked start (finish task (d_wps (fst (addRoutes task transActive coloc sb tr rest found
                    {| d_wps := []; d_number := start; d_first := f |} ps)))).
  Proof.
    destruct (addRoutes_putl sb tr rest ps found {| d_wps := []; d_number := start; d_first := f |}) as (l & E).
    cbn [d_wps d_number] in E.
    pose proof (fold_put_shape task coloc start l [] ([], start) (put_start task coloc _)) as SH.
    rewrite <- E in SH. cbn [app] in SH. destruct l as [|x l].
    - cbn in E. injection E as -> _. intros j w Q. destruct j; discriminate.
    - pose proof (finish_implements task coloc start (x :: l) _ ltac:(discriminate) SH) as IM.
      cbn [fst] in IM. destruct IM as (g & gz & body & z & _ & _ & L & _). exact L.
  Qed.

  Definition isImpl (o : out) : bool := match o with Implementation _ _ _ _ _ _ _ => true | _ => false end.

  Lemma impl_out q k v i : forall rs s o, exists o',
    snd (fold_left (implementationRoute task transActive coloc q k v i) rs (s, o)) = o ++ o' /\
    (o' = [] \/ exists ft fp ws, o' = [Implementation (i_id i) (i_corr i) k v ft fp ws] /\
                                 linked (i_start i) ws) /\
    (forall op, zget (opts s) k = Some op -> o_pending op = [] -> o' = []).
  Proof.
    induction rs as [|r rs IH]; intros s o; cbn [fold_left].
    - exists []. rewrite app_nil_r. auto.
    - unfold implementationRoute at 2. cbn [fst snd].
      destruct (zget (opts s) k) as [op|] eqn:G; [|rewrite <- G; apply IH].
      destruct (zin (r_id r) (o_pending op)) eqn:Z; [|rewrite <- G; apply IH].
      assert (NP : forall o' : list out, forall op0, Some op = Some op0 -> o_pending op0 = [] -> o' = []).
      { intros o' op0 Q1 Q2. injection Q1 as <-. rewrite Q2 in Z. discriminate. }
      cbn zeta. destruct (zrem (r_id r) (o_pending op)) as [|y l].
      + assert (N0 : forall s1 o1 op1, zget (opts s1) k = Some op1 -> o_pending op1 = [] ->
          snd (fold_left (implementationRoute task transActive coloc q k v i) rs (s1, o1)) = o1).
        { intros s1 o1 op1 Q1 Q2. destruct (IH s1 o1) as (o' & E & _ & N). rewrite E, (N _ Q1 Q2), app_nil_r.
          reflexivity. }
        destruct (zin v (configs s)).
        * cbn [withPlans withPub withPending o_restart o_first o_plans].
          pose proof (finish_linked (q_sandbox q) (trans s) (option_map snd (o_restart op)) false (i_start i)
                        (o_first op) (putPlan (o_plans op) (r_id r) r)) as FL.
          destruct (addRoutes _ _ _ _ _ _ _ _ _) as (d, ps). cbn [fst] in FL.
          destruct (finish task (d_wps d)) as [|w ws] eqn:FI.
          -- exists []. erewrite N0; [rewrite app_nil_r; auto|
               cbn [setTrans setOpts opts]; apply zget_set_same|reflexivity].
          -- eexists. erewrite N0; [|cbn [setTrans setOpts opts]; apply zget_set_same|reflexivity].
             split; [reflexivity|]. split; [right; eauto 6|apply NP].
        * eexists. erewrite N0; [|cbn [setTrans setOpts opts]; apply zget_set_same|reflexivity].
          split; [reflexivity|]. split; [right; repeat eexists; destruct j; discriminate|apply NP].
      + match goal with |- context [fold_left _ rs (?a, o)] => destruct (IH a o) as (o' & E & B & _) end.
        exists o'. split; [exact E|]. split; [exact B|apply NP].
  Qed.

  Lemma optionRoute_noImpl k rs : forall a, (forall x, In x (snd a) -> isImpl x = false) ->
    forall x, In x (snd (fold_left (optionRoute k) rs a)) -> isImpl x = false.
  Proof.
    induction rs as [|r rs IH]; intros a H; cbn [fold_left]; auto. apply IH.
    unfold optionRoute. destruct (zget _ k); auto. cbn [snd]. intros x Q. apply in_app_or in Q.
    destruct Q as [Q|Q]; auto. destruct (allDone _); [|destruct Q]. destruct Q as [<-|[]]. reflexivity.
  Qed.
  Lemma lane_noImpl l : forall a, (forall x, In x (snd a) -> isImpl x = false) ->
    forall x, In x (snd (fold_left lane l a)) -> isImpl x = false.
  Proof.
    induction l as [|((k, v), ls) l IH]; intros a H; cbn [fold_left]; auto. apply IH.
    unfold lane. destruct (zget _ k); auto. cbn [snd]. intros x Q. apply in_app_or in Q.
    destruct Q as [Q|[<-|[]]]; auto.
  Qed.

  (** What a step with an implementation is. *)
  Lemma step_impl evs s e :
    ginv task eligible evs s ->
    (forall x, In x (snd (step s e)) -> isImpl x = false) \/
    exists id v rs i ft fp ws,
      e = Routes id task v rs /\ zget (implReq s) id = Some i /\
      snd (step s e) = [Implementation (i_id i) (i_corr i) (i_option i) v ft fp ws] /\
      linked (i_start i) ws /\ In id (pendImpl s) /\ ~ In id (pendImpl (fst (step s e))).
  Proof.
    intros G. destruct e as [v ts c|v|q u|l|id ms|i|id tk v rs]; cbn [TaskBaseModel.step].
    - left. unfold entityState. intros x. destruct (zin v (assigned s)); [|intros []].
      destruct (zin task ts); destruct (zin v (active s)); cbn [snd];
        try (intros []; fail); intros [<-|[]]; reflexivity.
    - left. intros x [].
    - left. unfold automationRequest. cbn zeta. intros x. destruct (zin task (q_tasks q)); [|intros []].
      destruct (candidate _ _ _) as [(((v, w), k), o)|].
      + unfold restart. destruct (match zget (o_plans o) firstRoute with Some _ => _ | None => _ end);
          cbn [snd]; [intros []|]. intros [<-|[]]. reflexivity.
      + unfold fresh. cbn [snd]. destruct (u_now u); [|intros []]. intros [<-|[]]. reflexivity.
    - left. unfold lanes. destruct (zget (reqs s) _); [|intros x []]. apply lane_noImpl. intros x [].
    - left. intros x [].
    - left. unfold implementationRequest. intros x. destruct (i_task i =? task); [|intros []].
      destruct (zget _ _); [|intros []]. cbn zeta. cbn [snd]. intros [<-|[]]. reflexivity.
    - unfold routes. destruct (tk =? task) eqn:T; [apply Z.eqb_eq in T; subst tk|left; intros x []].
      destruct (zget (rtype s) id) as [[[|] k]|] eqn:R; [| |left; intros x []].
      2:{ left. unfold optionRoutes. destruct (zin id (pendOpt s)); [|intros x []].
          apply optionRoute_noImpl. intros x []. }
      unfold implementationRoutes. destruct (zget (reqs s) _) as [q|]; [|left; intros x []].
      destruct (zin id (pendImpl s)) eqn:ZI; [|left; intros x []].
      cbn zeta. cbn [setPending opts implReq].
      destruct (zget (opts s) k) as [op|]; [|left; intros x []].
      destruct (zget (implReq s) id) as [i|] eqn:GI; [|left; intros x []].
      match goal with |- context [fold_left ?f rs (?a, [])] =>
        destruct (impl_out q k v i rs a []) as (o' & E & B & _);
        pose proof (fold_prog f k rs (implementationRoute_prog task eligible transActive coloc restCost ordv q k v i) (a, [])) as P;
        destruct (fold_left f rs (a, [])) as (s3, o3) end.
      cbn [fst snd app] in *. subst o3. destruct B as [->|(ft & fp & ws & -> & L)]; [left; intros x []|].
      right. exists id, v, rs, i, ft, fp, ws.
      apply (g_impl _ _ _ _ G) in GI as GI'. destruct GI' as (_ & _ & GI').
      rewrite R in GI'. injection GI' as ->.
      do 4 (split; [auto|]). split; [apply zin_In, ZI|].
       destruct P as (_ & _ & _ & P4 & _). cbn [setPending pendImpl setOpts] in *. rewrite P4, In_zrem. tauto.
  Qed.

  (** Each implementation sent is sent on a response to a route request, answers an implementation
      request for this task received before, repeats its numbers and its option, and its waypoints
      are numbered consecutively from the start asked for, each leading to the next. *)
  Theorem C34_numbering n evs t1 e o t2 r c k v ft fp ws :
    history n evs = t1 ++ (e, o) :: t2 -> In (Implementation r c k v ft fp ws) o ->
    exists id rs i,
      e = Routes id task v rs /\ In (Implement i) (map fst t1) /\ i_task i = task /\
      r = i_id i /\ c = i_corr i /\ k = i_option i /\ linked (i_start i) ws.
  Proof.
    intros H HI. apply hist_next in H. destruct H as (_ & ->).
    destruct (step_impl (map fst t1) (at_ n t1) e (ginv_at n t1))
      as [N|(id & v1 & rs & i & ft1 & fp1 & ws1 & -> & GI & E & L & _)].
    - apply N in HI. discriminate.
    - rewrite E in HI. destruct HI as [HI|[]]. injection HI as <- <- <- -> <- <- <-.
      apply (g_impl _ _ _ _ (ginv_at n t1)) in GI. destruct GI as (G1 & G2 & _).
      exists id, rs, i. do 6 (split; [auto|]). exact L.
  Qed.

  Lemma gone_step evs id s e :
    ginv task eligible evs s -> ~ In id (pendImpl s) -> id < nextId s ->
    ~ In id (pendImpl (fst (step s e))) /\ id < nextId (fst (step s e)).
  Proof.
    intros G N L. destruct e as [v ts c|v|q u|l|j ms|i|j tk v rs]; cbn [TaskBaseModel.step].
    - unfold entityState. destruct (zin v (assigned s)); auto. destruct (zin task ts); auto.
      destruct (zin v (active s)); auto.
    - cbn [fst]. unfold entityConfiguration. destruct (match eligible with [] => true | _ => _ end); auto.
    - unfold automationRequest. cbn zeta. destruct (zin task (q_tasks q)); auto.
      destruct (candidate _ _ _) as [(((v, w), k), o)|].
      + unfold restart. destruct (match zget (o_plans o) firstRoute with Some _ => _ | None => _ end); auto.
      + cbn. auto.
    - unfold lanes. destruct (zget (reqs s) _); auto.
      assert (Q : forall l a, ~ In id (pendImpl (fst a)) /\ id < nextId (fst a) ->
        ~ In id (pendImpl (fst (fold_left lane l a))) /\ id < nextId (fst (fold_left lane l a))).
      { clear. induction l as [|((k, v), ls) l IH]; intros a H; cbn [fold_left]; auto. apply IH.
        unfold lane. destruct (zget _ k); cbn; destruct H; split; auto; lia. }
      apply Q. auto.
    - cbn [fst]. unfold automationResponse. destruct (zget (reqs s) j) as [q|]; auto.
      destruct (q_sandbox q); auto.
    - unfold implementationRequest. destruct (i_task i =? task); auto.
      destruct (zget _ _); auto. cbn zeta. cbn [fst setTrans setPending setOpts newId pendImpl nextId].
      rewrite In_zadd. split; [|lia]. intros [->|Q]; [lia|auto].
    - unfold routes. destruct (tk =? task); auto.
      destruct (zget (rtype s) j) as [[[|] k]|]; auto.
      + unfold implementationRoutes. destruct (zget (reqs s) _) as [q|]; auto.
        destruct (zin j (pendImpl s)); auto. cbn zeta. cbn [setPending opts implReq].
        destruct (zget (opts s) k); [destruct (zget (implReq s) j) as [i|]|].
        * match goal with |- context [fold_left ?f rs (?a, [])] =>
            pose proof (fold_prog f k rs (implementationRoute_prog task eligible transActive coloc restCost ordv q k v i) (a, [])) as P;
            destruct (fold_left f rs (a, [])) as (s3, o3) end.
          cbn [fst] in *. destruct P as (_ & P2 & _ & P4 & _). cbn [setPending pendImpl setOpts nextId] in *.
          rewrite P4, In_zrem, P2. tauto.
        * cbn [fst setPending pendImpl nextId]. rewrite In_zrem. tauto.
        * cbn [fst setPending pendImpl nextId]. rewrite In_zrem. tauto.
      + unfold optionRoutes. destruct (zin j (pendOpt s)); auto.
        match goal with |- context [fold_left ?f rs (?a, [])] =>
            pose proof (fold_prog f k rs (optionRoute_prog task eligible coloc restCost ordv k) (a, [])) as P;
            destruct (fold_left f rs (a, [])) as (s3, o3) end.
        cbn [fst] in *. destruct P as (_ & P2 & _ & P4 & _). cbn [setPending pendImpl setOpts nextId] in *.
        rewrite P4, P2. auto.
  Qed.

  (** Each route request leads to at most one implementation: a response to a route request is
      answered with at most one message, and after an implementation was sent no further response
      to the same request causes one. *)
  Theorem C34_once n evs t1 e o t2 :
    history n evs = t1 ++ (e, o) :: t2 ->
    (exists x, In x o /\ isImpl x = true) ->
    (exists x, o = [x]) /\
    exists id v rs, e = Routes id task v rs /\
      forall v' rs' o', In (Routes id task v' rs', o') t2 -> forall x, In x o' -> isImpl x = false.
  Proof.
    intros H (x & HX & IX). pose proof H as H0. apply hist_next in H. destruct H as (S1 & ->).
    destruct (step_impl (map fst t1) (at_ n t1) e (ginv_at n t1))
      as [N|(id & v1 & rs & i & ft1 & fp1 & ws1 & -> & GI & E & L & P1 & P2)].
    - apply N in HX. congruence.
    - split; [eauto|]. exists id, v1, rs. split; [reflexivity|]. intros v' rs' o' HI y HY.
      apply in_split in HI. destruct HI as (b & c & ->).
      set (X := (Routes id task v1 rs, snd (step (at_ n t1) (Routes id task v1 rs)))) in *.
      assert (H1 : snd (run (init n) evs) = (t1 ++ [X]) ++ b ++ (Routes id task v' rs', o') :: c)
        by (rewrite <- app_assoc; exact H0).
      assert (GO : ~ In id (pendImpl (at_ n ((t1 ++ [X]) ++ b))) /\ id < nextId (at_ n ((t1 ++ [X]) ++ b))).
      { apply (hist_ind task eligible transActive coloc restCost ordv ordw n evs
          (fun _ s => ~ In id (pendImpl s) /\ id < nextId s) _ _ _ H1).
        - rewrite S1. split; auto.
          pose proof (g_pend _ _ _ _ (ginv_at n t1) id P1) as LT.
          assert (R : nextId (fst (step (at_ n t1) (Routes id task v1 rs))) = nextId (at_ n t1)).
          { clear. cbn [TaskBaseModel.step]. set (s := at_ n t1). unfold routes. rewrite Z.eqb_refl.
            destruct (zget (rtype s) id) as [[[|] k]|]; auto.
            - unfold implementationRoutes. destruct (zget (reqs s) _) as [q|]; auto.
              destruct (zin id (pendImpl s)); auto. cbn zeta. cbn [setPending opts implReq].
              destruct (zget (opts s) k); [destruct (zget (implReq s) id) as [i|]|]; auto.
              match goal with |- context [fold_left ?f rs (?a, [])] =>
                pose proof (fold_prog f k rs (implementationRoute_prog task eligible transActive coloc restCost ordv q k v1 i) (a, [])) as P;
                destruct (fold_left f rs (a, [])) as (s3, o3) end.
              cbn [fst] in *. destruct P as (_ & P2 & _). exact P2.
            - unfold optionRoutes. destruct (zin id (pendOpt s)); auto.
              match goal with |- context [fold_left ?f rs (?a, [])] =>
                pose proof (fold_prog f k rs (optionRoute_prog task eligible coloc restCost ordv k) (a, [])) as P;
                destruct (fold_left f rs (a, [])) as (s3, o3) end.
              cbn [fst] in *. destruct P as (_ & P2 & _). exact P2. }
          rewrite R. exact LT.
        - intros a e1 o1 b1 EB (N & LT) EO. eapply gone_step; eauto. apply ginv_at. }
      assert (H2 : snd (run (init n) evs) = ((t1 ++ [X]) ++ b) ++ (Routes id task v' rs', o') :: c)
        by (rewrite <- app_assoc; exact H1).
      apply hist_next in H2. destruct H2 as (_ & EO). rewrite EO in HY.
      destruct (step_impl _ (at_ n ((t1 ++ [X]) ++ b)) (Routes id task v' rs') (ginv_at n _))
        as [N|(id2 & v2 & rs2 & i2 & ft2 & fp2 & ws2 & Q & _ & _ & _ & P3 & _)].
      + apply N. exact HY.
      + injection Q as <- _ _. destruct GO. contradiction.
  Qed.
End C34.

(** Task 5, vehicle 7: an option with one prepared route; the way to it ends where the prepared
    route starts. *)
Definition wpt (n x pos : Z) : wp := {| w_number := n; w_next := x; w_pos := pos; w_tasks := [] |}.
Definition p1 : pub := {| p_option := 1; p_eligible := [7]; p_cost := 30; p_start := 20; p_end := 22 |}.
Definition q1 : areq :=
  {| q_id := 1; q_sandbox := false; q_redo := false; q_tasks := [5]; q_entities := [7] |}.
Definition onTask : route := {| r_id := 2; r_cost := 0; r_wps := [wpt 1 2 20; wpt 2 3 21; wpt 3 0 22] |}.
Definition toTask : route := {| r_id := 1; r_cost := 4; r_wps := [wpt 1 2 10; wpt 2 0 20] |}.
Definition i1 : ireq :=
  {| i_id := 11; i_task := 5; i_option := 1; i_vehicle := 7; i_start := 100; i_from := 10;
     i_time := 1000; i_corr := 1 |}.
Definition b1 : built := {| u_opts := [(p1, [onTask])]; u_now := true |}.
Definition play (evs : list ev) : list (ev * list out) :=
  history 5 [] false Z.eqb (fun _ _ => 0) (fun l => l) (fun m => m) 50 evs.
Definition trip : list ev :=
  [Config 7; Request q1 b1; State 7 [] 1; Implement i1; Config 8; Routes 50 5 7 [toTask]].

Example C34_trip :
  map snd (play trip) =
  [[]; [Options 1 [p1]]; []; [Ask 50 7 false [(1, (10, 20))]]; [];
   [Implementation 11 1 1 7 1034 22
      [{| w_number := 100; w_next := 101; w_pos := 10; w_tasks := [] |};
       {| w_number := 101; w_next := 102; w_pos := 20; w_tasks := [5] |};
       {| w_number := 102; w_next := 103; w_pos := 21; w_tasks := [5] |};
       {| w_number := 103; w_next := 104; w_pos := 22; w_tasks := [5] |};
       {| w_number := 104; w_next := 104; w_pos := 22; w_tasks := [] |}]]].
Proof. vm_compute. reflexivity. Qed.

(** It meets the conditions of [C34_implementation]. *)
Example C34_trip_conditions :
  exists t0 o0 mid mid2 o t3,
    play trip = t0 ++ (Request q1 b1, o0) :: mid ++ (Implement i1, [Ask 50 7 false [(1, (10, 20))]]) ::
                mid2 ++ (Routes 50 5 7 [toTask], o) :: t3 /\
    anew 5 (map fst t0) q1 /\
    find (fun x => p_option (fst x) =? i_option i1) (u_opts b1) = Some (p1, [onTask]) /\
    NoDup (map r_id [onTask]) /\
    (forall q' u', In (Request q' u') (map fst (mid ++ mid2)) -> ~ In 5 (q_tasks q')) /\
    (forall i', In (Implement i') (map fst mid) -> i_task i' = 5 -> i_option i' <> i_option i1) /\
    allAnswered 5 (t0 ++ [(Request q1 b1, o0)]) mid /\
    (forall e o', In (e, o') mid2 -> forall x, In x o' -> isAsk x = false) /\
    (forall v2 rs2, ~ In (Routes 50 5 v2 rs2) (map fst mid2)) /\
    current (map fst (t0 ++ (Request q1 b1, o0) :: mid ++
                      (Implement i1, [Ask 50 7 false [(1, (10, 20))]]) :: mid2)) <> None /\
    NoDup (map r_id [toTask]) /\
    In (Config 7) (map fst t0) /\
    legs false [toTask; onTask] <> [] /\ mid <> [] /\ mid2 <> [].
Proof.
  exists [(Config 7, [])], [Options 1 [p1]], [(State 7 [] 1, [])], [(Config 8, [])].
  eexists. exists []. split; [vm_compute; reflexivity|].
  repeat split; try discriminate; cbn; auto; try tauto.
  - right. intros v ts c _ [Q|[]]. discriminate.
  - repeat constructor. cbn. tauto.
  - intros q' u' [Q|[Q|[]]]; discriminate.
  - intros i' [Q|[]]; discriminate.
  - intros a e o b id v co l E HI. destruct a as [|x a]; [injection E as <- <- <-; destruct HI|].
    injection E as _ E. destruct a; discriminate.
  - intros e o' [Q|[]]. injection Q as <- <-. intros x [].
  - intros v2 rs2 [Q|[]]. discriminate.
  - repeat constructor. cbn. tauto.
Qed.

(** The conditions on the routes are needed.  If the routes end with two waypoints at the same
    place, no closing waypoint is added and the last waypoint of the implementation leads to a
    waypoint number which does not exist. *)
Theorem C34_ends_refuted :
  ~ (forall evs e o r c k v ft fp ws w, In (e, o) (play evs) -> In (Implementation r c k v ft fp ws) o ->
       In w ws -> exists w', In w' ws /\ w_number w' = w_next w).
Proof.
  intros H.
  set (b2 := {| u_opts := [(p1, [{| r_id := 2; r_cost := 0; r_wps := [wpt 1 2 21; wpt 2 0 21] |}])];
                u_now := true |}).
  set (evs := [Config 7; Request q1 b2; Implement i1; Routes 50 5 7 [toTask]]).
  assert (E : play evs =
    [(Config 7, []); (Request q1 b2, [Options 1 [p1]]); (Implement i1, [Ask 50 7 false [(1, (10, 20))]]);
     (Routes 50 5 7 [toTask], [Implementation 11 1 1 7 1034 22
      [{| w_number := 100; w_next := 101; w_pos := 10; w_tasks := [] |};
       {| w_number := 101; w_next := 102; w_pos := 20; w_tasks := [] |};
       {| w_number := 102; w_next := 103; w_pos := 21; w_tasks := [5] |}]])]).
  { vm_compute. reflexivity. }
  edestruct (H evs (Routes 50 5 7 [toTask])) as (w' & HI & HN).
  - rewrite E. cbn. auto 6.
  - cbn. eauto.
  - cbn. right. right. left. reflexivity.
  - cbn in HI, HN. repeat (destruct HI as [<-|HI]; [cbn in HN; discriminate HN|]). destruct HI.
Qed.

(** Two implementation requests for the same option, both with a complete answer of the route
    planner: only the first one gets a response. *)
Theorem C34_repeated_refuted :
  exists i2 evs,
    i_option i2 = i_option i1 /\ i_id i2 <> i_id i1 /\
    (exists o1 o2, In (Implement i1, [Ask 50 7 false o1]) (play evs) /\
                   In (Implement i2, [Ask 51 7 false o2]) (play evs) /\
                   map fst o1 = [1] /\ map fst o2 = [1]) /\
    In (Routes 50 5 7 [toTask]) evs /\ In (Routes 51 5 7 [toTask]) evs /\
    forall e o c k v ft fp ws, In (e, o) (play evs) -> ~ In (Implementation (i_id i2) c k v ft fp ws) o.
Proof.
  set (i2 := {| i_id := 12; i_task := 5; i_option := 1; i_vehicle := 7; i_start := 200; i_from := 11;
                i_time := 2000; i_corr := 1 |}).
  exists i2, [Config 7; Request q1 b1; Implement i1; Implement i2; Routes 50 5 7 [toTask];
              Routes 51 5 7 [toTask]].
  split; [reflexivity|]. split; [discriminate|]. split.
  { exists [(1, (10, 20))], [(1, (11, 20))]. split; [vm_compute; auto|]. split; [vm_compute; auto|].
    auto. }
  split; [cbn; auto 8|]. split; [cbn; auto 8|].
  match goal with |- forall e o c k v ft fp ws, In (e, o) (play ?l) -> _ => set (evs := l) end.
  assert (E : forallb (fun x => forallb (fun y => match y with
                | Implementation r _ _ _ _ _ _ => negb (r =? 12) | _ => true end) (snd x)) (play evs) = true)
    by (vm_compute; reflexivity).
  intros e o c k v ft fp ws HI HX. rewrite forallb_forall in E. apply E in HI. cbn [snd] in HI.
  rewrite forallb_forall in HI. apply HI in HX. discriminate.
Qed.

(** Two options of the task, both asked to be implemented before the routes arrive: in the second
    response the way to the task is taken for a part of the task, and its duration is left out of
    the announced time. *)
Theorem C34_parallel_refuted :
  exists evs i2 p2 ws,
    i_option i2 = p_option p2 /\ p_cost p2 = 40 /\ i_time i2 = 1000 /\
    In (Routes 51 5 8 [toTask],
        [Implementation (i_id i2) (i_corr i2) (i_option i2) 8 1040 (p_end p2) ws]) (play evs) /\
    (exists w, In w ws /\ w_pos w = 10 /\ In 5 (w_tasks w)) /\ In (wpt 1 2 10) (r_wps toTask).
Proof.
  set (p2 := {| p_option := 2; p_eligible := [8]; p_cost := 40; p_start := 20; p_end := 22 |}).
  set (i2 := {| i_id := 12; i_task := 5; i_option := 2; i_vehicle := 8; i_start := 200; i_from := 11;
                i_time := 1000; i_corr := 1 |}).
  exists [Config 7; Config 8; Request q1 {| u_opts := [(p1, [onTask]); (p2, [onTask])]; u_now := true |};
          Implement i1; Implement i2; Routes 50 5 7 [toTask]; Routes 51 5 8 [toTask]].
  exists i2, p2. eexists. split; [reflexivity|]. split; [reflexivity|]. split; [reflexivity|]. split.
  { vm_compute. do 6 right. left. reflexivity. }
  split; [|cbn; auto]. eexists. split; [left; reflexivity|]. cbn. auto.
Qed.

Print Assumptions C34_implementation.
Print Assumptions C34_numbering.
Print Assumptions C34_once.
Print Assumptions C34_ends_refuted.
Print Assumptions C34_repeated_refuted.
Print Assumptions C34_parallel_refuted.

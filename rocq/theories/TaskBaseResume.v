(** Resuming an interrupted task. *)
From Coq Require Import List ZArith Bool Lia Sorted.
From Verif Require Import ZMap Run TaskBaseModel TaskBaseSpec TaskBaseNotice TaskBaseInv TaskBaseStep
  TaskBaseWps TaskBaseImpl TaskBaseOpt TaskBaseOptions.
Import ListNotations.
Open Scope list_scope.
Open Scope Z_scope.

Lemma alike_number w n : alike w (withNumber w n).
Proof. repeat split. Qed.

(** ** The part of a route that is left *)

Lemma resume_none n : forall ws last acc,
  acc <> [] -> (forall w, In w ws -> w_number w <> n) -> resume n last acc ws = acc ++ ws.
Proof.
  induction ws as [|w ws IH]; intros last acc NE H; cbn [resume]; [rewrite app_nil_r; reflexivity|].
  assert (N : (n =? w_number w) = false) by (apply Z.eqb_neq; intros Q; apply (H w); cbn; auto).
  rewrite N. assert (E : (match last with Some _ => acc | None => acc end) = acc) by (destruct last; auto).
  rewrite E. destruct acc as [|a acc]; [contradiction|].
  rewrite IH; [rewrite <- app_assoc; reflexivity|destruct acc; discriminate|].
  intros w' Q. apply H. cbn; auto.
Qed.

Lemma resume_split n y : forall a x b last,
  w_number y = n -> (forall w, In w (a ++ [x]) -> w_number w <> n) ->
  (forall w, In w b -> w_number w <> n) ->
  resume n last [] (a ++ x :: y :: b) = x :: y :: b.
Proof.
  induction a as [|w a IH]; intros x b last EY HA HB.
  - cbn [app resume].
    assert (N : (n =? w_number x) = false) by (apply Z.eqb_neq; intros Q; apply (HA x); cbn; auto).
    rewrite N. assert (E : (match last with Some _ => [] | None => [] end) = @nil wp) by (destruct last; auto).
    rewrite E, EY, Z.eqb_refl. cbn [app]. rewrite resume_none; [reflexivity|discriminate|auto].
  - cbn [app resume].
    assert (N : (n =? w_number w) = false) by (apply Z.eqb_neq; intros Q; apply (HA w); cbn; auto).
    rewrite N. assert (E : (match last with Some _ => [] | None => [] end) = @nil wp) by (destruct last; auto).
    rewrite E. apply IH; auto. intros w' Q. apply HA. cbn; auto.
Qed.

Definition renumber (n : Z) (ws : list wp) : list wp :=
  map (fun p => withNumber (snd p) (fst p)) (numbered n ws).

Lemma renumber_app : forall a b n,
  renumber n (a ++ b) = renumber n a ++ renumber (n + Z.of_nat (length a)) b.
Proof.
  unfold renumber. induction a as [|w a IH]; intros b n.
  - cbn. rewrite Z.add_0_r. reflexivity.
  - cbn [app numbered map length]. rewrite IH. cbn [app].
    replace (n + 1 + Z.of_nat (length a)) with (n + Z.of_nat (S (length a))) by lia. reflexivity.
Qed.
Lemma renumber_in : forall ws n w, In w (renumber n ws) -> n <= w_number w < n + Z.of_nat (length ws).
Proof.
  unfold renumber. induction ws as [|x ws IH]; intros n w; cbn [numbered map In length]; [tauto|].
  intros [<-|Q]; [cbn; lia|]. apply IH in Q. lia.
Qed.
Lemma renumber_alike : forall ws n, Forall2 alike ws (renumber n ws).
Proof.
  unfold renumber. induction ws as [|x ws IH]; intros n; cbn [numbered map]; constructor; auto.
  apply alike_number.
Qed.
Lemma renumber_length ws : forall n, length (renumber n ws) = length ws.
Proof. unfold renumber. induction ws as [|x ws IH]; intros n; cbn; auto. Qed.

Section Resume.
  Context (task : Z) (eligible : list Z) (transActive : bool) (coloc : Z -> Z -> bool).
  Context (restCost : Z -> list wp -> Z).
  Context (ordv : list Z -> list Z) (ordw : zmap Z -> list (Z * Z)).
  Context (ordw_in : forall m x, In x (ordw m) -> In x m).
  Notation step := (step task eligible transActive coloc restCost ordv ordw).
  Notation run := (run step).
  Notation at_ := (at_ task eligible transActive coloc restCost ordv ordw).

  (** ** The state after a response *)
  Lemma impl_fold_state q k v i : forall rs s o op,
    rs <> [] -> NoDup (map r_id rs) -> zget (opts s) k = Some op ->
    (forall x, In x (o_pending op) <-> In x (map r_id rs)) -> In v (configs s) ->
    let r := addRoutes task transActive coloc (q_sandbox q) (trans s)
                 (option_map snd (o_restart op)) false
                 {| d_wps := []; d_number := i_start i; d_first := o_first op |}
                 (putAll (o_plans op) rs) in
    let s' := fst (fold_left (implementationRoute task transActive coloc q k v i) rs (s, o)) in
    pendOpt s' = pendOpt s /\ pendImpl s' = pendImpl s /\
    (d_wps (fst r) <> [] -> zget (optOf s') v = Some k) /\
    exists op', zget (opts s') k = Some op' /\ o_plans op' = snd r /\ o_first op' = d_first (fst r) /\
      o_restart op' = None /\ o_pending op' = [] /\ o_ask op' = o_ask op /\
      o_pub op' = withCost (o_pub op) (costs (trans s) (p_cost (o_pub op)) rs).
  Proof.
    induction rs as [|r rs IH]; intros s o op NE N G P C; [contradiction|].
    cbn [fold_left]. set (A := implementationRoute task transActive coloc q k v i (s, o) r).
    assert (EA : A = implementationRoute task transActive coloc q k v i (s, o) r) by reflexivity.
    clearbody A. unfold implementationRoute in EA. cbn [fst snd] in EA. rewrite G in EA.
    cbn [map] in *. apply NoDup_cons_iff in N. destruct N as (N1 & N2).
    assert (Z : zin (r_id r) (o_pending op) = true) by (apply zin_In, P; cbn; auto).
    rewrite Z in EA.
    assert (L : forall x, In x (zrem (r_id r) (o_pending op)) <-> In x (map r_id rs)).
    { intros x. rewrite In_zrem, P. cbn [In]. split.
      - intros ([Q|Q] & D); [congruence|exact Q].
      - intros Q. split; [auto|]. intros ->. contradiction. }
    cbn zeta in *. destruct (zrem (r_id r) (o_pending op)) as [|y l] eqn:ZR.
    - assert (E : rs = []).
      { destruct rs as [|r2 rs2]; auto. destruct (L (r_id r2)) as (_ & Q). destruct Q. cbn; auto. }
      subst rs. cbn [fold_left]. apply zin_In in C as ZC. rewrite ZC in EA.
      cbn [withPlans withPub withPending o_restart o_first o_plans o_pub withCost p_cost p_end] in EA.
      unfold putAll, costs. cbn [fold_left].
      destruct (addRoutes _ _ _ _ _ _ _ _ _) as (d, ps). cbn [fst snd].
      destruct (finish task (d_wps d)) as [|w ws] eqn:F; subst A; cbn [fst snd setTrans setOpts opts pendOpt pendImpl optOf].
      + do 2 (split; [reflexivity|]). split.
        * intros Q. apply finish_nil in F. contradiction.
        * eexists. split; [apply zget_set_same|]. repeat split.
      + do 2 (split; [reflexivity|]). split.
        * intros _. apply zget_set_same.
        * eexists. split; [apply zget_set_same|]. repeat split.
    - subst A. match goal with |- context [fold_left _ rs (?s1, ?o1)] =>
        specialize (IH s1 o1 (withPlans (withPub (withPending op (y :: l))
          (withCost (o_pub op)
             (if r_id r =? trans s
              then if 0 <? r_cost r then p_cost (o_pub op) + r_cost r else maxCost
              else p_cost (o_pub op)))) (putPlan (o_plans op) (r_id r) r))) end.
      cbn zeta in IH. destruct IH as (I1 & I2 & I3 & I4); auto.
      + intros ->. destruct (L y) as (Q & _). destruct Q. cbn; auto.
      + cbn [setOpts opts]. apply zget_set_same.
  Qed.

  (** ** From an implementation request to the response *)
  Lemma span n evs tA i id v l mid2 v' rs o t3 op :
    snd (run (init n) evs) = tA ++ (Implement i, [Ask id v false l]) :: mid2 ++ (Routes id task v' rs, o) :: t3 ->
    pendOpt (at_ n tA) = [] -> pendImpl (at_ n tA) = [] ->
    zget (opts (at_ n tA)) (i_option i) = Some op -> o_pending op = [] ->
    (forall q' u', In (Request q' u') (map fst mid2) -> ~ In task (q_tasks q')) ->
    (forall e o', In (e, o') mid2 -> forall x, In x o' -> isAsk x = false) ->
    (forall v2 rs2, ~ In (Routes id task v2 rs2) (map fst mid2)) ->
    let before := map fst (tA ++ (Implement i, [Ask id v false l]) :: mid2) in
    current before <> None ->
    NoDup (map r_id rs) -> (forall x, In x (map fst l) <-> In x (map r_id rs)) ->
    In (Config v') before -> (eligible = [] \/ In v' eligible) ->
    v = i_vehicle i /\ i_task i = task /\
    l = numbered 2 (o_ask op) ++
        [(1, (i_from i, match o_restart op with Some (p, _) => p | None => p_start (o_pub op) end))] /\
    exists sb,
      let r := addRoutes task transActive coloc sb 1 (option_map snd (o_restart op)) false
                 {| d_wps := []; d_number := i_start i; d_first := -1 |} (putAll (o_plans op) rs) in
      let s' := at_ n (tA ++ (Implement i, [Ask id v false l]) :: mid2 ++ [(Routes id task v' rs, o)]) in
      o = match finish task (d_wps (fst r)) with
          | [] => []
          | ws => [Implementation (i_id i) (i_corr i) (i_option i) v'
                     (i_time i + costs 1 (p_cost (o_pub op)) rs) (p_end (o_pub op)) ws]
          end /\
      pendOpt s' = [] /\ pendImpl s' = [] /\
      (d_wps (fst r) <> [] -> zget (optOf s') v' = Some (i_option i)) /\
      exists op', zget (opts s') (i_option i) = Some op' /\ o_plans op' = snd r /\
        o_first op' = d_first (fst r) /\ o_restart op' = None /\ o_pending op' = [] /\
        o_ask op' = o_ask op /\ o_pub op' = withCost (o_pub op) (costs 1 (p_cost (o_pub op)) rs).
  Proof.
    intros H P1 P2 G PE NQ NA NR before CU NDR SET CF EL.
    set (M := (Implement i, [Ask id v false l])) in *.
    pose proof (hist_next _ _ _ _ _ _ _ _ _ _ _ _ _ H) as (S2 & O2). fold M in S2.
    set (s2 := at_ n tA) in *.
    cbn [TaskBaseModel.step] in S2, O2. unfold implementationRequest in S2, O2.
    destruct (i_task i =? task) eqn:T; [|discriminate O2]. apply Z.eqb_eq in T.
    rewrite G in S2, O2. cbn zeta in S2, O2. cbn [fst snd] in S2, O2.
    injection O2 as EI EV EL2.
    split; [exact EV|]. split; [exact T|]. split; [exact EL2|].
    set (s3 := at_ n (tA ++ [M])) in *.
    set (op3 := withPending op (addAll (zadd fromLast (o_pending op)) (map fst (numbered firstRoute (o_ask op))))) in *.
    assert (G3 : zget (opts s3) (i_option i) = Some op3).
    { rewrite S2. cbn [setTrans setPending setOpts newId opts]. apply zget_set_same. }
    assert (PO3 : pendOpt s3 = []) by (rewrite S2; exact P1).
    assert (PI3 : pendImpl s3 = [id]).
    { rewrite S2. cbn [setTrans setPending setOpts newId pendImpl]. rewrite P2, <- EI. reflexivity. }
    assert (IR3 : zget (implReq s3) id = Some i).
    { rewrite S2, <- EI. cbn [setTrans setPending setOpts newId implReq]. apply zget_set_same. }
    assert (RT3 : zget (rtype s3) id = Some (true, i_option i)).
    { rewrite S2, EI. cbn [setTrans setPending setOpts newId rtype]. apply zget_set_same. }
    assert (TR3 : trans s3 = 1) by (rewrite S2; reflexivity).
    assert (H2 : snd (run (init n) evs) =
                 (tA ++ [M]) ++ mid2 ++ (Routes id task v' rs, o) :: t3).
    { rewrite <- app_assoc. exact H. }
    assert (CO : core id s3 (at_ n ((tA ++ [M]) ++ mid2))).
    { apply (hist_ind task eligible transActive coloc restCost ordv ordw n evs
        (fun _ s => core id s3 s) _ _ _ H2); [apply core_refl|].
      intros a e o1 b E IH EO. eapply core_trans; [exact IH|].
      eapply (quiet_core task eligible transActive coloc restCost ordv ordw (map fst ((tA ++ [M]) ++ a))).
      - apply ginv_run.
      - rewrite (k_rt _ _ _ IH). exact RT3.
      - rewrite (k_popt _ _ _ IH). exact PO3.
      - intros j Q. rewrite (k_pimpl _ _ _ IH), PI3 in Q. destruct Q as [<-|[]]; auto.
      - intros q' u' ->. apply (NQ q' u'). rewrite E, !map_app. apply in_or_app. cbn; auto.
      - intros v2 rs2 ->. apply (NR v2 rs2). rewrite E, map_app. apply in_or_app. cbn; auto.
      - rewrite <- EO. intros x HX. eapply NA; eauto. rewrite E. apply in_or_app. cbn; auto. }
    assert (H3 : snd (run (init n) evs) = ((tA ++ [M]) ++ mid2) ++ (Routes id task v' rs, o) :: t3).
    { rewrite <- app_assoc. exact H2. }
    pose proof (hist_next _ _ _ _ _ _ _ _ _ _ _ _ _ H3) as (S4 & O4).
    assert (EB : before = map fst ((tA ++ [M]) ++ mid2)).
    { unfold before. rewrite <- !app_assoc. reflexivity. }
    rewrite EB in CU, CF.
    assert (ET : tA ++ M :: mid2 ++ [(Routes id task v' rs, o)] =
                 ((tA ++ [M]) ++ mid2) ++ [(Routes id task v' rs, o)])
      by (rewrite <- !app_assoc; reflexivity).
    rewrite ET, S4. clear ET S4.
    pose proof (ginv_run task eligible transActive coloc restCost ordv ordw n (map fst ((tA ++ [M]) ++ mid2))) as GI.
    fold (at_ n ((tA ++ [M]) ++ mid2)) in GI.
    pose proof (req_current _ _ _ (ninv_run task eligible transActive coloc restCost ordv ordw n (map fst ((tA ++ [M]) ++ mid2)))) as RC.
    fold (at_ n ((tA ++ [M]) ++ mid2)) in RC.
    set (s4 := at_ n ((tA ++ [M]) ++ mid2)) in *.
    destruct (current _) as [q4|]; [|contradiction].
    exists (q_sandbox q4). cbn zeta.
    cbn [TaskBaseModel.step] in *. unfold routes in *.
    rewrite Z.eqb_refl, (k_rt _ _ _ CO), RT3 in *. unfold implementationRoutes in *.
    rewrite RC, (k_pimpl _ _ _ CO), PI3 in *.
    assert (ZI : zin id [id] = true) by (apply zin_In; cbn; auto). rewrite ZI in *.
    cbn zeta in *. cbn [setPending opts implReq] in *.
    rewrite (k_opts _ _ _ CO), G3, (k_ireq _ _ _ CO), IR3 in *.
    assert (NE : rs <> []).
    { intros ->. destruct (SET 1) as (Q & _). apply Q. rewrite EL2, map_app. apply in_or_app. cbn; auto. }
    match goal with |- context [fold_left ?f rs (?a, [])] =>
      pose proof (impl_fold task transActive coloc q4 (i_option i) v' i rs a [] (withFirst op3 (-1))) as IF;
      pose proof (impl_fold_state q4 (i_option i) v' i rs a [] (withFirst op3 (-1))) as SF;
      destruct (fold_left f rs (a, [])) as (s5, o5) end.
    cbn [fst snd] in O4, IF, SF |- *. subst o5.
    cbn [setPending setOpts trans configs withFirst op3 withPending o_plans o_restart o_first o_pub o_pending
         opts pendOpt pendImpl optOf o_ask] in IF, SF |- *.
    rewrite (k_trans _ _ _ CO), TR3 in IF, SF.
    assert (PP : forall x, In x (addAll (zadd fromLast (o_pending op)) (map fst (numbered firstRoute (o_ask op)))) <->
                           In x (map r_id rs)).
    { intros x. rewrite <- SET, EL2, map_app, in_app_iff. rewrite in_addAll, In_zadd, PE. cbn.
      unfold fromLast, firstRoute. intuition. }
    assert (CV : In v' (configs s4)) by (apply (g_conf _ _ _ _ GI); auto).
    assert (G5 : zget (zset (opts s3) (i_option i) (withFirst op3 (-1))) (i_option i) =
                 Some (withFirst op3 (-1))) by apply zget_set_same.
    specialize (IF NE NDR G5 PP CV). specialize (SF NE NDR G5 PP CV).
    split; [exact IF|].
    destruct SF as (F1 & F2 & F3 & F4). split; [rewrite F1, (k_popt _ _ _ CO); exact PO3|].
    split; [rewrite F2; unfold zrem; cbn; rewrite Z.eqb_refl; reflexivity|].
    split; [exact F3|exact F4].
  Qed.

  (** ** Numbers without waypoints at the same place *)

  Definition gap (d : draft) (ws : list wp) : Prop :=
    forall l b w r, d_wps d = l ++ [b] -> ws = w :: r -> coloc (w_pos b) (w_pos w) = false.

  Lemma addWp_gap sb tr d w ws :
    gap d (w :: ws) ->
    d_number (addWp task transActive coloc sb tr d w) = d_number d + 1 /\
    exists l b, d_wps (addWp task transActive coloc sb tr d w) = l ++ [b] /\ w_pos b = w_pos w.
  Proof.
    intros G. unfold addWp. destruct (rev (d_wps d)) as [|b r] eqn:E.
    - cbn [d_number d_wps]. split; [reflexivity|]. eexists [], _. split; reflexivity.
    - assert (E' : d_wps d = rev r ++ [b]).
      { rewrite <- (rev_involutive (d_wps d)), E. reflexivity. }
      cbn zeta. cbn [withNext withTasks withNumber w_pos]. rewrite (G _ _ _ _ E' eq_refl).
      cbn [d_number d_wps]. split; [reflexivity|]. eexists (rev r ++ [_]), _.
      rewrite <- app_assoc. cbn [app]. split; reflexivity.
  Qed.

  Lemma addRoute_numbers sb tr : forall ws d,
    gap d ws -> spaced coloc (map w_pos ws) ->
    let r := addRoute task transActive coloc sb tr d ws in
    d_number (fst r) = d_number d + Z.of_nat (length ws) /\
    snd r = renumber (d_number d) ws /\
    (ws = [] -> fst r = d) /\
    (forall l w, ws = l ++ [w] -> exists l' b, d_wps (fst r) = l' ++ [b] /\ w_pos b = w_pos w).
  Proof.
    induction ws as [|w ws IH]; intros d G S; cbn zeta; cbn [addRoute].
    - cbn [fst snd length]. split; [lia|]. split; [reflexivity|]. split; [auto|].
      intros [|? ?] ? Q; discriminate.
    - destruct (addWp_gap sb tr d w ws G) as (N & l0 & b0 & W & PB).
      assert (G1 : gap (addWp task transActive coloc sb tr d w) ws).
      { intros l b w' r Q ->. rewrite W in Q. apply app_inj_tail in Q. destruct Q as (_ & <-).
        rewrite PB. apply (S [] _ _ (map w_pos r)). reflexivity. }
      assert (S1 : spaced coloc (map w_pos ws)).
      { intros l a b r Q. apply (S (w_pos w :: l) a b r). cbn. rewrite Q. reflexivity. }
      specialize (IH _ G1 S1). cbn zeta in IH.
      destruct (addRoute task transActive coloc sb tr (addWp task transActive coloc sb tr d w) ws) as (d', l).
      cbn [fst snd] in *. destruct IH as (I1 & I2 & I3 & I4). split; [cbn [length]; lia|].
      split; [rewrite I2, N; reflexivity|]. split; [discriminate|].
      intros l1 w1 Q. destruct l1 as [|y l1].
      + injection Q as <- ->. rewrite I3 by reflexivity. exists l0, b0. auto.
      + injection Q as _ Q. apply (I4 l1 w1 Q).
  Qed.

  (** ** The first waypoint on the task *)
  Definition firstIs (sb : bool) (m : Z) (d : draft) : Prop :=
    (sb = true /\ d_first d = -1) \/ (0 <= m /\ d_first d = m).

  Lemma addWp_firstIs sb tr m d w :
    firstIs sb m d -> firstIs sb m (addWp task transActive coloc sb tr d w).
  Proof.
    intros F. assert (E : d_first (addWp task transActive coloc sb tr d w) = d_first d).
    { unfold addWp. cbn zeta.
      assert (Q : (if (negb tr || transActive) && (d_first d <? 0) && negb tr && negb sb
                   then d_number d else d_first d) = d_first d).
      { destruct F as [(-> & _)|(M & ->)]; [rewrite andb_false_r; reflexivity|].
        assert (L : (m <? 0) = false) by (apply Z.ltb_ge; lia). rewrite L, andb_false_r. reflexivity. }
      destruct (rev (d_wps d)) as [|b r]; [exact Q|].
      destruct (coloc _ _); exact Q. }
    unfold firstIs. rewrite E. exact F.
  Qed.
  Lemma addRoute_firstIs sb tr m : forall ws d,
    firstIs sb m d -> firstIs sb m (fst (addRoute task transActive coloc sb tr d ws)).
  Proof.
    induction ws as [|w ws IH]; intros d F; cbn [addRoute]; [exact F|].
    specialize (IH _ (addWp_firstIs sb tr m d w F)).
    destruct (addRoute task transActive coloc sb tr (addWp task transActive coloc sb tr d w) ws). exact IH.
  Qed.
  Lemma addRoutes_firstIs sb tr m : forall ps found d,
    firstIs sb m d -> firstIs sb m (fst (addRoutes task transActive coloc sb tr None found d ps)).
  Proof.
    induction ps as [|(k, r) ps IH]; intros found d F; cbn [addRoutes]; [exact F|].
    assert (E : (if r_id r =? tr then None else None) = @None (list wp)) by (destruct (_ =? _); auto).
    rewrite E. pose proof (addRoute_firstIs sb (r_id r =? tr) m (r_wps r) d F) as F1.
    destruct (addRoute task transActive coloc sb (r_id r =? tr) d (r_wps r)) as (d1, l). cbn [fst] in F1.
    specialize (IH found d1 F1).
    destruct (addRoutes task transActive coloc sb tr None found d1 ps). exact IH.
  Qed.

  (** On the way to the task the first waypoint stays unknown. *)
  Lemma addRoute_transit sb : forall ws d,
    d_first (fst (addRoute task transActive coloc sb true d ws)) = d_first d.
  Proof.
    induction ws as [|w ws IH]; intros d; cbn [addRoute]; [reflexivity|].
    specialize (IH (addWp task transActive coloc sb true d w)).
    destruct (addRoute task transActive coloc sb true (addWp task transActive coloc sb true d w) ws).
    cbn [fst] in *. rewrite IH. unfold addWp. cbn zeta. cbn [negb]. rewrite andb_false_r. cbn [andb].
    destruct (rev (d_wps d)); [reflexivity|]. destruct (coloc _ _); reflexivity.
  Qed.

  Lemma addRoute_task sb d w ws :
    0 <= d_number d -> d_first d = -1 ->
    firstIs sb (d_number d) (fst (addRoute task transActive coloc sb false d (w :: ws))).
  Proof.
    intros N F. cbn [addRoute].
    assert (G : firstIs sb (d_number d) (addWp task transActive coloc sb false d w)).
    { assert (E : d_first (addWp task transActive coloc sb false d w) = if sb then -1 else d_number d).
      { unfold addWp. cbn zeta. rewrite F. cbn [negb orb andb Z.ltb Z.compare].
        destruct (rev (d_wps d)); [destruct sb; reflexivity|].
        destruct (coloc _ _); destruct sb; reflexivity. }
      unfold firstIs. rewrite E. destruct sb; auto. }
    pose proof (addRoute_firstIs sb false _ ws _ G) as Q.
    destruct (addRoute task transActive coloc sb false (addWp task transActive coloc sb false d w) ws).
    exact Q.
  Qed.

  (** What is kept of a plan with a way to the task and at least one route on it. *)
  Lemma saved sb start r1 r2 ps :
    r_id r1 = 1 -> r_id r2 = 2 -> 0 <= start -> r_wps r2 <> [] ->
    spaced coloc (map w_pos (r_wps r1 ++ r_wps r2)) ->
    let r := addRoutes task transActive coloc sb 1 None false
               {| d_wps := []; d_number := start; d_first := -1 |} ((1, r1) :: (2, r2) :: ps) in
    let m := start + Z.of_nat (length (r_wps r1)) in
    (exists r2', zget (snd r) 2 = Some r2' /\ r_wps r2' = renumber m (r_wps r2)) /\
    d_first (fst r) <= m.
  Proof.
    intros E1 E2 ST NE SP. cbn zeta.
    set (d0 := {| d_wps := []; d_number := start; d_first := -1 |}).
    cbn [addRoutes]. rewrite E1, E2. cbn [Z.eqb Pos.eqb].
    assert (SP1 : spaced coloc (map w_pos (r_wps r1))).
    { intros l a b r Q. apply (SP l a b (r ++ map w_pos (r_wps r2))). rewrite map_app, Q, <- app_assoc.
      reflexivity. }
    assert (SP2 : spaced coloc (map w_pos (r_wps r2))).
    { intros l a b r Q. apply (SP (map w_pos (r_wps r1) ++ l) a b r). rewrite map_app, Q, <- app_assoc.
      reflexivity. }
    assert (G0 : gap d0 (r_wps r1)).
    { intros l b w r Q _. destruct l; discriminate. }
    pose proof (addRoute_numbers sb true (r_wps r1) d0 G0 SP1) as A1. cbn zeta in A1.
    pose proof (addRoute_transit sb (r_wps r1) d0) as F1.
    destruct (addRoute task transActive coloc sb true d0 (r_wps r1)) as (d1, l1). cbn [fst snd] in *.
    destruct A1 as (N1 & _ & Z1 & W1).
    assert (G1 : gap d1 (r_wps r2)).
    { intros l b w r Q1 Q2. destruct (r_wps r1) as [|y ys] eqn:R1.
      - rewrite Z1 in Q1 by reflexivity. destruct l; discriminate.
      - destruct (@exists_last _ (y :: ys)) as (ys' & z & EZ); [discriminate|].
        destruct (W1 _ _ EZ) as (l' & b' & Q3 & Q4). rewrite Q1 in Q3. apply app_inj_tail in Q3.
        destruct Q3 as (_ & <-). rewrite Q4. apply (SP (map w_pos ys') _ _ (map w_pos r)).
        rewrite EZ, Q2, !map_app, <- app_assoc. reflexivity. }
    pose proof (addRoute_numbers sb false (r_wps r2) d1 G1 SP2) as A2. cbn zeta in A2.
    destruct (r_wps r2) as [|w ws] eqn:R2; [contradiction|].
    assert (F2 : firstIs sb (d_number d1) (fst (addRoute task transActive coloc sb false d1 (w :: ws)))).
    { apply addRoute_task; [rewrite N1; cbn; lia|]. rewrite F1. reflexivity. }
    destruct (addRoute task transActive coloc sb false d1 (w :: ws)) as (d2, l2). cbn [fst snd] in *.
    destruct A2 as (_ & L2 & _). cbn [d_number d0] in N1.
    pose proof (addRoutes_firstIs sb 1 _ ps false d2 F2) as F3.
    destruct (addRoutes task transActive coloc sb 1 None false d2 ps) as (d3, l3). cbn [fst snd] in *.
    split.
    - eexists. split; [cbn; reflexivity|]. cbn [r_wps]. rewrite L2, N1. reflexivity.
    - destruct F3 as [(_ & ->)|(_ & ->)]; rewrite <- N1; [|lia].
      rewrite N1. lia.
  Qed.

  Lemma addRoutes_byNumber sb tr : forall ps found d,
    byNumber ps -> byNumber (snd (addRoutes task transActive coloc sb tr None found d ps)) /\
    map fst (snd (addRoutes task transActive coloc sb tr None found d ps)) = map fst ps.
  Proof.
    induction ps as [|(k, r) ps IH]; intros found d (S & H); cbn [addRoutes]; [split; [split|]; auto|].
    assert (E : (if r_id r =? tr then None else None) = @None (list wp)) by (destruct (_ =? _); auto).
    rewrite E. destruct (addRoute task transActive coloc sb (r_id r =? tr) d (r_wps r)) as (d1, l).
    inversion S as [|? ? S1 F]; subst.
    destruct (IH found d1) as ((S2 & H2) & K2).
    { split; [exact S1|]. intros k' r' Q. apply H. cbn; auto. }
    destruct (addRoutes task transActive coloc sb tr None found d1 ps) as (d2, l2). cbn [snd fst map] in *.
    split; [|rewrite K2; reflexivity]. split.
    - constructor; [exact S2|]. rewrite Forall_forall in F |- *. intros (k', r') Q. cbn [fst].
      apply (in_map fst) in Q. rewrite K2 in Q. apply in_map_iff in Q. destruct Q as ((k2, r2') & Q1 & Q2).
      cbn in Q1. subst k2. apply (F _ Q2).
    - intros k' r' [Q|Q]; [injection Q as <- <-; cbn; apply H; cbn; auto|]. apply (H2 _ _ Q).
  Qed.

  (** ** While nothing happens to the options *)
  Lemma calm_more s e :
    calm task e -> pendOpt s = [] -> pendImpl s = [] ->
    optOf (fst (step s e)) = optOf s /\
    (forall v, (forall ts c, e <> State v ts c) -> zget (lastWp (fst (step s e))) v = zget (lastWp s) v).
  Proof.
    intros C P1 P2. destruct e as [v ts c|v|q u|l|j ms|i|j tk v rs]; cbn [TaskBaseModel.step calm] in *.
    - unfold entityState. destruct (zin v (assigned s)); [|auto].
      destruct (zin task ts); [|destruct (zin v (active s)); [|auto]]; cbn [fst setNotices optOf lastWp];
        (split; [reflexivity|]); intros v' N.
      + apply zget_set_other. intros ->. eapply N; reflexivity.
      + apply zget_del_other. intros ->. eapply N; reflexivity.
    - cbn [fst]. unfold entityConfiguration.
      destruct (match eligible with [] => true | _ => _ end); auto.
    - unfold automationRequest. cbn zeta. apply zin_false in C. rewrite C. auto.
    - destruct C.
    - cbn [fst]. unfold automationResponse.
      destruct (zget (reqs s) j) as [q|]; [|auto]. destruct (q_sandbox q); auto.
    - unfold implementationRequest. apply Z.eqb_neq in C. rewrite C. auto.
    - unfold routes. destruct (tk =? task); [|auto].
      destruct (zget (rtype s) j) as [[[|] k]|]; [| |auto].
      + unfold implementationRoutes. destruct (zget (reqs s) _); [|auto]. rewrite P2. cbn. auto.
      + unfold optionRoutes. rewrite P1. cbn. auto.
  Qed.

  Lemma lastWp_nodup n evs : NoDup (map fst (lastWp (fst (run (init n) evs)))).
  Proof.
    induction evs as [|e evs IH] using rev_ind; [constructor|].
    rewrite run_snoc. cbn [fst]. set (s := fst (run (init n) evs)) in *.
    destruct e as [v ts c|v|q u|l|j ms|i|j tk v rs]; cbn [TaskBaseModel.step].
    - unfold entityState. destruct (zin v (assigned s)); [|auto].
      destruct (zin task ts); [|destruct (zin v (active s)); [|auto]]; cbn [fst setNotices lastWp].
      + apply NoDup_keys_zset, IH.
      + apply NoDup_keys_zdel, IH.
    - cbn [fst]. unfold entityConfiguration.
      destruct (match eligible with [] => true | _ => _ end); auto.
    - destruct (request_frame task restCost ordw s q u) as (_ & _ & _ & _ & -> & _). exact IH.
    - destruct (lanes_frame s l) as (_ & _ & _ & _ & -> & _). exact IH.
    - cbn [fst]. unfold automationResponse.
      destruct (zget (reqs s) j) as [q|]; [|auto]. destruct (q_sandbox q); auto.
    - destruct (implementationRequest_frame task s i) as (_ & _ & _ & _ & -> & _). exact IH.
    - destruct (routes_frame task transActive coloc s j tk v rs) as (_ & _ & _ & _ & -> & _). exact IH.
  Qed.
End Resume.

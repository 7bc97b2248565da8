(** C49: resuming an interrupted task. *)
From Coq Require Import List ZArith Bool Lia Sorted.
From Verif Require Import ZMap Run TaskBaseModel TaskBaseSpec TaskBaseNotice TaskBaseInv TaskBaseStep
  TaskBaseWps TaskBaseImpl TaskBaseOpt TaskBaseOptions TaskBaseResume TaskImplProps.
Import ListNotations.
Open Scope list_scope.
Open Scope Z_scope.

Lemma sorted_unique (l : list route) : forall l',
  StronglySorted (fun a b => r_id a < r_id b) l -> StronglySorted (fun a b => r_id a < r_id b) l' ->
  (forall r, In r l <-> In r l') -> l = l'.
Proof.
  induction l as [|a l IH]; intros l' S S' H.
  - destruct l' as [|b l']; auto. destruct (H b) as (_ & Q). destruct Q. cbn; auto.
  - destruct l' as [|b l']; [destruct (H a) as (Q & _); destruct Q; cbn; auto|].
    inversion S as [|? ? S1 F]; subst. inversion S' as [|? ? S1' F']; subst.
    rewrite Forall_forall in F, F'.
    assert (E : a = b).
    { destruct (H a) as (Q & _). destruct Q as [Q|Q]; [cbn; auto|auto|].
      destruct (H b) as (_ & P). destruct P as [P|P]; [cbn; auto|auto|].
      apply F' in Q. apply F in P. lia. }
    subst b. f_equal. apply IH; auto. intros r. split; intros Q.
    + destruct (H r) as (P & _). destruct P as [P|P]; [cbn; auto| |auto]. subst r. apply F in Q. lia.
    + destruct (H r) as (_ & P). destruct P as [P|P]; [cbn; auto| |auto]. subst r. apply F' in Q. lia.
Qed.

Lemma byNumber_map l : byNumber l -> l = map (fun r => (r_id r, r)) (map snd l).
Proof.
  intros (_ & H). induction l as [|(k, r) l IH]; cbn [map snd]; [reflexivity|].
  rewrite (H k r) by (cbn; auto). f_equal. apply IH. intros k' r' Q. apply H. cbn; auto.
Qed.

Lemma overlay_plans prepared rs plan :
  NoDup (map r_id prepared) -> NoDup (map r_id rs) -> overlay prepared rs plan ->
  putAll (putAll [] prepared) rs = map (fun r => (r_id r, r)) plan.
Proof.
  intros N1 N2 (S & H). destruct (putAll_overlay prepared rs N1 N2) as (S' & H').
  rewrite (byNumber_map (putAll (putAll [] prepared) rs))
    by (apply putAll_byNumber, putAll_byNumber, byNumber_nil).
  f_equal. apply sorted_unique; auto. intros r. rewrite H, H'. reflexivity.
Qed.

(** The numbers of waypoints do not matter when they are added to an implementation. *)
Lemma fold_put_renumber task coloc b : forall ws n p,
  fold_left (put task coloc) (map (fun w => (w, b)) (renumber n ws)) p =
  fold_left (put task coloc) (map (fun w => (w, b)) ws) p.
Proof.
  unfold renumber. induction ws as [|w ws IH]; intros n p; cbn [numbered map fold_left]; [reflexivity|].
  rewrite IH. f_equal.
Qed.

Lemma last_default {A} : forall (l : list A) a d d', last (a :: l) d = last (a :: l) d'.
Proof.
  induction l as [|b l IH]; intros a d d'; [reflexivity|].
  change (last (b :: l) d = last (b :: l) d'). apply IH.
Qed.

Ltac flat := repeat first [rewrite <- app_assoc | progress cbn [app]]; reflexivity.

Section C49.
  Context (task : Z) (eligible : list Z) (transActive : bool) (coloc : Z -> Z -> bool).
  Context (restCost : Z -> list wp -> Z).
  Context (ordv : list Z -> list Z) (ordw : zmap Z -> list (Z * Z)).
  Context (ordw_in : forall m x, In x (ordw m) <-> In x m).
  Notation step := (step task eligible transActive coloc restCost ordv ordw).
  Notation run := (run step).
  Notation history := (history task eligible transActive coloc restCost ordv ordw).
  Notation at_ := (at_ task eligible transActive coloc restCost ordv ordw).

  (** An option is implemented as in [C34_implementation]: the plan consists of the way to the task
      [r1] and the routes on it, the first of which is [r2], along no two places that are
      co-located. *)
  Section Interrupted.
    Context (n : Z) (evs : list ev) (t0 : list (ev * list out)) (q : areq) (u : built) (o0 : list out)
            (mid : list (ev * list out)) (i : ireq) (id v : Z) (l : list (Z * (Z * Z)))
            (mid2 : list (ev * list out)) (v' : Z) (rs : list route) (o : list out)
            (p : pub) (prepared : list route).
    Notation R := (Request q u, o0).
    Notation M := (Implement i, [Ask id v false l]).
    Notation N := (Routes id task v' rs, o).
    Notation T := (t0 ++ R :: mid ++ M :: mid2 ++ [N]).
    Context (m1 : list (ev * list out)) (ts : list Z) (c : Z) (oS : list out)
            (m2 : list (ev * list out)) (q2 : areq) (u2 : built) (o2 : list out) (t3 : list (ev * list out)).
    Notation B := (T ++ m1 ++ (State v' ts c, oS) :: m2).
    Context (H : history n evs = B ++ (Request q2 u2, o2) :: t3).
    Context (AN : anew task (map fst t0) q).
    Context (FI : find (fun x => p_option (fst x) =? i_option i) (u_opts u) = Some (p, prepared)).
    Context (NDP : NoDup (map r_id prepared)).
    Context (NQ : forall q' u', In (Request q' u') (map fst (mid ++ mid2)) -> ~ In task (q_tasks q')).
    Context (NI : forall i', In (Implement i') (map fst mid) -> i_task i' = task -> i_option i' <> i_option i).
    Context (AA : allAnswered task (t0 ++ [R]) mid).
    Context (NA : forall e o', In (e, o') mid2 -> forall x, In x o' -> isAsk x = false).
    Context (NR : forall v2 rs2, ~ In (Routes id task v2 rs2) (map fst mid2)).
    Context (CU : current (map fst (t0 ++ R :: mid ++ M :: mid2)) <> None).
    Context (NDR : NoDup (map r_id rs)) (SET : forall x, In x (map fst l) <-> In x (map r_id rs)).
    Context (CF : In (Config v') (map fst (t0 ++ R :: mid ++ M :: mid2)))
            (EL : eligible = [] \/ In v' eligible).
    Context (r1 r2 : route) (more : list route) (a : list wp) (x y : wp) (b : list wp).
    Context (OV : overlay prepared rs (r1 :: r2 :: more)) (R1 : r_id r1 = 1) (R2 : r_id r2 = 2)
            (W2 : r_wps r2 = a ++ x :: y :: b)
            (SP : spaced coloc (map w_pos (r_wps r1 ++ r_wps r2))).
    Context (ST : 0 <= i_start i) (VP : 0 < v') (KP : 0 < i_option i).
    (** The vehicle was given a mission with the task and reported at last that it works on the task
        and flies to the waypoint that was planned as [y]. *)
    Context (Q1 : quietly task m1) (Q2 : quietly task m2).
    Context (AS : assignedTo task (map fst (T ++ m1)) v') (TS : In task ts).
    Context (EC : c = i_start i + Z.of_nat (length (r_wps r1) + length a + 1)).
    Context (NS : forall ts' c', ~ In (State v' ts' c') (map fst m2)).
    (** The new request allows to resume the task with this vehicle, and with no other one. *)
    Context (TQ : In task (q_tasks q2)) (RD : q_redo q2 = false) (VQ : In v' (q_entities q2)).
    Context (ONE : forall w ts' c', In w (q_entities q2) -> In (State w ts' c') (map fst B) ->
                                    In task ts' -> w = v').

    Let rest := renumber (i_start i + Z.of_nat (length (r_wps r1) + length a)) (x :: y :: b).

    Lemma interrupted :
      let s := at_ n B in
      pendOpt s = [] /\ pendImpl s = [] /\ zget (lastWp s) v' = Some c /\
      zget (optOf s) v' = Some (i_option i) /\
      exists op plans, zget (opts s) (i_option i) = Some op /\ o_plans op = plans /\
        (exists r2', zget plans 2 = Some r2' /\
           r_wps r2' = renumber (i_start i + Z.of_nat (length (r_wps r1))) (r_wps r2)) /\
        byNumber plans /\ map fst plans = 1 :: 2 :: map r_id more /\
        o_first op <= i_start i + Z.of_nat (length (r_wps r1)) /\
        o_pending op = [] /\ p_option (o_pub op) = i_option i.
    Proof.
      cbn zeta.
      set (tA := t0 ++ R :: mid).
      assert (HA : snd (run (init n) evs) = tA ++ M :: mid2 ++ N :: m1 ++ (State v' ts c, oS) :: m2 ++ (Request q2 u2, o2) :: t3).
      { unfold TaskBaseModel.history in H. rewrite H. unfold tA. flat. }
      assert (HS : history n evs = t0 ++ R :: mid ++ (M :: mid2 ++ N :: m1 ++ (State v' ts c, oS) :: m2 ++ (Request q2 u2, o2) :: t3)).
      { unfold TaskBaseModel.history. rewrite HA. unfold tA. flat. }
      assert (ordw_in' : forall m z, In z (ordw m) -> In z m) by (intros m z; apply ordw_in).
      pose proof (settled task eligible transActive coloc restCost ordv ordw ordw_in' n evs t0 q u o0 mid _
                    (i_option i) p prepared HS AN FI) as SE.
      cbn zeta in SE. destruct SE as (P1 & P2 & op0 & G0 & PL0 & PE0 & RE0 & PO0 & _); auto.
      { intros q' u' Z. apply (NQ q' u'). rewrite map_app. apply in_or_app; auto. }
      fold tA in P1, P2, G0.
      pose proof (span task eligible transActive coloc restCost ordv ordw n evs tA i id v l mid2 v' rs o _ op0
                    HA P1 P2 G0 PE0) as SN.
      assert (ETA : tA ++ M :: mid2 = t0 ++ R :: mid ++ M :: mid2).
      { unfold tA. flat. }
      rewrite ETA in SN. cbn zeta in SN. destruct SN as (_ & _ & _ & sb & SN); auto.
      { intros q' u' Z. apply (NQ q' u'). rewrite map_app. apply in_or_app; auto. }
      assert (ETB : tA ++ M :: mid2 ++ [N] = T).
      { unfold tA. flat. }
      rewrite ETB in SN. destruct SN as (_ & P3 & P4 & OO & op5 & G5 & PL5 & F5 & RE5 & PE5 & _ & PU5).
      rewrite RE0, PL0 in OO, PL5, F5. cbn [option_map] in OO, PL5, F5.
      rewrite (overlay_plans _ _ _ NDP NDR OV) in OO, PL5, F5. cbn [map] in OO, PL5, F5.
      rewrite R1, R2 in OO, PL5, F5.
      pose proof (saved task transActive coloc sb (i_start i) r1 r2 (map (fun r => (r_id r, r)) more) R1 R2 ST) as SV.
      cbn zeta in SV. destruct SV as (SV1 & SV2); auto.
      { rewrite W2. destruct a; discriminate. }
      assert (BN : byNumber ((1, r1) :: (2, r2) :: map (fun r => (r_id r, r)) more)).
      { pose proof (overlay_plans _ _ _ NDP NDR OV) as Z. cbn [map] in Z. rewrite R1, R2 in Z. rewrite <- Z.
        apply putAll_byNumber, putAll_byNumber, byNumber_nil. }
      destruct (addRoutes_byNumber task transActive coloc sb 1 _ false
                  {| d_wps := []; d_number := i_start i; d_first := -1 |} BN) as (BN5 & K5).
      rewrite <- PL5 in SV1, BN5, K5. rewrite <- F5 in SV2.
      assert (OV5 : zget (optOf (at_ n T)) v' = Some (i_option i)).
      { apply OO. intros Z.
        pose proof (addRoutes_put task transActive coloc sb 1 ((1, r1) :: (2, r2) :: map (fun r => (r_id r, r)) more) false
                      {| d_wps := []; d_number := i_start i; d_first := -1 |}) as AP.
        rewrite Z in AP. cbn [d_wps d_number flat_map snd] in AP.
        match type of AP with _ = fold_left _ ?L _ =>
          pose proof (fold_put_shape task coloc (i_start i) L [] ([], i_start i) (put_start task coloc _)) as SH end.
        unfold leg in *. rewrite <- AP in SH. cbn [app] in SH.
        destruct SH as (_ & [(E & _)|(g & gz & body & z & _ & _ & E & _)]).
        - apply app_eq_nil in E. destruct E as (_ & E). apply app_eq_nil in E. destruct E as (E & _).
          rewrite W2 in E. destruct a; discriminate.
        - cbn [fst] in E. destruct body; discriminate. }
      (* until the report *)
      assert (CALM : forall (m : list (ev * list out)) t1 t2,
        quietly task m -> snd (run (init n) evs) = t1 ++ m ++ t2 ->
        pendOpt (at_ n t1) = [] -> pendImpl (at_ n t1) = [] ->
        let s' := at_ n (t1 ++ m) in
        opts s' = opts (at_ n t1) /\ pendOpt s' = [] /\ pendImpl s' = [] /\ optOf s' = optOf (at_ n t1) /\
        forall w, (forall ts' c', ~ In (State w ts' c') (map fst m)) ->
                  zget (lastWp s') w = zget (lastWp (at_ n t1)) w).
      { intros m t1 t2 QM HM PA PB. cbn zeta.
        apply (hist_ind task eligible transActive coloc restCost ordv ordw n evs
          (fun a1 s' => opts s' = opts (at_ n t1) /\ pendOpt s' = [] /\ pendImpl s' = [] /\
             optOf s' = optOf (at_ n t1) /\
             forall w, (forall ts' c', ~ In (State w ts' c') (map fst a1)) ->
                       zget (lastWp s') w = zget (lastWp (at_ n t1)) w) _ _ _ HM); [auto|].
        intros a1 e o1 b1 EM (I1 & I2 & I3 & I4 & I5) EO.
        assert (CE : calm task e) by (apply QM; rewrite EM, map_app; apply in_or_app; cbn; auto).
        destruct (calm_still task eligible transActive coloc restCost ordv ordw _ e CE I3) as
          ((A1 & A2 & A3 & A4 & A5 & A6 & A7) & _).
        { intros ? ? ? _. left. rewrite I2. intros []. }
        destruct (calm_more task eligible transActive coloc restCost ordv ordw _ e CE I2 I3) as (A8 & A9).
        split; [congruence|]. split; [congruence|]. split; [congruence|]. split; [congruence|].
        intros w NW. rewrite A9, I5; [reflexivity| |].
        - intros ts' c' Z. apply (NW ts' c'). rewrite map_app. apply in_or_app; auto.
        - intros ts' c' ->. apply (NW ts' c'). rewrite map_app. apply in_or_app. cbn; auto. }
      assert (H1 : snd (run (init n) evs) = T ++ m1 ++ (State v' ts c, oS) :: m2 ++ (Request q2 u2, o2) :: t3).
      { rewrite HA, <- ETB. flat. }
      destruct (CALM m1 _ _ Q1 H1 P3 P4) as (C1 & C2 & C3 & C4 & _).
      assert (H2 : snd (run (init n) evs) = (T ++ m1) ++ (State v' ts c, oS) :: m2 ++ (Request q2 u2, o2) :: t3).
      { rewrite <- app_assoc. exact H1. }
      pose proof (hist_next _ _ _ _ _ _ _ _ _ _ _ _ _ H2) as (S6 & _).
      assert (AV : zin v' (assigned (at_ n (T ++ m1))) = true).
      { apply zin_In. apply (n_assigned task _ _ (ninv_run task eligible transActive coloc restCost ordv ordw n
          (map fst (T ++ m1)))). exact AS. }
      cbn [TaskBaseModel.step] in S6. unfold entityState in S6. rewrite AV in S6. apply zin_In in TS as TZ.
      rewrite TZ in S6. cbn [fst] in S6.
      assert (H3 : snd (run (init n) evs) = ((T ++ m1) ++ [(State v' ts c, oS)]) ++ m2 ++ (Request q2 u2, o2) :: t3).
      { rewrite <- app_assoc. exact H2. }
      assert (D1 : pendOpt (at_ n ((T ++ m1) ++ [(State v' ts c, oS)])) = []) by (rewrite S6; exact C2).
      assert (D2 : pendImpl (at_ n ((T ++ m1) ++ [(State v' ts c, oS)])) = []) by (rewrite S6; exact C3).
      destruct (CALM m2 _ _ Q2 H3 D1 D2) as (E1 & E2 & E3 & E4 & E5).
      assert (EB : B = ((T ++ m1) ++ [(State v' ts c, oS)]) ++ m2) by flat.
      rewrite EB. split; [exact E2|]. split; [exact E3|]. split; [|split].
      - rewrite (E5 _ NS), S6. cbn [setNotices lastWp]. apply zget_set_same.
      - rewrite E4, S6. cbn [setNotices optOf]. rewrite C4. exact OV5.
      - exists op5, (o_plans op5). rewrite E1, S6. cbn [setNotices opts]. rewrite C1. split; [exact G5|].
        split; [reflexivity|]. split; [exact SV1|]. split; [exact BN5|]. split.
        + rewrite K5. cbn [map fst]. rewrite map_map. reflexivity.
        + split; [exact SV2|]. split; [exact PE5|]. rewrite PU5. cbn [withCost p_option]. rewrite PO0.
          apply find_some in FI. destruct FI as (_ & Z). apply Z.eqb_eq in Z. exact Z.
    Qed.

    Lemma rest_alike : Forall2 alike (x :: y :: b) rest.
    Proof. apply renumber_alike. Qed.

    Lemma request_step :
      exists op plans,
        step (at_ n B) (Request q2 u2) =
        (let f := withNumber x (i_start i + Z.of_nat (length (r_wps r1) + length a)) in
         let p2 := {| p_option := i_option i; p_eligible := [v']; p_cost := restCost v' rest;
                      p_start := w_pos x; p_end := w_pos (last (y :: b) y) |} in
         let s := setReqs (at_ n B) (zset (reqs (at_ n B)) (q_id q2) q2) (q_id q2) in
         (setPlan (setOpts s (zset (opts s) (i_option i) (withRestart op (Some (w_pos x, rest)))) (planOpts s))
                  (q_id q2) [p2], [Options (q_id q2) [p2]])) /\
        pendOpt (at_ n B) = [] /\ pendImpl (at_ n B) = [] /\ o_plans op = plans /\
        byNumber plans /\ map fst plans = 1 :: 2 :: map r_id more /\ o_pending op = [].
    Proof.
      destruct interrupted as (P1 & P2 & LW & OO & op & plans & G & PL & (r2' & Z2 & W2') & BN & KS & FF & PE & PO).
      exists op, plans. split; [|auto 10].
      set (s0 := at_ n B) in *.
      cbn [TaskBaseModel.step]. unfold automationRequest. cbn zeta.
      apply zin_In in TQ as TZ. rewrite TZ.
      set (s := setReqs s0 (zset (reqs s0) (q_id q2) q2) (q_id q2)).
      assert (CA : candidate ordw s q2 = Some (v', c, i_option i, op)).
      { unfold candidate. rewrite RD. cbn [setReqs lastWp optOf opts s].
        assert (ND : NoDup (map fst (lastWp s0))) by apply lastWp_nodup.
        destruct (find (fun p0 => zin (fst p0) (q_entities q2)) (ordw (lastWp s0))) as [(w, c')|] eqn:F.
        - apply find_some in F. destruct F as (F1 & F2). cbn [fst] in F2. apply zin_In in F2.
          apply (proj1 (ordw_in _ _)) in F1.
          assert (EW : w = v').
          { destruct (g_last _ _ _ _ (ginv_run task eligible transActive coloc restCost ordv ordw n (map fst B)) w)
              as (ts' & c2 & X1 & X2).
            - fold (at_ n B). fold s0. intros X. apply zget_none in X. apply X.
              apply (in_map fst) in F1. exact F1.
            - eapply ONE; eauto. }
          subst w. apply (zget_In _ _ _ ND) in F1. rewrite LW in F1. injection F1 as <-.
          rewrite OO, G.
          assert (L1 : (0 <? v') = true) by (apply Z.ltb_lt; exact VP).
          assert (L2 : (0 <? i_option i) = true) by (apply Z.ltb_lt; exact KP).
          assert (L3 : (o_first op <=? c) = true) by (apply Z.leb_le; rewrite EC; lia).
          rewrite L1, L2, L3. reflexivity.
        - exfalso. apply (In_zget (lastWp s0)) in LW. apply (proj2 (ordw_in _ _)) in LW.
          eapply find_none in F; [|exact LW]. cbn [fst] in F. apply zin_false in F. contradiction. }
      rewrite CA. unfold restart. rewrite PL. unfold firstRoute. rewrite Z2, W2', W2.
      assert (EA : renumber (i_start i + Z.of_nat (length (r_wps r1))) (a ++ x :: y :: b) =
                   renumber (i_start i + Z.of_nat (length (r_wps r1))) a ++ rest).
      { rewrite renumber_app. unfold rest. do 2 f_equal. lia. }
      rewrite EA.
      set (m := i_start i + Z.of_nat (length (r_wps r1) + length a)) in *.
      assert (ER : rest = withNumber x m :: withNumber y (m + 1) :: renumber (m + 1 + 1) b) by reflexivity.
      assert (RS : resume c None [] (renumber (i_start i + Z.of_nat (length (r_wps r1))) a ++ rest) = rest).
      { rewrite ER. apply resume_split.
        - cbn [withNumber w_number]. rewrite EC. lia.
        - intros w HW. apply in_app_or in HW. destruct HW as [HW|[<-|[]]].
          + apply renumber_in in HW. rewrite EC. lia.
          + cbn [withNumber w_number]. rewrite EC. lia.
        - intros w HW. apply renumber_in in HW. rewrite EC. lia. }
      rewrite RS.
      assert (EL1 : forall d, w_pos (last rest d) = w_pos (last (y :: b) y)).
      { intros d. rewrite ER. change (last (?f :: ?g :: ?h) d) with (last (g :: h) d).
        generalize (m + 1). clear. revert y d. induction b as [|z b' IH]; intros y d m; [reflexivity|].
        cbn [renumber numbered map fst snd]. change (last (?f :: ?g :: ?h) d) with (last (g :: h) d).
        change (last (y :: z :: b') y) with (last (z :: b') y).
        change (map (fun p0 => withNumber (snd p0) (fst p0)) (numbered (m + 1 + 1) b'))
          with (renumber (m + 1 + 1) b').
        rewrite (IH z d (m + 1)). f_equal. apply last_default. }
      clearbody rest. destruct rest as [|f rr]; [discriminate|]. rewrite EL1, PO.
      injection ER as -> _. reflexivity.
    Qed.

    (** The request is answered at once by a single option: the interrupted one, for this vehicle
        only, from the waypoint before the one it flies to to the end of the route, at the cost of
        this rest of the route. *)
    Theorem C49_offered :
      exists w,
        Forall2 alike (x :: y :: b) w /\
        o2 = [Options (q_id q2) [{| p_option := i_option i; p_eligible := [v']; p_cost := restCost v' w;
                                    p_start := w_pos x; p_end := w_pos (last (y :: b) y) |}]].
    Proof.
      exists rest. split; [apply rest_alike|].
      destruct request_step as (op & plans & S & _).
      apply hist_next in H. destruct H as (_ & ->). rewrite S. reflexivity.
    Qed.

    (** When this option is to be implemented, the vehicle is sent to the place where it is offered
        to start, and the implementation consists of the way to it and the rest of the route. *)
    Theorem C49_resumed m3 i3 id3 w3 l3 m4 v3 rs3 o3 t4 :
      t3 = m3 ++ (Implement i3, [Ask id3 w3 false l3]) :: m4 ++ (Routes id3 task v3 rs3, o3) :: t4 ->
      i_option i3 = i_option i -> quietly task m3 ->
      (forall q' u', In (Request q' u') (map fst m4) -> ~ In task (q_tasks q')) ->
      (forall e o', In (e, o') m4 -> forall z, In z o' -> isAsk z = false) ->
      (forall v2 rs2, ~ In (Routes id3 task v2 rs2) (map fst m4)) ->
      let before := map fst (B ++ (Request q2 u2, o2) :: m3 ++ (Implement i3, [Ask id3 w3 false l3]) :: m4) in
      current before <> None ->
      NoDup (map r_id rs3) -> (forall z, In z (map fst l3) <-> In z (map r_id rs3)) ->
      In (Config v3) before -> (eligible = [] \/ In v3 eligible) ->
      In (1, (i_from i3, w_pos x)) l3 /\
      exists r3 ft fp ws,
        In r3 rs3 /\ r_id r3 = 1 /\
        o3 = [Implementation (i_id i3) (i_corr i3) (i_option i3) v3 ft fp ws] /\
        implements task coloc (i_start i3)
          (legs transActive [r3] ++ map (fun w => (w, true)) (x :: y :: b)) ws.
    Proof.
      intros ET EK QM NQ3 NA3 NR3 before CU3 ND3 SET3 CF3 EL3.
      destruct request_step as (op & plans & S & P1 & P2 & PL & BN & KS & PE).
      pose proof H as H0. unfold TaskBaseModel.history in H0.
      pose proof (hist_next _ _ _ _ _ _ _ _ _ _ _ _ _ H0) as (S7 & _). rewrite S in S7. cbn zeta in S7.
      cbn [fst] in S7.
      set (T7 := B ++ [(Request q2 u2, o2)]) in *.
      assert (H4 : snd (run (init n) evs) = T7 ++ m3 ++ (Implement i3, [Ask id3 w3 false l3]) :: m4 ++
                     (Routes id3 task v3 rs3, o3) :: t4).
      { rewrite H0, ET. unfold T7. flat. }
      set (op7 := withRestart op (Some (w_pos x, rest))) in *.
      assert (D1 : pendOpt (at_ n T7) = []) by (rewrite S7; exact P1).
      assert (D2 : pendImpl (at_ n T7) = []) by (rewrite S7; exact P2).
      assert (D3 : zget (opts (at_ n T7)) (i_option i) = Some op7).
      { rewrite S7. cbn [setPlan setOpts opts]. apply zget_set_same. }
      assert (D : let s' := at_ n (T7 ++ m3) in
        opts s' = opts (at_ n T7) /\ pendOpt s' = [] /\ pendImpl s' = []).
      { cbn zeta. apply (hist_ind task eligible transActive coloc restCost ordv ordw n evs
          (fun a1 s' => opts s' = opts (at_ n T7) /\ pendOpt s' = [] /\ pendImpl s' = []) _ _ _ H4); [auto|].
        intros a1 e o1 b1 EM (I1 & I2 & I3) EO.
        assert (CE : calm task e) by (apply QM; rewrite EM, map_app; apply in_or_app; cbn; auto).
        destruct (calm_still task eligible transActive coloc restCost ordv ordw _ e CE I3) as
          ((A1 & A2 & A3 & A4 & A5 & A6 & A7) & _).
        { intros ? ? ? _. left. rewrite I2. intros []. }
        repeat split; congruence. }
      cbn zeta in D. destruct D as (E1 & E2 & E3).
      assert (H5 : snd (run (init n) evs) = (T7 ++ m3) ++ (Implement i3, [Ask id3 w3 false l3]) :: m4 ++
                     (Routes id3 task v3 rs3, o3) :: t4) by (rewrite H4; flat).
      assert (EB : before = map fst ((T7 ++ m3) ++ (Implement i3, [Ask id3 w3 false l3]) :: m4)).
      { unfold before, T7. f_equal. flat. }
      rewrite EB in CU3, CF3. clear before EB.
      assert (G7 : zget (opts (at_ n (T7 ++ m3))) (i_option i3) = Some op7) by (rewrite EK, E1; exact D3).
      pose proof (span task eligible transActive coloc restCost ordv ordw n evs (T7 ++ m3) i3 id3 w3 l3 m4 v3 rs3 o3 t4
                    op7 H5 E2 E3 G7 PE NQ3 NA3 NR3 CU3 ND3 SET3 CF3 EL3) as (_ & _ & L3 & sb & SN).
      cbn zeta in SN. destruct SN as (O3 & _).
      split; [rewrite L3; apply in_or_app; right; cbn; auto|].
      cbn [op7 withRestart o_restart option_map snd o_plans o_pub] in O3. rewrite PL in O3.
      (* the routes: first the way there *)
      assert (I1 : In 1 (map r_id rs3)).
      { apply SET3. rewrite L3, map_app. apply in_or_app. right. cbn; auto. }
      apply in_map_iff in I1. destruct I1 as (r3 & RI & IR).
      assert (BP : byNumber (putAll plans rs3)) by (apply putAll_byNumber, BN).
      assert (INP : forall k r, In (k, r) (putAll plans rs3) <->
                (In r rs3 /\ k = r_id r) \/ (In (k, r) plans /\ ~ In k (map r_id rs3)))
        by (intros; apply in_putAll; auto).
      assert (GE : forall k r, In (k, r) (putAll plans rs3) -> 1 <= k).
      { intros k r Z. apply INP in Z. destruct Z as [(Z1 & ->)|(Z1 & _)].
        - assert (Z2 : In (r_id r) (map fst l3)) by (apply SET3, in_map, Z1).
          rewrite L3, map_app in Z2. apply in_app_or in Z2. destruct Z2 as [Z2|[<-|[]]]; [|cbn; lia].
          apply numbered_fst_in in Z2. lia.
        - destruct BN as (BS & _). apply (in_map fst) in Z1. cbn [fst] in Z1.
          destruct plans as [|(k0, r0) ps]; [destruct Z1|]. cbn [map fst] in KS. injection KS as -> KS.
          inversion BS as [|? ? _ F]; subst. destruct Z1 as [<-|Z1]; [cbn; lia|].
          apply in_map_iff in Z1. destruct Z1 as (y0 & <- & Z1). rewrite Forall_forall in F.
          apply F in Z1. cbn [fst] in Z1. lia. }
      assert (SHAPE : exists p0 ps, putAll plans rs3 = (1, r3) :: p0 :: ps /\
                       forall p', In p' (p0 :: ps) -> r_id (snd p') <> 1).
      { assert (I3 : In (1, r3) (putAll plans rs3)) by (apply INP; left; auto).
        assert (I4 : exists r4, In (2, r4) (putAll plans rs3)).
        { destruct (in_dec Z.eq_dec 2 (map r_id rs3)) as [Z|Z].
          - apply in_map_iff in Z. destruct Z as (r4 & Z1 & Z2). exists r4. apply INP. left. auto.
          - assert (Z1 : In 2 (map fst plans)) by (rewrite KS; cbn; auto).
            apply in_map_iff in Z1. destruct Z1 as ((k, r4) & Z1 & Z2). cbn in Z1. subst k. exists r4.
            apply INP. right. auto. }
        destruct (putAll plans rs3) as [|(k0, r0) ps0]; [destruct I3|].
        destruct BP as (BS & BI). inversion BS as [|? ? BS1 F]; subst. rewrite Forall_forall in F.
        assert (E0 : (k0, r0) = (1, r3)).
        { destruct I3 as [Z|Z]; [exact Z|]. apply F in Z. cbn [fst] in Z.
          specialize (GE k0 r0 (or_introl eq_refl)). lia. }
        injection E0 as -> ->. destruct I4 as (r4 & [Z|Z]); [discriminate|].
        destruct ps0 as [|p0 ps]; [destruct Z|]. exists p0, ps. split; [reflexivity|].
        intros (k', r') Z'. pose proof (F _ Z') as Z1. cbn [fst snd] in *. rewrite (BI k' r') by (right; exact Z'). lia. }
      destruct SHAPE as (p0 & ps & EP & NP). rewrite EP in O3.
      set (d := addRoutes task transActive coloc sb 1 (Some rest) false _ _) in O3.
      pose proof (addRoutes_rest task transActive coloc sb 1 rest
                    {| d_wps := []; d_number := i_start i3; d_first := -1 |} r3 p0 ps RI NP) as AR.
      fold d in AR. cbn [d_wps d_number] in AR. rewrite fold_left_app in AR. unfold rest in AR at 1.
      unfold leg in AR. rewrite fold_put_renumber, <- fold_left_app in AR.
      set (L := map (fun w => (w, transActive)) (r_wps r3) ++ map (fun w => (w, true)) (x :: y :: b)) in AR.
      assert (EL4 : legs transActive [r3] ++ map (fun w => (w, true)) (x :: y :: b) = L).
      { unfold L, legs. cbn [flat_map]. rewrite RI, app_nil_r. reflexivity. }
      pose proof (fold_put_shape task coloc (i_start i3) L [] ([], i_start i3) (put_start task coloc _)) as SH.
      unfold leg in SH. rewrite <- AR in SH. cbn [app] in SH.
      assert (NEL : L <> []) by (unfold L; intros Z; apply app_eq_nil in Z; destruct Z; discriminate).
      pose proof (finish_implements task coloc (i_start i3) L _ NEL SH) as IM. cbn [fst] in IM.
      destruct (finish task (d_wps (fst d))) as [|w ws] eqn:FD.
      - exfalso. apply finish_nil in FD. destruct SH as (_ & [(Z & _)|(g & gz & body & z & _ & _ & Z & _)]).
        + contradiction.
        + cbn [fst] in Z. rewrite FD in Z. destruct body; discriminate.
      - do 3 eexists. exists (w :: ws). split; [exact IR|]. split; [exact RI|]. split; [exact O3|].
        rewrite EL4. exact IM.
    Qed.
  End Interrupted.
End C49.

(** Task 5, vehicle 7: the option of [TaskImplProps], reached by a way that ends elsewhere.  The
    vehicle is interrupted on its way to the second waypoint of the task. *)
Definition way : route := {| r_id := 1; r_cost := 4; r_wps := [wpt 1 2 10; wpt 2 0 19] |}.
Definition q3 : areq :=
  {| q_id := 2; q_sandbox := false; q_redo := false; q_tasks := [5]; q_entities := [7; 8] |}.
Definition i3 : ireq :=
  {| i_id := 12; i_task := 5; i_option := 1; i_vehicle := 7; i_start := 200; i_from := 15;
     i_time := 5000; i_corr := 2 |}.
Definition way3 : route := {| r_id := 1; r_cost := 2; r_wps := [wpt 1 2 15; wpt 2 0 20] |}.
Definition b2 : built := {| u_opts := []; u_now := true |}.
Definition length' (v : Z) (ws : list wp) : Z := Z.of_nat (length ws).
Definition play3 (evs : list ev) : list (ev * list out) :=
  history 5 [] false Z.eqb length' (fun l => l) (fun m => m) 50 evs.
Definition interruption : list ev :=
  [Config 7; Request q1 b1; Implement i1; Routes 50 5 7 [way]; Response 1 [(7, [[]; [5]])];
   State 7 [5] 103; Config 8; Request q3 b2; Config 9; Implement i3; Routes 51 5 7 [way3]].

Example C49_interruption :
  map snd (play3 interruption) =
  [[]; [Options 1 [p1]]; [Ask 50 7 false [(1, (10, 20))]];
   [Implementation 11 1 1 7 1034 22
      [{| w_number := 100; w_next := 101; w_pos := 10; w_tasks := [] |};
       {| w_number := 101; w_next := 102; w_pos := 19; w_tasks := [] |};
       {| w_number := 102; w_next := 103; w_pos := 20; w_tasks := [5] |};
       {| w_number := 103; w_next := 104; w_pos := 21; w_tasks := [5] |};
       {| w_number := 104; w_next := 105; w_pos := 22; w_tasks := [5] |};
       {| w_number := 105; w_next := 105; w_pos := 22; w_tasks := [] |}]];
   []; [Active 7]; [];
   [Options 2 [{| p_option := 1; p_eligible := [7]; p_cost := 3; p_start := 20; p_end := 22 |}]]; [];
   [Ask 51 7 false [(1, (15, 20))]];
   [Implementation 12 2 1 7 5036 22
      [{| w_number := 200; w_next := 201; w_pos := 15; w_tasks := [] |};
       {| w_number := 201; w_next := 202; w_pos := 20; w_tasks := [5] |};
       {| w_number := 202; w_next := 203; w_pos := 21; w_tasks := [5] |};
       {| w_number := 203; w_next := 204; w_pos := 22; w_tasks := [5] |};
       {| w_number := 204; w_next := 204; w_pos := 22; w_tasks := [] |}]]].
Proof. vm_compute. reflexivity. Qed.

(** It meets the conditions of [C49_offered] and [C49_resumed]. *)
Example C49_interruption_conditions :
  exists o oS o2 o3,
    let R := (Request q1 b1, [Options 1 [p1]]) in
    let M := (Implement i1, [Ask 50 7 false [(1, (10, 20))]]) in
    let T := [(Config 7, [])] ++ R :: [] ++ M :: [] ++ [(Routes 50 5 7 [way], o)] in
    let m1 := [(Response 1 [(7, [[]; [5]])], [])] in
    let B := T ++ m1 ++ (State 7 [5] 103, oS) :: [(Config 8, [])] in
    play3 interruption = B ++ (Request q3 b2, o2) :: [(Config 9, [])] ++
      (Implement i3, [Ask 51 7 false [(1, (15, 20))]]) :: [] ++ [(Routes 51 5 7 [way3], o3)] /\
    anew 5 [Config 7] q1 /\
    find (fun x => p_option (fst x) =? i_option i1) (u_opts b1) = Some (p1, [onTask]) /\
    overlay [onTask] [way] [way; onTask] /\
    r_wps onTask = [] ++ wpt 1 2 20 :: wpt 2 3 21 :: [wpt 3 0 22] /\
    spaced Z.eqb (map w_pos (r_wps way ++ r_wps onTask)) /\
    quietly 5 m1 /\ assignedTo 5 (map fst (T ++ m1)) 7 /\
    103 = i_start i1 + Z.of_nat (length (r_wps way) + length (@nil wp) + 1) /\
    (forall w ts' c', In w (q_entities q3) -> In (State w ts' c') (map fst B) -> In 5 ts' -> w = 7) /\
    i_option i3 = i_option i1 /\ current (map fst (B ++ [(Request q3 b2, o2)])) <> None.
Proof.
  do 4 eexists. cbn zeta. split; [vm_compute; reflexivity|].
  split; [split; [cbn; auto|right; intros v ts c _ [Q|[]]; discriminate]|].
  split; [reflexivity|]. split.
  { split; [constructor; [constructor; [constructor|constructor]|constructor; [reflexivity|constructor]]|].
    intros r. split.
    - intros [<-|[<-|[]]]; [left; left; reflexivity|right; split; [left; reflexivity|]].
      intros [E|[]]. discriminate E.
    - intros [[<-|[]]|([<-|[]] & _)]; cbn; auto. }
  split; [reflexivity|]. split.
  { intros l a b r E. cbn in E.
    do 4 (destruct l as [|? l]; [inversion E; reflexivity|injection E as _ E]).
    destruct l as [|? [|? l]]; discriminate. }
  split; [intros e [<-|[]]; exact I|]. split.
  { exists [Config 7; Request q1 b1; Implement i1; Routes 50 5 7 [way]], 1, [(7, [[]; [5]])], [], q1, [[]; [5]].
    split; [reflexivity|]. split; [reflexivity|]. split; [reflexivity|]. split; [cbn; auto|].
    split; [exists [5]; cbn; auto|]. intros l1 e l2 E. destruct l1; discriminate. }
  split; [reflexivity|]. split; [|split; [reflexivity|discriminate]].
  intros w ts' c' _ HI _. cbn in HI.
  repeat (destruct HI as [HI|HI]; [try discriminate HI; injection HI as <- _ _; reflexivity|]). destruct HI.
Qed.

Definition noOptions (id : Z) (t : list (ev * list out)) : bool :=
  forallb (fun x => forallb (fun y => match y with Options r _ => negb (r =? id) | _ => true end) (snd x)) t.

(** If the vehicle flies to the first waypoint of the task, the request is never answered, although
    the task is named in it. *)
Theorem C49_first_waypoint_refuted :
  exists evs,
    In (State 7 [5] 102, [Active 7]) (play3 evs) /\
    (exists o1 ws, In (Routes 50 5 7 [way], [Implementation 11 1 1 7 1034 22 ws]) (play3 evs) /\
                   (o1 = {| w_number := 102; w_next := 103; w_pos := 20; w_tasks := [5] |} /\ In o1 ws)) /\
    In (Request q3 b2) evs /\ In 5 (q_tasks q3) /\ noOptions 2 (play3 evs) = true.
Proof.
  exists [Config 7; Request q1 b1; Implement i1; Routes 50 5 7 [way]; Response 1 [(7, [[]; [5]])];
          State 7 [5] 102; Request q3 b2].
  split; [vm_compute; auto 8|]. split.
  { do 2 eexists. split; [vm_compute; do 3 right; left; reflexivity|]. split; [reflexivity|]. cbn; auto. }
  split; [cbn; auto 10|]. split; [cbn; auto|]. vm_compute. reflexivity.
Qed.

(** A task that was resumed once is not offered again when it is interrupted a second time. *)
Theorem C49_second_interruption_refuted :
  exists evs q4,
    q_tasks q4 = [5] /\ q_redo q4 = false /\ q_entities q4 = [7] /\
    In (Routes 51 5 7 [way3],
        [Implementation 12 2 1 7 5036 22
      [{| w_number := 200; w_next := 201; w_pos := 15; w_tasks := [] |};
       {| w_number := 201; w_next := 202; w_pos := 20; w_tasks := [5] |};
       {| w_number := 202; w_next := 203; w_pos := 21; w_tasks := [5] |};
       {| w_number := 203; w_next := 204; w_pos := 22; w_tasks := [5] |};
       {| w_number := 204; w_next := 204; w_pos := 22; w_tasks := [] |}]]) (play3 evs) /\
    In (State 7 [5] 203, [Active 7]) (play3 evs) /\ In (Request q4 b2) evs /\
    noOptions (q_id q4) (play3 evs) = true.
Proof.
  set (q4 := {| q_id := 3; q_sandbox := false; q_redo := false; q_tasks := [5]; q_entities := [7] |}).
  exists (interruption ++ [Response 2 [(7, [[]; [5]])]; State 7 [5] 203; Request q4 b2]), q4.
  do 3 (split; [reflexivity|]). split; [vm_compute; do 10 right; left; reflexivity|].
  split; [vm_compute; do 12 right; left; reflexivity|].
  split; [cbn; auto 20|]. vm_compute. reflexivity.
Qed.

(** Of a task with several routes only the first one is resumed: the second one is left out. *)
Theorem C49_later_routes_refuted :
  exists evs ws1 ws2 w,
    In (Routes 50 5 7 [way], [Implementation 11 1 1 7 1034 22 ws1]) (play3 evs) /\
    In w ws1 /\ w_pos w = 25 /\ In 5 (w_tasks w) /\ In (State 7 [5] 103, [Active 7]) (play3 evs) /\
    w_number w > 103 /\
    In (Routes 51 5 7 [way3], [Implementation 12 2 1 7 5036 22 ws2]) (play3 evs) /\
    forall w', In w' ws2 -> w_pos w' <> 25.
Proof.
  set (second := {| r_id := 3; r_cost := 0; r_wps := [wpt 1 2 25; wpt 2 0 26] |}).
  set (b := {| u_opts := [(p1, [onTask; second])]; u_now := true |}).
  exists [Config 7; Request q1 b; Implement i1; Routes 50 5 7 [way]; Response 1 [(7, [[]; [5]])];
          State 7 [5] 103; Request q3 b2; Implement i3; Routes 51 5 7 [way3]].
  do 3 eexists. split; [vm_compute; do 3 right; left; reflexivity|].
  split; [do 5 right; left; reflexivity|]. split; [reflexivity|]. split; [cbn; auto|].
  split; [vm_compute; do 5 right; left; reflexivity|]. split; [reflexivity|].
  split; [vm_compute; do 8 right; left; reflexivity|].
  intros w' HI. cbn in HI. repeat (destruct HI as [<-|HI]; [discriminate|]). destruct HI.
Qed.

(** The time announced for the rest of the task is that of the whole task and of both ways to it. *)
Theorem C49_time_refuted :
  exists ws, In (Routes 51 5 7 [way3], [Implementation 12 2 1 7 5036 22 ws]) (play3 interruption) /\
             5036 = i_time i3 + (r_cost way3 + r_cost way + p_cost p1).
Proof. eexists. split; [vm_compute; do 10 right; left; reflexivity|]. reflexivity. Qed.

Print Assumptions C49_offered.
Print Assumptions C49_resumed.
Print Assumptions C49_first_waypoint_refuted.
Print Assumptions C49_second_interruption_refuted.
Print Assumptions C49_later_routes_refuted.
Print Assumptions C49_time_refuted.

(** Properties C30 and C31: timers. *)
From Coq Require Import List ZArith Bool Permutation Lia Sorted.
From Verif Require Import ZMap Run TimerModel TimerSpec TimerProofs TimerDue.
Import ListNotations.
Open Scope list_scope.
Open Scope Z_scope.

Lemma history_split evs a e o b : disciplined (history evs) -> history evs = a ++ (e, o) :: b ->
  exists s s', fst (run tstep tinit (map fst a)) = s /\ history (map fst a) = a /\
    inv s a /\ t_call s = calling a /\ link a /\ tstep s e = (s', o) /\
    fst (run tstep tinit (map fst (a ++ [(e, o)]))) = s' /\
    history (map fst (a ++ [(e, o)])) = a ++ [(e, o)].
Proof.
  intros D H. pose proof H as H0. apply run_split in H. destruct H as (s & R & R2 & E). cbn [fst snd] in *.
  exists s, (fst (tstep s e)).
  assert (HA : history (map fst a) = a) by (unfold history; now rewrite R).
  assert (D' : disciplined (history (map fst a))).
  { rewrite HA. rewrite H0 in D. now apply disciplined_prefix in D. }
  pose proof (inv_run _ D') as (I & C). pose proof (link_run _ D') as L. rewrite HA in *. rewrite R in *.
  cbn [fst] in *. rewrite map_app. cbn [map fst]. unfold history. rewrite R2.
  do 5 (split; [now auto|]). split; [rewrite E; apply surjective_pairing|]. auto.
Qed.

(** Used as told, the manager never reaches undefined behaviour. *)
Theorem C30_safe evs : disciplined (history evs) -> t_ub (fst (run tstep tinit evs)) = false.
Proof. intros D. now apply inv_run. Qed.

(** A callback is called only if its timer was started, was not stopped or started again since,
    and its time has come; no other callback runs then.  So a timer that was stopped does not
    fire before it is started again, none fires early, a single shot fires once per start and
    the callbacks of a periodic timer are a period apart. *)
Theorem C31_fires evs a now o b i :
  disciplined (history evs) -> history evs = a ++ (EvTurn now, o) :: b -> In (OutCall i) o ->
  calling a = None /\ exists d, due a i d /\ d <= now.
Proof.
  intros D H O. destruct (history_split _ _ _ _ _ D H) as (s & s' & _ & _ & I & C & L & E & _).
  pose proof (shape _ _ _ _ _ I E) as Sh. cbn in Sh.
  destruct Sh as [->|(j & d & per & -> & R & W & Le)]; [easy|].
  destruct O as [O|[]]. injection O as ->. split; [now rewrite (l_rid _ L)|].
  exists d. split; auto. apply due_duep. exists per. now apply L.
Qed.

(** Callbacks start in no other way. *)
Theorem C31_turns evs a e o b i :
  disciplined (history evs) -> history evs = a ++ (e, o) :: b -> In (OutCall i) o ->
  exists now, e = EvTurn now.
Proof.
  intros D H O. destruct (history_split _ _ _ _ _ D H) as (s & s' & _ & _ & I & C & L & E & _).
  pose proof (shape _ _ _ _ _ I E) as Sh.
  destruct e; cbn in Sh; eauto; exfalso.
  - subst o. cbn in O. intuition discriminate.
  - destruct Sh as [->|(-> & _)]; cbn in O; intuition discriminate.
  - destruct Sh as [->|(-> & _)]; cbn in O; intuition discriminate.
  - destruct Sh as (? & ->); cbn in O; intuition discriminate.
  - destruct Sh as (? & ->); cbn in O; intuition discriminate.
  - destruct Sh as (? & ->); cbn in O; intuition discriminate.
  - destruct Sh as (? & ->); cbn in O; intuition discriminate.
  - subst o. easy.
Qed.

Lemma due_no_stop a e o b i d : due (a ++ (e, o) :: b) i d -> stops i e ->
  exists e' o', In (e', o') b /\ starts i (e', o').
Proof.
  intros (a1 & e1 & o1 & b1 & f & per & E & St & _ & N & _) Sp.
  assert (K : forall a1 a, a ++ (e, o) :: b = a1 ++ (e1, o1) :: b1 -> stops i e ->
              In (e1, o1) b \/ In (e, o) b1 \/ (e, o) = (e1, o1)).
  { clear. induction a1 as [|x a1 IH]; intros a E Sp; destruct a as [|y a]; cbn in E.
    - right. right. congruence.
    - right. left. injection E as _ <-. apply in_or_app. right. now left.
    - left. injection E as _ ->. apply in_or_app. right. now left.
    - injection E as _ E. eauto. }
  destruct (K _ _ E Sp) as [H|[H|H]].
  - eauto.
  - now destruct (N _ _ H).
  - injection H as <- <-. destruct e; cbn in *; tauto.
Qed.

(** After a request to stop a timer its callback is not called until it is started again, even if
    the request came during the callback. *)
Theorem C30_disabled evs a e o b now o2 c i :
  disciplined (history evs) ->
  history evs = a ++ (e, o) :: b ++ (EvTurn now, o2) :: c ->
  stops i e -> In (OutCall i) o2 ->
  exists e' o', In (e', o') b /\ starts i (e', o').
Proof.
  intros D H Sp O.
  change (a ++ (e, o) :: b ++ (EvTurn now, o2) :: c)
    with (a ++ ((e, o) :: b) ++ (EvTurn now, o2) :: c) in H. rewrite app_assoc in H.
  destruct (C31_fires _ _ _ _ _ _ D H O) as (_ & d & Du & _). eapply due_no_stop; eauto.
Qed.

(** The timers that were given out. *)
Lemma given_iff evs i :
  given (history evs) i <-> 1 <= i < t_next (fst (run tstep tinit evs)).
Proof.
  unfold given, history.
  assert (G : 1 <= t_next (fst (run tstep tinit evs)) /\
    (In (OutId i) (flat_map snd (snd (run tstep tinit evs))) <->
     1 <= i < t_next (fst (run tstep tinit evs)))); [|apply G].
  induction evs as [|e evs IH] using rev_ind.
  - cbn. lia.
  - rewrite run_snoc. cbn [fst snd]. rewrite flat_map_app. cbn. rewrite app_nil_r, in_app_iff.
    destruct (run tstep tinit evs) as (s, t). cbn [fst snd] in *.
    assert (St : forall s id d, t_next (fst (stopTimer s id d)) = t_next s).
    { intros s0 id d. unfold stopTimer. destruct (_ <? id); auto. destruct (zget _ _) as [x|]; auto.
      destruct (x_exec x); auto. destruct d; auto. destruct (t_call s0); auto. cbn. destruct (_ =? _); auto. }
    assert (K : (snd (tstep s e) = [OutId (t_next s)] /\ t_next (fst (tstep s e)) = t_next s + 1) \/
                ((forall j, ~ In (OutId j) (snd (tstep s e))) /\ t_next (fst (tstep s e)) = t_next s)).
    { unfold tstep. destruct (t_ub s); [right; auto|].
      destruct e as [|id delay now w|id delay per now w|id|id|id|ids tm|now|].
      - left. auto.
      - right. unfold startTimer. destruct (_ <? id); [|destruct (zget _ id); [destruct w|]];
          (split; [intros j; cbn; intuition discriminate|reflexivity]).
      - right. destruct (0 <? per); [|split; [intros j; cbn; intuition discriminate|reflexivity]].
        unfold startTimer. destruct (_ <? id); [|destruct (zget _ id); [destruct w|]];
          (split; [intros j; cbn; intuition discriminate|reflexivity]).
      - right. split; [intros j; cbn; intuition discriminate|reflexivity].
      - right. specialize (St s id false). destruct (stopTimer _ _ _).
        split; [intros j; cbn; intuition discriminate|exact St].
      - right. specialize (St s id true). destruct (stopTimer _ _ _).
        split; [intros j; cbn; intuition discriminate|exact St].
      - right. unfold destroyTimers.
        assert (F : forall n s0, t_next (fst (fold_left (fun st id => let (s1, ok) := stopTimer (fst st) id true in
                               (s1, if ok then snd st + 1 else snd st)) ids (s0, n))) = t_next s0).
        { induction ids as [|k l IHl]; intros n s0; cbn [fold_left]; auto. cbn [fst snd].
          specialize (St s0 k true). destruct (stopTimer s0 k true). cbn [fst] in *. rewrite IHl; auto. }
        specialize (F 0 s). destruct (fold_left _ ids _). cbn [fst snd] in *.
        split; [intros j; cbn; intuition discriminate|]. destruct (tm && _); exact F.
      - right. unfold turn. destruct (t_call s); [auto|]. destruct (t_queue s); [auto|].
        destruct (zget _ _); [|auto]. destruct (_ <=? _); [|auto].
        split; [intros j; cbn; intuition discriminate|reflexivity].
      - right. unfold done. destruct (t_call s); [|auto]. destruct (zget _ _) as [x|]; [|auto].
        destruct (x_doomed x); [|destruct (x_off x); [|destruct (0 <? x_period x)]];
          (split; [intros j []|]); cbn [fst]; try destruct (zin _ _); reflexivity. }
    destruct IH as (L & IH). destruct K as [(-> & ->)|(N & ->)].
    + split; [lia|]. rewrite IH. cbn. split.
      * intros [H|[H|[]]]; [lia|]. injection H as <-. lia.
      * intros H. destruct (Z.eq_dec i (t_next s)) as [->|]; [auto|]. left. lia.
    + split; auto. rewrite IH. specialize (N i). tauto.
Qed.

(** Stopping a timer succeeds unless it was never created or its callback runs. *)
Theorem C30_result evs a e o b i :
  disciplined (history evs) -> history evs = a ++ (e, o) :: b ->
  e = EvDisable i \/ e = EvDestroy i -> 0 < i ->
  exists r, o = [OutBool r] /\ (r = true <-> given a i /\ calling a <> Some i).
Proof.
  intros D H Ev P. destruct (history_split _ _ _ _ _ D H) as (s & s' & R & HA & I & C & L & E & _).
  assert (G : given a i <-> i < t_next s).
  { rewrite <- HA at 1. rewrite given_iff, R. lia. }
  unfold tstep in E. rewrite (v_ub _ _ I) in E.
  destruct Ev as [-> | ->].
  - destruct (stop_step s (the_plan a) i false (inv_stoppable _ _ I)) as (_ & _ & K).
    destruct (stopTimer s i false) as (s1, r). injection E as _ <-. exists r.
    rewrite G, (l_rid _ L). auto.
  - destruct (stop_step s (the_plan a) i true (inv_stoppable _ _ I)) as (_ & _ & K).
    destruct (stopTimer s i true) as (s1, r). injection E as _ <-. exists r.
    rewrite G, (l_rid _ L). auto.
Qed.

(** The number of destroyed timers is reported. *)
Theorem C30_count evs a ids tm o b :
  disciplined (history evs) -> history evs = a ++ (EvDestroyAll ids tm, o) :: b ->
  (forall i, In i ids -> 0 < i) ->
  exists ok, (forall i, In i ids -> (ok i = true <-> given a i /\ calling a <> Some i)) /\
             o = [OutCount (Z.of_nat (length (filter ok ids)))].
Proof.
  intros D H P. destruct (history_split _ _ _ _ _ D H) as (s & s' & R & HA & I & C & L & E & _).
  exists (fun i => (i <? t_next s) && negb (match calling a with Some c => c =? i | None => false end)).
  split.
  - intros i Ii. specialize (P i Ii). rewrite <- HA at 2. rewrite given_iff, R.
    rewrite andb_true_iff, Z.ltb_lt, negb_true_iff.
    destruct (calling a) as [c|]; [rewrite Z.eqb_neq|]; intuition (try lia; try congruence).
  - unfold tstep in E. rewrite (v_ub _ _ I) in E. unfold destroyTimers in E.
    set (ok := fun i => _).
    assert (F : forall l s0 p n, stoppable s0 p -> t_next s0 = t_next s -> rid p = calling a ->
      snd (fold_left (fun st id => let (s1, ok) := stopTimer (fst st) id true in
                               (s1, if ok then snd st + 1 else snd st)) l (s0, n)) =
      n + Z.of_nat (length (filter ok l))).
    { induction l as [|k l IH]; intros s0 p n I0 T0 R0; cbn [fold_left filter]; [cbn; lia|].
      cbn [fst snd]. destruct (stop_step s0 p k true I0) as (K1 & K2 & K3).
      destruct (stopTimer s0 k true) as (s1, r). cbn [fst snd] in *.
      rewrite (IH s1 (pstop p k)); [|auto|congruence|exact R0].
      replace (ok k) with r; [destruct r; cbn [length]; lia|].
      apply Bool.eq_true_iff_eq. rewrite K3. unfold ok. rewrite R0, T0.
      rewrite andb_true_iff, Z.ltb_lt, negb_true_iff.
      destruct (calling a) as [c|]; [rewrite Z.eqb_neq|]; intuition congruence. }
    specialize (F ids s (the_plan a) 0 (inv_stoppable _ _ I) eq_refl (eq_sym (l_rid _ L))).
    destruct (fold_left _ ids _) as (s1, n). injection E as _ <-. cbn [snd] in F. now rewrite F.
Qed.

(** A timer that was destroyed, even from its own callback, is never started again. *)
Theorem C30_destroyed evs a o b x c i :
  disciplined (history evs) -> history evs = a ++ (EvDestroy i, o) :: b ++ x :: c ->
  given a i -> ~ starts i x.
Proof.
  intros D H G St.
  assert (K : forall b c, history evs = a ++ (EvDestroy i, o) :: b ++ c ->
    let s := fst (run tstep tinit (map fst (a ++ (EvDestroy i, o) :: b))) in
    zget (t_timers s) i = None \/
    (t_call s = Some i /\ exists y, zget (t_timers s) i = Some y /\ x_doomed y = true)).
  { clear x b c H St. induction b as [|(e, o1) b IH] using rev_ind; intros c H.
    - destruct (history_split _ _ _ _ _ D H) as (s & s' & R & HA & I & C & L & E & R' & _).
      cbv zeta. rewrite R'. unfold tstep in E. rewrite (v_ub _ _ I) in E.
      assert (Lt : i < t_next s).
      { rewrite <- HA in G. apply given_iff in G. rewrite R in G. lia. }
      unfold stopTimer in E. destruct (Z.ltb_spec (t_next s - 1) i); [lia|].
      destruct (zget (t_timers s) i) as [y|] eqn:Gi; [|injection E as <- _; auto].
      destruct (x_exec y) eqn:Ex.
      + injection E as <- _. right. split; [exact (v_exec _ _ I _ _ Gi Ex)|].
        cbn [setTimers t_timers]. rewrite zget_set_same. eexists. split; eauto. cbn. apply orb_true_r.
      + left. injection E as <- _. destruct (t_call s); [destruct (_ =? _)|]; cbn; apply zget_del_same.
    - assert (H' : history evs = a ++ (EvDestroy i, o) :: b ++ ([(e, o1)] ++ c)).
      { rewrite H. now rewrite <- app_assoc. }
      specialize (IH _ H'). cbn [app] in H'.
      change (a ++ (EvDestroy i, o) :: b ++ (e, o1) :: c)
        with (a ++ ((EvDestroy i, o) :: b) ++ (e, o1) :: c) in H'. rewrite app_assoc in H'.
      pose proof D as Dd. rewrite H' in Dd. specialize (Dd _ _ _ _ eq_refl).
      destruct (history_split _ _ _ _ _ D H') as (s & s' & R & HA & I & C & L & E & R' & _).
      cbv zeta in IH. rewrite R in IH. cbv zeta.
      replace (a ++ (EvDestroy i, o) :: b ++ [(e, o1)])
        with ((a ++ (EvDestroy i, o) :: b) ++ [(e, o1)]) by now rewrite <- app_assoc.
      rewrite R'. clear R R' HA H H'.
      assert (Lt : i < t_next s).
      { pose proof (v_ids _ _ I i) as K. apply K. rewrite flat_map_app. apply in_or_app. now left. }
      rewrite <- C in Dd. unfold tstep in E. rewrite (v_ub _ _ I) in E.
      assert (SS : forall s id d, (zget (t_timers s) i = None \/
                 (t_call s = Some i /\ exists y, zget (t_timers s) i = Some y /\ x_doomed y = true)) ->
                 zget (t_timers (fst (stopTimer s id d))) i = None \/
                 (t_call (fst (stopTimer s id d)) = Some i /\ exists y,
                    zget (t_timers (fst (stopTimer s id d))) i = Some y /\ x_doomed y = true)).
      { intros s0 id d H0. rewrite stop_call. unfold stopTimer. destruct (_ <? id); auto.
        destruct (zget (t_timers s0) id) as [y|] eqn:Gy; auto.
        destruct (x_exec y).
        - cbn [fst setTimers t_timers]. destruct (Z.eq_dec i id) as [->|N].
          + rewrite zget_set_same. destruct H0 as [H0|(H1 & z & H0 & H2)]; [congruence|].
            right. split; auto. eexists. split; eauto. cbn. rewrite Gy in H0. injection H0 as ->. now rewrite H2.
          + rewrite zget_set_other by auto. exact H0.
        - destruct d; auto.
          assert (Q : forall q, zget (t_timers (fst (match t_call s0 with
              | Some c0 => if c0 =? id then broken (setQueue (setTimers s0 (zdel (t_timers s0) id)) q)
                           else setQueue (setTimers s0 (zdel (t_timers s0) id)) q
              | None => setQueue (setTimers s0 (zdel (t_timers s0) id)) q end, true))) i =
              zget (zdel (t_timers s0) id) i).
          { intros q. destruct (t_call s0); [destruct (_ =? _)|]; reflexivity. }
          rewrite Q, zget_del. destruct (Z.eqb_spec i id); auto. }
      assert (ST : forall id delay per now w, (w = false -> t_call s <> Some id) ->
                 startTimer s id delay per now w = (s', o1) ->
                 zget (t_timers s') i = None \/
                 (t_call s' = Some i /\ exists y, zget (t_timers s') i = Some y /\ x_doomed y = true)).
      { intros id delay per now w Dc E'. unfold startTimer in E'.
        destruct (_ <? id); [injection E' as <- _; auto|].
        destruct (zget (t_timers s) id) as [y|] eqn:Gy; [|injection E' as <- _; auto].
        destruct w; [injection E' as <- _; auto|]. specialize (Dc eq_refl). injection E' as <- _.
        cbn [setQueue setTimers t_timers t_call].
        assert (N : i <> id) by (destruct IH as [IH|(IH & _)]; congruence).
        rewrite zget_set_other by auto. exact IH. }
      destruct e as [|id delay now w|id delay per now w|id|id|id|ids tm|now|].
      + injection E as <- _. cbn [t_timers t_call]. rewrite zget_set_other by lia. exact IH.
      + eapply ST; eauto. intros ->. exact Dd.
      + destruct (0 <? per); [|injection E as <- _; auto]. eapply ST; eauto. intros ->. exact Dd.
      + injection E as <- _. auto.
      + specialize (SS s id false IH). destruct (stopTimer _ _ _). injection E as <- _. exact SS.
      + specialize (SS s id true IH). destruct (stopTimer _ _ _). injection E as <- _. exact SS.
      + unfold destroyTimers in E.
        assert (F : forall l s0 n, (zget (t_timers s0) i = None \/
                 (t_call s0 = Some i /\ exists y, zget (t_timers s0) i = Some y /\ x_doomed y = true)) ->
                 let s1 := fst (fold_left (fun st id => let (s1, ok) := stopTimer (fst st) id true in
                               (s1, if ok then snd st + 1 else snd st)) l (s0, n)) in
                 zget (t_timers s1) i = None \/
                 (t_call s1 = Some i /\ exists y, zget (t_timers s1) i = Some y /\ x_doomed y = true)).
        { induction l as [|k l IHl]; intros s0 n H0; cbn [fold_left]; auto. cbn [fst snd].
          specialize (SS s0 k true H0). destruct (stopTimer s0 k true). apply IHl. exact SS. }
        specialize (F ids s 0 IH). cbv zeta in F. destruct (fold_left _ ids _) as (s1, n). cbn [fst] in F.
        injection E as <- _. destruct (tm && _); exact F.
      + unfold turn in E. destruct (t_call s) eqn:TC; [injection E as <- _; rewrite TC; auto|].
        destruct (t_queue s) as [|h q] eqn:Q; [injection E as <- _; rewrite TC; auto|].
        destruct (v_wait _ _ I h) as (y & Gy & _); [rewrite Q; now left|]. rewrite Gy in E.
        destruct IH as [IH|(IH & _)]; [|discriminate].
        destruct (_ <=? now); injection E as <- _; [|auto]. left. cbn [setCall setQueue setTimers t_timers].
        rewrite zget_set_other; [auto|congruence].
      + unfold done in E. destruct (t_call s) as [k|] eqn:TC; [|injection E as <- _; rewrite TC; auto].
        destruct (zget (t_timers s) k) as [y|] eqn:Gk.
        2:{ injection E as <- _. cbn. rewrite TC. exact IH. }
        cbn [setCall t_timers t_queue] in E. left.
        destruct IH as [IH|(IH & z & Gz & Dz)].
        * assert (N : i <> k) by congruence.
          destruct (x_doomed y); [|destruct (x_off y); [|destruct (0 <? x_period y)]];
            injection E as <- _; try destruct (zin _ _); cbn [broken setQueue setTimers setCall t_timers];
            rewrite ?zget_set_other, ?zget_del_other by auto; exact IH.
        * injection IH as ->. rewrite Gz in Gk. injection Gk as <-. rewrite Dz in E.
          injection E as <- _. destruct (zin _ _); cbn; apply zget_del_same. }
  specialize (K b (x :: c) H). cbv zeta in K.
  change (a ++ (EvDestroy i, o) :: b ++ x :: c) with (a ++ ((EvDestroy i, o) :: b) ++ x :: c) in H.
  rewrite app_assoc in H. destruct x as (e, o1).
  pose proof D as Dd. rewrite H in Dd. specialize (Dd _ _ _ _ eq_refl).
  destruct (history_split _ _ _ _ _ D H) as (s & s' & R & HA & I & C & L & E & _).
  rewrite R in K. rewrite <- C in Dd. unfold tstep in E. rewrite (v_ub _ _ I) in E.
  destruct e as [|id delay now w|id delay per now w| | | | | |]; cbn in St; try easy.
  - destruct o1 as [|[?|[|]|?|?] [|? ?]]; try easy. subst id. unfold startTimer in E.
    destruct (_ <? i); [discriminate|]. destruct (zget (t_timers s) i) as [y|]; [|discriminate].
    destruct w; [discriminate|]. destruct K as [K|(K & _)]; congruence.
  - destruct o1 as [|[?|[|]|?|?] [|? ?]]; try easy. subst id. unfold startTimer in E.
    destruct (0 <? per); [|discriminate].
    destruct (_ <? i); [discriminate|]. destruct (zget (t_timers s) i) as [y|]; [|discriminate].
    destruct w; [discriminate|]. destruct K as [K|(K & _)]; congruence.
Qed.

Lemma shape_id s t e s' o j : inv s t -> tstep s e = (s', o) -> In (OutId j) o ->
  e = EvCreate /\ j = t_next s.
Proof.
  intros I E G. pose proof (shape _ _ _ _ _ I E) as Sh. destruct e; cbn in Sh.
  - subst o. cbn in G. destruct G as [G|[]]. now injection G as <-.
  - destruct Sh as [->|(-> & _)]; cbn in G; intuition discriminate.
  - destruct Sh as [->|(-> & _)]; cbn in G; intuition discriminate.
  - destruct Sh as (? & ->); cbn in G; intuition discriminate.
  - destruct Sh as (? & ->); cbn in G; intuition discriminate.
  - destruct Sh as (? & ->); cbn in G; intuition discriminate.
  - destruct Sh as (? & ->); cbn in G; intuition discriminate.
  - destruct Sh as [->|(? & ? & ? & -> & _)]; cbn in G; intuition discriminate.
  - subst o. easy.
Qed.

(** A start succeeds for every other timer that was created, but not from a callback. *)
Theorem C30_start evs a e o b i :
  disciplined (history evs) -> history evs = a ++ (e, o) :: b ->
  match e with
  | EvSingle id _ _ w => id = i /\ w = false
  | EvPeriodic id _ per _ w => id = i /\ w = false /\ 0 < per
  | _ => False
  end ->
  given a i -> (forall e' o', In (e', o') a -> ~ (stops i e' /\ e' <> EvDisable i)) -> starts i (e, o).
Proof.
  intros D H Ev G N. destruct (history_split _ _ _ _ _ D H) as (s & s' & R & HA & I & C & L & E & _).
  assert (Lt : i < t_next s).
  { rewrite <- HA in G. apply given_iff in G. rewrite R in G. lia. }
  assert (K : exists x, zget (t_timers s) i = Some x).
  { pose proof H as H0. clear Ev E s'.
    assert (K : forall a, history (map fst a) = a -> disciplined a ->
      (forall e' o', In (e', o') a -> ~ (stops i e' /\ e' <> EvDisable i)) -> given a i ->
      exists x, zget (t_timers (fst (run tstep tinit (map fst a)))) i = Some x /\ x_doomed x = false).
    { clear. induction a as [|(e, o) a IH] using rev_ind; intros HA Dd N G; [easy|].
      assert (H : history (map fst (a ++ [(e, o)])) = a ++ (e, o) :: []) by exact HA.
      assert (Dh : disciplined (history (map fst (a ++ [(e, o)])))) by (rewrite HA; exact Dd).
      destruct (history_split _ _ _ _ _ Dh H) as (s & s' & R & HA' & I & C & L & E & R' & _).
      rewrite R'. rewrite R in IH.
      assert (N1 : ~ (stops i e /\ e <> EvDisable i)) by (eapply N; apply in_or_app; right; now left).
      assert (N2 : forall e' o', In (e', o') a -> ~ (stops i e' /\ e' <> EvDisable i))
        by (intros; eapply N; apply in_or_app; left; eauto).
      specialize (IH HA' (disciplined_prefix _ _ Dd) N2).
      pose proof (fun j => shape_id _ _ _ _ _ j I E) as Sh.
      unfold given in G. rewrite flat_map_app in G. apply in_app_or in G.
      cbn [flat_map snd] in G. rewrite app_nil_r in G.
      unfold tstep in E. rewrite (v_ub _ _ I) in E.
      destruct (Z.eq_dec i (t_next s)) as [In1|In1].
      { destruct G as [G|G]; [apply (v_ids _ _ I) in G; lia|]. destruct (Sh _ G) as (-> & _).
        injection E as <- _. cbn [t_timers]. rewrite In1, zget_set_same. eauto. }
      assert (G' : given a i).
      { destruct G as [G|G]; auto. destruct (Sh _ G). congruence. }
      destruct (IH G') as (x & Gx & Dx). clear IH G.
      assert (SS : forall s0 id, id <> i -> (exists x, zget (t_timers s0) i = Some x /\ x_doomed x = false) ->
                 exists x, zget (t_timers (fst (stopTimer s0 id true))) i = Some x /\ x_doomed x = false).
      { intros s0 id Ni (z & Gz & Dz). exists z. split; auto. unfold stopTimer. destruct (_ <? id); auto.
        destruct (zget (t_timers s0) id) as [y|]; auto. destruct (x_exec y).
        - cbn [fst setTimers t_timers]. rewrite zget_set_other; auto.
        - cbn [fst]. destruct (t_call s0); [destruct (_ =? _)|];
            cbn [broken setQueue setTimers t_timers]; rewrite zget_del_other; auto. }
      assert (ST : forall id delay per now w, startTimer s id delay per now w = (s', o) ->
                 exists x, zget (t_timers s') i = Some x /\ x_doomed x = false).
      { intros id delay per now w E'. unfold startTimer in E'.
        destruct (_ <? id); [injection E' as <- _; eauto|].
        destruct (zget (t_timers s) id) as [y|]; [|injection E' as <- _; eauto].
        destruct w; injection E' as <- _; [eauto|]. cbn [setQueue setTimers t_timers].
        rewrite zget_set. destruct (i =? id); eauto. }
      destruct e as [|id delay now w|id delay per now w|id|id|id|ids tm|now|].
      - injection E as <- _. cbn [t_timers]. rewrite zget_set_other; eauto.
      - eauto.
      - destruct (0 <? per); [eauto|injection E as <- _; eauto].
      - injection E as <- _. eauto.
      - assert (F : exists x, zget (t_timers (fst (stopTimer s id false))) i = Some x /\ x_doomed x = false).
        { unfold stopTimer. destruct (_ <? id); [eauto|].
          destruct (zget (t_timers s) id) as [y|] eqn:Gy; [|eauto]. destruct (x_exec y); [|eauto].
          cbn [fst setTimers t_timers]. rewrite zget_set. destruct (Z.eqb_spec i id) as [->|]; [|eauto].
          eexists. split; [reflexivity|]. cbn. rewrite Gx in Gy. injection Gy as <-. now rewrite Dx. }
        destruct (stopTimer s id false). injection E as <- _. exact F.
      - assert (id <> i) by (intros ->; apply N1; cbn; split; [auto|discriminate]).
        specialize (SS s id ltac:(auto) ltac:(eauto)). destruct (stopTimer s id true).
        injection E as <- _. exact SS.
      - unfold destroyTimers in E.
        assert (Ni : ~ In i ids) by (intros Ni; apply N1; cbn; split; [auto|discriminate]).
        assert (F : forall l s0 n, ~ In i l -> (exists x, zget (t_timers s0) i = Some x /\ x_doomed x = false) ->
                 exists x, zget (t_timers (fst (fold_left (fun st id => let (s1, ok) := stopTimer (fst st) id true in
                               (s1, if ok then snd st + 1 else snd st)) l (s0, n)))) i = Some x /\ x_doomed x = false).
        { induction l as [|k l IHl]; intros s0 n H0 H1; cbn [fold_left]; auto. cbn [fst snd].
          assert (k <> i) by (intros ->; apply H0; now left).
          specialize (SS s0 k ltac:(auto) H1). destruct (stopTimer s0 k true). apply IHl; auto.
          intros K. apply H0. now right. }
        specialize (F ids s 0 Ni ltac:(eauto)). destruct (fold_left _ ids _) as (s1, n). cbn [fst] in F.
        injection E as <- _. destruct (tm && _); exact F.
      - unfold turn in E. destruct (t_call s) eqn:TC; [injection E as <- _; eauto|].
        destruct (t_queue s) as [|h q] eqn:Q; [injection E as <- _; eauto|].
        destruct (v_wait _ _ I h) as (y & Gy & _ & _ & Dy & _); [rewrite Q; now left|]. rewrite Gy in E.
        destruct (_ <=? now); injection E as <- _; [|eauto]. cbn [setCall setQueue setTimers t_timers].
        rewrite zget_set. destruct (Z.eqb_spec i h); eauto.
      - unfold done in E. destruct (t_call s) as [k|] eqn:TC; [|injection E as <- _; eauto].
        destruct (zget (t_timers s) k) as [y|] eqn:Gk; [|injection E as <- _; cbn; eauto].
        cbn [setCall t_timers t_queue] in E.
        destruct (x_doomed y) eqn:Dy.
        + injection E as <- _. assert (i <> k) by congruence.
          destruct (zin _ _); cbn [broken setTimers setCall t_timers]; rewrite zget_del_other; eauto.
        + destruct (x_off y); [|destruct (0 <? x_period y)]; injection E as <- _; try destruct (zin _ _);
            cbn [broken setQueue setTimers setCall t_timers]; rewrite zget_set;
            (destruct (Z.eqb_spec i k); [eexists; split; [reflexivity|reflexivity]|eauto]). }
    assert (Da : disciplined a).
    { rewrite H0 in D. now apply disciplined_prefix in D. }
    destruct (K a HA Da N G) as (x & Gx & _). rewrite R in Gx. eauto. }
  destruct K as (x & Gx). unfold tstep in E. rewrite (v_ub _ _ I) in E.
  destruct e as [|id delay now w|id delay per now w| | | | | |]; try easy.
  - destruct Ev as (-> & ->). unfold startTimer in E. destruct (Z.ltb_spec (t_next s - 1) i); [lia|].
    rewrite Gx in E. injection E as _ <-. reflexivity.
  - destruct Ev as (-> & -> & Pp). destruct (Z.ltb_spec 0 per); [|lia].
    unfold startTimer in E. destruct (Z.ltb_spec (t_next s - 1) i); [lia|].
    rewrite Gx in E. injection E as _ <-. reflexivity.
Qed.

Theorem C31_worker evs a e o b :
  disciplined (history evs) -> history evs = a ++ (e, o) :: b ->
  match e with EvSingle _ _ _ w | EvPeriodic _ _ _ _ w => w = true | _ => False end ->
  o = [OutBool false].
Proof.
  intros D H W. destruct (history_split _ _ _ _ _ D H) as (s & s' & _ & _ & I & C & L & E & _).
  pose proof (shape _ _ _ _ _ I E) as Sh. destruct e; try easy; cbn in Sh; intuition congruence.
Qed.

(** Timers enter the queue when they are started or when their callback has returned. *)
Lemma queue_gain s t e s' o j : inv s t -> tstep s e = (s', o) -> In j (t_queue s') ->
  In j (t_queue s) \/ t_call s = Some j \/ starts j (e, o).
Proof.
  intros I E Q. unfold tstep in E. rewrite (v_ub _ _ I) in E.
  assert (SS : forall s id d, In j (t_queue (fst (stopTimer s id d))) -> In j (t_queue s)).
  { intros s0 id d. unfold stopTimer. destruct (_ <? id); auto. destruct (zget _ _) as [y|]; auto.
    destruct (x_exec y); auto. rewrite dequeued.
    destruct d; cbn [fst].
    - intros H. assert (In j (dequeue (t_timers s0) (x_due y) (t_queue s0))).
      { destruct (t_call s0); [destruct (_ =? _)|]; exact H. }
      apply In_dequeue in H0. tauto.
    - cbn [setQueue t_queue]. rewrite In_dequeue. tauto. }
  assert (ST : forall id delay per now w, startTimer s id delay per now w = (s', o) ->
    In j (t_queue s) \/ (j = id /\ o = [OutBool true])).
  { intros id delay per now w E'. unfold startTimer in E'.
    destruct (_ <? id); [injection E' as <- _; auto|].
    destruct (zget (t_timers s) id) as [y|]; [|injection E' as <- _; auto].
    destruct w; [injection E' as <- _; auto|]. rewrite dequeued in E'. injection E' as <- <-.
    cbn [setQueue t_queue] in Q. apply In_enqueue in Q. destruct Q as [->|Q]; auto.
    apply In_dequeue in Q. tauto. }
  destruct e as [|id delay now w|id delay per now w|id|id|id|ids tm|now|].
  - injection E as <- _. auto.
  - destruct (ST _ _ _ _ _ E) as [H|(-> & ->)]; auto. right. right. reflexivity.
  - destruct (0 <? per); [|injection E as <- _; auto].
    destruct (ST _ _ _ _ _ E) as [H|(-> & ->)]; auto. right. right. reflexivity.
  - injection E as <- _. auto.
  - specialize (SS s id false). destruct (stopTimer _ _ _). injection E as <- _. auto.
  - specialize (SS s id true). destruct (stopTimer _ _ _). injection E as <- _. auto.
  - unfold destroyTimers in E.
    assert (F : forall l s0 n, In j (t_queue (fst (fold_left (fun st id => let (s1, ok) := stopTimer (fst st) id true in
                               (s1, if ok then snd st + 1 else snd st)) l (s0, n)))) -> In j (t_queue s0)).
    { induction l as [|k l IHl]; intros s0 n H0; cbn [fold_left] in H0; auto. cbn [fst snd] in H0.
      specialize (SS s0 k true). destruct (stopTimer s0 k true). apply IHl in H0. auto. }
    specialize (F ids s 0). destruct (fold_left _ ids _). cbn [fst] in F. injection E as <- _.
    left. apply F. destruct (tm && _); exact Q.
  - unfold turn in E. destruct (t_call s); [injection E as <- _; auto|].
    destruct (t_queue s) as [|h q] eqn:Qq; [injection E as <- _; rewrite Qq in Q; auto|].
    destruct (zget _ _); [|injection E as <- _; cbn in Q; rewrite Qq in Q; auto].
    destruct (_ <=? _); injection E as <- _; [left; now right|rewrite Qq in Q; auto].
  - unfold done in E. destruct (t_call s) as [k|] eqn:TC; [|injection E as <- _; auto].
    destruct (zget (t_timers s) k) as [y|]; [|injection E as <- _; auto].
    cbn [setCall t_timers t_queue] in E.
    destruct (x_doomed y); [|destruct (x_off y); [|destruct (0 <? x_period y)]]; injection E as <- _.
    + left. destruct (zin _ _); exact Q.
    + auto.
    + assert (Q' : In j (enqueue (zset (t_timers s) k
          {| x_due := x_due y + x_period y; x_period := x_period y; x_exec := false; x_off := false;
             x_doomed := false |}) k (t_queue s))) by (destruct (zin _ _); exact Q).
      apply In_enqueue in Q'. destruct Q' as [->|Q']; auto.
    + auto.
Qed.

Lemma calls_zero i o : calls i [o] = 0 -> ~ In (OutCall i) (snd o).
Proof.
  unfold calls. cbn [flat_map]. rewrite app_nil_r. intros H I.
  assert (In (OutCall i) (filter (fun o => match o with OutCall j => j =? i | _ => false end) (snd o))).
  { apply filter_In. split; auto. apply Z.eqb_refl. }
  destruct (filter _ (snd o)); [easy|discriminate].
Qed.

(** Callbacks run in the order of their times: if the callback of [j] follows that of [i], without
    [j] having been started or called in between, then [j] is not due before [i]. *)
Theorem C31_order evs a now o b now' o' c i j :
  disciplined (history evs) ->
  history evs = a ++ (EvTurn now, o) :: b ++ (EvTurn now', o') :: c ->
  In (OutCall i) o -> In (OutCall j) o' -> i <> j ->
  (forall e x, In (e, x) b -> ~ starts j (e, x) /\ ~ In (OutCall j) x) ->
  exists d d', due a i d /\ due a j d' /\ due (a ++ (EvTurn now, o) :: b) j d' /\ d <= d'.
Proof.
  intros D H Oi Oj Nij Nb.
  destruct (history_split _ _ _ _ _ D H) as (s & s' & R & HA & I & C & L & E & R' & HA').
  pose proof (shape _ _ _ _ _ I E) as Sh. cbn in Sh.
  destruct Sh as [->|(k & d & per & -> & Ri & Wi & Le)]; [easy|].
  destruct Oi as [Oi|[]]. injection Oi as ->.
  set (x := (EvTurn now, [OutCall i])) in *.
  (* in the queue now *)
  assert (Q : In j (t_queue s')).
  { destruct (in_dec Z.eq_dec j (t_queue s')) as [|NQ]; auto. exfalso.
    assert (K : forall b c, history evs = (a ++ [x]) ++ b ++ c ->
      (forall e x, In (e, x) b -> ~ starts j (e, x) /\ ~ In (OutCall j) x) ->
      ~ In j (t_queue (fst (run tstep tinit (map fst ((a ++ [x]) ++ b))))) /\
      calling ((a ++ [x]) ++ b) <> Some j).
    { clear b c H Nb. induction b as [|(e, y) b IH] using rev_ind; intros c H Nb.
      - rewrite app_nil_r. rewrite R'. split; auto. unfold x. rewrite calling_snoc. congruence.
      - rewrite <- (app_assoc b) in H. cbn [app] in H. destruct (IH _ H) as (I1 & I2).
        { intros. apply Nb. apply in_or_app. now left. }
        destruct (Nb e y) as (N1 & N2); [apply in_or_app; right; now left|].
        rewrite (app_assoc (a ++ [x])) in H.
        destruct (history_split _ _ _ _ _ D H) as (s1 & s2 & R1 & HA1 & J & C1 & L1 & E1 & R2 & _).
        rewrite (app_assoc (a ++ [x])), R2. rewrite R1 in I1. split.
        + intros Q. destruct (queue_gain _ _ _ _ _ _ J E1 Q) as [Q'|[Q'|Q']]; auto. congruence.
        + rewrite calling_snoc. destruct y as [|[?|?|?|q] [|? ?]]; try (destruct e; congruence).
          intros Q. injection Q as ->. apply N2. now left. }
    assert (H2 : history evs = (a ++ [x]) ++ b ++ (EvTurn now', o') :: c) by (now rewrite <- app_assoc).
    destruct (K _ _ H2 Nb) as (K1 & _). rewrite app_assoc in H2.
    destruct (history_split _ _ _ _ _ D H2) as (s1 & s2 & R1 & HA1 & J & C1 & L1 & E1 & R2 & _).
    rewrite R1 in K1. unfold tstep in E1. rewrite (v_ub _ _ J) in E1. unfold turn in E1.
    destruct (t_call s1); [injection E1 as _ <-; easy|].
    destruct (t_queue s1) as [|h q]; [injection E1 as _ <-; easy|].
    destruct (zget (t_timers s1) h); [|injection E1 as _ <-; easy].
    destruct (_ <=? now'); injection E1 as _ <-; [|easy]. destruct Oj as [Oj|[]]. injection Oj as ->.
    apply K1. now left. }
  (* before *)
  unfold tstep in E. rewrite (v_ub _ _ I) in E. unfold turn in E.
  destruct (t_call s) eqn:TC; [discriminate|]. destruct (t_queue s) as [|h q] eqn:Qs; [discriminate|].
  destruct (v_wait _ _ I h) as (y & Gy & Wy & _); [rewrite Qs; now left|]. rewrite Gy in E.
  destruct (x_due y <=? now); [|discriminate]. injection E as <- ->.
  cbn [setCall setQueue t_queue] in Q.
  destruct (v_wait _ _ I j) as (z & Gz & Wz & _); [rewrite Qs; now right|].
  rewrite Wi in Wy. injection Wy as -> ->.
  exists (x_due y), (x_due z).
  assert (Dj : duep a j (x_due z) (x_period z)) by now apply L.
  split; [apply due_duep; exists (x_period y); now apply L|].
  split; [apply due_duep; eauto|]. split.
  - (* still due *)
    assert (HH : history evs = (a ++ x :: b) ++ (EvTurn now', o') :: c) by (rewrite <- app_assoc; exact H).
    destruct (C31_fires _ _ _ _ _ _ D HH Oj) as (_ & dj & Du & _).
    apply due_duep in Du. destruct Du as (per & Du).
    assert (K : forall b, (forall e x, In (e, x) b -> ~ starts j (e, x) /\ ~ In (OutCall j) x) ->
              duep (a ++ x :: b) j dj per -> duep a j dj per).
    { clear - Nij. induction b as [|(e, y) b IH] using rev_ind; intros Nb Du.
      - unfold x in Du. apply duep_snoc in Du.
        destruct Du as [(S1 & _)|(_ & _ & d' & H & E & _)]; [now cbn in S1|].
        assert (Q : calls j [(EvTurn now, [OutCall i])] = 0).
        { unfold calls. cbn [flat_map snd app filter]. destruct (Z.eqb_spec i j); [congruence|reflexivity]. }
        rewrite Q in E. rewrite Z.mul_0_l, Z.add_0_r in E. now subst.
      - apply IH; [intros; apply Nb; apply in_or_app; now left|].
        change (a ++ x :: b ++ [(e, y)]) with (a ++ (x :: b) ++ [(e, y)]) in Du.
        rewrite app_assoc in Du. apply duep_snoc in Du.
        destruct (Nb e y) as (N1 & N2); [apply in_or_app; right; now left|].
        destruct Du as [(S1 & _)|(_ & _ & d' & H & E & _)]; [tauto|].
        assert (Q : calls j [(e, y)] = 0).
        { unfold calls. cbn [flat_map snd]. rewrite app_nil_r.
          destruct (filter _ y) as [|q l] eqn:F; auto. exfalso.
          assert (Iq : In q (filter (fun o => match o with OutCall k => k =? j | _ => false end) y))
            by (rewrite F; now left).
          apply filter_In in Iq. destruct Iq as (Iq & Bq). destruct q; try discriminate.
          apply Z.eqb_eq in Bq. subst id. auto. }
        rewrite Q in E. rewrite Z.mul_0_l, Z.add_0_r in E. now subst. }
    pose proof (K b Nb Du) as Dj2.
    assert (CN : calling a <> Some j) by (rewrite <- C; discriminate).
    pose proof (l_due _ L _ _ _ Dj2 CN) as W2. rewrite Wz in W2. injection W2 as -> _.
    apply due_duep. eauto.
  - pose proof (v_ord _ _ I) as OR. rewrite Qs in OR. inversion OR as [|? ? _ FA]; subst.
    rewrite Forall_forall in FA. specialize (FA _ Q).
    now rewrite (dueOf_some _ _ _ Gy), (dueOf_some _ _ _ Gz) in FA.
Qed.

(** When no two timers are due at the same time, every timer fires when its time has come: the
    next turn of the worker calls a timer that waits with the earliest time. *)
Theorem C30_fires evs a now o b i d :
  disciplined (history evs) -> apart (history evs) ->
  history evs = a ++ (EvTurn now, o) :: b -> calling a = None ->
  due a i d -> d <= now ->
  exists j d', o = [OutCall j] /\ due a j d' /\ forall k dk, due a k dk -> d' <= dk.
Proof.
  intros D A H CN Du Le. pose proof A as A'. rewrite H in A'. apply apart_pre in A'.
  destruct (history_split _ _ _ _ _ D H) as (s & s' & R & HA & I & C & L & E & _).
  pose proof (apart_sparse _ L A') as Sp.
  assert (K : forall k dk, due a k dk -> In k (t_queue s) /\ dueOf (t_timers s) k = dk).
  { intros k dk Dk. apply due_duep in Dk. destruct Dk as (per & Dk).
    assert (W : zget (p_wait (the_plan a)) k = Some (dk, per)) by (apply L; auto; congruence).
    pose proof (v_cover _ _ I Sp _ _ W) as Q. split; auto.
    destruct (v_wait _ _ I _ Q) as (x & Gx & Wx & _). rewrite W in Wx. injection Wx as -> _.
    now apply dueOf_some. }
  destruct (K _ _ Du) as (Q & Dq).
  unfold tstep in E. rewrite (v_ub _ _ I) in E. unfold turn in E.
  destruct (t_call s) eqn:TC; [congruence|]. destruct (t_queue s) as [|h q] eqn:Qs; [easy|].
  destruct (v_wait _ _ I h) as (y & Gy & Wy & _); [rewrite Qs; now left|]. rewrite Gy in E.
  pose proof (v_ord _ _ I) as OR. rewrite Qs in OR. inversion OR as [|? ? _ FA]; subst.
  rewrite Forall_forall in FA.
  assert (Min : forall k dk, due a k dk -> x_due y <= dk).
  { intros k dk Dk. destruct (K _ _ Dk) as (Qk & <-). rewrite <- (dueOf_some _ _ _ Gy).
    destruct Qk as [<-|Qk]; [lia|auto]. }
  specialize (Min _ _ Du) as Mi. destruct (Z.leb_spec (x_due y) now); [|lia].
  injection E as _ <-. exists h, (x_due y). split; auto. split; auto.
  apply due_duep. exists (x_period y). now apply L.
Qed.

(** Then a timer is reported active exactly while it waits. *)
Theorem C30_active evs a i o b :
  disciplined (history evs) -> apart (history evs) ->
  history evs = a ++ (EvActive i, o) :: b ->
  exists r, o = [OutBool r] /\ (r = true <-> exists d, waits a i d).
Proof.
  intros D A H. pose proof A as A'. rewrite H in A'. apply apart_pre in A'.
  destruct (history_split _ _ _ _ _ D H) as (s & s' & R & HA & I & C & L & E & _).
  pose proof (apart_sparse _ L A') as Sp.
  unfold tstep in E. rewrite (v_ub _ _ I) in E. injection E as _ <-. exists (isActive s i).
  split; auto. unfold isActive. split.
  - destruct (zget (t_timers s) i) as [x|] eqn:G; [|discriminate].
    unfold queued. destruct (find _ (t_queue s)) as [j|] eqn:F; [|discriminate]. intros _.
    apply find_some in F. destruct F as (Q & F). apply Z.eqb_eq in F.
    destruct (v_wait _ _ I _ Q) as (y & Gy & Wy & _). rewrite (dueOf_some _ _ _ Gy) in F.
    pose proof (v_in _ _ I _ _ _ Wy) as Ij.
    assert (j = i).
    { destruct (Sp j i (x_due y) Ij) as (S1 & S2). apply S2. rewrite F.
      destruct (v_all _ _ I _ _ G); [congruence|auto]. }
    subst j. exists (x_due y). destruct (l_wait _ L _ _ _ Wy) as (A1 & A2 & _). split; auto.
    apply due_duep. eauto.
  - intros (d & Du & N). apply due_duep in Du. destruct Du as (per & Du).
    pose proof (l_due _ L _ _ _ Du N) as W. pose proof (v_cover _ _ I Sp _ _ W) as Q.
    destruct (v_wait _ _ I _ Q) as (x & Gx & _). rewrite Gx. unfold queued.
    destruct (find _ (t_queue s)) eqn:F; auto. exfalso.
    pose proof (find_none _ _ F _ Q) as N2. cbn in N2.
    rewrite (dueOf_some _ _ _ Gx), Z.eqb_refl in N2. discriminate.
Qed.

(** Checking a history for discipline and distinct times. *)
Definition obeys (a : trace) (e : event) : bool :=
  match e with
  | EvSingle id _ _ false | EvPeriodic id _ _ _ false =>
      match calling a with Some c => negb (c =? id) | None => true end
  | EvDestroyAll ids true =>
      forallb (fun id => existsb (fun o => match o with OutId k => k =? id | _ => false end)
                                 (flat_map snd a)) ids
  | _ => true
  end.

Fixpoint obeyed (a t : trace) : bool :=
  match t with [] => true | x :: t' => obeys a (fst x) && obeyed (a ++ [x]) t' end.

Lemma obeyed_ok t : forall a0, obeyed a0 t = true -> forall a e o b, t = a ++ (e, o) :: b ->
  obeys (a0 ++ a) e = true.
Proof.
  induction t as [|x t IH]; intros a0 H a e o b E; [destruct a; discriminate|].
  cbn in H. apply andb_prop in H. destruct H as (H1 & H2). destruct a as [|y a].
  - injection E as -> _. now rewrite app_nil_r.
  - injection E as -> E. rewrite (app_assoc a0 [y] a : a0 ++ y :: a = _). eapply IH; eauto.
Qed.

Lemma obeyed_disciplined t : obeyed [] t = true -> disciplined t.
Proof.
  intros H a e o b E. pose proof (obeyed_ok _ _ H _ _ _ _ E) as K. cbn [app] in K. unfold obeys in K.
  destruct e as [|id delay now w|id delay per now w|id|id|id|ids tm|now|]; auto.
  - destruct w; auto. destruct (calling a); [|discriminate].
    apply negb_true_iff, Z.eqb_neq in K. congruence.
  - destruct w; auto. destruct (calling a); [|discriminate].
    apply negb_true_iff, Z.eqb_neq in K. congruence.
  - destruct tm; auto. rewrite forallb_forall in K. intros id Ii. specialize (K _ Ii).
    apply existsb_exists in K. destruct K as (q & Q1 & Q2). destruct q; try discriminate.
    apply Z.eqb_eq in Q2. now subst.
Qed.

Lemma all_mono a b i : In i (p_all (the_plan a)) -> In i (p_all (the_plan (a ++ b))).
Proof.
  intros H. induction b as [|x b IH] using rev_ind; [now rewrite app_nil_r|].
  rewrite app_assoc, plan_snoc. now apply pstep_all.
Qed.

Lemma sparse_apart evs : disciplined (history evs) -> sparse (history evs) -> apart (history evs).
Proof.
  intros D Sp a b a' b' i j d E1 E2 (D1 & C1) (D2 & C2).
  assert (K : forall a b i, history evs = a ++ b -> due a i d -> calling a <> Some i ->
              In (i, d) (p_all (the_plan (history evs)))).
  { clear - D. intros a b i E Du C. rewrite E. apply all_mono.
    destruct b as [|(e, o) b].
    - rewrite app_nil_r in E. subst a. destruct (inv_run _ D) as (I & _). pose proof (link_run _ D) as L.
      apply due_duep in Du. destruct Du as (per & Du). apply (l_due _ L) in Du; auto.
      eapply (v_in _ _ I); eauto.
    - destruct (history_split _ _ _ _ _ D E) as (s & s' & R & HA & I & C' & L & _).
      apply due_duep in Du. destruct Du as (per & Du). apply (l_due _ L) in Du; auto.
      eapply (v_in _ _ I); eauto. }
  pose proof (K _ _ _ E1 D1 C1) as I1. pose proof (K _ _ _ E2 D2 C2) as I2.
  destruct (Sp i j d I1) as (S1 & S2). auto.
Qed.

(** A periodic timer, a single shot, and one that is disabled during its callback. *)
Definition demo : list event :=
  [EvCreate; EvCreate; EvCreate; EvPeriodic 1 10 10 100 false; EvSingle 2 15 100 false;
   EvPeriodic 3 7 5 100 false; EvTurn 105; EvTurn 112; EvDisable 3; EvDone; EvTurn 113; EvSingle 2 3 113 true;
   EvDone; EvActive 1; EvTurn 130; EvDone; EvActive 2; EvDestroyAll [2; 3] true; EvTurn 131; EvDone;
   EvDestroy 1; EvTurn 200].

Example demo_outputs : map snd (history demo) =
  [[OutId 1]; [OutId 2]; [OutId 3]; [OutBool true]; [OutBool true]; [OutBool true]; [];
   [OutCall 3]; [OutBool false]; []; [OutCall 1]; [OutBool false]; []; [OutBool true];
   [OutCall 2]; []; [OutBool false]; [OutCount 2]; [OutCall 1]; []; [OutBool true]; []].
Proof. vm_compute. reflexivity. Qed.

Example demo_disciplined : disciplined (history demo).
Proof. apply obeyed_disciplined. vm_compute. reflexivity. Qed.

Example demo_apart : apart (history demo).
Proof.
  apply sparse_apart; [apply demo_disciplined|]. intros i j d.
  replace (p_all (the_plan (history demo))) with [(1, 130); (1, 120); (3, 107); (2, 115); (1, 110)]
    by (vm_compute; reflexivity).
  cbn. intuition (try congruence).
Qed.

(** Timers with equal times: disabling the first takes the second with it, so that it does not
    fire although it waits. *)
Definition twins : list event :=
  [EvCreate; EvCreate; EvSingle 1 10 100 false; EvSingle 2 10 100 false; EvDisable 1; EvActive 2;
   EvTurn 200].

Theorem C30_others_refuted : ~ (forall evs a now o b i d,
  disciplined (history evs) -> history evs = a ++ (EvTurn now, o) :: b -> calling a = None ->
  due a i d -> d <= now -> exists j, o = [OutCall j]).
Proof.
  intros H.
  assert (D : disciplined (history twins)) by (apply obeyed_disciplined; vm_compute; reflexivity).
  destruct (H twins (firstn 6 (history twins)) 200 [] [] 2 110 D) as (j & E).
  - vm_compute. reflexivity.
  - vm_compute. reflexivity.
  - exists (firstn 3 (history twins)), (EvSingle 2 10 100 false), [OutBool true],
      [(EvDisable 1, [OutBool true]); (EvActive 2, [OutBool false])], 110, 0.
    split; [vm_compute; reflexivity|]. split; [reflexivity|]. split; [reflexivity|]. split.
    + intros e' o' [K|[K|[]]]; injection K as <- <-; cbn; split; auto; discriminate.
    + split; [vm_compute; reflexivity|]. intros _. vm_compute. reflexivity.
  - discriminate.
  - discriminate.
Qed.

(** A start from another thread during the callback: a later disable succeeds, and yet the timer
    fires again. *)
Definition restarted : list event :=
  [EvCreate; EvPeriodic 1 5 5 100 false; EvTurn 105; EvPeriodic 1 5 5 106 false; EvDisable 1; EvDone;
   EvTurn 200].

Theorem C30_disabled_refuted : ~ (forall evs a o b now o2 c i,
  history evs = a ++ (EvDisable i, o) :: b ++ (EvTurn now, o2) :: c ->
  o = [OutBool true] -> In (OutCall i) o2 ->
  exists e' o', In (e', o') b /\ starts i (e', o')).
Proof.
  intros H.
  destruct (H restarted (firstn 4 (history restarted)) [OutBool true] [(EvDone, [])] 200 [OutCall 1] [] 1)
    as (e' & o' & [K|[]] & St).
  - vm_compute. reflexivity.
  - reflexivity.
  - now left.
  - injection K as <- <-. exact St.
Qed.

(** It also brings undefined behaviour in reach, as does destroying a timer that never existed in
    bulk. *)
Theorem C30_safe_refuted :
  t_ub (fst (run tstep tinit [EvCreate; EvSingle 1 5 100 false; EvTurn 105; EvSingle 1 5 106 false;
                              EvDestroy 1])) = true /\
  t_ub (fst (run tstep tinit [EvCreate; EvPeriodic 1 5 5 100 false; EvTurn 105;
                              EvPeriodic 1 5 5 106 false; EvDone])) = true /\
  t_ub (fst (run tstep tinit [EvDestroyAll [7] true])) = true.
Proof. vm_compute. auto. Qed.

(** And it undoes a destruction that was requested during the callback: the timer fires on. *)
Example destroyed_refuted : map snd (history
  [EvCreate; EvSingle 1 5 100 false; EvTurn 105; EvDestroy 1; EvSingle 1 5 106 false; EvDone; EvTurn 111]) =
  [[OutId 1]; [OutBool true]; [OutCall 1]; [OutBool false]; [OutBool true]; []; [OutCall 1]].
Proof. vm_compute. reflexivity. Qed.

(** The cases of the theorems occur in the example. *)
Example fires_case : exists d, due (firstn 18 (history demo)) 1 d /\ d <= 131.
Proof.
  apply (C31_fires demo (firstn 18 (history demo)) 131 [OutCall 1] (skipn 19 (history demo)) 1).
  - apply demo_disciplined.
  - vm_compute. reflexivity.
  - now left.
Qed.

Example order_case : exists d d', due (firstn 7 (history demo)) 3 d /\ due (firstn 7 (history demo)) 1 d' /\ d <= d'.
Proof.
  destruct (C31_order demo (firstn 7 (history demo)) 112 [OutCall 3]
              [(EvDisable 3, [OutBool false]); (EvDone, [])] 113 [OutCall 1] (skipn 11 (history demo)) 3 1)
    as (d & d' & A & B & _ & C).
  - apply demo_disciplined.
  - vm_compute. reflexivity.
  - now left.
  - now left.
  - discriminate.
  - intros e x [K|[K|[]]]; injection K as <- <-; cbn; intuition discriminate.
  - eauto.
Qed.

Print Assumptions C30_safe.
Print Assumptions C30_disabled.
Print Assumptions C30_result.
Print Assumptions C30_count.
Print Assumptions C30_destroyed.
Print Assumptions C30_start.
Print Assumptions C30_fires.
Print Assumptions C30_active.
Print Assumptions C30_others_refuted.
Print Assumptions C30_disabled_refuted.
Print Assumptions C30_safe_refuted.
Print Assumptions C31_fires.
Print Assumptions C31_turns.
Print Assumptions C31_worker.
Print Assumptions C31_order.

(** The plan of the timers and the times read off the history are the same. *)
From Coq Require Import List ZArith Bool Permutation Lia.
From Verif Require Import ZMap Run TimerModel TimerSpec TimerProofs.
Import ListNotations.
Open Scope list_scope.
Open Scope Z_scope.

Lemma calls_app i a b : calls i (a ++ b) = calls i a + calls i b.
Proof. unfold calls. rewrite flat_map_app, filter_app, app_length. lia. Qed.

Lemma calls_nonneg i a : 0 <= calls i a.
Proof. unfold calls. lia. Qed.

(** [due] with the period in view. *)
Definition duep (t : trace) (id d period : Z) : Prop :=
  exists a e o b first,
    t = a ++ (e, o) :: b /\ starts id (e, o) /\ first_due e = (first, period) /\
    (forall e' o', In (e', o') b -> ~ starts id (e', o') /\ ~ stops id e') /\
    d = first + calls id b * period /\ (period = 0 -> calls id b = 0).

Lemma due_duep t i d : due t i d <-> exists per, duep t i d per.
Proof.
  split.
  - intros (a & e & o & b & f & per & H). exists per, a, e, o, b, f. exact H.
  - intros (per & a & e & o & b & f & H). exists a, e, o, b, f, per. exact H.
Qed.

Lemma duep_snoc t e o i d per : duep (t ++ [(e, o)]) i d per <->
  (starts i (e, o) /\ first_due e = (d, per)) \/
  (~ starts i (e, o) /\ ~ stops i e /\ exists d', duep t i d' per /\
     d = d' + calls i [(e, o)] * per /\ (per = 0 -> calls i [(e, o)] = 0)).
Proof.
  split.
  - intros (a & e1 & o1 & b & f & E & St & Fd & N & D & P).
    destruct b as [|y b] using rev_ind.
    + apply app_inj_tail in E. destruct E as (_ & E). injection E as -> ->.
      left. split; auto. cbn in D. rewrite Z.add_0_r in D. now subst.
    + clear IHb. change (a ++ (e1, o1) :: b ++ [y]) with (a ++ ((e1, o1) :: b) ++ [y]) in E.
      rewrite app_assoc in E. apply app_inj_tail in E. destruct E as (E & <-).
      right. destruct (N e o) as (N1 & N2); [apply in_or_app; right; now left|].
      rewrite calls_app in D, P. pose proof (calls_nonneg i b). pose proof (calls_nonneg i [(e, o)]).
      split; auto. split; auto. exists (f + calls i b * per). repeat split.
      * exists a, e1, o1, b, f. split; [exact E|]. split; auto. split; auto. split.
        { intros e' o' H1. apply N. apply in_or_app. now left. }
        split; auto. intros H1. specialize (P H1). lia.
      * lia.
      * intros H1. specialize (P H1). lia.
  - intros [(St & Fd)|(N1 & N2 & d' & (a & e1 & o1 & b & f & E & St & Fd & N & D & P) & D' & P')].
    + exists t, e, o, [], d. split; auto. split; auto. split; auto. split; [intros ? ? []|].
      split; auto. cbn. lia.
    + exists a, e1, o1, (b ++ [(e, o)]), f. split; [subst t; now rewrite <- app_assoc|].
      split; auto. split; auto. split.
      { intros e' o' H. apply in_app_iff in H. destruct H as [H|[H|[]]]; [now apply N in H|].
        injection H as <- <-. auto. }
      rewrite calls_app. split; [lia|]. intros H. rewrite (P H), (P' H). reflexivity.
Qed.

(** What an operation may answer. *)
Lemma shape s t e s' o : inv s t -> tstep s e = (s', o) ->
  match e with
  | EvCreate => o = [OutId (t_next s)]
  | EvSingle _ _ _ w => o = [OutBool false] \/ (o = [OutBool true] /\ w = false)
  | EvPeriodic _ _ per _ w => o = [OutBool false] \/ (o = [OutBool true] /\ w = false /\ 0 < per)
  | EvActive _ | EvDisable _ | EvDestroy _ => exists b, o = [OutBool b]
  | EvDestroyAll _ _ => exists n, o = [OutCount n]
  | EvTurn now => o = [] \/ exists i d per, o = [OutCall i] /\ rid (the_plan t) = None /\
                    zget (p_wait (the_plan t)) i = Some (d, per) /\ d <= now
  | EvDone => o = []
  end.
Proof.
  intros I E. unfold tstep in E. rewrite (v_ub _ _ I) in E.
  destruct e as [|id delay now w|id delay per now w|id|id|id|ids tm|now|].
  - now injection E as _ <-.
  - unfold startTimer in E. destruct (_ <? id); [injection E as _ <-; auto|].
    destruct (zget _ id); [|injection E as _ <-; auto]. destruct w; injection E as _ <-; auto.
  - destruct (Z.ltb_spec 0 per); [|injection E as _ <-; auto].
    unfold startTimer in E. destruct (_ <? id); [injection E as _ <-; auto|].
    destruct (zget _ id); [|injection E as _ <-; auto]. destruct w; injection E as _ <-; auto.
  - injection E as _ <-. eauto.
  - destruct (stopTimer _ _ _). injection E as _ <-. eauto.
  - destruct (stopTimer _ _ _). injection E as _ <-. eauto.
  - unfold destroyTimers in E. destruct (fold_left _ ids _). injection E as _ <-. eauto.
  - unfold turn in E. destruct (t_call s) eqn:TC; [injection E as _ <-; auto|].
    destruct (t_queue s) as [|i q] eqn:Q; [injection E as _ <-; auto|].
    destruct (v_wait _ _ I i) as (x & G & W & _); [rewrite Q; now left|]. rewrite G in E.
    destruct (Z.leb_spec (x_due x) now); injection E as _ <-; auto.
    right. exists i, (x_due x), (x_period x). rewrite <- (v_rid _ _ I). auto.
  - unfold done in E. destruct (t_call s) as [c|] eqn:TC; [|now injection E as _ <-].
    destruct (zget _ _) as [x|]; [|now injection E as _ <-].
    destruct (x_doomed x); [|destruct (x_off x); [|destruct (0 <? x_period x)]];
      injection E as _ <-; auto.
Qed.

Record link (t : trace) : Prop := {
  l_wait : forall i d per, zget (p_wait (the_plan t)) i = Some (d, per) ->
           duep t i d per /\ calling t <> Some i /\ 0 <= per;
  l_call : forall i d per, p_call (the_plan t) = Some (i, (d, per)) ->
           0 <= per /\ (p_stop (the_plan t) = false -> 0 < per -> duep t i (d + per) per);
  l_rid : calling t = rid (the_plan t);
  l_due : forall i d per, duep t i d per -> calling t <> Some i ->
          zget (p_wait (the_plan t)) i = Some (d, per);
  l_next : forall i d per, duep t i d per -> calling t = Some i ->
           p_call (the_plan t) = Some (i, (d - per, per)) /\ p_stop (the_plan t) = false /\ 0 < per;
  l_per : forall i d per, duep t i d per -> 0 <= per;
  l_all : forall i d, In (i, d) (p_all (the_plan t)) -> exists a b, t = a ++ b /\ waits a i d }.

Lemma link_init : link [].
Proof.
  split; cbn; try easy; intros i d per (a & e & o & b & f & E & _); destruct a; discriminate.
Qed.

Lemma all_snoc t x : link t -> forall i d, In (i, d) (p_all (the_plan t)) ->
  exists a b, t ++ [x] = a ++ b /\ waits a i d.
Proof.
  intros L i d H. destruct (l_all _ L _ _ H) as (a & b & -> & W). exists a, (b ++ [x]).
  split; auto. now rewrite app_assoc.
Qed.

Lemma link_quiet t e o : link t -> pstep (the_plan t) (e, o) = the_plan t ->
  (forall i, ~ starts i (e, o) /\ ~ stops i e /\ calls i [(e, o)] = 0) ->
  calling (t ++ [(e, o)]) = calling t -> link (t ++ [(e, o)]).
Proof.
  intros L P N C.
  assert (D : forall i d per, duep (t ++ [(e, o)]) i d per <-> duep t i d per).
  { intros i d per. destruct (N i) as (N1 & N2 & N3). rewrite duep_snoc. split.
    - intros [(H & _)|(_ & _ & d' & H & E & _)]; [now apply N1 in H|].
      rewrite N3 in E. rewrite Z.mul_0_l, Z.add_0_r in E. now subst.
    - intros H. right. split; auto. split; auto. exists d. split; auto. rewrite N3. split; [lia|auto]. }
  split; rewrite ?plan_snoc, ?P, ?C; try setoid_rewrite D; try apply L.
  now apply all_snoc.
Qed.

Lemma link_start t e id d per : link t -> starts id (e, [OutBool true]) ->
  pstep (the_plan t) (e, [OutBool true]) = pstart (the_plan t) id d per ->
  first_due e = (d, per) -> 0 <= per -> calling t <> Some id -> e <> EvDone ->
  (forall i, ~ stops i e) -> (forall i, starts i (e, [OutBool true]) -> i = id) ->
  link (t ++ [(e, [OutBool true])]).
Proof.
  intros L St P Fd Pp C ND NS US.
  assert (CC : calling (t ++ [(e, [OutBool true])]) = calling t).
  { rewrite calling_snoc. destruct e; congruence. }
  assert (D : forall i d' per', duep (t ++ [(e, [OutBool true])]) i d' per' <->
              (i = id /\ d' = d /\ per' = per) \/ (i <> id /\ duep t i d' per')).
  { intros i d' per'. rewrite duep_snoc. change (calls i [(e, [OutBool true])]) with 0. split.
    - intros [(H1 & H2)|(H1 & _ & d2 & H2 & E & _)].
      + left. apply US in H1. rewrite Fd in H2. injection H2 as <- <-. auto.
      + right. rewrite Z.mul_0_l, Z.add_0_r in E. subst. split; auto. now intros ->.
    - intros [(-> & -> & ->)|(H1 & H2)]; [auto|]. right. split; [intros H; now apply US in H|].
      split; auto. exists d'. split; auto. split; [lia|auto]. }
  assert (W1 : duep (t ++ [(e, [OutBool true])]) id d per) by (apply D; auto).
  split; rewrite ?plan_snoc, ?P, ?CC; unfold pstart; cbn [p_wait p_call p_stop p_all].
  - intros i d' per'. rewrite zget_set. destruct (Z.eqb_spec i id) as [->|N].
    + intros E. injection E as <- <-. auto.
    + intros H. rewrite D. apply (l_wait _ L) in H. tauto.
  - intros i d' per' H. destruct (l_call _ L _ _ _ H) as (A & B). split; auto. intros H1 H2. rewrite D.
    destruct (Z.eq_dec i id) as [->|N]; [|right; auto].
    exfalso. apply C. rewrite (l_rid _ L). unfold rid. now rewrite H.
  - apply L.
  - intros i d' per'. rewrite D, zget_set. intros [(-> & -> & ->)|(N & H)] H1.
    + now rewrite Z.eqb_refl.
    + destruct (Z.eqb_spec i id); [congruence|]. now apply L.
  - intros i d' per'. rewrite D. intros [(-> & _)|(N & H)] H1; [congruence|]. now apply L.
  - intros i d' per'. rewrite D. intros [(-> & -> & ->)|(N & H)]; [auto|]. exact (l_per _ L _ _ _ H).
  - intros i d' [H|H]; [|now apply all_snoc]. injection H as <- <-.
    exists (t ++ [(e, [OutBool true])]), []. rewrite app_nil_r. split; auto.
    split; [apply due_duep; eauto|congruence].
Qed.

Lemma stop_fold_plan ids : forall p,
  (forall i, zget (p_wait (fold_left pstop ids p)) i = if zin i ids then None else zget (p_wait p) i) /\
  p_call (fold_left pstop ids p) = p_call p /\
  (p_stop (fold_left pstop ids p) = false <->
   p_stop p = false /\ forall i, rid p = Some i -> ~ In i ids).
Proof.
  induction ids as [|j ids IH]; intros p; cbn [fold_left].
  - split; [auto|split; [auto|split; [auto|tauto]]].
  - destruct (IH (pstop p j)) as (A & B & C). split; [|split].
    + intros i. rewrite A. cbn [zin existsb pstop p_wait]. fold (zin i ids). rewrite zget_del.
      destruct (i =? j), (zin i ids); auto.
    + rewrite B. reflexivity.
    + rewrite C. unfold rid. cbn [pstop p_stop p_call]. rewrite orb_false_iff.
      destruct (p_call p) as [(c, w)|]; [|firstorder discriminate].
      rewrite Z.eqb_neq. split.
      * intros ((H1 & H2) & H3). split; auto. intros i E [<-|H]; [congruence|]. eapply H3; eauto.
      * intros (H1 & H2). repeat split; auto.
        -- intros ->. eapply H2; eauto. now left.
        -- intros i E H. eapply H2; eauto. now right.
Qed.

Lemma link_stop t e o ids : link t ->
  pstep (the_plan t) (e, o) = fold_left pstop ids (the_plan t) ->
  (forall i, stops i e <-> In i ids) -> (forall i, ~ starts i (e, o) /\ calls i [(e, o)] = 0) ->
  calling (t ++ [(e, o)]) = calling t -> link (t ++ [(e, o)]).
Proof.
  intros L P S N C. destruct (stop_fold_plan ids (the_plan t)) as (F1 & F2 & F3).
  assert (D : forall i d per, duep (t ++ [(e, o)]) i d per <-> duep t i d per /\ ~ In i ids).
  { intros i d per. destruct (N i) as (N1 & N3). rewrite duep_snoc, S. split.
    - intros [(H & _)|(_ & H1 & d' & H & E & _)]; [now apply N1 in H|].
      rewrite N3 in E. rewrite Z.mul_0_l, Z.add_0_r in E. subst. auto.
    - intros (H & H1). right. split; auto. split; auto. exists d. split; auto. rewrite N3.
      split; [lia|auto]. }
  split; rewrite ?plan_snoc, ?P, ?C, ?F2; try setoid_rewrite D.
  - intros i d per. rewrite F1. destruct (zin i ids) eqn:Z0; [discriminate|]. intros H.
    apply zin_false in Z0. apply (l_wait _ L) in H. tauto.
  - intros i d per H. destruct (l_call _ L _ _ _ H) as (A & B). split; auto. intros H1 H2.
    apply F3 in H1. destruct H1 as (H1 & H3). split; auto. apply H3. unfold rid. now rewrite H.
  - rewrite (l_rid _ L). unfold rid. now rewrite F2.
  - intros i d per (H & H1) H2. rewrite F1. apply zin_false in H1. rewrite H1. now apply L.
  - intros i d per (H & H1) H2. destruct (l_next _ L _ _ _ H H2) as (A & B & B'). split; auto. split; auto.
    apply F3. split; auto. intros j E. rewrite (l_rid _ L) in H2. congruence.
  - intros i d per (H & _). exact (l_per _ L _ _ _ H).
  - intros i d. rewrite stop_fold_all. now apply all_snoc.
Qed.

Lemma link_call t now i d per : link t -> rid (the_plan t) = None ->
  zget (p_wait (the_plan t)) i = Some (d, per) -> link (t ++ [(EvTurn now, [OutCall i])]).
Proof.
  intros L R W. set (x := (EvTurn now, [OutCall i])).
  assert (C : calling (t ++ [x]) = Some i) by (unfold x; now rewrite calling_snoc).
  destruct (l_wait _ L _ _ _ W) as (Du & _ & Pp).
  assert (CN : calling t = None) by (rewrite (l_rid _ L); auto).
  assert (K : forall j, calls j [x] = if i =? j then 1 else 0).
  { intros j. unfold calls, x. cbn [flat_map snd app filter]. destruct (i =? j); reflexivity. }
  assert (D : forall j d' per', duep (t ++ [x]) j d' per' <->
              exists d2, duep t j d2 per' /\ d' = (if i =? j then d2 + per' else d2) /\
                         (i = j -> per' <> 0)).
  { intros j d' per'. unfold x. rewrite duep_snoc. fold x. rewrite K. split.
    - intros [(H & _)|(_ & _ & d2 & H & E & Z0)]; [now cbn in H|]. exists d2. split; auto.
      destruct (Z.eqb_spec i j); split; lia.
    - intros (d2 & H & E & Z0). right. split; [auto|]. split; [auto|]. exists d2. split; auto.
      destruct (Z.eqb_spec i j); split; lia. }
  split; rewrite ?plan_snoc, ?C; unfold x; cbn [pstep]; fold x; unfold pcall; rewrite ?W;
    cbn [p_wait p_call p_stop p_all].
  - intros j d' per'. rewrite zget_del. destruct (Z.eqb_spec j i) as [->|N]; [discriminate|].
    intros H. destruct (l_wait _ L _ _ _ H) as (A & B & B'). split; [|split; [congruence|auto]].
    rewrite D. exists d'. split; auto. split; [|congruence].
    destruct (Z.eqb_spec i j); congruence.
  - intros j d' per' H. injection H as <- <- <-. split; auto. intros _ H1. rewrite D.
    exists d. rewrite Z.eqb_refl. repeat split; auto. lia.
  - reflexivity.
  - intros j d' per'. rewrite D. intros (d2 & H & E & Z0) H1.
    assert (N : j <> i) by congruence. rewrite zget_del_other by auto.
    destruct (Z.eqb_spec i j); [congruence|]. subst d2. apply L; auto. congruence.
  - intros j d' per'. rewrite D. intros (d2 & H & E & Z0) H1. injection H1 as <-.
    rewrite Z.eqb_refl in E.
    assert (W2 : zget (p_wait (the_plan t)) i = Some (d2, per')) by (apply L; auto; congruence).
    rewrite W in W2. injection W2 as <- <-. split; [do 3 f_equal; lia|]. split; auto.
    specialize (Z0 eq_refl). lia.
  - intros j d' per'. rewrite D. intros (d2 & H & _). exact (l_per _ L _ _ _ H).
  - now apply all_snoc.
Qed.

Lemma link_done t : link t -> (forall i d per, p_call (the_plan t) = Some (i, (d, per)) ->
    zget (p_wait (the_plan t)) i = None) -> link (t ++ [(EvDone, [])]).
Proof.
  intros L NW. set (x := (EvDone, @nil out)).
  assert (C : calling (t ++ [x]) = None) by (unfold x; now rewrite calling_snoc).
  assert (D : forall j d' per', duep (t ++ [x]) j d' per' <-> duep t j d' per').
  { intros j d' per'. unfold x. rewrite duep_snoc. split.
    - intros [(H & _)|(_ & _ & d2 & H & E & Z0)]; [now cbn in H|]. cbn in E.
      rewrite Z.add_0_r in E. now subst.
    - intros H. right. split; [auto|]. split; [auto|]. exists d'. split; auto. cbn. split; [lia|auto]. }
  destruct (p_call (the_plan t)) as [(i, (d, per))|] eqn:PC.
  - destruct (l_call _ L _ _ _ PC) as (Pp & Nx). specialize (NW _ _ _ eq_refl).
    assert (R : calling t = Some i) by (rewrite (l_rid _ L); unfold rid; now rewrite PC).
    destruct (negb (p_stop (the_plan t)) && (0 <? per)) eqn:B.
    + apply andb_prop in B. destruct B as (B1 & B2). apply negb_true_iff in B1.
      apply Z.ltb_lt in B2. specialize (Nx B1 B2).
      assert (P : pstep (the_plan t) x = {| p_wait := zset (p_wait (the_plan t)) i (d + per, per);
                   p_call := None; p_stop := false; p_all := (i, d + per) :: p_all (the_plan t) |}).
      { unfold x. cbn [pstep]. unfold pdone. rewrite PC, B1. now apply Z.ltb_lt in B2 as ->. }
      split; rewrite ?plan_snoc, ?C, ?P; cbn [p_wait p_call p_stop p_all]; try setoid_rewrite D.
      * intros j d' per'. rewrite zget_set. destruct (Z.eqb_spec j i) as [->|N].
        -- intros E. injection E as <- <-. repeat split; auto. discriminate.
        -- intros H. destruct (l_wait _ L _ _ _ H) as (A1 & _ & A2). repeat split; auto. discriminate.
      * discriminate.
      * reflexivity.
      * intros j d' per' H _. rewrite zget_set. destruct (Z.eqb_spec j i) as [->|N].
        -- destruct (l_next _ L _ _ _ H R) as (E & _). rewrite PC in E. injection E as E1 E2. subst per'.
           do 2 f_equal. lia.
        -- apply L; auto. rewrite R. congruence.
      * discriminate.
      * intros j d' per' H. exact (l_per _ L _ _ _ H).
      * intros j d' [H|H]; [|now apply all_snoc]. injection H as <- <-.
        exists (t ++ [x]), []. rewrite app_nil_r. split; auto. split; [|congruence].
        apply due_duep. exists per. now rewrite D.
    + assert (P : pstep (the_plan t) x = {| p_wait := p_wait (the_plan t); p_call := None;
                   p_stop := false; p_all := p_all (the_plan t) |}).
      { unfold x. cbn [pstep]. unfold pdone. now rewrite PC, B. }
      split; rewrite ?plan_snoc, ?C, ?P; cbn [p_wait p_call p_stop p_all]; try setoid_rewrite D.
      * intros j d' per' H. destruct (l_wait _ L _ _ _ H) as (A1 & _ & A2). repeat split; auto. discriminate.
      * discriminate.
      * reflexivity.
      * intros j d' per' H _. destruct (Z.eq_dec j i) as [->|N]; [|apply L; auto; congruence].
        exfalso. destruct (l_next _ L _ _ _ H R) as (E & E2 & E4). rewrite PC in E. injection E as E1 E3.
        subst per'. rewrite E2 in B. cbn in B. apply Z.ltb_ge in B. lia.
      * discriminate.
      * intros j d' per' H. exact (l_per _ L _ _ _ H).
      * now apply all_snoc.
  - assert (P : pstep (the_plan t) x = the_plan t).
    { unfold x. cbn [pstep]. unfold pdone. now rewrite PC. }
    apply link_quiet; auto.
    fold x. rewrite C, (l_rid _ L). unfold rid. now rewrite PC.
Qed.

Lemma link_step s t e s' o : inv s t -> link t -> disciplined (t ++ [(e, o)]) ->
  tstep s e = (s', o) -> link (t ++ [(e, o)]).
Proof.
  intros I L D E. specialize (D t e o [] eq_refl). pose proof (shape s t e s' o I E) as Sh.
  destruct e as [|id delay now w|id delay per now w|id|id|id|ids tm|now|].
  - subst o. apply link_quiet; auto. now rewrite calling_snoc.
  - destruct Sh as [->|(-> & ->)].
    + apply link_quiet; auto. now rewrite calling_snoc.
    + apply (link_start _ _ id (now + delay) 0); auto; try easy; lia.
  - destruct Sh as [->|(-> & -> & Pp)].
    + apply link_quiet; auto. now rewrite calling_snoc.
    + apply (link_start _ _ id (now + delay) per); auto; try easy; lia.
  - destruct Sh as (b & ->). apply link_quiet; auto. now rewrite calling_snoc.
  - destruct Sh as (b & ->). apply (link_stop _ _ _ [id]); auto; [cbn; intuition|now rewrite calling_snoc].
  - destruct Sh as (b & ->). apply (link_stop _ _ _ [id]); auto; [cbn; intuition|now rewrite calling_snoc].
  - destruct Sh as (b & ->). apply (link_stop _ _ _ ids); auto; [cbn; intuition|now rewrite calling_snoc].
  - destruct Sh as [->|(i & d & per & -> & R & W & _)].
    + apply link_quiet; auto. now rewrite calling_snoc.
    + eapply link_call; eauto.
  - subst o. apply link_done; auto. intros i d per C. now destruct (v_call _ _ I _ _ _ C).
Qed.

Lemma link_run evs : disciplined (history evs) -> link (history evs).
Proof.
  unfold history. induction evs as [|e evs IH] using rev_ind; intros D; [apply link_init|].
  rewrite run_snoc in *. cbn [fst snd] in *.
  pose proof (disciplined_prefix _ _ D) as D'. specialize (IH D').
  destruct (inv_run evs D') as (I & _). unfold history in I.
  destruct (run tstep tinit evs) as (s, t). cbn [fst snd] in *.
  destruct (tstep s e) as (s', o) eqn:E. cbn [fst snd] in *. eapply link_step; eauto.
Qed.

Lemma apart_sparse t : link t -> apart t -> sparse t.
Proof.
  intros L A i j d H. destruct (l_all _ L _ _ H) as (a & b & E & W). split.
  - now destruct (A a b a b i i d E E W W).
  - intros H2. destruct (l_all _ L _ _ H2) as (a' & b' & E' & W').
    now destruct (A a b a' b' i j d E E' W W').
Qed.

Lemma apart_pre a b : apart (a ++ b) -> apart a.
Proof.
  intros A x x' y y' i j d -> E2 H1 H2. apply (A x (x' ++ b) y (y' ++ b) i j d); auto.
  - now rewrite app_assoc.
  - now rewrite E2, app_assoc.
Qed.

(** Proofs about the request validator. *)
From Coq Require Import List ZArith Bool Permutation Lia.
From Verif Require Import ZMap ValidatorModel ValidatorSpec.
Import ListNotations.
Open Scope list_scope.
Open Scope Z_scope.

(** *** Lists *)

Lemma subseq_refl {A} (l : list A) : subseq l l.
Proof. induction l; constructor; auto. Qed.

Lemma subseq_nil_l {A} (l : list A) : subseq [] l.
Proof. induction l; constructor; auto. Qed.

Lemma subseq_app {A} (a b c d : list A) : subseq a b -> subseq c d -> subseq (a ++ c) (b ++ d).
Proof. intros H K. induction H; cbn; try constructor; auto. Qed.

Lemma subseq_app_r {A} (a b c : list A) : subseq a b -> subseq a (b ++ c).
Proof. intros H. rewrite <- (app_nil_r a). apply subseq_app; auto. apply subseq_nil_l. Qed.

Lemma subseq_trans {A} (a b c : list A) : subseq a b -> subseq b c -> subseq a c.
Proof.
  intros H K. revert a H. induction K; intros a' H; auto.
  - inversion H; subst; [apply sub_take|apply sub_skip]; auto.
  - apply sub_skip. auto.
Qed.

Lemma subseq_In {A} (a b : list A) x : subseq a b -> In x a -> In x b.
Proof. intros H. induction H; cbn; intuition. Qed.

Lemma subseq_NoDup {A} (a b : list A) : subseq a b -> NoDup b -> NoDup a.
Proof.
  intros H. induction H; intros N; auto.
  - inversion N; subst. constructor; auto. intros I. eapply subseq_In in I; eauto.
  - inversion N; auto.
Qed.

Lemma subseq_map {A B} (f : A -> B) a b : subseq a b -> subseq (map f a) (map f b).
Proof. intros H. induction H; cbn; constructor; auto. Qed.

Lemma subseq_drop_mid {A} (a b : list A) x : subseq (a ++ b) (a ++ x :: b).
Proof. apply subseq_app; [apply subseq_refl|]. constructor. apply subseq_refl. Qed.

Lemma stutters_snoc {A} (a b : list A) x : stutters a b -> stutters (a ++ [x]) (b ++ [x]).
Proof.
  intros H. induction H; cbn in *; [repeat constructor|apply stu_first|apply stu_again]; auto.
Qed.

Lemma stutters_snoc_again {A} (a b : list A) x :
  stutters a (b ++ [x]) -> stutters (a ++ [x]) (b ++ [x]).
Proof.
  intros H. remember (b ++ [x]) as c eqn:E. revert b E.
  induction H as [|y a c H IH|y a c H IH]; intros b E.
  - destruct b; discriminate.
  - destruct b as [|z b]; cbn in E; injection E as -> ->.
    + inversion H; subst. cbn. apply stu_again. repeat constructor.
    + cbn. constructor. apply (IH b). auto.
  - cbn in *. apply stu_again. apply (IH b). auto.
Qed.

Lemma stutters_refl {A} (l : list A) : stutters l l.
Proof. induction l; constructor; auto. Qed.

Lemma stutters_In {A} (a b : list A) x : stutters a b -> (In x a <-> In x b).
Proof. intros H. induction H; cbn in *; intuition. Qed.

Lemma stutters_last {A} (a b : list A) x : stutters a (b ++ [x]) -> exists c, a = c ++ [x].
Proof.
  intros H. remember (b ++ [x]) as c eqn:E. revert b E.
  induction H as [|y a c H IH|y a c H IH]; intros b E.
  - destruct b; discriminate.
  - destruct b as [|z b]; cbn in E; injection E as -> ->.
    + inversion H; subst. exists []. auto.
    + destruct (IH b eq_refl) as (d & ->). exists (z :: d). auto.
  - destruct (IH b E) as (d & D). exists (y :: d). rewrite D. auto.
Qed.

(** *** Runs *)

Lemma vrun_snoc evs e :
  vrun (evs ++ [e]) = (fst (vstep (fst (vrun evs)) e),
                       snd (vrun evs) ++ [(e, snd (vstep (fst (vrun evs)) e))]).
Proof.
  unfold vrun, vrun_from. rewrite fold_left_app. cbn.
  destruct (vstep _ e). auto.
Qed.

Lemma vrun_events evs : map fst (snd (vrun evs)) = evs.
Proof.
  induction evs as [|e evs IH] using rev_ind; [reflexivity|].
  rewrite vrun_snoc. cbn. rewrite map_app, IH. auto.
Qed.

Lemma sent_snoc t e o : sent (t ++ [(e, o)]) = sent t ++ o.
Proof. unfold sent. rewrite flat_map_app. cbn. rewrite app_nil_r. auto. Qed.

Lemma released_app a b : released_of (a ++ b) = released_of a ++ released_of b.
Proof. apply flat_map_app. Qed.

Lemma replies_app a b : replies_of (a ++ b) = replies_of a ++ replies_of b.
Proof. apply flat_map_app. Qed.

Lemma requests_snoc evs e :
  requests (evs ++ [e]) = requests evs ++ match request_of e with Some x => [x] | None => [] end.
Proof. unfold requests. rewrite flat_map_app. cbn. rewrite app_nil_r. auto. Qed.

(** The part of the state that is knowledge. *)
Definition known (s : vstate) :=
  (v_configs s, v_states s, v_keepIn s, v_keepOut s, v_areas s,
   (v_lines s, v_points s, v_regions s, v_tasks s, v_inited s)).

(** *** The building blocks *)

Lemma sendNext_spec cb s s' o : sendNextRequest cb s = (s', o) ->
  v_pending s' = v_pending s /\ v_waiting s' = v_waiting s /\ known s' = known s /\
  v_map s' = v_map s /\ v_taskTimer s' = v_taskTimer s /\
  released_of o = firstn 1 (v_pending s) /\ replies_of o = [] /\
  match v_pending s with
  | [] => v_respTimer s' = false /\ v_errId s' = v_errId s
  | u :: _ => v_errId s' = u_id u /\ v_respTimer s' = (if cb then v_respTimer s else true)
  end.
Proof.
  unfold sendNextRequest. destruct (v_pending s) as [|u p] eqn:E; intros [= <- <-]; cbn;
    rewrite ?E; repeat split; auto.
Qed.

Lemma takeReady_spec s w r k : takeReady s w = (r, k) ->
  w = r ++ k /\ Forall (fun u => tasksReady s u = true) r /\
  match k with [] => True | u :: _ => tasksReady s u = false end.
Proof.
  revert r k. induction w as [|u w IH]; cbn; intros r k.
  - intros [= <- <-]. auto.
  - destruct (tasksReady s u) eqn:E.
    + destruct (takeReady s w) as (r', k') eqn:T. intros [= <- <-].
      destruct (IH _ _ eq_refl) as (-> & F & K). cbn. auto.
    + intros [= <- <-]. cbn. auto.
Qed.

Lemma check_spec cb s s' o : checkTasksInitialized cb s = (s', o) ->
  exists ready rest,
    v_waiting s = ready ++ rest /\ Forall (fun u => tasksReady s u = true) ready /\
    match rest with [] => True | u :: _ => tasksReady s u = false end /\
    v_pending s' = v_pending s ++ ready /\ v_waiting s' = rest /\ known s' = known s /\
    v_map s' = v_map s /\ replies_of o = [] /\
    ((ready = [] \/ v_respTimer s = true) /\ released_of o = [] /\
     v_respTimer s' = v_respTimer s /\ v_errId s' = v_errId s
     \/
     ready <> [] /\ v_respTimer s = false /\
     released_of o = firstn 1 (v_pending s ++ ready) /\
     v_respTimer s' = (if cb then false else true) /\
     match v_pending s ++ ready with [] => False | u :: _ => v_errId s' = u_id u end) /\
    (cb = false -> rest <> [] -> v_taskTimer s' = true) /\ (rest = [] -> v_taskTimer s' = false).
Proof.
  unfold checkTasksInitialized.
  destruct (takeReady s (v_waiting s)) as (ready, rest) eqn:T.
  apply takeReady_spec in T. destruct T as (W & F & K).
  destruct ready as [|r0 rd].
  - set (b := negb (v_taskTimer _) && _). intros E. exists [], rest.
    repeat split; auto.
    + destruct b, rest; injection E as <- <-; reflexivity.
    + destruct b, rest; injection E as <- <-; reflexivity.
    + destruct b, rest; injection E as <- <-; reflexivity.
    + destruct b, rest; injection E as <- <-; reflexivity.
    + destruct b, rest; injection E as <- <-; reflexivity.
    + left. destruct b, rest; injection E as <- <-; cbn; auto.
    + intros -> NE. destruct rest as [|x rest]; [congruence|].
      subst b. cbn [v_taskTimer set_queues] in E. destruct (v_taskTimer s) eqn:TT; cbn in E;
        injection E as <- <-; cbn; auto.
    + intros ->. destruct b; injection E as <- <-; reflexivity.
  - set (ready := r0 :: rd) in *.
    set (s1 := set_timers _ _ _).
    destruct (negb (v_respTimer s1)) eqn:RT.
    + destruct (sendNextRequest cb s1) as (s2, o2) eqn:SN.
      apply sendNext_spec in SN. destruct SN as (P & W2 & KN & M & TT & R & RP & X).
      intros E. exists ready, rest. cbn in RT, P, W2, KN, M, TT, R, X.
      assert (E2 : o = o2 /\ v_pending s' = v_pending s2 /\ v_waiting s' = v_waiting s2 /\
                   known s' = known s2 /\ v_map s' = v_map s2 /\ v_respTimer s' = v_respTimer s2 /\
                   v_errId s' = v_errId s2 /\
                   v_taskTimer s' = match rest with [] => false | _ => v_taskTimer s2 end).
      { destruct rest; injection E as <- <-; cbn; auto 10. }
      destruct E2 as (-> & -> & -> & -> & -> & -> & -> & ->). clear E.
      apply negb_true_iff in RT. rewrite RT in X.
      repeat split; auto.
      * right. split; [discriminate|]. split; auto. split; auto.
        destruct (v_pending s ++ ready) as [|u q] eqn:PE.
        { destruct (v_pending s); discriminate. }
        destruct X as (X1 & X2). split; auto.
      * intros -> NE. destruct rest; [congruence|]. rewrite TT. reflexivity.
      * intros ->. auto.
    + cbn in RT. apply negb_false_iff in RT.
      intros E. exists ready, rest. 
      assert (E2 : o = [] /\ v_pending s' = v_pending s1 /\ v_waiting s' = v_waiting s1 /\
                   known s' = known s1 /\ v_map s' = v_map s1 /\ v_respTimer s' = v_respTimer s1 /\
                   v_errId s' = v_errId s1 /\
                   v_taskTimer s' = match rest with [] => false | _ => v_taskTimer s1 end).
      { destruct rest; injection E as <- <-; cbn; auto 10. }
      destruct E2 as (-> & -> & -> & -> & -> & -> & -> & ->). clear E.
      repeat split; auto; try reflexivity.
      * intros -> NE. destruct rest; [congruence|]. reflexivity.
      * intros ->. auto.
Qed.

(** How one step changes the queues. *)
Inductive qstep (s : vstate) (e : event) (s' : vstate) (o : list out) : Prop :=
| q_known :
    v_pending s' = v_pending s -> v_waiting s' = v_waiting s -> v_map s' = v_map s ->
    v_errId s' = v_errId s -> v_respTimer s' = v_respTimer s ->
    request_of e = None -> o = [] -> qstep s e s' o
| q_reject u k :
    request_of e = Some (u, k) ->
    entitiesOk s u && regionOk s u && tasksOk s u = false ->
    v_pending s' = v_pending s -> v_waiting s' = v_waiting s ->
    v_map s' = zdel (v_map s) (u_id u) -> v_errId s' = v_errId s ->
    v_respTimer s' = v_respTimer s -> released_of o = [] -> replies_of o = [k] ->
    known s' = known s ->
    o = [match k with
         | KAuto => OutAuto (Errors [InvalidRequest (u_id u)])
         | KImpact p q => OutImpact p q (Errors [InvalidRequest (u_id u)])
         | KTask r => OutTask r (Errors [InvalidRequest (u_id u)]) []
         end] ->
    qstep s e s' o
| q_accept u k d :
    request_of e = Some (u, k) ->
    entitiesOk s u && regionOk s u && tasksOk s u = true ->
    (match k with
     | KAuto => rd_type d = TAuto
     | KImpact p q => rd_type d = TImpact /\ rd_play d = p /\ rd_soln d = q
     | KTask r => rd_type d = TTask /\ rd_task d = r
     end) ->
    checkTasksInitialized false
      (set_queues (set_map s (zset (v_map s) (u_id u) d)) (v_pending s) (v_waiting s ++ [u]))
    = (s', o) -> qstep s e s' o
| q_init i s1 :
    e = EvInit i -> v_pending s1 = v_pending s -> v_waiting s1 = v_waiting s ->
    v_map s1 = v_map s -> v_errId s1 = v_errId s -> v_respTimer s1 = v_respTimer s ->
    v_inited s1 = zadd i (v_inited s) ->
    checkTasksInitialized false s1 = (s', o) -> qstep s e s' o
| q_response i c f u p :
    e = EvResponse i c f -> v_pending s = u :: p -> u_id u = i ->
    (exists d, zget (v_map s) i = Some d) ->
    (let (s2, outs) := sendNextRequest false
        (set_queues (set_map s (zdel (v_map s) i)) p (v_waiting s)) in
     (s2, sendResponse s i (Plan c) f :: outs)) = (s', o) -> qstep s e s' o
| q_timer u p s1 :
    e = EvResponseTimer -> v_respTimer s = true -> v_pending s = u :: p ->
    v_pending s1 = p -> v_waiting s1 = v_waiting s ->
    v_map s1 = zdel (v_map s) (v_errId s) -> v_respTimer s1 = false -> known s1 = known s ->
    (let (s2, outs) := sendNextRequest true s1 in
     (s2, sendResponse s (v_errId s) (Errors (v_errInfo s ++ [ResponseTimedOut (u_id u)])) []
          :: outs)) = (s', o) -> qstep s e s' o
| q_timer_idle s1 :
    e = EvResponseTimer -> v_pending s = [] -> s1 = set_timers s false (v_taskTimer s) ->
    sendNextRequest true s1 = (s', o) -> qstep s e s' o
| q_tasks u w s1 :
    e = EvTaskTimer -> v_taskTimer s = true -> v_waiting s = u :: w ->
    v_pending s1 = v_pending s -> v_waiting s1 = w -> v_map s1 = zdel (v_map s) (v_errId s) ->
    v_respTimer s1 = v_respTimer s -> known s1 = known s -> v_errId s1 = v_errId s ->
    (let (s2, outs) := checkTasksInitialized true s1 in
     (s2, sendResponse s (v_errId s) (Errors (v_errInfo s ++ [TasksTimedOut (u_id u)])) []
          :: outs)) = (s', o) -> qstep s e s' o
| q_tasks_idle s1 :
    e = EvTaskTimer -> v_waiting s = [] -> s1 = set_timers s (v_respTimer s) false ->
    checkTasksInitialized true s1 = (s', o) -> qstep s e s' o.

Lemma queueRequest_step s e u k d s' o :
  request_of e = Some (u, k) ->
  (match k with
   | KAuto => rd_type d = TAuto
   | KImpact p q => rd_type d = TImpact /\ rd_play d = p /\ rd_soln d = q
   | KTask r => rd_type d = TTask /\ rd_task d = r
   end) ->
  queueRequest s u d = (s', o) -> qstep s e s' o.
Proof.
  intros R D. unfold queueRequest, checkRequirements.
  change (entitiesOk (set_map s (zset (v_map s) (u_id u) d)) u) with (entitiesOk s u).
  change (regionOk (set_map s (zset (v_map s) (u_id u) d)) u) with (regionOk s u).
  assert (T : tasksOk (set_map s (zset (v_map s) (u_id u) d)) u = tasksOk s u) by reflexivity.
  rewrite T. clear T.
  destruct (entitiesOk s u && regionOk s u && tasksOk s u) eqn:C.
  - destruct (checkTasksInitialized false _) as (s3, o3) eqn:K.
    cbn [app]. intros [= <- <-]. eapply q_accept; eauto.
  - intros [= <- <-]. unfold sendResponse. cbn [v_map set_map]. rewrite zget_set_same.
    assert (Z : zdel (zset (v_map s) (u_id u) d) (u_id u) = zdel (v_map s) (u_id u)).
    { unfold zset, zdel. cbn. rewrite Z.eqb_refl. cbn.
      induction (v_map s) as [|(a, b) m IH]; cbn; auto.
      destruct (Z.eqb_spec a (u_id u)); cbn; auto. destruct (Z.eqb_spec a (u_id u)); cbn; congruence. }
    destruct k; [rewrite D|destruct D as (-> & -> & ->)|destruct D as (-> & ->)];
      (eapply (q_reject s e _ _ u); [exact R|exact C|..]; cbn; auto; reflexivity).
Qed.

Lemma vstep_qstep s e s' o : vstep s e = (s', o) -> qstep s e s' o.
Proof.
  destruct e; cbn [vstep];
    try (intros [= <- <-]; solve [apply q_known; auto]);
    try (intros E; eapply queueRequest_step; [reflexivity| |exact E]; cbn; auto).
  - destruct error; intros [= <- <-]; apply q_known; auto.
  - intros E. eapply q_init; [reflexivity| | | | | | |exact E]; reflexivity.
  - unfold handleResponse. destruct (v_pending s) as [|u p] eqn:P.
    { intros [= <- <-]. apply q_known; auto. }
    destruct (Z.eqb_spec (u_id u) id); [|intros [= <- <-]; apply q_known; auto].
    unfold zhas. destruct (zget (v_map s) id) as [d|] eqn:G;
      [|intros [= <- <-]; apply q_known; auto].
    intros E. eapply q_response; eauto.
  - destruct (v_respTimer s) eqn:T; [|intros [= <- <-]; apply q_known; auto].
    unfold onResponseTimeout. cbn [v_pending set_timers].
    destruct (v_pending s) as [|u p] eqn:P.
    + intros E. eapply q_timer_idle; eauto.
    + cbn zeta. intros E. eapply q_timer; [reflexivity|exact T|exact P| | | | | |exact E]; reflexivity.
  - destruct (v_taskTimer s) eqn:T; [|intros [= <- <-]; apply q_known; auto].
    unfold onTasksReadyTimeout. cbn [v_waiting set_timers].
    destruct (v_waiting s) as [|u w] eqn:W.
    + intros E. eapply q_tasks_idle; eauto.
    + cbn zeta. intros E. eapply q_tasks; [reflexivity|exact T|exact W| | | | | | |exact E]; reflexivity.
Qed.

Lemma released_reply s i c f l : released_of (sendResponse s i c f :: l) = released_of l.
Proof.
  unfold sendResponse. destruct (zget (v_map s) i) as [d|]; [destruct (rd_type d)|]; reflexivity.
Qed.

(** *** Order of releases *)

Record queued (evs : list event) (s : vstate) (t : trace) : Prop := {
  qd_idle : v_pending s = [] -> v_respTimer s = false;
  qd_order : exists don, subseq (don ++ v_pending s ++ v_waiting s) (map fst (requests evs)) /\
               stutters (released t) (don ++ firstn 1 (v_pending s))
}.

(** What [checkTasksInitialized] does to the queues and releases. *)
Lemma check_queued cb s s' o don rel :
  checkTasksInitialized cb s = (s', o) ->
  (v_pending s = [] -> v_respTimer s = false) ->
  stutters rel (don ++ firstn 1 (v_pending s)) ->
  v_pending s' ++ v_waiting s' = v_pending s ++ v_waiting s /\
  (v_pending s' = [] -> v_respTimer s' = false) /\
  stutters (rel ++ released_of o) (don ++ firstn 1 (v_pending s')).
Proof.
  intros C ID ST. apply check_spec in C.
  destruct C as (ready & rest & W & _ & _ & P & W' & _ & _ & _ & X & _).
  rewrite P, W', W, <- app_assoc. split; auto.
  destruct X as [(A & R & T & _)|(NE & T & R & T' & _)]; rewrite R.
  - rewrite T. split.
    + intros Q. apply app_eq_nil in Q. apply ID, Q.
    + rewrite app_nil_r. destruct (v_pending s) as [|u p]; [|auto].
      specialize (ID eq_refl). destruct A as [->|A]; [auto|congruence].
  - split.
    + intros Q. apply app_eq_nil in Q. destruct Q; congruence.
    + destruct (v_pending s) as [|u p].
      * destruct ready as [|r rd]; [congruence|]. cbn in *. rewrite app_nil_r in ST.
        apply stutters_snoc; auto.
      * cbn in *. apply stutters_snoc_again; auto.
Qed.

Lemma queued_step evs s t e s' o :
  queued evs s t -> vstep s e = (s', o) -> queued (evs ++ [e]) s' (t ++ [(e, o)]).
Proof.
  intros [ID (don & SB & ST)] V. apply vstep_qstep in V.
  assert (RL : released (t ++ [(e, o)]) = released t ++ released_of o).
  { unfold released. rewrite sent_snoc. apply released_app. }
  assert (RQ : subseq (don ++ v_pending s ++ v_waiting s) (map fst (requests (evs ++ [e])))).
  { rewrite requests_snoc, map_app. apply subseq_app_r; auto. }
  inversion V as
    [P W M E T R O
    |u k R OK P W M E T RO RP KN OO
    |u k d R OK D C
    |i s1 E P W M ER T IN C
    |i c f u p E P U D C
    |u p s1 E TM P P1 W1 M1 T1 K1 C
    |s1 E P S1 C
    |u w s1 E TM W P1 W1 M1 T1 K1 E1 C
    |s1 E W S1 C].
  - constructor; rewrite ?P, ?W, ?T; auto. exists don. rewrite RL, O, app_nil_r. auto.
  - constructor; rewrite ?P, ?W, ?T; auto. exists don. rewrite RL, RO, app_nil_r. auto.
  - destruct (check_queued _ _ _ _ don (released t) C ID ST) as (Q & ID' & ST'). cbn in Q.
    constructor; auto. exists don. rewrite RL, Q. split; auto.
    rewrite requests_snoc, R, map_app. cbn. rewrite !app_assoc.
    apply subseq_app; [|apply subseq_refl]. rewrite <- app_assoc. auto.
  - assert (ID1 : v_pending s1 = [] -> v_respTimer s1 = false) by (rewrite P, T; auto).
    assert (ST1 : stutters (released t) (don ++ firstn 1 (v_pending s1))) by (rewrite P; auto).
    destruct (check_queued _ _ _ _ don (released t) C ID1 ST1) as (Q & ID' & ST').
    constructor; auto. exists don. rewrite RL, Q, P, W. auto.
  - destruct (sendNextRequest _ _) as (s2, outs) eqn:SN.
    apply sendNext_spec in SN. cbn in SN. destruct SN as (P2 & W2 & _ & _ & _ & RO & _ & X).
    injection C as <- <-. rewrite released_reply in RL. rewrite RO in RL.
    constructor.
    + rewrite P2. intros ->. apply X.
    + exists (don ++ [u]). rewrite P2, W2, RL, <- !app_assoc. cbn. rewrite P in *. split; auto.
      destruct p as [|u' p]; cbn in *.
      * rewrite app_nil_r. auto.
      * change [u; u'] with ([u] ++ [u']). rewrite app_assoc. apply stutters_snoc; auto.
  - destruct (sendNextRequest _ _) as (s2, outs) eqn:SN.
    apply sendNext_spec in SN. rewrite P1, W1 in SN.
    destruct SN as (P2 & W2 & _ & _ & _ & RO & _ & X).
    injection C as <- <-. rewrite released_reply in RL. rewrite RO in RL.
    constructor.
    + rewrite P2. intros ->. apply X.
    + exists (don ++ [u]). rewrite P2, W2, RL, <- !app_assoc. cbn. rewrite P in *. split; auto.
      destruct p as [|u' p]; cbn in *.
      * rewrite app_nil_r. auto.
      * change [u; u'] with ([u] ++ [u']). rewrite app_assoc. apply stutters_snoc; auto.
  - apply sendNext_spec in C. subst s1. cbn in C. rewrite P in C.
    destruct C as (P2 & W2 & _ & _ & _ & RO & _ & X).
    constructor; [intros _; apply X|]. exists don. rewrite P2, W2, RL, RO, app_nil_r.
    rewrite P in *. auto.
  - destruct (checkTasksInitialized true s1) as (s2, outs) eqn:CT. injection C as <- <-.
    assert (ID1 : v_pending s1 = [] -> v_respTimer s1 = false) by (rewrite P1, T1; auto).
    assert (ST1 : stutters (released t) (don ++ firstn 1 (v_pending s1))) by (rewrite P1; auto).
    destruct (check_queued _ _ _ _ don (released t) CT ID1 ST1) as (Q & ID' & ST').
    rewrite released_reply in RL.
    constructor; auto. exists don. rewrite RL, Q, P1, W1. split; auto.
    eapply subseq_trans; [|exact RQ]. rewrite W, !app_assoc. apply subseq_drop_mid.
  - destruct (check_queued _ _ _ _ don (released t) C) as (Q & ID' & ST'); subst s1; auto.
    cbn in Q. constructor; auto. exists don. rewrite RL, Q. auto.
Qed.

Lemma queued_run evs : queued evs (fst (vrun evs)) (snd (vrun evs)).
Proof.
  induction evs as [|e evs IH] using rev_ind.
  - constructor; [auto|]. exists []. split; constructor.
  - rewrite vrun_snoc. cbn [fst snd]. eapply queued_step; eauto.
    destruct (vstep _ e); auto.
Qed.

(** *** Without timer expiries *)

Definition timer_event (e : event) : bool :=
  match e with EvResponseTimer | EvTaskTimer => true | _ => false end.

Record undisturbed (evs : list event) (s : vstate) (t : trace) : Prop := {
  un_timer : v_respTimer s = match v_pending s with [] => false | _ => true end;
  un_order : exists don, subseq (don ++ v_pending s ++ v_waiting s) (map fst (requests evs)) /\
               released t = don ++ firstn 1 (v_pending s)
}.

Lemma check_undisturbed s s' o don rel :
  checkTasksInitialized false s = (s', o) ->
  v_respTimer s = match v_pending s with [] => false | _ => true end ->
  rel = don ++ firstn 1 (v_pending s) ->
  v_pending s' ++ v_waiting s' = v_pending s ++ v_waiting s /\
  v_respTimer s' = match v_pending s' with [] => false | _ => true end /\
  rel ++ released_of o = don ++ firstn 1 (v_pending s').
Proof.
  intros C ID ST. apply check_spec in C.
  destruct C as (ready & rest & W & _ & _ & P & W' & _ & _ & _ & X & _).
  rewrite P, W', W, <- app_assoc. split; auto. subst rel.
  destruct X as [(A & R & T & _)|(NE & T & R & T' & _)]; rewrite R.
  - rewrite T, ID, app_nil_r. destruct (v_pending s) as [|u p]; [|auto].
    destruct A as [->|A]; [auto|congruence].
  - rewrite T'. destruct (v_pending s) as [|u p]; [|congruence]. cbn.
    destruct ready as [|r rd]; [congruence|]. cbn. rewrite app_nil_r. auto.
Qed.

Lemma undisturbed_run evs :
  existsb timer_event evs = false -> undisturbed evs (fst (vrun evs)) (snd (vrun evs)).
Proof.
  induction evs as [|e evs IH] using rev_ind.
  - intros _. constructor; [auto|]. exists []. split; [constructor|auto].
  - rewrite existsb_app. intros NT. apply orb_false_elim in NT. destruct NT as (NT & NE).
    cbn in NE. rewrite orb_false_r in NE. specialize (IH NT).
    rewrite vrun_snoc. cbn [fst snd].
    set (s := fst (vrun evs)) in *. set (t := snd (vrun evs)) in *. clearbody s t.
    destruct (vstep s e) as (s', o) eqn:V. cbn [fst snd].
    destruct IH as [ID (don & SB & ST)]. apply vstep_qstep in V.
    assert (RL : released (t ++ [(e, o)]) = released t ++ released_of o).
    { unfold released. rewrite sent_snoc. apply released_app. }
    assert (RQ : subseq (don ++ v_pending s ++ v_waiting s) (map fst (requests (evs ++ [e])))).
    { rewrite requests_snoc, map_app. apply subseq_app_r; auto. }
    inversion V as
      [P W M E T R O
      |u k R OK P W M E T RO RP KN OO
      |u k d R OK D C
      |i s1 E P W M ER T IN C
      |i c f u p E P U D C
      |u p s1 E TM P P1 W1 M1 T1 K1 C
      |s1 E P S1 C
      |u w s1 E TM W P1 W1 M1 T1 K1 E1 C
      |s1 E W S1 C]; try (subst e; discriminate).
    + constructor; rewrite ?P, ?W, ?T; auto. exists don. rewrite RL, O, app_nil_r. auto.
    + constructor; rewrite ?P, ?W, ?T; auto. exists don. rewrite RL, RO, app_nil_r. auto.
    + destruct (check_undisturbed _ _ _ don (released t) C ID ST) as (Q & ID' & ST'). cbn in Q.
      constructor; auto. exists don. rewrite RL, Q. split; auto.
      rewrite requests_snoc, R, map_app. cbn. rewrite !app_assoc.
      apply subseq_app; [|apply subseq_refl]. rewrite <- app_assoc. auto.
    + destruct (check_undisturbed _ _ _ don (released t) C) as (Q & ID' & ST').
      { rewrite P, T. auto. } { rewrite P. auto. }
      constructor; auto. exists don. rewrite RL, Q, P, W. auto.
    + destruct (sendNextRequest _ _) as (s2, outs) eqn:SN.
      apply sendNext_spec in SN. cbn in SN. destruct SN as (P2 & W2 & _ & _ & _ & RO & _ & X).
      injection C as <- <-. rewrite released_reply in RL. rewrite RO in RL.
      constructor.
      * rewrite P2. destruct p; apply X.
      * exists (don ++ [u]). rewrite P2, W2, RL, ST, <- !app_assoc. cbn. rewrite P in *. cbn. auto.
Qed.

(** *** The outstanding request *)

Lemma check_front cb s s' o u p :
  checkTasksInitialized cb s = (s', o) -> v_pending s = u :: p ->
  (exists p', v_pending s' = u :: p') /\ (forall x, In x (released_of o) -> x = u).
Proof.
  intros C P. apply check_spec in C.
  destruct C as (ready & rest & W & _ & _ & P' & W' & _ & _ & _ & X & _).
  rewrite P' , P in *. split; [cbn; eauto|].
  intros x I. destruct X as [(_ & R & _)|(_ & _ & R & _)]; rewrite R in I; cbn in I; intuition.
Qed.

Lemma front_step s e s' o u p :
  vstep s e = (s', o) -> v_pending s = u :: p -> ~ ends u e ->
  (exists p', v_pending s' = u :: p') /\ (forall x, In x (released_of o) -> x = u).
Proof.
  intros V P NE. apply vstep_qstep in V.
  inversion V as
    [P' W M E T R O
    |v k R OK P' W M E T RO RP KN OO
    |v k d R OK D C
    |i s1 E P' W M ER T IN C
    |i c f v q E P' U D C
    |v q s1 E TM P' P1 W1 M1 T1 K1 C
    |s1 E P' S1 C
    |v w s1 E TM W P1 W1 M1 T1 K1 E1 C
    |s1 E W S1 C].
  - rewrite P', O. split; [eauto|]. intros x [].
  - rewrite P', RO. split; [eauto|]. intros x [].
  - apply (check_front _ _ _ _ _ p C). auto.
  - apply (check_front _ _ _ _ _ p C). congruence.
  - exfalso. apply NE. subst e. cbn. congruence.
  - exfalso. apply NE. subst e. exact I.
  - exfalso. apply NE. subst e. exact I.
  - destruct (checkTasksInitialized true s1) as (s2, outs) eqn:CT. injection C as <- <-.
    rewrite released_reply. apply (check_front _ _ _ _ _ p CT). congruence.
  - apply (check_front _ _ _ _ _ p C). subst s1. auto.
Qed.

(** A step releases at most one request, and then it is the front of the queue. *)
Lemma release_front s e s' o :
  vstep s e = (s', o) ->
  released_of o = [] \/ exists u p, released_of o = [u] /\ v_pending s' = u :: p.
Proof.
  intros V. apply vstep_qstep in V.
  assert (CK : forall cb a b q, checkTasksInitialized cb a = (b, q) ->
            released_of q = [] \/ exists u p, released_of q = [u] /\ v_pending b = u :: p).
  { intros cb a b q C. apply check_spec in C.
    destruct C as (ready & rest & W & _ & _ & P' & W' & _ & _ & _ & X & _).
    destruct X as [(_ & R & _)|(_ & _ & R & _ & Y)]; auto. right.
    rewrite P', R. destruct (v_pending a ++ ready) as [|u p]; [destruct Y|]. exists u, p. auto. }
  assert (SN : forall cb a b q, sendNextRequest cb a = (b, q) ->
            released_of q = [] \/ exists u p, released_of q = [u] /\ v_pending b = u :: p).
  { intros cb a b q C. apply sendNext_spec in C. destruct C as (P & _ & _ & _ & _ & R & _).
    rewrite R, P. destruct (v_pending a) as [|u p]; [auto|]. right. exists u, p. auto. }
  inversion V as
    [P' W M E T R O
    |v k R OK P' W M E T RO RP KN OO
    |v k d R OK D C
    |i s1 E P' W M ER T IN C
    |i c f v q E P' U D C
    |v q s1 E TM P' P1 W1 M1 T1 K1 C
    |s1 E P' S1 C
    |v w s1 E TM W P1 W1 M1 T1 K1 E1 C
    |s1 E W S1 C]; eauto.
  - left. subst. auto.
  - destruct (sendNextRequest _ _) as (s2, outs) eqn:N. injection C as <- <-.
    rewrite released_reply. eauto.
  - destruct (sendNextRequest _ _) as (s2, outs) eqn:N. injection C as <- <-.
    rewrite released_reply. eauto.
  - destruct (checkTasksInitialized true s1) as (s2, outs) eqn:CT. injection C as <- <-.
    rewrite released_reply. eauto.
Qed.

Lemma trace_split evs t1 x t2 :
  snd (vrun evs) = t1 ++ x :: t2 ->
  exists s, vrun (map fst t1) = (s, t1) /\
            vrun (map fst t1 ++ [fst x]) = (fst (vstep s (fst x)), t1 ++ [x]) /\
            snd x = snd (vstep s (fst x)).
Proof.
  revert t1 x t2. induction evs as [|e evs IH] using rev_ind; intros t1 x t2.
  - cbn. destruct t1; discriminate.
  - rewrite vrun_snoc. cbn [snd].
    destruct t2 as [|y t2] using rev_ind.
    + intros E. apply app_inj_tail in E. destruct E as (E1 & E2). subst x t1. cbn [fst snd].
      rewrite vrun_events. exists (fst (vrun evs)). split; [destruct (vrun evs); auto|].
      rewrite vrun_snoc. auto.
    + clear IHt2. rewrite app_comm_cons, app_assoc. intros E. apply app_inj_tail in E.
      destruct E as (E1 & _). eapply IH; eauto.
Qed.

Lemma front_run t1 s u p t2 evs :
  v_pending s = u :: p -> vrun (map fst t1) = (s, t1) ->
  snd (vrun evs) = t1 ++ t2 -> (forall x o, In (x, o) t2 -> ~ ends u x) ->
  forall x o v, In (x, o) t2 -> In (OutRequest v) o -> v = u.
Proof.
  revert t1 s p. induction t2 as [|(x, o) t2 IH]; intros t1 s p P R E N y q v; [intros []|].
  intros [X|I] Q.
  - injection X as -> ->. destruct (trace_split _ _ _ _ E) as (s1 & R1 & _ & O). cbn in O.
    assert (s1 = s) by congruence. subst s1.
    destruct (vstep s y) as (s', o') eqn:V. cbn in O. subst o'.
    destruct (front_step _ _ _ _ _ _ V P (N y q (or_introl eq_refl))) as (_ & F).
    apply F. unfold released_of. apply in_flat_map. exists (OutRequest v). cbn. auto.
  - destruct (trace_split _ _ _ _ E) as (s1 & R1 & R2 & O). cbn [fst snd] in R2, O.
    assert (s1 = s) by congruence. subst s1.
    destruct (vstep s x) as (s', o') eqn:V. cbn in R2, O. subst o'.
    destruct (front_step _ _ _ _ _ _ V P (N x o (or_introl eq_refl))) as ((p' & P') & _).
    eapply (IH (t1 ++ [(x, o)]) s' p'); eauto.
    + rewrite map_app. auto.
    + rewrite <- app_assoc. auto.
    + intros z r Z. apply (N z r). right. auto.
Qed.

(** *** Replies *)

Definition kind_matches (d : details) (k : kind) : Prop :=
  match k with
  | KAuto => rd_type d = TAuto
  | KImpact p q => rd_type d = TImpact /\ rd_play d = p /\ rd_soln d = q
  | KTask r => rd_type d = TTask /\ rd_task d = r
  end.

Lemma reply_kind s i c f d k l :
  zget (v_map s) i = Some d -> kind_matches d k ->
  replies_of (sendResponse s i c f :: l) = k :: replies_of l.
Proof.
  unfold sendResponse. intros -> M. destruct k; cbn in M.
  - rewrite M. auto.
  - destruct M as (-> & -> & ->). auto.
  - destruct M as (-> & ->). auto.
Qed.

Record answering (evs : list event) (s : vstate) (t : trace) : Prop := {
  an_queue : exists q : list (ureq * kind),
      map fst q = v_pending s ++ v_waiting s /\
      NoDup (map (fun x => u_id (fst x)) q) /\
      (forall u k, In (u, k) q -> In (u_id u) (map (fun x => u_id (fst x)) (requests evs))) /\
      (forall u k, In (u, k) q -> exists d, zget (v_map s) (u_id u) = Some d /\ kind_matches d k) /\
      Permutation (replies t ++ map snd q) (map snd (requests evs));
  an_err : match v_pending s with [] => True | u :: _ => v_errId s = u_id u end;
  an_idle : v_pending s = [] -> v_respTimer s = false
}.

Lemma check_answering cb s s' o :
  checkTasksInitialized cb s = (s', o) ->
  match v_pending s with [] => True | u :: _ => v_errId s = u_id u end ->
  (v_pending s = [] -> v_respTimer s = false) ->
  v_pending s' ++ v_waiting s' = v_pending s ++ v_waiting s /\ v_map s' = v_map s /\
  replies_of o = [] /\
  match v_pending s' with [] => True | u :: _ => v_errId s' = u_id u end /\
  (v_pending s' = [] -> v_respTimer s' = false).
Proof.
  intros C ER ID. pose proof C as C0. apply check_spec in C.
  destruct C as (ready & rest & W & _ & _ & P & W' & _ & M & RP & X & _).
  rewrite P, W', W, <- app_assoc. repeat split; auto.
  - destruct X as [(A & R & T & E)|(NE & T & R & T' & E)].
    + rewrite E. destruct (v_pending s) as [|u p]; cbn; auto.
      specialize (ID eq_refl). destruct A as [->|A]; [auto|congruence].
    + destruct (v_pending s ++ ready); auto.
  - intros Q. apply app_eq_nil in Q. destruct Q as (Q1 & ->). rewrite Q1 in *.
    destruct X as [(A & R & T & E)|(NE & T & R & T' & E)]; [|congruence].
    rewrite T. auto.
Qed.

Lemma NoDup_snoc {A} (l : list A) x : NoDup l -> ~ In x l -> NoDup (l ++ [x]).
Proof.
  intros N F. apply (Permutation_NoDup (Permutation_cons_append l x)). constructor; auto.
Qed.

Lemma NoDup_snoc_inv {A} (l : list A) x : NoDup (l ++ [x]) -> NoDup l /\ ~ In x l.
Proof.
  intros N. apply NoDup_remove in N. rewrite app_nil_r in N. auto.
Qed.

Lemma answering_step evs s t e s' o :
  NoDup (map (fun x => u_id (fst x)) (requests (evs ++ [e]))) -> e <> EvTaskTimer ->
  answering evs s t -> vstep s e = (s', o) -> answering (evs ++ [e]) s' (t ++ [(e, o)]).
Proof.
  intros ND NT [(q & Q1 & Q2 & Q3 & Q4 & Q5) ER ID] V. apply vstep_qstep in V.
  assert (RL : replies (t ++ [(e, o)]) = replies t ++ replies_of o).
  { unfold replies. rewrite sent_snoc. apply replies_app. }
  assert (Q3' : forall u k, In (u, k) q ->
            In (u_id u) (map (fun x => u_id (fst x)) (requests (evs ++ [e])))).
  { intros u k I. rewrite requests_snoc, map_app. apply in_or_app. left. eauto. }
  rewrite requests_snoc in *.
  inversion V as
    [P' W M E T R O
    |v k R OK P' W M E T RO RP KN OO
    |v k d R OK D C
    |i s1 E P' W M ER1 T IN C
    |i c f v p E P' U D C
    |v p s1 E TM P' P1 W1 M1 T1 K1 C
    |s1 E P' S1 C
    |v w s1 E TM W P1 W1 M1 T1 K1 E1 C
    |s1 E W S1 C]; [| | | | | | |congruence|congruence].
  - rewrite R in *. rewrite app_nil_r in *. subst o.
    constructor; [|rewrite P', E; auto|rewrite P', T; auto].
    exists q. rewrite P', W, M, RL, app_nil_r, requests_snoc, R, app_nil_r. auto 10.
  - rewrite R in *. constructor; [|rewrite P', E; auto|rewrite P', T; auto].
    rewrite map_app in ND. cbn in ND. apply NoDup_snoc_inv in ND. destruct ND as (ND & FR).
    exists q. rewrite P', W, M, RL, RP, requests_snoc, R. repeat split; auto.
    + intros u k0 I. destruct (Q4 u k0 I) as (d & G & K). exists d. split; auto.
      rewrite zget_del_other; auto. intros EQ. apply FR. rewrite <- EQ. eauto.
    + rewrite map_app. cbn. rewrite <- app_assoc.
      eapply Permutation_trans; [|apply Permutation_app_tail; exact Q5].
      rewrite <- app_assoc. apply Permutation_app_head. apply Permutation_app_comm.
  - rewrite R in *. rewrite map_app in ND. cbn in ND. apply NoDup_snoc_inv in ND.
    destruct ND as (ND & FR).
    apply check_answering in C; auto. cbn in C. destruct C as (C1 & C2 & C3 & C4 & C5).
    constructor; auto. exists (q ++ [(v, k)]).
    rewrite C1, C2, RL, C3, app_nil_r, requests_snoc, R. repeat split.
    + rewrite map_app, Q1, app_assoc. auto.
    + rewrite map_app. cbn. apply NoDup_snoc; auto. intros I. apply FR.
      apply in_map_iff in I. destruct I as ((u, k0) & EQ & I). cbn in EQ. rewrite <- EQ. eauto.
    + intros u k0 I. apply in_app_or in I. destruct I as [I|[I|[]]]; [eauto|].
      injection I as <- <-. rewrite map_app. apply in_or_app. right. left. auto.
    + intros u k0 I. apply in_app_or in I. destruct I as [I|[I|[]]].
      * destruct (Q4 u k0 I) as (d' & G & K). exists d'. split; auto.
        rewrite zget_set_other; auto. intros EQ. apply FR. rewrite <- EQ. eauto.
      * injection I as <- <-. exists d. split; [apply zget_set_same|]. exact D.
    + rewrite !map_app. cbn. rewrite app_assoc. apply Permutation_app_tail. auto.
  - assert (RN : request_of e = None) by (subst e; auto). rewrite RN, app_nil_r in *.
    apply check_answering in C; [|rewrite P', ER1; auto|rewrite P', T; auto].
    destruct C as (C1 & C2 & C3 & C4 & C5). constructor; auto.
    exists q. rewrite C1, C2, RL, C3, app_nil_r, requests_snoc, RN, app_nil_r, P', W, M. auto 10.
  - assert (RN : request_of e = None) by (subst e; auto). rewrite RN, app_nil_r in *.
    destruct (sendNextRequest _ _) as (s2, outs) eqn:SN.
    apply sendNext_spec in SN. cbn in SN. destruct SN as (P2 & W2 & _ & M2 & _ & _ & RO & X).
    injection C as <- <-. rewrite P' in Q1. cbn in Q1.
    destruct q as [|(v', k) q]; [discriminate|]. injection Q1 as -> Q1.
    destruct (Q4 v k (or_introl eq_refl)) as (dd & G & K). rewrite U in G.
    erewrite reply_kind in RL by eauto. rewrite RO in RL.
    cbn in Q2. apply NoDup_cons_iff in Q2. destruct Q2 as (N1 & N2).
    constructor.
    + exists q. rewrite P2, W2, M2, RL, requests_snoc, RN, app_nil_r. repeat split; auto.
      * intros u k0 I. apply (Q3 u k0). right. auto.
      * intros u k0 I. destruct (Q4 u k0 (or_intror I)) as (d' & G' & K'). exists d'. split; auto.
        rewrite zget_del_other; auto. intros EQ. apply N1. rewrite U, <- EQ.
        apply (in_map (fun x => u_id (fst x)) q (u, k0)). auto.
      * rewrite <- app_assoc. auto.
    + rewrite P2. destruct p; [auto|apply X].
    + rewrite P2. intros ->. apply X.
  - assert (RN : request_of e = None) by (subst e; auto). rewrite RN, app_nil_r in *.
    destruct (sendNextRequest _ _) as (s2, outs) eqn:SN.
    apply sendNext_spec in SN. rewrite P1, W1, M1 in SN.
    destruct SN as (P2 & W2 & _ & M2 & _ & _ & RO & X).
    injection C as <- <-. rewrite P' in *. cbn in Q1.
    destruct q as [|(v', k) q]; [discriminate|]. injection Q1 as -> Q1.
    destruct (Q4 v k (or_introl eq_refl)) as (dd & G & K). rewrite <- ER in G.
    erewrite reply_kind in RL by eauto. rewrite RO in RL.
    cbn in Q2. apply NoDup_cons_iff in Q2. destruct Q2 as (N1 & N2).
    constructor.
    + exists q. rewrite P2, W2, M2, RL, requests_snoc, RN, app_nil_r. repeat split; auto.
      * intros u k0 I. apply (Q3 u k0). right. auto.
      * intros u k0 I. destruct (Q4 u k0 (or_intror I)) as (d' & G' & K'). exists d'. split; auto.
        rewrite zget_del_other; auto. intros EQ. apply N1. rewrite <- ER, <- EQ.
        apply (in_map (fun x => u_id (fst x)) q (u, k0)). auto.
      * rewrite <- app_assoc. auto.
    + rewrite P2. destruct p; [auto|apply X].
    + rewrite P2. intros ->. apply X.
  - assert (RN : request_of e = None) by (subst e; auto). rewrite RN, app_nil_r in *.
    apply sendNext_spec in C. subst s1. cbn in C. rewrite P' in C.
    destruct C as (P2 & W2 & _ & M2 & _ & _ & RO & X).
    constructor; [|rewrite P2; auto|intros _; apply X].
    exists q. rewrite P2, W2, M2, RL, RO, app_nil_r, requests_snoc, RN, app_nil_r.
    rewrite P' in Q1. auto 10.
Qed.

Lemma answering_run evs :
  NoDup (map (fun x => u_id (fst x)) (requests evs)) -> ~ In EvTaskTimer evs ->
  answering evs (fst (vrun evs)) (snd (vrun evs)).
Proof.
  induction evs as [|e evs IH] using rev_ind; intros ND NT.
  - constructor; cbn; auto. exists []. cbn. repeat split; auto; try constructor; intros ? ? [].
  - rewrite vrun_snoc. cbn [fst snd].
    destruct (vstep (fst (vrun evs)) e) as (s', o) eqn:V. cbn [fst snd].
    eapply answering_step; eauto.
    + intros ->. apply NT. apply in_or_app. right. left. auto.
    + apply IH.
      * rewrite requests_snoc, map_app in ND. eapply subseq_NoDup; [|exact ND].
        apply subseq_app_r, subseq_refl.
      * intros I. apply NT. apply in_or_app. auto.
Qed.

(** *** Knowledge *)

(** The knowledge after a message. *)
Definition learn (s : vstate) (e : event) : vstate :=
  let k := set_known s in
  match e with
  | EvConfig i => k (zadd i (v_configs s)) (v_states s) (v_keepIn s) (v_keepOut s)
                     (v_areas s) (v_lines s) (v_points s) (v_regions s) (v_tasks s)
                     (v_inited s)
  | EvState i => k (v_configs s) (zadd i (v_states s)) (v_keepIn s) (v_keepOut s)
                     (v_areas s) (v_lines s) (v_points s) (v_regions s) (v_tasks s)
                     (v_inited s)
  | EvTask i n => k (v_configs s) (v_states s) (v_keepIn s) (v_keepOut s)
                     (v_areas s) (v_lines s) (v_points s) (v_regions s)
                     (zset (v_tasks s) i n) (zrem i (v_inited s))
  | EvRemove ids => k (v_configs s) (v_states s) (v_keepIn s) (v_keepOut s)
                     (v_areas s) (v_lines s) (v_points s) (v_regions s)
                     (fold_left zdel ids (v_tasks s))
                     (fold_left (fun m i => zrem i m) ids (v_inited s))
  | EvInit i => k (v_configs s) (v_states s) (v_keepIn s) (v_keepOut s)
                     (v_areas s) (v_lines s) (v_points s) (v_regions s) (v_tasks s)
                     (zadd i (v_inited s))
  | EvArea i => k (v_configs s) (v_states s) (v_keepIn s) (v_keepOut s)
                     (zadd i (v_areas s)) (v_lines s) (v_points s) (v_regions s) (v_tasks s)
                     (v_inited s)
  | EvLine i => k (v_configs s) (v_states s) (v_keepIn s) (v_keepOut s)
                     (v_areas s) (zadd i (v_lines s)) (v_points s) (v_regions s) (v_tasks s)
                     (v_inited s)
  | EvPoint i => k (v_configs s) (v_states s) (v_keepIn s) (v_keepOut s)
                     (v_areas s) (v_lines s) (zadd i (v_points s)) (v_regions s) (v_tasks s)
                     (v_inited s)
  | EvKeepIn i => k (v_configs s) (v_states s) (zadd i (v_keepIn s)) (v_keepOut s)
                     (v_areas s) (v_lines s) (v_points s) (v_regions s) (v_tasks s)
                     (v_inited s)
  | EvKeepOut i => k (v_configs s) (v_states s) (v_keepIn s) (zadd i (v_keepOut s))
                     (v_areas s) (v_lines s) (v_points s) (v_regions s) (v_tasks s)
                     (v_inited s)
  | EvRegion i r => k (v_configs s) (v_states s) (v_keepIn s) (v_keepOut s)
                     (v_areas s) (v_lines s) (v_points s) (zset (v_regions s) i r) (v_tasks s)
                     (v_inited s)
  | _ => s
  end.

Lemma vstep_known s e s' o : vstep s e = (s', o) -> known s' = known (learn s e).
Proof.
  intros V. pose proof (vstep_qstep _ _ _ _ V) as Q.
  assert (CK : forall cb a b q, checkTasksInitialized cb a = (b, q) -> known b = known a).
  { intros cb a b q C. apply check_spec in C.
    destruct C as (ready & rest & _ & _ & _ & _ & _ & K & _). auto. }
  assert (SN : forall cb a b q, sendNextRequest cb a = (b, q) -> known b = known a).
  { intros cb a b q C. apply sendNext_spec in C. apply C. }
  destruct e; cbn [vstep] in V; try (injection V as <- <-; reflexivity).
  - injection V as <- <-. destruct error; reflexivity.
  - apply CK in V. auto.
  - inversion Q; try discriminate; auto. apply CK in H2. auto.
  - inversion Q; try discriminate; auto. apply CK in H2. auto.
  - inversion Q; try discriminate; auto. apply CK in H2. auto.
  - unfold handleResponse in V. destruct (v_pending s); [injection V as <- <-; auto|].
    destruct (_ && _); [|injection V as <- <-; auto].
    destruct (sendNextRequest _ _) as (s2, outs) eqn:N. injection V as <- <-.
    apply SN in N. auto.
  - destruct (v_respTimer s); [|injection V as <- <-; auto].
    unfold onResponseTimeout in V. cbn [v_pending set_timers] in V.
    destruct (v_pending s).
    + apply SN in V. auto.
    + cbn zeta in V. destruct (sendNextRequest _ _) as (s2, outs) eqn:N. injection V as <- <-.
      apply SN in N. auto.
  - destruct (v_taskTimer s); [|injection V as <- <-; auto].
    unfold onTasksReadyTimeout in V. cbn [v_waiting set_timers] in V.
    destruct (v_waiting s).
    + apply CK in V. auto.
    + cbn zeta in V. destruct (checkTasksInitialized _ _) as (s2, outs) eqn:N. injection V as <- <-.
      apply CK in N. auto.
Qed.

Lemma since_snoc {A} (x e : A) (T : A -> Prop) h :
  (exists a b, h ++ [e] = a ++ x :: b /\ forall y, In y b -> ~ T y) <->
  e = x \/ ((exists a b, h = a ++ x :: b /\ forall y, In y b -> ~ T y) /\ ~ T e).
Proof.
  split.
  - intros (a & b & E & N). destruct b as [|z b] using rev_ind.
    + apply app_inj_tail in E. left. apply E.
    + right. rewrite app_comm_cons, app_assoc in E. apply app_inj_tail in E.
      destruct E as (-> & <-). split.
      * exists a, b. split; auto. intros y I. apply N. apply in_or_app. auto.
      * apply N. apply in_or_app. right. left. auto.
  - intros [->|((a & b & -> & N) & NT)].
    + exists h, []. split; auto.
    + exists a, (b ++ [e]). split; [rewrite <- app_assoc; auto|].
      intros y I. apply in_app_or in I. destruct I as [I|[<-|[]]]; auto.
Qed.

Lemma region_snoc h e i r :
  region_is (h ++ [e]) i r <->
  e = EvRegion i r \/ (region_is h i r /\ forall r', e <> EvRegion i r').
Proof.
  unfold region_is.
  pose proof (since_snoc (EvRegion i r) e (fun y => exists r', y = EvRegion i r') h) as S.
  assert (EQ : forall b, (forall y, In y b -> ~ (exists r', y = EvRegion i r')) <->
                         (forall r', ~ In (EvRegion i r') b)).
  { intros b. split.
    - intros H r' I. apply (H _ I). eauto.
    - intros H y I (r' & ->). apply (H _ I). }
  split.
  - intros (a & b & E & N). destruct S as (S & _).
    destruct S as [S|((a' & b' & E' & N') & S)]; auto.
    { exists a, b. rewrite EQ. auto. }
    right. split; [exists a', b'; rewrite <- EQ; auto|]. intros r' ->. apply S. eauto.
  - intros H. destruct S as (_ & S). destruct S as (a & b & E & N).
    + destruct H as [H|((a & b & E & N) & H)]; auto. right. split.
      * exists a, b. rewrite EQ. auto.
      * intros (r' & ->). apply (H r'). auto.
    + exists a, b. rewrite <- EQ. auto.
Qed.

Lemma fold_zdel {A} (m : zmap A) ids t :
  zget (fold_left zdel ids m) t = if zin t ids then None else zget m t.
Proof.
  revert m. induction ids as [|i ids IH]; intros m; cbn; auto.
  rewrite IH, zget_del. unfold zin. destruct (t =? i); cbn; destruct (existsb (Z.eqb t) ids); auto.
Qed.

Lemma fold_zrem m ids t :
  In t (fold_left (fun m i => zrem i m) ids m) <-> In t m /\ ~ In t ids.
Proof.
  revert m. induction ids as [|i ids IH]; intros m; cbn; [tauto|].
  rewrite IH, In_zrem. intuition.
Qed.

Record knows (evs : list event) (s : vstate) : Prop := {
  kn_config : forall i, In i (v_configs s) <-> configured evs i;
  kn_state : forall i, In i (v_states s) <-> state_known evs i;
  kn_in : forall i, In i (v_keepIn s) <-> In (EvKeepIn i) evs;
  kn_out : forall i, In i (v_keepOut s) <-> In (EvKeepOut i) evs;
  kn_area : forall i, In i (v_areas s) <-> In (EvArea i) evs;
  kn_line : forall i, In i (v_lines s) <-> In (EvLine i) evs;
  kn_point : forall i, In i (v_points s) <-> In (EvPoint i) evs;
  kn_region : forall i r, zget (v_regions s) i = Some r <-> region_is evs i r;
  kn_task : forall t n, zget (v_tasks s) t = Some n <-> task_is evs t n;
  kn_init : forall t, In t (v_inited s) <-> initialised evs t
}.

Lemma knows_eq evs s s' : known s' = known s -> knows evs s -> knows evs s'.
Proof.
  unfold known. intros E K. destruct K.
  injection E as E1 E2 E3 E4 E5 E6 E7 E8 E9 E10.
  constructor; rewrite ?E1, ?E2, ?E3, ?E4, ?E5, ?E6, ?E7, ?E8, ?E9, ?E10; auto.
Qed.

Lemma In_snoc {A} (x e : A) l : In x (l ++ [e]) <-> In x l \/ e = x.
Proof. rewrite in_app_iff. cbn. tauto. Qed.

Lemma knows_learn evs s e : knows evs s -> knows (evs ++ [e]) (learn s e).
Proof.
  intros [K1 K2 K3 K4 K5 K6 K7 K8 K9 K10].
  constructor; unfold configured, state_known, task_is, initialised; intros.
  1-7: rewrite In_snoc; destruct e; cbn -[zget zset zadd zrem fold_left]; rewrite ?In_zadd;
       rewrite ?K1, ?K2, ?K3, ?K4, ?K5, ?K6, ?K7; unfold configured, state_known;
       split; intros H; try (destruct H as [H|H]; try discriminate); auto;
       try (subst; auto; fail); injection H as ->; auto.
  - rewrite region_snoc, <- K8. destruct e; cbn -[zget zset zadd zrem fold_left];
      try (split; [intros H; right; split; [exact H|discriminate]|intros [H|(H & _)]; [discriminate|auto]]).
    rewrite zget_set. destruct (Z.eqb_spec i id).
    + subst. split; [intros [= ->]; auto|]. intros [H|(_ & H)]; [injection H as ->; auto|].
      destruct (H r0). auto.
    + split; [intros H; right; split; [auto|congruence]|]. intros [H|(H & _)]; [congruence|auto].
  - rewrite since_snoc. change (exists a b, evs = a ++ EvTask t n :: b /\
       (forall y, In y b -> ~ touches t y)) with (task_is evs t n). rewrite <- K9.
    destruct e; cbn -[zget zset zadd zrem fold_left];
      try (split; [intros H; right; split; [exact H|tauto]|intros [H|(H & _)]; [discriminate|auto]]).
    + rewrite zget_set. destruct (Z.eqb_spec t id).
      * subst. split; [intros [= ->]; auto|]. intros [H|(_ & H)]; [injection H as ->; auto|]. destruct H; auto.
      * split; [intros H; right; split; [auto|congruence]|]. intros [H|(H & _)]; [congruence|auto].
    + rewrite fold_zdel. destruct (zin t ids) eqn:Z.
      * apply zin_In in Z. split; [discriminate|]. intros [H|(_ & H)]; [discriminate|tauto].
      * apply zin_false in Z. split; [intros H; right; auto|]. intros [H|(H & _)]; [discriminate|auto].
  - rewrite since_snoc. change (exists a b, evs = a ++ EvInit t :: b /\
       (forall y, In y b -> ~ touches t y)) with (initialised evs t). rewrite <- K10.
    destruct e; cbn -[zget zset zadd zrem fold_left];
      try (split; [intros H; right; split; [exact H|tauto]|intros [H|(H & _)]; [discriminate|auto]]).
    + rewrite In_zrem. split; [intros (H & N); right; auto|].
      intros [H|(H & N)]; [discriminate|auto].
    + rewrite fold_zrem. split; [intros (H & N); right; auto|].
      intros [H|(H & N)]; [discriminate|auto].
    + rewrite In_zadd. split; [intros [->|H]; auto|].
      intros [H|(H & _)]; [injection H as ->; auto|auto].
Qed.

Lemma knows_run evs : knows evs (fst (vrun evs)).
Proof.
  induction evs as [|e evs IH] using rev_ind.
  - assert (NN : forall A (x : A) a b, [] = a ++ x :: b -> False) by (intros ? ? [|] ?; discriminate).
    constructor; cbn; unfold configured, state_known, region_is, task_is, initialised;
      intros; split; try tauto; try discriminate; try (intros (a & b & E & _); destruct (NN _ _ _ _ E)).
  - rewrite vrun_snoc. cbn [fst].
    destruct (vstep (fst (vrun evs)) e) as (s', o) eqn:V. cbn [fst].
    eapply knows_eq; [eapply vstep_known; eauto|]. apply knows_learn; auto.
Qed.

Lemma forallb_zin l s : forallb (fun i => zin i s) l = true <-> forall i, In i l -> In i s.
Proof.
  rewrite forallb_forall. split; intros H i I; specialize (H i I); apply zin_In; auto.
Qed.

Lemma nonempty_ex {A} (l : list A) : l <> [] <-> exists x, In x l.
Proof.
  split; [destruct l as [|x l]; [congruence|exists x; left; auto]|intros (x & I) ->; destruct I].
Qed.

Lemma complete_ok evs s u : knows evs s ->
  entitiesOk s u && regionOk s u && tasksOk s u = true <-> complete evs u.
Proof.
  intros K. rewrite !andb_true_iff.
  assert (EN : entitiesOk s u = true <->
    (forall i, In i (ar_entities (u_req u)) -> configured evs i) /\
    (forall i, In i (ar_entities (u_req u)) -> state_known evs i \/ In i (u_planning u)) /\
    ((exists i, configured evs i) /\ (exists i, state_known evs i))).
  { assert (S1 : (exists i, configured evs i) <-> v_configs s <> []).
    { rewrite nonempty_ex. split; intros (i & I); exists i; apply (kn_config _ _ K); auto. }
    assert (S2 : (exists i, state_known evs i) <-> v_states s <> []).
    { rewrite nonempty_ex. split; intros (i & I); exists i; apply (kn_state _ _ K); auto. }
    rewrite S1, S2. unfold entitiesOk.
    destruct (ar_entities (u_req u)) as [|e0 es] eqn:AE.
    - rewrite !andb_true_iff. destruct (v_configs s) as [|c cs] eqn:C; cbn.
      { split; [intros ((H & _) & _); discriminate|intros (_ & _ & H & _); congruence]. }
      rewrite Z.eqb_refl. destruct (v_states s); cbn.
      { split; [intros ((_ & H) & _); discriminate|intros (_ & _ & _ & H); congruence]. }
      split; [|auto]. intros _. repeat split; try discriminate; intros i [].
    - rewrite <- AE. set (ids := ar_entities (u_req u)) in *.
      assert (NI : In e0 ids) by (rewrite AE; left; auto). clearbody ids.
      rewrite andb_true_iff.
      assert (A1 : match v_configs s with [] => false | _ => forallb (fun i => zin i (v_configs s)) ids end
                   = true <-> (forall i, In i ids -> configured evs i)).
      { destruct (v_configs s) as [|c cs] eqn:C.
        - split; [discriminate|]. intros H. specialize (H _ NI). apply (kn_config _ _ K) in H.
          rewrite C in H. destruct H.
        - rewrite <- C, forallb_zin. split; intros H i I; apply (kn_config _ _ K); auto. }
      assert (A2 : match v_states s with
                   | [] => false
                   | _ => forallb (fun i => zin i (v_states s) || existsb (Z.eqb i) (u_planning u)) ids
                   end = true <->
                   v_states s <> [] /\
                   (forall i, In i ids -> state_known evs i \/ In i (u_planning u))).
      { destruct (v_states s) as [|c cs] eqn:C.
        - split; [discriminate|intros (H & _); congruence].
        - rewrite <- C, forallb_forall. split.
          + intros H. split; [rewrite C; discriminate|]. intros i I. specialize (H i I).
            apply orb_prop in H. destruct H as [H|H].
            * left. apply (kn_state _ _ K). apply zin_In; auto.
            * right. apply zin_In; auto.
          + intros (_ & H) i I. apply orb_true_iff. destruct (H i I) as [Q|Q].
            * left. apply zin_In. apply (kn_state _ _ K); auto.
            * right. apply zin_In; auto. }
      rewrite A1, A2. split; [|tauto]. intros (H1 & H2 & H3). repeat split; auto.
      rewrite <- S1. eauto. }
  assert (RG : regionOk s u = true <->
    (ar_region (u_req u) <> 0 ->
              exists r, region_is evs (ar_region (u_req u)) r /\
                (forall z, In z (rg_in r) -> In (EvKeepIn z) evs) /\
                (forall z, In z (rg_out r) -> In (EvKeepOut z) evs))).
  { unfold regionOk. destruct (Z.eqb_spec (ar_region (u_req u)) 0); [tauto|].
    destruct (zget (v_regions s) (ar_region (u_req u))) as [r|] eqn:G.
    - rewrite andb_true_iff, !forallb_zin. split.
      + intros (H1 & H2) _. exists r. split; [apply (kn_region _ _ K); auto|].
        split; intros z Z; [apply (kn_in _ _ K)|apply (kn_out _ _ K)]; auto.
      + intros H. destruct (H n) as (r' & R & H1 & H2). apply (kn_region _ _ K) in R.
        assert (r' = r) by congruence. subst r'.
        split; intros z Z; [apply (kn_in _ _ K)|apply (kn_out _ _ K)]; auto.
    - split; [discriminate|]. intros H. destruct (H n) as (r' & R & _).
      apply (kn_region _ _ K) in R. congruence. }
  assert (ND : forall n, needOk s n = true <-> need_met evs n).
  { intros [|i|i|i]; cbn; [tauto|..]; rewrite orb_true_iff, Z.eqb_eq, zin_In;
      [rewrite (kn_area _ _ K)|rewrite (kn_line _ _ K)|rewrite (kn_point _ _ K)]; tauto. }
  assert (TK : tasksOk s u = true <->
    (forall t, In t (ar_tasks (u_req u)) -> exists n, task_is evs t n /\ need_met evs n)).
  { unfold tasksOk. rewrite forallb_forall. split; intros H t T; specialize (H t T).
    - destruct (zget (v_tasks s) t) as [n|] eqn:G; [|discriminate]. exists n.
      split; [apply (kn_task _ _ K); auto|apply ND; auto].
    - destruct H as (n & N1 & N2). apply (kn_task _ _ K) in N1. rewrite N1. apply ND. auto. }
  rewrite EN, RG, TK. split.
  - intros (((H1 & H2 & H3) & H4) & H5). constructor; auto.
  - intros []. auto.
Qed.

(** *** Where released requests come from *)

Definition arrived (evs : list event) (u : ureq) (a : list event) (e : event) (b : list event) :=
  evs = a ++ e :: b /\ (exists k, request_of e = Some (u, k)) /\ complete a u.

Definition ready_after (a : list event) (e : event) (b : list event) (u : ureq) :=
  exists c d, b = c ++ d /\ forall t, In t (ar_tasks (u_req u)) -> initialised (a ++ e :: c) t.

Record origins (evs : list event) (s : vstate) : Prop := {
  og_wait : forall u, In u (v_waiting s) -> exists a e b, arrived evs u a e b;
  og_pend : forall u, In u (v_pending s) -> exists a e b, arrived evs u a e b /\ ready_after a e b u
}.

Lemma arrived_snoc evs u a e b x : arrived evs u a e b -> arrived (evs ++ [x]) u a e (b ++ [x]).
Proof. intros (-> & R & C). split; auto. rewrite <- app_assoc. auto. Qed.

Lemma ready_snoc a e b u x : ready_after a e b u -> ready_after a e (b ++ [x]) u.
Proof. intros (c & d & -> & I). exists c, (d ++ [x]). rewrite app_assoc. auto. Qed.

Lemma check_origins cb evs s s' o :
  checkTasksInitialized cb s = (s', o) ->
  knows evs s -> origins evs s -> origins evs s'.
Proof.
  intros C K [W P]. apply check_spec in C.
  destruct C as (ready & rest & E & F & _ & P' & W' & _).
  constructor; intros u I.
  - apply W. rewrite E. apply in_or_app. right. congruence.
  - rewrite P' in I. apply in_app_or in I. destruct I as [I|I]; [auto|].
    destruct (W u) as (a & e & b & A); [rewrite E; apply in_or_app; auto|].
    exists a, e, b. split; auto. destruct A as (-> & _). exists b, []. rewrite app_nil_r.
    split; auto. intros t T. rewrite Forall_forall in F. specialize (F u I).
    unfold tasksReady in F. rewrite forallb_zin in F. apply (kn_init _ _ K). auto.
Qed.

Lemma origins_run evs : origins evs (fst (vrun evs)).
Proof.
  induction evs as [|x evs IH] using rev_ind.
  - constructor; intros u [].
  - pose proof (knows_run (evs ++ [x])) as KN'. rewrite vrun_snoc in *. cbn [fst] in *.
    pose proof (knows_run evs) as KN.
    set (s := fst (vrun evs)) in *. clearbody s.
    destruct (vstep s x) as (s', o) eqn:V. cbn [fst] in *.
    pose proof (vstep_known _ _ _ _ V) as KS.
    pose proof (knows_learn _ _ x KN) as KL.
    apply vstep_qstep in V.
    destruct IH as [WT PD].
    assert (WT' : forall u, In u (v_waiting s) -> exists a e b, arrived (evs ++ [x]) u a e b).
    { intros u I. destruct (WT u I) as (a & e & b & A). exists a, e, (b ++ [x]).
      apply arrived_snoc; auto. }
    assert (PD' : forall u, In u (v_pending s) ->
              exists a e b, arrived (evs ++ [x]) u a e b /\ ready_after a e b u).
    { intros u I. destruct (PD u I) as (a & e & b & A & R). exists a, e, (b ++ [x]).
      split; [apply arrived_snoc|apply ready_snoc]; auto. }
    assert (CK : forall cb s1, checkTasksInitialized cb s1 = (s', o) -> known s1 = known s').
    { intros cb s1 C. apply check_spec in C.
      destruct C as (? & ? & _ & _ & _ & _ & _ & K & _). auto. }
    inversion V as
      [P' W M E T R O
      |v k R OK P' W M E T RO RP KN2 OO
      |v k d R OK D C
      |i s1 E P' W M ER1 T IN C
      |i c f v p E P' U D C
      |v p s1 E TM P' P1 W1 M1 T1 K1 C
      |s1 E P' S1 C
      |v w s1 E TM W P1 W1 M1 T1 K1 E1 C
      |s1 E W S1 C].
    + constructor; intros u I; [apply WT'|apply PD']; congruence.
    + constructor; intros u I; [apply WT'|apply PD']; congruence.
    + eapply check_origins; [exact C|eapply knows_eq; [eapply CK; exact C|exact KN']|].
      constructor; cbn; intros u I; [|auto].
      apply in_app_or in I. destruct I as [I|[<-|[]]]; [auto|].
      exists evs, x, []. split; auto. split; [eauto|]. apply (complete_ok _ _ _ KN). auto.
    + eapply check_origins; [exact C|eapply knows_eq; [eapply CK; exact C|exact KN']|].
      constructor; cbn; intros u I; [apply WT'|apply PD']; congruence.
    + destruct (sendNextRequest _ _) as (s2, outs) eqn:SN. injection C as <- <-.
      apply sendNext_spec in SN. cbn in SN. destruct SN as (P2 & W2 & _).
      constructor; intros u I; [apply WT'; congruence|].
      apply PD'. rewrite P'. right. congruence.
    + destruct (sendNextRequest _ _) as (s2, outs) eqn:SN. injection C as <- <-.
      apply sendNext_spec in SN. destruct SN as (P2 & W2 & _).
      constructor; intros u I; [apply WT'; congruence|].
      apply PD'. rewrite P'. right. congruence.
    + apply sendNext_spec in C. subst s1. destruct C as (P2 & W2 & _). cbn in P2, W2.
      constructor; intros u I; [apply WT'|apply PD']; congruence.
    + destruct (checkTasksInitialized true s1) as (s2, outs) eqn:CT. injection C as <- <-.
      assert (KK : known s1 = known s2).
      { apply check_spec in CT. destruct CT as (? & ? & _ & _ & _ & _ & _ & K & _). auto. }
      eapply check_origins; [exact CT|eapply knows_eq; [exact KK|exact KN']|].
      constructor; intros u I; [apply WT'; rewrite W; right; congruence|apply PD'; congruence].
    + eapply check_origins; [exact C|eapply knows_eq; [eapply CK; exact C|exact KN']|].
      subst s1. constructor; cbn; auto.
Qed.

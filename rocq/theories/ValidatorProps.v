(** Properties of the validation of automation requests (C20, C21, C22, C46). *)
From Coq Require Import List ZArith Bool Permutation Lia.
From Verif Require Import ZMap ValidatorModel ValidatorSpec ValidatorProofs.
Import ListNotations.
Open Scope list_scope.
Open Scope Z_scope.

(** The messages sent at each step of a history. *)
Definition trace_of (evs : list event) : trace := snd (vrun evs).

(** The messages sent when [e] comes after the history [evs]. *)
Definition reaction (evs : list event) (e : event) : list out := snd (vstep (fst (vrun evs)) e).

Lemma in_released u o : In (OutRequest u) o <-> In u (released_of o).
Proof.
  unfold released_of. rewrite in_flat_map. split.
  - intros I. exists (OutRequest u). cbn. auto.
  - intros (x & I & X). destruct x; cbn in X; intuition congruence.
Qed.

(** A history used in the examples: vehicle 400 is known, task 1 is initialised. *)
Definition ex_req : autoReq := {| ar_entities := [400]; ar_tasks := [1]; ar_region := 0 |}.
Definition ex_known : list event :=
  [EvConfig 400; EvState 400; EvTask 1 NeedNone; EvTask 2 NeedNone; EvInit 1].
Definition ex_wait : autoReq := {| ar_entities := [400]; ar_tasks := [2]; ar_region := 0 |}.

(** *** C20 *)

(** Between the release of a request and the release of another one comes the response to the
    first, or an expiry of the response timer. *)
Theorem C20_one_at_a_time : forall evs t1 e o t2 e' o' t3 r r',
  trace_of evs = t1 ++ (e, o) :: t2 ++ (e', o') :: t3 ->
  In (OutRequest r) o -> In (OutRequest r') o' ->
  (forall x, In x (map fst t2 ++ [e']) -> ~ ends r x) -> r' = r.
Proof.
  intros evs t1 e o t2 e' o' t3 r r' E I I' N.
  destruct (trace_split _ _ _ _ E) as (s & R1 & R2 & O). cbn [fst snd] in *.
  destruct (vstep s e) as (s', o1) eqn:V. cbn [fst snd] in *. subst o1.
  destruct (release_front _ _ _ _ V) as [X|(u & p & X & P)];
    apply in_released in I; rewrite X in I; [destruct I|].
  destruct I as [->|[]].
  assert (E2 : trace_of evs = ((t1 ++ [(e, o)]) ++ t2 ++ [(e', o')]) ++ t3).
  { rewrite E. rewrite <- !app_assoc. reflexivity. }
  assert (exists evs', trace_of evs' = (t1 ++ [(e, o)]) ++ t2 ++ [(e', o')]) as (evs' & E3).
  { assert (E4 : snd (vrun evs) = (t1 ++ (e, o) :: t2) ++ (e', o') :: t3).
    { change (trace_of evs = (t1 ++ (e, o) :: t2) ++ (e', o') :: t3). rewrite E, <- app_assoc. auto. }
    destruct (trace_split _ _ _ _ E4) as (s4 & _ & R4 & _).
    exists (map fst (t1 ++ (e, o) :: t2) ++ [e']). unfold trace_of. cbn [fst] in R4. rewrite R4.
    cbn [snd]. rewrite <- !app_assoc. reflexivity. }
  eapply (front_run (t1 ++ [(e, o)]) s' r p (t2 ++ [(e', o')]) evs' P).
  - rewrite map_app. exact R2.
  - exact E3.
  - intros x q X1. apply N. apply in_app_or in X1. apply in_or_app.
    destruct X1 as [X1|[X1|[]]]; [left; change x with (fst (x, q)); apply in_map; auto|].
    right. injection X1 as -> _. left. auto.
  - apply in_or_app. right. left. reflexivity.
  - auto.
Qed.

(** One step releases at most one request. *)
Theorem C20_single : forall evs e, (length (released_of (reaction evs e)) <= 1)%nat.
Proof.
  intros evs e. unfold reaction. destruct (vstep (fst (vrun evs)) e) as (s', o) eqn:V. cbn [snd].
  destruct (release_front _ _ _ _ V) as [->|(u & p & -> & _)]; cbn; lia.
Qed.

(** Requests are released in the order they came; one may be released several times in a
    row, and a request may be left out. *)
Theorem C20_order : forall evs, exists l,
  subseq l (map fst (requests evs)) /\ stutters (released (trace_of evs)) l.
Proof.
  intros evs. destruct (queued_run evs) as [_ (don & S & R)].
  exists (don ++ firstn 1 (v_pending (fst (vrun evs)))). split; auto.
  eapply subseq_trans; [|exact S]. apply subseq_app; [apply subseq_refl|].
  destruct (v_pending (fst (vrun evs))); cbn; [apply subseq_nil_l|].
  apply sub_take. apply subseq_nil_l.
Qed.

(** As long as no timer expires each request is released at most once, in order. *)
Theorem C20_once : forall evs, existsb timer_event evs = false ->
  subseq (released (trace_of evs)) (map fst (requests evs)).
Proof.
  intros evs N. destruct (undisturbed_run evs N) as [_ (don & S & R)].
  unfold trace_of. rewrite R. eapply subseq_trans; [|exact S].
  apply subseq_app; [apply subseq_refl|].
  destruct (v_pending (fst (vrun evs))); cbn; [apply subseq_nil_l|].
  apply sub_take. apply subseq_nil_l.
Qed.

(** As long as no timer has expired, a released request without response is answered with an
    error when the response timer expires. *)
Theorem C20_guarded : forall evs t1 e o t2 r,
  existsb timer_event evs = false ->
  trace_of evs = t1 ++ (e, o) :: t2 -> In (OutRequest r) o ->
  (forall x, In x (map fst t2) -> ~ ends r x) ->
  exists k c l, reaction evs EvResponseTimer = c :: l /\ replies_of [c] = [k] /\
    match c with
    | OutAuto (Errors i) | OutImpact _ _ (Errors i) | OutTask _ (Errors i) _ =>
        In (ResponseTimedOut (u_id r)) i
    | _ => False
    end.
Proof.
  intros evs t1 e o t2 r N E I NE.
  assert (P : exists p, v_pending (fst (vrun evs)) = r :: p).
  { destruct (trace_split _ _ _ _ E) as (s & R1 & R2 & O). cbn [fst snd] in *.
    destruct (vstep s e) as (s', o1) eqn:V. cbn [fst snd] in *. subst o1.
    destruct (release_front _ _ _ _ V) as [X|(u & p & X & P)];
      apply in_released in I; rewrite X in I; [destruct I|]. destruct I as [->|[]].
    assert (EV : evs = (map fst t1 ++ [e]) ++ map fst t2).
    { rewrite <- (vrun_events evs). change (snd (vrun evs)) with (trace_of evs).
      rewrite E, map_app. cbn. rewrite <- app_assoc. auto. }
    rewrite EV. clear E N EV X V R1.
    assert (G : forall l, (forall x, In x l -> ~ ends r x) ->
              exists p', v_pending (fst (vrun ((map fst t1 ++ [e]) ++ l))) = r :: p').
    { induction l as [|x l IH] using rev_ind; intros NX.
      - rewrite app_nil_r, R2. eauto.
      - rewrite app_assoc, vrun_snoc. cbn [fst].
        destruct IH as (p' & P'); [intros y Y; apply NX; apply in_or_app; auto|].
        destruct (vstep (fst (vrun ((map fst t1 ++ [e]) ++ l))) x) as (s2, o2) eqn:V2. cbn [fst].
        destruct (front_step _ _ _ _ _ _ V2 P') as ((p2 & P2) & _); eauto.
        apply NX. apply in_or_app. right. left. auto. }
    apply G. auto. }
  destruct P as (p & P). destruct (undisturbed_run evs N) as [T _]. rewrite P in T.
  unfold reaction. cbn [vstep]. rewrite T. unfold onResponseTimeout.
  cbn [v_pending set_timers]. rewrite P. cbn zeta.
  destruct (sendNextRequest _ _) as (s4, outs). cbn [snd].
  set (s2 := set_err _ _ _).
  set (rep := sendResponse _ _ _ _).
  assert (X : exists k, replies_of [rep] = [k] /\
     match rep with
     | OutAuto (Errors i) | OutImpact _ _ (Errors i) | OutTask _ (Errors i) _ =>
        In (ResponseTimedOut (u_id r)) i
     | _ => False
     end).
  { subst rep. unfold sendResponse.
    destruct (zget (v_map s2) (v_errId s2)) as [d|]; [destruct (rd_type d)|];
      cbn; eexists; (split; [reflexivity|]); apply in_or_app; right; left; reflexivity. }
  destruct X as (k & X1 & X2). exists k, rep, outs. auto.
Qed.

(** After an expiry of the response timer the next request is released without a timer, so
    that a missing response is never noticed (the timer manager refuses to start a timer
    from within a timer callback). *)
Theorem C20_unguarded_refuted : exists evs t1 e o t2 r,
  trace_of evs = t1 ++ (e, o) :: t2 /\ In (OutRequest r) o /\
  (forall x, In x (map fst t2) -> ~ ends r x) /\ reaction evs EvResponseTimer = [].
Proof.
  set (h := ex_known ++ [EvAuto 10 ex_req; EvAuto 11 ex_req; EvResponseTimer]).
  exists h, (firstn 7 (trace_of h)), EvResponseTimer, (snd (nth 7 (trace_of h) (EvTaskTimer, []))), [].
  exists {| u_id := 11; u_req := ex_req; u_planning := []; u_sandbox := false |}.
  split; [vm_compute; reflexivity|]. split; [vm_compute; auto|]. split; [intros x []|].
  vm_compute. reflexivity.
Qed.

(** In the same situation the request is released again as soon as a further request is
    ready, although all ids are different. *)
Theorem C20_resend_refuted : exists evs,
  NoDup (map (fun x => u_id (fst x)) (requests evs)) /\
  ~ NoDup (map u_id (released (trace_of evs))).
Proof.
  exists (ex_known ++ [EvAuto 10 ex_req; EvAuto 11 ex_req; EvResponseTimer; EvAuto 12 ex_req]).
  split.
  - vm_compute. repeat constructor; cbn; intuition discriminate.
  - vm_compute. intros N. inversion N as [|a l N1 N2]; subst. inversion N2 as [|b k N3 N4]; subst.
    apply N3. left. auto.
Qed.

Example C20_case :
  map u_id (released (trace_of (ex_known ++
     [EvAuto 10 ex_req; EvAuto 11 ex_wait; EvAuto 12 ex_req; EvInit 2; EvResponse 12 7 [];
      EvResponse 10 8 []; EvResponse 11 9 []]))) = [10; 11; 12].
Proof. vm_compute. reflexivity. Qed.

Print Assumptions C20_one_at_a_time.
Print Assumptions C20_single.
Print Assumptions C20_order.
Print Assumptions C20_once.
Print Assumptions C20_guarded.
Print Assumptions C20_unguarded_refuted.
Print Assumptions C20_resend_refuted.

(** *** C21 *)

(** With different request ids and as long as the task timer does not expire, every request
    gets at most one reply and the reply is of the kind of the request: the replies together
    with the kinds of the requests still in the queues are the kinds of all requests. *)
Theorem C21_one_reply_each : forall evs,
  NoDup (map (fun x => u_id (fst x)) (requests evs)) -> ~ In EvTaskTimer evs ->
  exists open, Permutation (replies (trace_of evs) ++ open) (map snd (requests evs)) /\
    length open = length (v_pending (fst (vrun evs)) ++ v_waiting (fst (vrun evs))).
Proof.
  intros evs ND NT. destruct (answering_run evs ND NT) as [(q & Q1 & _ & _ & _ & Q5) _ _].
  exists (map snd q). split; auto. rewrite <- Q1, !map_length. auto.
Qed.

(** A response that has an effect belongs to the request released last. *)
Theorem C21_ignored : forall evs i c f,
  reaction evs (EvResponse i c f) <> [] ->
  exists l u, released (trace_of evs) = l ++ [u] /\ u_id u = i.
Proof.
  intros evs i c f R. unfold reaction in R. cbn [vstep] in R. unfold handleResponse in R.
  destruct (queued_run evs) as [_ (don & _ & S)].
  destruct (v_pending (fst (vrun evs))) as [|u p] eqn:P; [destruct R; auto|].
  destruct (Z.eqb_spec (u_id u) i) as [E|NE]; [|destruct R; auto].
  cbn [firstn] in S. apply stutters_last in S. destruct S as (l & S). exists l, u. auto.
Qed.

(** A response without effect leaves the service as it is. *)
Theorem C21_ignored_same : forall evs i c f,
  reaction evs (EvResponse i c f) = [] ->
  fst (vrun (evs ++ [EvResponse i c f])) = fst (vrun evs).
Proof.
  intros evs i c f R. rewrite vrun_snoc. cbn [fst]. unfold reaction in R. cbn [vstep] in *.
  unfold handleResponse in *. destruct (v_pending (fst (vrun evs))); auto.
  destruct (_ && _); auto.
  destruct (sendNextRequest _ _); discriminate.
Qed.

(** The answer of the planning services is passed on unchanged, once, to a requester of the
    kind of the outstanding request. *)
Theorem C21_passed_on : forall evs i c f,
  reaction evs (EvResponse i c f) <> [] ->
  exists r l, reaction evs (EvResponse i c f) = r :: l /\ replies_of l = [] /\
    match r with
    | OutAuto x | OutImpact _ _ x => x = Plan c
    | OutTask _ x fs => x = Plan c /\ fs = f
    | _ => False
    end.
Proof.
  intros evs i c f R. unfold reaction in *. cbn [vstep] in *. unfold handleResponse in *.
  destruct (v_pending (fst (vrun evs))); [destruct R; auto|].
  destruct (_ && _); [|destruct R; auto].
  destruct (sendNextRequest _ _) as (s2, outs) eqn:N. cbn [snd] in *.
  apply sendNext_spec in N. destruct N as (_ & _ & _ & _ & _ & _ & RP & _).
  eexists _, outs. split; [reflexivity|]. split; auto.
  unfold sendResponse. destruct (zget _ _) as [d|]; [destruct (rd_type d)|]; auto.
Qed.

(** Different ids are needed: a rejected request takes away the reply of an outstanding
    request with the same id. *)
Theorem C21_duplicate_id_refuted : exists evs i c f,
  ~ In EvTaskTimer evs /\
  (exists l u, released (trace_of evs) = l ++ [u] /\ u_id u = i) /\
  replies (trace_of evs) = [KTask i] /\ length (requests evs) = 2%nat /\
  reaction evs (EvResponse i c f) = [].
Proof.
  exists (ex_known ++ [EvTaskReq 10 ex_req [] false;
     EvTaskReq 10 {| ar_entities := [401]; ar_tasks := []; ar_region := 0 |} [] false]), 10, 1, [].
  split; [vm_compute; intuition discriminate|]. split; [|vm_compute; auto].
  exists [], {| u_id := 10; u_req := ex_req; u_planning := []; u_sandbox := false |}.
  vm_compute. auto.
Qed.

Example C21_case :
  let evs := ex_known ++ [EvTaskReq 10 ex_req [] false; EvImpact 11 5 6 ex_req; EvAuto 12 ex_wait;
                          EvResponse 10 7 [400]; EvResponse 11 8 []; EvInit 2; EvResponseTimer] in
  replies (trace_of evs) = [KTask 10; KImpact 5 6; KAuto] /\
  NoDup (map (fun x => u_id (fst x)) (requests evs)) /\ ~ In EvTaskTimer evs.
Proof.
  split; [|split]; vm_compute; [reflexivity| |intuition discriminate].
  repeat constructor; cbn; intuition discriminate.
Qed.

Print Assumptions C21_one_reply_each.
Print Assumptions C21_ignored.
Print Assumptions C21_ignored_same.
Print Assumptions C21_passed_on.
Print Assumptions C21_duplicate_id_refuted.

(** *** C22 *)

(** When the task timer expires exactly the first waiting request leaves the queues, the
    others stay in order, and one error reply naming it is sent.  Missing: that the reply is
    of its kind; see [C22_refuted]. *)
Theorem C22_timeout_partial : forall evs u w,
  v_taskTimer (fst (vrun evs)) = true -> v_waiting (fst (vrun evs)) = u :: w ->
  let s' := fst (vrun (evs ++ [EvTaskTimer])) in
  v_pending s' ++ v_waiting s' = v_pending (fst (vrun evs)) ++ w /\
  exists k c l, reaction evs EvTaskTimer = c :: l /\ replies_of [c] = [k] /\ replies_of l = [] /\
    match c with
    | OutAuto (Errors i) | OutImpact _ _ (Errors i) | OutTask _ (Errors i) _ =>
        In (TasksTimedOut (u_id u)) i
    | _ => False
    end.
Proof.
  intros evs u w T W. cbn zeta. rewrite vrun_snoc. cbn [fst]. unfold reaction. cbn [vstep].
  rewrite T. unfold onTasksReadyTimeout. cbn [v_waiting set_timers]. rewrite W. cbn zeta.
  set (rep := sendResponse _ _ _ _).
  destruct (checkTasksInitialized _ _) as (s4, outs) eqn:C. cbn [fst snd].
  apply check_spec in C. destruct C as (ready & rest & E & _ & _ & P' & W' & _ & _ & RP & _).
  cbn in E, P'. split.
  - rewrite P', W', E, <- app_assoc. auto.
  - assert (X : exists k, replies_of [rep] = [k] /\
     match rep with
     | OutAuto (Errors i) | OutImpact _ _ (Errors i) | OutTask _ (Errors i) _ =>
        In (TasksTimedOut (u_id u)) i
     | _ => False
     end).
    { subst rep. unfold sendResponse.
      destruct (zget _ _) as [d|]; [destruct (rd_type d)|];
        cbn; eexists; (split; [reflexivity|]); apply in_or_app; right; left; reflexivity. }
    destruct X as (k & X1 & X2). exists k, rep, outs. auto.
Qed.

(** The timer is set whenever a request waits and no timer has expired. *)
Theorem C22_guarded_partial : forall evs, existsb timer_event evs = false ->
  v_waiting (fst (vrun evs)) <> [] -> v_taskTimer (fst (vrun evs)) = true.
Proof.
  intros evs. induction evs as [|e evs IH] using rev_ind; [cbn; congruence|].
  rewrite existsb_app. intros N. apply orb_false_elim in N. destruct N as (N & NE). cbn in NE.
  rewrite orb_false_r in NE. specialize (IH N). rewrite vrun_snoc. cbn [fst].
  set (s := fst (vrun evs)) in *. clearbody s.
  assert (CK : forall a b q, checkTasksInitialized false a = (b, q) ->
            v_waiting b <> [] -> v_taskTimer b = true).
  { intros a b q C NW. apply check_spec in C.
    destruct C as (ready & rest & _ & _ & _ & _ & W' & _ & _ & _ & _ & T & _).
    apply T; congruence. }
  assert (QR : forall u d b q, queueRequest s u d = (b, q) -> v_waiting b <> [] ->
            v_taskTimer b = true).
  { intros u d b q. unfold queueRequest, checkRequirements. destruct (_ && _).
    - destruct (checkTasksInitialized _ _) as (s3, o3) eqn:C. intros [= <- _]. eauto.
    - intros [= <- _]. auto. }
  destruct e; cbn [vstep fst]; try discriminate; auto.
  - destruct error; auto.
  - destruct (checkTasksInitialized _ _) as (s3, o3) eqn:C. eauto.
  - unfold handleAuto. destruct (queueRequest _ _ _) as (s3, o3) eqn:C. eauto.
  - unfold handleImpact. destruct (queueRequest _ _ _) as (s3, o3) eqn:C. eauto.
  - unfold handleTaskReq. destruct (queueRequest _ _ _) as (s3, o3) eqn:C. eauto.
  - unfold handleResponse. destruct (v_pending s); auto. destruct (_ && _); auto.
    destruct (sendNextRequest _ _) as (s3, o3) eqn:C. cbn [fst].
    apply sendNext_spec in C. cbn in C. destruct C as (_ & -> & _ & _ & -> & _). auto.
Qed.

(** While request 10 is being planned, request 11 times out: the reply is of the kind of
    request 10 and carries its id, and the plan for request 10 is then ignored. *)
Theorem C22_refuted : exists evs r1 r2,
  NoDup (map (fun x => u_id (fst x)) (requests evs)) /\
  map snd (requests evs) = [KTask r1; KTask r2] /\ r1 <> r2 /\
  map u_id (v_waiting (fst (vrun evs))) = [r2] /\
  replies_of (reaction evs EvTaskTimer) = [KTask r1] /\
  reaction (evs ++ [EvTaskTimer]) (EvResponse r1 1 []) = [].
Proof.
  exists (ex_known ++ [EvTaskReq 10 ex_req [] false; EvTaskReq 11 ex_wait [] false]), 10, 11.
  split; [vm_compute; repeat constructor; cbn; intuition discriminate|].
  vm_compute. repeat split; auto; discriminate.
Qed.

Example C22_case :
  let evs := ex_known ++ [EvAuto 10 ex_wait; EvAuto 11 ex_req] in
  v_taskTimer (fst (vrun evs)) = true /\ map u_id (v_waiting (fst (vrun evs))) = [10; 11].
Proof. vm_compute. auto. Qed.

Print Assumptions C22_timeout_partial.
Print Assumptions C22_guarded_partial.
Print Assumptions C22_refuted.

(** *** C46 *)

(** A request is refused exactly when something it refers to is unknown; the refusal is one
    error reply of its kind and leaves the other requests alone. *)
Theorem C46_refused : forall evs e u k,
  request_of e = Some (u, k) -> ~ complete evs u ->
  reaction evs e =
    [match k with
     | KAuto => OutAuto (Errors [InvalidRequest (u_id u)])
     | KImpact p q => OutImpact p q (Errors [InvalidRequest (u_id u)])
     | KTask r => OutTask r (Errors [InvalidRequest (u_id u)]) []
     end] /\
  v_pending (fst (vrun (evs ++ [e]))) = v_pending (fst (vrun evs)) /\
  v_waiting (fst (vrun (evs ++ [e]))) = v_waiting (fst (vrun evs)).
Proof.
  intros evs e u k R NC. rewrite vrun_snoc. cbn [fst]. unfold reaction.
  pose proof (complete_ok _ _ u (knows_run evs)) as OK.
  destruct (vstep (fst (vrun evs)) e) as (s', o) eqn:V. cbn [fst snd]. apply vstep_qstep in V.
  inversion V as
    [P' W M E T R' O
    |v k' R' OK' P' W M E T RO RP KN OO
    |v k' d R' OK' D C
    |i s1 E P' W M ER T IN C
    |i c f v q E P' U D C
    |v q s1 E TM P' P1 W1 M1 T1 K1 C
    |s1 E P' S1 C
    |v w s1 E TM W P1 W1 M1 T1 K1 E1 C
    |s1 E W S1 C]; try (subst e; discriminate R); try congruence.
  - assert (v = u /\ k' = k) as (-> & ->) by (rewrite R in R'; injection R'; auto). auto.
  - assert (v = u /\ k' = k) as (-> & ->) by (rewrite R in R'; injection R'; auto).
    destruct NC. apply OK. auto.
Qed.

Theorem C46_accepted : forall evs e u k,
  request_of e = Some (u, k) -> complete evs u ->
  replies_of (reaction evs e) = [] /\
  v_pending (fst (vrun (evs ++ [e]))) ++ v_waiting (fst (vrun (evs ++ [e]))) =
  v_pending (fst (vrun evs)) ++ v_waiting (fst (vrun evs)) ++ [u].
Proof.
  intros evs e u k R NC. rewrite vrun_snoc. cbn [fst]. unfold reaction.
  apply (complete_ok _ _ u (knows_run evs)) in NC.
  destruct (vstep (fst (vrun evs)) e) as (s', o) eqn:V. cbn [fst snd]. apply vstep_qstep in V.
  inversion V as
    [P' W M E T R' O
    |v k' R' OK' P' W M E T RO RP KN OO
    |v k' d R' OK' D C
    |i s1 E P' W M ER T IN C
    |i c f v q E P' U D C
    |v q s1 E TM P' P1 W1 M1 T1 K1 C
    |s1 E P' S1 C
    |v w s1 E TM W P1 W1 M1 T1 K1 E1 C
    |s1 E W S1 C]; try (subst e; discriminate R); try congruence.
  - assert (v = u /\ k' = k) as (-> & ->) by (rewrite R in R'; injection R'; auto).
    apply check_spec in C. destruct C as (ready & rest & E & _ & _ & P' & W' & _ & _ & RP & _).
    cbn in E, P'. split; auto. rewrite P', W', E, <- app_assoc. auto.
Qed.

(** Whatever is released to the planning services was complete when it came, and all its
    tasks were initialised at some time between its arrival and its release. *)
Theorem C46_released : forall evs t1 e o t2 u,
  trace_of evs = t1 ++ (e, o) :: t2 -> In (OutRequest u) o ->
  exists a x b c, map fst t1 ++ [e] = a ++ x :: b ++ c /\
    (exists k, request_of x = Some (u, k)) /\ complete a u /\
    forall t, In t (ar_tasks (u_req u)) -> initialised (a ++ x :: b) t.
Proof.
  intros evs t1 e o t2 u E I.
  destruct (trace_split _ _ _ _ E) as (s & R1 & R2 & O). cbn [fst snd] in *.
  destruct (vstep s e) as (s', o1) eqn:V. cbn [fst snd] in *. subst o1.
  destruct (release_front _ _ _ _ V) as [X|(v & p & X & P)];
    apply in_released in I; rewrite X in I; [destruct I|]. destruct I as [->|[]].
  destruct (origins_run (map fst t1 ++ [e])) as [_ OP]. rewrite R2 in OP. cbn [fst] in OP.
  destruct (OP u) as (a & x & b & (A1 & A2 & A3) & (c & d & -> & RD)).
  { rewrite P. left. auto. }
  exists a, x, c, d. auto.
Qed.

(** A request without vehicles is accepted although no vehicle has both a configuration and a
    state (the check compares the configured ids with themselves). *)
Theorem C46_empty_entities_refuted : exists evs u k e,
  request_of e = Some (u, k) /\ ar_entities (u_req u) = [] /\
  ~ (exists i, configured evs i /\ state_known evs i) /\ In (OutRequest u) (reaction evs e).
Proof.
  exists [EvConfig 1; EvState 2],
    {| u_id := 9; u_req := {| ar_entities := []; ar_tasks := []; ar_region := 0 |};
       u_planning := []; u_sandbox := false |}, KAuto,
    (EvAuto 9 {| ar_entities := []; ar_tasks := []; ar_region := 0 |}).
  split; [reflexivity|]. split; [reflexivity|]. split; [|vm_compute; auto].
  intros (i & [C|[C|[]]] & [S|[S|[]]]); congruence.
Qed.

Example C46_case :
  let q := {| ar_entities := [400]; ar_tasks := [2]; ar_region := 5 |} in
  reaction ([EvConfig 400; EvState 400; EvTask 2 (NeedArea 30); EvKeepIn 3;
             EvRegion 5 {| rg_in := [3]; rg_out := [] |}]) (EvTaskReq 10 q [] false)
  = [OutTask 10 (Errors [InvalidRequest 10]) []] /\
  map u_id (released (trace_of [EvConfig 400; EvState 400; EvTask 2 (NeedArea 30); EvKeepIn 3;
             EvRegion 5 {| rg_in := [3]; rg_out := [] |}; EvArea 30; EvTaskReq 10 q [] false;
             EvInit 2])) = [10].
Proof. vm_compute. auto. Qed.

Print Assumptions C46_refused.
Print Assumptions C46_accepted.
Print Assumptions C46_released.
Print Assumptions C46_empty_entities_refuted.

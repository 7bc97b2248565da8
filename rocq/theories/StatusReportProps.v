(** Property C85: the status reports of a vehicle. *)
From Coq Require Import List ZArith Bool Lia.
From Verif Require Import ZMap Run Latest ListSplit TimerModel TimerSpec TimerProofs TimerProps
  StatusReportModel StatusReportSpec.
Import ListNotations.
Open Scope list_scope.
Open Scope Z_scope.

Definition outs (o : list out) : TimerSpec.trace :=
  flat_map (fun x => match x with Call e r => [(e, r)] | _ => [] end) o.

Lemma timers_snoc t e o : timers (t ++ [(e, o)]) = timers t ++ outs o.
Proof. unfold timers. rewrite flat_map_app. cbn [flat_map snd]. now rewrite app_nil_r. Qed.

Lemma timers_app a b : timers (a ++ b) = timers a ++ timers b.
Proof. unfold timers. apply flat_map_app. Qed.

(** The calls of one step, one after the other. *)
Fixpoint follows (m : TimerModel.state) (l : TimerSpec.trace) (m' : TimerModel.state) : Prop :=
  match l with
  | [] => m' = m
  | (e, o) :: l' => snd (tstep m e) = o /\ follows (fst (tstep m e)) l' m'
  end.

Lemma follows_run l m' : forall evs m T, run tstep tinit evs = (m, T) -> follows m l m' ->
  run tstep tinit (evs ++ map fst l) = (m', T ++ l).
Proof.
  induction l as [|(e, o) l IH]; intros evs m T R F.
  - cbn in F. subst m'. now rewrite !app_nil_r.
  - destruct F as (F1 & F2). cbn [map fst]. rewrite (app_assoc evs [e] _ : evs ++ e :: _ = _).
    rewrite (app_assoc T [(e, o)] l : T ++ (e, o) :: l = _). eapply IH; eauto.
    rewrite run_snoc, R. cbn [fst snd]. now rewrite F1.
Qed.

Ltac stepped := match goal with |- context [tstep ?m ?e] => destruct (tstep m e) as (?, ?) eqn:? end.

Lemma step_follows c s e s' o : step c s e = (s', o) -> follows (s_timers s) (outs o) (s_timers s').
Proof.
  assert (K : forall s e s' o, call s e = (s', o) -> follows (s_timers s) (outs o) (s_timers s')).
  { clear. intros s e s' o H. unfold call in H. destruct (tstep (s_timers s) e) as (m, r) eqn:T.
    injection H as <- <-. cbn. now rewrite T. }
  destruct e as [now|m now later|e|]; cbn [step]; intros H.
  - destruct (s_booted s); [injection H as <- <-; reflexivity|]. unfold boot in H.
    destruct (tstep (s_timers s) EvCreate) as (t1, o1) eqn:T1.
    destruct (tstep t1 EvCreate) as (t2, o2) eqn:T2. destruct (tstep t2 EvCreate) as (t3, o3) eqn:T3.
    destruct (tstep t3 _) as (t4, o4) eqn:T4. injection H as <- <-.
    cbn [outs flat_map app follows s_timers]. rewrite T1. cbn [fst snd]. rewrite T2. cbn [fst snd].
    rewrite T3. cbn [fst snd]. rewrite T4. auto.
  - destruct m as [id time tasks|id|id|a v g|]; cbn [receive] in H; try (injection H as <- <-; reflexivity).
    + destruct (_ =? id); [|injection H as <- <-; reflexivity]. unfold call in H.
      cbn [s_timers setReport s_stale_id s_report_id setTimers] in H.
      destruct (tstep (s_timers s) _) as (t1, o1) eqn:T1.
      cbn [s_timers setReport s_stale_id s_report_id setTimers] in H.
      destruct (tstep t1 _) as (t2, o2) eqn:T2.
      assert (Z : forall t3 o3 l, tstep t2 l = (t3, o3) ->
        follows (s_timers s) (outs ([Call (EvSingle (s_stale_id s) (c_stale c) now false) o1] ++
          Call (EvActive (s_report_id s)) o2 :: [Call l o3])) t3).
      { intros t3 o3 l T3. cbn [outs flat_map app follows]. rewrite T1. cbn [fst snd]. rewrite T2.
        cbn [fst snd]. rewrite T3. auto. }
      destruct (tstep t2 _) as (t3, o3) eqn:T3.
      assert (Y : (s', o) = (setTimers (setTimers (setReport s (fresh (s_report s) time tasks)) t1) t2,
                [Call (EvSingle (s_stale_id s) (c_stale c) now false) o1] ++
                [Call (EvActive (s_report_id s)) o2]) \/
              o = [Call (EvSingle (s_stale_id s) (c_stale c) now false) o1] ++
                  Call (EvActive (s_report_id s)) o2 ::
                  [Call (EvPeriodic (s_report_id s) (c_period c) (c_period c) later false) o3] /\
              s_timers s' = t3).
      { destruct o2 as [|[?|[|]|?|?] [|? ?]]; injection H as <- <-; auto. }
      destruct Y as [Y|(-> & ->)]; [injection Y as -> ->|now apply Z].
      cbn [outs flat_map app follows s_timers setTimers]. rewrite T1. cbn [fst snd]. rewrite T2. auto.
    + apply K in H. exact H.
  - unfold elsewhere in H. destruct e; try (now apply K in H).
    + destruct (call s (EvTurn now)) as (s1, o1) eqn:E. apply K in E.
      assert (Y : o = o1 /\ s_timers s' = s_timers s1).
      { destruct o1 as [|[? [|[?|?|?|?] [|? ?]]|?| |] [|? ?]]; injection H as <- <-; auto. }
      destruct Y as (-> & ->). exact E.
    + destruct (s_waiting s); [injection H as <- <-; reflexivity|now apply K in H].
  - unfold body in H. destruct (t_call _); [|injection H as <- <-; reflexivity].
    destruct (negb _); [injection H as <- <-; reflexivity|].
    destruct (_ =? _); [injection H as <- <-; reflexivity|].
    destruct (_ =? _); [injection H as <- <-; reflexivity|].
    destruct (_ =? _); injection H as <- <-; reflexivity.
Qed.

Lemma tie c evs :
  run tstep tinit (map fst (timers (snd (run (step c) (init c) evs)))) =
  (s_timers (fst (run (step c) (init c) evs)), timers (snd (run (step c) (init c) evs))).
Proof.
  apply (run_inv (step c) (init c) (fun _ s t =>
    run tstep tinit (map fst (timers t)) = (s_timers s, timers t))); [reflexivity|].
  clear evs. intros evs e s t s' o I E _. rewrite timers_snoc, map_app.
  eapply follows_run; eauto. eapply step_follows; eauto.
Qed.

Lemma tied c evs : history (map fst (timers (snd (run (step c) (init c) evs)))) =
  timers (snd (run (step c) (init c) evs)).
Proof. unfold history. now rewrite tie. Qed.

(** What a step does to the report. *)
Lemma step_report c s e s' o : step c s e = (s', o) ->
  (s_links s = r_connected (s_report s) -> s_links s' = r_connected (s_report s')) /\
  (forall r, In (Sent r) o -> e = Body /\ o = [Sent r] /\ r = s_report s) /\
  r_vehicle (s_report s') = r_vehicle (s_report s) /\
  s_links s' = match e with
               | Recv (Join i) _ _ => zadd i (s_links s)
               | Recv (Exit i) _ _ => zrem i (s_links s)
               | _ => s_links s
               end /\
  (r_time (s_report s'), r_tasks (s_report s')) =
    match own (c_vehicle c) (e, o) with Some p => p | None => (r_time (s_report s), r_tasks (s_report s)) end /\
  r_state (s_report s') =
    match vital (c_vehicle c) (e, o) with Some p => p | None => r_state (s_report s) end /\
  (r_authorized (s_report s'), r_speed (s_report s'), r_gimbal (s_report s')) =
    match pulse (e, o) with
    | Some p => p
    | None => (r_authorized (s_report s), r_speed (s_report s), r_gimbal (s_report s))
    end.
Proof.
  assert (K : forall s e s' o, call s e = (s', o) ->
    s_report s' = s_report s /\ s_links s' = s_links s /\ exists r, o = [Call e r]).
  { clear. intros s e s' o H. unfold call in H. destruct (tstep (s_timers s) e) as (m, r).
    injection H as <- <-. cbn. eauto. }
  assert (Q : forall s0 e0 s1 o1, s_report s1 = s_report s0 -> s_links s1 = s_links s0 ->
    (forall x, In x o1 -> exists a b, x = Call a b) ->
    match e0 with Recv _ _ _ => False | _ => True end ->
    (s_links s0 = r_connected (s_report s0) -> s_links s1 = r_connected (s_report s1)) /\
    (forall r, In (Sent r) o1 -> e0 = Body /\ o1 = [Sent r] /\ r = s_report s0) /\
    r_vehicle (s_report s1) = r_vehicle (s_report s0) /\
    s_links s1 = match e0 with
                 | Recv (Join i) _ _ => zadd i (s_links s0)
                 | Recv (Exit i) _ _ => zrem i (s_links s0)
                 | _ => s_links s0
                 end /\
    (r_time (s_report s1), r_tasks (s_report s1)) =
      match own (c_vehicle c) (e0, o1) with Some p => p | None => (r_time (s_report s0), r_tasks (s_report s0)) end /\
    r_state (s_report s1) =
      match vital (c_vehicle c) (e0, o1) with Some p => p | None => r_state (s_report s0) end /\
    (r_authorized (s_report s1), r_speed (s_report s1), r_gimbal (s_report s1)) =
      match pulse (e0, o1) with
      | Some p => p
      | None => (r_authorized (s_report s0), r_speed (s_report s0), r_gimbal (s_report s0))
      end).
  { clear. intros s0 e0 s1 o1 R L C N. rewrite R, L. split; auto. split.
    { intros r H. destruct (C _ H) as (? & ? & X). discriminate. }
    split; auto. split; [destruct e0; easy|]. split; [destruct e0; easy|].
    split.
    - destruct e0; try easy; cbn [vital]; destruct o1 as [|y [|? ?]]; try reflexivity; try (destruct y; reflexivity);
        destruct (C y (or_introl eq_refl)) as (? & ? & ->); reflexivity.
    - destruct e0; try easy; cbn [pulse]; destruct o1 as [|y [|? ?]]; try reflexivity; try (destruct y; reflexivity);
        destruct (C y (or_introl eq_refl)) as (? & ? & ->); reflexivity. }
  destruct e as [now|m now later|e|]; cbn [step]; intros H.
  - destruct (s_booted s).
    { injection H as <- <-. apply Q; auto. intros ? []. }
    unfold boot in H. destruct (tstep (s_timers s) EvCreate) as (t1, o1).
    destruct (tstep t1 EvCreate) as (t2, o2). destruct (tstep t2 EvCreate) as (t3, o3).
    destruct (tstep t3 _) as (t4, o4). injection H as <- <-. apply Q; auto.
    cbn. intros x [<-|[<-|[<-|[<-|[]]]]]; eauto.
  - destruct m as [id time tasks|id|id|a v g|]; cbn [receive] in H.
    + cbn [own vital pulse fst]. rewrite (Z.eqb_sym id). destruct (_ =? id).
      2: { injection H as <- <-. split; [now auto|]; split; [intros ? []|]; repeat split; auto. }
      destruct (call _ _) as (s1, o1) eqn:C1. apply K in C1. destruct C1 as (A1 & B1 & q1 & ->).
      destruct (tstep (s_timers s1) _) as (t2, o2).
      assert (Y : exists s2, s_report s2 = s_report s1 /\ s_links s2 = s_links s1 /\ s' = s2 /\
                  forall x, In x o -> exists a b, x = Call a b).
      { destruct (call (setTimers s1 t2) _) as (s3, o3) eqn:C3. apply K in C3.
        destruct C3 as (A3 & B3 & q3 & ->).
        destruct o2 as [|[?|[|]|?|?] [|? ?]]; injection H as <- <-;
          first [exists s3; split; [exact A3|]; split; [exact B3|]; split; [reflexivity|];
                 cbn; intros x [<-|[<-|[<-|[]]]]; eauto
                |exists (setTimers s1 t2); split; [reflexivity|]; split; [reflexivity|]; split; [reflexivity|];
                 cbn; intros x [<-|[<-|[]]]; eauto]. }
      destruct Y as (s2 & R2 & L2 & -> & C). rewrite R2, L2, A1, B1. cbn.
      split; [now auto|]. split; [|repeat split; auto].
      { intros r X. destruct (C _ X) as (? & ? & W). discriminate. }
      destruct o as [|y [|? ?]]; auto; [|now destruct y].
      destruct (C y (or_introl eq_refl)) as (? & ? & ->). reflexivity.
    + injection H as <- <-. cbn. split; [now auto|]; split; [intros ? []|]; repeat split; auto.
    + injection H as <- <-. cbn. split; [now auto|]; split; [intros ? []|]; repeat split; auto.
    + apply K in H. destruct H as (A1 & B1 & q1 & ->). rewrite A1, B1. cbn.
      split; [now auto|]. split; [|repeat split; auto]. intros r [X|[]]. discriminate.
    + injection H as <- <-. split; [now auto|]; split; [intros ? []|]; repeat split; auto.
  - unfold elsewhere in H.
    assert (P : forall e s' o, call s e = (s', o) -> s_report s' = s_report s /\ s_links s' = s_links s /\
                (forall x, In x o -> exists a b, x = Call a b)).
    { intros e0 s0 o0 X. apply K in X. destruct X as (A & B & r & ->). split; auto. split; auto.
      intros x [<-|[]]. eauto. }
    destruct e; try (apply P in H; destruct H as (A & B & D); now apply Q).
    + destruct (call s (EvTurn now)) as (s1, o1) eqn:E. apply P in E. destruct E as (A & B & D).
      assert (Y : o = o1 /\ s_report s' = s_report s1 /\ s_links s' = s_links s1).
      { destruct o1 as [|[? [|[?|?|?|?] [|? ?]]|?| |] [|? ?]]; injection H as <- <-; auto. }
      destruct Y as (-> & Y1 & Y2). apply Q; auto; congruence.
    + destruct (s_waiting s).
      * injection H as <- <-. apply Q; auto. intros ? [].
      * apply P in H; destruct H as (A & B & D); now apply Q.
  - unfold body in H.
    assert (N : (s', o) = (s, []) -> s_report s' = s_report s /\ s_links s' = s_links s /\ o = []).
    { intros X. injection X as -> ->. auto. }
    assert (N' : (s', o) = (s, []) -> (s_links s = r_connected (s_report s) -> s_links s' = r_connected (s_report s')) /\
      (forall r, In (Sent r) o -> Body = Body /\ o = [Sent r] /\ r = s_report s) /\
      r_vehicle (s_report s') = r_vehicle (s_report s) /\ s_links s' = s_links s /\
      (r_time (s_report s'), r_tasks (s_report s')) = (r_time (s_report s), r_tasks (s_report s)) /\
      r_state (s_report s') = match vital (c_vehicle c) (Body, o) with Some p => p | None => r_state (s_report s) end /\
      (r_authorized (s_report s'), r_speed (s_report s'), r_gimbal (s_report s')) =
        match pulse (Body, o) with Some p => p | None => (r_authorized (s_report s), r_speed (s_report s), r_gimbal (s_report s)) end).
    { intros X. injection X as -> ->. cbn. split; [now auto|]; split; [intros ? []|]; repeat split; auto. }
    cbn [own fst].
    destruct (t_call _); [|apply N'; congruence].
    destruct (negb _); [apply N'; congruence|].
    destruct (_ =? _).
    { injection H as <- <-. cbn. split; [now auto|]; split; [intros r0 [X|[]]; injection X as <-; auto|]; repeat split; auto. }
    destruct (_ =? _).
    { injection H as <- <-. cbn. split; [now auto|]; split; [intros r0 [X|[]]; discriminate X|]; repeat split; auto. }
    destruct (_ =? _).
    { injection H as <- <-. cbn. split; [now auto|]; split; [intros r0 [X|[]]; discriminate X|]; repeat split; auto. }
    apply N'. congruence.
Qed.

Section Service.
Context (c : config).

Notation trace_of evs := (snd (run (step c) (init c) evs)).

Record told (s : state) (t : trace) : Prop := {
  d_links : s_links s = r_connected (s_report s);
  d_nodup : NoDup (s_links s);
  d_vehicle : r_vehicle (s_report s) = c_vehicle c;
  d_linked : forall x, In x (s_links s) <-> latest (linked x) t true;
  d_own : (r_time (s_report s), r_tasks (s_report s)) =
    match follow (own (c_vehicle c)) t with Some p => p | None => (0, []) end;
  d_vital : r_state (s_report s) =
    match follow (vital (c_vehicle c)) t with Some p => p | None => false end;
  d_pulse : (r_authorized (s_report s), r_speed (s_report s), r_gimbal (s_report s)) =
    match follow pulse t with Some p => p | None => (false, false, false) end }.

Lemma told_run evs : told (fst (run (step c) (init c) evs)) (trace_of evs).
Proof.
  apply (run_inv (step c) (init c) (fun _ s t => told s t)).
  { split; cbn; auto; [constructor|]. intros x. split; [easy|]. intros H. now apply latest_nil in H. }
  clear evs. intros evs e s t s' o I E _. apply step_report in E.
  destruct E as (A1 & _ & A3 & A4 & A5 & A6 & A7). split.
  - apply A1. apply I.
  - rewrite A4. pose proof (d_nodup _ _ I) as N. destruct e as [| [| | | |] | |]; auto.
    + now apply NoDup_zadd.
    + now apply NoDup_zrem.
  - rewrite A3. apply I.
  - intros x. rewrite A4, latest_snoc. pose proof (d_linked _ _ I x) as L.
    destruct e as [now|m now later|e|]; cbn [linked fst]; try (intuition discriminate).
    destruct m as [i ti ts|i|i|a v g|]; cbn [linked fst]; try (intuition discriminate).
    + rewrite In_zadd. destruct (Z.eqb_spec i x); intuition (try congruence).
    + rewrite In_zrem. destruct (Z.eqb_spec i x); intuition (try congruence).
  - rewrite A5, follow_snoc. destruct (own _ _); auto. apply I.
  - rewrite A6, follow_snoc. destruct (vital _ _); auto. apply I.
  - rewrite A7, follow_snoc. destruct (pulse _); auto. apply I.
Qed.

(** A report names the vehicle, exactly the entities that joined and have not left since, the time
    and the tasks of the last state of the vehicle, that there is a state if the last one has not
    been found outdated since, and what the last keep-alive allowed unless it expired since.
    Before the first of each, nothing is allowed or known. *)
Theorem C85_report evs a e o b r :
  trace_of evs = a ++ (e, o) :: b -> In (Sent r) o ->
  e = Body /\ o = [Sent r] /\
  r_vehicle r = c_vehicle c /\
  NoDup (r_connected r) /\ (forall x, In x (r_connected r) <-> latest (linked x) a true) /\
  (forall time tasks, latest (own (c_vehicle c)) a (time, tasks) -> r_time r = time /\ r_tasks r = tasks) /\
  (unsaid (own (c_vehicle c)) a -> r_time r = 0 /\ r_tasks r = []) /\
  (r_state r = true <-> latest (vital (c_vehicle c)) a true) /\
  (forall p, latest pulse a p -> (r_authorized r, r_speed r, r_gimbal r) = p) /\
  (unsaid pulse a -> (r_authorized r, r_speed r, r_gimbal r) = (false, false, false)).
Proof.
  intros H S. apply run_split in H. destruct H as (s & R & _ & O). cbn [fst snd] in *.
  destruct (step c s e) as (s', o') eqn:E. cbn [snd] in O. subst o'.
  apply step_report in E. destruct E as (_ & A & _). destruct (A _ S) as (-> & -> & ->).
  pose proof (told_run (map fst a)) as T. rewrite R in T. cbn [fst snd] in T.
  split; auto. split; auto. split; [apply T|]. rewrite <- (d_links _ _ T). split; [apply T|].
  split; [apply T|]. pose proof (d_own _ _ T) as O. pose proof (d_vital _ _ T) as V. pose proof (d_pulse _ _ T) as P.
  split.
  { intros ti ts L. apply follow_latest in L. rewrite L in O. injection O as -> ->. auto. }
  split.
  { intros U. apply follow_unsaid in U. rewrite U in O. injection O as -> ->. auto. }
  split.
  { rewrite <- follow_latest, V. destruct (follow (vital (c_vehicle c)) a) as [[|]|]; split; congruence. }
  split.
  - intros p L. apply follow_latest in L. now rewrite L in P.
  - intros U. apply follow_unsaid in U. now rewrite U in P.
Qed.

Context (Pos : 0 < c_period c).

(** The calls of the timer manager when the service boots. *)
Definition boot_calls (n now : Z) : list out :=
  [Call EvCreate [OutId n]; Call EvCreate [OutId (n + 1)]; Call EvCreate [OutId (n + 2)];
   Call (EvPeriodic n (c_period c) (c_period c) now false) [OutBool true]].

Lemma boot_shape s now s' o : t_ub (s_timers s) = false -> boot c s now = (s', o) ->
  let n := t_next (s_timers s) in
  o = boot_calls n now /\ s_report_id s' = n /\ s_keep_id s' = n + 1 /\ s_stale_id s' = n + 2 /\
  s_booted s' = true /\ s_waiting s' = s_waiting s /\ t_call (s_timers s') = t_call (s_timers s).
Proof.
  intros U H n. unfold boot in H.
  assert (C : forall m, t_ub m = false -> tstep m EvCreate = createTimer m) by (intros m E; unfold tstep; now rewrite E).
  rewrite (C (s_timers s) U) in H. unfold createTimer at 1 in H. cbv beta iota in H.
  match type of H with context [tstep ?m EvCreate] => rewrite (C m U) in H end. unfold createTimer at 1 in H. cbv beta iota in H.
  match type of H with context [tstep ?m EvCreate] => rewrite (C m U) in H end. unfold createTimer at 1 in H. cbv beta iota in H.
  cbn [t_timers t_next t_queue t_call t_ub idOf] in H. fold n in H. unfold tstep in H. cbn [t_ub] in H. rewrite U in H.
  rewrite (proj2 (Z.ltb_lt 0 _) Pos) in H. unfold startTimer in H. cbn [t_next t_timers] in H.
  rewrite (proj2 (Z.ltb_ge (n + 1 + 1 + 1 - 1) n)) in H by lia.
  rewrite zget_set in H. rewrite (proj2 (Z.eqb_neq n (n + 1 + 1))) in H by lia.
  rewrite zget_set in H. rewrite (proj2 (Z.eqb_neq n (n + 1))) in H by lia.
  rewrite zget_set in H. rewrite Z.eqb_refl in H. injection H as <- <-. cbn.
  unfold boot_calls. replace (n + 1 + 1) with (n + 2) by lia. auto 10.
Qed.

(** The parts of the state that only booting and the callbacks change. *)
Definition same (s s' : state) : Prop :=
  s_report_id s' = s_report_id s /\ s_keep_id s' = s_keep_id s /\ s_stale_id s' = s_stale_id s /\
  s_booted s' = s_booted s.

Lemma call_same s e s' o : call s e = (s', o) ->
  same s s' /\ s_waiting s' = s_waiting s /\ s_timers s' = fst (tstep (s_timers s) e) /\
  o = [Call e (snd (tstep (s_timers s) e))].
Proof.
  unfold call, same. destruct (tstep _ e) as (m, r). intros H. injection H as <- <-. cbn. auto 10.
Qed.

Definition kept (s s' : state) : Prop := same s s' /\ s_waiting s' = s_waiting s.

Lemma step_shape s e s' o : step c s e = (s', o) ->
  match e with
  | Boot now => (s_booted s = true /\ s' = s /\ o = []) \/ (s_booted s = false /\ boot c s now = (s', o))
  | Recv (State id _ _) now later =>
      kept s s' /\
      if id =? c_vehicle c then
        exists r1 r2, let one := Call (EvSingle (s_stale_id s) (c_stale c) now false) r1 in
                      let two := Call (EvActive (s_report_id s)) r2 in
        (r2 = [OutBool true] /\ o = [one; two]) \/
        (r2 <> [OutBool true] /\ exists r3,
           o = [one; two; Call (EvPeriodic (s_report_id s) (c_period c) (c_period c) later false) r3])
      else o = []
  | Recv (KeepAlive _ _ _) now later =>
      kept s s' /\ exists r, o = [Call (EvSingle (s_keep_id s) (c_expiry c) now false) r]
  | Recv _ _ _ => kept s s' /\ o = []
  | Timer EvDone =>
      (s_waiting s = true /\ s' = s /\ o = []) \/
      (s_waiting s = false /\ kept s s' /\ exists r, o = [Call EvDone r])
  | Timer (EvTurn now) => same s s' /\ exists r, o = [Call (EvTurn now) r] /\
      s_waiting s' = match r with [OutCall i] => mine s i | _ => s_waiting s end
  | Timer e => kept s s' /\ exists r, o = [Call e r]
  | Body => same s s' /\ s_timers s' = s_timers s /\
      ((s' = s /\ o = [] /\ (s_waiting s = true -> forall i, t_call (s_timers s) = Some i -> mine s i = false)) \/
       exists i, s_waiting s = true /\ s_waiting s' = false /\ t_call (s_timers s) = Some i /\
         (i = s_report_id s /\ (exists r, o = [Sent r]) \/
          i <> s_report_id s /\ i = s_keep_id s /\ o = [Expired] \/
          i <> s_report_id s /\ i <> s_keep_id s /\ i = s_stale_id s /\ o = [Outdated]))
  end.
Proof.
  assert (S0 : forall s, same s s) by (unfold same; auto).
  assert (K0 : forall s, kept s s) by (unfold kept; auto).
  intros H. destruct e as [now|m now later|e|]; cbn [step] in H.
  - destruct (s_booted s); [injection H as <- <-|]; auto.
  - destruct m as [id time tasks|id|id|a v g|]; cbn [receive] in H; try (injection H as <- <-; split; [split; [split|]|]; auto).
    + rewrite (Z.eqb_sym id). destruct (_ =? id); [|injection H as <- <-; auto].
      destruct (call _ _) as (s1, o1) eqn:C1. apply call_same in C1.
      destruct C1 as (A1 & A2 & _ & ->).
      destruct (tstep (s_timers s1) _) as (t2, o2) eqn:T2.
      destruct (call (setTimers s1 t2) _) as (s3, o3) eqn:C3. apply call_same in C3.
      destruct C3 as (B1 & B2 & _ & ->).
      assert (W : o2 = [OutBool true] \/ o2 <> [OutBool true]).
      { destruct o2 as [|[?|[|]|?|?] [|? ?]]; auto; right; discriminate. }
      assert (X1 : kept s s1) by (split; [exact A1|exact A2]).
      assert (X3 : kept s s3).
      { split; [|rewrite B2; exact A2]. unfold same in *. cbn in A1, B1.
        destruct A1 as (-> & -> & -> & ->) in B1. exact B1. }
      destruct W as [->|W].
      * injection H as <- <-. split; [exact X1|]. eexists _, [OutBool true]. left. split; [reflexivity|]. reflexivity.
      * assert (Y : (s', o) = (s3, [Call (EvSingle (s_stale_id s) (c_stale c) now false)
            (snd (tstep (s_timers (setReport s (fresh (s_report s) time tasks))) (EvSingle (s_stale_id s) (c_stale c) now false)));
            Call (EvActive (s_report_id s)) o2; Call (EvPeriodic (s_report_id s) (c_period c) (c_period c) later false)
            (snd (tstep t2 (EvPeriodic (s_report_id s) (c_period c) (c_period c) later false)))])).
        { destruct o2 as [|[?|[|]|?|?] [|? ?]]; try (symmetry; exact H). now destruct W. }
        injection Y as -> ->. split; [exact X3|]. eexists _, o2. right. split; [exact W|]. eexists. reflexivity.
    + apply call_same in H. destruct H as (A & B & _ & ->). split; [split; [exact A|exact B]|]. eexists. reflexivity.
  - unfold elsewhere in H.
    assert (P : forall e, call s e = (s', o) -> kept s s' /\ exists r, o = [Call e r]).
    { intros e0 X. apply call_same in X. destruct X as (A & B & _ & ->). split; [split; auto|eauto]. }
    destruct e; auto.
    + destruct (call s (EvTurn now)) as (s1, o1) eqn:E. apply call_same in E. destruct E as (A & B & _ & ->).
      set (r := snd (tstep (s_timers s) (EvTurn now))) in *. clearbody r.
      destruct r as [|[?|?|?|i] [|? ?]]; injection H as <- <-; (split; [exact A|]; eexists; split; [reflexivity|]); auto.
    + destruct (s_waiting s) eqn:W; [injection H as <- <-; auto|right]. apply P in H. split; auto.
  - unfold body in H. destruct (t_call (s_timers s)) as [i|] eqn:TC.
    2: { injection H as <- <-. split; auto. split; auto. left. split; auto. split; auto. discriminate. }
    destruct (s_waiting s) eqn:W; cbn [negb] in H.
    2: { injection H as <- <-. split; auto. split; auto. left. split; auto. split; auto. discriminate. }
    destruct (Z.eqb_spec i (s_report_id s)) as [E1|E1].
    { injection H as <- <-. split; [unfold same; cbn; auto|]. split; auto. right. exists i. cbn. eauto 10. }
    destruct (Z.eqb_spec i (s_keep_id s)) as [E2|E2].
    { injection H as <- <-. split; [unfold same; cbn; auto|]. split; auto. right. exists i. cbn. auto 10. }
    destruct (Z.eqb_spec i (s_stale_id s)) as [E3|E3].
    { injection H as <- <-. split; [unfold same; cbn; auto|]. split; auto. right. exists i. cbn. auto 10. }
    injection H as <- <-. split; auto. split; auto. left. split; auto. split; auto.
    intros _ j X. injection X as <-. unfold mine.
    now rewrite (proj2 (Z.eqb_neq _ _) E1), (proj2 (Z.eqb_neq _ _) E2), (proj2 (Z.eqb_neq _ _) E3), andb_false_r.
Qed.

Notation state_of evs := (fst (run (step c) (init c) evs)).

Lemma base evs : disciplined (timers (trace_of evs)) ->
  inv (s_timers (state_of evs)) (timers (trace_of evs)) /\
  t_call (s_timers (state_of evs)) = calling (timers (trace_of evs)).
Proof.
  intros D. rewrite <- (tied c evs) in D. apply inv_run in D. rewrite tie, tied in D. exact D.
Qed.

(** Whether and how the service was booted. *)
Definition life (s : state) (t : trace) : Prop :=
  (s_booted s = false /\ s_report_id s = 0 /\ s_keep_id s = 0 /\ s_stale_id s = 0 /\
   forall now o, ~ In (Boot now, o) t) \/
  (s_booted s = true /\ exists a now b n, t = a ++ (Boot now, boot_calls n now) :: b /\ 1 <= n /\
   s_report_id s = n /\ s_keep_id s = n + 1 /\ s_stale_id s = n + 2 /\
   (forall now' o, ~ In (Boot now', o) a) /\ (forall now' o, In (Boot now', o) b -> o = [])).

Lemma next_mono m e : t_next m <= t_next (fst (tstep m e)).
Proof.
  assert (St : forall m i b, t_next (fst (stopTimer m i b)) = t_next m).
  { clear. intros m i b. unfold stopTimer. destruct (_ <? i); auto. destruct (zget _ i); auto.
    destruct (x_exec _); auto. destruct b; auto. cbn. destruct (t_call m); auto. destruct (_ =? _); auto. }
  assert (Ss : forall m i d p n w, t_next (fst (startTimer m i d p n w)) = t_next m).
  { clear. intros m i d p n w. unfold startTimer. destruct (_ <? i); auto. destruct (zget _ i); auto.
    destruct w; auto. }
  unfold tstep. destruct (t_ub m); [cbn; lia|].
  destruct e as [|i d n w|i d p n w|i|i|i|ids tm|n|]; cbn [fst].
  - cbn. lia.
  - rewrite Ss. lia.
  - destruct (0 <? p); [rewrite Ss|]; cbn; lia.
  - lia.
  - specialize (St m i false). destruct (stopTimer m i false). cbn in *. lia.
  - specialize (St m i true). destruct (stopTimer m i true). cbn in *. lia.
  - unfold destroyTimers.
    assert (F : forall l m0 k, t_next (fst (fold_left (fun st id => let (s1, ok) := stopTimer (fst st) id true in
                                 (s1, if ok then snd st + 1 else snd st)) l (m0, k))) = t_next m0).
    { clear - St. induction l as [|x l IH]; intros m0 k; cbn [fold_left]; auto. cbn [fst snd].
      specialize (St m0 x true). destruct (stopTimer m0 x true) as (m1, ok). rewrite IH. exact St. }
    specialize (F ids m 0). destruct (fold_left _ ids (m, 0)) as (m1, k). cbn [fst] in *.
    destruct (_ && _); cbn; lia.
  - unfold turn. destruct (t_call m); [cbn; lia|]. destruct (t_queue m) as [|i q]; [cbn; lia|].
    destruct (zget _ i) as [x|]; [|cbn; lia]. destruct (_ <=? n); cbn; lia.
  - unfold done. destruct (t_call m); [|cbn; lia]. destruct (zget _ z) as [x|]; [|cbn; lia].
    cbv zeta. destruct (x_doomed x); [destruct (zin _ _); cbn; lia|].
    destruct (x_off x); [cbn; lia|]. destruct (0 <? _); [|cbn; lia].
    destruct (zin _ _); cbn; lia.
Qed.

Lemma next_pos evs : 1 <= t_next (fst (run tstep tinit evs)).
Proof.
  induction evs as [|e evs IH] using rev_ind; [cbn; lia|].
  rewrite run_snoc. cbn [fst]. pose proof (next_mono (fst (run tstep tinit evs)) e). lia.
Qed.

Lemma life_run evs : disciplined (timers (trace_of evs)) -> life (state_of evs) (trace_of evs).
Proof.
  apply (run_inv (step c) (init c) (fun _ s t => disciplined (timers t) -> life s t)).
  { intros _. left. cbn. auto 10. }
  clear evs. intros evs e s t s' o I E R D. rewrite timers_snoc in D. apply disciplined_prefix in D.
  specialize (I D). pose proof (base evs) as B. pose proof (tie c evs) as T. rewrite R in B, T. cbn [fst snd] in B, T.
  destruct (B D) as (V & _). pose proof (next_pos (map fst (timers t))) as NP. rewrite T in NP. cbn [fst] in NP.
  assert (Q : same s s' -> (match e with Boot _ => o = [] /\ s_booted s = true | _ => True end) -> life s' (t ++ [(e, o)])).
  { clear - I. intros (S1 & S2 & S3 & S4) X. unfold life. rewrite S1, S2, S3, S4.
    destruct I as [(A1 & A2 & A3 & A4 & A5)|(A1 & a & now & b & n & -> & A2 & A3 & A4 & A5 & A6 & A7)].
    - left. repeat (split; auto). intros now o0 H. apply in_app_or in H. destruct H as [H|[H|[]]]; [now apply A5 in H|].
      injection H as -> ->. destruct X as (_ & X). congruence.
    - right. split; auto. exists a, now, (b ++ [(e, o)]), n. rewrite <- app_assoc.
      repeat (split; auto). intros now' o' H. apply in_app_or in H. destruct H as [H|[H|[]]]; eauto.
      injection H as -> ->. apply X. }
  pose proof (step_shape _ _ _ _ E) as Sh.
  destruct e as [now|m now later|e|].
  - destruct Sh as [(Sb & -> & ->)|(Sb & Bo)]; [apply Q; unfold same; auto|].
    apply boot_shape in Bo; [|apply V]. destruct Bo as (-> & E1 & E2 & E3 & E4 & _).
    destruct I as [(A1 & A2 & A3 & A4 & A5)|(A1 & _)]; [|congruence]. right. split; auto.
    exists t, now, [], (t_next (s_timers s)). repeat (split; auto). intros ? ? [].
  - destruct m; apply Q; auto; apply Sh.
  - destruct e; try (apply Q; auto; apply Sh).
    destruct Sh as [(_ & -> & ->)|(_ & (Sh & _) & _)]; apply Q; auto. unfold same. auto.
  - apply Q; auto. apply Sh.
Qed.

(** Only timers that exist are called back. *)
Lemma called_known evs i : disciplined (history evs) -> In (OutCall i) (flat_map snd (history evs)) ->
  i < t_next (fst (run tstep tinit evs)).
Proof.
  unfold history. induction evs as [|e evs IH] using rev_ind; [intros _ []|].
  pose proof (run_snoc tstep tinit evs e) as RS. rewrite RS. cbn [fst snd]. intros D H.
  apply disciplined_prefix in D. pose proof (next_mono (fst (run tstep tinit evs)) e) as M.
  rewrite flat_map_app in H. apply in_app_or in H. destruct H as [H|H]; [apply IH in H; auto; lia|].
  destruct (inv_run _ D) as (I & _). unfold history in I. cbn [flat_map snd] in H. rewrite app_nil_r in H.
  destruct (tstep (fst (run tstep tinit evs)) e) as (m', o) eqn:E. cbn [fst snd] in *.
  pose proof (TimerDue.shape _ _ _ _ _ I E) as Sh.
  destruct e as [|i0 d n w|i0 d p n w|i0|i0|i0|ids tm|n|]; cbn in Sh.
  - subst o. destruct H as [H|[]]. discriminate.
  - destruct Sh as [->|(-> & _)]; destruct H as [H|[]]; discriminate.
  - destruct Sh as [->|(-> & _)]; destruct H as [H|[]]; discriminate.
  - destruct Sh as (? & ->). destruct H as [H|[]]; discriminate.
  - destruct Sh as (? & ->). destruct H as [H|[]]; discriminate.
  - destruct Sh as (? & ->). destruct H as [H|[]]; discriminate.
  - destruct Sh as (? & ->). destruct H as [H|[]]; discriminate.
  - destruct Sh as [->|(j & d & per & -> & _ & W & _)]; [easy|]. destruct H as [H|[]]. injection H as ->.
    destruct (v_known _ _ I _ _ _ W) as (x & G & _). apply (v_range _ _ I) in G. lia.
  - subst o. easy.
Qed.

(** A call of the timer manager in a step, with the history before it. *)
Lemma step_calls evs e o b : disciplined (timers (trace_of evs)) ->
  trace_of evs = b ++ [(e, o)] -> forall x te r y, outs o = x ++ (te, r) :: y ->
  forall i, In (OutCall i) r -> exists now, te = EvTurn now /\ r = [OutCall i] /\ calling (timers b ++ x) = None.
Proof.
  intros D H x te r y O i Oi. rewrite <- (tied c evs) in D. pose proof (tied c evs) as T.
  assert (X : timers (trace_of evs) = (timers b ++ x) ++ (te, r) :: y)
    by (rewrite H, timers_snoc, O, <- app_assoc; reflexivity).
  pose proof (eq_trans T X) as T'.
  destruct (C31_turns _ _ _ _ _ _ D T' Oi) as (now & ->). exists now. split; auto.
  destruct (C31_fires _ _ _ _ _ _ D T' Oi) as (CN & _). split; auto.
  destruct (history_split _ _ _ _ _ D T') as (s & s' & _ & _ & I & C & L & E & _).
  pose proof (TimerDue.shape _ _ _ _ _ I E) as Sh. cbn in Sh.
  destruct Sh as [->|(j & d & per & -> & _)]; [easy|]. destruct Oi as [Oi|[]]. congruence.
Qed.

Lemma calling_same l : forall T, (forall te r, In (te, r) l -> te <> EvDone /\ forall i, r <> [OutCall i]) ->
  calling (T ++ l) = calling T.
Proof.
  induction l as [|(te, r) l IH] using rev_ind; intros T H; [now rewrite app_nil_r|].
  rewrite app_assoc, calling_snoc. rewrite IH.
  - destruct (H te r) as (H1 & H2); [apply in_or_app; right; now left|].
    destruct r as [|[?|?|?|i] [|? ?]]; try (destruct te; congruence). now destruct (H2 i).
  - intros te' r' I. apply H. apply in_or_app. now left.
Qed.

(** The callback of a timer of the service does its work. *)
Definition marks (s : state) (i : Z) (o : list out) : Prop :=
  (i = s_report_id s /\ exists r, o = [Sent r]) \/ (i = s_keep_id s /\ o = [Expired]) \/
  (i = s_stale_id s /\ o = [Outdated]).

Definition bland (o : list out) : Prop := forall x, In x o -> exists te r, x = Call te r /\ forall i, r <> [OutCall i].

Lemma step_calling evs e s t s' o : run (step c) (init c) evs = (s, t) -> step c s e = (s', o) ->
  disciplined (timers (t ++ [(e, o)])) ->
  (exists now i, e = Timer (EvTurn now) /\ o = [Call (EvTurn now) [OutCall i]] /\
     calling (timers t) = None /\ calling (timers (t ++ [(e, o)])) = Some i /\ s_waiting s' = mine s i) \/
  (e = Timer EvDone /\ s_waiting s = false /\ s_waiting s' = false /\
     calling (timers (t ++ [(e, o)])) = None /\ bland o) \/
  (exists i, e = Body /\ calling (timers t) = Some i /\ calling (timers (t ++ [(e, o)])) = Some i /\
     s_waiting s = true /\ s_waiting s' = false /\ marks s i o) \/
  (calling (timers (t ++ [(e, o)])) = calling (timers t) /\ s_waiting s' = s_waiting s /\ bland o /\
     (e = Body -> o = [] /\ (s_waiting s = true -> forall i, calling (timers t) = Some i -> mine s i = false))).
Proof.
  intros R E D.
  assert (R' : trace_of (evs ++ [e]) = t ++ [(e, o)]) by (rewrite run_snoc, R; cbn [fst snd]; now rewrite E).
  assert (B : forall te r, In (Call te r) o -> (forall now, te <> EvTurn now) -> forall i, r <> [OutCall i]).
  { intros te r I N i ->. assert (X : In (te, [OutCall i]) (outs o)).
    { unfold outs. apply in_flat_map. exists (Call te [OutCall i]). split; auto. now left. }
    apply in_split in X. destruct X as (l1 & l2 & X).
    rewrite <- R' in D. destruct (step_calls _ _ _ _ D R' _ _ _ _ X i (or_introl eq_refl)) as (now & Y & _).
    now apply (N now). }
  assert (Q : kept s s' -> (forall x, In x o -> exists te r, x = Call te r /\ te <> EvDone /\ forall now, te <> EvTurn now) ->
              e <> Body ->
    calling (timers (t ++ [(e, o)])) = calling (timers t) /\ s_waiting s' = s_waiting s /\ bland o /\
    (e = Body -> o = [] /\ (s_waiting s = true -> forall i, calling (timers t) = Some i -> mine s i = false))).
  { intros (_ & K) C NB. split; [|split; [exact K|split; [|congruence]]].
    - rewrite timers_snoc. apply calling_same. intros te r I. unfold outs in I. apply in_flat_map in I.
      destruct I as (x & I1 & I2). destruct (C _ I1) as (te' & r' & -> & N1 & N2). destruct I2 as [I2|[]].
      injection I2 as -> ->. split; auto. apply (B _ _ I1 N2).
    - intros x I. destruct (C _ I) as (te & r & -> & N1 & N2). exists te, r. split; auto. apply (B _ _ I N2). }
  assert (D0 : disciplined (timers t)) by (rewrite timers_snoc in D; now apply disciplined_prefix in D).
  pose proof (base evs) as Ba. rewrite R in Ba. destruct (Ba D0) as (V & TC). cbn [fst snd] in V, TC.
  pose proof (step_shape _ _ _ _ E) as Sh.
  destruct e as [now|m now later|e|].
  - right. right. right. destruct Sh as [(_ & -> & ->)|(_ & Bo)].
    + apply Q; [unfold kept, same; auto|intros ? []|discriminate].
    + pose proof Bo as Bo'. apply boot_shape in Bo'; [|apply V]. destruct Bo' as (-> & _ & _ & _ & _ & W & _).
      split; [|split; [exact W|split; [|discriminate]]].
      * rewrite timers_snoc. apply calling_same. unfold boot_calls. cbn.
        intros te r [X|[X|[X|[X|[]]]]]; injection X as <- <-; split; intros; discriminate.
      * unfold boot_calls. intros x [<-|[<-|[<-|[<-|[]]]]]; eexists _, _; (split; [reflexivity|]); discriminate.
  - right. right. right. destruct m as [id time tasks|id|id|a v g|]; destruct Sh as (K & Sh); try (subst o; apply Q; auto; [intros ? []|discriminate]).
    + destruct (id =? _); [|subst o; apply Q; auto; [intros ? []|discriminate]].
      cbv zeta in Sh. destruct Sh as (r1 & r2 & [(_ & ->)|(_ & r3 & ->)]); apply Q; auto; try discriminate.
      * intros x [<-|[<-|[]]]; eexists _, _; (split; [reflexivity|]); split; discriminate.
      * intros x [<-|[<-|[<-|[]]]]; eexists _, _; (split; [reflexivity|]); split; discriminate.
    + destruct Sh as (r & ->). apply Q; auto; [|discriminate].
      intros x [<-|[]]; eexists _, _; (split; [reflexivity|]); split; discriminate.
  - destruct e.
    9: { right. destruct Sh as [(W & -> & ->)|(W & K & r & ->)].
      - right. right. apply Q; [unfold kept, same; auto|intros ? []|discriminate].
      - left. split; auto. split; auto. destruct K as (_ & K). split; [congruence|].
        assert (Nr : forall i, r <> [OutCall i]) by (apply (B EvDone); [now left|discriminate]).
        rewrite timers_snoc. cbn [outs flat_map app]. rewrite calling_snoc. split.
        + destruct r as [|[?|?|?|i] [|? ?]]; auto. now destruct (Nr i).
        + intros x [<-|[]]. eauto. }
    8: { destruct Sh as (Sa & r & -> & W).
      assert (Y : (exists i, r = [OutCall i]) \/ (forall i, r <> [OutCall i])).
      { destruct r as [|[?|?|?|i] [|? ?]]; eauto; right; discriminate. }
      destruct Y as [(i & ->)|Y].
      - left. exists now, i. split; auto. split; auto.
        rewrite <- R' in D. destruct (step_calls _ _ _ _ D R' [] _ _ [] eq_refl i (or_introl eq_refl)) as (_ & _ & _ & N).
        rewrite app_nil_r in N. split; auto. split; auto. rewrite timers_snoc. cbn [outs flat_map app].
        now rewrite calling_snoc.
      - right. right. right. split; [|split; [|split; [|discriminate]]].
        + rewrite timers_snoc. cbn [outs flat_map app]. rewrite calling_snoc.
          destruct r as [|[?|?|?|i] [|? ?]]; auto. now destruct (Y i).
        + rewrite W. destruct r as [|[?|?|?|i] [|? ?]]; auto. now destruct (Y i).
        + intros x [<-|[]]. eauto. }
    all: right; right; right; destruct Sh as (K & r & ->); apply Q; auto; try discriminate;
      intros x [<-|[]]; eexists _, _; (split; [reflexivity|]); split; discriminate.
  - right. right. destruct Sh as (Sa & Ti & [(-> & -> & Nm)|(i & W & W' & Tc & M)]).
    + right. rewrite timers_snoc. cbn [outs flat_map]. rewrite app_nil_r. split; auto. split; auto.
      split; [intros ? []|]. intros _. split; auto. intros Wt j Cj. apply Nm; auto. congruence.
    + left. exists i. split; auto. rewrite timers_snoc.
      assert (O : outs o = []).
      { destruct M as [(_ & r & ->)|[(_ & _ & ->)|(_ & _ & _ & ->)]]; reflexivity. }
      rewrite O, app_nil_r, <- TC. split; auto. split; auto. split; auto. split; auto.
      unfold marks. destruct M as [(? & r & ->)|[(_ & ? & ->)|(_ & _ & ? & ->)]]; eauto.
Qed.

Record watch (s : state) (t : trace) : Prop := {
  w_wait : s_waiting s = true -> exists i, calling (timers t) = Some i /\ mine s i = true;
  w_pend : forall i x e o y te, mine s i = true -> t = x ++ (e, o) :: y -> In (Call te [OutCall i]) o ->
    (exists z, In z y /\ fst z = Body /\ marks s i (snd z)) \/ (calling (timers t) = Some i /\ s_waiting s = true);
  w_turn : forall i, calling (timers t) = Some i -> exists x now y,
    t = x ++ (Timer (EvTurn now), [Call (EvTurn now) [OutCall i]]) :: y /\
    forall y1 y2, y = y1 ++ y2 ->
      calling (timers (x ++ (Timer (EvTurn now), [Call (EvTurn now) [OutCall i]]) :: y1)) = Some i }.

Lemma same_mine s s' i : same s s' -> mine s' i = mine s i.
Proof. unfold same, mine. intros (-> & -> & -> & ->). reflexivity. Qed.

Lemma same_marks s s' i o : same s s' -> marks s' i o <-> marks s i o.
Proof. unfold same, marks. intros (-> & -> & -> & _). reflexivity. Qed.

Lemma watch_run evs : disciplined (timers (trace_of evs)) -> watch (state_of evs) (trace_of evs).
Proof.
  apply (run_inv (step c) (init c) (fun _ s t => disciplined (timers t) -> watch s t)).
  { intros _. split; cbn; try discriminate. }
  clear evs. intros evs e s t s' o I E R D.
  assert (D0 : disciplined (timers t)) by (rewrite timers_snoc in D; now apply disciplined_prefix in D).
  specialize (I D0). pose proof (base evs) as Ba. rewrite R in Ba. destruct (Ba D0) as (V & TC). cbn [fst snd] in V, TC.
  assert (Sm : same s s' \/ (exists now, e = Boot now /\ boot c s now = (s', o) /\ s_booted s = false)).
  { pose proof (step_shape _ _ _ _ E) as Sh. destruct e as [now|m now later|e|].
    - destruct Sh as [(_ & -> & _)|(W & Bo)]; [left; unfold same; auto|right; eauto].
    - left. destruct m; apply Sh.
    - left. destruct e; try apply Sh. destruct Sh as [(_ & -> & _)|(_ & (Sh & _) & _)]; auto. unfold same; auto.
    - left. apply Sh. }
  assert (Mb : forall i, mine s i = true -> ~ (exists now, e = Boot now /\ boot c s now = (s', o) /\ s_booted s = false)).
  { intros i M (now & _ & _ & X). unfold mine in M. rewrite X in M. discriminate. }
  destruct (step_calling _ _ _ _ _ _ R E D) as
    [(now & i & -> & -> & CN & CS & W)|[(-> & W & W' & CN & Bl)|[(i & -> & C1 & C2 & W1 & W2 & M)|(CS & W & Bl & _)]]].
  - destruct Sm as [Sm|(? & X & _)]; [|discriminate]. split.
    + intros X. exists i. split; [exact CS|]. rewrite (same_mine _ _ _ Sm). congruence.
    + intros j x e0 o0 y te Mj H Oj. rewrite (same_mine _ _ _ Sm) in Mj. destruct y as [|y0 y _] using rev_ind.
      * apply app_inj_tail in H. destruct H as (-> & H). injection H as <- <-. destruct Oj as [Oj|[]].
        injection Oj as _ ->. right. split; [exact CS|congruence].
      * rewrite app_comm_cons, app_assoc in H. apply app_inj_tail in H. destruct H as (-> & <-).
        destruct (w_pend _ _ I j x e0 o0 y te Mj eq_refl Oj) as [(z & Z1 & Z0 & Z2)|(Z1 & _)]; [|congruence].
        left. exists z. split; [apply in_or_app; auto|]. split; [exact Z0|]. now apply (same_marks _ _ _ _ Sm).
    + intros j Cj. assert (j = i) as -> by congruence. exists t, now, []. split; auto.
      intros y1 y2 H. symmetry in H. apply app_eq_nil in H. destruct H as (-> & ->). exact CS.
  - destruct Sm as [Sm|(? & X & _)]; [|discriminate]. split.
    + congruence.
    + intros j x e0 o0 y te Mj H Oj. rewrite (same_mine _ _ _ Sm) in Mj. destruct y as [|y0 y _] using rev_ind.
      * apply app_inj_tail in H. destruct H as (-> & H). injection H as <- <-.
        destruct (Bl _ Oj) as (? & r & X & N). injection X as -> <-. now destruct (N j).
      * rewrite app_comm_cons, app_assoc in H. apply app_inj_tail in H. destruct H as (-> & <-).
        destruct (w_pend _ _ I j x e0 o0 y te Mj eq_refl Oj) as [(z & Z1 & Z0 & Z2)|(_ & Z1)]; [|congruence].
        left. exists z. split; [apply in_or_app; auto|]. split; [exact Z0|]. now apply (same_marks _ _ _ _ Sm).
    + congruence.
  - destruct Sm as [Sm|(? & X & _)]; [|discriminate]. split.
    + congruence.
    + intros j x e0 o0 y te Mj H Oj. rewrite (same_mine _ _ _ Sm) in Mj. destruct y as [|y0 y _] using rev_ind.
      * apply app_inj_tail in H. destruct H as (-> & H). injection H as <- <-.
        unfold marks in M. destruct M as [(_ & r & ->)|[(_ & ->)|(_ & ->)]]; destruct Oj as [Oj|[]]; discriminate.
      * rewrite app_comm_cons, app_assoc in H. apply app_inj_tail in H. destruct H as (-> & <-). left.
        destruct (w_pend _ _ I j x e0 o0 y te Mj eq_refl Oj) as [(z & Z1 & Z0 & Z2)|(Z1 & _)].
        -- exists z. split; [apply in_or_app; auto|]. split; [exact Z0|]. now apply (same_marks _ _ _ _ Sm).
        -- exists (Body, o). split; [apply in_or_app; right; now left|]. split; [reflexivity|]. apply (same_marks _ _ _ _ Sm).
           assert (j = i) as -> by congruence. exact M.
    + intros j Cj. rewrite C2, <- C1 in Cj. destruct (w_turn _ _ I j Cj) as (x & now & y & -> & P).
      exists x, now, (y ++ [(Body, o)]). rewrite <- app_assoc. split; auto. intros y1 y2 H.
      destruct y2 as [|z y2 _] using rev_ind.
      * rewrite app_nil_r in H. subst y1. rewrite app_comm_cons, app_assoc. congruence.
      * rewrite app_assoc in H. apply app_inj_tail in H. destruct H as (-> & _). now apply (P y1 y2).
  - split.
    + intros X. rewrite W in X. destruct (w_wait _ _ I X) as (i & C1 & M). exists i. split; [congruence|].
      destruct Sm as [Sm|Sm]; [now rewrite (same_mine _ _ _ Sm)|]. now apply Mb in M.
    + intros j x e0 o0 y te Mj H Oj. destruct y as [|y0 y _] using rev_ind.
      * apply app_inj_tail in H. destruct H as (-> & H). injection H as <- <-.
        destruct (Bl _ Oj) as (? & r & X & N). injection X as -> <-. now destruct (N j).
      * rewrite app_comm_cons, app_assoc in H. apply app_inj_tail in H. destruct H as (Ht & <-).
        destruct Sm as [Sm|(now & -> & Bo & Nb)].
        -- rewrite (same_mine _ _ _ Sm) in Mj.
           destruct (w_pend _ _ I j x e0 o0 y te Mj Ht Oj) as [(z & Z1 & Z0 & Z2)|(Z1 & Z2)].
           ++ left. exists z. split; [apply in_or_app; auto|]. split; [exact Z0|]. now apply (same_marks _ _ _ _ Sm).
           ++ right. split; congruence.
        -- exfalso. apply boot_shape in Bo; [|apply V]. destruct Bo as (_ & E1 & E2 & E3 & _).
           assert (Lt : j < t_next (s_timers s)).
           { pose proof (tie c evs) as T. pose proof (tied c evs) as T'. rewrite R in T, T'. cbn [fst snd] in T, T'.
             pose proof (called_known (map fst (timers t)) j) as K. rewrite T', T in K. apply K; auto.
             rewrite Ht. apply in_flat_map. exists (te, [OutCall j]). split; [|now left].
             unfold timers. apply in_flat_map. exists (e0, o0). split; [apply in_or_app; right; now left|].
             apply in_flat_map. exists (Call te [OutCall j]). split; auto. now left. }
           unfold mine in Mj. apply andb_prop in Mj. destruct Mj as (_ & Mj).
           rewrite E1, E2, E3 in Mj. rewrite !orb_true_iff, !Z.eqb_eq in Mj. lia.
    + intros j Cj. rewrite CS in Cj. destruct (w_turn _ _ I j Cj) as (x & now & y & -> & P).
      exists x, now, (y ++ [(e, o)]). rewrite <- app_assoc. split; auto. intros y1 y2 H.
      destruct y2 as [|z y2 _] using rev_ind.
      * rewrite app_nil_r in H. subst y1. rewrite app_comm_cons, app_assoc. congruence.
      * rewrite app_assoc in H. apply app_inj_tail in H. destruct H as (-> & _). now apply (P y1 y2).
Qed.

Lemma trace_prefix evs a b : trace_of evs = a ++ b -> trace_of (map fst a) = a.
Proof.
  destruct b as [|x b]; intros H.
  - rewrite app_nil_r in H. pose proof (run_events (step c) (init c) evs) as R. rewrite H in R. now rewrite R.
  - apply run_split in H. destruct H as (s & R & _). now rewrite R.
Qed.

Lemma timers_prefix a b : disciplined (timers (a ++ b)) -> disciplined (timers a).
Proof. rewrite timers_app. apply disciplined_prefix. Qed.

Lemma at_step evs p e o q : trace_of evs = p ++ (e, o) :: q ->
  trace_of (map fst p) = p /\ exists s', step c (state_of (map fst p)) e = (s', o).
Proof.
  intros H. apply run_split in H. destruct H as (s & R & _ & O). cbn [fst snd] in O. rewrite R. cbn [fst snd].
  split; auto. exists (fst (step c s e)). rewrite O. now destruct (step c s e).
Qed.

(** After the start of the service its timers have their names. *)
Lemma booted_at evs p q r k s : disciplined (timers (trace_of evs)) -> trace_of evs = p ++ q ->
  named (trace_of evs) r k s -> (exists now o, In (Boot now, o) p) ->
  let st := state_of (map fst p) in
  s_booted st = true /\ s_report_id st = r /\ s_keep_id st = k /\ s_stale_id st = s /\
  1 <= r /\ k = r + 1 /\ s = r + 2 /\
  exists p1 now p2, p = p1 ++ (Boot now, boot_calls r now) :: p2 /\
    (forall now' o, ~ In (Boot now', o) p1) /\ (forall now' o, In (Boot now', o) (p2 ++ q) -> o = []).
Proof.
  intros D H (nw & oo & N) Bt st. pose proof (trace_prefix _ _ _ H) as Hp.
  assert (Dp : disciplined (timers p)) by (rewrite H in D; now apply timers_prefix in D).
  pose proof (life_run (map fst p)) as L1. rewrite Hp in L1. specialize (L1 Dp). fold st in L1.
  pose proof (life_run evs D) as L2.
  destruct L1 as [(_ & _ & _ & _ & X)|(B1 & a1 & n1 & b1 & m1 & E1 & G1 & I1 & I2 & I3 & Na1 & Nb1)].
  { destruct Bt as (now & o & Bt). now apply X in Bt. }
  destruct L2 as [(_ & _ & _ & _ & X)|(B2 & a2 & n2 & b2 & m2 & E2 & G2 & J1 & J2 & J3 & Na2 & Nb2)].
  { now apply X in N. }
  assert (W : a1 = a2 /\ (Boot n1, boot_calls m1 n1) = (Boot n2, boot_calls m2 n2) /\ b1 ++ q = b2).
  { rewrite H, E1, <- app_assoc in E2. cbn [app] in E2. apply split_cases in E2.
    destruct E2 as [E2|[(m & E2 & _)|(m & E2 & _)]]; auto; exfalso.
    - apply (Na2 n1 (boot_calls m1 n1)). rewrite E2. apply in_or_app. right. now left.
    - apply (Na1 n2 (boot_calls m2 n2)). rewrite E2. apply in_or_app. right. now left. }
  destruct W as (-> & W & W2). injection W as W3 W. rewrite <- W3 in *. clear W3 n2.
  assert (W4 : m1 = m2) by congruence. clear W. subst m2.
  assert (Y : r = m1 /\ k = m1 + 1 /\ s = m1 + 2).
  { rewrite E2 in N. apply in_app_or in N. destruct N as [N|[N|N]].
    - now apply Na2 in N.
    - unfold boot_calls in N. injection N as _ Y1 Y2 Y3 _. lia.
    - apply Nb2 in N. discriminate. }
  destruct Y as (-> & -> & ->). repeat (split; [assumption || reflexivity|]).
  exists a2, n1, b1. rewrite W2. auto.
Qed.

Section Names.
Context (evs : list event) (r k s : Z).
Notation t := (trace_of evs).
Context (D : disciplined (timers t)) (Sn : sane t) (Nm : named t r k s).

Lemma ids : 1 <= r /\ k = r + 1 /\ s = r + 2.
Proof.
  destruct (booted_at evs t [] r k s D (eq_sym (app_nil_r _)) Nm) as (_ & _ & _ & _ & X1 & X2 & X3 & _); auto.
  destruct Nm as (now & o & N). eauto.
Qed.

Lemma at_recv p m now later o q : t = p ++ (Recv m now later, o) :: q ->
  let st := state_of (map fst p) in
  s_booted st = true /\ s_report_id st = r /\ s_keep_id st = k /\ s_stale_id st = s.
Proof.
  intros H st. destruct (booted_at evs p _ r k s D H Nm) as (X1 & X2 & X3 & X4 & _); auto.
  destruct Sn as (_ & Sn2). eapply Sn2; eauto.
Qed.

Lemma touch p e o q te ro i : t = p ++ (e, o) :: q -> In (te, ro) (outs o) -> touches i te ->
  i = r \/ i = k \/ i = s ->
  (exists now, e = Boot now /\ te = EvPeriodic r (c_period c) (c_period c) now false /\ i = r) \/
  (exists a v g now later, e = Recv (KeepAlive a v g) now later /\ te = EvSingle k (c_expiry c) now false /\ i = k) \/
  (exists time tasks now later, e = Recv (State (c_vehicle c) time tasks) now later /\
     ((i = s /\ te = EvSingle s (c_stale c) now false) \/
      (i = r /\ te = EvPeriodic r (c_period c) (c_period c) later false))).
Proof.
  intros H O T Hi. destruct (at_step _ _ _ _ _ H) as (Hp & s' & E). pose proof (step_shape _ _ _ _ E) as Sh.
  pose proof ids as (G1 & G2 & G3).
  assert (Dp : disciplined (timers p)) by (rewrite H in D; now apply timers_prefix in D).
  destruct e as [now|m now later|e|].
  - destruct Sh as [(_ & _ & ->)|(_ & Bo)]; [destruct O|].
    destruct (base (map fst p)) as (V & _); [now rewrite Hp|]. apply boot_shape in Bo; [|apply V].
    destruct Bo as (-> & _). left. exists now. split; auto.
    assert (Rn : t_next (s_timers (state_of (map fst p))) = r).
    { destruct (booted_at evs (p ++ [(Boot now, boot_calls (t_next (s_timers (state_of (map fst p)))) now)]) q r k s D)
        as (_ & _ & _ & _ & _ & _ & _ & p1 & nw & p2 & E2 & Na & Nb).
      - rewrite <- app_assoc. exact H.
      - exact Nm.
      - exists now, (boot_calls (t_next (s_timers (state_of (map fst p)))) now). apply in_or_app. right. now left.
      - destruct p2 as [|z p2 _] using rev_ind.
        + apply app_inj_tail in E2. destruct E2 as (_ & E2). injection E2 as _ X. auto.
        + rewrite app_comm_cons, app_assoc in E2. apply app_inj_tail in E2. destruct E2 as (_ & <-).
          exfalso. specialize (Nb now (boot_calls (t_next (s_timers (state_of (map fst p)))) now)).
          assert (X : boot_calls (t_next (s_timers (state_of (map fst p)))) now = []); [|discriminate].
          apply Nb. apply in_or_app. left. apply in_or_app. right. now left. }
    rewrite Rn in O. cbn in O. destruct O as [O|[O|[O|[O|[]]]]]; injection O as <- <-; cbn in T; try easy; auto.
  - destruct (at_recv _ _ _ _ _ _ H) as (_ & I1 & I2 & I3). rewrite ?I1, ?I2, ?I3 in Sh.
    destruct m as [id time tasks|id|id|a v g|]; destruct Sh as (_ & Sh); try (subst o; destruct O).
    + destruct (Z.eqb_spec id (c_vehicle c)) as [->|]; [|subst o; destruct O].
      right. right. exists time, tasks, now, later. split; auto. cbv zeta in Sh.
      destruct Sh as (r1 & r2 & [(_ & ->)|(_ & r3 & ->)]); cbn in O.
      * destruct O as [O|[O|[]]]; injection O as <- <-; cbn in T; [subst i; auto|easy].
      * destruct O as [O|[O|[O|[]]]]; injection O as <- <-; cbn in T; [subst i; auto|easy|subst i; auto].
    + destruct Sh as (ra & ->). cbn in O. destruct O as [O|[]]. injection O as <- <-. cbn in T. subst i.
      right. left. exists a, v, g, now, later. auto.
  - exfalso. assert (te = e).
    { destruct e; try (destruct Sh as (_ & rr & ->); cbn in O; destruct O as [O|[]]; congruence).
      - destruct Sh as (_ & rr & -> & _). cbn in O. destruct O as [O|[]]; congruence.
      - destruct Sh as [(_ & _ & ->)|(_ & _ & rr & ->)]; [destruct O|]. cbn in O. destruct O as [O|[]]; congruence. }
    subst te. destruct Sn as (S1 & _). destruct (S1 r k s e o Nm) as (N1 & N2 & N3).
    { rewrite H. apply in_or_app. right. now left. }
    destruct Hi as [E0|[E0|E0]]; rewrite E0 in T; auto.
  - exfalso. destruct Sh as (_ & _ & [(_ & -> & _)|(j & _ & _ & _ & M)]); [destruct O|].
    destruct M as [(_ & rr & ->)|[(_ & _ & ->)|(_ & _ & _ & ->)]]; destruct O.
Qed.

Lemma in_timers te ro (u : trace) : In (te, ro) (timers u) ->
  exists p e o q, u = p ++ (e, o) :: q /\ In (te, ro) (outs o).
Proof.
  unfold timers. intros H. apply in_flat_map in H. destruct H as ((e, o) & H1 & H2).
  apply in_split in H1. destruct H1 as (p & q & ->). exists p, e, o, q. split; auto.
Qed.

Lemma starts_touches i te ro : starts i (te, ro) -> touches i te.
Proof. destruct te; cbn; try easy; destruct ro as [|[?|[|]|?|?] [|? ?]]; easy. Qed.

Lemma stops_touches i te : stops i te -> touches i te.
Proof. destruct te; cbn; easy || auto. Qed.

Lemma no_stops te ro i : In (te, ro) (timers t) -> i = r \/ i = k \/ i = s -> ~ stops i te.
Proof.
  intros H Hi St. destruct (in_timers _ _ _ H) as (p & e & o & q & E & O).
  destruct (touch _ _ _ _ _ _ _ E O (stops_touches _ _ St) Hi) as
    [(now & _ & -> & _)|[(a & v & g & now & later & _ & -> & _)|(ti & ta & now & later & _ & [(_ & ->)|(_ & ->)])]];
    exact St.
Qed.

Lemma known_id p q : t = p ++ q -> (exists now o, In (Boot now, o) p) ->
  forall i, i = r \/ i = k \/ i = s -> given (timers p) i.
Proof.
  intros H B i Hi. destruct (booted_at evs p q r k s D H Nm B) as (_ & _ & _ & _ & _ & K1 & K2 & p1 & now & p2 & E & _).
  unfold given. rewrite E, timers_app, flat_map_app. apply in_or_app. right.
  cbn. destruct Hi as [E0|[E0|E0]]; rewrite E0, ?K1, ?K2; auto.
Qed.

(** A start by the service succeeds. *)
Lemma started p e o q x te ro y i : t = p ++ (e, o) :: q -> (exists now o, In (Boot now, o) p) ->
  i = r \/ i = k \/ i = s -> outs o = x ++ (te, ro) :: y ->
  match te with
  | EvSingle j _ _ w => j = i /\ w = false
  | EvPeriodic j _ per _ w => j = i /\ w = false /\ 0 < per
  | _ => False
  end -> starts i (te, ro).
Proof.
  intros H B Hi O Ht.
  assert (T : history (map fst (timers t)) = (timers p ++ x) ++ (te, ro) :: (y ++ timers q)).
  { rewrite tied, H, timers_app. rewrite <- app_assoc. f_equal.
    change (timers ((e, o) :: q)) with (outs o ++ timers q). rewrite O, <- app_assoc. reflexivity. }
  pose proof D as D'. rewrite <- (tied c evs) in D'. eapply (C30_start _ _ _ _ _ i D' T Ht).
  - pose proof (known_id _ _ H B i Hi) as G. unfold given in *. rewrite flat_map_app. apply in_or_app. now left.
  - intros e' o' I' (St & _). apply (no_stops e' o' i); auto.
    rewrite <- (tied c evs), T. apply in_or_app. now left.
Qed.

Lemma keep_started p a v g now later o q : t = p ++ (Recv (KeepAlive a v g) now later, o) :: q ->
  o = [Call (EvSingle k (c_expiry c) now false) [OutBool true]].
Proof.
  intros H. destruct (at_step _ _ _ _ _ H) as (Hp & s' & E). pose proof (step_shape _ _ _ _ E) as (_ & ra & Sh).
  destruct (at_recv _ _ _ _ _ _ H) as (_ & _ & I2 & _). rewrite I2 in Sh. subst o.
  assert (S : starts k (EvSingle k (c_expiry c) now false, ra)).
  { eapply (started _ _ _ _ [] _ _ [] k H); auto. destruct Sn as (_ & Sn2). eapply Sn2; eauto. }
  cbn in S. destruct ra as [|[?|[|]|?|?] [|? ?]]; easy.
Qed.

Lemma state_started p time tasks now later o q : t = p ++ (Recv (State (c_vehicle c) time tasks) now later, o) :: q ->
  exists r2 rest, o = Call (EvSingle s (c_stale c) now false) [OutBool true] :: Call (EvActive r) r2 :: rest /\
    ((r2 = [OutBool true] /\ rest = []) \/
     (r2 <> [OutBool true] /\ rest = [Call (EvPeriodic r (c_period c) (c_period c) later false) [OutBool true]])).
Proof.
  intros H. destruct (at_step _ _ _ _ _ H) as (Hp & s' & E). pose proof (step_shape _ _ _ _ E) as (_ & Sh).
  rewrite Z.eqb_refl in Sh. cbv zeta in Sh. destruct (at_recv _ _ _ _ _ _ H) as (_ & I1 & _ & I3). rewrite I1, I3 in Sh.
  assert (B : exists now o, In (Boot now, o) p) by (destruct Sn as (_ & Sn2); eapply Sn2; eauto).
  destruct Sh as (r1 & r2 & Sh).
  assert (S : starts s (EvSingle s (c_stale c) now false, r1)).
  { destruct Sh as [(_ & Sh)|(_ & r3 & Sh)]; eapply (started _ _ _ _ [] _ _ _ s H); auto; rewrite Sh; reflexivity. }
  assert (r1 = [OutBool true]) as ->.
  { cbn in S. destruct r1 as [|[?|[|]|?|?] [|? ?]]; easy. }
  destruct Sh as [(E2 & Sh)|(E2 & r3 & Sh)].
  - exists r2, []. auto.
  - assert (S3 : starts r (EvPeriodic r (c_period c) (c_period c) later false, r3)).
    { eapply (started _ _ _ _ [(_, _); (_, _)] _ _ [] r H); auto. rewrite Sh. reflexivity. }
    assert (r3 = [OutBool true]) as ->.
    { cbn in S3. destruct r3 as [|[?|[|]|?|?] [|? ?]]; easy. }
    exists r2, [Call (EvPeriodic r (c_period c) (c_period c) later false) [OutBool true]]. auto.
Qed.

(** A call back comes from a look at the queue. *)
Lemma back i p y q : t = p ++ y :: q -> calls_back i y ->
  exists now, y = (Timer (EvTurn now), [Call (EvTurn now) [OutCall i]]).
Proof.
  intros H (te & O). destruct y as (e, o). cbn [snd] in O.
  assert (R : exists s0, run (step c) (init c) (map fst p) = (s0, p) /\ exists s', step c s0 e = (s', o)).
  { apply run_split in H. destruct H as (s0 & R & _ & X). cbn [fst snd] in X. exists s0. split; auto.
    exists (fst (step c s0 e)). rewrite X. now destruct (step c s0 e). }
  destruct R as (s0 & R & s' & E).
  assert (Dp : disciplined (timers (p ++ [(e, o)]))).
  { rewrite H in D. rewrite (app_assoc p [(e, o)] q : p ++ (e, o) :: q = _) in D. now apply timers_prefix in D. }
  assert (NB : ~ bland o).
  { intros B. destruct (B _ O) as (te' & ro & X & N). injection X as <- <-. now apply (N i). }
  destruct (step_calling _ _ _ _ _ _ R E Dp) as
    [(now & j & -> & -> & _)|[(_ & _ & _ & _ & B)|[(j & _ & _ & _ & _ & _ & M)|(_ & _ & B & _)]]]; try easy.
  - destruct O as [O|[]]. injection O as <- <-. eauto.
  - destruct M as [(_ & rr & ->)|[(_ & ->)|(_ & ->)]]; destruct O as [O|[]]; discriminate.
Qed.

Lemma due_start T i d T1 te ro T2 : due T i d -> T = T1 ++ (te, ro) :: T2 -> starts i (te, ro) ->
  (forall e' o', In (e', o') T2 -> ~ starts i (e', o')) ->
  exists first period, first_due te = (first, period) /\ d = first + calls i T2 * period.
Proof.
  intros (A & e & o & B & first & period & E & S & F & N & -> & _) E2 S2 N2.
  rewrite E2 in E. apply split_cases in E. destruct E as [(-> & X & ->)|[(m & -> & ->)|(m & -> & ->)]].
  - injection X as -> ->. exists first, period. auto.
  - exfalso. apply (N2 e o); auto. apply in_or_app. right. now left.
  - exfalso. destruct (N te ro) as (N0 & _); auto. apply in_or_app. right. now left.
Qed.

Lemma due_unique T i d d' : due T i d -> due T i d' -> d = d'.
Proof.
  intros H (A & e & o & B & first & period & E & S & F & N & -> & _).
  destruct (due_start _ _ _ _ _ _ _ H E S) as (f & p & F' & ->).
  - intros e' o' I'. now apply N.
  - rewrite F in F'. injection F' as -> ->. reflexivity.
Qed.

Lemma calls_none i (T : TimerSpec.trace) : (forall te ro, In (te, ro) T -> ~ In (OutCall i) ro) -> calls i T = 0.
Proof.
  intros H. unfold calls. assert (E : filter (fun o => match o with OutCall j => j =? i | _ => false end) (flat_map snd T) = []);
    [|now rewrite E].
  destruct (filter _ _) as [|x l] eqn:F; auto. exfalso.
  assert (X : In x (filter (fun o => match o with OutCall j => j =? i | _ => false end) (flat_map snd T))) by (rewrite F; now left).
  apply filter_In in X. destruct X as (X1 & X2). destruct x; try discriminate. apply Z.eqb_eq in X2. subst.
  apply in_flat_map in X1. destruct X1 as ((te, ro) & Y1 & Y2). now apply (H te ro).
Qed.

Context (Ap : apart (timers t)).

Lemma sooner a x rest j dl now T1 T2 d : t = a ++ x :: rest -> calls_back r x -> j = k \/ j = s ->
  timers a = T1 ++ (EvSingle j dl now false, [OutBool true]) :: T2 ->
  (forall te ro, In (te, ro) T2 -> ~ starts j (te, ro) /\ ~ In (OutCall j) ro) ->
  due (timers a) r d -> d < now + dl.
Proof.
  intros H B Hj Ea N Du. destruct (back r _ _ _ H B) as (nt & ->). pose proof ids as (G1 & G2 & G3).
  assert (T : history (map fst (timers t)) = timers a ++ (EvTurn nt, [OutCall r]) :: timers rest).
  { rewrite tied, H, timers_app. reflexivity. }
  pose proof D as D'. rewrite <- (tied c evs) in D'. pose proof Ap as A'. rewrite <- (tied c evs) in A'.
  destruct (C31_fires _ _ _ _ _ r D' T (or_introl eq_refl)) as (CN & d0 & Du0 & Le0).
  assert (d0 = d) by (eapply due_unique; eauto). subst d0.
  destruct (C30_fires _ _ _ _ _ r d D' A' T CN Du Le0) as (j0 & d' & X & Dj & Min). injection X as <-.
  assert (d' = d) by (eapply due_unique; eauto). subst d'.
  assert (Dk : due (timers a) j (now + dl)).
  { exists T1, (EvSingle j dl now false), [OutBool true], T2, (now + dl), 0. split; auto. split; [reflexivity|].
    split; [reflexivity|]. split; [|split; [lia|]].
    - intros e' o' I'. split; [now apply (N e' o')|]. apply (no_stops e' o' j); [|tauto].
      rewrite H, timers_app, Ea. apply in_or_app. left. apply in_or_app. right. now right.
    - intros _. apply calls_none. intros te ro I'. now apply (N te ro). }
  specialize (Min _ _ Dk). destruct (Z.eq_dec d (now + dl)) as [Eq|]; [exfalso|lia].
  assert (T0 : timers t = timers a ++ timers ((Timer (EvTurn nt), [Call (EvTurn nt) [OutCall r]]) :: rest)).
  { rewrite H, timers_app. reflexivity. }
  destruct (Ap (timers a) _ (timers a) _ r j d T0 T0) as (_ & X).
  - split; [exact Du|]. rewrite CN. discriminate.
  - split; [rewrite Eq; exact Dk|]. rewrite CN. discriminate.
  - lia.
Qed.

(** A timer of the service that has been called back has done its work when another one is. *)
Lemma worked a x rest i p e o q te : t = a ++ x :: rest -> calls_back r x -> i = k \/ i = s ->
  a = p ++ (e, o) :: q -> In (Call te [OutCall i]) o ->
  exists z, In z q /\ fst z = Body /\ ((i = k /\ snd z = [Expired]) \/ (i = s /\ snd z = [Outdated])).
Proof.
  intros H B Hi Ea O. destruct (back r _ _ _ H B) as (nt & ->). pose proof ids as (G1 & G2 & G3).
  assert (T : history (map fst (timers t)) = timers a ++ (EvTurn nt, [OutCall r]) :: timers rest).
  { rewrite tied, H, timers_app. reflexivity. }
  pose proof D as D'. rewrite <- (tied c evs) in D'.
  destruct (C31_fires _ _ _ _ _ r D' T (or_introl eq_refl)) as (CN & _).
  pose proof (trace_prefix _ _ _ H) as Hp.
  assert (Da : disciplined (timers a)) by (pose proof D as X; rewrite H in X; now apply timers_prefix in X).
  pose proof (watch_run (map fst a)) as W. rewrite Hp in W. specialize (W Da).
  assert (Bt : exists now o, In (Boot now, o) a).
  { pose proof (life_run (map fst a)) as L. rewrite Hp in L. destruct (L Da) as [(_ & _ & _ & _ & X)|(_ & a1 & n1 & b1 & m1 & E1 & _)].
    - exfalso.
      assert (Lt : r < t_next (s_timers (state_of (map fst a)))).
      { pose proof (tie c (map fst a)) as Ti. pose proof (tied c (map fst a)) as Ti'. rewrite Hp in Ti, Ti'.
        destruct (history_split _ _ _ _ _ D' T) as (m & m' & Rm & _ & I & _ & _ & E & _).
        pose proof (TimerDue.shape _ _ _ _ _ I E) as Sh. cbn in Sh.
        destruct Sh as [X'|(j & d & per & Y & _ & Wt & _)]; [discriminate|]. injection Y as <-.
        destruct (v_known _ _ I _ _ _ Wt) as (x & G & _). apply (v_range _ _ I) in G.
        rewrite Ti in Rm. cbn [fst] in Rm. now subst m. }
      destruct Nm as (nw & oo & Nn). rewrite H in Nn. apply in_app_or in Nn. destruct Nn as [Nn|[Nn|Nn]].
      + now apply X in Nn.
      + discriminate.
      + apply in_split in Nn. destruct Nn as (u1 & u2 & ->).
        assert (H' : t = (a ++ (Timer (EvTurn nt), [Call (EvTurn nt) [OutCall r]]) :: u1) ++
                     (Boot nw, Call EvCreate [OutId r] :: Call EvCreate [OutId k] :: Call EvCreate [OutId s] :: oo) :: u2).
        { rewrite <- app_assoc. exact H. }
        destruct (at_step _ _ _ _ _ H') as (Hp' & s' & E). set (p' := a ++ _ :: u1) in *.
        pose proof (step_shape _ _ _ _ E) as [(_ & _ & Sh)|(_ & Bo)]; [discriminate|].
        destruct (base (map fst p')) as (V & _).
        { rewrite Hp'. pose proof D as X'. rewrite H' in X'. now apply timers_prefix in X'. }
        apply boot_shape in Bo; [|apply V]. destruct Bo as (Bo & _). injection Bo as Bo _ _ _.
        assert (Mo : t_next (s_timers (state_of (map fst a))) <= t_next (s_timers (state_of (map fst p')))).
        { pose proof (tie c (map fst a)) as T1. rewrite Hp in T1. pose proof (tie c (map fst p')) as T2. rewrite Hp' in T2.
          apply (f_equal fst) in T1. apply (f_equal fst) in T2. cbn [fst] in T1, T2. rewrite <- T1, <- T2.
          unfold p'. rewrite timers_app, map_app. generalize (map fst (timers ((Timer (EvTurn nt), [Call (EvTurn nt) [OutCall r]]) :: u1))).
          clear. intros l. induction l as [|z l IH] using rev_ind; [rewrite app_nil_r; lia|].
          rewrite app_assoc, run_snoc. cbn [fst]. pose proof (next_mono (fst (run tstep tinit (map fst (timers a) ++ l))) z). lia. }
        lia.
    - exists n1, (boot_calls m1 n1). rewrite E1. apply in_or_app. right. now left. }
  destruct (booted_at evs a _ r k s D H Nm Bt) as (Bb & I1 & I2 & I3 & _).
  assert (M : mine (state_of (map fst a)) i = true).
  { unfold mine. rewrite Bb, I1, I2, I3. cbn [andb]. rewrite !orb_true_iff, !Z.eqb_eq. tauto. }
  destruct (w_pend _ _ W i p e o q te M Ea O) as [(z & Z1 & Z0 & Z2)|(Z1 & _)]; [|congruence].
  exists z. split; auto. split; auto. unfold marks in Z2. rewrite I1, I2, I3 in Z2. destruct Z2 as [(X & _)|Z2]; [lia|exact Z2].
Qed.

Lemma said {A} (f : event * list out -> option A) (u : trace) v : latest f u v ->
  exists p e o q, u = p ++ (e, o) :: q /\ f (e, o) = Some v /\ forall z, In z q -> f z = None.
Proof. intros (p & (e, o) & q & E & S & N). exists p, e, o, q. auto. Qed.

Lemma pulse_true e o v g w : pulse (e, o) = Some (v, g, w) -> v || g || w = true ->
  exists now later, e = Recv (KeepAlive v g w) now later.
Proof.
  intros H X. assert (P : forall o0 : list out, match o0 with [Expired] => Some (false, false, false) | _ => None end = Some (v, g, w) -> False).
  { intros o0 Y. destruct o0 as [|[?|?| |] [|? ?]]; try discriminate. injection Y as <- <- <-. discriminate. }
  destruct e as [now|m now later|e|]; cbn [pulse] in H; try (now apply P in H).
  destruct m; try (now apply P in H). injection H as <- <- <-. eauto.
Qed.

Lemma call_in p e o q te ro i : t = p ++ (e, o) :: q -> In (te, ro) (outs o) -> In (OutCall i) ro ->
  In (Call te [OutCall i]) o.
Proof.
  intros H I1 Oc. pose proof I1 as X. apply in_split in I1. destruct I1 as (l1 & l2 & I1).
  assert (H2 : t = (p ++ [(e, o)]) ++ q) by (rewrite <- app_assoc; exact H).
  assert (Q2 : disciplined (timers (trace_of (map fst (p ++ [(e, o)]))))).
  { rewrite (trace_prefix _ _ _ H2). pose proof D as D'. rewrite H2 in D'. now apply timers_prefix in D'. }
  destruct (step_calls _ _ _ _ Q2 (trace_prefix _ _ _ H2) _ _ _ _ I1 i Oc) as (nt & -> & -> & _).
  unfold outs in X. apply in_flat_map in X. destruct X as (z & X1 & X2). destruct z; try (now destruct X2).
  destruct X2 as [X2|[]]. injection X2 as <- <-. exact X1.
Qed.

Lemma authorized_core a x b y u d rep : t = a ++ x :: b ++ y :: u -> calls_back r x -> In (Sent rep) (snd y) ->
  due (timers a) r d -> r_authorized rep || r_speed rep || r_gimbal rep = true ->
  exists p v g now later o, (In (Recv (KeepAlive p v g) now later, o) b) \/
    (In (Recv (KeepAlive p v g) now later, o) a /\ d < now + c_expiry c).
Proof.
  intros H B S Du Au. pose proof ids as (G1 & G2 & G3).
  assert (H' : t = (a ++ x :: b) ++ y :: u) by (rewrite <- app_assoc; exact H).
  destruct y as (ey, oy). destruct (C85_report _ _ _ _ _ _ H' S) as (_ & _ & _ & _ & _ & _ & _ & _ & P1 & P2).
  destruct (follow pulse (a ++ x :: b)) as [((v, g), w)|] eqn:F.
  2: { apply follow_unsaid in F. specialize (P2 F). injection P2 as X1 X2 X3. rewrite X1, X2, X3 in Au. discriminate. }
  apply follow_latest in F. pose proof (P1 _ F) as E. injection E as X1 X2 X3. rewrite X1, X2, X3 in Au. clear P1 P2.
  destruct (said _ _ _ F) as (p & e & o & q & E & Pe & Nq).
  destruct (pulse_true _ _ _ _ _ Pe Au) as (now & later & ->).
  exists v, g, w, now, later, o. apply split_cases in E. destruct E as [(_ & -> & _)|[(m & _ & Eb)|(m & Ea & Eq)]].
  - destruct (back r _ _ _ H B) as (nt & X). discriminate.
  - left. rewrite Eb. apply in_or_app. right. now left.
  - right. split; [rewrite Ea; apply in_or_app; right; now left|].
    assert (Hk : t = p ++ (Recv (KeepAlive v g w) now later, o) :: m ++ x :: b ++ (ey, oy) :: u).
    { rewrite H, Ea, <- app_assoc. reflexivity. }
    pose proof (keep_started _ _ _ _ _ _ _ _ Hk) as Eo.
    apply (sooner a x (b ++ (ey, oy) :: u) k (c_expiry c) now (timers p) (timers m) d H B); auto.
    + rewrite Ea, timers_app. f_equal. rewrite Eo. reflexivity.
    + intros te ro I. destruct (in_timers _ _ _ I) as (m1 & e1 & o1 & m2 & Em & I1). split.
      * intros St. assert (H1 : t = (p ++ (Recv (KeepAlive v g w) now later, o) :: m1) ++ (e1, o1) :: m2 ++ x :: b ++ (ey, oy) :: u).
        { rewrite Hk, Em, <- ?app_assoc. cbn [app]. rewrite <- ?app_assoc. reflexivity. }
        destruct (touch _ _ _ _ _ _ _ H1 I1 (starts_touches _ _ _ St) (or_intror (or_introl eq_refl))) as
          [(? & _ & _ & X)|[(a0 & v0 & g0 & n0 & l0 & -> & _)|(? & ? & ? & ? & _ & [(X & _)|(X & _)])]]; try lia.
        specialize (Nq (Recv (KeepAlive a0 v0 g0) n0 l0, o1)). discriminate Nq.
        rewrite Eq, Em. apply in_or_app. left. apply in_or_app. right. now left.
      * intros Oc. assert (Oc' : In (Call te [OutCall k]) o1).
        { assert (H1 : t = (p ++ (Recv (KeepAlive v g w) now later, o) :: m1) ++ (e1, o1) :: m2 ++ x :: b ++ (ey, oy) :: u).
          { rewrite Hk, Em, <- ?app_assoc. cbn [app]. rewrite <- ?app_assoc. reflexivity. }
          exact (call_in _ _ _ _ _ _ _ H1 I1 Oc). }
        assert (Ea' : a = (p ++ (Recv (KeepAlive v g w) now later, o) :: m1) ++ (e1, o1) :: m2).
        { rewrite Ea, Em, <- app_assoc. reflexivity. }
        destruct (worked a x _ k _ _ _ _ _ H B (or_introl eq_refl) Ea' Oc') as (z & Z1 & Z0 & [(_ & Z2)|(Z2 & _)]); [|lia].
        assert (Nz : pulse z = None).
        { apply Nq. rewrite Eq, Em. apply in_or_app. left. apply in_or_app. right. now right. }
        destruct z as (ez, oz). cbn [fst snd] in Z0, Z2. subst oz ez. discriminate.
Qed.

Lemma vital_true e o : vital (c_vehicle c) (e, o) = Some true ->
  exists time tasks now later, e = Recv (State (c_vehicle c) time tasks) now later.
Proof.
  intros H. assert (P : forall o0 : list out, match o0 with [Outdated] => Some false | _ => None end = Some true -> False).
  { intros o0 Y. destruct o0 as [|[?|?| |] [|? ?]]; discriminate. }
  destruct e as [now|m now later|e|]; cbn [vital] in H; try (now apply P in H).
  destruct m as [id time tasks|id|id|a v g|]; try (now apply P in H).
  destruct (Z.eqb_spec id (c_vehicle c)) as [->|]; [|discriminate]. eauto.
Qed.

Lemma valid_core a x b y u d rep : t = a ++ x :: b ++ y :: u -> calls_back r x -> In (Sent rep) (snd y) ->
  due (timers a) r d -> r_state rep = true ->
  exists time tasks now later o, (In (Recv (State (c_vehicle c) time tasks) now later, o) b) \/
    (In (Recv (State (c_vehicle c) time tasks) now later, o) a /\ d < now + c_stale c).
Proof.
  intros H B S Du Au. pose proof ids as (G1 & G2 & G3).
  assert (H' : t = (a ++ x :: b) ++ y :: u) by (rewrite <- app_assoc; exact H).
  destruct y as (ey, oy). destruct (C85_report _ _ _ _ _ _ H' S) as (_ & _ & _ & _ & _ & _ & _ & P1 & _).
  apply P1 in Au. clear P1.
  destruct (said _ _ _ Au) as (p & e & o & q & E & Pe & Nq).
  destruct (vital_true _ _ Pe) as (time & tasks & now & later & ->).
  exists time, tasks, now, later, o. apply split_cases in E. destruct E as [(_ & -> & _)|[(m & _ & Eb)|(m & Ea & Eq)]].
  - destruct (back r _ _ _ H B) as (nt & X). discriminate.
  - left. rewrite Eb. apply in_or_app. right. now left.
  - right. split; [rewrite Ea; apply in_or_app; right; now left|]. set (ev := Recv (State (c_vehicle c) time tasks) now later) in *.
    assert (Hk : t = p ++ (ev, o) :: m ++ x :: b ++ (ey, oy) :: u).
    { rewrite H, Ea, <- app_assoc. reflexivity. }
    destruct (state_started _ _ _ _ _ _ _ Hk) as (r2 & rest & Eo & Rest).
    apply (sooner a x (b ++ (ey, oy) :: u) s (c_stale c) now (timers p) ((EvActive r, r2) :: outs rest ++ timers m) d H B); auto.
    + rewrite Ea, timers_app. f_equal. rewrite Eo. reflexivity.
    + assert (No : forall te ro i, In (te, ro) (outs o) -> In (OutCall i) ro -> False).
      { intros te ro i I Oc. apply (call_in _ _ _ _ _ _ _ Hk I) in Oc. destruct (back i _ _ _ Hk (ex_intro _ te Oc)) as (nt & X). discriminate. }
      intros te ro [I|I].
      { injection I as <- <-. split; [easy|]. intros Oc. apply (No (EvActive r) r2 s); auto. rewrite Eo. cbn. auto. }
      apply in_app_or in I. destruct I as [I|I].
      { split; [|intros Oc; apply (No te ro s); auto; rewrite Eo; cbn; auto].
        destruct Rest as [(_ & ->)|(_ & ->)]; [easy|]. destruct I as [I|[]]. injection I as <- <-. cbn. lia. }
      destruct (in_timers _ _ _ I) as (m1 & e1 & o1 & m2 & Em & I1).
      assert (H1 : t = (p ++ (ev, o) :: m1) ++ (e1, o1) :: m2 ++ x :: b ++ (ey, oy) :: u).
      { rewrite Hk, Em, <- ?app_assoc. cbn [app]. rewrite <- ?app_assoc. reflexivity. }
      split.
      * intros St.
        destruct (touch _ _ _ _ _ _ _ H1 I1 (starts_touches _ _ _ St) (or_intror (or_intror eq_refl))) as
          [(? & _ & _ & X)|[(a0 & v0 & g0 & n0 & l0 & _ & _ & X)|(ti & ta & n0 & l0 & -> & _)]]; try lia.
        specialize (Nq (Recv (State (c_vehicle c) ti ta) n0 l0, o1)). cbn [vital] in Nq. rewrite Z.eqb_refl in Nq. discriminate Nq.
        rewrite Eq, Em. apply in_or_app. left. apply in_or_app. right. now left.
      * intros Oc. pose proof (call_in _ _ _ _ _ _ _ H1 I1 Oc) as Oc'.
        assert (Ea' : a = (p ++ (ev, o) :: m1) ++ (e1, o1) :: m2).
        { rewrite Ea, Em, <- app_assoc. reflexivity. }
        destruct (worked a x _ s _ _ _ _ _ H B (or_intror eq_refl) Ea' Oc') as (z & Z1 & Z0 & [(Z2 & _)|(_ & Z2)]); [lia|].
        assert (Nz : vital (c_vehicle c) z = None).
        { apply Nq. rewrite Eq, Em. apply in_or_app. left. apply in_or_app. right. now right. }
        destruct z as (ez, oz). cbn [fst snd] in Z0, Z2. subst oz ez. discriminate.
Qed.

(** A timer that was started is not called back early, nor is its work done. *)
Lemma patient j dl now p e o T q y u : t = p ++ (e, o) :: q ++ y :: u -> j = k \/ j = s ->
  outs o = (EvSingle j dl now false, [OutBool true]) :: T ->
  (forall te ro, In (te, ro) (T ++ timers q) -> ~ starts j (te, ro)) ->
  (forall nt o', In (Timer (EvTurn nt), o') q -> nt < now + dl) ->
  (exists m now later, e = Recv m now later) ->
  forall z, In z q -> snd z <> (if j =? k then [Expired] else [Outdated]).
Proof.
  intros H Hj O Ns Tn He z I Z. pose proof ids as (G1 & G2 & G3).
  apply in_split in I. destruct I as (q1 & q2 & Eq). destruct z as (ez, oz). cbn [snd] in Z.
  assert (H1 : t = (p ++ (e, o) :: q1) ++ (ez, oz) :: q2 ++ y :: u).
  { rewrite H, Eq, <- ?app_assoc. cbn [app]. rewrite <- ?app_assoc. reflexivity. }
  assert (R : exists s0, run (step c) (init c) (map fst (p ++ (e, o) :: q1)) = (s0, p ++ (e, o) :: q1) /\
              exists s', step c s0 ez = (s', oz)).
  { apply run_split in H1. destruct H1 as (s0 & R & _ & X). cbn [fst snd] in X. exists s0. split; auto.
    exists (fst (step c s0 ez)). rewrite X. now destruct (step c s0 ez). }
  destruct R as (s0 & R & s' & E).
  assert (Dp : disciplined (timers ((p ++ (e, o) :: q1) ++ [(ez, oz)]))).
  { pose proof D as X. rewrite H1, (app_assoc _ [(ez, oz)] (q2 ++ y :: u) : _ ++ (ez, oz) :: _ = _) in X. now apply timers_prefix in X. }
  assert (Bt : exists now o, In (Boot now, o) p).
  { destruct He as (m & n & l & ->). destruct Sn as (_ & Sn2). eapply Sn2. exact H. }
  assert (Bt' : exists n0 o0, In (Boot n0, o0) (p ++ (e, o) :: q1)).
  { destruct Bt as (n & o0 & B). exists n, o0. apply in_or_app. now left. }
  destruct (booted_at evs _ _ r k s D H1 Nm Bt') as (_ & I1 & I2 & I3 & _). rewrite R in I1, I2, I3. cbn [fst] in I1, I2, I3.
  assert (C : calling (timers (p ++ (e, o) :: q1)) = Some j).
  { assert (NB : ~ bland oz).
    { intros B. subst oz. destruct (j =? k); destruct (B _ (or_introl eq_refl)) as (te & ro & X & _); discriminate. }
    destruct (step_calling _ _ _ _ _ _ R E Dp) as
      [(n & i & _ & X & _)|[(_ & _ & _ & _ & B)|[(i & _ & C1 & _ & _ & _ & M)|(_ & _ & B & _)]]]; try easy.
    - subst oz. destruct (j =? k); discriminate.
    - rewrite C1. f_equal. subst oz. unfold marks in M. rewrite I1, I2, I3 in M.
      destruct (Z.eqb_spec j k) as [->|]; destruct M as [(_ & rr & X)|[(M & X)|(M & X)]]; try discriminate; lia. }
  assert (Dq : disciplined (timers (p ++ (e, o) :: q1))) by (now apply timers_prefix in Dp).
  pose proof (watch_run (map fst (p ++ (e, o) :: q1))) as W. rewrite R in W. cbn [fst snd] in W.
  destruct (w_turn _ _ (W Dq) j C) as (x & nt & yy & Ex & Cy).
  apply split_cases in Ex. destruct Ex as [(_ & X & _)|[(m & Ex & Em)|(m & Ep & Ey)]].
  - injection X as X _. destruct He as (m0 & n0 & l0 & ->). discriminate.
  - assert (H2 : t = x ++ (Timer (EvTurn nt), [Call (EvTurn nt) [OutCall j]]) :: yy ++ (ez, oz) :: q2 ++ y :: u).
    { rewrite H1, Em, Ex, <- ?app_assoc. cbn [app]. rewrite <- ?app_assoc. reflexivity. }
    assert (T2 : history (map fst (timers t)) = timers x ++ (EvTurn nt, [OutCall j]) :: timers (yy ++ (ez, oz) :: q2 ++ y :: u)).
    { rewrite tied, H2, timers_app. reflexivity. }
    pose proof D as D'. rewrite <- (tied c evs) in D'.
    destruct (C31_fires _ _ _ _ _ j D' T2 (or_introl eq_refl)) as (_ & d & Du & Le).
    assert (Tx : timers x = timers p ++ (EvSingle j dl now false, [OutBool true]) :: (T ++ timers m)).
    { rewrite Ex, timers_app. f_equal. change (timers ((e, o) :: m)) with (outs o ++ timers m). rewrite O. reflexivity. }
    destruct (due_start _ _ _ _ _ _ _ Du Tx) as (f & pe & F & ->); [reflexivity| |].
    + intros e' o' I'. apply Ns. apply in_app_or in I'. apply in_or_app. destruct I' as [I'|I']; [now left|right].
      rewrite Eq, Em, !timers_app. apply in_or_app. left. apply in_or_app. now left.
    + cbn in F. injection F as <- <-. specialize (Tn nt [Call (EvTurn nt) [OutCall j]]).
      assert (nt < now + dl); [|lia]. apply Tn. rewrite Eq, Em. apply in_or_app. left. apply in_or_app. right. now left.
  - assert (Cp : calling (timers p) = Some j).
    { rewrite Ep. apply (Cy m ((e, o) :: q1)). exact Ey. }
    specialize (D (timers p) (EvSingle j dl now false) [OutBool true] (T ++ timers (q ++ y :: u))). cbn in D. apply D; auto.
    rewrite H, timers_app. f_equal. change (timers ((e, o) :: q ++ y :: u)) with (outs o ++ timers (q ++ y :: u)).
    rewrite O. reflexivity.
Qed.

Lemma keeps_core pa v g now later p o q y u rep : t = p ++ (Recv (KeepAlive pa v g) now later, o) :: q ++ y :: u ->
  In (Sent rep) (snd y) ->
  (forall a' v' g' n' l' o', ~ In (Recv (KeepAlive a' v' g') n' l', o') q) ->
  (forall nt o', In (Timer (EvTurn nt), o') q -> nt < now + c_expiry c) ->
  (r_authorized rep, r_speed rep, r_gimbal rep) = (pa, v, g).
Proof.
  intros H S Nk Tn. pose proof ids as (G1 & G2 & G3). set (ev := Recv (KeepAlive pa v g) now later) in *.
  assert (H' : t = (p ++ (ev, o) :: q) ++ y :: u) by (rewrite <- app_assoc; exact H).
  destruct y as (ey, oy). destruct (C85_report _ _ _ _ _ _ H' S) as (_ & _ & _ & _ & _ & _ & _ & _ & P1 & _).
  apply P1. exists p, (ev, o), q. split; auto. split; [reflexivity|].
  pose proof (keep_started _ _ _ _ _ _ _ _ H) as Eo.
  assert (Pt : forall z, In z q -> snd z <> (if k =? k then [Expired] else [Outdated])).
  { apply (patient k (c_expiry c) now p ev o [] q (ey, oy) u H); auto.
    - rewrite Eo. reflexivity.
    - cbn [app]. intros te ro I St. destruct (in_timers _ _ _ I) as (m1 & e1 & o1 & m2 & Em & I1).
      assert (H1 : t = (p ++ (ev, o) :: m1) ++ (e1, o1) :: m2 ++ (ey, oy) :: u).
      { rewrite H, Em, <- ?app_assoc. cbn [app]. rewrite <- ?app_assoc. reflexivity. }
      destruct (touch _ _ _ _ _ _ _ H1 I1 (starts_touches _ _ _ St) (or_intror (or_introl eq_refl))) as
          [(? & _ & _ & X)|[(a0 & v0 & g0 & n0 & l0 & -> & _)|(? & ? & ? & ? & _ & [(X & _)|(X & _)])]]; try lia.
      apply (Nk a0 v0 g0 n0 l0 o1). rewrite Em. apply in_or_app. right. now left.
    - unfold ev. eauto. }
  rewrite Z.eqb_refl in Pt. intros (ez, oz) I. specialize (Pt _ I). cbn [snd] in Pt.
  assert (Q : match oz with [Expired] => Some (false, false, false) | _ => None end = None).
  { destruct oz as [|[?|?| |] [|? ?]]; auto. now destruct Pt. }
  destruct ez as [?|[? ? ?|?|?|a' v' g'|] n' l'|?|]; cbn [pulse]; auto. now apply Nk in I.
Qed.

Lemma fresh_core time tasks now later p o q y u rep :
  t = p ++ (Recv (State (c_vehicle c) time tasks) now later, o) :: q ++ y :: u -> In (Sent rep) (snd y) ->
  (forall ti ta n' l' o', ~ In (Recv (State (c_vehicle c) ti ta) n' l', o') q) ->
  (forall nt o', In (Timer (EvTurn nt), o') q -> nt < now + c_stale c) ->
  r_state rep = true.
Proof.
  intros H S Nk Tn. pose proof ids as (G1 & G2 & G3). set (ev := Recv (State (c_vehicle c) time tasks) now later) in *.
  assert (H' : t = (p ++ (ev, o) :: q) ++ y :: u) by (rewrite <- app_assoc; exact H).
  destruct y as (ey, oy). destruct (C85_report _ _ _ _ _ _ H' S) as (_ & _ & _ & _ & _ & _ & _ & P1 & _).
  apply P1. exists p, (ev, o), q. split; auto. split; [cbn; now rewrite Z.eqb_refl|].
  destruct (state_started _ _ _ _ _ _ _ H) as (r2 & rest & Eo & Rest).
  assert (Pt : forall z, In z q -> snd z <> (if s =? k then [Expired] else [Outdated])).
  { apply (patient s (c_stale c) now p ev o ((EvActive r, r2) :: outs rest) q (ey, oy) u H); auto.
    - rewrite Eo. reflexivity.
    - intros te ro [I|I] St; [injection I as <- <-; exact St|]. apply in_app_or in I. destruct I as [I|I].
      { destruct Rest as [(_ & ->)|(_ & ->)]; [easy|]. destruct I as [I|[]]. injection I as <- <-. cbn in St. lia. }
      destruct (in_timers _ _ _ I) as (m1 & e1 & o1 & m2 & Em & I1).
      assert (H1 : t = (p ++ (ev, o) :: m1) ++ (e1, o1) :: m2 ++ (ey, oy) :: u).
      { rewrite H, Em, <- ?app_assoc. cbn [app]. rewrite <- ?app_assoc. reflexivity. }
      destruct (touch _ _ _ _ _ _ _ H1 I1 (starts_touches _ _ _ St) (or_intror (or_intror eq_refl))) as
          [(? & _ & _ & X)|[(a0 & v0 & g0 & n0 & l0 & _ & _ & X)|(ti & ta & n0 & l0 & -> & _)]]; try lia.
      apply (Nk ti ta n0 l0 o1). rewrite Em. apply in_or_app. right. now left.
    - unfold ev. eauto. }
  rewrite (proj2 (Z.eqb_neq s k)) in Pt by lia. intros (ez, oz) I. specialize (Pt _ I). cbn [snd] in Pt.
  assert (Q : match oz with [Outdated] => Some false | _ => None end = None).
  { destruct oz as [|[?|?| |] [|? ?]]; auto. now destruct Pt. }
  destruct ez as [?|[id ti ta|?|?|a' v' g'|] n' l'|?|]; cbn [vital]; auto.
  destruct (Z.eqb_spec id (c_vehicle c)) as [->|]; auto. now apply Nk in I.
Qed.

(** The timer of the reports is started once. *)
Lemma one_start p q : t = p ++ q -> forall p1 n0 p2, p = p1 ++ (Boot n0, boot_calls r n0) :: p2 ->
  forall te ro, In (te, ro) (timers p2) -> ~ starts r (te, ro).
Proof.
  pose proof ids as (G1 & G2 & G3). revert q.
  induction p as [|(e, o) p IH] using rev_ind; intros q H p1 n0 p2 E te ro I St; [now destruct p1|].
  destruct p2 as [|z p2 _] using rev_ind; [easy|].
  rewrite app_comm_cons, app_assoc in E. apply app_inj_tail in E. destruct E as (Ep & <-).
  assert (H1 : t = p ++ (e, o) :: q) by (rewrite H, <- app_assoc; reflexivity).
  rewrite timers_snoc in I. apply in_app_or in I. destruct I as [I|I].
  { apply (IH _ H1 p1 n0 p2 Ep te ro I St). }
  destruct (touch _ _ _ _ _ _ _ H1 I (starts_touches _ _ _ St) (or_introl eq_refl)) as
    [(n1 & -> & _)|[(a0 & v0 & g0 & n1 & l0 & _ & _ & X)|(ti & ta & n1 & l1 & -> & _)]]; [|lia|].
  - (* a second start of the service *)
    assert (Bt : exists now o, In (Boot now, o) p).
    { exists n0, (boot_calls r n0). rewrite Ep. apply in_or_app. right. now left. }
    destruct (booted_at evs p _ r k s D H1 Nm Bt) as (_ & _ & _ & _ & _ & _ & _ & q1 & n2 & q2 & _ & _ & Nb).
    rewrite (Nb n1 o) in I; [easy|]. apply in_or_app. right. now left.
  - destruct (state_started _ _ _ _ _ _ _ H1) as (r2 & rest & Eo & [(_ & ->)|(Ne & ->)]).
    { rewrite Eo in I. cbn in I. destruct I as [I|[I|[]]]; injection I as <- <-; cbn in St; [lia|easy]. }
    apply Ne. clear I St. set (S1 := (EvSingle s (c_stale c) n1 false, [OutBool true])).
    assert (T : timers t = ((timers p ++ [S1]) ++ [(EvActive r, r2)]) ++
              (EvPeriodic r (c_period c) (c_period c) l1 false, [OutBool true]) :: timers q).
    { rewrite H1, timers_app, <- !app_assoc. f_equal.
      change (timers ((Recv (State (c_vehicle c) ti ta) n1 l1, o) :: q)) with (outs o ++ timers q). rewrite Eo. reflexivity. }
    assert (T' : history (map fst (timers t)) = (timers p ++ [S1]) ++ (EvActive r, r2) ::
              (EvPeriodic r (c_period c) (c_period c) l1 false, [OutBool true]) :: timers q).
    { rewrite tied, T, <- !app_assoc. reflexivity. }
    pose proof (D _ _ _ _ T) as Cr. cbn in Cr.
    pose proof D as D'. rewrite <- (tied c evs) in D'. pose proof Ap as A'. rewrite <- (tied c evs) in A'.
    destruct (C30_active _ _ _ _ _ D' A' T') as (rr & -> & Act). f_equal. f_equal. apply Act.
    assert (Cn : calling (timers p ++ [S1]) <> Some r).
    { intros X. apply Cr. rewrite calling_snoc. exact X. }
    exists (n0 + c_period c + calls r (timers p2 ++ [S1]) * c_period c). split; [|exact Cn].
    exists (timers p1 ++ outs (firstn 3 (boot_calls r n0))), (EvPeriodic r (c_period c) (c_period c) n0 false), [OutBool true],
      (timers p2 ++ [S1]), (n0 + c_period c), (c_period c).
    split; [|split; [reflexivity|split; [reflexivity|split; [|split; [reflexivity|lia]]]]].
    + rewrite Ep, timers_app. change (timers ((Boot n0, boot_calls r n0) :: p2)) with (outs (boot_calls r n0) ++ timers p2).
      rewrite <- !app_assoc. reflexivity.
    + intros e' o' I'. split.
      * apply in_app_or in I'. destruct I' as [I'|[I'|[]]]; [apply (IH _ H1 p1 n0 p2 Ep e' o' I')|].
        injection I' as <- <-. cbn. lia.
      * apply (no_stops e' o' r); [|now left]. rewrite T, Ep, timers_app.
        change (timers ((Boot n0, boot_calls r n0) :: p2)) with (outs (boot_calls r n0) ++ timers p2).
        rewrite !in_app_iff. apply in_app_or in I'. tauto.
Qed.

Lemma period_core a x rest d : t = a ++ x :: rest -> due (timers a) r d ->
  exists n0, In (Boot n0, boot_calls r n0) a /\ d = n0 + (1 + calls r (timers a)) * c_period c.
Proof.
  intros H Du. pose proof ids as (G1 & G2 & G3).
  assert (Bt : exists now o, In (Boot now, o) a).
  { destruct Du as (A & e & o & B & f & pe & E & S & _).
    assert (I : In (e, o) (timers a)) by (rewrite E; apply in_or_app; right; now left).
    destruct (in_timers _ _ _ I) as (m1 & e1 & o1 & m2 & Em & I1).
    assert (H1 : t = m1 ++ (e1, o1) :: m2 ++ x :: rest) by (rewrite H, Em, <- app_assoc; reflexivity).
    destruct (touch _ _ _ _ _ _ _ H1 I1 (starts_touches _ _ _ S) (or_introl eq_refl)) as
      [(n1 & -> & _)|[(a0 & v0 & g0 & n1 & l0 & _ & _ & X)|(ti & ta & n1 & l1 & -> & _)]]; [|lia|].
    - exists n1, o1. rewrite Em. apply in_or_app. right. now left.
    - destruct Sn as (_ & Sn2). destruct (Sn2 _ _ _ _ _ _ H1) as (n2 & o2 & I2). exists n2, o2. rewrite Em.
      apply in_or_app. now left. }
  destruct (booted_at evs a _ r k s D H Nm Bt) as (_ & _ & _ & _ & _ & _ & _ & p1 & n0 & p2 & Ep & Na & Nb).
  exists n0. split; [rewrite Ep; apply in_or_app; right; now left|].
  assert (Ti : timers a = (timers p1 ++ outs (firstn 3 (boot_calls r n0))) ++
             (EvPeriodic r (c_period c) (c_period c) n0 false, [OutBool true]) :: timers p2).
  { rewrite Ep, timers_app. change (timers ((Boot n0, boot_calls r n0) :: p2)) with (outs (boot_calls r n0) ++ timers p2).
    rewrite <- !app_assoc. reflexivity. }
  destruct (due_start _ _ _ _ _ _ _ Du Ti) as (f & pe & F & ->); [reflexivity|apply (one_start a _ H p1 n0 p2 Ep)|].
  cbn in F. injection F as <- <-. rewrite Ti. rewrite TimerDue.calls_app.
  assert (Z1 : calls r (timers p1 ++ outs (firstn 3 (boot_calls r n0))) = 0).
  { apply calls_none. intros te ro I Oc. apply in_app_or in I. destruct I as [I|I].
    2: { cbn in I. destruct I as [I|[I|[I|[]]]]; injection I as <- <-; destruct Oc as [Oc|[]]; discriminate. }
    assert (H1 : t = p1 ++ (Boot n0, boot_calls r n0) :: p2 ++ x :: rest) by (rewrite H, Ep, <- app_assoc; reflexivity).
    pose proof (trace_prefix _ _ _ H1) as Hp.
    assert (Dp : disciplined (timers p1)) by (pose proof D as X; rewrite H1 in X; now apply timers_prefix in X).
    destruct (at_step _ _ _ _ _ H1) as (_ & s' & E). pose proof (step_shape _ _ _ _ E) as [(_ & _ & Sh)|(_ & Bo)]; [discriminate|].
    destruct (base (map fst p1)) as (V & _); [now rewrite Hp|]. apply boot_shape in Bo; [|apply V].
    destruct Bo as (Bo & _). injection Bo as Bo _ _ _.
    pose proof (tie c (map fst p1)) as T. pose proof (tied c (map fst p1)) as T'. rewrite Hp in T, T'.
    pose proof (called_known (map fst (timers p1)) r) as K. rewrite T', T in K. cbn [fst] in K.
    specialize (K Dp). rewrite <- Bo in K. assert (r < r); [|lia]. apply K.
    apply in_flat_map. exists (te, ro). auto. }
  assert (Z2 : calls r ((EvPeriodic r (c_period c) (c_period c) n0 false, [OutBool true]) :: timers p2) = calls r (timers p2)) by reflexivity.
  rewrite Z1, Z2. lia.
Qed.
End Names.

Lemma held evs i b : forall a x rest, disciplined (timers (trace_of evs)) ->
  trace_of evs = a ++ x :: b ++ rest -> calls_back i x -> mine (state_of (map fst a)) i = true ->
  (forall o, ~ In (Body, o) b) ->
  calling (timers (a ++ x :: b)) = Some i /\ s_waiting (state_of (map fst (a ++ x :: b))) = true /\
  mine (state_of (map fst (a ++ x :: b))) i = true.
Proof.
  assert (Step : forall p e o rest, disciplined (timers (trace_of evs)) -> trace_of evs = p ++ (e, o) :: rest ->
    exists s0 s', run (step c) (init c) (map fst p) = (s0, p) /\ step c s0 e = (s', o) /\
      state_of (map fst (p ++ [(e, o)])) = s' /\ disciplined (timers (p ++ [(e, o)]))).
  { intros p e o rest D H. pose proof H as H0. apply run_split in H. destruct H as (s0 & R & R' & X). cbn [fst snd] in R', X.
    exists s0, (fst (step c s0 e)). split; auto. split; [rewrite X; now destruct (step c s0 e)|].
    split; [rewrite map_app; cbn [map fst]; now rewrite R'|].
    rewrite H0, (app_assoc p [(e, o)] rest : p ++ (e, o) :: rest = _) in D. now apply timers_prefix in D. }
  induction b as [|z b IH] using rev_ind; intros a x rest D H B M Nb.
  - destruct x as (e, o). destruct (Step _ _ _ _ D H) as (s0 & s' & R & E & St & Dp).
    assert (E0 : state_of (map fst a) = s0) by now rewrite R. rewrite E0 in M.
    destruct B as (te & O). cbn [snd] in O. rewrite St.
    assert (NB : ~ bland o).
    { intros X. destruct (X _ O) as (te' & ro & Y & N). injection Y as <- <-. now apply (N i). }
    pose proof (step_shape _ _ _ _ E) as Sh.
    destruct (step_calling _ _ _ _ _ _ R E Dp) as
      [(now & j & -> & -> & _ & CS & W)|[(_ & _ & _ & _ & X)|[(j & _ & _ & _ & _ & _ & X)|(_ & _ & X & _)]]]; try easy.
    + destruct O as [O|[]]. injection O as <- <-. destruct Sh as (Sa & _). split; [exact CS|].
      split; [congruence|]. now rewrite (same_mine _ _ _ Sa).
    + destruct X as [(_ & rr & ->)|[(_ & ->)|(_ & ->)]]; destruct O as [O|[]]; discriminate.
  - rewrite <- app_assoc in H. destruct (IH a x (z :: rest) D H B M) as (C & W & M').
    { intros o I. apply (Nb o). apply in_or_app. now left. }
    destruct z as (e, o).
    assert (H1 : trace_of evs = (a ++ x :: b) ++ (e, o) :: rest) by (rewrite <- app_assoc; exact H).
    destruct (Step _ _ _ _ D H1) as (s0 & s' & R & E & St & Dp).
    assert (E0 : state_of (map fst (a ++ x :: b)) = s0) by now rewrite R. rewrite E0 in W, M'.
    rewrite (app_comm_cons b [(e, o)] x), app_assoc. rewrite St.
    destruct (step_calling _ _ _ _ _ _ R E Dp) as
      [(now & j & _ & _ & X & _)|[(_ & X & _)|[(j & -> & _)|(X & Y & _)]]]; try congruence.
    + exfalso. apply (Nb o). apply in_or_app. right. now left.
    + split; [congruence|]. split; [congruence|].
      pose proof (step_shape _ _ _ _ E) as Sh.
      assert (Sa : same s0 s' \/ s_booted s0 = false).
      { destruct e as [now|m now later|e|].
        - destruct Sh as [(_ & -> & _)|(Wb & _)]; [left; unfold same; auto|now right].
        - left. destruct m; apply Sh.
        - left. destruct e; try apply Sh. destruct Sh as [(_ & -> & _)|(_ & (Sh & _) & _)]; auto. unfold same; auto.
        - left. apply Sh. }
      destruct Sa as [Sa|Sa]; [now rewrite (same_mine _ _ _ Sa)|]. unfold mine in M'. rewrite Sa in M'. discriminate.
Qed.

(** When the timer manager has called back, the next thing that the callback does is to send one
    report, to withdraw what was allowed, or to call the state outdated. *)
Theorem C85_callbacks evs a x b o u r k s i :
  disciplined (timers (trace_of evs)) -> sane (trace_of evs) -> named (trace_of evs) r k s ->
  trace_of evs = a ++ x :: b ++ (Body, o) :: u -> calls_back i x -> (forall o, ~ In (Body, o) b) ->
  (i = r -> exists rep, o = [Sent rep]) /\ (i = k -> o = [Expired]) /\ (i = s -> o = [Outdated]).
Proof.
  intros D Sn Nm H B Nb. pose proof (ids evs r k s D Nm) as (G1 & G2 & G3).
  assert (Q : i = r \/ i = k \/ i = s -> marks (state_of (map fst (a ++ x :: b))) i o /\
    s_report_id (state_of (map fst (a ++ x :: b))) = r /\ s_keep_id (state_of (map fst (a ++ x :: b))) = k /\
    s_stale_id (state_of (map fst (a ++ x :: b))) = s).
  { intros Hi.
    (* the service has been started *)
    assert (Bt : exists now o, In (Boot now, o) a).
    { destruct (back evs D i a x _ H B) as (nt & ->).
      assert (T : history (map fst (timers (trace_of evs))) = timers a ++ (EvTurn nt, [OutCall i]) :: timers (b ++ (Body, o) :: u)).
      { rewrite tied, H, timers_app. reflexivity. }
      pose proof D as D'. rewrite <- (tied c evs) in D'.
      destruct (C31_fires _ _ _ _ _ i D' T (or_introl eq_refl)) as (_ & d & (A & e & o0 & B0 & f & pe & E & S & _) & _).
      assert (I : In (e, o0) (timers a)) by (rewrite E; apply in_or_app; right; now left).
      destruct (in_timers _ _ _ I) as (m1 & e1 & o1 & m2 & Em & I1).
      assert (H1 : trace_of evs = m1 ++ (e1, o1) :: m2 ++ (Timer (EvTurn nt), [Call (EvTurn nt) [OutCall i]]) :: b ++ (Body, o) :: u).
      { rewrite H, Em, <- app_assoc. reflexivity. }
      destruct (touch evs r k s D Sn Nm _ _ _ _ _ _ _ H1 I1 (starts_touches _ _ _ S) Hi) as
        [(n1 & -> & _)|[(a0 & v0 & g0 & n1 & l0 & -> & _)|(ti & ta & n1 & l1 & -> & _)]].
      - exists n1, o1. rewrite Em. apply in_or_app. right. now left.
      - destruct Sn as (_ & Sn2). destruct (Sn2 _ _ _ _ _ _ H1) as (n2 & o2 & I2). exists n2, o2. rewrite Em.
        apply in_or_app. now left.
      - destruct Sn as (_ & Sn2). destruct (Sn2 _ _ _ _ _ _ H1) as (n2 & o2 & I2). exists n2, o2. rewrite Em.
        apply in_or_app. now left. }
    destruct (booted_at evs a _ r k s D H Nm Bt) as (Bb & I1 & I2 & I3 & _).
    assert (M : mine (state_of (map fst a)) i = true).
    { unfold mine. rewrite Bb, I1, I2, I3. cbn [andb]. rewrite !orb_true_iff, !Z.eqb_eq. tauto. }
    destruct (held evs i b a x _ D H B M Nb) as (C & W & M').
    assert (H1 : trace_of evs = (a ++ x :: b) ++ (Body, o) :: u) by (rewrite <- app_assoc; exact H).
    assert (Bt' : exists now o0, In (Boot now, o0) (a ++ x :: b)).
    { destruct Bt as (n & o0 & I). exists n, o0. apply in_or_app. now left. }
    destruct (booted_at evs _ _ r k s D H1 Nm Bt') as (_ & J1 & J2 & J3 & _).
    split; auto.
    pose proof H1 as H0. apply run_split in H1. destruct H1 as (s0 & R & R' & X). cbn [fst snd] in R', X.
    assert (E0 : state_of (map fst (a ++ x :: b)) = s0) by now rewrite R. rewrite E0 in *.
    assert (E : step c s0 Body = (fst (step c s0 Body), o)) by (rewrite X; now destruct (step c s0 Body)).
    assert (Dp : disciplined (timers ((a ++ x :: b) ++ [(Body, o)]))).
    { rewrite H0, (app_assoc _ [(Body, o)] u : _ ++ (Body, o) :: u = _) in D. now apply timers_prefix in D. }
    destruct (step_calling _ _ _ _ _ _ R E Dp) as
      [(now & j & Y & _)|[(Y & _)|[(j & _ & C1 & _ & _ & _ & Y)|(_ & _ & _ & Y)]]]; try discriminate.
    - assert (j = i) as -> by congruence. exact Y.
    - destruct (Y eq_refl) as (_ & Y'). rewrite (Y' W i C) in M'. discriminate. }
  assert (Q' : i = r \/ i = k \/ i = s -> (i = r /\ exists rep, o = [Sent rep]) \/ (i = k /\ o = [Expired]) \/ (i = s /\ o = [Outdated])).
  { intros Hi. destruct (Q Hi) as (Mk & J1 & J2 & J3). unfold marks in Mk. rewrite J1, J2, J3 in Mk. exact Mk. }
  split; [|split]; intros Hi.
  - destruct Q' as [(_ & X)|[(X & _)|(X & _)]]; auto; lia.
  - destruct Q' as [(X & _)|[(_ & X)|(X & _)]]; auto; lia.
  - destruct Q' as [(X & _)|[(X & _)|(_ & X)]]; auto; lia.
Qed.

(** The reports are due a period apart, counted from the start of the service. *)
Theorem C85_period evs r k s a b d rep :
  calm (trace_of evs) -> sane (trace_of evs) -> named (trace_of evs) r k s ->
  sending (trace_of evs) r a b d rep ->
  exists now o, In (Boot now, o) a /\ d = now + (1 + calls r (timers a)) * c_period c.
Proof.
  intros (D & Ap) Sn Nm (x & y & u & H & B & _ & S & Du).
  destruct (period_core evs r k s D Sn Nm Ap a x _ d H Du) as (n0 & I & E). eauto.
Qed.

(** A report that allows anything is backed by a keep-alive that is younger, at the time the
    report is due, than the expiration time, or was handled after the callback was called. *)
Theorem C85_authorized evs r k s a b d rep :
  calm (trace_of evs) -> sane (trace_of evs) -> named (trace_of evs) r k s ->
  sending (trace_of evs) r a b d rep ->
  r_authorized rep || r_speed rep || r_gimbal rep = true ->
  exists p v g now later o,
    In (Recv (KeepAlive p v g) now later, o) b \/
    (In (Recv (KeepAlive p v g) now later, o) a /\ d < now + c_expiry c).
Proof.
  intros (D & Ap) Sn Nm (x & y & u & H & B & _ & S & Du) Au.
  exact (authorized_core evs r k s D Sn Nm Ap a x b y u d rep H B S Du Au).
Qed.

(** A report that says that the state is valid is backed by such a state of the vehicle. *)
Theorem C85_valid evs r k s a b d rep :
  calm (trace_of evs) -> sane (trace_of evs) -> named (trace_of evs) r k s ->
  sending (trace_of evs) r a b d rep -> r_state rep = true ->
  exists time tasks now later o,
    In (Recv (State (c_vehicle c) time tasks) now later, o) b \/
    (In (Recv (State (c_vehicle c) time tasks) now later, o) a /\ d < now + c_stale c).
Proof.
  intros (D & Ap) Sn Nm (x & y & u & H & B & _ & S & Du) Au.
  exact (valid_core evs r k s D Sn Nm Ap a x b y u d rep H B S Du Au).
Qed.

(** What the last keep-alive allowed is reported as long as the timer manager does not look at its
    queue after the expiration time. *)
Theorem C85_keeps evs r k s p v g w now later o q y u rep :
  disciplined (timers (trace_of evs)) -> sane (trace_of evs) -> named (trace_of evs) r k s ->
  trace_of evs = p ++ (Recv (KeepAlive v g w) now later, o) :: q ++ y :: u -> In (Sent rep) (snd y) ->
  (forall v' g' w' n' l' o', ~ In (Recv (KeepAlive v' g' w') n' l', o') q) ->
  (forall n' o', In (Timer (EvTurn n'), o') q -> n' < now + c_expiry c) ->
  (r_authorized rep, r_speed rep, r_gimbal rep) = (v, g, w).
Proof.
  intros D Sn Nm H S Nk Tn. exact (keeps_core evs r k s D Sn Nm v g w now later p o q y u rep H S Nk Tn).
Qed.

(** And so is that there is a state. *)
Theorem C85_fresh evs r k s p time tasks now later o q y u rep :
  disciplined (timers (trace_of evs)) -> sane (trace_of evs) -> named (trace_of evs) r k s ->
  trace_of evs = p ++ (Recv (State (c_vehicle c) time tasks) now later, o) :: q ++ y :: u -> In (Sent rep) (snd y) ->
  (forall ti ta n' l' o', ~ In (Recv (State (c_vehicle c) ti ta) n' l', o') q) ->
  (forall n' o', In (Timer (EvTurn n'), o') q -> n' < now + c_stale c) ->
  r_state rep = true.
Proof.
  intros D Sn Nm H S Nk Tn. exact (fresh_core evs r k s D Sn Nm time tasks now later p o q y u rep H S Nk Tn).
Qed.
End Service.

(** What the options mean. *)
Theorem C85_options entity vehicle period stale expiry :
  let c := configure entity vehicle period stale expiry in
  c_vehicle c = match vehicle with Some v => v | None => entity end /\
  c_period c = Z.max 100 (match period with Some x => x | None => 5000 end) /\
  c_stale c = Z.max 10 (match stale with Some x => x | None => 5000 end) /\
  c_expiry c = Z.max 1000 (match expiry with Some x => x | None => 7000 end).
Proof.
  cbn. split; auto.
  assert (M : forall a b, (if b <? a then a else b) = Z.max a b) by (intros a b; destruct (Z.ltb_spec b a); lia).
  rewrite !M. auto.
Qed.

(** A vehicle that is heard of for a while, and then no more. *)
Definition plain : config := configure 7 None None None None.
Definition demo : list event :=
  [Timer EvCreate; Boot 1000; Recv (State 7 55 [12; 13]) 1500 1500; Recv (Join 9) 1600 1600;
   Recv (KeepAlive true false true) 2100 2100; Recv (State 8 56 [14]) 2200 2200; Recv (Join 10) 2300 2300;
   Timer (EvSingle 1 400 2400 false); Recv (Exit 9) 2500 2500; Timer (EvTurn 3000); Timer EvDone;
   Timer (EvTurn 6003); Body; Timer EvDone; Timer (EvTurn 6700); Body; Timer EvDone;
   Timer (EvTurn 9200); Body; Timer EvDone; Timer (EvTurn 11004); Body; Timer EvDone].
Notation first := (snd (run (step plain) (init plain) demo)).

Definition reports (t : trace) : list report :=
  flat_map (fun x => flat_map (fun o => match o with Sent r => [r] | _ => [] end) (snd x)) t.

Example demo_reports : reports first =
  [{| r_vehicle := 7; r_connected := [10]; r_tasks := [12; 13]; r_state := true; r_authorized := true;
      r_speed := false; r_gimbal := true; r_time := 55 |};
   {| r_vehicle := 7; r_connected := [10]; r_tasks := [12; 13]; r_state := false; r_authorized := false;
      r_speed := false; r_gimbal := false; r_time := 55 |}].
Proof. vm_compute. reflexivity. Qed.

Fixpoint sorted_recv (b : bool) (l : list event) : bool :=
  match l with
  | [] => true
  | Boot _ :: l' => sorted_recv true l'
  | Recv _ _ _ :: l' => b && sorted_recv b l'
  | _ :: l' => sorted_recv b l'
  end.

Lemma recv_after_boot c evs : sorted_recv false evs = true ->
  forall a m now later o b, snd (run (step c) (init c) evs) = a ++ (Recv m now later, o) :: b ->
    exists now' o', In (Boot now', o') a.
Proof.
  intros H a m now later o b E.
  assert (X : evs = map fst a ++ Recv m now later :: map fst b).
  { rewrite <- (run_events (step c) (init c) evs), E, map_app. reflexivity. }
  assert (K : forall l2 l1 b0, sorted_recv b0 (l1 ++ Recv m now later :: l2) = true -> b0 = true \/ exists n, In (Boot n) l1).
  { clear. intros l2. induction l1 as [|e l1 IH]; intros b0 H.
    - cbn in H. apply andb_prop in H. left. apply H.
    - destruct e as [n|m' n' l'|e|]; cbn in H.
      + right. exists n. now left.
      + apply andb_prop in H. destruct H as (H1 & H2). apply IH in H2. destruct H2 as [H2|(n & H2)]; [now left|right; exists n; now right].
      + apply IH in H. destruct H as [H2|(n & H2)]; [now left|right; exists n; now right].
      + apply IH in H. destruct H as [H2|(n & H2)]; [now left|right; exists n; now right]. }
  rewrite X in H. apply K in H. destruct H as [H|(n & H)]; [discriminate|].
  apply in_map_iff in H. destruct H as ((e, o') & H1 & H2). cbn in H1. subst e. eauto.
Qed.

Definition untouched (i j l : Z) (e : TimerModel.event) : bool :=
  let clear x := negb (x =? i) && negb (x =? j) && negb (x =? l) in
  match e with
  | EvSingle x _ _ _ | EvPeriodic x _ _ _ _ | EvDisable x | EvDestroy x => clear x
  | EvDestroyAll ids _ => forallb clear ids
  | _ => true
  end.

(** The timers of a history, computed. *)
Definition names (t : trace) : list (Z * Z * Z) :=
  flat_map (fun x => match x with
                     | (Boot _, Call EvCreate [OutId r] :: Call EvCreate [OutId k] :: Call EvCreate [OutId s] :: _) =>
                         [(r, k, s)]
                     | _ => []
                     end) t.

Lemma named_names t r k s : named t r k s <-> In (r, k, s) (names t).
Proof.
  unfold named, names. rewrite in_flat_map. split.
  - intros (n & o & I). eexists. split; [exact I|]. now left.
  - intros ((e, o) & I & X). destruct e; try easy.
destruct o as [|x o]; [easy|]. destruct x as [te ro| | |]; try easy. destruct te; try easy.
    destruct ro as [|y ro]; [easy|]. destruct y as [r'| | |]; try easy. destruct ro; [|easy].
    destruct o as [|x o]; [easy|]. destruct x as [te ro| | |]; try easy. destruct te; try easy.
    destruct ro as [|y ro]; [easy|]. destruct y as [k'| | |]; try easy. destruct ro; [|easy].
    destruct o as [|x o]; [easy|]. destruct x as [te ro| | |]; try easy. destruct te; try easy.
    destruct ro as [|y ro]; [easy|]. destruct y as [s'| | |]; try easy. destruct ro; [|easy].
    destruct X as [X|[]]. injection X as -> -> ->. eauto.
Qed.

Definition still (i : Z) (x : TimerModel.event * list TimerModel.out) : bool :=
  match x with
  | (EvSingle j _ _ _, [OutBool true]) | (EvPeriodic j _ _ _ _, [OutBool true]) => negb (j =? i)
  | (EvDisable j, _) | (EvDestroy j, _) => negb (j =? i)
  | (EvDestroyAll ids _, _) => negb (existsb (Z.eqb i) ids)
  | _ => true
  end.

Lemma still_ok i e o : still i (e, o) = true -> ~ starts i (e, o) /\ ~ stops i e.
Proof.
  destruct e; cbn; intros H; split; auto;
    try (destruct o as [|[?|[|]|?|?] [|? ?]]; auto; apply negb_true_iff, Z.eqb_neq in H; auto);
    try (apply negb_true_iff, Z.eqb_neq in H; auto).
  apply negb_true_iff in H. intros I. apply not_true_iff_false in H. apply H.
  apply existsb_exists. exists i. split; auto. apply Z.eqb_refl.
Qed.

Lemma due_check T i d A e B first period : T = A ++ (e, [OutBool true]) :: B -> starts i (e, [OutBool true]) ->
  first_due e = (first, period) -> forallb (still i) B = true -> 0 < period -> d = first + calls i B * period -> due T i d.
Proof.
  intros E S F Q P ->. exists A, e, [OutBool true], B, first, period. split; auto. split; auto. split; auto.
  split; [|split; [reflexivity|lia]]. rewrite forallb_forall in Q. intros e' o' I. now apply still_ok, Q.
Qed.

Lemma sane_check c evs r k s :
  sorted_recv false evs = true -> names (snd (run (step c) (init c) evs)) = [(r, k, s)] ->
  forallb (fun e => match e with Timer e => untouched r k s e | _ => true end) evs = true ->
  sane (snd (run (step c) (init c) evs)).
Proof.
  intros H N F. split; [|now apply recv_after_boot].
  intros r' k' s' e o N' I. apply named_names in N'. rewrite N in N'. destruct N' as [N'|[]]. injection N' as <- <- <-.
  assert (I' : In (Timer e) evs).
  { rewrite <- (run_events (step c) (init c) evs). apply in_map_iff. exists (Timer e, o). auto. }
  rewrite forallb_forall in F. specialize (F _ I'). cbn in F.
  assert (Cl : forall x, negb (x =? r) && negb (x =? k) && negb (x =? s) = true -> x <> r /\ x <> k /\ x <> s).
  { intros x X. rewrite !andb_true_iff, !negb_true_iff, !Z.eqb_neq in X. tauto. }
  destruct e; cbn [untouched touches] in *; try tauto; try (apply Cl in F; tauto).
  rewrite forallb_forall in F. repeat split; intros I2; apply F, Cl in I2; tauto.
Qed.

Example demo_names : names first = [(2, 3, 4)].
Proof. vm_compute. reflexivity. Qed.

Example demo_named : named first 2 3 4.
Proof. apply named_names. rewrite demo_names. now left. Qed.

Example demo_sane : sane first.
Proof.
  apply (sane_check plain demo 2 3 4); [vm_compute; reflexivity|apply demo_names|vm_compute; reflexivity].
Qed.

Lemma demo_history : history (map fst (timers first)) = timers first.
Proof. apply (tied plain demo). Qed.

Example demo_calm : calm first.
Proof.
  unfold calm. rewrite <- demo_history.
  assert (Dd : disciplined (history (map fst (timers first)))) by (apply obeyed_disciplined; vm_compute; reflexivity).
  split; [exact Dd|]. apply sparse_apart; [exact Dd|]. intros i j d.
  replace (p_all (the_plan (history (map fst (timers first)))))
    with [(2, 16000); (2, 11000); (1, 2800); (3, 9100); (4, 6500); (2, 6000)] by (vm_compute; reflexivity).
  cbn. intuition (try congruence).
Qed.

(** The report that is due at 6000. *)
Definition told_first : report :=
  {| r_vehicle := 7; r_connected := [10]; r_tasks := [12; 13]; r_state := true; r_authorized := true;
     r_speed := false; r_gimbal := true; r_time := 55 |}.

Lemma demo_split : first = firstn 11 first ++ (Timer (EvTurn 6003), [Call (EvTurn 6003) [OutCall 2]]) ::
  [] ++ (Body, [Sent told_first]) :: skipn 13 first.
Proof. vm_compute. reflexivity. Qed.

Example demo_sending : sending first 2 (firstn 11 first) [] 6000 told_first.
Proof.
  eexists _, _, _. split; [apply demo_split|]. split; [exists (EvTurn 6003); now left|].
  split; [intros ? []|]. split; [now left|].
  apply (due_check _ _ _ (firstn 4 (timers first)) (EvPeriodic 2 5000 5000 1000 false)
           (skipn 5 (timers (firstn 11 first))) 6000 5000); try reflexivity; vm_compute; reflexivity.
Qed.

Example demo_authorized : exists p v g now later o,
  In (Recv (KeepAlive p v g) now later, o) [] \/
  (In (Recv (KeepAlive p v g) now later, o) (firstn 11 first) /\ 6000 < now + 7000).
Proof.
  exact (C85_authorized plain eq_refl demo 2 3 4 (firstn 11 first) [] 6000 told_first demo_calm demo_sane demo_named
           demo_sending eq_refl).
Qed.

Example demo_valid : exists time tasks now later o,
  In (Recv (State 7 time tasks) now later, o) [] \/
  (In (Recv (State 7 time tasks) now later, o) (firstn 11 first) /\ 6000 < now + 5000).
Proof.
  exact (C85_valid plain eq_refl demo 2 3 4 (firstn 11 first) [] 6000 told_first demo_calm demo_sane demo_named
           demo_sending eq_refl).
Qed.

Example demo_period : exists now o, In (Boot now, o) (firstn 11 first) /\
  6000 = now + (1 + calls 2 (timers (firstn 11 first))) * 5000.
Proof.
  exact (C85_period plain eq_refl demo 2 3 4 (firstn 11 first) [] 6000 told_first demo_calm demo_sane demo_named
           demo_sending).
Qed.

Lemma demo_keep_split : first = firstn 4 first ++
  (Recv (KeepAlive true false true) 2100 2100, [Call (EvSingle 3 7000 2100 false) [OutBool true]]) ::
  firstn 7 (skipn 5 first) ++ (Body, [Sent told_first]) :: skipn 13 first.
Proof. vm_compute. reflexivity. Qed.

Definition quietly (now : Z) (x : event * list out) : bool :=
  match x with
  | (Timer (EvTurn n), _) => n <? now
  | (Recv (KeepAlive _ _ _) _ _, _) => false
  | _ => true
  end.

Example demo_keeps : (r_authorized told_first, r_speed told_first, r_gimbal told_first) = (true, false, true).
Proof.
  assert (Q : forallb (quietly 9100) (firstn 7 (skipn 5 first)) = true) by (vm_compute; reflexivity).
  rewrite forallb_forall in Q.
  apply (C85_keeps plain eq_refl demo 2 3 4 (firstn 4 first) true false true 2100 2100 _ (firstn 7 (skipn 5 first)) _ _
           told_first (proj1 demo_calm) demo_sane demo_named demo_keep_split (or_introl eq_refl)).
  - intros v g w n l o I. apply Q in I. discriminate.
  - intros n o I. apply Q in I. cbn in I. apply Z.ltb_lt in I. exact I.
Qed.

Example demo_callbacks : exists rep, [Sent told_first] = [Sent rep].
Proof.
  destruct (C85_callbacks plain eq_refl demo _ _ [] _ _ 2 3 4 2 (proj1 demo_calm) demo_sane demo_named demo_split)
    as (X & _); auto. exists (EvTurn 6003). now left.
Qed.

Lemma demo_fresh_split : exists o, first = firstn 2 first ++
  (Recv (State 7 55 [12; 13]) 1500 1500, o) :: firstn 9 (skipn 3 first) ++ (Body, [Sent told_first]) :: skipn 13 first.
Proof. eexists. vm_compute. reflexivity. Qed.

Definition unseen (now : Z) (x : event * list out) : bool :=
  match x with
  | (Timer (EvTurn n), _) => n <? now
  | (Recv (State 7 _ _) _ _, _) => false
  | _ => true
  end.

Example demo_fresh : r_state told_first = true.
Proof.
  assert (Q : forallb (unseen 6500) (firstn 9 (skipn 3 first)) = true) by (vm_compute; reflexivity).
  rewrite forallb_forall in Q. destruct demo_fresh_split as (o & E).
  apply (C85_fresh plain eq_refl demo 2 3 4 (firstn 2 first) 55 [12; 13] 1500 1500 o (firstn 9 (skipn 3 first)) _ _
           told_first (proj1 demo_calm) demo_sane demo_named E (or_introl eq_refl)).
  - intros ti ta n l o' I. apply Q in I. discriminate.
  - intros n o' I. apply Q in I. cbn in I. apply Z.ltb_lt in I. exact I.
Qed.

(** If a keep-alive and a state make their timers due in the same instant, the next state takes the
    timer of the keep-alive out of the queue, and its permissions are reported for ever. *)
Definition lost : list event :=
  [Boot 500; Recv (KeepAlive true true true) 1000 1000; Recv (State 7 1 []) 3000 3000;
   Recv (State 7 2 []) 3001 3001; Timer (EvTurn 5500); Body; Timer EvDone; Timer (EvTurn 8001); Body; Timer EvDone;
   Timer (EvTurn 10500); Body; Timer EvDone].
Notation second := (snd (run (step plain) (init plain) lost)).

Theorem C85_authorized_refuted : ~ (forall c evs r k s a b d rep, 0 < c_period c ->
  disciplined (timers (snd (run (step c) (init c) evs))) -> sane (snd (run (step c) (init c) evs)) ->
  named (snd (run (step c) (init c) evs)) r k s -> sending (snd (run (step c) (init c) evs)) r a b d rep ->
  r_authorized rep || r_speed rep || r_gimbal rep = true ->
  exists p v g now later o, In (Recv (KeepAlive p v g) now later, o) b \/
    (In (Recv (KeepAlive p v g) now later, o) a /\ d < now + c_expiry c)).
Proof.
  intros H. set (rep := {| r_vehicle := 7; r_connected := []; r_tasks := []; r_state := false;
    r_authorized := true; r_speed := true; r_gimbal := true; r_time := 2 |}).
  assert (Na : names second = [(1, 2, 3)]) by (vm_compute; reflexivity).
  destruct (H plain lost 1 2 3 (firstn 10 second) [] 10500 rep) as (p & v & g & now & later & o & [X|(X & Y)]).
  - reflexivity.
  - rewrite <- (tied plain lost). apply obeyed_disciplined. vm_compute. reflexivity.
  - apply (sane_check plain lost 1 2 3); [vm_compute; reflexivity|exact Na|vm_compute; reflexivity].
  - apply named_names. rewrite Na. now left.
  - exists (Timer (EvTurn 10500), [Call (EvTurn 10500) [OutCall 1]]), (Body, [Sent rep]), (skipn 12 second).
    split; [vm_compute; reflexivity|]. split; [exists (EvTurn 10500); now left|]. split; [intros ? []|].
    split; [now left|].
    apply (due_check _ _ _ (firstn 3 (timers second)) (EvPeriodic 1 5000 5000 500 false)
             (skipn 4 (timers (firstn 10 second))) 5500 5000); try reflexivity; vm_compute; reflexivity.
  - reflexivity.
  - easy.
  - assert (F : forallb (fun x => match x with (Recv (KeepAlive _ _ _) n _, _) => n =? 1000 | _ => true end)
                        (firstn 10 second) = true) by (vm_compute; reflexivity).
    rewrite forallb_forall in F. apply F in X. cbn in X. apply Z.eqb_eq in X. subst now.
    assert (E : 1000 + c_expiry plain = 8000) by reflexivity. lia.
Qed.

(** A keep-alive that is handled while the callback of the last one waits for the lock is not
    reported. *)
Definition late : list event :=
  [Boot 500; Recv (KeepAlive true true true) 1000 1000; Timer (EvTurn 5500); Body; Timer EvDone;
   Timer (EvTurn 8000); Recv (KeepAlive true true true) 8001 8001; Body; Timer EvDone;
   Timer (EvTurn 10500); Body; Timer EvDone].
Notation third := (snd (run (step plain) (init plain) late)).

Theorem C85_keeps_refuted : ~ (forall c evs r k s p v g w now later o q y u rep, 0 < c_period c ->
  sane (snd (run (step c) (init c) evs)) -> named (snd (run (step c) (init c) evs)) r k s ->
  snd (run (step c) (init c) evs) = p ++ (Recv (KeepAlive v g w) now later, o) :: q ++ y :: u -> In (Sent rep) (snd y) ->
  (forall v' g' w' n' l' o', ~ In (Recv (KeepAlive v' g' w') n' l', o') q) ->
  (forall n' o', In (Timer (EvTurn n'), o') q -> n' < now + c_expiry c) ->
  (r_authorized rep, r_speed rep, r_gimbal rep) = (v, g, w)).
Proof.
  intros H. set (rep := {| r_vehicle := 7; r_connected := []; r_tasks := []; r_state := false;
    r_authorized := false; r_speed := false; r_gimbal := false; r_time := 0 |}).
  assert (Na : names third = [(1, 2, 3)]) by (vm_compute; reflexivity).
  assert (Q : forallb (quietly 15001) (firstn 3 (skipn 7 third)) = true) by (vm_compute; reflexivity).
  rewrite forallb_forall in Q.
  assert (X : (r_authorized rep, r_speed rep, r_gimbal rep) = (true, true, true)); [|discriminate].
  apply (H plain late 1 2 3 (firstn 6 third) true true true 8001 8001 [Call (EvSingle 2 7000 8001 false) [OutBool true]]
           (firstn 3 (skipn 7 third)) (Body, [Sent rep]) (skipn 11 third)).
  - reflexivity.
  - apply (sane_check plain late 1 2 3); [vm_compute; reflexivity|exact Na|vm_compute; reflexivity].
  - apply named_names. rewrite Na. now left.
  - vm_compute. reflexivity.
  - now left.
  - intros v g w n l o I. apply Q in I. discriminate.
  - intros n o I. apply Q in I. cbn in I. apply Z.ltb_lt in I. exact I.
Qed.

(** A state that is handled while a report is being sent finds the timer of the reports inactive
    and starts it a second time; when the callback returns the behaviour is undefined. *)
Theorem C85_restart_refuted : ~ (forall c evs, 0 < c_period c -> sane (snd (run (step c) (init c) evs)) ->
  t_ub (s_timers (fst (run (step c) (init c) evs))) = false).
Proof.
  intros H. set (l := [Boot 500; Timer (EvTurn 5500); Body; Recv (State 7 1 []) 5501 5501; Timer EvDone]).
  assert (X : t_ub (s_timers (fst (run (step plain) (init plain) l))) = true) by (vm_compute; reflexivity).
  rewrite (H plain l) in X; [discriminate|reflexivity|].
  apply (sane_check plain l 1 2 3); vm_compute; reflexivity.
Qed.

(** Otherwise it is defined. *)
Theorem C85_safe c evs : disciplined (timers (snd (run (step c) (init c) evs))) ->
  t_ub (s_timers (fst (run (step c) (init c) evs))) = false.
Proof. intros D. destruct (base c evs D) as (V & _). apply V. Qed.

Print Assumptions C85_report.
Print Assumptions C85_callbacks.
Print Assumptions C85_period.
Print Assumptions C85_authorized.
Print Assumptions C85_valid.
Print Assumptions C85_keeps.
Print Assumptions C85_fresh.
Print Assumptions C85_options.
Print Assumptions C85_safe.
Print Assumptions C85_authorized_refuted.
Print Assumptions C85_keeps_refuted.
Print Assumptions C85_restart_refuted.

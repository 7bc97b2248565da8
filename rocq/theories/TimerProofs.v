(** Invariant of the timer manager. *)
From Coq Require Import List ZArith Bool Permutation Lia Sorted.
From Verif Require Import ZMap Run TimerModel TimerSpec.
Import ListNotations.
Open Scope list_scope.
Open Scope Z_scope.

(** The history as a state. *)

(** The timers that wait with the time they are due and their period (0 for single shots), the
    timer whose callback runs, whether it was stopped meanwhile, and all times any timer was
    ever due. *)
Record plan := {
  p_wait : zmap (Z * Z); p_call : option (Z * (Z * Z)); p_stop : bool; p_all : list (Z * Z) }.

Definition pinit : plan := {| p_wait := []; p_call := None; p_stop := false; p_all := [] |}.

Definition pstart (p : plan) (id due period : Z) : plan :=
  {| p_wait := zset (p_wait p) id (due, period); p_call := p_call p; p_stop := p_stop p;
     p_all := (id, due) :: p_all p |}.

Definition pstop (p : plan) (id : Z) : plan :=
  {| p_wait := zdel (p_wait p) id; p_call := p_call p;
     p_stop := p_stop p || match p_call p with Some (c, _) => c =? id | None => false end;
     p_all := p_all p |}.

Definition pcall (p : plan) (id : Z) : plan :=
  {| p_wait := zdel (p_wait p) id;
     p_call := match zget (p_wait p) id with Some w => Some (id, w) | None => None end;
     p_stop := false; p_all := p_all p |}.

Definition pdone (p : plan) : plan :=
  match p_call p with
  | Some (id, (due, period)) =>
      if negb (p_stop p) && (0 <? period) then
        {| p_wait := zset (p_wait p) id (due + period, period); p_call := None; p_stop := false;
           p_all := (id, due + period) :: p_all p |}
      else {| p_wait := p_wait p; p_call := None; p_stop := false; p_all := p_all p |}
  | None => p
  end.

Definition pstep (p : plan) (x : event * list out) : plan :=
  match x with
  | (EvSingle id delay now _, [OutBool true]) => pstart p id (now + delay) 0
  | (EvPeriodic id delay period now _, [OutBool true]) => pstart p id (now + delay) period
  | (EvDisable id, _) | (EvDestroy id, _) => pstop p id
  | (EvDestroyAll ids _, _) => fold_left pstop ids p
  | (EvTurn _, [OutCall id]) => pcall p id
  | (EvDone, _) => pdone p
  | _ => p
  end.

Definition the_plan (t : trace) : plan := fold_left pstep t pinit.


(** No two timers of the plan are ever due at the same time. *)
Definition sparse (t : trace) : Prop :=
  forall i j d, In (i, d) (p_all (the_plan t)) -> d <> 0 /\ (In (j, d) (p_all (the_plan t)) -> i = j).

Lemma plan_snoc t x : the_plan (t ++ [x]) = pstep (the_plan t) x.
Proof. unfold the_plan. now rewrite fold_left_app. Qed.

Lemma stop_fold_all ids : forall p, p_all (fold_left pstop ids p) = p_all p.
Proof. induction ids as [|i ids IH]; intros p; cbn [fold_left]; auto. now rewrite IH. Qed.

Lemma pstep_all p x i : In i (p_all p) -> In i (p_all (pstep p x)).
Proof.
  intros H. destruct x as (e, o). destruct e; cbn [pstep]; auto.
  - destruct o as [|[?|[|]|?|?] [|? ?]]; auto. now right.
  - destruct o as [|[?|[|]|?|?] [|? ?]]; auto. now right.
  - now rewrite stop_fold_all.
  - destruct o as [|[?|?|?|?] [|? ?]]; auto.
  - unfold pdone. destruct (p_call p) as [(j, (d, per))|]; auto.
    destruct (negb _ && _); auto. now right.
Qed.

Lemma sparse_prefix t x : sparse (t ++ [x]) -> sparse t.
Proof.
  unfold sparse. rewrite plan_snoc. intros H i j d I1.
  destruct (H i j d (pstep_all _ _ _ I1)) as (A & B). split; auto. intros I2. apply B.
  now apply pstep_all.
Qed.

Lemma queued_spec m d q :
  match queued m d q with
  | Some _ => True
  | None => dequeue m d q = q
  end.
Proof.
  unfold queued, dequeue. destruct (find _ q) eqn:F; auto.
  induction q as [|j q IH]; cbn in *; auto. destruct (dueOf m j =? d); [discriminate|]. cbn.
  f_equal. auto.
Qed.

Lemma dequeued m d q :
  match queued m d q with Some _ => dequeue m d q | None => q end = dequeue m d q.
Proof. pose proof (queued_spec m d q). destruct (queued m d q); auto. Qed.

Definition ordered (m : zmap timer) (q : list Z) : Prop :=
  StronglySorted (fun a b => dueOf m a <= dueOf m b) q.

Lemma ordered_ext m m' q : (forall i, In i q -> dueOf m' i = dueOf m i) -> ordered m q -> ordered m' q.
Proof.
  intros E H. induction H as [|a q H IH F]; [constructor|]. constructor.
  - apply IH. intros. apply E. now right.
  - rewrite Forall_forall in *. intros x X. rewrite !E by (cbn; auto). auto.
Qed.

Lemma ordered_filter m f q : ordered m q -> ordered m (filter f q).
Proof.
  intros H. induction H as [|a q H IH F]; cbn [filter]; [constructor|].
  destruct (f a); auto. constructor; auto. rewrite Forall_forall in *. intros x X.
  apply filter_In in X. apply F. tauto.
Qed.

Lemma In_enqueue m i j q : In j (enqueue m i q) <-> j = i \/ In j q.
Proof.
  induction q as [|k q IH]; cbn [enqueue]; [cbn; intuition congruence|].
  destruct (_ <? _); cbn [In]; [|rewrite IH]; intuition congruence.
Qed.

Lemma NoDup_enqueue m i q : ~ In i q -> NoDup q -> NoDup (enqueue m i q).
Proof.
  intros N H. induction H as [|k q N' H IH]; cbn [enqueue]; [repeat constructor; auto|].
  destruct (_ <? _); constructor.
  - exact N.
  - constructor; auto.
  - rewrite In_enqueue. intros [->|C]; [apply N; now left|auto].
  - apply IH. intros C. apply N. now right.
Qed.

Lemma ordered_enqueue m i q : ordered m q -> ordered m (enqueue m i q).
Proof.
  intros H. induction H as [|k q H IH F]; cbn [enqueue]; [repeat constructor|].
  destruct (Z.ltb_spec (dueOf m i) (dueOf m k)).
  - constructor; [constructor; auto|]. constructor; [lia|]. rewrite Forall_forall in *.
    intros x X. specialize (F x X). lia.
  - constructor; auto. rewrite Forall_forall in *. intros x X. apply In_enqueue in X.
    destruct X as [->|X]; auto.
Qed.

Definition rid (p : plan) : option Z := match p_call p with Some (i, _) => Some i | None => None end.

Record inv (s : state) (t : trace) : Prop := {
  v_ub : t_ub s = false;
  v_nd : NoDup (t_queue s);
  v_ord : ordered (t_timers s) (t_queue s);
  v_wait : forall i, In i (t_queue s) -> exists x, zget (t_timers s) i = Some x /\
           zget (p_wait (the_plan t)) i = Some (x_due x, x_period x) /\
           x_off x = false /\ x_doomed x = false /\ x_exec x = false;
  v_rid : t_call s = rid (the_plan t);
  v_call : forall i d per, p_call (the_plan t) = Some (i, (d, per)) ->
           ~ In i (t_queue s) /\ zget (p_wait (the_plan t)) i = None /\
           exists x, zget (t_timers s) i = Some x /\ x_due x = d /\ x_period x = per /\
                     x_exec x = true /\ x_off x = p_stop (the_plan t) /\
                     (x_doomed x = true -> x_off x = true);
  v_exec : forall i x, zget (t_timers s) i = Some x -> x_exec x = true -> t_call s = Some i;
  v_range : forall i x, zget (t_timers s) i = Some x -> i < t_next s;
  v_all : forall i x, zget (t_timers s) i = Some x ->
          x_due x = 0 \/ In (i, x_due x) (p_all (the_plan t));
  v_known : forall i d per, zget (p_wait (the_plan t)) i = Some (d, per) ->
            exists x, zget (t_timers s) i = Some x /\ x_due x = d /\ x_period x = per;
  v_in : forall i d per, zget (p_wait (the_plan t)) i = Some (d, per) -> In (i, d) (p_all (the_plan t));
  v_ids : forall i, In (OutId i) (flat_map snd t) -> i < t_next s;
  v_cover : sparse t -> forall i w, zget (p_wait (the_plan t)) i = Some w -> In i (t_queue s) }.

Lemma inv_init : inv tinit [].
Proof.
  split; cbn; try easy; try constructor.
Qed.

(** A step that changes neither timers nor plan. *)
Lemma inv_same s t e o : inv s t -> pstep (the_plan t) (e, o) = the_plan t ->
  (forall i, In (OutId i) o -> False) -> inv s (t ++ [(e, o)]).
Proof.
  intros I P N. split; rewrite ?plan_snoc, ?P; try apply I.
  - intros i. rewrite flat_map_app, in_app_iff. cbn. rewrite app_nil_r. intros [H|H].
    + now apply I.
    + now apply N in H.
  - intros A. apply sparse_prefix in A. now apply I.
Qed.

(** The state after stopping one timer, seen without histories. *)
Record stoppable (s : state) (p : plan) : Prop := {
  w_ub : t_ub s = false;
  w_nd : NoDup (t_queue s);
  w_ord : ordered (t_timers s) (t_queue s);
  w_wait : forall i, In i (t_queue s) -> exists x, zget (t_timers s) i = Some x /\
           zget (p_wait p) i = Some (x_due x, x_period x) /\
           x_off x = false /\ x_doomed x = false /\ x_exec x = false;
  w_rid : t_call s = rid p;
  w_call : forall i d per, p_call p = Some (i, (d, per)) ->
           ~ In i (t_queue s) /\ zget (p_wait p) i = None /\
           exists x, zget (t_timers s) i = Some x /\ x_due x = d /\ x_period x = per /\
                     x_exec x = true /\ x_off x = p_stop p /\
                     (x_doomed x = true -> x_off x = true);
  w_exec : forall i x, zget (t_timers s) i = Some x -> x_exec x = true -> t_call s = Some i;
  w_range : forall i x, zget (t_timers s) i = Some x -> i < t_next s;
  w_all : forall i x, zget (t_timers s) i = Some x ->
          x_due x = 0 \/ In (i, x_due x) (p_all p);
  w_known : forall i d per, zget (p_wait p) i = Some (d, per) ->
            exists x, zget (t_timers s) i = Some x /\ x_due x = d /\ x_period x = per;
  w_in : forall i d per, zget (p_wait p) i = Some (d, per) -> In (i, d) (p_all p);
  w_cover : (forall i j d, In (i, d) (p_all p) -> d <> 0 /\ (In (j, d) (p_all p) -> i = j)) ->
            forall i w, zget (p_wait p) i = Some w -> In i (t_queue s) }.

Lemma inv_stoppable s t : inv s t -> stoppable s (the_plan t).
Proof. intros I. split; try apply I. Qed.

Lemma stoppable_inv s s0 t x : inv s0 t -> stoppable s (pstep (the_plan t) x) ->
  t_next s0 <= t_next s -> (forall i, In (OutId i) (snd x) -> i < t_next s) -> inv s (t ++ [x]).
Proof.
  intros I0 I N O. split; rewrite ?plan_snoc; try apply I.
  - intros i. rewrite flat_map_app, in_app_iff. cbn. rewrite app_nil_r. intros [H|H].
    + apply (v_ids _ _ I0) in H. lia.
    + auto.
  - unfold sparse. rewrite plan_snoc. apply I.
Qed.

Lemma dueOf_some m i x : zget m i = Some x -> dueOf m i = x_due x.
Proof. unfold dueOf. now intros ->. Qed.

Lemma In_dequeue m d q j : In j (dequeue m d q) <-> In j q /\ dueOf m j <> d.
Proof.
  unfold dequeue. rewrite filter_In, negb_true_iff, Z.eqb_neq. reflexivity.
Qed.

Lemma stop_step s p id destroy : stoppable s p ->
  stoppable (fst (stopTimer s id destroy)) (pstop p id) /\
  t_next (fst (stopTimer s id destroy)) = t_next s /\
  (snd (stopTimer s id destroy) = true <-> id < t_next s /\ rid p <> Some id).
Proof.
  intros I. unfold stopTimer. destruct (Z.ltb_spec (t_next s - 1) id) as [L|L].
  { (* never existed *)
    assert (NG : zget (t_timers s) id = None).
    { destruct (zget (t_timers s) id) as [x|] eqn:G; auto. apply (w_range _ _ I) in G. lia. }
    assert (NW : zget (p_wait p) id = None).
    { destruct (zget (p_wait p) id) as [(d, per)|] eqn:G; auto.
      destruct (w_known _ _ I _ _ _ G) as (x & C & _). congruence. }
    assert (NC : rid p <> Some id).
    { unfold rid. destruct (p_call p) as [(c, (d, per))|] eqn:C; [|discriminate].
      destruct (w_call _ _ I _ _ _ C) as (_ & _ & x & G & _). congruence. }
    cbn [fst snd]. split; [|split; [auto|split; [discriminate|lia]]].
    assert (WD : forall i, zget (zdel (p_wait p) id) i = zget (p_wait p) i).
    { intros i. rewrite zget_del. destruct (Z.eqb_spec i id) as [->|]; auto. }
    assert (PS : p_stop (pstop p id) = p_stop p).
    { cbn. unfold rid in NC. destruct (p_call p) as [(c, w)|]; [|apply orb_false_r].
      destruct (Z.eqb_spec c id); [congruence|apply orb_false_r]. }
    split; cbn [p_wait p_call p_all pstop rid]; try setoid_rewrite WD; try apply I.
    intros i d per C. rewrite ?WD. fold (pstop p id). rewrite PS. now apply I. }
  destruct (zget (t_timers s) id) as [x|] eqn:G.
  2:{ (* destroyed before *)
    assert (NW : zget (p_wait p) id = None).
    { destruct (zget (p_wait p) id) as [(d, per)|] eqn:G'; auto.
      destruct (w_known _ _ I _ _ _ G') as (x & C & _). congruence. }
    assert (NC : rid p <> Some id).
    { unfold rid. destruct (p_call p) as [(c, (d, per))|] eqn:C; [|discriminate].
      destruct (w_call _ _ I _ _ _ C) as (_ & _ & x & G' & _). congruence. }
    cbn [fst snd]. split; [|split; [auto|split; [split; [lia|auto]|auto]]].
    assert (WD : forall i, zget (zdel (p_wait p) id) i = zget (p_wait p) i).
    { intros i. rewrite zget_del. destruct (Z.eqb_spec i id) as [->|]; auto. }
    assert (PS : p_stop (pstop p id) = p_stop p).
    { cbn. unfold rid in NC. destruct (p_call p) as [(c, w)|]; [|apply orb_false_r].
      destruct (Z.eqb_spec c id); [congruence|apply orb_false_r]. }
    split; cbn [p_wait p_call p_all pstop rid]; try setoid_rewrite WD; try apply I.
    intros i d per C. rewrite ?WD. fold (pstop p id). rewrite PS. now apply I. }
  destruct (x_exec x) eqn:X.
  - (* its callback runs *)
    pose proof (w_exec _ _ I _ _ G X) as TC. rewrite (w_rid _ _ I) in TC.
    destruct (p_call p) as [(c, (d, per))|] eqn:C; [|unfold rid in TC; rewrite C in TC; discriminate].
    assert (c = id) by (unfold rid in TC; rewrite C in TC; congruence). subst c.
    destruct (w_call _ _ I _ _ _ C) as (NQ & NW & x' & G' & D & PE & _ & OF & DO).
    assert (x' = x) by congruence. subst x'.
    set (x2 := {| x_due := x_due x; x_period := x_period x; x_exec := true; x_off := true;
                  x_doomed := x_doomed x || destroy |}).
    cbn [fst snd]. split; [|split; [auto|split; [discriminate|]]].
    2:{ intros (_ & N). exfalso. apply N. unfold rid. now rewrite C. }
    assert (WD : forall i, zget (zdel (p_wait p) id) i = zget (p_wait p) i).
    { intros i. rewrite zget_del. destruct (Z.eqb_spec i id) as [->|]; auto. }
    assert (GS : forall i, i <> id -> zget (zset (t_timers s) id x2) i = zget (t_timers s) i)
      by (intros; now apply zget_set_other).
    assert (DU : forall i, dueOf (zset (t_timers s) id x2) i = dueOf (t_timers s) i).
    { intros i. unfold dueOf. rewrite zget_set. destruct (Z.eqb_spec i id) as [->|]; auto.
      now rewrite G. }
    split; cbn [p_wait p_call p_all pstop rid setTimers t_timers t_queue t_call t_ub t_next];
      try setoid_rewrite WD; try apply I.
    + apply (ordered_ext (t_timers s)); [intros; apply DU|apply I].
    + intros i Q. rewrite GS by congruence. now apply I.
    + intros i d' per'. rewrite C. intros E. injection E as <- <- <-. split; [auto|split; [auto|]].
      exists x2. rewrite zget_set_same. repeat split; auto. cbn. rewrite C, Z.eqb_refl. now rewrite orb_true_r.
    + intros i y. rewrite zget_set. destruct (Z.eqb_spec i id) as [->|].
      * intros _ _. rewrite (w_rid _ _ I). exact TC.
      * apply I.
    + intros i y. rewrite zget_set. destruct (Z.eqb_spec i id) as [->|]; [|apply I].
      intros _. now apply (w_range _ _ I) in G.
    + intros i y. rewrite zget_set. destruct (Z.eqb_spec i id) as [->|]; [|apply I].
      intros E. injection E as <-. now apply (w_all _ _ I) in G.
    + intros i d' per' W. rewrite GS by congruence. now apply I.
  - (* not running *)
    assert (NC : rid p <> Some id).
    { unfold rid. destruct (p_call p) as [(c, (d, per))|] eqn:C; [|discriminate].
      intros E. injection E as ->. destruct (w_call _ _ I _ _ _ C) as (_ & _ & y & G' & _ & _ & Y & _).
      congruence. }
    assert (TC : t_call s <> Some id) by (rewrite (w_rid _ _ I); auto).
    rewrite dequeued.
    assert (PS : p_stop (pstop p id) = p_stop p).
    { cbn. unfold rid in NC. destruct (p_call p) as [(c, w)|]; [|apply orb_false_r].
      destruct (Z.eqb_spec c id); [congruence|apply orb_false_r]. }
    assert (NQ : ~ In id (dequeue (t_timers s) (x_due x) (t_queue s))).
    { rewrite In_dequeue, (dueOf_some _ _ _ G). tauto. }
    (* both variants *)
    assert (K : forall m, (forall i, i <> id -> zget m i = zget (t_timers s) i) ->
              (zget m id = None \/ zget m id = Some x) ->
              stoppable {| t_timers := m; t_queue := dequeue (t_timers s) (x_due x) (t_queue s);
                           t_next := t_next s; t_call := t_call s; t_ub := t_ub s |} (pstop p id)).
    { intros m M1 M2.
      assert (M3 : forall i y, zget m i = Some y -> zget (t_timers s) i = Some y).
      { intros i y H. destruct (Z.eq_dec i id) as [->|N]; [|now rewrite M1 in H].
        destruct M2; congruence. }
      split; cbn [t_timers t_queue t_call t_ub t_next].
      - apply I.
      - apply NoDup_filter, I.
      - apply (ordered_ext (t_timers s)); [|apply ordered_filter, I]. intros i Q.
        unfold dueOf. rewrite M1; auto. intros ->. auto.
      - intros i Q. assert (N : i <> id) by (intros ->; auto). rewrite M1 by auto.
        cbn. rewrite zget_del_other by auto. apply In_dequeue in Q. now apply I.
      - apply I.
      - intros i d per C. cbn [pstop p_call] in C.
        destruct (w_call _ _ I _ _ _ C) as (B1 & B2 & y & B3 & B4). rewrite PS.
        assert (N : i <> id) by (intros ->; apply NC; unfold rid; now rewrite C).
        rewrite M1 by auto. cbn [pstop p_wait]. rewrite zget_del_other by auto.
        repeat split; eauto. rewrite In_dequeue. tauto.
      - intros i y H. apply (w_exec _ _ I). auto.
      - intros i y H. apply (w_range _ _ I i y). auto.
      - intros i y H. apply (w_all _ _ I i y). auto.
      - intros i d per. cbn. rewrite zget_del. destruct (Z.eqb_spec i id); [discriminate|].
        rewrite M1 by auto. apply I.
      - intros i d per. cbn. rewrite zget_del. destruct (Z.eqb_spec i id); [discriminate|]. apply I.
      - intros A i w. cbn in A |- *. rewrite zget_del. destruct (Z.eqb_spec i id) as [|N]; [discriminate|].
        intros W. apply In_dequeue. split; [eapply (w_cover _ _ I); eauto|].
        destruct w as (d, per). destruct (w_known _ _ I _ _ _ W) as (y & Y1 & Y2 & _).
        rewrite (dueOf_some _ _ _ Y1), Y2. intros E. subst d.
        pose proof (w_in _ _ I _ _ _ W) as I1. destruct (w_all _ _ I _ _ G) as [Z0|I2].
        + apply (A i i (x_due y)); [rewrite E; rewrite E in I1; exact I1|congruence].
        + rewrite E in I1. destruct (A i id (x_due x) I1) as (_ & A2). auto. }
    assert (R : id < t_next s /\ rid p <> Some id) by (split; [lia|auto]).
    destruct destroy; cbn [fst snd].
    + assert (E : match t_call s with
                  | Some c => if c =? id
                      then broken (setQueue (setTimers s (zdel (t_timers s) id)) (dequeue (t_timers s) (x_due x) (t_queue s)))
                      else setQueue (setTimers s (zdel (t_timers s) id)) (dequeue (t_timers s) (x_due x) (t_queue s))
                  | None => setQueue (setTimers s (zdel (t_timers s) id)) (dequeue (t_timers s) (x_due x) (t_queue s))
                  end = setQueue (setTimers s (zdel (t_timers s) id)) (dequeue (t_timers s) (x_due x) (t_queue s))).
      { destruct (t_call s) as [c|]; auto. destruct (Z.eqb_spec c id); [congruence|auto]. }
      rewrite E. split; [|split; [auto|tauto]]. apply K.
      * intros. now apply zget_del_other.
      * left. apply zget_del_same.
    + split; [|split; [auto|tauto]]. apply K; auto.
Qed.

Lemma stop_fold ids : forall s p n, stoppable s p ->
  let r := fold_left (fun st id => let (s1, ok) := stopTimer (fst st) id true in
                                   (s1, if ok then snd st + 1 else snd st)) ids (s, n) in
  stoppable (fst r) (fold_left pstop ids p) /\ t_next (fst r) = t_next s.
Proof.
  induction ids as [|i ids IH]; intros s p n I; cbn [fold_left]; [auto|].
  destruct (stop_step s p i true I) as (A & B & _). cbn [fst snd].
  destruct (stopTimer s i true) as (s1, ok). cbn [fst snd] in *.
  destruct (IH s1 (pstop p i) (if ok then n + 1 else n) A) as (C & D). split; auto. congruence.
Qed.

Lemma start_step s t id delay period now w e o s' : inv s t ->
  startTimer s id delay period now w = (s', o) ->
  (w = false -> rid (the_plan t) <> Some id) ->
  pstep (the_plan t) (e, [OutBool true]) = pstart (the_plan t) id (now + delay) period ->
  pstep (the_plan t) (e, [OutBool false]) = the_plan t ->
  inv s' (t ++ [(e, o)]).
Proof.
  intros I E D P1 P2. unfold startTimer in E.
  destruct (_ <? id); [injection E as <- <-; apply inv_same; auto; cbn; intuition discriminate|].
  destruct (zget (t_timers s) id) as [x|] eqn:G;
    [|injection E as <- <-; apply inv_same; auto; cbn; intuition discriminate].
  destruct w; [injection E as <- <-; apply inv_same; auto; cbn; intuition discriminate|].
  specialize (D eq_refl).
  rewrite dequeued in E. set (m := zset _ id _) in E. injection E as <- <-.
  apply (stoppable_inv _ s); auto; [|cbn; lia|cbn; intuition discriminate]. rewrite P1.
  set (x2 := {| x_due := now + delay; x_period := period; x_exec := false; x_off := false;
                x_doomed := false |}) in m.
  set (q := dequeue (t_timers s) (x_due x) (t_queue s)).
  assert (NQ : ~ In id q).
  { unfold q. rewrite In_dequeue, (dueOf_some _ _ _ G). tauto. }
  assert (M1 : forall i, i <> id -> zget m i = zget (t_timers s) i)
    by (intros; now apply zget_set_other).
  assert (M2 : zget m id = Some x2) by apply zget_set_same.
  split; cbn [setQueue setTimers t_timers t_queue t_call t_ub t_next pstart p_wait p_call p_stop p_all].
  - apply I.
  - apply NoDup_enqueue; auto. apply NoDup_filter, I.
  - apply ordered_enqueue. apply (ordered_ext (t_timers s)); [|apply ordered_filter, I].
    intros i Q. unfold dueOf. rewrite M1; auto. intros ->. auto.
  - intros i Q. apply In_enqueue in Q. destruct Q as [->|Q].
    + exists x2. rewrite M2, zget_set_same. repeat split; auto.
    + assert (N : i <> id) by (intros ->; auto). rewrite M1, zget_set_other by auto.
      apply In_dequeue in Q. now apply I.
  - apply I.
  - intros i d per C. destruct (v_call _ _ I _ _ _ C) as (B1 & B2 & y & B3 & B4).
    assert (N : i <> id) by (intros ->; apply D; unfold rid; now rewrite C).
    rewrite In_enqueue, M1, zget_set_other by auto. repeat split; eauto.
    unfold q. rewrite In_dequeue. tauto.
  - intros i y. destruct (Z.eq_dec i id) as [->|N]; [|rewrite M1 by auto; apply I].
    rewrite M2. intros E. injection E as <-. discriminate.
  - intros i y. destruct (Z.eq_dec i id) as [->|N]; [|rewrite M1 by auto; apply I].
    intros _. now apply (v_range _ _ I) in G.
  - intros i y. destruct (Z.eq_dec i id) as [->|N].
    + rewrite M2. intros E. injection E as <-. right. now left.
    + rewrite M1 by auto. intros H. destruct (v_all _ _ I _ _ H); auto. right. now right.
  - intros i d per. rewrite zget_set. destruct (Z.eqb_spec i id) as [->|N].
    + intros E. injection E as <- <-. exists x2. auto.
    + rewrite M1 by auto. apply I.
  - intros i d per. rewrite zget_set. destruct (Z.eqb_spec i id) as [->|N].
    + intros E. injection E as <- <-. now left.
    + intros H. right. eapply (v_in _ _ I); eauto.
  - intros A i wt. rewrite zget_set, In_enqueue. destruct (Z.eqb_spec i id) as [->|N]; [auto|].
    intros W. right. apply In_dequeue.
    assert (A' : sparse t).
    { intros a b d H1. destruct (A a b d (or_intror H1)) as (A1 & A2). split; auto.
      intros H2. apply A2. now right. }
    split; [eapply (v_cover _ _ I); eauto|].
    destruct wt as (d, per). destruct (v_known _ _ I _ _ _ W) as (y & Y1 & Y2 & _).
    rewrite (dueOf_some _ _ _ Y1), Y2. intros E. subst d.
    pose proof (v_in _ _ I _ _ _ W) as I1. destruct (v_all _ _ I _ _ G) as [Z0|I2].
    + apply (A' i i (x_due y)); auto. congruence.
    + rewrite E in I1. destruct (A' i id (x_due x) I1) as (_ & A2). auto.
Qed.

Lemma turn_step s t now s' o : inv s t -> turn s now = (s', o) -> inv s' (t ++ [(EvTurn now, o)]).
Proof.
  intros I E. unfold turn in E.
  destruct (t_call s) as [c|] eqn:TC;
    [injection E as <- <-; apply inv_same; auto; cbn; intuition discriminate|].
  destruct (t_queue s) as [|id q] eqn:Q;
    [injection E as <- <-; apply inv_same; auto; cbn; intuition discriminate|].
  destruct (v_wait _ _ I id) as (x & G & W & OF & DO & EX); [rewrite Q; now left|].
  rewrite G in E. destruct (x_due x <=? now);
    [|injection E as <- <-; apply inv_same; auto; cbn; intuition discriminate].
  injection E as <- <-. apply (stoppable_inv _ s); auto; [|cbn; lia|cbn; intuition discriminate].
  cbn [pstep]. unfold pcall. rewrite W.
  set (x2 := {| x_due := x_due x; x_period := x_period x; x_exec := true; x_off := x_off x;
                x_doomed := x_doomed x |}).
  pose proof (v_nd _ _ I) as ND. rewrite Q in ND. inversion ND as [|? ? NI ND']; subst.
  pose proof (v_ord _ _ I) as OR. rewrite Q in OR. inversion OR as [|? ? OR' FA]; subst.
  assert (M1 : forall i, i <> id -> zget (zset (t_timers s) id x2) i = zget (t_timers s) i)
    by (intros; now apply zget_set_other).
  split; cbn [setQueue setTimers setCall t_timers t_queue t_call t_ub t_next p_wait p_call p_stop p_all].
  - apply I.
  - auto.
  - apply (ordered_ext (t_timers s)); auto. intros i IQ. unfold dueOf. rewrite M1; auto.
    intros ->. auto.
  - intros i IQ. assert (N : i <> id) by (intros ->; auto). rewrite M1, zget_del_other by auto.
    apply I. rewrite Q. now right.
  - reflexivity.
  - intros i d per C. injection C as <- <- <-. split; [auto|split; [apply zget_del_same|]].
    exists x2. rewrite zget_set_same. repeat split; auto. cbn. congruence.
  - intros i y. destruct (Z.eq_dec i id) as [->|N]; [auto|]. rewrite M1 by auto. intros H1 H2.
    pose proof (v_exec _ _ I _ _ H1 H2). congruence.
  - intros i y. destruct (Z.eq_dec i id) as [->|N]; [|rewrite M1 by auto; apply I].
    intros _. now apply (v_range _ _ I) in G.
  - intros i y. destruct (Z.eq_dec i id) as [->|N].
    + rewrite zget_set_same. intros E. injection E as <-. now apply (v_all _ _ I) in G.
    + rewrite M1 by auto. apply I.
  - intros i d per. rewrite zget_del. destruct (Z.eqb_spec i id) as [->|N]; [discriminate|].
    rewrite M1 by auto. apply I.
  - intros i d per. rewrite zget_del. destruct (Z.eqb_spec i id) as [->|N]; [discriminate|].
    apply I.
  - intros A i w. rewrite zget_del. destruct (Z.eqb_spec i id) as [->|N]; [discriminate|].
    intros H. pose proof (v_cover _ _ I A _ _ H) as C. rewrite Q in C. destruct C; [congruence|auto].
Qed.

Lemma done_step s t s' o : inv s t -> done s = (s', o) -> inv s' (t ++ [(EvDone, o)]).
Proof.
  intros I E. unfold done in E. pose proof (v_rid _ _ I) as R.
  destruct (t_call s) as [id|] eqn:TC.
  2:{ injection E as <- <-. apply inv_same; auto. cbn. unfold pdone.
      unfold rid in R. destruct (p_call (the_plan t)) as [(?, ?)|]; auto. discriminate. }
  destruct (p_call (the_plan t)) as [(c, (d, per))|] eqn:PC;
    [|unfold rid in R; rewrite PC in R; discriminate].
  assert (c = id) by (unfold rid in R; rewrite PC in R; congruence). subst c.
  destruct (v_call _ _ I _ _ _ PC) as (NQ & NW & x & G & <- & <- & EX & OF & DO).
  rewrite G in E. cbn [setCall t_timers t_queue] in E.
  assert (ZI : zin id (t_queue s) = false) by now apply zin_false.
  rewrite ZI in E.
  (* the plan and the timers stay as they are but for this timer *)
  assert (K : forall m, (forall i, i <> id -> zget m i = zget (t_timers s) i) ->
            (forall y, zget m id = Some y -> x_due y = x_due x /\ x_exec y = false) ->
            stoppable {| t_timers := m; t_queue := t_queue s; t_next := t_next s; t_call := None;
                         t_ub := t_ub s |}
              {| p_wait := p_wait (the_plan t); p_call := None; p_stop := false;
                 p_all := p_all (the_plan t) |}).
  { intros m M1 M2.
    split; cbn [t_timers t_queue t_call t_ub t_next p_wait p_call p_stop p_all]; try apply I.
    - apply (ordered_ext (t_timers s)); [|apply I]. intros i IQ. unfold dueOf. rewrite M1; auto.
      intros ->. auto.
    - intros i IQ. rewrite M1 by (intros ->; auto). now apply I.
    - reflexivity.
    - discriminate.
    - intros i y H1 H2. destruct (Z.eq_dec i id) as [->|N].
      + destruct (M2 _ H1). congruence.
      + rewrite M1 in H1 by auto. pose proof (v_exec _ _ I _ _ H1 H2). congruence.
    - intros i y H. destruct (Z.eq_dec i id) as [->|N].
      + now apply (v_range _ _ I) in G.
      + rewrite M1 in H by auto. exact (v_range _ _ I _ _ H).
    - intros i y H. destruct (Z.eq_dec i id) as [->|N].
      + destruct (M2 _ H) as (-> & _). now apply (v_all _ _ I) in G.
      + rewrite M1 in H by auto. exact (v_all _ _ I _ _ H).
    - intros i d per W. rewrite M1 by congruence. now apply I. }
  assert (P0 : p_stop (the_plan t) = true \/ x_period x <= 0 ->
               pstep (the_plan t) (EvDone, []) =
               {| p_wait := p_wait (the_plan t); p_call := None; p_stop := false;
                  p_all := p_all (the_plan t) |}).
  { intros H. cbn [pstep]. unfold pdone. rewrite PC.
    destruct (p_stop (the_plan t)); cbn [negb andb]; auto.
    destruct (Z.ltb_spec 0 (x_period x)); auto. destruct H; [discriminate|lia]. }
  destruct (x_doomed x) eqn:DM.
  - injection E as <- <-. apply (stoppable_inv _ s); auto; [|cbn; lia|easy].
    rewrite P0 by (left; rewrite <- OF; auto). apply K.
    + intros. cbn. now apply zget_del_other.
    + intros y. cbn. rewrite zget_del_same. discriminate.
  - destruct (x_off x) eqn:XO.
    + injection E as <- <-. apply (stoppable_inv _ s); auto; [|cbn; lia|easy].
      rewrite P0 by (left; congruence). apply K.
      * intros. cbn. now apply zget_set_other.
      * intros y. cbn. rewrite Z.eqb_refl. intros C. injection C as <-. auto.
    + destruct (Z.ltb_spec 0 (x_period x)) as [L|L].
      2:{ injection E as <- <-. apply (stoppable_inv _ s); auto; [|cbn; lia|easy].
          rewrite P0 by auto. apply K.
          - intros. cbn. now apply zget_set_other.
          - intros y. cbn. rewrite Z.eqb_refl. intros C. injection C as <-. auto. }
      injection E as <- <-. apply (stoppable_inv _ s); auto; [|cbn; lia|easy].
      cbn [pstep]. unfold pdone. rewrite PC, <- OF. destruct (Z.ltb_spec 0 (x_period x)); [|lia].
      cbn [negb andb].
      set (x2 := {| x_due := x_due x + x_period x; x_period := x_period x; x_exec := false;
                    x_off := false; x_doomed := false |}).
      set (m := zset (t_timers s) id x2).
      assert (M1 : forall i, i <> id -> zget m i = zget (t_timers s) i)
        by (intros; now apply zget_set_other).
      assert (M2 : zget m id = Some x2) by apply zget_set_same.
      split; cbn [setQueue setTimers setCall t_timers t_queue t_call t_ub t_next p_wait p_call p_stop p_all].
      * apply I.
      * apply NoDup_enqueue; auto. apply I.
      * apply ordered_enqueue. apply (ordered_ext (t_timers s)); [|apply I].
        intros i IQ. unfold dueOf. rewrite M1; auto. intros ->. auto.
      * intros i IQ. apply In_enqueue in IQ. destruct IQ as [->|IQ].
        -- exists x2. rewrite M2, zget_set_same. repeat split; auto.
        -- assert (N : i <> id) by (intros ->; auto). rewrite M1, zget_set_other by auto.
           now apply I.
      * reflexivity.
      * discriminate.
      * intros i y H1 H2. destruct (Z.eq_dec i id) as [->|N].
        -- rewrite M2 in H1. injection H1 as <-. discriminate.
        -- rewrite M1 in H1 by auto. pose proof (v_exec _ _ I _ _ H1 H2). congruence.
      * intros i y. destruct (Z.eq_dec i id) as [->|N]; [|rewrite M1 by auto; apply I].
        intros _. now apply (v_range _ _ I) in G.
      * intros i y. destruct (Z.eq_dec i id) as [->|N].
        -- rewrite M2. intros C. injection C as <-. right. now left.
        -- rewrite M1 by auto. intros C. destruct (v_all _ _ I _ _ C); auto. right. now right.
      * intros i d per. rewrite zget_set. destruct (Z.eqb_spec i id) as [->|N].
        -- intros C. injection C as <- <-. exists x2. auto.
        -- rewrite M1 by auto. apply I.
      * intros i d per. rewrite zget_set. destruct (Z.eqb_spec i id) as [->|N].
        -- intros C. injection C as <- <-. now left.
        -- intros C. right. eapply (v_in _ _ I); eauto.
      * intros A i w. rewrite zget_set, In_enqueue. destruct (Z.eqb_spec i id) as [->|N]; [auto|].
        intros W. right. eapply (v_cover _ _ I); eauto.
        intros a b d H1. destruct (A a b d (or_intror H1)) as (A1 & A2). split; auto.
        intros H2. apply A2. now right.
Qed.

Lemma disciplined_prefix a b : disciplined (a ++ b) -> disciplined a.
Proof. intros H x e o y E. apply (H x e o (y ++ b)). rewrite E, <- app_assoc. reflexivity. Qed.

Lemma calling_snoc t e o : calling (t ++ [(e, o)]) =
  match o with
  | [OutCall id] => Some id
  | _ => match e with EvDone => None | _ => calling t end
  end.
Proof.
  unfold calling. rewrite fold_left_app. cbn [fold_left].
  destruct o as [|[?|?|?|?] [|? ?]]; destruct e; reflexivity.
Qed.

Lemma stop_call s id destroy : t_call (fst (stopTimer s id destroy)) = t_call s.
Proof.
  unfold stopTimer. destruct (_ <? id); auto. destruct (zget _ _); auto.
  destruct (x_exec t); auto. destruct destroy; auto. cbn [fst].
  destruct (t_call s) eqn:E; [destruct (_ =? _)|]; cbn; auto.
Qed.

Lemma calling_step s t e s' o : tstep s e = (s', o) -> t_ub s' = false -> t_call s = calling t ->
  t_call s' = calling (t ++ [(e, o)]).
Proof.
  intros E U C. rewrite calling_snoc. unfold tstep in E.
  destruct (t_ub s) eqn:U0; [injection E as <- <-; congruence|].
  destruct e as [|id delay now w|id delay per now w|id|id|id|ids tm|now|].
  - injection E as <- <-. exact C.
  - unfold startTimer in E. destruct (_ <? id); [injection E as <- <-; exact C|].
    destruct (zget _ id); [|injection E as <- <-; exact C].
    destruct w; injection E as <- <-; exact C.
  - destruct (0 <? per); [|injection E as <- <-; exact C].
    unfold startTimer in E. destruct (_ <? id); [injection E as <- <-; exact C|].
    destruct (zget _ id); [|injection E as <- <-; exact C].
    destruct w; injection E as <- <-; exact C.
  - injection E as <- <-. exact C.
  - pose proof (stop_call s id false) as K. destruct (stopTimer s id false).
    injection E as <- <-. cbn in K. congruence.
  - pose proof (stop_call s id true) as K. destruct (stopTimer s id true).
    injection E as <- <-. cbn in K. congruence.
  - unfold destroyTimers in E.
    assert (K : forall n s0, t_call (fst (fold_left (fun st id => let (s1, ok) := stopTimer (fst st) id true in
                               (s1, if ok then snd st + 1 else snd st)) ids (s0, n))) = t_call s0).
    { clear E. induction ids as [|i l IH]; intros n s0; cbn [fold_left]; auto. cbn [fst snd].
      pose proof (stop_call s0 i true) as K. destruct (stopTimer s0 i true) as (s1, ok).
      cbn [fst] in K. rewrite IH; auto. }
    specialize (K 0 s). destruct (fold_left _ ids (s, 0)) as (s1, n). cbn [fst] in K.
    injection E as <- <-. destruct (tm && _); cbn; congruence.
  - unfold turn in E. destruct (t_call s) eqn:TC; [injection E as <- <-; congruence|].
    destruct (t_queue s); [injection E as <- <-; congruence|].
    destruct (zget _ _); [|injection E as <- <-; cbn; congruence].
    destruct (_ <=? _); injection E as <- <-; [reflexivity|congruence].
  - unfold done in E. destruct (t_call s) as [c|] eqn:TC; [|injection E as <- <-; congruence].
    destruct (zget _ _) as [x|]; [|injection E as <- <-; discriminate].
    destruct (x_doomed x); [|destruct (x_off x); [|destruct (0 <? x_period x)]];
      injection E as <- <-; try destruct (zin _ _); reflexivity.
Qed.

Lemma inv_step s t e s' o : inv s t -> t_call s = calling t ->
  disciplined (t ++ [(e, o)]) -> tstep s e = (s', o) ->
  inv s' (t ++ [(e, o)]).
Proof.
  intros I TC D E. specialize (D t e o [] eq_refl). rewrite <- TC, (v_rid _ _ I) in D. unfold tstep in E. rewrite (v_ub _ _ I) in E.
  destruct e as [|id delay now w|id delay per now w|id|id|id|ids tm|now|].
  - (* create *)
    injection E as <- <-. apply (stoppable_inv _ s); auto.
    2:{ cbn. lia. }
    2:{ cbn. intros i [C|[]]. injection C as <-. lia. }
    cbn [pstep].
    set (x2 := {| x_due := 0; x_period := 0; x_exec := false; x_off := false; x_doomed := false |}).
    assert (NG : zget (t_timers s) (t_next s) = None).
    { destruct (zget (t_timers s) (t_next s)) as [x|] eqn:G; auto. apply (v_range _ _ I) in G. lia. }
    assert (M : forall i y, zget (t_timers s) i = Some y ->
                zget (zset (t_timers s) (t_next s) x2) i = Some y).
    { intros i y H. rewrite zget_set_other; auto. intros ->. congruence. }
    split; cbn [t_timers t_queue t_call t_ub t_next]; try apply I.
    + apply (ordered_ext (t_timers s)); [|apply I]. intros i Q.
      destruct (v_wait _ _ I _ Q) as (x & G & _). unfold dueOf. now rewrite (M _ _ G), G.
    + intros i Q. destruct (v_wait _ _ I _ Q) as (x & G & R). exists x. split; auto.
    + intros i d per C. destruct (v_call _ _ I _ _ _ C) as (A & B & x & G & R).
      repeat split; auto. exists x. split; auto.
    + intros i y. rewrite zget_set. destruct (Z.eqb_spec i (t_next s)); [|apply I].
      intros C. injection C as <-. discriminate.
    + intros i y. rewrite zget_set. destruct (Z.eqb_spec i (t_next s)); [lia|].
      intros C. apply (v_range _ _ I) in C. lia.
    + intros i y. rewrite zget_set. destruct (Z.eqb_spec i (t_next s)); [|apply I].
      intros C. injection C as <-. auto.
    + intros i d per W. destruct (v_known _ _ I _ _ _ W) as (x & G & R). exists x. split; auto.
  - (* single *)
    eapply start_step; eauto; [|reflexivity..]. intros ->. exact D.
  - (* periodic *)
    destruct (0 <? per).
    + eapply start_step; eauto; [|reflexivity..]. intros ->. exact D.
    + injection E as <- <-. apply inv_same; auto. cbn. intuition discriminate.
  - injection E as <- <-. apply inv_same; auto. cbn. intuition discriminate.
  - (* disable *)
    destruct (stop_step s (the_plan t) id false (inv_stoppable _ _ I)) as (A & B & _).
    destruct (stopTimer s id false) as (s1, b). injection E as <- <-. cbn [fst snd] in *.
    apply (stoppable_inv _ s); auto; [lia|]. cbn. intuition discriminate.
  - (* destroy *)
    destruct (stop_step s (the_plan t) id true (inv_stoppable _ _ I)) as (A & B & _).
    destruct (stopTimer s id true) as (s1, b). injection E as <- <-. cbn [fst snd] in *.
    apply (stoppable_inv _ s); auto; [lia|]. cbn. intuition discriminate.
  - (* destroy all *)
    unfold destroyTimers in E.
    pose proof (stop_fold ids s (the_plan t) 0 (inv_stoppable _ _ I)) as F. cbv zeta in F.
    destruct (fold_left _ ids (s, 0)) as (s1, n). cbn [fst snd] in F. destruct F as (A & B).
    assert (X : tm && existsb (fun id => t_next s - 1 <? id) ids = false).
    { destruct tm; auto. cbn. destruct (existsb _ ids) eqn:X; auto. unfold given in D. apply existsb_exists in X.
      destruct X as (i & X1 & X2). apply D in X1. apply (v_ids _ _ I) in X1.
      apply Z.ltb_lt in X2. lia. }
    rewrite X in E. injection E as <- <-. apply (stoppable_inv _ s); auto; [lia|].
    cbn. intuition discriminate.
  - eapply turn_step; eauto.
  - eapply done_step; eauto.
Qed.

Definition history (evs : list event) : trace := snd (run tstep tinit evs).

Lemma inv_run evs : disciplined (history evs) ->
  inv (fst (run tstep tinit evs)) (history evs) /\
  t_call (fst (run tstep tinit evs)) = calling (history evs).
Proof.
  unfold history. induction evs as [|e evs IH] using rev_ind; intros D; [split; [apply inv_init|reflexivity]|].
  rewrite run_snoc in *. cbn [fst snd] in *.
  destruct (IH (disciplined_prefix _ _ D)) as (I & C).
  destruct (run tstep tinit evs) as (s, t). cbn [fst snd] in *.
  destruct (tstep s e) as (s', o) eqn:E. cbn [fst snd] in *.
  assert (I' : inv s' (t ++ [(e, o)])) by (eapply inv_step; eauto).
  split; auto. eapply calling_step; eauto. apply I'.
Qed.

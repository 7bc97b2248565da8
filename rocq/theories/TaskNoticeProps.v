(** C33: notices of the task services about vehicles that start and stop working on the task. *)
From Coq Require Import List ZArith Bool Lia.
From Verif Require Import ZMap Run TaskBaseModel TaskBaseSpec TaskBaseNotice.
Import ListNotations.
Open Scope list_scope.
Open Scope Z_scope.

Section C33.
  Context (task : Z) (eligible : list Z) (transActive : bool) (coloc : Z -> Z -> bool).
  Context (restCost : Z -> list wp -> Z).
  Context (ordv : list Z -> list Z) (ordw : zmap Z -> list (Z * Z)).
  Context (ordv_in : forall l x, In x (ordv l) <-> In x l).
  Notation history := (history task eligible transActive coloc restCost ordv ordw).

  (** What is sent on each report of a vehicle: "active" exactly if the vehicle is assigned to the
      task, works on it now and did not according to its last report since it got its mission;
      "complete", with the vehicles assigned to the task, exactly if it worked on the task
      according to that report and does not any more; otherwise nothing. *)
  Theorem C33_exact n evs t1 v ts c o t2 :
    history n evs = t1 ++ (State v ts c, o) :: t2 ->
    let before := map fst t1 in
    (assignedTo task before v -> In task ts -> ~ workingOn task before v -> o = [Active v]) /\
    (assignedTo task before v -> ~ In task ts -> workingOn task before v ->
       exists vs, o = [Complete vs] /\ forall x, In x vs <-> assignedTo task before x) /\
    ((~ assignedTo task before v \/ (In task ts <-> workingOn task before v)) -> o = []).
  Proof.
    intros H. cbn zeta. unfold TaskBaseModel.history in H. apply hist_step in H.
    destruct H as (-> & _). apply (state_exact task eligible transActive coloc restCost ordv ordw ordv_in).
  Qed.

  (** Notices are sent on reports of vehicles only, about the reporting vehicle. *)
  Theorem C33_only n evs t1 e o t2 x :
    history n evs = t1 ++ (e, o) :: t2 -> In x o ->
    (forall v, x = Active v -> exists ts c, e = State v ts c /\ In task ts /\ assignedTo task (map fst t1) v) /\
    (forall vs, x = Complete vs ->
       exists v ts c, e = State v ts c /\ ~ In task ts /\ assignedTo task (map fst t1) v /\ In v vs).
  Proof.
    intros H HI. assert (Q : (exists v ts c, e = State v ts c) \/ forall v ts c, e <> State v ts c).
    { destruct e; try (right; discriminate). left; eauto. }
    destruct Q as [(v & ts & c & ->)|Q].
    - unfold TaskBaseModel.history in H. apply hist_step in H. destruct H as (-> & _).
      pose proof (ninv_run task eligible transActive coloc restCost ordv ordw n (map fst t1)) as I.
      pose proof (n_assigned _ _ _ I v) as A.
      cbn [TaskBaseModel.step] in HI. unfold entityState in HI.
      destruct (zin v (assigned _)) eqn:E1; [|destruct HI]. apply zin_In in E1.
      destruct (zin task ts) eqn:E2.
      + apply zin_In in E2. destruct (zin v (active _)); [destruct HI|].
        destruct HI as [<-|[]]. split; [|discriminate].
        intros w E. injection E as <-. exists ts, c. repeat split; auto. apply A; auto.
      + apply zin_false in E2. destruct (zin v (active _)); [|destruct HI].
        destruct HI as [<-|[]]. split; [discriminate|].
        intros vs E. injection E as <-. exists v, ts, c. repeat split; auto; [apply A; auto|].
        apply ordv_in. exact E1.
    - unfold TaskBaseModel.history in H. apply hist_step in H. destruct H as (-> & _).
      pose proof (quiet_step task eligible transActive coloc restCost ordv ordw
                    (fst (run (TaskBaseModel.step task eligible transActive coloc restCost ordv ordw)
                              (init n) (map fst t1))) e Q) as F.
      rewrite forallb_forall in F. apply F in HI. split; intros; subst x; discriminate.
  Qed.

  Lemma alternating_snoc b l x :
    alternating b (l ++ [x]) <->
    alternating b l /\ x = (if Nat.even (length l) then b else negb b).
  Proof.
    revert b. induction l as [|y l IH]; intros b; cbn [app alternating length]; [cbn; tauto|].
    rewrite IH. rewrite Nat.even_succ, <- Nat.negb_even, negb_involutive.
    destruct (Nat.even (length l)); cbn [negb]; tauto.
  Qed.

  Lemma notices_snoc v t x : notices v (t ++ [x]) = notices v t ++ notices v [x].
  Proof. unfold notices. apply flat_map_app. Qed.

  (** Working on the task or not, as the notices of a part of the history without new mission tell. *)
  Lemma notices_state n t1 t2 v :
    history n (map fst (t1 ++ t2)) = t1 ++ t2 ->
    keeps (map fst t1) (map fst t2) v ->
    ~ workingOn task (map fst t1) v ->
    alternating true (notices v t2) /\
    (assignedTo task (map fst (t1 ++ t2)) v ->
     (Nat.even (length (notices v t2)) = false <-> workingOn task (map fst (t1 ++ t2)) v)).
  Proof.
    unfold TaskBaseModel.history. induction t2 as [|(e, o) t2 IH] using rev_ind; intros H K N.
    - cbn. split; auto. intros _. rewrite app_nil_r. split; [discriminate|tauto].
    - rewrite map_app in K. cbn [map] in K. apply keeps_snoc in K. destruct K as (K & NR).
      rewrite app_assoc in H. rewrite map_app in H. cbn [map] in H.
      rewrite run_snoc in H. cbn [snd] in H.
      apply app_inj_tail in H. destruct H as (H & EO). injection EO as EO.
      specialize (IH H K N). destruct IH as (IH1 & IH2).
      rewrite app_assoc, notices_snoc. rewrite <- map_app in NR.
      assert (AS : assignedTo task (map fst ((t1 ++ t2) ++ [(e, o)])) v <->
                   assignedTo task (map fst (t1 ++ t2)) v).
      { rewrite map_app. cbn [map fst]. rewrite assignedTo_snoc. split.
        - intros [(id & ms & q & ts & E1 & E2 & E3 & E4 & _)|(A & _)]; auto.
          destruct NR. exists id, ms, q. repeat split; auto. apply (in_map fst) in E4. exact E4.
        - intros A. right. auto. }
      assert (Q : (exists ts c, e = State v ts c) \/ forall ts c, e <> State v ts c).
      { destruct e as [w ts c|w|q u|l|id ms|i|id t w rs]; try (right; discriminate).
        destruct (Z.eq_dec w v) as [->|D]; [left; eauto|right; congruence]. }
      rewrite AS. destruct Q as [(ts & c & ->)|Q].
      + pose proof (state_exact task eligible transActive coloc restCost ordv ordw ordv_in
                      n (t1 ++ t2) v ts c) as (X1 & X2 & X3). cbn zeta in *.
        rewrite EO in X1, X2, X3.
        assert (W : workingOn task (map fst ((t1 ++ t2) ++ [(State v ts c, o)])) v <-> In task ts).
        { rewrite map_app. cbn [map fst]. rewrite workingOn_snoc. split.
          - intros [(ts' & c' & E & Q)|(_ & Q & _)]; [congruence|]. edestruct Q; eauto.
          - left. eauto. }
        assert (NT : notices v [(State v ts c, o)] =
          flat_map (fun o => match o with Active _ => [true] | Complete _ => [false] | _ => [] end) o).
        { unfold notices. cbn [flat_map fst snd]. rewrite Z.eqb_refl, app_nil_r. reflexivity. }
        rewrite NT.
        pose proof (ninv_run task eligible transActive coloc restCost ordv ordw n (map fst (t1 ++ t2))) as I.
        pose proof (n_assigned _ _ _ I v) as NA. pose proof (n_active _ _ _ I v) as NB.
        assert (DA : assignedTo task (map fst (t1 ++ t2)) v \/ ~ assignedTo task (map fst (t1 ++ t2)) v).
        { rewrite <- NA. destruct (In_dec Z.eq_dec v (assigned (fst (run (TaskBaseModel.step task
            eligible transActive coloc restCost ordv ordw) (init n) (map fst (t1 ++ t2)))))); auto. }
        destruct DA as [DA|DA].
        * assert (DW : workingOn task (map fst (t1 ++ t2)) v \/ ~ workingOn task (map fst (t1 ++ t2)) v).
          { destruct (Nat.even (length (notices v t2))) eqn:E.
            - right. intros B. apply IH2 in B; auto. discriminate.
            - left. apply IH2; auto. }
          rewrite W. specialize (IH2 DA).
          destruct (In_dec Z.eq_dec task ts) as [HT|HT]; destruct DW as [DW|DW].
          -- rewrite X3 by (right; tauto). cbn [flat_map]. rewrite app_nil_r. tauto.
          -- rewrite X1 by auto. cbn [flat_map app]. rewrite alternating_snoc, app_length.
             cbn [length]. rewrite Nat.add_1_r, Nat.even_succ, <- Nat.negb_even.
             destruct (Nat.even (length (notices v t2))); [cbn; tauto|].
             destruct DW. apply IH2. reflexivity.
          -- destruct X2 as (vs & -> & _); auto. cbn [flat_map app]. rewrite alternating_snoc, app_length.
             cbn [length]. rewrite Nat.add_1_r, Nat.even_succ, <- Nat.negb_even.
             destruct (Nat.even (length (notices v t2))); [|cbn; split; [split; auto|intros _; split; [discriminate|tauto]]].
             apply IH2 in DW. discriminate.
          -- rewrite X3 by (right; tauto). cbn [flat_map]. rewrite app_nil_r. tauto.
        * rewrite X3 by auto. cbn [flat_map]. rewrite app_nil_r. tauto.
      + assert (W : workingOn task (map fst ((t1 ++ t2) ++ [(e, o)])) v <->
                    workingOn task (map fst (t1 ++ t2)) v).
        { rewrite map_app. cbn [map fst]. rewrite workingOn_snoc. split.
          - intros [(ts' & c' & E & _)|(B & _)]; auto. edestruct Q; eauto.
          - intros B. right. auto. }
        assert (NT : notices v [(e, o)] = []).
        { unfold notices. cbn [flat_map fst snd]. destruct e; auto.
          destruct (v0 =? v) eqn:E; auto. apply Z.eqb_eq in E. subst v0. edestruct Q; eauto. }
        rewrite NT, app_nil_r, W. auto.
  Qed.

  (** From one mission of a vehicle to the next (or the end), the notices on its reports alternate,
      starting with "active".  The part may start at the beginning or with any message giving the
      vehicle a mission. *)
  Theorem C33_alternate n evs t1 t2 t3 v :
    history n evs = t1 ++ t2 ++ t3 ->
    (t1 = [] \/ exists t0 e o, t1 = t0 ++ [(e, o)] /\ reassigns (map fst t0) e v) ->
    keeps (map fst t1) (map fst t2) v ->
    alternating true (notices v t2).
  Proof.
    intros H S K.
    assert (H' : history n (map fst (t1 ++ t2)) = t1 ++ t2).
    { unfold TaskBaseModel.history in *. rewrite app_assoc in H.
      pose proof (run_events (TaskBaseModel.step task eligible transActive coloc restCost ordv ordw) (init n) evs) as RE.
      rewrite H in RE. rewrite map_app in RE. rewrite <- RE in H. clear RE.
      destruct t3 as [|x t3]; [rewrite app_nil_r in H; cbn in H; rewrite app_nil_r in H; exact H|].
      apply run_split in H. destruct H as (s & H1 & _). rewrite H1. reflexivity. }
    eapply notices_state; eauto.
    destruct S as [->|(t0 & e & o & -> & R)].
    - intros (a & ts & c & b & E & _). destruct a; discriminate.
    - rewrite map_app. cbn [map fst]. rewrite workingOn_snoc.
      intros [(ts & c & -> & _)|(_ & _ & B)]; [|auto].
      destruct R as (id & ms & q & E & _). discriminate.
  Qed.
End C33.

(** Task 5, vehicle 7: planned, assigned, on the task twice, off, on again. *)
Definition q1 : areq :=
  {| q_id := 1; q_sandbox := false; q_redo := false; q_tasks := [5]; q_entities := [7; 8] |}.
Definition none : built := {| u_opts := []; u_now := true |}.
Definition trip : list ev :=
  [Request q1 none; State 7 [5] 100; Response 1 [(7, [[]; [5]]); (8, [[5; 6]]); (9, [[6]])];
   State 7 [] 99; State 7 [5; 6] 100; State 7 [5] 101; State 9 [5] 1; State 7 [6] 102;
   State 7 [5] 103].
Definition tripHistory :=
  history 5 [] false (fun _ _ => false) (fun _ _ => 0) (fun l => l) (fun m => m) 0 trip.
Example C33_trip :
  map snd tripHistory =
  [[Options 1 []]; []; []; []; [Active 7]; []; []; [Complete [8; 7]]; [Active 7]].
Proof. vm_compute. reflexivity. Qed.
Example C33_trip_alternates : alternating true (notices 7 (skipn 3 tripHistory)) /\
  notices 7 (skipn 3 tripHistory) = [true; false; true].
Proof. vm_compute. auto. Qed.
Example C33_trip_keeps :
  keeps (map fst (firstn 3 tripHistory)) (map fst (skipn 3 tripHistory)) 7.
Proof.
  intros l1 e l2 E (id & ms & q & -> & _). vm_compute in E.
  repeat (destruct l1 as [|? l1]; [discriminate|injection E as _ E]).
  destruct l1; discriminate.
Qed.

(** "Complete" is not promised for every "active": a vehicle that gets a new mission while it works
    on the task is never reported to have completed it, whatever it reports afterwards. *)
Theorem C33_reassigned_refuted :
  exists evs, let h := history 5 [] false (fun _ _ => false) (fun _ _ => 0) (fun l => l) (fun m => m) 0 evs in
    In (State 7 [5] 100, [Active 7]) h /\
    (forall later, (forall e, In e later -> exists v ts c, e = State v ts c) ->
       notices 7 (history 5 [] false (fun _ _ => false) (fun _ _ => 0) (fun l => l) (fun m => m) 0 (evs ++ later))
       = [true]).
Proof.
  set (q2 := {| q_id := 2; q_sandbox := false; q_redo := false; q_tasks := [6]; q_entities := [7] |}).
  exists [Request q1 none; Response 1 [(7, [[5]])]; State 7 [5] 100; Request q2 none;
          Response 2 [(7, [[6]])]].
  split; [vm_compute; auto|].
  intros later. set (evs := [Request q1 none; Response 1 [(7, [[5]])]; State 7 [5] 100; Request q2 none;
          Response 2 [(7, [[6]])]]).
  set (step := step 5 [] false (fun _ _ => false) (fun _ _ => 0) (fun l => l) (fun m => m)).
  unfold history. fold step.
  assert (G : (forall e, In e later -> exists v ts c, e = State v ts c) ->
     assigned (fst (run step (init 0) (evs ++ later))) = [] /\
     notices 7 (snd (run step (init 0) (evs ++ later))) = [true]).
  { induction later as [|e later IH] using rev_ind; intros HL.
    - vm_compute. auto.
    - destruct IH as (IH1 & IH2); [intros x Q; apply HL, in_or_app; auto|].
      rewrite app_assoc, run_snoc. cbn [fst snd].
      destruct (HL e) as (v & ts & c & ->); [apply in_or_app; cbn; auto|].
      assert (ES : step (fst (run step (init 0) (evs ++ later))) (State v ts c)
                   = (fst (run step (init 0) (evs ++ later)), [])).
      { unfold step at 1. cbn [TaskBaseModel.step]. unfold entityState. rewrite IH1. reflexivity. }
      rewrite ES. cbn [fst snd]. split; auto.
      unfold notices in *. rewrite flat_map_app, IH2. cbn [flat_map fst snd].
      destruct (v =? 7); reflexivity. }
  intros HL. apply G, HL.
Qed.

Print Assumptions C33_exact.
Print Assumptions C33_only.
Print Assumptions C33_alternate.
Print Assumptions C33_reassigned_refuted.

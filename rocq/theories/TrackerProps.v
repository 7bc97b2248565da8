(** C50: notices of completed tasks by the task tracker. *)
From Coq Require Import List ZArith Bool Permutation Lia.
From Verif Require Import ZMap Run TrackerModel TrackerSpec TrackerStep.
Import ListNotations.
Open Scope list_scope.
Open Scope Z_scope.

Section C50.
  Context (ord : list Z -> list Z) (ord_perm : forall l, Permutation (ord l) l).
  Notation history := (history ord).

  Lemma at_state evs h x rest : history evs = h ++ x :: rest ->
    exists s, run (step ord) init (map fst h) = (s, h) /\ snd x = snd (step ord s (fst x)).
  Proof. intros E. destruct (run_split _ _ _ _ _ _ E) as (s & H1 & _ & H2). eauto. Qed.

  Lemma ordinary_prefix evs h x rest : ordinary evs -> history evs = h ++ x :: rest -> ordinary (map fst h).
  Proof.
    intros O E. apply (f_equal (map fst)) in E. unfold TrackerModel.history in E.
    rewrite run_events, map_app in E. rewrite E in O. exact (proj1 (ordinary_app _ _ O)).
  Qed.

  (** On a report of a vehicle [v] that has a mission: a task is reported complete, by this vehicle
      and once, if and only if it was announced as one that ends and either this is the first
      report of the end of the mission and the task is the last one of the mission, or the vehicle
      worked on the task and now flies to a waypoint of its mission that does not belong to the
      task. *)
  Theorem C50_completed evs h v c o rest M rs :
    history evs = h ++ (State v c, o) :: rest -> ordinary evs -> since v (map fst h) M rs ->
    NoDup o /\
    forall v' t, In (Complete v' t) o <->
      v' = v /\ endable (map fst h) t /\
      ((arrives M rs c /\ closing M t c) \/
       (~ arrives M rs c /\ working M rs t /\ exists ts, place M c ts /\ ~ In t ts)).
  Proof.
    intros E O SI. pose proof (ordinary_prefix _ _ _ _ O E) as Oh.
    destruct (at_state _ _ _ _ E) as (s & R & EO). cbn [snd fst step] in EO. subst o.
    pose proof (inv_run ord ord_perm (map fst h) Oh) as I. rewrite R in I. cbn [fst] in I.
    assert (V := iv_v _ _ I v). unfold vinv in V. destruct (zget (missions s) v) as [M'|] eqn:EM.
    - destruct V as (rs' & SI' & _). destruct (since_fun _ _ _ _ _ _ SI' SI) as (-> & ->).
      destruct (state_step ord ord_perm _ s v c M rs Oh I EM SI) as (_ & _ & _ & _ & _ & _ & _ & H1 & H2). auto.
    - exfalso. destruct V as (N & _). destruct SI as (h1 & e & h2 & Q & G & _).
      apply (N e M); auto. rewrite Q. apply in_or_app; cbn; auto.
  Qed.

  (** Nothing is reported on any other message, or of a vehicle without a mission. *)
  Theorem C50_only evs h e o rest x :
    history evs = h ++ (e, o) :: rest -> ordinary evs -> In x o ->
    exists v c M rs, e = State v c /\ since v (map fst h) M rs.
  Proof.
    intros E O IX. pose proof (ordinary_prefix _ _ _ _ O E) as Oh.
    destruct (at_state _ _ _ _ E) as (s & R & EO). cbn [snd fst] in EO. subst o.
    pose proof (inv_run ord ord_perm (map fst h) Oh) as I. rewrite R in I. cbn [fst] in I.
    destruct e as [v c|l|v ws|t k]; cbn [step snd] in IX; try destruct IX.
    assert (V := iv_v _ _ I v). unfold vinv in V. destruct (zget (missions s) v) as [M|] eqn:EM.
    - destruct V as (rs & SI & _). exists v, c, M, rs. auto.
    - rewrite (idle_step ord _ _ _ _ I EM) in IX. destruct IX.
  Qed.

  (** Within one mission a task is reported again only if the vehicle reported in between to fly to
      one of its waypoints, or on arrival at the end of the mission. *)
  Theorem C50_once evs h1 v c1 o1 h2 c2 o2 rest M rs t :
    history evs = h1 ++ (State v c1, o1) :: h2 ++ (State v c2, o2) :: rest -> ordinary evs ->
    since v (map fst h1) M rs -> (forall e M', In e (map fst h2) -> ~ gives v M' e) ->
    In (Complete v t) o1 -> In (Complete v t) o2 ->
    let rs2 := rs ++ [c1] ++ flat_map (report v) (map fst h2) in
    arrives M rs2 c2 \/
    exists c ts, In (State v c) (map fst h2) /\ place M c ts /\ In t ts.
  Proof.
    intros E O SI NG I1 I2 rs2.
    assert (SI2 : since v (map fst (h1 ++ (State v c1, o1) :: h2)) M rs2).
    { destruct SI as (a & e & b & Q & G & N & ->). exists a, e, (b ++ State v c1 :: map fst h2).
      rewrite map_app. cbn [map fst]. rewrite Q. split; [rewrite <- app_assoc; reflexivity|]. split; auto. split.
      - intros e' M' I. apply in_app_or in I. destruct I as [I|[<-|I]]; eauto.
      - unfold rs2. rewrite flat_map_app. cbn [flat_map]. rewrite Z.eqb_refl. reflexivity. }
    destruct (C50_completed _ _ _ _ _ _ _ _ E O SI) as (_ & H1).
    assert (E2 : history evs = (h1 ++ (State v c1, o1) :: h2) ++ (State v c2, o2) :: rest)
      by (rewrite E, <- app_assoc; reflexivity).
    destruct (C50_completed _ _ _ _ _ _ _ _ E2 O SI2) as (_ & H2).
    apply H1 in I1. apply H2 in I2. destruct I1 as (_ & _ & I1). destruct I2 as (_ & _ & I2).
    destruct I2 as [(A & _)|(_ & W & _)]; [auto|]. right.
    (* after the first notice the vehicle does not work on the task *)
    assert (NW : ~ working M (rs ++ [c1]) t).
    { rewrite working_snoc. intros [(A & _ & NC)|(NA & [(ts & P & T)|(NP & _)])];
        destruct I1 as [(A' & C)|(NA' & _ & ts' & P' & NT)]; try contradiction.
      - rewrite (place_fun _ _ _ _ P P') in T. auto.
      - eapply NP; eauto. }
    unfold rs2 in W. clear -NW W.
    assert (G : forall l r, (forall c, In c l -> In c (flat_map (report v) (map fst h2))) ->
                ~ working M r t -> working M (r ++ l) t ->
                exists c ts, In c (flat_map (report v) (map fst h2)) /\ place M c ts /\ In t ts).
    { induction l as [|c l IH] using rev_ind; intros r S N Wl; [rewrite app_nil_r in Wl; contradiction|].
      rewrite app_assoc, working_snoc in Wl.
      assert (Sl : forall c, In c l -> In c (flat_map (report v) (map fst h2)))
        by (intros; apply S; apply in_or_app; auto).
      destruct Wl as [(_ & Wl & _)|(_ & [(ts & P & T)|(_ & Wl)])]; eauto.
      exists c, ts. split; auto. apply S. apply in_or_app; cbn; auto. }
    rewrite app_assoc in W. destruct (G _ _ (fun c I => I) NW W) as (c & ts & I & P & T).
    exists c, ts. split; auto. apply in_flat_map in I. destruct I as (e & I & R).
    destruct e; cbn in R; try destruct R. destruct (Z.eqb_spec v0 v) as [->|]; [|destruct R].
    destruct R as [<-|[]]. auto.
  Qed.
End C50.

Definition wpt (n x : Z) (ts : list Z) : wp := {| w_number := n; w_next := x; w_tasks := ts |}.
Definition play (evs : list ev) : list (ev * list out) := history (fun l => l) evs.
Definition tour : list wp := [wpt 1 2 []; wpt 2 3 [5]; wpt 3 4 [5; 8]; wpt 4 5 [6]; wpt 5 5 []].
Definition tour_evs : list ev :=
  [Task 5 Ends; Task 6 (Loiter 10); Task 8 Endless; Response [(9, []); (7, tour)]; State 7 1; State 7 2;
   State 9 3; State 7 3; State 7 99; State 7 4; State 7 5; State 7 5].

(** The vehicle flies its mission: task 5 is complete when it leaves its last waypoint, task 6 on
    arrival, task 8 never ends. *)
Example C50_tour :
  map snd (play tour_evs) = [[]; []; []; []; []; []; []; []; []; [Complete 7 5]; [Complete 7 6]; []].
Proof. vm_compute. reflexivity. Qed.

Example C50_tour_ordinary : ordinary tour_evs.
Proof.
  intros v M e w I G IW. cbn in I.
  repeat (destruct I as [<-|I]; [try (destruct G; fail)|]); [|destruct I].
  destruct G as (l1 & l2 & E & N). assert (IM : In (v, M) [(9, []); (7, tour)]).
  { rewrite E. apply in_or_app; cbn; auto. }
  destruct IM as [Q|[Q|[]]]; injection Q as <- <-; [destruct IW|].
  repeat (destruct IW as [<-|IW]; [cbn; split; [lia|intros t T; intuition lia]|]). destruct IW.
Qed.

Example C50_tour_since : since 7 (firstn 9 tour_evs) tour [1; 2; 3; 99] /\ working tour [1; 2; 3; 99] 5.
Proof.
  split.
  - exists (firstn 3 tour_evs), (Response [(9, []); (7, tour)]), [State 7 1; State 7 2; State 9 3; State 7 3; State 7 99].
    split; [reflexivity|]. split; [exists [(9, [])], []; auto|]. split; [|reflexivity].
    intros e M I. cbn in I. repeat (destruct I as [<-|I]; [intros []|]). destruct I.
  - assert (NA : forall rs c, c <> 5 -> ~ arrives tour rs c).
    { intros rs c D ((t & ((a & w & E & <- & _) & _)) & _). apply D.
      change tour with ([wpt 1 2 []; wpt 2 3 [5]; wpt 3 4 [5; 8]; wpt 4 5 [6]] ++ [wpt 5 5 []]) in E.
      apply app_inj_tail in E. destruct E as (_ & <-). reflexivity. }
    exists [1; 2], 3, [99], [5; 8]. split; [reflexivity|]. split; [apply NA; lia|]. split.
    + exists [wpt 1 2 []; wpt 2 3 [5]], (wpt 3 4 [5; 8]), [wpt 4 5 [6]; wpt 5 5 []].
      repeat split; auto. intros x [<-|[<-|[]]]; cbn; lia.
    + split; [cbn; auto|]. intros [|x [|y a']] c' b' E; try discriminate. injection E as <- <-.
      right. split; [apply NA; lia|]. intros ts P.
      pose proof (place_find tour 99) as F. cbn in F. eapply F; eauto.
Qed.

(** If waypoints of no task lie before the end of the mission, the last task is reported twice. *)
Theorem C50_twice_refuted :
  exists evs, ordinary evs /\
    map snd (play evs) = [[]; []; []; [Complete 7 5]; [Complete 7 5]].
Proof.
  exists [Task 5 Ends; Mission 7 [wpt 1 2 [5]; wpt 2 3 []; wpt 3 3 []]; State 7 1; State 7 2; State 7 3].
  split; [|vm_compute; reflexivity].
  intros v M e w I G IW. cbn in I.
  repeat (destruct I as [<-|I]; [try (destruct G; fail)|]); [|destruct I].
  destruct G as (<- & <-).
  repeat (destruct IW as [<-|IW]; [cbn; split; [lia|intros t T; intuition lia]|]). destruct IW.
Qed.

(** On arrival a task is reported complete that the vehicle was never reported to work on. *)
Theorem C50_unvisited_refuted :
  exists evs, map snd (play evs) = [[]; []; [Complete 7 5]] /\
    (forall c, In (State 7 c) evs -> c = 2) /\
    In (Mission 7 [wpt 1 2 [5]; wpt 2 2 []]) evs.
Proof.
  exists [Task 5 Ends; Mission 7 [wpt 1 2 [5]; wpt 2 2 []]; State 7 2].
  split; [vm_compute; reflexivity|]. split; [|cbn; auto].
  intros c [Q|[Q|[Q|[]]]]; try discriminate. congruence.
Qed.

(** A task announced anew as one that never ends is still reported complete. *)
Theorem C50_changed_refuted :
  exists evs, map snd (play evs) = [[]; []; []; []; [Complete 7 5]] /\
    exists rest, evs = Task 5 (Loiter 1) :: Task 5 (Loiter (-1)) :: rest.
Proof.
  exists [Task 5 (Loiter 1); Task 5 (Loiter (-1)); Mission 7 [wpt 1 2 [5]; wpt 2 3 []]; State 7 1; State 7 2].
  split; [vm_compute; reflexivity|]. eauto.
Qed.

(** A task is read off the number of a waypoint: task 7 is reported although no waypoint has it. *)
Theorem C50_number_refuted :
  exists evs M, map snd (play evs) = [[]; []; []; [Complete 3 7]] /\ In (Mission 3 M) evs /\
    forall w, In w M -> w_tasks w = [].
Proof.
  exists [Task 7 Ends; Mission 3 [wpt 70000 1 []; wpt 1 2 []]; State 3 70000; State 3 1],
         [wpt 70000 1 []; wpt 1 2 []].
  split; [vm_compute; reflexivity|]. split; [cbn; auto|]. intros w [<-|[<-|[]]]; reflexivity.
Qed.

Print Assumptions C50_completed.
Print Assumptions C50_only.
Print Assumptions C50_once.
Print Assumptions C50_twice_refuted.
Print Assumptions C50_unvisited_refuted.
Print Assumptions C50_changed_refuted.
Print Assumptions C50_number_refuted.

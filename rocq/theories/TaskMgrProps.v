(** C28: the task manager and the services of tasks. *)
From Coq Require Import List ZArith Bool Permutation Lia.
From Verif Require Import ZMap Run TaskMgrModel TaskMgrSpec TaskMgrProofs.
Import ListNotations.
Open Scope list_scope.
Open Scope Z_scope.

Section C28.
  Context (ord : zmap Z -> list (Z * Z)) (ord_perm : forall m, Permutation (ord m) m)
          (opts : options) (next : Z).

  (** What has been received and sent in a history. *)
  Definition history (evs : list event) : list (event * list out) :=
    snd (run (mstep ord opts) (minit next) evs).

  (** At any time a task has at most one service, and a service belongs to one task. *)
  Theorem C28_one_service evs :
    NoDup (map fst (alive (sent (history evs)))) /\ NoDup (map snd (alive (sent (history evs)))).
  Proof. destruct (inv_run ord opts next evs) as [R _ _ _ _]. split; apply R. Qed.

  (** No service id is used twice. *)
  Theorem C28_fresh evs : NoDup (created (sent (history evs))).
  Proof. apply (inv_run ord opts next evs). Qed.

  Lemma history_split evs t1 e o t2 :
    history evs = t1 ++ (e, o) :: t2 ->
    exists s, inv (map fst t1) s t1 /\ mstep ord opts s e = (fst (mstep ord opts s e), o).
  Proof.
    intros H. apply run_split in H. destruct H as (s & R & _ & E). cbn [fst snd] in E. exists s.
    pose proof (inv_run ord opts next (map fst t1)) as I. rewrite R in I. split; [exact I|].
    rewrite E. now destruct (mstep ord opts s e).
  Qed.

  (** Every kill is for a service that is alive, so none is killed twice. *)
  Theorem C28_kills evs t1 e o1 v o2 t2 :
    history evs = t1 ++ (e, o1 ++ OutKill v :: o2) :: t2 ->
    exists k, In (k, v) (alive (sent t1 ++ o1)).
  Proof.
    intros H. destruct (history_split _ _ _ _ _ H) as (s & [R I F L S] & E). rewrite alive_app.
    destruct e as [x|j id d|ms|r|ids|n]; cbn [mstep] in E.
    - assert (K : forall o3, match zget (m_live s) (t_id x) with Some w => [OutKill w] | None => [] end ++ o3 = o1 ++ OutKill v :: o2 ->
                 (forall w, ~ In (OutKill w) o3) -> o1 = [] /\ zget (m_live s) (t_id x) = Some v).
      { intros o3 Q NK. destruct (zget (m_live s) (t_id x)) as [w|].
        - destruct o1 as [|y o1]; cbn in Q; injection Q as ? Q; subst; [auto|].
          exfalso. apply (NK v). apply in_or_app. right. left. auto.
        - exfalso. apply (NK v). cbn in Q. rewrite Q. apply in_or_app. right. left. auto. }
      destruct (newTask_spec ord opts s _ x R) as [(info & G & E1)|(G & E1)]; rewrite E1 in E;
        apply (f_equal snd) in E; cbn [snd] in E.
      + destruct (K _ E) as (-> & Z); [intros w [C|[]]; discriminate|].
        exists (t_id x). now apply (r_get _ _ R).
      + destruct (K []) as (-> & Z); [now rewrite app_nil_r|easy|].
        exists (t_id x). now apply (r_get _ _ R).
    - apply (f_equal snd) in E. destruct o1; discriminate.
    - apply (f_equal snd) in E. destruct o1; discriminate.
    - apply (f_equal snd) in E. destruct o1 as [|? [|? ?]]; discriminate.
    - destruct (remove_fold ids _ _ [] R) as (o' & E1 & _ & _ & _ & _ & K).
      destruct (fold_left removeTask ids (m_live s, [])) as (l, o''). apply (f_equal snd) in E.
      cbn [fst snd app] in *. subst o''. eauto.
    - apply (f_equal snd) in E. destruct o1; discriminate.
  Qed.

  (** Removing tasks kills exactly their services. *)
  Theorem C28_remove evs t1 ids o t2 :
    history evs = t1 ++ (EvRemove ids, o) :: t2 ->
    (forall x, In x o -> exists v, x = OutKill v) /\
    alive (sent t1 ++ o) = filter (fun p => negb (zin (fst p) ids)) (alive (sent t1)).
  Proof.
    intros H. destruct (history_split _ _ _ _ _ H) as (s & [R I F L S] & E). rewrite alive_app.
    cbn [mstep] in E. destruct (remove_fold ids _ _ [] R) as (o' & E1 & _ & K & A & _ & _).
    destruct (fold_left removeTask ids (m_live s, [])) as (l, o''). apply (f_equal snd) in E.
    cbn [fst snd app] in *. subst o''. subst o'. auto.
  Qed.

  Lemma gather_spec evs info t :
    (forall k, stored (heard k evs) (info k)) ->
    match gather ord info t with
    | Some r => needs_met evs t /\ forall k, told evs t k (r k)
    | None => ~ needs_met evs t
    end.
  Proof.
    intros S.
    assert (ALL : forall k, all_latest (heard k evs) (ord (info k))).
    { intros k. eapply stored_all; eauto. }
    assert (PK : forall k a, match pick (info k) a with
                 | Some r => In a (map fst (heard k evs)) /\ exists d, r = [(a, d)] /\ latest (heard k evs) a d
                 | None => ~ In a (map fst (heard k evs)) end).
    { intros k a. unfold pick. pose proof (stored_in _ _ a (S k)) as X.
      destruct (zget (info k) a) as [d|] eqn:G.
      - split; [now apply X|]. exists d. split; [auto|]. now apply (s_get _ _ (S k)).
      - intros C. now apply X in C. }
    unfold gather, needs_met, told. destruct (t_need t) as [|a|a|p|].
    - split; [exact Logic.I|]. intros []; auto.
    - specialize (PK KArea a). destruct (pick (info KArea) a) as [r|]; [|auto].
      destruct PK as (P1 & P2). split; [auto|]. intros []; cbn [kind_eqb]; auto.
    - specialize (PK KLine a). destruct (pick (info KLine) a) as [r|]; [|auto].
      destruct PK as (P1 & P2). split; [auto|]. intros []; cbn [kind_eqb]; auto.
    - destruct (Z.ltb_spec 0 p).
      + specialize (PK KPoint p). destruct (pick (info KPoint) p) as [r|].
        * destruct PK as (P1 & P2). split; [auto|]. intros []; cbn [kind_eqb]; auto.
        * intros [C|C]; [lia|auto].
      + split; [auto|]. intros []; cbn [kind_eqb]; auto.
    - split; [exact Logic.I|]. intros []; cbn [kind_eqb]; auto.
  Qed.

  (** A task message kills the service the task has and then, if the area, line or point it
      refers to is known, creates a new one.  The new service is told the latest of all entity
      configurations, states and zones and whatever the task refers to. *)
  Theorem C28_task evs t1 x o t2 :
    history evs = t1 ++ (EvTask x, o) :: t2 ->
    let A := alive (sent t1) in
    exists kills,
      ((kills = [] /\ ~ In (t_id x) (map fst A)) \/
       (exists v, kills = [OutKill v] /\ In (t_id x, v) A)) /\
      ((needs_met (map fst t1) x /\
        exists c, o = kills ++ [OutCreate c] /\ k_task c = x /\
                  (forall k, told (map fst t1) x k (k_info c k)) /\
                  alive (sent t1 ++ o) = without (t_id x) A ++ [(t_id x, k_service c)]) \/
       (~ needs_met (map fst t1) x /\ o = kills /\
        alive (sent t1 ++ o) = without (t_id x) A)).
  Proof.
    intros H A. destruct (history_split _ _ _ _ _ H) as (s & [R I F L S] & E). rewrite alive_app.
    cbn [mstep] in E. pose proof (gather_spec (map fst t1) (m_info s) x I) as G.
    exists (match zget (m_live s) (t_id x) with Some w => [OutKill w] | None => [] end). split.
    - destruct (zget (m_live s) (t_id x)) as [v|] eqn:Z.
      + right. exists v. split; [auto|]. now apply (r_get _ _ R).
      + left. split; [auto|]. intros C. apply in_map_iff in C. destruct C as ((k, v) & EK & C).
        cbn in EK. subst k. apply (r_get _ _ R) in C. congruence.
    - destruct (newTask_spec ord opts s _ x R) as [(info & G1 & E1)|(G1 & E1)]; rewrite G1 in G;
        rewrite E1 in E; apply (f_equal snd) in E; cbn [snd] in E; subst o.
      + left. destruct G as (G2 & G3). split; [auto|].
        eexists. split; [reflexivity|]. cbn [k_task k_info k_service]. split; [auto|]. split; [auto|].
        rewrite fold_left_app, (kills_alive _ _ _ R). reflexivity.
      + right. split; [auto|]. split; [auto|]. apply (kills_alive _ _ _ R).
  Qed.

  (** Nothing else kills or creates services. *)
  Theorem C28_only evs t1 e o t2 x :
    history evs = t1 ++ (e, o) :: t2 -> In x o ->
    match x with
    | OutCreate c => e = EvTask (k_task c)
    | OutKill v => (exists t, e = EvTask t) \/ (exists ids, e = EvRemove ids)
    | OutRequest _ r => e = EvRequest r
    end.
  Proof.
    intros H IX. destruct (history_split _ _ _ _ _ H) as (s & [R I F L S] & E).
    destruct e as [y|j id d|ms|r|ids|n]; cbn [mstep] in E.
    - destruct (newTask_spec ord opts s _ y R) as [(info & G1 & E1)|(G1 & E1)]; rewrite E1 in E;
        apply (f_equal snd) in E; cbn [snd] in E; subst o.
      + apply in_app_or in IX. destruct IX as [IX|[<-|[]]]; [|reflexivity].
        destruct (zget (m_live s) (t_id y)); [destruct IX as [<-|[]]; eauto|easy].
      + destruct (zget (m_live s) (t_id y)); [destruct IX as [<-|[]]; eauto|easy].
    - apply (f_equal snd) in E. cbn in E. now subst o.
    - apply (f_equal snd) in E. cbn in E. now subst o.
    - apply (f_equal snd) in E. cbn in E. subst o. destruct IX as [<-|[]]. auto.
    - destruct (remove_fold ids _ _ [] R) as (o' & E1 & _ & K & _ & _ & _).
      destruct (fold_left removeTask ids (m_live s, [])) as (l, o''). apply (f_equal snd) in E.
      cbn [fst snd app] in *. subst o''. subst o'. destruct (K _ IX) as (v & ->). eauto.
    - apply (f_equal snd) in E. cbn in E. now subst o.
  Qed.

  (** Automation requests are passed on in order, numbered from 1. *)
  Theorem C28_requests evs :
    map snd (requests (sent (history evs))) = asked evs /\
    map fst (requests (sent (history evs))) = map Z.of_nat (seq 1 (length (asked evs))).
  Proof.
    enough (H : map snd (requests (sent (history evs))) = asked evs /\
                map fst (requests (sent (history evs))) =
                  map Z.of_nat (seq 1 (length (asked evs))) /\
                m_request (fst (run (mstep ord opts) (minit next) evs)) =
                  Z.of_nat (length (asked evs)) + 1) by tauto.
    induction evs as [|e evs IH] using rev_ind; [repeat split|].
    unfold history in *. pose proof (inv_run ord opts next evs) as [R _ _ _ _].
    rewrite run_snoc. cbn [fst snd]. rewrite sent_snoc.
    destruct (run (mstep ord opts) (minit next) evs) as (s, t). cbn [fst snd] in *.
    assert (A : asked (evs ++ [e]) = asked evs ++ asked [e]) by apply flat_map_app.
    assert (B : forall o, requests (sent t ++ o) = requests (sent t) ++ requests o)
      by (intros; apply flat_map_app).
    assert (D : (forall r, e <> EvRequest r) -> requests (snd (mstep ord opts s e)) = [] ->
                m_request (fst (mstep ord opts s e)) = m_request s ->
                map snd (requests (sent t ++ snd (mstep ord opts s e))) = asked (evs ++ [e]) /\
                map fst (requests (sent t ++ snd (mstep ord opts s e))) =
                  map Z.of_nat (seq 1 (length (asked (evs ++ [e])))) /\
                m_request (fst (mstep ord opts s e)) = Z.of_nat (length (asked (evs ++ [e]))) + 1).
    { intros D1 D2 D3. rewrite A, B, D2, D3, app_nil_r.
      replace (asked [e]) with (@nil Z); [now rewrite app_nil_r|].
      destruct e; try reflexivity. now destruct (D1 r). }
    destruct e as [y|j id d|ms|r|ids|n]; [apply D; try easy|now apply D|now apply D| |apply D; try easy|now apply D].
    - cbn [mstep]. destruct (newTask_spec ord opts s _ y R) as [(info & G1 & E1)|(G1 & E1)];
        rewrite E1; cbn [snd]; destruct (zget (m_live s) (t_id y)); reflexivity.
    - cbn [mstep]. destruct (newTask_spec ord opts s _ y R) as [(info & G1 & E1)|(G1 & E1)];
        rewrite E1; reflexivity.
    - cbn [mstep fst snd m_request]. rewrite A, B, !map_app. destruct IH as (I1 & I2 & I3).
      rewrite I1, I2, I3, app_length. cbn [length asked requests flat_map map app fst snd].
      split; [reflexivity|]. rewrite seq_app, map_app. cbn [seq map]. split; [|lia].
      do 2 f_equal. lia.
    - cbn [mstep]. destruct (remove_fold ids _ _ [] R) as (o' & E1 & _ & K & _ & _ & _).
      destruct (fold_left removeTask ids (m_live s, [])) as (l, o''). cbn [fst snd app] in *.
      subst o''. clear -K. induction o' as [|x o' IH]; [reflexivity|].
      destruct (K x (or_introl eq_refl)) as (v & ->). apply IH. intros; apply K; now right.
    - cbn [mstep]. destruct (fold_left removeTask ids (m_live s, [])). reflexivity.
  Qed.

  Lemma byType_listing id per ty :
    well_configured opts -> In (id, per) opts -> listing opts id ty (byType per ty).
  Proof.
    intros (W1 & W2) IN. unfold byType.
    assert (Q : forall a : option Z, match a, ty with
                 | None, None => true | Some x, Some y => x =? y | _, _ => false end = true <-> a = ty).
    { intros [a|]; destruct ty as [b|]; split; try easy.
      - intros E. apply Z.eqb_eq in E. now subst.
      - intros E. injection E as ->. apply Z.eqb_refl. }
    destruct (find _ per) as [(a, l)|] eqn:F.
    - apply find_some in F. destruct F as (F1 & F2). cbn [fst] in F2. apply Q in F2. subst a.
      left. eauto.
    - right. split; auto. intros per' l' I1 I2.
      assert (per' = per).
      { pose proof (zget_In opts _ _ W1 IN) as A. rewrite (zget_In opts _ _ W1 I1) in A.
        congruence. }
      subst per'. eapply find_none in F; [|exact I2]. cbn [fst] in F.
      destruct (Q ty) as (_ & Q'). rewrite Q' in F; easy.
  Qed.

  (** A new service is given the options configured for all tasks and those configured for the
      task, or if there are none for the task those configured for its type. *)
  Theorem C28_options evs t1 e o t2 c :
    history evs = t1 ++ (e, o) :: t2 -> In (OutCreate c) o -> well_configured opts ->
    exists all more, k_options c = all ++ more /\ listing opts 0 None all /\
      ((In (t_id (k_task c)) (map fst opts) /\ listing opts (t_id (k_task c)) None more) \/
       (~ In (t_id (k_task c)) (map fst opts) /\ listing opts 0 (Some (t_type (k_task c))) more)).
  Proof.
    intros H IX W. destruct (history_split _ _ _ _ _ H) as (s & [R I F L S] & E).
    assert (K : k_options c = taskOptions opts (k_task c)).
    { destruct e as [y|j id d|ms|r|ids|n]; cbn [mstep] in E;
        try (apply (f_equal snd) in E; cbn in E; subst o; cbn in IX; intuition discriminate).
      - destruct (newTask_spec ord opts s _ y R) as [(info & G1 & E1)|(G1 & E1)]; rewrite E1 in E;
          apply (f_equal snd) in E; cbn [snd] in E; subst o.
        + apply in_app_or in IX. destruct IX as [IX|[IX|[]]].
          * destruct (zget (m_live s) (t_id y)); [destruct IX as [IX|[]]; discriminate|easy].
          * injection IX as <-. auto.
        + destruct (zget (m_live s) (t_id y)); [destruct IX as [IX|[]]; discriminate|easy].
      - destruct (remove_fold ids _ _ [] R) as (o' & E1 & _ & K & _ & _ & _).
        destruct (fold_left removeTask ids (m_live s, [])) as (l, o''). apply (f_equal snd) in E.
        cbn [fst snd app] in *. subst o''. subst o'. destruct (K _ IX) as (v & C). discriminate. }
    rewrite K. unfold taskOptions.
    set (all := match zget opts 0 with Some l => byType l None | None => [] end).
    assert (ALL : forall ty, listing opts 0 ty
              match zget opts 0 with Some l => byType l ty | None => [] end).
    { intros ty. destruct (zget opts 0) as [l|] eqn:Z0.
      - apply byType_listing; auto. now apply In_zget.
      - right. split; auto. intros per l' I1. exfalso. apply zget_none in Z0. apply Z0.
        now apply (in_map fst) in I1. }
    eexists all, _. split; [reflexivity|]. split; [apply ALL|].
    destruct (zget opts (t_id (k_task c))) as [l|] eqn:ZT.
    - apply In_zget in ZT. left. split; [now apply (in_map fst) in ZT|]. now apply byType_listing.
    - right. split; [now apply zget_none|]. apply ALL.
  Qed.
End C28.

(** A task 1 that searches area 7, and a task 2 that needs nothing. *)
Definition search (a : Z) : task := {| t_id := 1; t_type := 50; t_need := NeedArea a; t_body := 0 |}.
Definition plain : task := {| t_id := 2; t_type := 51; t_need := NeedNone; t_body := 0 |}.

Definition session : list event :=
  [EvInfo KConf 400 1; EvInfo KArea 7 2; EvTask (search 7); EvTask plain; EvDraw 2;
   EvInfo KConf 400 5; EvTask (search 7); EvRemove [2; 2; 3]].

Definition shown (o : out) : Z * Z * list (Z * Z) * list (Z * Z) :=
  match o with
  | OutCreate c => (t_id (k_task c), k_service c, k_info c KConf, k_info c KArea)
  | OutKill s => (-1, s, [], [])
  | OutRequest a b => (-2, a, [], [])
  end.

Example C28_example :
  let t := history (fun m => m) [] 10 session in
  map shown (sent t) =
    [(1, 11, [(400, 1)], [(7, 2)]); (2, 12, [(400, 1)], []); (-1, 11, [], []);
     (1, 15, [(400, 5)], [(7, 2)]); (-1, 12, [], [])] /\
  alive (sent t) = [(1, 15)].
Proof. vm_compute. auto. Qed.

(** Sending a task again with an area that is not known leaves the task without a service. *)
Theorem C28_update_refuted :
  exists evs t, alive (sent (history (fun m => m) [] 10 evs)) = [(t_id t, 11)] /\
    alive (sent (history (fun m => m) [] 10 (evs ++ [EvTask t]))) = [].
Proof. exists [EvInfo KArea 7 2; EvTask (search 7)], (search 8). vm_compute. auto. Qed.

(** Options for all tasks, for a type of tasks and for a task. *)
Definition sample : options := [(0, [(None, [70]); (Some 50, [71])]); (3, [(None, [72; 73])])].

Example C28_options_example :
  well_configured sample /\
  map (fun t => taskOptions sample t)
      [{| t_id := 3; t_type := 50; t_need := NeedNone; t_body := 0 |};
       {| t_id := 4; t_type := 50; t_need := NeedNone; t_body := 0 |};
       {| t_id := 5; t_type := 51; t_need := NeedNone; t_body := 0 |}] =
  [[70; 72; 73]; [70; 71]; [70]].
Proof.
  split; [|reflexivity]. split.
  - cbn. repeat constructor; cbn; intuition discriminate.
  - intros id per [H|[H|[]]]; injection H as <- <-; cbn; repeat constructor; cbn;
      intuition discriminate.
Qed.

(** A task with id 0 gets the options for all tasks twice. *)
Theorem C28_options_refuted :
  exists opts t, zget opts 0 = Some [(None, [77])] /\ taskOptions opts t = [77; 77].
Proof.
  exists [(0, [(None, [77])])], {| t_id := 0; t_type := 50; t_need := NeedNone; t_body := 0 |}.
  vm_compute. auto.
Qed.

Print Assumptions C28_one_service.
Print Assumptions C28_fresh.
Print Assumptions C28_kills.
Print Assumptions C28_remove.
Print Assumptions C28_task.
Print Assumptions C28_only.
Print Assumptions C28_options.
Print Assumptions C28_requests.
Print Assumptions C28_update_refuted.
Print Assumptions C28_options_refuted.

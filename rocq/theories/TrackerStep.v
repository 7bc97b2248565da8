(** The state of the task tracker after a history, for C50. *)
From Coq Require Import List ZArith Bool Permutation Lia.
From Verif Require Import ZMap Run ListSplit TrackerModel TrackerSpec.
Import ListNotations.
Open Scope list_scope.
Open Scope Z_scope.

Definition report (v : Z) (e : ev) : list Z :=
  match e with State v' c => if v' =? v then [c] else [] | _ => [] end.

Lemma gives_fun v M M' e : gives v M e -> gives v M' e -> M = M'.
Proof.
  destruct e; cbn; try tauto.
  - intros (l1 & l2 & -> & N) (r1 & r2 & E & N').
    apply split_cases in E. destruct E as [(_ & E & _)|[(m & _ & E)|(m & _ & E)]]; [congruence| |]; exfalso.
    + apply (N M'). rewrite E. apply in_or_app; cbn; auto.
    + apply (N' M). rewrite E. apply in_or_app; cbn; auto.
  - intros (_ & <-) (_ & <-). auto.
Qed.

Lemma since_fun v h M rs M' rs' : since v h M rs -> since v h M' rs' -> M = M' /\ rs = rs'.
Proof.
  intros (h1 & e & h2 & -> & G & N & ->) (r1 & e' & r2 & E & G' & N' & ->).
  apply split_cases in E. destruct E as [(_ & -> & ->)|[(m & _ & E)|(m & _ & E)]].
  - split; [eapply gives_fun; eauto|reflexivity].
  - exfalso. apply (N e' M'); auto. rewrite E. apply in_or_app; cbn; auto.
  - exfalso. apply (N' e M); auto. rewrite E. apply in_or_app; cbn; auto.
Qed.

Lemma since_snoc v h M rs e :
  since v h M rs -> (forall M', ~ gives v M' e) -> since v (h ++ [e]) M (rs ++ report v e).
Proof.
  intros (h1 & e0 & h2 & -> & G & N & ->) NG. exists h1, e0, (h2 ++ [e]).
  split; [rewrite <- app_assoc; reflexivity|]. split; auto. split.
  - intros e' M' I. apply in_app_or in I. destruct I as [I|[<-|[]]]; auto.
  - rewrite flat_map_app. cbn [flat_map]. rewrite app_nil_r. reflexivity.
Qed.

Lemma since_new v h M e : gives v M e -> since v (h ++ [e]) M [].
Proof. intros G. exists h, e, []. repeat split; auto. Qed.

Lemma in_last v (l : list (Z * list wp)) :
  (exists M l1 l2, l = l1 ++ (v, M) :: l2 /\ forall M', ~ In (v, M') l2) \/ (forall M, ~ In (v, M) l).
Proof.
  induction l as [|(w, X) l IH]; [right; intros M []|].
  destruct IH as [(M & l1 & l2 & -> & N)|N].
  - left. exists M, ((w, X) :: l1), l2. auto.
  - destruct (Z.eq_dec w v) as [->|D].
    + left. exists X, [], l. auto.
    + right. intros M [Q|Q]; [congruence|]. eapply N; eauto.
Qed.

Lemma gives_or v e : (exists M, gives v M e) \/ (forall M, ~ gives v M e).
Proof.
  destruct e as [v0 c|l|v0 ws|t k]; cbn.
  - right; tauto.
  - destruct (in_last v l) as [(M & Q)|N]; [left; eauto|].
    right. intros M (l1 & l2 & -> & _). apply (N M). apply in_or_app; cbn; auto.
  - destruct (Z.eq_dec v0 v) as [->|D]; [left; eauto|right; intros M (Q & _); auto].
  - right; tauto.
Qed.

(** Missions *)
Lemma place_find M c : match find (fun w => w_number w =? c) M with
                       | Some w => place M c (w_tasks w) /\ In w M
                       | None => forall ts, ~ place M c ts
                       end.
Proof.
  induction M as [|x M IH]; cbn [find].
  - intros ts ([|z0 a0] & w & b & E & _); discriminate.
  - destruct (Z.eqb_spec (w_number x) c) as [E|E].
    + split; [|cbn; auto]. exists [], x, M. repeat split; auto.
    + destruct (find _ M) as [w|].
      * destruct IH as ((a & w' & b & -> & E1 & E2 & N) & I). split; [|cbn; auto].
        exists (x :: a), w', b. repeat split; auto. intros y [<-|Q]; auto.
      * intros ts ([|y a] & w & b & Q & E1 & E2 & N); cbn in Q; injection Q as -> ->; [auto|].
        apply (IH ts). exists a, w, b. repeat split; auto. intros z Iz. apply N. cbn; auto.
Qed.

Lemma place_fun M c ts ts' : place M c ts -> place M c ts' -> ts = ts'.
Proof.
  intros (a & w & b & -> & E & <- & N) (a' & w' & b' & Q & E' & <- & N').
  apply split_cases in Q. destruct Q as [(_ & -> & _)|[(m & -> & _)|(m & -> & _)]]; auto; exfalso.
  - apply (N' w); auto. apply in_or_app; cbn; auto.
  - apply (N w'); auto. apply in_or_app; cbn; auto.
Qed.

Lemma place_dec M c : (exists ts, place M c ts) \/ (forall ts, ~ place M c ts).
Proof. pose proof (place_find M c) as P. destruct (find _ M); [left; destruct P; eauto|right; auto]. Qed.

(** [lastTask] of a mission with ordinary numbers. *)
Lemma lastTask_spec r : (forall w, In w r -> w_number w < 10000) ->
  (lastTask r = 0 /\ forall w, In w r -> w_tasks w = []) \/
  exists b x a t ts, r = b ++ x :: a /\ w_tasks x = t :: ts /\ (forall y, In y b -> w_tasks y = []) /\
                     lastTask r = t.
Proof.
  induction r as [|w r IH]; intros H; cbn [lastTask].
  - left. split; auto. intros ? [].
  - destruct (w_tasks w) as [|t ts] eqn:E.
    + assert (L : (10000 <=? w_number w) = false) by (apply Z.leb_gt, H; cbn; auto). rewrite L.
      destruct IH as [(Q & N)|(b & x & a & t & ts & -> & T & N & Q)]; [intros; apply H; cbn; auto| |].
      * left. split; auto. intros y [<-|I]; auto.
      * right. exists (w :: b), x, a, t, ts. repeat split; auto. intros y [<-|I]; auto.
    + right. exists [], w, r, t, ts. repeat split; auto. intros ? [].
Qed.

Lemma closing_fun M t c t' c' : closing M t c -> closing M t' c' -> t = t' /\ c = c'.
Proof.
  intros ((a & w & -> & <- & _) & _ & b1 & x & b2 & ts & E & T & N)
         ((a' & w' & E' & <- & _) & _ & b1' & x' & b2' & ts' & Q & T' & N').
  apply app_inj_tail in E'. destruct E' as (<- & <-). split; auto.
  rewrite E in Q. apply split_cases in Q.
  destruct Q as [(_ & <- & _)|[(m & _ & ->)|(m & _ & ->)]]; [congruence| |]; exfalso.
  - rewrite N in T' by (apply in_or_app; cbn; auto). discriminate.
  - rewrite N' in T by (apply in_or_app; cbn; auto). discriminate.
Qed.

Lemma closing_dec M c : (exists t, closing M t c) \/ (forall t, ~ closing M t c).
Proof.
  destruct (rev M) as [|w r] eqn:R.
  - right. intros t ((a & w & -> & _) & _). rewrite rev_app_distr in R. discriminate.
  - assert (EM : M = rev r ++ [w]) by (rewrite <- (rev_involutive M), R; reflexivity).
    destruct (Z.eq_dec (w_number w) c) as [E1|E1];
      [|right; intros t ((a & w' & Q & E & _) & _); rewrite EM in Q; apply app_inj_tail in Q;
        destruct Q as (_ & <-); auto].
    destruct (Z.eq_dec (w_next w) c) as [E2|E2];
      [|right; intros t ((a & w' & Q & _ & E) & _); rewrite EM in Q; apply app_inj_tail in Q;
        destruct Q as (_ & <-); auto].
    assert (D : (exists a x b t ts, M = a ++ x :: b /\ w_tasks x = t :: ts /\ forall y, In y b -> w_tasks y = [])
                \/ forall x, In x M -> w_tasks x = []).
    { clear. induction M as [|x M IH]; [right; intros ? []|].
      destruct IH as [(a & y & b & t & ts & -> & T & N)|N].
      - left. exists (x :: a), y, b, t, ts. auto.
      - destruct (w_tasks x) as [|t ts] eqn:T.
        + right. intros y [<-|I]; auto.
        + left. exists [], x, M, t, ts. auto. }
    destruct D as [(a & x & b & t & ts & Q & T & N)|N].
    + destruct (Z_lt_dec 0 t) as [L|L].
      * left. exists t. split; [exists (rev r), w; auto|]. split; auto. exists a, x, b, ts. auto.
      * right. intros t' (_ & L' & a' & x' & b' & ts' & Q' & T' & N').
        rewrite Q in Q'. apply split_cases in Q'.
        destruct Q' as [(_ & <- & _)|[(m & _ & ->)|(m & _ & ->)]].
        -- rewrite T in T'. injection T' as <- _. auto.
        -- rewrite N in T' by (apply in_or_app; cbn; auto). discriminate.
        -- rewrite N' in T by (apply in_or_app; cbn; auto). discriminate.
    + right. intros t (_ & _ & a & x & b & ts & Q & T & _).
      rewrite (N x) in T; [discriminate|]. rewrite Q. apply in_or_app; cbn; auto.
Qed.

Lemma arrives_dec M rs c : arrives M rs c \/ ~ arrives M rs c.
Proof.
  unfold arrives. destruct (closing_dec M c) as [C|C]; [|right; intros ((t & Q) & _); eapply C; eauto].
  destruct (in_dec Z.eq_dec c rs); tauto.
Qed.

(** One more report. *)
Lemma working_snoc M rs c t :
  working M (rs ++ [c]) t <->
  (arrives M rs c /\ working M rs t /\ ~ closing M t c) \/
  (~ arrives M rs c /\ ((exists ts, place M c ts /\ In t ts) \/
                        ((forall ts, ~ place M c ts) /\ working M rs t))).
Proof.
  split.
  - intros (a & c0 & b & ts & E & A & P & T & H).
    destruct b as [|c1 b _] using rev_ind.
    + apply app_inj_tail in E. destruct E as (-> & ->). right. split; auto. left; eauto.
    + rewrite app_comm_cons, app_assoc in E. apply app_inj_tail in E. destruct E as (-> & ->).
      assert (W : working M (a ++ c0 :: b) t).
      { exists a, c0, b, ts. split; auto. split; auto. split; auto. split; auto.
        intros a' c' b' ->. apply (H a' c' (b' ++ [c1])). rewrite <- app_assoc. reflexivity. }
      destruct (H b c1 [] eq_refl) as [(Q1 & Q2)|(Q1 & Q2)]; [left; auto|right; split; auto].
  - intros [(A & (a & c0 & b & ts & -> & NA & P & T & H) & NC)|(A & [(ts & P & T)|(NP & (a & c0 & b & ts & -> & NA & P & T & H))])].
    + exists a, c0, (b ++ [c]), ts. split; [rewrite <- app_assoc; reflexivity|].
      split; auto. split; auto. split; auto. intros a' c' b' E.
      destruct b' as [|c2 b' _] using rev_ind.
      * apply app_inj_tail in E. destruct E as (<- & <-). left. auto.
      * rewrite app_comm_cons, app_assoc in E. apply app_inj_tail in E. destruct E as (-> & _).
        eapply H; eauto.
    + exists rs, c, [], ts. split; auto. split; auto. split; auto. split; auto.
      intros [|z0 a0] c' b' E; discriminate.
    + exists a, c0, (b ++ [c]), ts. split; [rewrite <- app_assoc; reflexivity|].
      split; auto. split; auto. split; auto. intros a' c' b' E.
      destruct b' as [|c2 b' _] using rev_ind.
      * apply app_inj_tail in E. destruct E as (<- & <-). right. auto.
      * rewrite app_comm_cons, app_assoc in E. apply app_inj_tail in E. destruct E as (-> & _).
        eapply H; eauto.
Qed.

Lemma working_nil M t : ~ working M [] t.
Proof. intros ([|z0 a0] & c & b & ts & E & _); discriminate. Qed.

Lemma getl_set {A} (m : zmap (list A)) k l j : getl (zset m k l) j = if j =? k then l else getl m j.
Proof.
  unfold getl. destruct (Z.eqb_spec j k) as [->|D]; [rewrite zget_set_same|rewrite zget_set_other by auto]; reflexivity.
Qed.

Section Tracker.
  Context (ord : list Z -> list Z) (ord_perm : forall l, Permutation (ord l) l).
  Notation step := (step ord).

  (** What is known of a vehicle after the messages [h]. *)
  Definition vinv (h : list ev) (s : st) (v : Z) : Prop :=
    match zget (missions s) v with
    | None => (forall e M, In e h -> ~ gives v M e) /\ zget (over s) v = None
    | Some M => exists rs, since v h M rs /\
        (forall t, In t (getl (prog s) v) <-> working M rs t) /\ NoDup (getl (prog s) v) /\
        (forall t c, zget (over s) v = Some (t, c) <-> closing M t c /\ ~ In c rs)
    end.
  Record inv (h : list ev) (s : st) : Prop := {
    iv_emit : emit s = [];
    iv_elig : forall t, In t (elig s) <-> endable h t;
    iv_v : forall v, vinv h s v
  }.

  Lemma mission_over s v ws : (forall w, In w ws -> 0 <= w_number w < 10000) ->
    forall t c, zget (over (mission s v ws)) v = Some (t, c) <-> closing ws t c.
  Proof.
    intros O t c. cbn [over mission]. destruct (rev ws) as [|w r] eqn:R.
    - rewrite zget_del_same. split; [discriminate|]. intros ((a & w & -> & _) & _).
      rewrite rev_app_distr in R. discriminate.
    - assert (E : ws = rev r ++ [w]) by (rewrite <- (rev_involutive ws), R; reflexivity).
      assert (OR : forall y, In y (w :: r) -> w_number y < 10000).
      { intros y I. apply O. apply in_rev. rewrite R. exact I. }
      destruct (lastTask_spec (w :: r) OR) as [(L & N)|(b & x & a & t' & ts & Q & T & N & L)]; clear OR.
      + rewrite L, andb_false_r, zget_del_same. split; [discriminate|].
        intros (_ & _ & a & x & b & ts & -> & T & _). rewrite (N x) in T; [discriminate|].
        rewrite <- R, <- in_rev. apply in_or_app; cbn; auto.
      + assert (EM : ws = rev a ++ x :: rev b).
        { rewrite <- (rev_involutive ws), R, Q, rev_app_distr. cbn. rewrite <- app_assoc. reflexivity. }
        assert (CL : closing ws t c <-> t = t' /\ 0 < t' /\ c = w_number w /\ w_number w = w_next w).
        { split.
          - intros C. assert (C' := C). destruct C as ((a' & w' & E' & E1 & E2) & P & _).
            rewrite E in E'. apply app_inj_tail in E'. destruct E' as (_ & <-).
            assert (0 < t /\ t = t').
            { split; auto. destruct C' as (_ & _ & a2 & x2 & b2 & ts2 & E' & T' & N').
              rewrite EM in E'. apply split_cases in E'.
              destruct E' as [(_ & <- & _)|[(m & _ & E')|(m & _ & E')]].
              - congruence.
              - exfalso. rewrite N in T'; [discriminate|]. apply in_rev. rewrite E'. apply in_or_app; cbn; auto.
              - exfalso. rewrite N' in T; [discriminate|]. rewrite E'. apply in_or_app; cbn; auto. }
            intuition lia.
          - intros (-> & P & -> & EN). split; [exists (rev r), w; auto|]. split; auto.
            exists (rev a), x, (rev b), ts. split; auto. split; auto. intros y I. apply N. apply in_rev. auto. }
        rewrite L, CL. destruct (Z.eqb_spec (w_number w) (w_next w)) as [EN|EN]; cbn [andb].
        * destruct (Z.ltb_spec 0 t') as [P|P].
          -- rewrite zget_set_same. split; [intros [= <- <-]; auto|intros (-> & _ & -> & _); auto].
          -- rewrite zget_del_same. split; [discriminate|intros (_ & P' & _); lia].
        * rewrite zget_del_same. split; [discriminate|intros (_ & _ & _ & Q'); contradiction].
  Qed.

  Lemma mission_other s v ws w : w <> v ->
    zget (missions (mission s v ws)) w = zget (missions s) w /\
    getl (prog (mission s v ws)) w = getl (prog s) w /\
    zget (over (mission s v ws)) w = zget (over s) w.
  Proof.
    intros D. cbn [missions prog over mission].
    rewrite zget_set_other, getl_set by auto. destruct (Z.eqb_spec w v); [contradiction|].
    split; auto. split; auto.
    destruct (rev ws) as [|x r]; [apply zget_del_other; auto|].
    destruct (_ && _); [rewrite zget_set_other by auto|]; apply zget_del_other; auto.
  Qed.

  Definition missions_of (l : list (Z * list wp)) (s : st) : st :=
    fold_left (fun s m => mission s (fst m) (snd m)) l s.

  Lemma missions_frame l s : emit (missions_of l s) = emit s /\ elig (missions_of l s) = elig s.
  Proof. unfold missions_of. revert s. induction l as [|m l IH]; intros s; cbn [fold_left]; auto. destruct (IH (mission s (fst m) (snd m))) as (-> & ->). auto. Qed.

  Lemma missions_other l v : forall s, (forall M, ~ In (v, M) l) ->
    zget (missions (missions_of l s)) v = zget (missions s) v /\
    getl (prog (missions_of l s)) v = getl (prog s) v /\
    zget (over (missions_of l s)) v = zget (over s) v.
  Proof.
    unfold missions_of. induction l as [|(w, ws) l IH]; intros s N; cbn [fold_left fst snd]; auto.
    destruct (IH (mission s w ws)) as (E1 & E2 & E3); [intros M I; apply (N M); cbn; auto|].
    destruct (mission_other s w ws v) as (F1 & F2 & F3); [intros ->; apply (N ws); cbn; auto|].
    rewrite E1, E2, E3. auto.
  Qed.

  Lemma missions_last l1 v M l2 s : (forall M', ~ In (v, M') l2) ->
    (forall w, In w M -> 0 <= w_number w < 10000) ->
    let s' := missions_of (l1 ++ (v, M) :: l2) s in
    zget (missions s') v = Some M /\ getl (prog s') v = [] /\
    forall t c, zget (over s') v = Some (t, c) <-> closing M t c.
  Proof.
    intros N O s'. subst s'. unfold missions_of. rewrite fold_left_app. cbn [fold_left fst snd].
    set (s1 := fold_left _ l1 s).
    destruct (missions_other l2 v (mission s1 v M) N) as (E1 & E2 & E3). unfold missions_of in *.
    rewrite E1, E2, E3. split; [apply zget_set_same|]. split; [cbn; rewrite getl_set, Z.eqb_refl; auto|].
    apply mission_over; auto.
  Qed.

  Lemma endable_snoc h e t : endable (h ++ [e]) t <->
    endable h t \/ exists k, e = Task t k /\ ending k.
  Proof.
    split.
    - intros (k & I & E). apply in_app_or in I. destruct I as [I|[->|[]]]; [left; exists k; auto|right; eauto].
    - intros [(k & I & E)|(k & -> & E)]; exists k; (split; [apply in_or_app; cbn; auto|auto]).
  Qed.

  Lemma vinv_keep h s s' v e :
    vinv h s v -> (forall M, ~ gives v M e) -> report v e = [] ->
    zget (missions s') v = zget (missions s) v -> getl (prog s') v = getl (prog s) v ->
    zget (over s') v = zget (over s) v -> vinv (h ++ [e]) s' v.
  Proof.
    unfold vinv. intros V NG R -> -> ->. destruct (zget (missions s) v) as [M|].
    - destruct V as (rs & S1 & W & ND & O). exists rs. split; [|auto].
      rewrite <- (app_nil_r rs), <- R. apply since_snoc; auto.
    - destruct V as (N & O). split; auto. intros e' M I. apply in_app_or in I. destruct I as [I|[<-|[]]]; auto.
  Qed.

  Lemma vinv_given h s' v M e :
    gives v M e -> zget (missions s') v = Some M -> getl (prog s') v = [] ->
    (forall t c, zget (over s') v = Some (t, c) <-> closing M t c) -> vinv (h ++ [e]) s' v.
  Proof.
    intros G E1 E2 E3. unfold vinv. rewrite E1, E2. exists []. split; [apply since_new; auto|].
    split; [intros t; split; [intros []|intros W; exfalso; eapply working_nil; eauto]|].
    split; [constructor|]. intros t c. rewrite E3. cbn. tauto.
  Qed.

  Lemma ordinary_app h h' : ordinary (h ++ h') -> ordinary h /\ ordinary h'.
  Proof.
    intros O. split; intros v M e w I; apply (O v M e w); apply in_or_app; auto.
  Qed.

  (** The loop over the tasks in progress at an ordinary waypoint. *)
  Lemma check_loop v inner ts : forall l s o,
    (forall t, In t l -> 0 < t) -> NoDup l -> emit s = [] ->
    let r := fold_left (check v 0 inner ts) l (s, o) in
    emit (fst r) = [] /\ elig (fst r) = elig s /\ missions (fst r) = missions s /\ over (fst r) = over s /\
    (forall w, w <> v -> getl (prog (fst r)) w = getl (prog s) w) /\
    (NoDup (getl (prog s) v) -> NoDup (getl (prog (fst r)) v)) /\
    (forall t, In t (getl (prog (fst r)) v) <-> In t (getl (prog s) v) /\ ~ (In t l /\ ~ In t ts)) /\
    snd r = o ++ map (Complete v) (filter (fun t => negb (zin t ts) && zin t (elig s)) l).
  Proof.
    induction l as [|t l IH]; intros s o P ND EM; cbn [fold_left].
    - cbn [fst snd map filter]. rewrite app_nil_r. repeat split; auto; intros; tauto.
    - assert (T0 : (t =? 0) = false) by (apply Z.eqb_neq; specialize (P t (or_introl eq_refl)); lia).
      apply NoDup_cons_iff in ND. destruct ND as (NI & ND).
      assert (P' : forall x, In x l -> 0 < x) by (intros; apply P; cbn; auto).
      destruct (zin t ts) eqn:Z.
      + assert (E : check v 0 inner ts (s, o) t = (s, o)).
        { unfold check. cbn [fst snd]. rewrite T0, Z. cbn [negb]. destruct s; reflexivity. }
        rewrite E. destruct (IH s o P' ND EM) as (H1 & H2 & H3 & H4 & H5 & H6 & H7 & H8).
        apply zin_In in Z.
        repeat split; auto.
        * apply H7; auto.
        * intros ([<-|I] & N); [auto|]. apply H7 in H. tauto.
        * intros (I & N). apply H7. split; auto. intros (I' & N'). apply N. cbn; auto.
        * rewrite H8. cbn [filter]. apply zin_In in Z. rewrite Z. reflexivity.
      + set (s1 := fst (check v 0 inner ts (s, o) t)). set (o1 := snd (check v 0 inner ts (s, o) t)).
        assert (E : check v 0 inner ts (s, o) t = (s1, o1)) by (unfold s1, o1; destruct (check _ _ _ _ _ _); auto).
        assert (EO : o1 = o ++ if zin t (elig s) then [Complete v t] else []).
        { unfold o1, check. cbn [fst snd]. rewrite T0, Z, EM. reflexivity. }
        assert (ES : emit s1 = [] /\ elig s1 = elig s /\ missions s1 = missions s /\ over s1 = over s /\
                     prog s1 = zset (prog s) v (zrem t (getl (prog s) v))).
        { unfold s1, check. cbn [fst snd]. rewrite T0, Z, EM. cbn. auto. }
        clearbody s1 o1. destruct ES as (S1 & S2 & S3 & S4 & S5).
        rewrite E. destruct (IH s1 o1 P' ND S1) as (H1 & H2 & H3 & H4 & H5 & H6 & H7 & H8).
        split; auto. split; [congruence|]. split; [congruence|]. split; [congruence|].
        assert (G : getl (prog s1) v = zrem t (getl (prog s) v)) by (rewrite S5, getl_set, Z.eqb_refl; auto).
        split.
        { intros w D. rewrite H5, S5, getl_set by auto. destruct (Z.eqb_spec w v); [contradiction|auto]. }
        split; [intros N; apply H6; rewrite G; apply NoDup_zrem; auto|].
        apply zin_false in Z. split.
        * intros x. rewrite H7, G, In_zrem. split.
          -- intros ((I & D) & N). split; auto. intros ([<-|I'] & N'); auto.
          -- intros (I & N). split; [split; auto; intros ->; apply N; cbn; auto|].
             intros (I' & N'). apply N. cbn; auto.
        * rewrite H8, EO, S2. cbn [filter]. apply zin_false in Z. rewrite Z. cbn [negb andb].
          rewrite <- app_assoc. destruct (zin t (elig s)); reflexivity.
  Qed.

  Lemma addAll_in ts : forall l x, In x (fold_left (fun a t => zadd t a) ts l) <-> In x ts \/ In x l.
  Proof.
    induction ts as [|t ts IH]; intros l x; cbn [fold_left]; [cbn; tauto|].
    rewrite IH, In_zadd. cbn. intuition.
  Qed.
  Lemma addAll_nodup ts : forall l, NoDup l -> NoDup (fold_left (fun a t => zadd t a) ts l).
  Proof. induction ts as [|t ts IH]; intros l N; cbn [fold_left]; auto. apply IH, NoDup_zadd; auto. Qed.

  Lemma working_pos h v M rs t : ordinary h -> since v h M rs -> working M rs t -> 0 < t.
  Proof.
    intros O (h1 & e & h2 & -> & G & _) (a & c & b & ts & _ & _ & (a' & w & b' & -> & _ & <- & _) & T & _).
    apply (O v (a' ++ w :: b') e w); auto; apply in_or_app; cbn; auto.
  Qed.

  Lemma since_ordinary h v M rs w : ordinary h -> since v h M rs -> In w M ->
    0 <= w_number w < 10000 /\ forall t, In t (w_tasks w) -> 0 < t.
  Proof.
    intros O (h1 & e & h2 & -> & G & _) I. apply (O v M e w); auto. apply in_or_app; cbn; auto.
  Qed.

  (** What a report does. *)
  Lemma state_step h s v c M rs :
    ordinary h -> inv h s -> zget (missions s) v = Some M -> since v h M rs ->
    let r := state ord s v c in
    emit (fst r) = [] /\ elig (fst r) = elig s /\ missions (fst r) = missions s /\
    (forall w, w <> v -> getl (prog (fst r)) w = getl (prog s) w /\ zget (over (fst r)) w = zget (over s) w) /\
    NoDup (getl (prog (fst r)) v) /\
    (forall t, In t (getl (prog (fst r)) v) <-> working M (rs ++ [c]) t) /\
    (forall t n, zget (over (fst r)) v = Some (t, n) <-> closing M t n /\ ~ In n (rs ++ [c])) /\
    NoDup (snd r) /\
    (forall v' t, In (Complete v' t) (snd r) <-> v' = v /\ endable h t /\
       ((arrives M rs c /\ closing M t c) \/
        (~ arrives M rs c /\ working M rs t /\ exists ts, place M c ts /\ ~ In t ts))).
  Proof.
    intros O I EM SI r. assert (V := iv_v _ _ I v). unfold vinv in V. rewrite EM in V.
    destruct V as (rs' & SI' & W & ND & OV). destruct (since_fun _ _ _ _ _ _ SI' SI) as (_ & ->).
    assert (EL := iv_elig _ _ I).
    destruct (arrives_dec M rs c) as [A|A].
    - assert (A' := A). destruct A as ((t0 & C) & NR).
      assert (EO : zget (over s) v = Some (t0, c)) by (apply OV; auto).
      assert (ER : r = ({| elig := elig s; missions := missions s;
              prog := match zget (prog s) v with
                      | Some l => zset (prog s) v (zrem t0 l)
                      | None => prog s
                      end;
              over := zdel (over s) v; emit := emit s; taskWp := taskWp s |},
           if zin t0 (elig s) then [Complete v t0] else [])).
      { unfold r, state. rewrite EO, Z.eqb_refl. reflexivity. }
      rewrite ER. clear r ER. cbn [fst snd emit elig missions prog over].
      split; [apply (iv_emit _ _ I)|]. split; auto. split; auto.
      assert (G : forall w, getl (match zget (prog s) v with Some l => zset (prog s) v (zrem t0 l) | None => prog s end) w =
                            if w =? v then zrem t0 (getl (prog s) v) else getl (prog s) w).
      { intros w. destruct (zget (prog s) v) as [l|] eqn:P.
        - rewrite getl_set. unfold getl at 2. rewrite P. reflexivity.
        - destruct (Z.eqb_spec w v) as [->|]; auto. unfold getl. rewrite P. reflexivity. }
      split.
      { intros w D. rewrite G, zget_del_other by auto. destruct (Z.eqb_spec w v); [contradiction|auto]. }
      rewrite G, Z.eqb_refl. split; [apply NoDup_zrem; auto|]. split.
      { intros t. rewrite In_zrem, W, working_snoc. split.
        - intros (Q & D). left. split; auto. split; auto. intros C'. apply D. exact (proj1 (closing_fun _ _ _ _ _ C' C)).
        - intros [(_ & Q & N)|(N & _)]; [|contradiction]. split; auto. intros ->. auto. }
      split.
      { intros t n. rewrite zget_del_same. split; [discriminate|]. intros (C' & N). exfalso.
        apply N. apply in_or_app. right. left. exact (proj2 (closing_fun _ _ _ _ _ C C')). }
      split; [destruct (zin t0 (elig s)); repeat constructor; auto|].
      intros v' t. split.
      + destruct (zin t0 (elig s)) eqn:Z; [|intros []]. intros [[= <- <-]|[]].
        apply zin_In in Z. split; auto. split; [apply EL; auto|]. left; auto.
      + intros (-> & E & [(_ & C')|(N & _)]); [|contradiction].
        destruct (closing_fun _ _ _ _ _ C C') as (<- & _).
        assert (Z : zin t0 (elig s) = true) by (apply zin_In, EL; auto). rewrite Z. cbn; auto.
    - assert (ER : r = flown ord s v c).
      { unfold r, state. destruct (zget (over s) v) as [(t0, n)|] eqn:EO; auto.
        destruct (Z.eqb_spec c n) as [->|]; auto. exfalso. apply A. destruct (proj1 (OV t0 n) eq_refl) as (C & N).
        split; eauto. }
      assert (OV' : forall t n, zget (over s) v = Some (t, n) <-> closing M t n /\ ~ In n (rs ++ [c])).
      { intros t n. rewrite OV. split.
        - intros (C & N). split; auto. intros Q. apply in_app_or in Q. destruct Q as [Q|[<-|[]]]; auto.
          apply A. split; eauto.
        - intros (C & N). split; auto. intros Q. apply N. apply in_or_app; auto. }
      rewrite ER. clear r ER. unfold flown. rewrite EM.
      pose proof (place_find M c) as PF. destruct (find _ M) as [w|].
      + destruct PF as (PL & IW). destruct (since_ordinary _ _ _ _ _ O SI IW) as (NB & TP).
        unfold at_waypoint.
        assert (B0 : Z.quot (w_number w) 10000 = 0) by (apply Z.quot_small; lia). rewrite B0.
        change (0 <? 0) with false. cbv iota.
        set (p2 := fold_left (fun a t => zadd t a) (w_tasks w) (getl (prog s) v)).
        assert (P2 : forall x, In x p2 <-> In x (w_tasks w) \/ In x (getl (prog s) v)) by (intros; apply addAll_in).
        assert (N2 : NoDup p2) by (apply addAll_nodup; auto).
        clearbody p2.
        assert (N2' : NoDup (ord p2)) by (eapply Permutation_NoDup; [symmetry; apply ord_perm|auto]).
        assert (IO : forall x, In x (ord p2) <-> In x p2).
        { intros x. split; apply Permutation_in; [|symmetry]; apply ord_perm. }
        match goal with |- context [fold_left _ _ (?x, [])] => set (s0 := x) end.
        destruct (check_loop v (Z.rem (w_number w) 10000) (w_tasks w) (ord p2) s0 [])
          as (H1 & H2 & H3 & H4 & H5 & H6 & H7 & H8); auto.
        { intros t Q. apply IO, P2 in Q. destruct Q as [Q|Q]; auto. apply W in Q. eapply working_pos; eauto. }
        { apply (iv_emit _ _ I). }
        set (r := fold_left _ _ _) in *. clearbody r.
        assert (G0 : getl (prog s0) v = p2) by (unfold s0; cbn [prog]; rewrite getl_set, Z.eqb_refl; auto).
        split; auto. split; auto. split; auto. split.
        { intros x D. rewrite H5, H4 by auto. unfold s0; cbn [prog over]. rewrite getl_set.
          destruct (Z.eqb_spec x v); [contradiction|auto]. }
        split; [apply H6; rewrite G0; auto|]. split.
        { intros t. rewrite H7, G0, IO, working_snoc. split.
          - intros (Q & N). right. split; auto. left. exists (w_tasks w). split; auto.
            destruct (in_dec Z.eq_dec t (w_tasks w)); tauto.
          - intros [(Q & _)|(_ & [(ts & Q & T)|(N & _)])]; [contradiction| |exfalso; eapply N; eauto].
            rewrite (place_fun _ _ _ _ Q PL) in T. split; [apply P2; auto|tauto]. }
        split; [intros t n; rewrite H4; apply OV'|].
        rewrite H8. cbn [app elig s0]. split.
        { apply FinFun.Injective_map_NoDup; [intros x y [= ->]; auto|]. apply NoDup_filter; auto. }
        intros v' t. rewrite in_map_iff. split.
        * intros (x & [= <- <-] & Q). apply filter_In in Q. destruct Q as (Q & B).
          apply andb_true_iff in B. destruct B as (B1 & B2). apply negb_true_iff, zin_false in B1.
          apply zin_In, EL in B2. split; auto. split; auto. right. split; auto.
          apply IO, P2 in Q. destruct Q as [Q|Q]; [contradiction|]. split; [apply W; auto|eauto].
        * intros (-> & E & [(N & _)|(_ & Q & ts & PT & N)]); [contradiction|]. exists t. split; auto.
          rewrite (place_fun _ _ _ _ PT PL) in N. apply filter_In. split; [apply IO, P2; right; apply W; auto|].
          apply andb_true_iff. split; [apply negb_true_iff, zin_false; auto|apply zin_In, EL; auto].
      + cbn [fst snd]. split; [apply (iv_emit _ _ I)|]. split; auto. split; auto. split; auto. split; auto. split.
        { intros t. rewrite W, working_snoc. split; [intros Q; right; auto|].
          intros [(Q & _)|(_ & [(ts & Q & _)|(_ & Q)])]; auto; [contradiction|exfalso; eapply PF; eauto]. }
        split; auto. split; [constructor|]. intros v' t. split; [intros []|].
        intros (_ & _ & [(N & _)|(_ & _ & ts & Q & _)]); [contradiction|eapply PF; eauto].
  Qed.

  Lemma idle_step h s v c : inv h s -> zget (missions s) v = None -> state ord s v c = (s, []).
  Proof.
    intros I E. assert (V := iv_v _ _ I v). unfold vinv in V. rewrite E in V. destruct V as (_ & O).
    unfold state, flown. rewrite O, E. reflexivity.
  Qed.

  Lemma inv_step h s e : ordinary (h ++ [e]) -> inv h s -> inv (h ++ [e]) (fst (step s e)).
  Proof.
    intros O I. destruct (ordinary_app _ _ O) as (Oh & Oe). destruct e as [v c|l|v ws|t k]; cbn [step TrackerModel.step fst].
    - destruct (zget (missions s) v) as [M|] eqn:EM.
      + assert (V := iv_v _ _ I v). unfold vinv in V. rewrite EM in V. destruct V as (rs & SI & _).
        destruct (state_step h s v c M rs Oh I EM SI) as (H1 & H2 & H3 & H4 & H5 & H6 & H7 & _).
        set (s' := fst (state ord s v c)) in *. clearbody s'. constructor; auto.
        * intros t. rewrite H2, (iv_elig _ _ I), endable_snoc. split; auto.
          intros [Q|(k & Q & _)]; auto. discriminate.
        * intros w. destruct (Z.eq_dec w v) as [->|D].
          -- unfold vinv. rewrite H3, EM. exists (rs ++ [c]). split; [|auto].
             replace [c] with (report v (State v c)) by (cbn; rewrite Z.eqb_refl; auto).
             apply since_snoc; auto.
          -- destruct (H4 w D) as (E1 & E2). apply (vinv_keep h s); auto.
             ++ apply (iv_v _ _ I).
             ++ cbn. destruct (Z.eqb_spec v w); congruence.
             ++ rewrite H3; auto.
      + rewrite (idle_step h) by auto. cbn [fst]. constructor; [apply (iv_emit _ _ I)| |].
        * intros t. rewrite (iv_elig _ _ I), endable_snoc. split; auto.
          intros [Q|(k & Q & _)]; auto. discriminate.
        * intros w. destruct (Z.eq_dec w v) as [->|D].
          -- assert (V := iv_v _ _ I v). unfold vinv in *. rewrite EM in *. destruct V as (N & V). split; auto.
             intros e M Q. apply in_app_or in Q. destruct Q as [Q|[<-|[]]]; auto.
          -- apply (vinv_keep h s); auto; [apply (iv_v _ _ I)|]. cbn. destruct (Z.eqb_spec v w); congruence.
    - destruct (missions_frame l s) as (F1 & F2). unfold missions_of in *. constructor.
      + rewrite F1. apply (iv_emit _ _ I).
      + intros t. rewrite F2, (iv_elig _ _ I), endable_snoc. split; auto. intros [Q|(k & Q & _)]; auto. discriminate.
      + intros v. destruct (gives_or v (Response l)) as [(M & G)|N].
        * assert (G' := G). destruct G as (l1 & l2 & -> & N).
          destruct (missions_last l1 v M l2 s N) as (E1 & E2 & E3).
          { intros w Q. apply (Oe v M (Response (l1 ++ (v, M) :: l2)) w); cbn [In]; auto. }
          eapply vinv_given; eauto.
        * assert (N' : forall M, ~ In (v, M) l).
          { destruct (in_last v l) as [(M & Q)|Q]; auto. exfalso. apply (N M). exact Q. }
          destruct (missions_other l v s N') as (E1 & E2 & E3).
          apply (vinv_keep h s); auto. apply (iv_v _ _ I).
    - constructor.
      + cbn. apply (iv_emit _ _ I).
      + intros t. cbn [elig mission]. rewrite (iv_elig _ _ I), endable_snoc. split; auto.
        intros [Q|(k & Q & _)]; auto. discriminate.
      + intros w. destruct (Z.eq_dec w v) as [->|D].
        * apply (vinv_given h _ v ws); [cbn; auto|cbn; apply zget_set_same|cbn [prog mission]; rewrite getl_set, Z.eqb_refl; auto|].
          apply mission_over. intros x Q. apply (Oe v ws (Mission v ws) x); cbn [In gives]; auto.
        * destruct (mission_other s v ws w D) as (E1 & E2 & E3). apply (vinv_keep h s); auto; [apply (iv_v _ _ I)|].
          intros M (Q & _). auto.
    - constructor.
      + cbn. apply (iv_emit _ _ I).
      + intros x. rewrite endable_snoc. cbn [elig task].
        assert (K : forall P : bool, (P = true <-> ending k) ->
                    (In x (if P then zadd t (elig s) else elig s) <-> endable h x \/ (x = t /\ ending k))).
        { intros P HP. rewrite <- (iv_elig _ _ I). destruct P.
          - rewrite In_zadd. intuition.
          - split; auto. intros [Q|(_ & Q)]; auto. apply HP in Q. discriminate. }
        rewrite K.
        * split; (intros [Q|Q]; [left; auto|right]).
          -- destruct Q as (-> & Q). eauto.
          -- destruct Q as (k' & [= -> ->] & Q). auto.
        * destruct k as [d|[d|]| | |]; cbn [ending]; try tauto; try (rewrite Z.ltb_lt; lia); intuition discriminate.
      + intros w. apply (vinv_keep h s); auto. apply (iv_v _ _ I).
  Qed.

  Lemma inv_init : inv [] init.
  Proof.
    constructor; auto.
    - intros t. split; [intros []|intros (k & [] & _)].
    - intros v. cbn. split; auto.
  Qed.

  Lemma inv_run evs : ordinary evs -> inv evs (fst (run step init evs)).
  Proof.
    induction evs as [|e evs IH] using rev_ind; intros O; [apply inv_init|].
    rewrite run_snoc. cbn [fst]. apply inv_step; auto. apply IH. exact (proj1 (ordinary_app _ _ O)).
  Qed.
End Tracker.

(** Invariant of the service manager. *)
From Coq Require Import List ZArith Bool Permutation Lia.
From Verif Require Import ZMap Run ServiceMgrModel ServiceMgrSpec.
Import ListNotations.
Open Scope list_scope.
Open Scope Z_scope.

Lemma outs_app a b : outs (a ++ b) = outs a ++ outs b.
Proof. unfold outs. apply flat_map_app. Qed.

Lemma started_app a b : started (a ++ b) = started a ++ started b.
Proof. unfold started. now rewrite outs_app, flat_map_app. Qed.

Lemma destroyed_app a b : destroyed (a ++ b) = destroyed a ++ destroyed b.
Proof. unfold destroyed. now rewrite outs_app, flat_map_app. Qed.

Lemma ended_app a b : ended (a ++ b) = ended a ++ ended b.
Proof. unfold ended. apply flat_map_app. Qed.

Lemma NoDup_app_ {A} (l m : list A) :
  NoDup l -> NoDup m -> (forall x, In x l -> ~ In x m) -> NoDup (l ++ m).
Proof.
  intros L M D. induction L as [|x l N L IH]; cbn; auto. constructor.
  - rewrite in_app_iff. intros [C|C]; [auto|]. apply (D x); [now left|auto].
  - apply IH. intros y Y. apply D. now right.
Qed.

Lemma zdel_none {A} (m : zmap A) k : zget m k = None -> zdel m k = m.
Proof.
  intros H. rewrite zget_none in H. unfold zdel. induction m as [|(j, x) m IH]; cbn in *; auto.
  destruct (Z.eqb_spec j k) as [->|N]; cbn; [tauto|]. f_equal. apply IH. tauto.
Qed.

Definition obj (p : Z * svc) : Z * Z := (v_uid (snd p), v_id (snd p)).

Section Inv.
  Context (own : Z) (ord : zmap svc -> list (Z * svc)) (ord_perm : forall m, Permutation (ord m) m)
          (own_pos : 0 < own).

  Record inv (s : state) (t : trace) : Prop := {
    i_keys : NoDup (map fst (g_map s));
    i_key : forall k v, In (k, v) (g_map s) -> k = u32 (v_id v);
    i_map : forall p, In p (g_map s) -> In (obj p) (started t) /\ ~ In (v_uid (snd p)) (destroyed t);
    i_run : forall u i, In (u, i) (started t) -> ~ In u (destroyed t) -> ~ In u (ended t) ->
            exists p, In p (g_map s) /\ obj p = (u, i);
    i_uids : NoDup (map (fun p => v_uid (snd p)) (g_map s));
    i_nd : NoDup (map fst (started t));
    i_lt : forall u, In u (map fst (started t)) -> u < g_uid s;
    i_destr : forall u, In u (destroyed t) -> In u (map fst (started t));
    i_done : forall u, In u (g_done s) <-> In u (ended t);
    i_up : g_up s = true <-> listening own t;
    i_term : g_term s = true -> In (EvKill (-1)) (map fst t);
    i_termup : g_term s = true -> g_up s = false;
    i_killed : forall a o b, t = a ++ (EvKill (-1), o) :: b -> listening own a -> g_term s = true;
    i_exit : g_exit s = true <-> In OutExit (outs t);
    i_left : g_left s <> None -> In EvExpire (map fst t) }.

  Lemma inv_init next : inv (ginit next) [].
  Proof.
    split; cbn; try easy; try (now constructor).
    - intros a o b E. now destruct a.
  Qed.

  (** The unfinished services of the map are those that run. *)
  Lemma unfinished s t : inv s t ->
    Permutation (map obj (filter (fun p => negb (finished s (snd p))) (g_map s))) (running t).
  Proof.
    intros I. apply NoDup_Permutation.
    - apply (NoDup_map_inv fst). rewrite map_map.
      assert (E : forall l, map (fun p => fst (obj p)) l = map (fun p : Z * svc => v_uid (snd p)) l)
        by (intros l; apply map_ext; auto).
      rewrite E. clear E. pose proof (i_uids _ _ I) as ND. revert ND.
      induction (g_map s) as [|p m IH]; cbn [filter map]; [constructor|].
      intros N. inversion N as [|? ? A B]; subst.
      destruct (negb _); cbn [map]; auto. constructor; auto.
      intros C. apply A. apply in_map_iff in C. destruct C as (q & Q1 & Q2).
      apply filter_In in Q2. rewrite <- Q1. now apply (in_map (fun p => v_uid (snd p))).
    - apply NoDup_filter. apply (NoDup_map_inv fst). apply I.
    - intros (u, i). split.
      + intros H. apply in_map_iff in H. destruct H as (p & E & H).
        apply filter_In in H. destruct H as (H & N). destruct (i_map _ _ I _ H) as (A & B).
        rewrite E in A. unfold running. apply filter_In. split; auto. cbn [fst].
        injection E as <- <-. apply andb_true_intro. split; apply negb_true_iff, zin_false; auto.
        rewrite <- (i_done _ _ I). apply negb_true_iff in N. now apply zin_false in N.
      + intros H. apply filter_In in H. destruct H as (H & N). cbn [fst] in N.
        apply andb_prop in N. destruct N as (N1 & N2). apply negb_true_iff, zin_false in N1.
        apply negb_true_iff, zin_false in N2.
        destruct (i_run _ _ I _ _ H N1 N2) as (p & P & E). apply in_map_iff. exists p. split; auto.
        apply filter_In. split; auto. apply negb_true_iff. apply zin_false.
        rewrite (i_done _ _ I). injection E as E _. rewrite E. auto.
  Qed.

  Lemma terminateAll_kills s t : inv s t ->
    Permutation (terminateAll ord s) (map (fun p => OutKill (snd p)) (running t)).
  Proof.
    intros I. rewrite <- (unfinished _ _ I), map_map. unfold terminateAll. apply Permutation_map.
    pose proof (ord_perm (g_map s)) as P. revert P. generalize (ord (g_map s)), (g_map s).
    intros l1 l2 P. induction P; cbn [filter]; auto.
    - destruct (negb _); auto.
    - destruct (negb _), (negb _); auto. apply perm_swap.
    - etransitivity; eauto.
  Qed.

  Lemma terminateAll_outs s o : In o (terminateAll ord s) -> exists i, o = OutKill i.
  Proof. intros H. apply in_map_iff in H. destruct H as (p & <- & _). eauto. Qed.

  (** Steps that touch neither services nor the threads. *)
  Lemma inv_other s t s' e o : inv s t ->
    g_map s' = g_map s -> g_done s' = g_done s -> g_uid s' = g_uid s -> g_term s' = g_term s ->
    g_up s' = g_up s -> g_left s' = g_left s -> g_exit s' = g_exit s ->
    (forall x, In x o -> match x with OutStarted _ _ | OutDestroyed _ | OutExit => False | _ => True end) ->
    match e with
    | EvFinish _ => False
    | EvKill id => g_up s = false \/ (id <> own /\ id <> -1)
    | _ => True
    end ->
    inv s' (t ++ [(e, o)]).
  Proof.
    intros I E1 E2 E3 E4 E5 E6 E7 O K.
    assert (A1 : started (t ++ [(e, o)]) = started t).
    { rewrite started_app. unfold started at 2, outs. cbn [flat_map snd]. rewrite app_nil_r.
      replace (flat_map _ o) with (@nil (Z * Z)); [apply app_nil_r|].
      symmetry. clear -O. induction o as [|x o IH]; auto. cbn [flat_map].
      pose proof (O x (or_introl eq_refl)). rewrite IH by (intros; apply O; now right).
      destruct x; easy. }
    assert (A2 : destroyed (t ++ [(e, o)]) = destroyed t).
    { rewrite destroyed_app. unfold destroyed at 2, outs. cbn [flat_map snd]. rewrite app_nil_r.
      replace (flat_map _ o) with (@nil Z); [apply app_nil_r|].
      symmetry. clear -O. induction o as [|x o IH]; auto. cbn [flat_map].
      pose proof (O x (or_introl eq_refl)). rewrite IH by (intros; apply O; now right).
      destruct x; easy. }
    assert (A3 : ended (t ++ [(e, o)]) = ended t).
    { rewrite ended_app. unfold ended at 2. cbn. destruct e; try apply app_nil_r. easy. }
    assert (A4 : In OutExit (outs (t ++ [(e, o)])) <-> In OutExit (outs t)).
    { rewrite outs_app, in_app_iff. unfold outs at 2. cbn [flat_map snd]. rewrite app_nil_r.
      split; [intros [H|H]|]; auto. now apply O in H. }
    assert (A5 : listening own (t ++ [(e, o)]) <-> listening own t).
    { unfold listening. rewrite A4, map_app, !in_app_iff. cbn [map fst In].
      split; [tauto|]. intros L. destruct (i_up _ _ I) as (_ & U). specialize (U L).
      destruct L as (L1 & L2 & L3). repeat split; auto.
      - intros [C|[C|[]]]; auto. subst e. destruct K as [K|[K _]]; [congruence|auto].
      - intros [C|[C|[]]]; auto. subst e. destruct K as [K|[_ K]]; [congruence|auto]. }
    split; rewrite ?A1, ?A2, ?A3, ?A4, ?A5, ?E1, ?E2, ?E3, ?E4, ?E5, ?E6, ?E7; try apply I.
    - intros H. rewrite map_app. apply in_or_app. left. now apply I.
    - intros a x b Q L. destruct b as [|y b] using rev_ind.
      + apply app_inj_tail in Q. destruct Q as (-> & Q). injection Q as -> ->.
        destruct K as [K|[_ K]]; [|easy]. apply (i_up _ _ I) in L. congruence.
      + clear IHb. rewrite app_comm_cons, app_assoc in Q. apply app_inj_tail in Q.
        destruct Q as (-> & _). now apply (i_killed _ _ I a x b).
    - intros H. rewrite map_app. apply in_or_app. left. now apply I.
  Qed.

  Lemma killed_snoc s t e o : inv s t ->
    (e = EvKill (-1) -> g_up s = true -> False) ->
    forall a x b, t ++ [(e, o)] = a ++ (EvKill (-1), x) :: b -> listening own a -> g_term s = true.
  Proof.
    intros I N a x b Q L. destruct b as [|y b] using rev_ind.
    - apply app_inj_tail in Q. destruct Q as (-> & Q). injection Q as -> ->.
      exfalso. apply N; auto. now apply I.
    - clear IHb. rewrite app_comm_cons, app_assoc in Q. apply app_inj_tail in Q.
      destruct Q as (-> & _). now apply (i_killed _ _ I a x b).
  Qed.

  Lemma listening_snoc t e o :
    listening own (t ++ [(e, o)]) <->
    listening own t /\ e <> EvKill own /\ e <> EvKill (-1) /\ ~ In OutExit o.
  Proof.
    unfold listening. rewrite outs_app, map_app, !in_app_iff. unfold outs at 2.
    cbn [map fst snd flat_map In]. rewrite app_nil_r. intuition congruence.
  Qed.

  Lemma exit_snoc t e o :
    In OutExit (outs (t ++ [(e, o)])) <-> In OutExit (outs t) \/ In OutExit o.
  Proof.
    rewrite outs_app, in_app_iff. unfold outs at 2. cbn [flat_map snd]. now rewrite app_nil_r.
  Qed.

  (** A sweep keeps the invariant, whatever is written besides the number. *)
  Lemma inv_sweep s t e o l x : inv s t -> e = EvSweep ->
    (o = [OutRunning x] \/ o = [OutRunning x; OutExit]) ->
    (l <> None -> g_left s <> None) ->
    inv {| g_map := filter (fun p => negb (finished s (snd p))) (g_map s); g_done := g_done s;
           g_next := g_next s; g_uid := g_uid s; g_term := g_term s;
           g_up := if existsb (fun y => match y with OutExit => true | _ => false end) o
                   then false else g_up s;
           g_left := l;
           g_exit := if existsb (fun y => match y with OutExit => true | _ => false end) o
                     then true else g_exit s |} (t ++ [(e, o)]).
  Proof.
    intros I -> O L.
    assert (A1 : started (t ++ [(EvSweep, o)]) = started t)
      by (rewrite started_app; destruct O as [-> | ->]; apply app_nil_r).
    assert (A2 : destroyed (t ++ [(EvSweep, o)]) = destroyed t)
      by (rewrite destroyed_app; destruct O as [-> | ->]; apply app_nil_r).
    assert (A3 : ended (t ++ [(EvSweep, o)]) = ended t)
      by (rewrite ended_app; apply app_nil_r).
    split; rewrite ?A1, ?A2, ?A3; cbn [g_map g_done g_uid g_term g_up g_left g_exit]; try apply I.
    - pose proof (i_keys _ _ I) as ND. revert ND.
      induction (g_map s) as [|p m IH]; cbn [filter map]; auto.
      intros N. inversion N as [|? ? A B]; subst.
      destruct (negb _); cbn [map]; auto. constructor; auto.
      intros C. apply A. apply in_map_iff in C. destruct C as (q & <- & Q).
      apply filter_In in Q. now apply in_map.
    - intros k v H. apply filter_In in H. now apply I.
    - intros p H. apply filter_In in H. now apply I.
    - intros u i H1 H2 H3. destruct (i_run _ _ I _ _ H1 H2 H3) as (p & P & E). exists p.
      split; auto. apply filter_In. split; auto. apply negb_true_iff. apply zin_false.
      rewrite (i_done _ _ I). injection E as E _. rewrite E. auto.
    - pose proof (i_uids _ _ I) as ND. revert ND.
      induction (g_map s) as [|p m IH]; cbn [filter map]; auto.
      intros N. inversion N as [|? ? A B]; subst.
      destruct (negb _); cbn [map]; auto. constructor; auto.
      intros C. apply A. apply in_map_iff in C. destruct C as (q & Q1 & Q).
      apply filter_In in Q. rewrite <- Q1. now apply (in_map (fun p => v_uid (snd p))).
    - rewrite listening_snoc, <- (i_up _ _ I). destruct O as [-> | ->]; cbn; intuition congruence.
    - intros H. rewrite map_app. apply in_or_app. left. now apply I.
    - intros H. apply (i_termup _ _ I) in H. rewrite H. now destruct (existsb _ _).
    - apply (killed_snoc _ _ _ _ I). discriminate.
    - rewrite exit_snoc, <- (i_exit _ _ I). destruct O as [-> | ->]; cbn; intuition congruence.
    - intros H. rewrite map_app. apply in_or_app. left. apply I. auto.
  Qed.

  Lemma inv_step s t e s' o : inv s t -> gstep own ord s e = (s', o) -> inv s' (t ++ [(e, o)]).
  Proof.
    intros I E. destruct e as [| |id oc|id|u| |]; cbn [gstep] in E.
    - (* construct *) injection E as <- <-. apply (inv_other s); auto. intros x [<-|[]]; auto.
    - (* reserve *) injection E as <- <-. apply (inv_other s); auto. intros x [<-|[]]; auto.
    - (* create *)
      destruct (g_up s) eqn:U; [|injection E as <- <-; apply (inv_other s); auto; intros x []].
      destruct oc; cbn [createService construct] in E.
      + injection E as <- <-. apply (inv_other s); auto. intros x [<-|[]]; auto.
      + injection E as <- <-. apply (inv_other s); auto. intros x [<-|[]]; auto.
      + set (i := if 0 <? id then id else g_next s) in E. cbn [v_uid v_id] in E.
        assert (FR : ~ In (g_uid s) (map fst (started t)))
          by (intros C; apply (i_lt _ _ I) in C; lia).
        destruct (zget (g_map s) (u32 i)) as [v|] eqn:Z; injection E as <- <-.
        * assert (A1 : started (t ++ [(EvCreate id Works, [OutStarted (g_uid s) i; OutDestroyed (g_uid s); OutResult true])])
                       = started t ++ [(g_uid s, i)]) by (rewrite started_app; auto).
          assert (A2 : destroyed (t ++ [(EvCreate id Works, [OutStarted (g_uid s) i; OutDestroyed (g_uid s); OutResult true])])
                       = destroyed t ++ [g_uid s]) by (rewrite destroyed_app; auto).
          assert (A3 : ended (t ++ [(EvCreate id Works, [OutStarted (g_uid s) i; OutDestroyed (g_uid s); OutResult true])])
                       = ended t) by (rewrite ended_app; apply app_nil_r).
          split; rewrite ?A1, ?A2, ?A3; cbn [g_map g_done g_uid g_term g_up g_left g_exit];
            try apply I.
          -- intros p H. destruct (i_map _ _ I _ H) as (B1 & B2). rewrite !in_app_iff.
             split; [auto|]. intros [C|[C|[]]]; auto. apply FR. rewrite C.
             apply in_map_iff. exists (obj p). auto.
          -- intros u j H1 H2 H3. rewrite in_app_iff in *. destruct H1 as [H1|[H1|[]]].
             ++ apply (i_run _ _ I); auto.
             ++ injection H1 as <- <-. exfalso. apply H2. right. now left.
          -- rewrite map_app. cbn [map fst]. apply NoDup_app_; auto; [apply I|repeat constructor; auto|].
             intros x H [<-|[]]. auto.
          -- intros u. rewrite map_app, in_app_iff. intros [H|[<-|[]]]; [|cbn; lia].
             apply (i_lt _ _ I) in H. lia.
          -- intros u. rewrite in_app_iff, map_app, in_app_iff. intros [H|[<-|[]]].
             ++ left. now apply I.
             ++ right. now left.
          -- rewrite listening_snoc, <- (i_up _ _ I). cbn. intuition congruence.
          -- intros H. apply (i_termup _ _ I) in H. congruence.
          -- apply (killed_snoc _ _ _ _ I). discriminate.
          -- rewrite exit_snoc, <- (i_exit _ _ I). cbn. intuition congruence.
          -- intros H. rewrite map_app. apply in_or_app. left. now apply I.
        * assert (A1 : started (t ++ [(EvCreate id Works, [OutStarted (g_uid s) i; OutResult true])])
                       = started t ++ [(g_uid s, i)]) by (rewrite started_app; auto).
          assert (A2 : destroyed (t ++ [(EvCreate id Works, [OutStarted (g_uid s) i; OutResult true])])
                       = destroyed t) by (rewrite destroyed_app; apply app_nil_r).
          assert (A3 : ended (t ++ [(EvCreate id Works, [OutStarted (g_uid s) i; OutResult true])])
                       = ended t) by (rewrite ended_app; apply app_nil_r).
          split; rewrite ?A1, ?A2, ?A3; cbn [g_map g_done g_uid g_term g_up g_left g_exit setMap];
            try apply I.
          -- apply NoDup_keys_zset, I.
          -- intros k v [H|H]; [injection H as <- <-; auto|]. apply In_zdel in H. now apply I.
          -- intros p [<-|H].
             ++ split; [apply in_or_app; right; now left|]. cbn. intros C.
                apply (i_destr _ _ I) in C. auto.
             ++ destruct p as (k, v). apply In_zdel in H. destruct H as (H & _).
                destruct (i_map _ _ I _ H). split; auto. apply in_or_app. auto.
          -- intros u j H1 H2 H3. apply in_app_or in H1. destruct H1 as [H1|[H1|[]]].
             ++ destruct (i_run _ _ I _ _ H1 H2 H3) as ((k, v) & P & E). exists (k, v).
                split; auto. right. apply In_zdel. split; auto. intros ->.
                apply zget_none in Z. apply Z. now apply (in_map fst) in P.
             ++ injection H1 as <- <-. eexists. split; [left; reflexivity|auto].
          -- unfold zset. cbn [map snd v_uid]. constructor.
             ++ intros C. apply in_map_iff in C. destruct C as ((k, v) & C1 & C2).
                apply In_zdel in C2. destruct (i_map _ _ I _ (proj1 C2)) as (C3 & _).
                apply FR. rewrite <- C1. apply in_map_iff. exists (obj (k, v)). auto.
             ++ rewrite zdel_none by auto. apply I.
          -- rewrite map_app. cbn [map fst]. apply NoDup_app_; auto; [apply I|repeat constructor; auto|].
             intros x H [<-|[]]. auto.
          -- intros u. rewrite map_app, in_app_iff. intros [H|[<-|[]]]; [|cbn; lia].
             apply (i_lt _ _ I) in H. lia.
          -- intros u H. rewrite map_app, in_app_iff. left. now apply I.
          -- rewrite listening_snoc, <- (i_up _ _ I). cbn. intuition congruence.
          -- intros H. apply (i_termup _ _ I) in H. congruence.
          -- apply (killed_snoc _ _ _ _ I). discriminate.
          -- rewrite exit_snoc, <- (i_exit _ _ I). cbn. intuition congruence.
          -- intros H. rewrite map_app. apply in_or_app. left. now apply I.
    - (* kill *)
      destruct (g_up s) eqn:U; [|injection E as <- <-; apply (inv_other s); auto; intros x []].
      unfold killService in E. destruct (Z.eqb_spec id own) as [->|N].
      + injection E as <- <-.
        assert (A1 : started (t ++ [(EvKill own, [])]) = started t)
          by (rewrite started_app; apply app_nil_r).
        assert (A2 : destroyed (t ++ [(EvKill own, [])]) = destroyed t)
          by (rewrite destroyed_app; apply app_nil_r).
        assert (A3 : ended (t ++ [(EvKill own, [])]) = ended t)
          by (rewrite ended_app; apply app_nil_r).
        split; rewrite ?A1, ?A2, ?A3; cbn [g_map g_done g_uid g_term g_up g_left g_exit];
          try apply I.
        * rewrite listening_snoc. intuition congruence.
        * intros H. rewrite map_app. apply in_or_app. left. now apply I.
        * auto.
        * apply (killed_snoc _ _ _ _ I). intros C. injection C as C. lia.
        * rewrite exit_snoc, <- (i_exit _ _ I). cbn. intuition congruence.
        * intros H. rewrite map_app. apply in_or_app. left. now apply I.
      + destruct (Z.eqb_spec id (-1)) as [->|N'].
        * injection E as <- <-.
          assert (A0 : forall x, In x (terminateAll ord s) -> exists i, x = OutKill i)
            by apply terminateAll_outs.
          revert A0. generalize (terminateAll ord s). intros o A0.
          assert (A1 : started (t ++ [(EvKill (-1), o)]) = started t).
          { rewrite started_app. unfold started at 2, outs. cbn [flat_map snd]. rewrite app_nil_r.
            replace (flat_map _ o) with (@nil (Z * Z)); [apply app_nil_r|].
            symmetry. clear -A0. induction o as [|x o IH]; auto. cbn [flat_map].
            destruct (A0 x (or_introl eq_refl)) as (i & ->). apply IH. intros; apply A0; now right. }
          assert (A2 : destroyed (t ++ [(EvKill (-1), o)]) = destroyed t).
          { rewrite destroyed_app. unfold destroyed at 2, outs. cbn [flat_map snd].
            rewrite app_nil_r.
            replace (flat_map _ o) with (@nil Z); [apply app_nil_r|].
            symmetry. clear -A0. induction o as [|x o IH]; auto. cbn [flat_map].
            destruct (A0 x (or_introl eq_refl)) as (i & ->). apply IH. intros; apply A0; now right. }
          assert (A3 : ended (t ++ [(EvKill (-1), o)]) = ended t)
            by (rewrite ended_app; apply app_nil_r).
          split; rewrite ?A1, ?A2, ?A3; cbn [g_map g_done g_uid g_term g_up g_left g_exit];
            try apply I; auto.
          -- rewrite listening_snoc. intuition congruence.
          -- intros _. rewrite map_app. apply in_or_app. right. now left.
          -- rewrite exit_snoc, <- (i_exit _ _ I). split; auto. intros [H|H]; auto.
             destruct (A0 _ H). discriminate.
          -- intros H. rewrite map_app. apply in_or_app. left. now apply I.
        * injection E as <- <-. apply (inv_other s); auto. intros x [].
    - (* finish *)
      injection E as <- <-.
      assert (A1 : started (t ++ [(EvFinish u, [])]) = started t)
        by (rewrite started_app; apply app_nil_r).
      assert (A2 : destroyed (t ++ [(EvFinish u, [])]) = destroyed t)
        by (rewrite destroyed_app; apply app_nil_r).
      assert (A3 : forall w, In w (ended (t ++ [(EvFinish u, [])])) <-> w = u \/ In w (ended t)).
      { intros w. rewrite ended_app, in_app_iff. cbn. intuition congruence. }
      split; rewrite ?A1, ?A2; cbn [g_map g_done g_uid g_term g_up g_left g_exit]; try apply I.
      + intros w i H1 H2 H3. apply (i_run _ _ I); auto. rewrite A3 in H3. tauto.
      + intros w. rewrite A3. cbn. rewrite (i_done _ _ I). intuition congruence.
      + rewrite listening_snoc, <- (i_up _ _ I). cbn. intuition congruence.
      + intros H. rewrite map_app. apply in_or_app. left. now apply I.
      + apply (killed_snoc _ _ _ _ I). discriminate.
      + rewrite exit_snoc, <- (i_exit _ _ I). cbn. intuition congruence.
      + intros H. rewrite map_app. apply in_or_app. left. now apply I.
    - (* sweep *)
      unfold turn in E.
      destruct (g_exit s) eqn:X; [injection E as <- <-; apply (inv_other s); auto; intros x []|].
      cbn [sweep] in E. set (m := filter _ (g_map s)) in E.
      destruct (g_left s) as [k|] eqn:LF.
      + destruct ((length m =? 0)%nat || (k <=? 1)%nat).
        * injection E as <- <-.
          pose proof (inv_sweep s t EvSweep [OutRunning (length m); OutExit] (g_left s) (length m) I
                        eq_refl (or_intror eq_refl) (fun H => H)) as J. exact J.
        * injection E as <- <-.
          pose proof (inv_sweep s t EvSweep [OutRunning (length m)] (Some (k - 1)%nat) (length m) I
                        eq_refl (or_introl eq_refl)) as J. apply J. congruence.
      + destruct (g_term s && (length m =? 0)%nat).
        * injection E as <- <-.
          pose proof (inv_sweep s t EvSweep [OutRunning (length m); OutExit] (g_left s) (length m) I
                        eq_refl (or_intror eq_refl) (fun H => H)) as J. exact J.
        * injection E as <- <-.
          pose proof (inv_sweep s t EvSweep [OutRunning (length m)] (g_left s) (length m) I
                        eq_refl (or_introl eq_refl) (fun H => H)) as J. exact J.
    - (* expire *)
      unfold expire in E.
      destruct (g_exit s) eqn:X; [injection E as <- <-; apply (inv_other s); auto; intros x []|].
      destruct (g_left s) as [k|] eqn:LF;
        [injection E as <- <-; apply (inv_other s); auto; intros x []|].
      destruct (g_term s) eqn:T; injection E as <- <-.
      + assert (A1 : started (t ++ [(EvExpire, [OutExit])]) = started t)
          by (rewrite started_app; apply app_nil_r).
        assert (A2 : destroyed (t ++ [(EvExpire, [OutExit])]) = destroyed t)
          by (rewrite destroyed_app; apply app_nil_r).
        assert (A3 : ended (t ++ [(EvExpire, [OutExit])]) = ended t)
          by (rewrite ended_app; apply app_nil_r).
        split; rewrite ?A1, ?A2, ?A3; cbn [g_map g_done g_uid g_term g_up g_left g_exit leave];
          try apply I.
        * rewrite listening_snoc. cbn. intuition congruence.
        * intros H. rewrite map_app. apply in_or_app. left. now apply I.
        * auto.
        * apply (killed_snoc _ _ _ _ I). discriminate.
        * rewrite exit_snoc. cbn. tauto.
        * congruence.
      + assert (A0 : forall x, In x (terminateAll ord s) -> exists i, x = OutKill i)
          by apply terminateAll_outs.
        revert A0. generalize (terminateAll ord s). intros o A0.
        assert (A1 : started (t ++ [(EvExpire, o)]) = started t).
        { rewrite started_app. unfold started at 2, outs. cbn [flat_map snd]. rewrite app_nil_r.
          replace (flat_map _ o) with (@nil (Z * Z)); [apply app_nil_r|].
          symmetry. clear -A0. induction o as [|x o IH]; auto. cbn [flat_map].
          destruct (A0 x (or_introl eq_refl)) as (i & ->). apply IH. intros; apply A0; now right. }
        assert (A2 : destroyed (t ++ [(EvExpire, o)]) = destroyed t).
        { rewrite destroyed_app. unfold destroyed at 2, outs. cbn [flat_map snd].
          rewrite app_nil_r.
          replace (flat_map _ o) with (@nil Z); [apply app_nil_r|].
          symmetry. clear -A0. induction o as [|x o IH]; auto. cbn [flat_map].
          destruct (A0 x (or_introl eq_refl)) as (i & ->). apply IH. intros; apply A0; now right. }
        assert (A3 : ended (t ++ [(EvExpire, o)]) = ended t)
          by (rewrite ended_app; apply app_nil_r).
        assert (A4 : ~ In OutExit o) by (intros C; destruct (A0 _ C); discriminate).
        split; rewrite ?A1, ?A2, ?A3; cbn [g_map g_done g_uid g_term g_up g_left g_exit];
          try apply I.
        * rewrite listening_snoc, <- (i_up _ _ I). intuition congruence.
        * congruence.
        * congruence.
        * pose proof (killed_snoc _ _ EvExpire o I) as K. rewrite T in K. apply K. discriminate.
        * rewrite exit_snoc, <- (i_exit _ _ I). intuition congruence.
        * intros _. rewrite map_app. apply in_or_app. right. now left.
  Qed.

  Lemma inv_run next evs :
    let r := run (gstep own ord) (ginit next) evs in inv (fst r) (snd r).
  Proof.
    cbv zeta. apply (run_inv (gstep own ord) (ginit next) (fun _ s t => inv s t)).
    - apply inv_init.
    - intros. eapply inv_step; eauto.
  Qed.
End Inv.

(** C52: the peers of a bridge. *)
From Coq Require Import List ZArith Bool Permutation Lia.
From Verif Require Import ZMap Run ListSplit ZyreModel ZyreSpec.
Import ListNotations.
Open Scope list_scope.
Open Scope Z_scope.

Lemma aeq_iff : forall a b, aeq a b = true <-> a = b.
Proof. intros a b. unfold aeq. destruct (addr_dec a b); split; intros; congruence. Qed.
Lemma aeq_refl : forall a, aeq a a = true.
Proof. intros. now apply aeq_iff. Qed.
Lemma ain_iff : forall a l, ain a l = true <-> In a l.
Proof.
  intros a l. unfold ain. rewrite existsb_exists. split.
  - intros (x & Hx & E). apply aeq_iff in E. now subst.
  - intros H. exists a. split; [assumption|apply aeq_refl].
Qed.
Lemma ain_false : forall a l, ain a l = false <-> ~ In a l.
Proof. intros a l. rewrite <- ain_iff. destruct (ain a l); split; intros; congruence. Qed.

Lemma prefix_iff : forall p a, prefix p a = true <-> begins p a.
Proof.
  unfold begins. induction p as [|x p IH]; intros a; cbn.
  - split; [intros _; now exists a | reflexivity].
  - destruct a as [|y a].
    + split; [discriminate|]. intros (r & H). discriminate.
    + rewrite andb_true_iff, Z.eqb_eq, IH. split.
      * intros (-> & r & ->). now exists r.
      * intros (r & H). injection H as -> ->. split; [reflexivity|now exists r].
Qed.

Lemma In_subscribe : forall s a b, In b (subscribe s a) <-> b = a \/ In b s.
Proof.
  intros s a b. unfold subscribe. destruct (ain a s) eqn:E; cbn.
  - apply ain_iff in E. split; [tauto|]. intros [->|H]; assumption.
  - split; intros [H|H]; auto.
Qed.
Lemma In_unsubscribe : forall s a b, In b (unsubscribe s a) <-> In b s /\ b <> a.
Proof.
  intros s a b. unfold unsubscribe. rewrite filter_In. split; intros (H & K); split; auto.
  - intros ->. rewrite aeq_refl in K. discriminate.
  - destruct (aeq a b) eqn:E; [|reflexivity]. apply aeq_iff in E. congruence.
Qed.

Definition holds (t : list (addr * list Z)) (u : Z) (a : addr) : Prop := exists us, In (a, us) t /\ In u us.

Section Bridge.
  Context (entity : Z) (base configured noExport : list addr).
  Context (ord : list (addr * list Z) -> list (addr * list Z)).
  Context (ord_perm : forall l, Permutation (ord l) l).

  Record good (t : list (addr * list Z)) (s : list addr) : Prop := {
    g_keys : NoDup (map fst t);
    g_full : forall a us, In (a, us) t -> us <> [] /\ In a s;
    g_conf : forall a, In a configured -> In a s;
    g_only : forall a, ~ In a base -> In a s -> In a configured \/ In a (map fst t)
  }.

  Lemma lookup_none : forall t a, lookup t a = None -> ~ In a (map fst t).
  Proof.
    induction t as [|(b, us) t IH]; intros a; cbn; [tauto|].
    destruct (aeq a b) eqn:E; [discriminate|]. intros H [K|K].
    - subst. rewrite aeq_refl in E. discriminate.
    - exact (IH a H K).
  Qed.
  Lemma lookup_some : forall t a us, lookup t a = Some us -> In (a, us) t.
  Proof.
    induction t as [|(b, us) t IH]; intros a us'; cbn; [discriminate|].
    destruct (aeq a b) eqn:E.
    - apply aeq_iff in E. intros [= <-]. subst. now left.
    - intros H. right. now apply IH.
  Qed.

  Lemma want_good : forall u a t s t' s',
    good t s -> want u (t, s) a = (t', s') ->
    good t' s' /\ (forall v b, holds t' v b <-> holds t v b \/ (v = u /\ b = a))
    /\ (forall b, In b s -> In b s').
  Proof.
    intros u a t s t' s' [G1 G2 G3 G4]. unfold want.
    destruct (lookup t a) as [us|] eqn:L; intros [= <- <-].
    - apply lookup_some in L.
      set (f := fun y : addr * list Z => if aeq a (fst y) then (fst y, zadd u (snd y)) else y).
      assert (K : map fst (map f t) = map fst t).
      { rewrite map_map. apply map_ext. intros (b, vs). unfold f. cbn. now destruct (aeq a b). }
      split; [|split].
      + split.
        * now rewrite K.
        * intros b vs H. apply in_map_iff in H. destruct H as ((c, ws) & E & H). unfold f in E. cbn in E.
          destruct (aeq a c) eqn:A.
          -- injection E as <- <-. split; [|exact (proj2 (G2 c ws H))].
             intros Z0. assert (In u (zadd u ws)) by (apply In_zadd; now left). rewrite Z0 in H0. destruct H0.
          -- injection E as <- <-. exact (G2 c ws H).
        * exact G3.
        * rewrite K. exact G4.
      + intros v b. unfold holds. split.
        * intros (vs & H & V). apply in_map_iff in H. destruct H as ((c, ws) & E & H). unfold f in E. cbn in E.
          destruct (aeq a c) eqn:A.
          -- injection E as <- <-. apply aeq_iff in A. subst c. apply In_zadd in V. destruct V as [->|V].
             ++ now right.
             ++ left. now exists ws.
          -- injection E as <- <-. left. now exists ws.
        * intros [(vs & H & V)|(-> & ->)].
          -- destruct (aeq a b) eqn:A.
             ++ exists (zadd u vs). split.
                ** apply in_map_iff. exists (b, vs). split; [|assumption]. unfold f. cbn. now rewrite A.
                ** apply In_zadd. now right.
             ++ exists vs. split; [|assumption]. apply in_map_iff. exists (b, vs). split; [|assumption].
                unfold f. cbn. now rewrite A.
          -- exists (zadd u us). split.
             ++ apply in_map_iff. exists (a, us). split; [|assumption]. unfold f. cbn. now rewrite aeq_refl.
             ++ apply In_zadd. now left.
      + auto.
    - apply lookup_none in L. split; [|split].
      + split.
        * cbn. now constructor.
        * intros b vs [E|H].
          -- injection E as <- <-. split; [discriminate|]. apply In_subscribe. now left.
          -- destruct (G2 b vs H) as (A & B). split; [assumption|]. apply In_subscribe. now right.
        * intros b H. apply In_subscribe. right. now apply G3.
        * intros b H K. apply In_subscribe in K. cbn. destruct K as [->|K]; [auto|].
          destruct (G4 b H K); auto.
      + intros v b. unfold holds. split.
        * intros (vs & [E|H] & V).
          -- injection E as <- <-. destruct V as [->|[]]. now right.
          -- left. now exists vs.
        * intros [(vs & H & V)|(-> & ->)].
          -- exists vs. split; [now right|assumption].
          -- exists [u]. split; now left.
      + intros b H. apply In_subscribe. now right.
  Qed.

  Lemma wants_good : forall u ws t s t' s',
    good t s -> fold_left (want u) ws (t, s) = (t', s') ->
    good t' s' /\ (forall v b, holds t' v b <-> holds t v b \/ (v = u /\ In b ws))
    /\ (forall b, In b s -> In b s').
  Proof.
    induction ws as [|a ws IH]; intros t s t' s' G E; cbn [fold_left] in E.
    - injection E as <- <-. split; [assumption|]. split; [|auto]. intros v b. cbn. tauto.
    - destruct (want u (t, s) a) as (t1, s1) eqn:W.
      destruct (want_good u a t s t1 s1 G W) as (G1 & H1 & M1).
      destruct (IH t1 s1 t' s' G1 E) as (G2 & H2 & M2).
      split; [assumption|]. split; [|auto]. intros v b. rewrite H2, H1. cbn. split; intros H.
      + destruct H as [[H|(-> & ->)]|(-> & H)]; auto.
      + destruct H as [H|(-> & [->|H])]; auto.
  Qed.

  Lemma drops : forall u l s t' s',
    fold_right (drop configured u) ([], s) l = (t', s') ->
    (forall a us, In (a, us) t' <-> us <> [] /\ exists us0, In (a, us0) l /\ us = zrem u us0)
    /\ (forall a, In a (map fst t') -> In a (map fst l))
    /\ (NoDup (map fst l) -> NoDup (map fst t'))
    /\ (forall b, In b s' <-> In b s /\ ~ (~ In b configured /\ exists us0, In (b, us0) l /\ zrem u us0 = [])).
  Proof.
    intros u. induction l as [|(a, us) l IH]; intros s t' s'; cbn [fold_right].
    - intros [= <- <-]. split; [|split; [|split]].
      + intros a us. split; [intros []|]. intros (_ & us0 & [] & _).
      + intros a [].
      + intros H. exact H.
      + intros b. split; [|tauto]. intros H. split; [assumption|]. intros (_ & us0 & [] & _).
    - destruct (fold_right (drop configured u) ([], s) l) as (t1, s1) eqn:F.
      destruct (IH s t1 s1 F) as (A & B & C & D). unfold drop. cbn [fst snd].
      destruct (zrem u us) as [|v vs] eqn:R; intros [= <- <-].
      + split; [|split; [|split]].
        * intros b ws. rewrite A. split; intros (H & us0 & K & E); (split; [assumption|]).
          -- exists us0. split; [now right|assumption].
          -- destruct K as [K|K]; [|now exists us0]. injection K as <- <-. rewrite R in E. contradiction.
        * intros b H. right. now apply B.
        * intros H. cbn in H. apply NoDup_cons_iff in H. now apply C.
        * intros b. destruct (ain a configured) eqn:N.
          -- apply ain_iff in N. rewrite D. split; intros (H & K); (split; [assumption|]); intros (Q & us0 & P & E); apply K.
             ++ split; [assumption|]. destruct P as [P|P]; [|now exists us0]. injection P as <- <-. contradiction.
             ++ split; [assumption|]. exists us0. split; [now right|assumption].
          -- apply ain_false in N. rewrite In_unsubscribe, D. split.
             ++ intros ((H & K) & Q). split; [assumption|]. intros (P & us0 & [E|E] & Y).
                ** injection E as <- <-. now apply Q.
                ** apply K. split; [assumption|now exists us0].
             ++ intros (H & K). split; [split; [assumption|]|].
                ** intros (P & us0 & E & Y). apply K. split; [assumption|]. exists us0. split; [now right|assumption].
                ** intros ->. apply K. split; [assumption|]. exists us. split; [now left|assumption].
      + split; [|split; [|split]].
        * intros b ws. cbn [In]. rewrite A. split.
          -- intros [E|(H & us0 & K & E)].
             ++ injection E as <- <-. split; [discriminate|]. exists us. split; [now left|now symmetry].
             ++ split; [assumption|]. exists us0. split; [now right|assumption].
          -- intros (H & us0 & [K|K] & E).
             ++ injection K as <- <-. left. congruence.
             ++ right. split; [assumption|now exists us0].
        * intros b [H|H]; [now left|right; now apply B].
        * cbn. intros H. apply NoDup_cons_iff in H. destruct H as (H & K). constructor; [|now apply C].
          intros Q. apply H. now apply B.
        * intros b. rewrite D. split; intros (H & K); (split; [assumption|]); intros (Q & us0 & P & E); apply K.
          -- split; [assumption|]. destruct P as [P|P]; [|now exists us0]. injection P as <- <-. congruence.
          -- split; [assumption|]. exists us0. split; [now right|assumption].
  Qed.

  Lemma drops_good : forall u t s t' s',
    good t s -> fold_right (drop configured u) ([], s) t = (t', s') ->
    good t' s' /\ (forall v b, holds t' v b <-> holds t v b /\ v <> u).
  Proof.
    intros u t s t' s' [G1 G2 G3 G4] F. destruct (drops u t s t' s' F) as (A & B & C & D). split.
    - split.
      + now apply C.
      + intros a us H. apply A in H. destruct H as (H & us0 & K & E). split; [assumption|]. apply D.
        split; [exact (proj2 (G2 a us0 K))|]. intros (P & us1 & Q & Y).
        assert (us1 = us0).
        { clear - G1 K Q. induction t as [|(b, x) t IH]; [destruct K|]. cbn in G1. apply NoDup_cons_iff in G1.
          destruct G1 as (N & G1). destruct K as [K|K], Q as [Q|Q].
          - congruence.
          - injection K as -> ->. exfalso. apply N. change a with (fst (a, us1)). now apply in_map.
          - injection Q as -> ->. exfalso. apply N. change a with (fst (a, us0)). now apply in_map.
          - now apply IH. }
        subst. congruence.
      + intros a H. apply D. split; [now apply G3|]. tauto.
      + intros a H K. apply D in K. destruct K as (K & P). destruct (G4 a H K) as [Q|Q]; [now left|].
        destruct (in_dec addr_dec a configured) as [Y|Y]; [now left|]. right.
        apply in_map_iff in Q. destruct Q as ((b, us) & E & Q). cbn in E. subst b.
        destruct (zrem u us) as [|v vs] eqn:R.
        * exfalso. apply P. split; [assumption|]. now exists us.
        * change a with (fst (a, v :: vs)). apply in_map. apply A. split; [discriminate|].
          exists us. split; [assumption|now symmetry].
    - intros v b. unfold holds. split.
      + intros (us & H & V). apply A in H. destruct H as (H & us0 & K & E). subst us. apply In_zrem in V.
        destruct V as (V & W). split; [|congruence]. now exists us0.
      + intros ((us & H & V) & N). exists (zrem u us). assert (In v (zrem u us)) by (apply In_zrem; split; auto).
        split; [|assumption]. apply A. split; [intros E; rewrite E in H0; destruct H0|]. now exists us.
  Qed.

  Notation stepB := (step entity configured noExport ord).
  Notation initB := (init base configured).
  Notation after evs := (fst (run stepB initB evs)).

  Record inv (evs : list ev) (s : st) : Prop := {
    i_alive : alive s = true;
    i_good : good (table s) (subs s);
    i_holds : forall u a, holds (table s) u a <-> asking entity evs u a;
    i_peers : forall u i l, zget (peers s) u = Some (i, l) <-> connected entity evs u i l;
    i_own : forall a, In a base -> ~ asked_ever evs a -> In a (subs s)
  }.

  Lemma snoc_split : forall (h1 h2 evs : list ev) x e,
    evs ++ [e] = h1 ++ x :: h2 ->
    (h2 = [] /\ h1 = evs /\ x = e) \/ (exists h, h2 = h ++ [e] /\ evs = h1 ++ x :: h).
  Proof.
    intros h1 h2 evs x e H. change (evs ++ [e]) with (evs ++ e :: []) in H.
    destruct (split_cases _ _ _ _ _ _ H) as [(-> & -> & <-)|[(m & E1 & E2)|(m & -> & ->)]].
    - now left.
    - now destruct m.
    - right. now exists m.
  Qed.

  Lemma asking_snoc : forall evs e u a,
    asking entity (evs ++ [e]) u a <->
    (asking entity evs u a /\ e <> Exit u)
    \/ (exists i l w, e = Enter u (Some i) l w /\ i <> entity /\ In a w).
  Proof.
    intros evs e u a. split.
    - intros (h1 & i & l & w & h2 & E & N & I & X). destruct (snoc_split _ _ _ _ _ E) as [(-> & -> & <-)|(h & -> & ->)].
      + right. now exists i, l, w.
      + left. split.
        * exists h1, i, l, w, h. repeat split; auto. intros Q. apply X. apply in_or_app. now left.
        * intros ->. apply X. apply in_or_app. right. now left.
    - intros [((h1 & i & l & w & h2 & -> & N & I & X) & D)|(i & l & w & -> & N & I)].
      + exists h1, i, l, w, (h2 ++ [e]). rewrite <- app_assoc. repeat split; auto.
        intros Q. apply in_app_or in Q. destruct Q as [Q|[Q|[]]]; auto.
      + exists evs, i, l, w, []. repeat split; auto.
  Qed.

  Lemma connected_snoc : forall evs e u i l,
    connected entity (evs ++ [e]) u i l <->
    (connected entity evs u i l /\ e <> Exit u /\ (forall j k w, e = Enter u (Some j) k w -> j = entity))
    \/ (exists w, e = Enter u (Some i) l w /\ i <> entity).
  Proof.
    intros evs e u i l. split.
    - intros (h1 & w & h2 & E & N & X & Y). destruct (snoc_split _ _ _ _ _ E) as [(-> & -> & <-)|(h & -> & ->)].
      + right. now exists w.
      + left. split; [|split].
        * exists h1, w, h. repeat split; auto.
          -- intros Q. apply X. apply in_or_app. now left.
          -- intros j k v Q. apply (Y j k v). apply in_or_app. now left.
        * intros ->. apply X. apply in_or_app. right. now left.
        * intros j k v ->. apply (Y j k v). apply in_or_app. right. now left.
    - intros [((h1 & w & h2 & -> & N & X & Y) & D & F)|(w & -> & N)].
      + exists h1, w, (h2 ++ [e]). rewrite <- app_assoc. repeat split; auto.
        * intros Q. apply in_app_or in Q. destruct Q as [Q|[Q|[]]]; auto.
        * intros j k v Q. apply in_app_or in Q. destruct Q as [Q|[Q|[]]]; eauto.
      + exists evs, w, []. repeat split; auto. intros j k v [].
  Qed.

  Lemma connected_small : forall evs u i l,
    Forall readable evs -> connected entity evs u i l -> i < 2147483648.
  Proof.
    intros evs u i l F (h1 & w & h2 & -> & _). rewrite Forall_app in F. destruct F as (_ & F).
    inversion F as [|x y R F']; subst. cbn in R. destruct R as (j & E & H). injection E as <-. exact H.
  Qed.

  Lemma asked_snoc : forall evs e a, ~ asked_ever (evs ++ [e]) a -> ~ asked_ever evs a.
  Proof.
    intros evs e a H (u & id & l & w & I & J). apply H. exists u, id, l, w. split; [|assumption].
    apply in_or_app. now left.
  Qed.

  Lemma invariant : forall evs, Forall readable evs -> inv evs (after evs).
  Proof.
    induction evs as [|e evs IH] using rev_ind; intros F.
    - cbn. split; cbn.
      + reflexivity.
      + split; cbn.
        * constructor.
        * intros a us [].
        * intros a H. apply in_or_app. now right.
        * intros a H K. apply in_app_or in K. tauto.
      + intros u a. split.
        * intros (us & [] & _).
        * intros (h1 & i & l & w & h2 & E & _). now destruct h1.
      + intros u i l. split; [discriminate|]. intros (h1 & w & h2 & E & _). now destruct h1.
      + intros a H _. apply in_or_app. now left.
    - rewrite Forall_app in F. destruct F as (F & R). inversion R as [|x y R1 R2]; subst. clear R R2.
      pose proof (IH F) as V. destruct V as [V1 V2 V3 V4 V5]. rewrite run_snoc. cbn [fst].
      set (s := after evs) in *. destruct e as [u id l w|u|src a m]; unfold step; cbn [fst].
      + rewrite V1. destruct R1 as (i & -> & B). unfold enter. destruct (Z.eqb_spec i entity) as [E|E]; cbn [fst].
        * subst i. split; auto.
          -- intros v a. rewrite V3, asking_snoc. split.
             ++ intros H. left. split; [assumption|discriminate].
             ++ intros [(H & _)|(j & k & x & Q & N & _)]; [assumption|]. injection Q as _ <- _ _. contradiction.
          -- intros v j k. rewrite V4, connected_snoc. split.
             ++ intros H. left. split; [assumption|]. split; [discriminate|]. intros j' k' x [= _ <- _ _]. reflexivity.
             ++ intros [(H & _)|(x & Q & N)]; [assumption|]. injection Q as _ <- _ _. contradiction.
          -- intros a H N. apply V5; [assumption|]. eapply asked_snoc. eassumption.
        * destruct (fold_left (want u) w (table s, subs s)) as (t, ss) eqn:W.
          destruct (wants_good u w _ _ t ss V2 W) as (G & H & M). cbn [fst].
          split; cbn [alive table subs peers]; auto.
          -- intros v a. rewrite H, V3, asking_snoc. split.
             ++ intros [K|(-> & K)].
                ** left. split; [assumption|discriminate].
                ** right. exists i, l, w. auto.
             ++ intros [(K & _)|(j & k & x & Q & N & K)]; [now left|]. injection Q as <- <- <- <-. now right.
          -- intros v j k. rewrite connected_snoc, zget_set. destruct (Z.eqb_spec v u) as [->|N].
             ++ split.
                ** intros [= <- <-]. right. now exists w.
                ** intros [(_ & _ & K)|(x & Q & _)].
                   --- exfalso. apply E. exact (K i l w eq_refl).
                   --- injection Q as <- <- <-. reflexivity.
             ++ rewrite V4. split.
                ** intros K. left. split; [assumption|]. split; [discriminate|]. intros j' k' x [= Q]. congruence.
                ** intros [(K & _)|(x & Q & _)]; [assumption|]. injection Q as Q. congruence.
          -- intros a K N. apply M. apply V5; [assumption|]. eapply asked_snoc. eassumption.
      + rewrite V1. unfold exit. destruct (fold_right (drop configured u) ([], subs s) (table s)) as (t, ss) eqn:D.
        destruct (drops_good u _ _ t ss V2 D) as (G & H).
        destruct (drops u _ _ t ss D) as (_ & _ & _ & DS).
        assert (HA : forall v a, holds t v a <-> asking entity (evs ++ [Exit u]) v a).
        { intros v a. rewrite H, V3, asking_snoc. split.
          - intros (K & N). left. split; [assumption|]. intros [= Q]. congruence.
          - intros [(K & N)|(j & k & x & Q & _)]; [|discriminate]. split; [assumption|]. intros ->. now apply N. }
        assert (HO : forall a, In a base -> ~ asked_ever (evs ++ [Exit u]) a -> In a ss).
        { intros a K N. apply DS. apply asked_snoc in N. split; [now apply V5|]. intros (_ & us0 & Q & _).
          apply N. destruct (g_full _ _ V2 a us0 Q) as (P & _). destruct us0 as [|v us0]; [congruence|].
          assert (A : holds (table s) v a) by (exists (v :: us0); split; [assumption|now left]).
          apply V3 in A. destruct A as (h1 & i & k & x & h2 & -> & _ & I & _).
          exists v, (Some i), k, x. split; [|assumption]. apply in_or_app. right. now left. }
        assert (HN : forall v, v <> u -> forall i l, connected entity evs v i l <-> connected entity (evs ++ [Exit u]) v i l).
        { intros v N i l. rewrite connected_snoc. split.
          - intros K. left. split; [assumption|]. split; [congruence|discriminate].
          - intros [(K & _)|(x & Q & _)]; [assumption|discriminate]. }
        assert (HU : forall i l, ~ connected entity (evs ++ [Exit u]) u i l).
        { intros i l K. apply connected_snoc in K. destruct K as [(_ & K & _)|(x & Q & _)]; [now apply K|discriminate]. }
        destruct (zget (peers s) u) as [(i, l)|] eqn:P.
        * pose proof (proj1 (V4 u i l) P) as C. pose proof (connected_small evs u i l F C) as B.
          destruct (Z.ltb_spec i 2147483648); [|lia]. cbn [fst].
          split; cbn [alive table subs peers]; auto. intros v j k. destruct (Z.eqb_spec v u) as [->|N].
          -- rewrite zget_del_same. split; [discriminate|]. intros K. exfalso. exact (HU j k K).
          -- rewrite zget_del_other by congruence. rewrite V4. now apply HN.
        * cbn [fst]. split; cbn [alive table subs peers]; auto. intros v j k. destruct (Z.eqb_spec v u) as [->|N].
          -- rewrite P. split; [discriminate|]. intros K. exfalso. exact (HU j k K).
          -- rewrite V4. now apply HN.
      + split; auto.
        * intros v b. rewrite V3, asking_snoc. split.
          -- intros K. left. split; [assumption|discriminate].
          -- intros [(K & _)|(j & k & x & Q & _)]; [assumption|discriminate].
        * intros v j k. rewrite V4, connected_snoc. split.
          -- intros K. left. split; [assumption|]. split; discriminate.
          -- intros [(K & _)|(x & Q & _)]; [assumption|discriminate].
        * intros b K N. apply V5; [assumption|]. eapply asked_snoc. eassumption.
  Qed.

  (** ** The peers a message is for *)
  Lemma fold_add : forall us l, NoDup l ->
    NoDup (fold_left (fun l u => if zin u l then l else l ++ [u]) us l)
    /\ (forall v, In v (fold_left (fun l u => if zin u l then l else l ++ [u]) us l) <-> In v l \/ In v us).
  Proof.
    induction us as [|u us IH]; intros l N; cbn [fold_left].
    - split; [assumption|]. intros v. cbn. tauto.
    - assert (N' : NoDup (if zin u l then l else l ++ [u])).
      { destruct (zin u l) eqn:E; [assumption|]. apply zin_false in E.
        apply (Permutation_NoDup (Permutation_cons_append l u)). now constructor. }
      destruct (IH _ N') as (A & B). split; [assumption|]. intros v. rewrite B. cbn.
      destruct (zin u l) eqn:E.
      + apply zin_In in E. split; [tauto|]. intros [H|[<-|H]]; auto.
      + rewrite in_app_iff. cbn. tauto.
  Qed.

  Lemma targets_spec : forall t a,
    NoDup (targets t a) /\ (forall v, In v (targets t a) <-> exists p, begins p a /\ holds t v p).
  Proof.
    intros t a. unfold targets.
    assert (G : forall t l, NoDup l ->
      NoDup (fold_left (fun l y => if prefix (fst y) a then fold_left (fun l u => if zin u l then l else l ++ [u]) (snd y) l else l) t l)
      /\ forall v, In v (fold_left (fun l y => if prefix (fst y) a then fold_left (fun l u => if zin u l then l else l ++ [u]) (snd y) l else l) t l)
                   <-> In v l \/ exists p, begins p a /\ holds t v p).
    { clear t. induction t as [|(p, us) t IH]; intros l N; cbn [fold_left fst snd].
      - split; [assumption|]. intros v. split; [now left|]. intros [H|(p & _ & us & [] & _)]. assumption.
      - destruct (prefix p a) eqn:E.
        + destruct (fold_add us l N) as (A & B). destruct (IH _ A) as (C & D). split; [assumption|].
          intros v. rewrite D, B. apply prefix_iff in E. split.
          * intros [[H|H]|(q & Q & ws & I & J)].
            -- now left.
            -- right. exists p. split; [assumption|]. exists us. split; [now left|assumption].
            -- right. exists q. split; [assumption|]. exists ws. split; [now right|assumption].
          * intros [H|(q & Q & ws & [I|I] & J)].
            -- auto.
            -- injection I as <- <-. auto.
            -- right. exists q. split; [assumption|]. now exists ws.
        + destruct (IH l N) as (C & D). split; [assumption|]. intros v. rewrite D. split.
          * intros [H|(q & Q & ws & I & J)]; [now left|]. right. exists q. split; [assumption|]. exists ws. split; [now right|assumption].
          * intros [H|(q & Q & ws & [I|I] & J)]; [now left| |].
            -- injection I as <- <-. apply prefix_iff in Q. congruence.
            -- right. exists q. split; [assumption|]. now exists ws. }
    destruct (G t [] (NoDup_nil _)) as (A & B). split; [assumption|]. intros v. rewrite B. cbn. tauto.
  Qed.

  Lemma targets_ord : forall t a,
    NoDup (targets (ord t) a) /\ (forall v, In v (targets (ord t) a) <-> exists p, begins p a /\ holds t v p).
  Proof.
    intros t a. destruct (targets_spec (ord t) a) as (A & B). split; [assumption|]. intros v. rewrite B.
    unfold holds. split; intros (p & P & us & I & J); exists p; (split; [assumption|]); exists us; (split; [|assumption]).
    - exact (Permutation_in _ (ord_perm t) I).
    - exact (Permutation_in _ (Permutation_sym (ord_perm t)) I).
  Qed.

  (** ** C52: what the bridge listens to *)

  (** The bridge listens on the local network exactly to the addresses configured and to those that
      connected peers asked for, apart from the addresses every service has of its own. *)
  Theorem C52_listens : forall evs a,
    Forall readable evs -> ~ In a base ->
    (In a (subscriptions entity base configured noExport ord evs) <->
     In a configured \/ exists u, asking entity evs u a).
  Proof.
    intros evs a F N. unfold subscriptions. destruct (invariant evs F) as [V1 V2 V3 V4 V5].
    split.
    - intros H. destruct (g_only _ _ V2 a N H) as [K|K]; [now left|]. right.
      apply in_map_iff in K. destruct K as ((b, us) & E & K). cbn in E. subst b.
      destruct (g_full _ _ V2 a us K) as (P & _). destruct us as [|u us]; [congruence|].
      exists u. apply V3. exists (u :: us). split; [assumption|now left].
    - intros [H|(u & H)].
      + now apply (g_conf _ _ V2).
      + apply V3 in H. destruct H as (us & H & _). exact (proj2 (g_full _ _ V2 a us H)).
  Qed.

  (** Its own addresses it keeps as long as no peer asked for one of them; those peers ask for are
      listened to while they are connected. *)
  Theorem C52_own : forall evs a,
    Forall readable evs ->
    (In a base /\ ~ asked_ever evs a) \/ (exists u, asking entity evs u a) ->
    In a (subscriptions entity base configured noExport ord evs).
  Proof.
    intros evs a F H. unfold subscriptions. destruct (invariant evs F) as [V1 V2 V3 V4 V5].
    destruct H as [(H & K)|(u & H)].
    - now apply V5.
    - apply V3 in H. destruct H as (us & H & _). exact (proj2 (g_full _ _ V2 a us H)).
  Qed.

  (** A message of the own entity, not for the addresses kept back, is sent once to every connected
      peer that asked for a beginning of its address, and to nobody else; no other message is sent. *)
  Theorem C52_sent : forall evs before source a m outs later,
    Forall readable evs ->
    history entity base configured noExport ord evs = before ++ (Local source a m, outs) :: later ->
    NoDup outs /\
    (forall o, In o outs <->
       exists u p, o = Whisper u m /\ source = entity /\ ~ In a noExport
                   /\ begins p a /\ asking entity (map fst before) u p).
  Proof.
    intros evs before source a m outs later F H. unfold history in H.
    destruct (run_split _ _ _ _ _ _ H) as (s & E1 & E2 & E3).
    assert (FB : Forall readable (map fst before)).
    { rewrite <- (run_events (step entity configured noExport ord) initB evs) in F. rewrite H in F.
      rewrite map_app, Forall_app in F. tauto. }
    destruct (invariant _ FB) as [V1 V2 V3 V4 V5]. rewrite E1 in *. cbn [fst] in *.
    assert (EO : outs = local entity noExport ord s source a m) by exact E3.
    subst outs. unfold local. destruct (targets_ord (table s) a) as (A & B).
    assert (SUB : forall u p, begins p a -> asking entity (map fst before) u p -> existsb (fun p => prefix p a) (subs s) = true).
    { intros u p P Q. apply V3 in Q. destruct Q as (us & Q & _). apply existsb_exists. exists p.
      split; [exact (proj2 (g_full _ _ V2 p us Q))|now apply prefix_iff]. }
    destruct (existsb (fun p => prefix p a) (subs s)) eqn:L.
    - destruct (Z.eqb_spec source entity) as [->|NE]; cbn [andb].
      + destruct (ain a noExport) eqn:X; cbn [negb].
        * apply ain_iff in X. split; [constructor|]. intros o. split; [intros []|].
          intros (u & p & _ & _ & N & _). contradiction.
        * apply ain_false in X. split.
          -- apply FinFun.Injective_map_NoDup; [|assumption]. intros x y [= Q]. exact Q.
          -- intros o. rewrite in_map_iff. split.
             ++ intros (u & <- & U). apply B in U. destruct U as (p & P & Q). exists u, p. apply V3 in Q. auto.
             ++ intros (u & p & -> & _ & _ & P & Q). exists u. split; [reflexivity|]. apply B. exists p.
                split; [assumption|]. now apply V3.
      + split; [constructor|]. intros o. split; [intros []|]. intros (u & p & _ & N & _). contradiction.
    - split; [constructor|]. intros o. split; [intros []|]. intros (u & p & _ & _ & _ & P & Q).
      pose proof (SUB u p P Q). discriminate.
  Qed.

  (** The entering of a peer of another entity is announced with its id and label, that of one of the
      own entity is not; the leaving of a connected peer is announced with the id and label it was
      last introduced with, that of an unknown peer is not; nothing else is announced. *)
  Theorem C52_announced : forall evs before e outs later,
    Forall readable evs ->
    history entity base configured noExport ord evs = before ++ (e, outs) :: later ->
    (forall u i label wants, e = Enter u (Some i) label wants ->
       (i <> entity -> outs = [Join i label]) /\ (i = entity -> outs = []))
    /\ (forall u, e = Exit u ->
       (forall i label, connected entity (map fst before) u i label -> outs = [Leave i label])
       /\ ((forall i label, ~ connected entity (map fst before) u i label) -> outs = [])).
  Proof.
    intros evs before e outs later F H. unfold history in H.
    destruct (run_split _ _ _ _ _ _ H) as (s & E1 & E2 & E3).
    assert (FB : Forall readable (map fst before)).
    { rewrite <- (run_events (step entity configured noExport ord) initB evs) in F. rewrite H in F.
      rewrite map_app, Forall_app in F. tauto. }
    destruct (invariant _ FB) as [V1 V2 V3 V4 V5]. rewrite E1 in *. cbn [fst] in *.
    assert (EO : outs = snd (step entity configured noExport ord s e)) by exact E3.
    subst outs. split.
    - intros u i l w ->. unfold step. rewrite V1. unfold enter. destruct (Z.eqb_spec i entity) as [E|E].
      + split; [contradiction|reflexivity].
      + split; [|contradiction]. intros _. now destruct (fold_left (want u) w (table s, subs s)).
    - intros u ->. unfold step. rewrite V1. unfold exit.
      destruct (fold_right (drop configured u) ([], subs s) (table s)) as (t, ss). split.
      + intros i l C. pose proof (connected_small _ u i l FB C) as B. apply V4 in C. rewrite C.
        destruct (Z.ltb_spec i 2147483648); [reflexivity|lia].
      + intros N. destruct (zget (peers s) u) as [(i, l)|] eqn:P; [|reflexivity].
        exfalso. apply V4 in P. exact (N i l P).
  Qed.
End Bridge.

(** ** Cases *)

(** Entity 1 with own addresses [1] and [1;0] and kill address [9], configured for [7]; two peers ask
    for [7] and [5], one of them leaves. *)
Definition tour : list ev :=
  [Enter 20 (Some 2) 200 [[7]; [5]]; Local 1 [5; 5] 1; Enter 30 (Some 3) 300 [[5]; [5; 5]];
   Local 1 [5; 5] 2; Local 2 [5; 5] 3; Exit 20; Local 1 [7] 4; Local 1 [5; 5] 5; Exit 30; Exit 30].

Example C52_tour :
  map snd (history 1 [[1]; [1; 0]; [9]] [[7]] [[1]] (fun l => l) tour)
  = [[Join 2 200]; [Whisper 20 1]; [Join 3 300]; [Whisper 30 2; Whisper 20 2]; []; [Leave 2 200]; [];
     [Whisper 30 5]; [Leave 3 300]; []]
  /\ subscriptions 1 [[1]; [1; 0]; [9]] [[7]] [[1]] (fun l => l) tour = [[1]; [1; 0]; [9]; [7]]
  /\ subscriptions 1 [[1]; [1; 0]; [9]] [[7]] [[1]] (fun l => l) (firstn 6 tour) = [[5; 5]; [5]; [1]; [1; 0]; [9]; [7]].
Proof. vm_compute. auto. Qed.

Example C52_tour_readable : Forall readable tour.
Proof. repeat constructor; eexists; (split; [reflexivity|reflexivity]). Qed.

(** ** What is not true *)

(** A peer that asks for one of the bridge's own addresses, such as the kill address, makes the
    bridge deaf to it when it leaves. *)
Theorem C52_own_address_refuted :
  exists evs a, Forall readable evs
    /\ In a (subscriptions 1 [[1]; [1; 0]; [9]] [[7]] [[1]] (fun l => l) [])
    /\ ~ In a (subscriptions 1 [[1]; [1; 0]; [9]] [[7]] [[1]] (fun l => l) evs).
Proof.
  exists [Enter 20 (Some 2) 200 [[9]]; Exit 20], [9]. split; [|split].
  - repeat constructor. now exists 2.
  - vm_compute. auto.
  - vm_compute. intros H. repeat (destruct H as [H|H]; [discriminate|]). exact H.
Qed.

(** A peer whose header names no addresses is sent every message: an empty header is one empty
    address, the beginning of every address. *)
Theorem C52_empty_header_refuted : forall evs a m before outs later,
  Forall readable evs ->
  history 1 [[1]] [] [[1]] (fun l => l) evs = before ++ (Local 1 a m, outs) :: later ->
  a <> [1] -> asking 1 (map fst before) 20 [] -> In (Whisper 20 m) outs.
Proof.
  intros evs a m before outs later F H N A.
  destruct (C52_sent 1 [[1]] [] [[1]] (fun l => l) (fun l => Permutation_refl l) evs before 1 a m outs later F H) as (_ & B).
  apply B. exists 20, []. split; [reflexivity|]. split; [reflexivity|]. split.
  - intros [Q|[]]. congruence.
  - split; [now exists a|assumption].
Qed.

(** One peer without a readable entity id stops the bridge from noticing any peer that enters or
    leaves afterwards. *)
Theorem C52_unreadable_refuted : forall entity base configured noExport ord evs u label wants evs',
  snd (run (step entity configured noExport ord)
         (fst (run (step entity configured noExport ord) (init base configured) (evs ++ [Enter u None label wants]))) evs')
  = map (fun e => (e, match e with
                      | Local source a m =>
                          local entity noExport ord
                            (fst (run (step entity configured noExport ord) (init base configured) (evs ++ [Enter u None label wants]))) source a m
                      | _ => [] end)) evs'.
Proof.
  intros entity base configured noExport ord evs u label wants evs'.
  set (s := fst (run _ _ (evs ++ _))).
  assert (D : alive s = false).
  { unfold s. rewrite run_snoc. cbn [fst]. generalize (fst (run (step entity configured noExport ord) (init base configured) evs)).
    intros x. cbn [step]. destruct (alive x) eqn:E; [reflexivity|exact E]. }
  assert (G : fst (run (step entity configured noExport ord) s evs') = s
     /\ snd (run (step entity configured noExport ord) s evs')
        = map (fun e => (e, match e with Local source a m => local entity noExport ord s source a m | _ => [] end)) evs').
  { induction evs' as [|e evs' IH] using rev_ind; [now split|]. rewrite run_snoc. destruct IH as (A & B).
    rewrite A. cbn [fst snd]. rewrite B, map_app. cbn [map].
    destruct e as [v id l w|v|src a m]; unfold step; rewrite ?D; cbn [fst snd]; now split. }
  exact (proj2 G).
Qed.

(** The leaving of a peer with an entity id of more than 31 bits is not announced. *)
Theorem C52_large_id_refuted :
  exists evs, map snd (history 1 [[1]] [] [[1]] (fun l => l) evs)
              = [[Join 4294967296 200]; []; []]
    /\ evs = [Enter 20 (Some 4294967296) 200 [[5]]; Exit 20; Enter 30 (Some 3) 300 [[5]]].
Proof. eexists. split; [|reflexivity]. vm_compute. reflexivity. Qed.

Print Assumptions C52_listens.
Print Assumptions C52_own.
Print Assumptions C52_sent.
Print Assumptions C52_announced.
Print Assumptions C52_own_address_refuted.
Print Assumptions C52_empty_header_refuted.
Print Assumptions C52_unreadable_refuted.
Print Assumptions C52_large_id_refuted.

(** C13 and C29: ids of network clients, the service manager. *)
From Coq Require Import List ZArith Bool Permutation Lia.
From Verif Require Import ZMap Run ServiceMgrModel ServiceMgrSpec ServiceMgrProofs.
Import ListNotations.
Open Scope list_scope.
Open Scope Z_scope.

(** * C13: ids *)

Lemma u32_small z : 0 <= z < 2 ^ 32 -> u32 z = z.
Proof. intros. apply Z.mod_small. auto. Qed.

Lemma draws_cons next d l : 0 <= next -> next + 1 < 2 ^ 32 ->
  draws next (d :: l) =
  (d, match d with Reserve => next + 1 | _ => next end) :: draws (next + 1) l.
Proof.
  intros. unfold draws, reserve, construct. fold draws.
  destruct d; rewrite u32_small by lia; reflexivity.
Qed.

Lemma draws_ge l : forall next d x, 0 <= next -> next + Z.of_nat (length l) < 2 ^ 32 ->
  In (d, x) (draws next l) -> next <= x /\ (d = Reserve -> next < x).
Proof.
  induction l as [|d' l IH]; intros next d x N L H; [easy|]. cbn [length] in L.
  rewrite draws_cons in H by lia. destruct H as [H|H].
  - injection H as <- <-. destruct d'; (split; [lia|]); intros Q; [discriminate|discriminate|lia].
  - apply IH in H; lia.
Qed.

(** As long as fewer than 2^32 ids have been drawn, two clients or reservations have the same id
    exactly if a client that keeps the id it was constructed with is constructed right after a
    reservation. *)
Theorem C13_distinct_iff next l : 0 <= next -> next + Z.of_nat (length l) < 2 ^ 32 ->
  (NoDup (kept (draws next l)) <-> ~ keep_after_reserve l).
Proof.
  assert (HEAD : forall l next, 0 <= next -> next + Z.of_nat (length l) < 2 ^ 32 ->
           (In next (kept (draws next l)) <-> exists b, l = Keep :: b)).
  { clear. intros l next N L. split.
    - intros H. apply in_map_iff in H. destruct H as ((d, x) & E & H). cbn in E. subst x.
      apply filter_In in H. destruct H as (H & K). cbn [fst] in K. destruct l as [|d' l]; [easy|].
      cbn [length] in L. rewrite draws_cons in H by lia. destruct H as [H|H].
      + injection H as -> H. destruct d; try easy; eauto. lia.
      + apply draws_ge in H; lia.
    - intros (b & ->). cbn [length] in L. rewrite draws_cons by lia. now left. }
  assert (GE : forall l next x, 0 <= next -> next + Z.of_nat (length l) < 2 ^ 32 ->
           In x (kept (draws next l)) -> next <= x).
  { clear. intros l next x N L H. apply in_map_iff in H. destruct H as ((d, y) & E & H).
    cbn in E. subst y. apply filter_In in H. destruct H as (H & _). apply draws_ge in H; lia. }
  revert next. induction l as [|d l IH]; intros next N L.
  { split; [|constructor]. intros _ (a & b & E). destruct a; discriminate. }
  cbn [length] in L. rewrite draws_cons by lia.
  assert (Q : forall d', (keep_after_reserve (d' :: l) <->
              keep_after_reserve l \/ (d' = Reserve /\ exists b, l = Keep :: b))).
  { clear. intros d. split.
    - intros (a & b & E). destruct a as [|x a].
      + injection E as -> E. right. eauto.
      + injection E as -> E. left. now exists a, b.
    - intros [(a & b & E)|(-> & b & E)].
      + exists (d :: a), b. now rewrite E.
      + exists [], b. now rewrite E. }
  rewrite Q. specialize (IH (next + 1) ltac:(lia) ltac:(lia)).
  assert (G1 : ~ In next (kept (draws (next + 1) l))) by (intros C; apply GE in C; lia).
  destruct d; unfold kept in *; cbn [filter fst map snd].
  - split.
    + intros H. inversion H; subst. rewrite IH in *. intuition discriminate.
    + intros H. constructor; auto. apply IH. tauto.
  - rewrite IH. intuition discriminate.
  - split.
    + intros H. inversion H as [|? ? A B]; subst. apply IH in B. intros [C|(_ & C)]; auto.
      apply A. apply HEAD; try lia. auto.
    + intros H. constructor; [|apply IH; tauto]. intros C. apply HEAD in C; try lia. tauto.
Qed.

(** Reserved ids are distinct, and so are the ids clients are constructed with. *)
Theorem C13_constructed next l : 0 <= next -> next + Z.of_nat (length l) < 2 ^ 32 ->
  NoDup (map snd (filter (fun p => match fst p with Reserve => false | _ => true end)
                         (draws next l))) /\
  NoDup (map snd (filter (fun p => match fst p with Reserve => true | _ => false end)
                         (draws next l))).
Proof.
  revert next. induction l as [|d l IH]; intros next N L; [split; constructor|].
  cbn [length] in L. rewrite draws_cons by lia.
  destruct (IH (next + 1) ltac:(lia) ltac:(lia)) as (A & B).
  destruct d; cbn [filter fst map snd]; split; auto; constructor; auto; intros C;
    apply in_map_iff in C; destruct C as ((d, x) & E & C); cbn in E; subst x;
    apply filter_In in C; destruct C as (C & K); cbn [fst] in K; apply draws_ge in C; try lia;
    destruct d; try easy; destruct C as (_ & C); specialize (C eq_refl); lia.
Qed.

Example C13_example :
  draws 10 [Keep; Keep; Reserve; Drop; Reserve; Reserve; Drop; Drop; Keep] =
  [(Keep, 10); (Keep, 11); (Reserve, 13); (Drop, 13); (Reserve, 15); (Reserve, 16); (Drop, 16);
   (Drop, 17); (Keep, 18)] /\
  ~ keep_after_reserve [Keep; Keep; Reserve; Drop; Reserve; Reserve; Drop; Drop; Keep].
Proof.
  split; [reflexivity|]. rewrite <- (C13_distinct_iff 10); [|lia|cbn; lia].
  cbv. repeat constructor; intros C; repeat destruct C as [C|C]; easy.
Qed.

(** Without that discipline ids are not unique. *)
Theorem C13_refuted :
  ~ forall next l, 0 <= next -> next + Z.of_nat (length l) < 2 ^ 32 ->
    NoDup (kept (draws next l)).
Proof.
  intros H. specialize (H 10 [Reserve; Keep] ltac:(lia) ltac:(cbn; lia)). cbv in H.
  inversion H as [|? ? A _]; subst. apply A. now left.
Qed.

(** * C29: the service manager *)

Section C29.
  Context (own : Z) (own_pos : 0 < own) (ord : zmap svc -> list (Z * svc))
          (ord_perm : forall m, Permutation (ord m) m) (next : Z).

  Definition history (evs : list event) : trace :=
    snd (run (gstep own ord) (ginit next) evs).

  Lemma history_split evs t1 e o t2 :
    history evs = t1 ++ (e, o) :: t2 ->
    exists s, fst (run (gstep own ord) (ginit next) (map fst t1)) = s /\ history (map fst t1) = t1 /\
              inv own s t1 /\ o = snd (gstep own ord s e).
  Proof.
    intros H. apply run_split in H. destruct H as (s & R & _ & E). cbn [fst snd] in E. exists s.
    pose proof (inv_run own ord own_pos next (map fst t1)) as I. unfold history. rewrite R in *.
    auto.
  Qed.

  (** Every sweep reports the exact number of services that still run. *)
  Theorem C29_count evs t1 o t2 n :
    history evs = t1 ++ (EvSweep, o) :: t2 -> In (OutRunning n) o -> n = length (running t1).
  Proof.
    intros H O. destruct (history_split _ _ _ _ _ H) as (s & _ & _ & I & ->).
    rewrite <- (Permutation_length (unfinished own s t1 I)), map_length. cbn [gstep] in O.
    unfold turn in O. destruct (g_exit s); [easy|]. cbn [sweep] in O.
    set (m := filter _ (g_map s)) in *.
    destruct (g_left s) as [k|]; [destruct (_ || _)|destruct (_ && _)]; cbn in O;
      intuition congruence.
  Qed.

  (** The request to end all services reaches every service that runs, once, and no other. *)
  Theorem C29_terminate evs t1 o t2 :
    history evs = t1 ++ (EvKill (-1), o) :: t2 -> listening own t1 ->
    Permutation o (map (fun p => OutKill (snd p)) (running t1)).
  Proof.
    intros H L. destruct (history_split _ _ _ _ _ H) as (s & _ & _ & I & ->).
    rewrite <- (terminateAll_kills own ord ord_perm s t1 I). cbn [gstep].
    rewrite (proj2 (i_up _ _ _ I) L). unfold killService.
    destruct (Z.eqb_spec (-1) own); [lia|]. reflexivity.
  Qed.

  (** So does the end of the run duration, unless the request came before. *)
  Theorem C29_expire evs t1 o t2 :
    history evs = t1 ++ (EvExpire, o) :: t2 -> listening own t1 -> ~ In EvExpire (map fst t1) ->
    Permutation o (map (fun p => OutKill (snd p)) (running t1)).
  Proof.
    intros H L N. destruct (history_split _ _ _ _ _ H) as (s & _ & _ & I & ->).
    rewrite <- (terminateAll_kills own ord ord_perm s t1 I). cbn [gstep]. unfold expire.
    destruct L as (L1 & L2 & L3).
    destruct (g_exit s) eqn:X; [now apply (i_exit _ _ _ I) in X|].
    destruct (g_left s) eqn:F; [exfalso; apply N; apply I; congruence|].
    destruct (g_term s) eqn:T; [now apply (i_term _ _ _ I) in T|]. reflexivity.
  Qed.

  (** The manager does not stop before it was asked to and all services have ended, unless its
      run duration is over. *)
  Theorem C29_exit evs t1 e o t2 :
    history evs = t1 ++ (e, o) :: t2 -> In OutExit o ->
    ~ In EvExpire (map fst t1 ++ [e]) ->
    In (EvKill (-1)) (map fst t1) /\ running t1 = [].
  Proof.
    intros H X N. destruct (history_split _ _ _ _ _ H) as (s & _ & _ & I & ->).
    rewrite in_app_iff in N. cbn [In] in N.
    assert (Q : forall w, ~ In OutExit (terminateAll ord w)).
    { intros w C. apply terminateAll_outs in C. destruct C. discriminate. }
    destruct e as [| |id oc|id|u| |]; cbn [gstep] in X; [| | | | | |tauto].
    - cbn in X. intuition discriminate.
    - cbn in X. intuition discriminate.
    - destruct (g_up s); [|easy]. destruct oc; cbn in X; try (intuition discriminate).
      destruct (zget _ _); cbn in X; intuition discriminate.
    - destruct (g_up s); [|easy]. unfold killService in X.
      destruct (id =? own); [easy|]. destruct (id =? -1); [|easy]. now apply Q in X.
    - easy.
    - unfold turn in X. destruct (g_exit s); [easy|]. cbn [sweep] in X.
      set (m := filter _ (g_map s)) in X.
      destruct (g_left s) as [k|] eqn:F; [exfalso; apply N; left; apply I; congruence|].
      destruct (g_term s) eqn:T; cbn [andb] in X; [|cbn in X; intuition discriminate].
      destruct (length m =? 0)%nat eqn:Z; [|cbn in X; intuition discriminate].
      split; [now apply I|]. apply Nat.eqb_eq in Z.
      pose proof (Permutation_length (unfinished own s t1 I)) as P. rewrite map_length in P.
      fold m in P. rewrite Z in P. destruct (running t1); [auto|discriminate].
  Qed.

  (** Once asked to, and once all services have ended, the next sweep stops the manager. *)
  Theorem C29_stops evs t1 o t2 a x b :
    history evs = t1 ++ (EvSweep, o) :: t2 ->
    t1 = a ++ (EvKill (-1), x) :: b -> listening own a ->
    running t1 = [] -> ~ In OutExit (outs t1) -> In OutExit o.
  Proof.
    intros H A L R X. destruct (history_split _ _ _ _ _ H) as (s & _ & _ & I & ->).
    pose proof (i_killed _ _ _ I _ _ _ A L) as T. cbn [gstep]. unfold turn.
    destruct (g_exit s) eqn:Y; [now apply (i_exit _ _ _ I) in Y|]. cbn [sweep].
    pose proof (Permutation_length (unfinished own s t1 I)) as P. rewrite map_length, R in P.
    set (m := filter _ (g_map s)) in *. rewrite P, T. cbn.
    destruct (g_left s); right; now left.
  Qed.

  Definition sweeps (t : trace) : nat :=
    length (filter (fun p => match fst p with EvSweep => true | _ => false end) t).

  (** After the run duration the manager stops within twenty sweeps, whether or not the
      services end. *)
  Theorem C29_patience evs a x b :
    history evs = a ++ (EvExpire, x) :: b -> ~ In OutExit (outs (history evs)) ->
    (sweeps b < 20)%nat.
  Proof.
    intros H X.
    enough (E : forall a x b, history evs = a ++ (EvExpire, x) :: b ->
              ~ In OutExit (outs (history evs)) ->
              exists k, g_left (fst (run (gstep own ord) (ginit next) evs)) = Some k /\
                        (1 <= k)%nat /\ (sweeps b + k <= 20)%nat)
      by (destruct (E a x b H X) as (k & _ & K1 & K2); lia).
    clear H X a x b. induction evs as [|e evs IH] using rev_ind; intros a x b.
    { cbn. destruct a; discriminate. }
    unfold history in *. rewrite run_snoc. cbn [fst snd].
    pose proof (inv_run own ord own_pos next evs) as I. cbv zeta in I.
    destruct (run (gstep own ord) (ginit next) evs) as (s, t). cbn [fst snd] in *.
    intros H X. rewrite exit_snoc in X.
    assert (XE : g_exit s = false).
    { destruct (g_exit s) eqn:Y; auto. apply (i_exit _ _ _ I) in Y. tauto. }
    destruct b as [|y b] using rev_ind.
    - apply app_inj_tail in H. destruct H as (-> & H). injection H as -> <-. cbn [gstep] in *.
      unfold expire in *. rewrite XE in *.
      destruct (g_left s) as [k|] eqn:F.
      + destruct (in_split _ _ (i_left _ _ _ I ltac:(congruence))) as (l1 & l2 & E).
        apply map_eq_app in E. destruct E as (a1 & r & -> & _ & E).
        apply map_eq_cons in E. destruct E as ((e', o') & a2 & -> & E & _). cbn in E. subst e'.
        destruct (IH a1 o' a2 eq_refl ltac:(tauto)) as (k' & K1 & K2 & K3).
        injection K1 as <-. exists k. cbn. rewrite F. repeat split; auto. unfold sweeps. cbn. lia.
      + destruct (g_term s); cbn [fst snd g_left] in *; [exfalso; apply X; right; now left|].
        exists 20%nat. split; [auto|]. unfold sweeps. cbn. lia.
    - clear IHb. rewrite app_comm_cons, app_assoc in H. apply app_inj_tail in H.
      destruct H as (-> & <-).
      destruct (IH a x b eq_refl ltac:(tauto)) as (k & K1 & K2 & K3).
      assert (SW : sweeps (b ++ [(e, snd (gstep own ord s e))]) =
                   (sweeps b + match e with EvSweep => 1 | _ => 0 end)%nat).
      { unfold sweeps. rewrite filter_app, app_length. destruct e; cbn; auto. }
      rewrite SW. destruct e as [| |id oc|id|u| |]; cbn [gstep] in *.
      + exists k. cbn. rewrite K1. repeat split; auto; lia.
      + exists k. cbn. rewrite K1. repeat split; auto; lia.
      + exists k. split; [|split; lia]. destruct (g_up s); auto. destruct oc; auto. cbn.
        destruct (zget _ _); auto.
      + exists k. split; [|split; lia]. destruct (g_up s); auto. unfold killService.
        destruct (id =? own); auto. destruct (id =? -1); auto.
      + exists k. cbn. rewrite K1. repeat split; auto; lia.
      + unfold turn in *. rewrite XE, K1 in *. cbn [sweep] in *.
        destruct ((_ =? 0)%nat || (k <=? 1)%nat) eqn:D; cbn [fst snd g_left] in *.
        * exfalso. apply X. right. right. now left.
        * apply orb_false_iff in D. destruct D as (_ & D). apply Nat.leb_gt in D.
          exists (k - 1)%nat. repeat split; auto; lia.
      + unfold expire. rewrite XE, K1. exists k. cbn. repeat split; auto; lia.
  Qed.

  (** A request to create a service with an id of its own gives a service with that id, which is
      registered if no other service had that id. *)
  Theorem C29_create evs t1 id o t2 :
    history evs = t1 ++ (EvCreate id Works, o) :: t2 -> listening own t1 -> 0 < id ->
    (forall u i, In (u, i) (started t1) -> u32 i <> u32 id) ->
    exists u, o = [OutStarted u id; OutResult true].
  Proof.
    intros H L P F. destruct (history_split _ _ _ _ _ H) as (s & _ & _ & I & ->). cbn [gstep].
    rewrite (proj2 (i_up _ _ _ I) L). cbn [createService construct].
    destruct (Z.ltb_spec 0 id); [|lia]. cbn [v_uid v_id].
    destruct (zget (g_map s) (u32 id)) as [v|] eqn:Z; [|cbn; eauto].
    exfalso. apply In_zget in Z. pose proof (i_key _ _ _ I _ _ Z) as K.
    destruct (i_map _ _ _ I _ Z) as (A & _). apply (F _ _ A). auto.
  Qed.

  (** A manager that no longer listens starts no services and ends none. *)
  Theorem C29_deaf evs t1 e o t2 :
    history evs = t1 ++ (e, o) :: t2 -> ~ listening own t1 ->
    match e with EvCreate _ _ | EvKill _ => o = [] | _ => True end.
  Proof.
    intros H L. destruct (history_split _ _ _ _ _ H) as (s & _ & _ & I & ->).
    assert (U : g_up s = false) by (destruct (g_up s) eqn:U; auto; now apply (i_up _ _ _ I) in U).
    destruct e; cbn [gstep]; auto; now rewrite U.
  Qed.

  Lemma in_started t u i : In (u, i) (started t) <-> In (OutStarted u i) (outs t).
  Proof.
    unfold started. rewrite in_flat_map. split.
    - intros (x & X & H). destruct x; try easy. destruct H as [H|[]]. injection H as -> ->. auto.
    - intros H. exists (OutStarted u i). split; auto. now left.
  Qed.

  (** The ids of clients other than services. *)
  Definition constructed (t : trace) : list Z :=
    flat_map (fun p => match p with (EvConstruct, [OutId i]) => [i] | _ => [] end) t.

  Definition clients (t : trace) : list Z := map snd (started t) ++ constructed t.

  Lemma fresh_app a b x : fresh_reservation (a ++ b) x = fresh_reservation b (fresh_reservation a x).
  Proof.
    revert x. induction a as [|e a IH]; intros x; [reflexivity|]. cbn [app fresh_reservation].
    destruct e as [| |? []| | | |]; auto.
  Qed.

  Record ids (s : state) (t : trace) : Prop := {
    d_next : 0 < g_next s <= next + Z.of_nat (length t);
    d_res : forall x, In x (reserved t) -> 0 < x <= g_next s;
    d_cli : forall x, In x (clients t) -> 0 < x <= g_next s;
    d_last : fresh_reservation (map fst t) false = false ->
             forall x, In x (reserved t) \/ In x (clients t) -> x < g_next s;
    d_nd : NoDup (clients t);
    d_use : forall x, In x (clients t) -> In x (reserved t) ->
            exists oc, In (EvCreate x oc) (map fst t);
    d_none : destroyed t = [] }.

  Lemma disciplined_prefix a b : disciplined (a ++ b) -> disciplined a.
  Proof. intros H x e o y E. apply (H x e o (y ++ b)). rewrite E, <- app_assoc. reflexivity. Qed.

  (** A step that draws no id and starts no service. *)
  Lemma ids_other s t s' e o : ids s t -> g_next s' = g_next s ->
    match e with EvConstruct | EvReserve | EvCreate _ (Works | Failed) => False | _ => True end ->
    (forall x, In x o -> match x with OutStarted _ _ | OutDestroyed _ => False | _ => True end) ->
    ids s' (t ++ [(e, o)]).
  Proof.
    intros D N E O.
    assert (A1 : started (t ++ [(e, o)]) = started t).
    { rewrite started_app. unfold started at 2, outs. cbn [flat_map snd]. rewrite app_nil_r.
      replace (flat_map _ o) with (@nil (Z * Z)); [apply app_nil_r|].
      symmetry. clear -O. induction o as [|x o IH]; auto. cbn [flat_map].
      pose proof (O x (or_introl eq_refl)). rewrite IH by (intros; apply O; now right).
      destruct x; easy. }
    assert (A2 : destroyed (t ++ [(e, o)]) = destroyed t).
    { rewrite destroyed_app. unfold destroyed at 2, outs. cbn [flat_map snd]. rewrite app_nil_r.
      replace (flat_map _ o) with (@nil Z); [apply app_nil_r|].
      symmetry. clear -O. induction o as [|x o IH]; auto. cbn [flat_map].
      pose proof (O x (or_introl eq_refl)). rewrite IH by (intros; apply O; now right).
      destruct x; easy. }
    assert (A3 : reserved (t ++ [(e, o)]) = reserved t).
    { unfold reserved. rewrite flat_map_app. cbn. destruct e; try apply app_nil_r; easy. }
    assert (A4 : constructed (t ++ [(e, o)]) = constructed t).
    { unfold constructed. rewrite flat_map_app. cbn. destruct e; try apply app_nil_r; easy. }
    assert (A5 : fresh_reservation (map fst (t ++ [(e, o)])) false =
                 fresh_reservation (map fst t) false).
    { rewrite map_app, fresh_app. cbn. destruct e as [| |? []| | | |]; easy. }
    split; unfold clients; rewrite ?A1, ?A2, ?A3, ?A4, ?A5, ?N; try apply D.
    - rewrite app_length. cbn [length]. pose proof (d_next _ _ D). lia.
    - intros x X1 X2. destruct (d_use _ _ D x X1 X2) as (oc & H). exists oc.
      rewrite map_app. apply in_or_app. auto.
  Qed.

  Lemma ids_run evs : 0 < next -> next + Z.of_nat (length evs) < 2 ^ 32 ->
    disciplined (history evs) -> listening own (history evs) ->
    ids (fst (run (gstep own ord) (ginit next) evs)) (history evs).
  Proof.
    intros NP. unfold history. induction evs as [|e evs IH] using rev_ind; intros B DI LI.
    { split; cbn; try easy; try lia; try constructor. }
    rewrite run_snoc in *. cbn [fst snd] in *. rewrite app_length in B. cbn [length] in B.
    pose proof (inv_run own ord own_pos next evs) as I. cbv zeta in I.
    pose proof (run_events (gstep own ord) (ginit next) evs) as EV.
    destruct (run (gstep own ord) (ginit next) evs) as (s, t). cbn [fst snd] in *.
    apply listening_snoc in LI. destruct LI as (LI & _).
    specialize (IH ltac:(lia) (disciplined_prefix _ _ DI) LI).
    specialize (DI t e (snd (gstep own ord s e)) [] eq_refl).
    pose proof (proj2 (i_up _ _ _ I) LI) as U.
    assert (LT : length t = length evs) by (rewrite <- EV, map_length; auto).
    pose proof (d_next _ _ IH) as DN.
    assert (NX : u32 (g_next s + 1) = g_next s + 1) by (apply u32_small; lia).
    destruct e as [| |id oc|id|u| |]; cbn [gstep].
    - (* construct *)
      cbn [construct fst snd setNext]. rewrite NX.
      assert (A4 : constructed (t ++ [(EvConstruct, [OutId (g_next s)])]) = constructed t ++ [g_next s])
        by (unfold constructed; rewrite flat_map_app; auto).
      assert (A3 : reserved (t ++ [(EvConstruct, [OutId (g_next s)])]) = reserved t)
        by (unfold reserved; rewrite flat_map_app; apply app_nil_r).
      assert (A1 : started (t ++ [(EvConstruct, [OutId (g_next s)])]) = started t)
        by (rewrite started_app; apply app_nil_r).
      assert (C : forall x, In x (clients (t ++ [(EvConstruct, [OutId (g_next s)])])) <->
                            In x (clients t) \/ x = g_next s).
      { intros x. unfold clients. rewrite A1, A4, !in_app_iff. cbn. intuition congruence. }
      split; rewrite ?A3; cbn [g_next setNext setMap].
      + rewrite app_length. cbn [length]. lia.
      + intros x X. apply (d_res _ _ IH) in X. lia.
      + intros x X. apply C in X. destruct X as [X| ->]; [apply (d_cli _ _ IH) in X|]; lia.
      + intros _ x X. rewrite C in X.
        destruct X as [X|[X| ->]]; [apply (d_res _ _ IH) in X|apply (d_cli _ _ IH) in X|]; lia.
      + unfold clients. rewrite A1, A4, app_assoc. apply NoDup_app_; [apply IH|repeat constructor; easy|].
        intros x X [<-|[]]. pose proof (d_last _ _ IH DI (g_next s) (or_intror X)). lia.
      + intros x X1 X2. apply C in X1. destruct X1 as [X1| ->].
        * destruct (d_use _ _ IH x X1 X2) as (oc & H). exists oc. rewrite map_app.
          apply in_or_app. auto.
        * pose proof (d_last _ _ IH DI (g_next s) (or_introl X2)). lia.
      + rewrite destroyed_app. cbn. rewrite app_nil_r. apply IH.
    - (* reserve *)
      cbn [reserve fst snd setNext]. rewrite NX.
      assert (A4 : constructed (t ++ [(EvReserve, [OutId (g_next s + 1)])]) = constructed t)
        by (unfold constructed; rewrite flat_map_app; apply app_nil_r).
      assert (A3 : reserved (t ++ [(EvReserve, [OutId (g_next s + 1)])]) = reserved t ++ [g_next s + 1])
        by (unfold reserved; rewrite flat_map_app; auto).
      assert (A1 : started (t ++ [(EvReserve, [OutId (g_next s + 1)])]) = started t)
        by (rewrite started_app; apply app_nil_r).
      split; unfold clients; rewrite ?A3, ?A1, ?A4; fold (clients t); cbn [g_next setNext setMap].
      + rewrite app_length. cbn [length]. lia.
      + intros x X. rewrite in_app_iff in X. destruct X as [X|[<-|[]]]; [|lia].
        apply (d_res _ _ IH) in X. lia.
      + intros x X. apply (d_cli _ _ IH) in X. lia.
      + rewrite map_app, fresh_app. discriminate.
      + apply IH.
      + intros x X1 X2. rewrite in_app_iff in X2. destruct X2 as [X2|[<-|[]]].
        * destruct (d_use _ _ IH x X1 X2) as (oc & H). exists oc. rewrite map_app.
          apply in_or_app. auto.
        * apply (d_cli _ _ IH) in X1. lia.
      + rewrite destroyed_app. cbn. rewrite app_nil_r. apply IH.
    - (* create *)
      rewrite U. destruct oc; cbn [createService construct].
      + apply (ids_other s); auto. intros x [<-|[]]; auto.
      + unfold construct, setNext. cbn [fst snd]. rewrite NX.
        assert (A4 : constructed (t ++ [(EvCreate id Failed, [OutResult false])]) = constructed t)
          by (unfold constructed; rewrite flat_map_app; apply app_nil_r).
        assert (A3 : reserved (t ++ [(EvCreate id Failed, [OutResult false])]) = reserved t)
          by (unfold reserved; rewrite flat_map_app; apply app_nil_r).
        assert (A1 : started (t ++ [(EvCreate id Failed, [OutResult false])]) = started t)
          by (rewrite started_app; apply app_nil_r).
        split; unfold clients; rewrite ?A3, ?A1, ?A4; fold (clients t); cbn [g_next setNext setMap].
        * rewrite app_length. cbn [length]. lia.
        * intros x X. apply (d_res _ _ IH) in X. lia.
        * intros x X. apply (d_cli _ _ IH) in X. lia.
        * intros _ x [X|X]; [apply (d_res _ _ IH) in X|apply (d_cli _ _ IH) in X]; lia.
        * apply IH.
        * intros x X1 X2. destruct (d_use _ _ IH x X1 X2) as (oc & H). exists oc. rewrite map_app.
          apply in_or_app. auto.
        * rewrite destroyed_app. cbn. rewrite app_nil_r. apply IH.
      + set (i := if 0 <? id then id else g_next s). cbn [v_uid v_id]. rewrite NX.
        assert (IP : 0 < i <= g_next s /\ ~ In i (clients t) /\
                     (In i (reserved t) -> i = id) ).
        { unfold i. destruct DI as [(P & R & F)|(P & F)].
          - destruct (Z.ltb_spec 0 id); [|lia]. pose proof (d_res _ _ IH _ R). split; [lia|].
            split; auto. intros C. destruct (d_use _ _ IH _ C R) as (oc & Q). now apply (F oc).
          - destruct (Z.ltb_spec 0 id); [lia|]. split; [lia|].
            split; intros C; exfalso.
            + pose proof (d_last _ _ IH F (g_next s) (or_intror C)). lia.
            + pose proof (d_last _ _ IH F (g_next s) (or_introl C)). lia. }
        destruct IP as (IB & IC & IR).
        assert (ZN : zget (g_map s) (u32 i) = None).
        { destruct (zget (g_map s) (u32 i)) as [v|] eqn:Z; auto. exfalso. apply In_zget in Z.
          pose proof (i_key _ _ _ I _ _ Z) as K. destruct (i_map _ _ _ I _ Z) as (A & _).
          assert (CV : In (v_id v) (clients t)).
          { unfold clients. apply in_or_app. left. apply in_map_iff. exists (obj (u32 i, v)). auto. }
          pose proof (d_cli _ _ IH _ CV). rewrite !u32_small in K by lia. subst i. congruence. }
        rewrite ZN. cbn [fst snd setMap].
        set (o := [OutStarted (g_uid s) i; OutResult true]).
        assert (A4 : constructed (t ++ [(EvCreate id Works, o)]) = constructed t)
          by (unfold constructed; rewrite flat_map_app; apply app_nil_r).
        assert (A3 : reserved (t ++ [(EvCreate id Works, o)]) = reserved t)
          by (unfold reserved; rewrite flat_map_app; apply app_nil_r).
        assert (A1 : started (t ++ [(EvCreate id Works, o)]) = started t ++ [(g_uid s, i)])
          by (rewrite started_app; auto).
        assert (C : forall x, In x (clients (t ++ [(EvCreate id Works, o)])) <->
                              In x (clients t) \/ x = i).
        { intros x. unfold clients. rewrite A1, A4, map_app, !in_app_iff. cbn. intuition congruence. }
        split; rewrite ?A3; cbn [g_next setNext setMap].
        * rewrite app_length. cbn [length]. lia.
        * intros x X. apply (d_res _ _ IH) in X. lia.
        * intros x X. apply C in X. destruct X as [X| ->]; [apply (d_cli _ _ IH) in X|]; lia.
        * intros _ x X. rewrite C in X.
        destruct X as [X|[X| ->]]; [apply (d_res _ _ IH) in X|apply (d_cli _ _ IH) in X|]; lia.
        * unfold clients. rewrite A1, A4, map_app, <- app_assoc. cbn [map snd app].
          apply (Permutation_NoDup (l := i :: clients t)).
          -- unfold clients. apply Permutation_middle.
          -- constructor; auto. apply IH.
        * intros x X1 X2. apply C in X1. destruct X1 as [X1| ->].
          -- destruct (d_use _ _ IH x X1 X2) as (oc & H). exists oc. rewrite map_app.
             apply in_or_app. auto.
          -- rewrite (IR X2). exists Works. rewrite map_app. apply in_or_app. right. now left.
        * rewrite destroyed_app. cbn. rewrite app_nil_r. apply IH.
    - (* kill *)
      rewrite U. unfold killService. destruct (id =? own); [|destruct (id =? -1)];
        apply (ids_other s); auto; try easy.
      intros x X. apply terminateAll_outs in X. now destruct X as (? & ->).
    - apply (ids_other s); auto; easy.
    - apply (ids_other s); auto.
      + unfold turn. destruct (g_exit s); auto. cbn [sweep].
        destruct (g_left s); [destruct (_ || _)|destruct (_ && _)]; auto.
      + unfold turn. destruct (g_exit s); [easy|]. cbn [sweep].
        destruct (g_left s); [destruct (_ || _)|destruct (_ && _)]; cbn; intros x X;
          repeat destruct X as [<-|X]; easy.
    - apply (ids_other s); auto.
      + unfold expire. destruct (g_exit s); auto. destruct (g_left s); auto.
        destruct (g_term s); auto.
      + unfold expire. destruct (g_exit s); [easy|]. destruct (g_left s); [easy|].
        destruct (g_term s); cbn [snd]; intros x X.
        * repeat destruct X as [<-|X]; easy.
        * apply terminateAll_outs in X. now destruct X as (? & ->).
  Qed.

  (** If ids are used with discipline, no service is lost and all clients have different ids. *)
  Theorem C29_disciplined evs : 0 < next -> next + Z.of_nat (length evs) < 2 ^ 32 ->
    disciplined (history evs) -> listening own (history evs) ->
    destroyed (history evs) = [] /\ NoDup (map snd (started (history evs)) ++ constructed (history evs)).
  Proof. intros A B C D. pose proof (ids_run evs A B C D) as I. split; apply I. Qed.
End C29.

Definition self (m : zmap svc) : list (Z * svc) := m.

(** Two services at startup, one created by request, which ends; then all are asked to end. *)
Definition day : list event :=
  [EvCreate (-1) Works; EvCreate (-1) Works; EvReserve; EvCreate 13 Works; EvSweep; EvFinish 2;
   EvSweep; EvKill (-1); EvFinish 0; EvSweep; EvFinish 1; EvSweep].

Example C29_example :
  history 10 self 11 day =
  [(EvCreate (-1) Works, [OutStarted 0 11; OutResult true]);
   (EvCreate (-1) Works, [OutStarted 1 12; OutResult true]);
   (EvReserve, [OutId 14]);
   (EvCreate 13 Works, [OutStarted 2 13; OutResult true]);
   (EvSweep, [OutRunning 3]);
   (EvFinish 2, []);
   (EvSweep, [OutRunning 2]);
   (EvKill (-1), [OutKill 12; OutKill 11]);
   (EvFinish 0, []);
   (EvSweep, [OutRunning 1]);
   (EvFinish 1, []);
   (EvSweep, [OutRunning 0; OutExit])].
Proof. reflexivity. Qed.

(** A run duration that ends while a service does not: twenty sweeps. *)
Example C29_patience_example :
  let t := history 10 self 11 ([EvCreate (-1) Works; EvExpire] ++ repeat EvSweep 20) in
  In OutExit (outs t) /\ ~ In OutExit (outs (removelast t)) /\ length (running t) = 1%nat.
Proof.
  split; [|split]; [vm_compute; tauto| |reflexivity].
  vm_compute. intuition discriminate.
Qed.

(** Ids used with discipline. *)
Definition morning : list event :=
  [EvCreate (-1) Works; EvConstruct; EvCreate (-1) Works; EvReserve; EvReserve;
   EvCreate 15 Works; EvCreate 16 Works; EvConstruct].

Example C29_disciplined_example :
  disciplined (history 10 self 11 morning) /\ listening 10 (history 10 self 11 morning) /\
  length (started (history 10 self 11 morning)) = 4%nat.
Proof.
  split; [|split; [vm_compute; intuition discriminate|reflexivity]].
  intros a e o b.
  replace (history 10 self 11 morning) with
    [(EvCreate (-1) Works, [OutStarted 0 11; OutResult true]);
     (EvConstruct, [OutId 12]);
     (EvCreate (-1) Works, [OutStarted 1 13; OutResult true]);
     (EvReserve, [OutId 15]);
     (EvReserve, [OutId 16]);
     (EvCreate 15 Works, [OutStarted 2 15; OutResult true]);
     (EvCreate 16 Works, [OutStarted 3 16; OutResult true]);
     (EvConstruct, [OutId 18])] by reflexivity.
  intros E.
  destruct a as [|? a]; [injection E as <- <- _; right; split; [lia|reflexivity]|injection E as <- E].
  destruct a as [|? a]; [injection E as <- <- _; reflexivity|injection E as <- E].
  destruct a as [|? a]; [injection E as <- <- _; right; split; [lia|reflexivity]|injection E as <- E].
  destruct a as [|? a]; [injection E as <- <- _; exact I|injection E as <- E].
  destruct a as [|? a]; [injection E as <- <- _; exact I|injection E as <- E].
  destruct a as [|? a]; [injection E as <- <- _; left; split; [lia|split; [now left|]];
                         intros oc C; cbn in C; intuition discriminate|injection E as <- E].
  destruct a as [|? a]; [injection E as <- <- _; left; split; [lia|split; [right; now left|]];
                         intros oc C; cbn in C; intuition discriminate|injection E as <- E].
  destruct a as [|? a]; [injection E as <- <- _; reflexivity|injection E as <- E].
  destruct a; discriminate.
Qed.

(** Creating a service can succeed although the service is destroyed at once, its thread still
    running: an id that is in use. *)
Theorem C29_create_refuted :
  ~ forall own ord next evs t1 id oc o t2, 0 < own ->
    (forall m, Permutation (ord m) m) ->
    history own ord next evs = t1 ++ (EvCreate id oc, o) :: t2 -> In (OutResult true) o ->
    forall u i, In (OutStarted u i) o -> ~ In (OutDestroyed u) o.
Proof.
  intros H.
  apply (H 10 self 11 [EvCreate (-1) Works; EvCreate 11 Works]
           [(EvCreate (-1) Works, [OutStarted 0 11; OutResult true])] 11 Works
           [OutStarted 1 11; OutDestroyed 1; OutResult true] [] ltac:(lia)
           (fun m => Permutation_refl m) eq_refl ltac:(cbn; tauto) 1 11 ltac:(now left)).
  right. now left.
Qed.

(** This happens with ids from the counter as well: an id reserved for a service, a service
    without an id created next. *)
Theorem C29_reserved_refuted :
  ~ forall own ord next evs, 0 < own < next -> next + Z.of_nat (length evs) < 2 ^ 32 ->
    (forall m, Permutation (ord m) m) ->
    (forall a id oc o b, history own ord next evs = a ++ (EvCreate id oc, o) :: b -> 0 < id ->
       In id (reserved a) /\ forall oc', ~ In (EvCreate id oc') (map fst a)) ->
    destroyed (history own ord next evs) = [].
Proof.
  intros H.
  assert (C : destroyed (history 10 self 11 [EvReserve; EvCreate (-1) Works; EvCreate 12 Works]) = []).
  { apply H; [lia|cbn; lia|intros; apply Permutation_refl|]. intros a id oc o b.
    replace (history 10 self 11 [EvReserve; EvCreate (-1) Works; EvCreate 12 Works]) with
      [(EvReserve, [OutId 12]); (EvCreate (-1) Works, [OutStarted 0 12; OutResult true]);
       (EvCreate 12 Works, [OutStarted 1 12; OutDestroyed 1; OutResult true])] by reflexivity.
    intros E P.
    destruct a as [|? a]; [discriminate|injection E as <- E].
    destruct a as [|? a]; [injection E as <- _ _ _; lia|injection E as <- E].
    destruct a as [|? a]; [injection E as <- _ _ _|injection E as <- E; destruct a; discriminate].
    split; [now left|]. intros oc' C. cbn in C. intuition discriminate. }
  discriminate.
Qed.

(** A request to end the service manager itself, by its id, does not end the services, and the
    manager no longer listens to requests to end them. *)
Theorem C29_kill_own_refuted :
  ~ forall own ord next evs t1 o t2, 0 < own ->
    (forall m, Permutation (ord m) m) ->
    history own ord next evs = t1 ++ (EvKill own, o) :: t2 -> listening own t1 ->
    Permutation o (map (fun p => OutKill (snd p)) (running t1)).
Proof.
  intros H.
  specialize (H 10 self 11 [EvCreate (-1) Works; EvKill 10; EvKill (-1)]
           [(EvCreate (-1) Works, [OutStarted 0 11; OutResult true])] [] [(EvKill (-1), [])]
           ltac:(lia) (fun m => Permutation_refl m) eq_refl ltac:(vm_compute; intuition discriminate)).
  now apply Permutation_nil in H.
Qed.

Print Assumptions C13_distinct_iff.
Print Assumptions C13_constructed.
Print Assumptions C13_refuted.
Print Assumptions C29_count.
Print Assumptions C29_terminate.
Print Assumptions C29_expire.
Print Assumptions C29_exit.
Print Assumptions C29_stops.
Print Assumptions C29_patience.
Print Assumptions C29_create.
Print Assumptions C29_deaf.
Print Assumptions C29_disciplined.
Print Assumptions C29_create_refuted.
Print Assumptions C29_reserved_refuted.
Print Assumptions C29_kill_own_refuted.

(** The invariant of a client of the bus. *)
From Coq Require Import String Ascii List Arith Bool Lia.
From Verif Require Import Base MsgModel MsgSpec MsgProofs MsgProps Run NetModel NetSpec.
Import ListNotations.
Open Scope list_scope.

Lemma str_eqb_eq a b : str_eqb a b = true <-> a = b.
Proof. unfold str_eqb. destruct (list_eq_dec ascii_dec a b); split; congruence. Qed.

Lemma str_eqb_refl a : str_eqb a a = true.
Proof. apply str_eqb_eq. reflexivity. Qed.

Lemma mem_In a l : mem a l = true <-> In a l.
Proof.
  unfold mem. rewrite existsb_exists. split.
  - intros (x & H & E). apply str_eqb_eq in E. subst. exact H.
  - intros H. exists a. split; [exact H|apply str_eqb_refl].
Qed.

Lemma erase_In a p l : In p (erase a l) <-> In p l /\ p <> a.
Proof.
  unfold erase. rewrite filter_In, negb_true_iff. split; intros (H & E); (split; [exact H|]).
  - intros ->. rewrite str_eqb_refl in E. discriminate.
  - destruct (str_eqb a p) eqn:Q; [|reflexivity]. apply str_eqb_eq in Q. congruence.
Qed.

(** Whether the client is initialised and started. *)
Fixpoint flags (i s : bool) (evs : list event) : bool * bool :=
  match evs with
  | [] => (i, s)
  | Init :: l => flags true s l
  | Start :: l => flags i (i || s) l
  | _ :: l => flags i s l
  end.

Lemma flags_app a : forall i s b, flags i s (a ++ b) = flags (fst (flags i s a)) (snd (flags i s a)) b.
Proof. induction a as [|[] a IH]; intros i s b; cbn; auto. Qed.

Lemma effective_app a : forall i s b,
  effective i s (a ++ b) = effective i s a ++ effective (fst (flags i s a)) (snd (flags i s a)) b.
Proof. induction a as [|[] a IH]; intros i s b; cbn; rewrite ?IH, ?app_assoc; reflexivity. Qed.

Lemma no_late_app a : forall i s b, no_late_clear i s (a ++ b) ->
  no_late_clear i s a /\ no_late_clear (fst (flags i s a)) (snd (flags i s a)) b.
Proof.
  induction a as [|[] a IH]; intros i s b; cbn; auto. intros (H & K). destruct (IH _ _ _ K). auto.
Qed.

Lemma flags_init a : forall i s, fst (flags i s a) = true <-> i = true \/ In Init a.
Proof.
  induction a as [|e a IH]; intros i s; cbn; [tauto|].
  destruct e; rewrite ?IH; split; intros H; try tauto; destruct H as [H|H]; try tauto;
    destruct H as [H|H]; try discriminate; tauto.
Qed.

Lemma flags_start a : forall i s, (s = true -> i = true) -> snd (flags i s a) = true -> fst (flags i s a) = true.
Proof.
  induction a as [|e a IH]; intros i s H; [exact H|].
  destruct e; cbn; apply IH; auto. destruct i, s; auto.
Qed.

Definition live (p : str) (l : list event) : Prop :=
  exists x y, l = x ++ Add p :: y /\ ~ In (Remove p) y /\ ~ In RemoveAll y.

Lemma live_nil p : ~ live p [].
Proof. intros (x & y & H & _). destruct x; discriminate. Qed.

Lemma live_snoc p l e : live p (l ++ [e]) <-> e = Add p \/ (live p l /\ e <> Remove p /\ e <> RemoveAll).
Proof.
  split.
  - intros (x & y & H & R & A). destruct y as [|z y] using rev_ind.
    + apply app_inj_tail in H. left. tauto.
    + clear IHy. rewrite app_comm_cons, app_assoc in H. apply app_inj_tail in H. destruct H as (-> & ->).
      right. split; [|split].
      * exists x, y. split; [reflexivity|]. split; intros C; [apply R|apply A]; apply in_or_app; auto.
      * intros ->. apply R, in_or_app. right. left. reflexivity.
      * intros ->. apply A, in_or_app. right. left. reflexivity.
  - intros [->|((x & y & -> & R & A) & NR & NA)].
    + exists l, []. cbn. tauto.
    + exists x, (y ++ [e]). rewrite <- app_assoc. split; [reflexivity|].
      split; intros C; apply in_app_or in C; destruct C as [C|[C|[]]]; auto.
Qed.

(** The subscriptions while they are copied to the socket. *)
Lemma fold_add l : forall c,
  (forall p, In p (addresses c) <-> In p (socket c)) ->
  let c' := fold_left receiver_add l c in
  (forall p, In p (addresses c') <-> In p (socket c')) /\
  (forall p, In p (socket c') <-> In p (socket c) \/ In p l) /\
  entity c' = entity c /\ service c' = service c /\ staged c' = staged c /\ created c' = created c /\
  started c' = started c /\ queue c' = queue c /\ recvd c' = recvd c /\ hung c' = hung c.
Proof.
  induction l as [|a l IH]; intros c H; cbn [fold_left].
  - split; [exact H|]. split; [intros p; cbn; tauto|]. repeat split.
  - assert (H' : forall p, In p (addresses (receiver_add c a)) <-> In p (socket (receiver_add c a))).
    { unfold receiver_add. destruct (mem a (addresses c)); [exact H|]. cbn. intros p. rewrite H. tauto. }
    specialize (IH (receiver_add c a) H'). cbv zeta in *.
    destruct IH as (I1 & I2 & I3). split; [exact I1|]. split.
    + intros p. rewrite I2. unfold receiver_add. destruct (mem a (addresses c)) eqn:M; cbn; [|tauto].
      apply mem_In, H in M. split; [tauto|]. intros [X|[<-|X]]; tauto.
    + unfold receiver_add in *. destruct (mem a (addresses c)); exact I3.
Qed.

Lemma receive_short e s t : receive e s t = [] \/ exists m, receive e s t = [m].
Proof.
  unfold receive. destruct (setAamFromDelimitedString new_aam t) as [m []]; [|auto].
  destruct (aam_attrs m); [|auto]. destruct (_ || _); eauto.
Qed.

Record inv (e s : str) (evs : list event) (c : client) (o : list out) : Prop := {
  i_entity : entity c = e;
  i_service : service c = s;
  i_hung : hung c = false;
  i_created : created c = fst (flags false false evs);
  i_started : started c = snd (flags false false evs);
  i_same : forall p, In p (addresses c) <-> In p (socket c);
  i_empty : created c = false -> socket c = [];
  i_staged : created c = false -> forall p, In p (staged c) <-> live p (effective false false evs);
  i_subs : created c = true -> forall p, In p (socket c) <-> live p (effective false false evs);
  i_recvd : recvd c = [];
  i_len : length (queue c) <= length evs;
  i_arrived : exists l, arrived evs l /\
    received o ++ flat_map (receive e s) (queue c) = flat_map (receive e s) l }.

Lemma in_force_live evs p : in_force evs p <-> fst (flags false false evs) = true /\ live p (effective false false evs).
Proof.
  unfold in_force. rewrite flags_init. unfold live. split; intros (A & B); (split; [|exact B]); [auto|].
  destruct A as [A|A]; [discriminate|exact A].
Qed.

Lemma received_app a b : received (a ++ b) = received a ++ received b.
Proof. induction a as [|[] a IH]; cbn; rewrite ?IH; reflexivity. Qed.

Lemma inv_init e s : inv e s [] (init e s) [].
Proof.
  split; cbn; try reflexivity; try tauto; try discriminate.
  - intros _ p. split; [tauto|]. intros H. exact (live_nil p H).
  - exists []. split; [constructor|reflexivity].
Qed.

Lemma inv_step e s evs c o ev c' o' :
  inv e s evs c o -> no_late_clear (fst (flags false false evs)) (snd (flags false false evs)) [ev] ->
  step c ev = (c', o') -> inv e s (evs ++ [ev]) c' (o ++ o').
Proof.
  intros I NL St. pose proof (effective_app evs false false [ev]) as EA. pose proof (flags_app evs false false [ev]) as FA.
  pose proof (flags_start evs false false ltac:(discriminate)) as FS.
  destruct I as [Ie Is Ih Ic It Isame Iem Ist Isub Ir Il Ia].
  rewrite <- Ic, <- It in EA, FA, NL, FS.
  assert (AR : (forall t, ev <> Bus t) -> queue c' = queue c -> received o' = [] ->
    exists l, arrived (evs ++ [ev]) l /\
      received (o ++ o') ++ flat_map (receive e s) (queue c') = flat_map (receive e s) l).
  { intros NB Q R. destruct Ia as (l & A & E). exists l. split; [constructor; assumption|].
    rewrite received_app, R, app_nil_r, Q. exact E. }
  assert (LEN : length (evs ++ [ev]) = S (length evs)) by (rewrite app_length; cbn; lia).
  unfold step in St. rewrite Ih in St.
  destruct ev as [a|a| | | |text|].
  - (* Add *)
    injection St as <- <-. cbn in EA, FA.
    unfold addSubscriptionAddress in *. destruct (started c) eqn:S.
    + assert (C : created c = true) by (apply FS; reflexivity). rewrite C in EA, FA. cbn in EA.
      unfold receiver_add in *. destruct (mem a (addresses c)) eqn:M.
      * apply mem_In in M. split; rewrite ?FA, ?EA; try assumption; try reflexivity; try (rewrite C; discriminate); try lia.
        -- intros _ p. rewrite live_snoc, <- Isub by exact C. split.
           ++ intros H. right. split; [exact H|]. split; discriminate.
           ++ intros [[= ->]|(H & _)]; [apply Isame, M|exact H].
        -- apply AR; try reflexivity. discriminate.
      * split; cbn; rewrite ?FA, ?EA; try assumption; try reflexivity; try (rewrite C; discriminate); try lia.
        -- intros p. rewrite Isame. tauto.
        -- intros _ p. rewrite live_snoc, <- Isub by exact C. split.
           ++ intros [->|H]; [left; reflexivity|]. right. split; [exact H|]. split; discriminate.
           ++ intros [[= ->]|(H & _)]; auto.
        -- apply AR; try reflexivity. discriminate.
    + destruct (created c) eqn:C; cbn in EA.
      * rewrite app_nil_r in EA. destruct (mem a (staged c)); split; cbn; rewrite ?FA, ?EA, ?C; try assumption; try reflexivity;
          try discriminate; try lia; (apply AR; [discriminate|reflexivity|reflexivity]).
      * assert (G : forall p, (In p (staged c) \/ p = a) <-> live p (effective false false evs ++ [Add a])).
        { intros p. rewrite live_snoc, <- Ist by reflexivity. split.
          - intros [H| ->]; [right; split; [exact H|]; split; discriminate|left; reflexivity].
          - intros [[= ->]|(H & _)]; auto. }
        destruct (mem a (staged c)) eqn:M.
        -- apply mem_In in M. split; rewrite ?FA, ?EA, ?C; try assumption; try reflexivity; try discriminate; try lia.
           ++ intros _ p. rewrite <- G. split; [tauto|]. intros [H| ->]; assumption.
           ++ apply AR; [discriminate|reflexivity|reflexivity].
        -- split; cbn; rewrite ?FA, ?EA, ?C; try assumption; try reflexivity; try discriminate; try lia.
           ++ intros _ p. rewrite <- G. split; [intros [->|H]; auto|intros [H| ->]; auto].
           ++ apply AR; [discriminate|reflexivity|reflexivity].
  - (* Remove *)
    injection St as <- <-. cbn in EA, FA.
    unfold removeSubscriptionAddress in *. destruct (started c) eqn:S.
    + assert (C : created c = true) by (apply FS; reflexivity). rewrite C in EA, FA. cbn in EA.
      unfold receiver_remove in *. destruct (mem a (addresses c)) eqn:M.
      * split; cbn; rewrite ?FA, ?EA; try assumption; try reflexivity; try (rewrite C; discriminate); try lia.
        -- intros p. rewrite !erase_In, Isame. tauto.
        -- intros _ p. rewrite live_snoc, <- Isub by exact C. rewrite erase_In. split.
           ++ intros (H & N). right. split; [exact H|]. split; congruence.
           ++ intros [X|(H & N & _)]; [discriminate|]. split; [exact H|]. intros ->. apply N. reflexivity.
        -- apply AR; [discriminate|reflexivity|reflexivity].
      * assert (M' : ~ In a (addresses c)) by (rewrite <- mem_In, M; discriminate).
        split; rewrite ?FA, ?EA; try assumption; try reflexivity; try (rewrite C; discriminate); try lia.
        -- intros _ p. rewrite live_snoc, <- Isub by exact C. split.
           ++ intros H. right. split; [exact H|]. split; [intros [= ->]; apply M', Isame, H|discriminate].
           ++ intros [X|(H & _)]; [discriminate|exact H].
        -- apply AR; [discriminate|reflexivity|reflexivity].
    + destruct (created c) eqn:C; cbn in EA.
      * rewrite app_nil_r in EA. split; cbn; rewrite ?FA, ?EA, ?C; try assumption; try reflexivity;
          try discriminate; try lia; (apply AR; [discriminate|reflexivity|reflexivity]).
      * split; cbn; rewrite ?FA, ?EA, ?C; try assumption; try reflexivity; try discriminate; try lia.
        -- intros _ p. rewrite live_snoc, <- Ist by reflexivity. rewrite erase_In. split.
           ++ intros (H & N). right. split; [exact H|]. split; congruence.
           ++ intros [X|(H & N & _)]; [discriminate|]. split; [exact H|]. intros ->. apply N. reflexivity.
        -- apply AR; [discriminate|reflexivity|reflexivity].
  - (* RemoveAll *)
    injection St as <- <-. cbn in EA, FA, NL. destruct NL as (NL & _).
    unfold removeAllSubscriptionAddresses in *. rewrite NL in *.
    destruct (created c) eqn:C; cbn in EA.
    + rewrite app_nil_r in EA. split; cbn; rewrite ?FA, ?EA, ?C; try assumption; try reflexivity;
          try discriminate; try lia; (apply AR; [discriminate|reflexivity|reflexivity]).
    + split; cbn; rewrite ?FA, ?EA, ?C; try assumption; try reflexivity; try discriminate; try lia.
      * intros _ p. rewrite live_snoc. split; [tauto|]. intros [X|(_ & _ & X)]; [discriminate|apply X; reflexivity].
      * apply AR; [discriminate|reflexivity|reflexivity].
  - (* Init *)
    injection St as <- <-. cbn in EA, FA.
    assert (KEEP : forall p, live p (effective false false evs ++ [Init]) <-> live p (effective false false evs)).
    { intros p. rewrite live_snoc. split; [intros [X|(X & _)]; [discriminate|exact X]|].
      intros X. right. split; [exact X|]. split; discriminate. }
    destruct (created c) eqn:C.
    + split; rewrite ?FA, ?EA, ?C; try assumption; try reflexivity; try discriminate; try lia.
      * intros _ p. rewrite KEEP. apply Isub. reflexivity.
      * apply AR; [discriminate|reflexivity|reflexivity].
    + unfold initializeNetworkClient in *.
      assert (S : started c = false).
      { destruct (started c); [|reflexivity]. specialize (FS eq_refl). discriminate. }
      pose proof (fold_add (staged c) (set_flags c true (started c) (hung c)) Isame) as F. cbv zeta in F.
      destruct F as (F1 & F2 & F3 & F4 & F5 & F6 & F7 & F8 & F9 & F10). cbn in F2, F3, F4, F5, F6, F7, F8, F9, F10.
      split; rewrite ?FA, ?EA, ?F3, ?F4, ?F6, ?F7, ?F8, ?F9, ?F10; try assumption; try reflexivity; try discriminate; try lia; try reflexivity.
      * intros _ p. rewrite F2, KEEP, (Iem eq_refl), (Ist eq_refl). cbn. tauto.
      * rewrite F8 in AR. apply AR; [discriminate|reflexivity|reflexivity].
  - (* Start *)
    injection St as <- <-. cbn in EA, FA.
    assert (KEEP : forall p, live p (effective false false evs ++ [Start]) <-> live p (effective false false evs)).
    { intros p. rewrite live_snoc. split; [intros [X|(X & _)]; [discriminate|exact X]|].
      intros X. right. split; [exact X|]. split; discriminate. }
    destruct (created c) eqn:C.
    + split; cbn; rewrite ?FA, ?EA; try assumption; try reflexivity; try discriminate; try lia; try reflexivity.
      * intros _ p. rewrite KEEP. apply Isub. reflexivity.
      * apply AR; [discriminate|reflexivity|reflexivity].
    + cbn in FA. split; rewrite ?FA, ?EA, ?C; try assumption; try reflexivity; try discriminate; try lia; try reflexivity.
      * intros _ p. rewrite KEEP. apply Ist. reflexivity.
      * apply AR; [discriminate|reflexivity|reflexivity].
  - (* Bus *)
    injection St as <- <-. cbn in EA, FA. rewrite app_nil_r.
    assert (KEEP : forall p, live p (effective false false evs ++ [Bus text]) <-> live p (effective false false evs)).
    { intros p. rewrite live_snoc. split; [intros [X|(X & _)]; [discriminate|exact X]|].
      intros X. right. split; [exact X|]. split; discriminate. }
    assert (W : created c && existsb (fun p => is_prefix p text) (socket c) = true <->
                exists p, in_force evs p /\ begins_with p text).
    { rewrite andb_true_iff, existsb_exists. split.
      - intros (C & p & H & B). exists p. split; [|apply is_prefix_spec, B].
        apply in_force_live. rewrite <- Ic. split; [exact C|]. apply Isub; assumption.
      - intros (p & H & B). apply in_force_live in H. destruct H as (C & H). rewrite <- Ic in C.
        split; [exact C|]. exists p. split; [apply Isub; assumption|apply is_prefix_spec, B]. }
    destruct Ia as (l & A & E).
    destruct (created c && existsb (fun p => is_prefix p text) (socket c)).
    + split; cbn; rewrite ?FA, ?EA; try assumption; try reflexivity; try lia.
      * intros C p. rewrite KEEP. auto.
      * intros C p. rewrite KEEP. auto.
      * rewrite app_length. cbn. lia.
      * exists (l ++ [text]). split; [apply arrived_yes; [exact A|apply W; reflexivity]|].
        rewrite !flat_map_app, app_assoc, E. reflexivity.
    + split; rewrite ?FA, ?EA; try assumption; try reflexivity; try lia.
      * intros C p. rewrite KEEP. auto.
      * intros C p. rewrite KEEP. auto.
      * exists l. split; [|exact E]. apply arrived_no; [exact A|]. intros X. apply W in X. discriminate.
  - (* Get *)
    cbn in EA, FA.
    assert (KEEP : forall p, live p (effective false false evs ++ [Get]) <-> live p (effective false false evs)).
    { intros p. rewrite live_snoc. split; [intros [X|(X & _)]; [discriminate|exact X]|].
      intros X. right. split; [exact X|]. split; discriminate. }
    destruct (created c) eqn:C.
    2:{ injection St as <- <-. split; rewrite ?FA, ?EA, ?C; try assumption; try reflexivity; try discriminate; try lia.
        - intros _ p. rewrite KEEP. auto.
        - apply AR; [discriminate|reflexivity|reflexivity]. }
    unfold getNextMessage in St. rewrite Ir, Ie, Is in St.
    assert (NB : forall t, Get <> Bus t) by discriminate.
    destruct Ia as (l & A & E).
    destruct (queue c) as [|text q] eqn:Q.
    { injection St as <- <-. split; rewrite ?FA, ?EA, ?C, ?Q; try assumption; try reflexivity; try discriminate; try (cbn; lia).
      - intros _ p. rewrite KEEP. apply Isub. reflexivity.
      - rewrite Q in AR. apply AR; [exact NB|reflexivity|reflexivity]. }
    cbn [flat_map] in E.
    destruct (receive_short e s text) as [R|(m & R)]; rewrite R in St, E; injection St as <- <-;
      (split; cbn; rewrite ?FA, ?EA, ?C; try assumption; try reflexivity; try discriminate; try reflexivity;
       [ intros _ p; rewrite KEEP; apply Isub; reflexivity
       | cbn in Il; lia
       | exists l; split; [constructor; assumption|]; rewrite received_app; cbn; rewrite <- E, <- ?app_assoc; reflexivity ]).
Qed.

Lemma inv_run e s evs : no_late_clear false false evs ->
  inv e s evs (fst (run step (init e s) evs)) (sent (snd (run step (init e s) evs))).
Proof.
  induction evs as [|ev evs IH] using rev_ind; intros H; [apply inv_init|].
  apply no_late_app in H. destruct H as (H1 & H2). rewrite run_snoc. cbn [fst snd]. rewrite sent_snoc.
  specialize (IH H1).
  destruct (step (fst (run step (init e s) evs)) ev) as [c' o'] eqn:St. cbn [fst snd].
  apply (inv_step e s evs _ _ ev c' o' IH H2 St).
Qed.

(** Enough calls empty the queue. *)
Lemma gets_empty n : forall c, created c = true -> hung c = false -> recvd c = [] ->
  received (sent (snd (run step c (repeat Get n)))) ++ flat_map (receive (entity c) (service c)) (skipn n (queue c)) =
  flat_map (receive (entity c) (service c)) (queue c).
Proof.
  induction n as [|n IH]; intros c C H R; [reflexivity|].
  assert (F : forall s0 e0 evs0, run step s0 (e0 :: evs0) =
     (fst (run step (fst (step s0 e0)) evs0), (e0, snd (step s0 e0)) :: snd (run step (fst (step s0 e0)) evs0))).
  { intros s0 e0 evs0. induction evs0 as [|x evs0 IHe] using rev_ind; [unfold run; cbn; destruct (step s0 e0); reflexivity|].
    rewrite app_comm_cons, !run_snoc, IHe. reflexivity. }
  cbn [repeat]. rewrite F. cbn [snd]. unfold sent. cbn [flat_map snd].
  fold (sent (snd (run step (fst (step c Get)) (repeat Get n)))). rewrite received_app.
  assert (St : step c Get = let (c', o) := getNextMessage c in (c', [o])) by (unfold step; rewrite H, C; reflexivity).
  rewrite St. unfold getNextMessage. rewrite R.
  destruct (queue c) as [|text q] eqn:Q.
  - cbn [fst snd received app]. specialize (IH c C H R). rewrite Q in IH. destruct n; exact IH.
  - cbn [skipn flat_map]. destruct (receive_short (entity c) (service c) text) as [E|(m & E)]; rewrite E; cbn [fst snd received app].
    + apply (IH (set_queue c q [])); assumption || reflexivity.
    + f_equal. apply (IH (set_queue c q [])); assumption || reflexivity.
Qed.

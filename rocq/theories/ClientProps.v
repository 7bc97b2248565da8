(** Property C32: the thread of a client. *)
From Coq Require Import List ZArith Bool Lia.
From Verif Require Import Run ClientModel ClientSpec.
Import ListNotations.
Open Scope list_scope.
Open Scope Z_scope.

Lemma u32_add x y : u32 (u32 x + y) = u32 (x + y).
Proof. unfold u32. apply Zplus_mod_idemp_l. Qed.

Section Props.
  Context (k : config) (serialized : bool).

  Definition history (evs : list event) : trace := snd (run (cstep k serialized) Run evs).

  Definition state_of (evs : list event) : phase := fst (run (cstep k serialized) Run evs).

  Lemma attempts_snoc t e o n : attempts k serialized (t ++ [(e, o)]) n ->
    match e with
    | EvMsg m r => (n = 0 /\ listens k serialized t /\ stopping k serialized m r) \/ attempts k serialized t n
    | EvTry _ => attempts k serialized t (n - 1)
    end.
  Proof.
    intros H. remember (t ++ [(e, o)]) as tt eqn:E.
    destruct H as [a m r o' L St|t' m r o' n H|t' r o' n H]; apply app_inj_tail in E;
      destruct E as (-> & E); injection E as <- <-; auto.
    now replace (n + 1 - 1) with n by lia.
  Qed.

  Lemma taken_dec m : {taken k serialized m} + {~ taken k serialized m}.
  Proof.
    unfold taken. destruct (k_kill k); [|right; intros (H & _); discriminate].
    destruct m as [id|]; [|right; tauto]. destruct serialized; [left; auto|].
    destruct (Z.eq_dec id (k_id k)); [left; auto|right]. intros (_ & [H|H]); [discriminate|auto].
  Qed.

  (** One message in the running phase. *)
  Lemma handle_spec m r : exists s o, cstep k serialized Run (EvMsg m r) = (s, o) /\
    ((~ taken k serialized m -> handed o = [m]) /\ (taken k serialized m -> handed o = [])) /\
    ((s = Run /\ ~ stopping k serialized m r /\ ~ fatal k serialized m r /\ forall f, ~ In (OutExit f) o) \/
     (s = Term 0 /\ stopping k serialized m r /\ forall f, ~ In (OutExit f) o) \/
     (s = Gone /\ ~ stopping k serialized m r /\ fatal k serialized m r /\ In (OutExit false) o)).
  Proof.
    cbn [cstep]. unfold handleSerialized, handlePlain, stopping, fatal, taken.
    destruct serialized, (k_kill k) eqn:K, m as [id|x]; cbn [andb]; try destruct (Z.eqb_spec id (k_id k)) as [->|];
      destruct r; do 2 eexists; (split; [reflexivity|]); cbn; intuition (try congruence).
  Qed.

  Record inv (s : phase) (t : trace) : Prop := {
    i_run : s = Run <-> listens k serialized t;
    i_term : forall ms, s = Term ms ->
             exists n, 0 <= n /\ attempts k serialized t n /\ ms = u32 (n * k_period k) /\ ~ exited t;
    i_gone : s = Gone -> exited t;
    i_exit : exited t -> s = Gone;
    i_att : forall n, attempts k serialized t n -> ~ exited t -> s = Term (u32 (n * k_period k)) }.

  Lemma exited_snoc t e o : exited (t ++ [(e, o)]) <-> exited t \/ exists f, In (OutExit f) o.
  Proof.
    unfold exited. split.
    - intros (f & H). rewrite flat_map_app, in_app_iff in H. cbn in H. rewrite app_nil_r in H.
      destruct H; eauto.
    - intros [(f & H)|(f & H)]; exists f; rewrite flat_map_app, in_app_iff; cbn; rewrite app_nil_r; auto.
  Qed.

  Lemma listens_snoc t e o : listens k serialized (t ++ [(e, o)]) <->
    listens k serialized t /\
    match e with EvMsg m r => ~ stopping k serialized m r /\ ~ fatal k serialized m r | EvTry _ => True end.
  Proof.
    split.
    - intros H. split; [intros m r o' I; eapply H; apply in_or_app; left; eauto|].
      destruct e; auto. eapply H. apply in_or_app. right. now left.
    - intros (H1 & H2) m r o' I. apply in_app_or in I. destruct I as [I|[I|[]]]; [eapply H1; eauto|].
      injection I as -> _. exact H2.
  Qed.

  Lemma attempts_listens t n : attempts k serialized t n -> ~ listens k serialized t.
  Proof.
    intros H L. induction H; apply listens_snoc in L; [tauto|apply IHattempts; tauto..].
  Qed.

  Lemma inv_all evs : inv (state_of evs) (history evs).
  Proof.
    induction evs as [|e evs IH] using rev_ind.
    - split.
      + split; [intros _ m r o []|reflexivity].
      + discriminate.
      + discriminate.
      + intros (f & []).
      + intros n H. exfalso. remember (history []) as t eqn:E. cbn in E.
        destruct H; symmetry in E; now apply app_cons_not_nil in E.
    - destruct IH as [R T G X A]. unfold state_of, history in *.
      set (ev := run (cstep k serialized) Run evs) in *.
      assert (E1 : run (cstep k serialized) Run (evs ++ [e]) =
                   (fst (cstep k serialized (fst ev) e), snd ev ++ [(e, snd (cstep k serialized (fst ev) e))]))
        by apply run_snoc.
      rewrite E1. cbn [fst snd]. destruct ev as (s, t). cbn [fst snd] in *. clear E1.
      destruct s as [|ms|].
      + (* running *)
        assert (NX : ~ exited t) by (intros C; apply X in C; discriminate).
        assert (L : listens k serialized t) by now apply R.
        destruct e as [m r|r].
        * destruct (handle_spec m r) as (s' & o & E & _ & C). rewrite E. cbn [fst snd].
          assert (AT : forall n, attempts k serialized (t ++ [(EvMsg m r, o)]) n ->
                    n = 0 /\ stopping k serialized m r).
          { intros n H. apply attempts_snoc in H. destruct H as [(-> & _ & H)|H]; auto.
            now apply attempts_listens in H. }
          destruct C as [(-> & N1 & N2 & N3)|[(-> & St & N3)|(-> & N1 & Fa & I3)]].
          -- split; [|discriminate|discriminate|..].
             ++ rewrite listens_snoc. tauto.
             ++ intros C. apply exited_snoc in C. destruct C as [C|(f & C)]; [tauto|]. now apply N3 in C.
             ++ intros n H _. now destruct (AT n H).
          -- split; [| |discriminate| |]; rewrite ?listens_snoc.
             ++ split; [discriminate|tauto].
             ++ intros ms E0. injection E0 as <-. exists 0. split; [lia|]. split; [now apply attempts_stop|].
                split; [reflexivity|]. intros C. apply exited_snoc in C.
                destruct C as [C|(f & C)]; [tauto|]. now apply N3 in C.
             ++ intros C. apply exited_snoc in C. destruct C as [C|(f & C)]; [tauto|]. now apply N3 in C.
             ++ intros n H _. destruct (AT n H) as (-> & _). reflexivity.
          -- split; [|discriminate|..]; rewrite ?listens_snoc.
             ++ split; [discriminate|tauto].
             ++ intros _. apply exited_snoc. eauto.
             ++ reflexivity.
             ++ intros n H C. exfalso. apply C. apply exited_snoc. eauto.
        * cbn [cstep fst snd]. split; [|discriminate|discriminate|..].
          -- rewrite listens_snoc. tauto.
          -- intros C. apply exited_snoc in C. destruct C as [C|(f & [])]; tauto.
          -- intros n H _. apply attempts_snoc in H. now apply attempts_listens in H.
      + (* terminating *)
        destruct (T _ eq_refl) as (n & Nn & At & -> & NX).
        assert (NL : ~ listens k serialized t) by now apply attempts_listens in At.
        assert (U : forall n', attempts k serialized t n' -> u32 (n * k_period k) = u32 (n' * k_period k)).
        { intros n' H. specialize (A n' H NX). congruence. }
        destruct e as [m r|r].
        * cbn [cstep fst snd]. split; [| |discriminate| |].
          -- rewrite listens_snoc. split; [discriminate|tauto].
          -- intros ms E. injection E as <-. exists n. split; auto. split; [now apply attempts_msg|].
             split; auto. rewrite exited_snoc. intros [C|(f & [])]; tauto.
          -- rewrite exited_snoc. intros [C|(f & [])]; tauto.
          -- intros n' H _. apply attempts_snoc in H. destruct H as [(_ & H & _)|H]; [tauto|].
             f_equal. auto.
        * cbn [cstep]. unfold attempt. destruct r.
          -- set (ms := u32 (u32 (n * k_period k) + k_period k)).
             assert (Ms : ms = u32 ((n + 1) * k_period k)).
             { unfold ms. rewrite u32_add. f_equal. lia. }
             assert (AT : forall n' o, attempts k serialized (t ++ [(EvTry Again, o)]) n' ->
                       ms = u32 (n' * k_period k)).
             { intros n' o H. apply attempts_snoc in H. apply U in H. unfold ms. rewrite H, u32_add.
               f_equal. lia. }
             destruct (k_warn k <? ms); [|destruct (k_abort k <? ms)]; cbn [fst snd].
             ++ split; [| |discriminate| |].
                ** rewrite listens_snoc. split; [discriminate|tauto].
                ** intros ms' E. injection E as <-. exists (n + 1). split; [lia|].
                   split; [now apply attempts_try|]. split; auto.
                   rewrite exited_snoc. intros [C|(f & [C|[]])]; [tauto|discriminate].
                ** rewrite exited_snoc. intros [C|(f & [C|[]])]; [tauto|discriminate].
                ** intros n' H _. f_equal. eauto.
             ++ split; [|discriminate|..].
                ** rewrite listens_snoc. split; [discriminate|tauto].
                ** intros _. apply exited_snoc. right. exists serialized. right. now left.
                ** reflexivity.
                ** intros n' _ C. exfalso. apply C. apply exited_snoc. right. exists serialized. right. now left.
             ++ split; [| |discriminate| |].
                ** rewrite listens_snoc. split; [discriminate|tauto].
                ** intros ms' E. injection E as <-. exists (n + 1). split; [lia|].
                   split; [now apply attempts_try|]. split; auto.
                   rewrite exited_snoc. intros [C|(f & [])]; tauto.
                ** rewrite exited_snoc. intros [C|(f & [])]; tauto.
                ** intros n' H _. f_equal. eauto.
          -- cbn [fst snd]. split; [|discriminate|..].
             ++ rewrite listens_snoc. split; [discriminate|tauto].
             ++ intros _. apply exited_snoc. right. eexists. now left.
             ++ reflexivity.
             ++ intros n' _ C. exfalso. apply C. apply exited_snoc. right. eexists. now left.
          -- cbn [fst snd]. split; [|discriminate|..].
             ++ rewrite listens_snoc. split; [discriminate|tauto].
             ++ intros _. apply exited_snoc. right. eexists. now left.
             ++ reflexivity.
             ++ intros n' _ C. exfalso. apply C. apply exited_snoc. right. eexists. now left.
      + (* gone *)
        assert (NL : ~ listens k serialized t) by (intros C; apply R in C; discriminate).
        assert (E : cstep k serialized Gone e = (Gone, [])) by reflexivity. rewrite E. cbn [fst snd].
        split; [|discriminate|..].
        * rewrite listens_snoc. split; [discriminate|tauto].
        * intros _. apply exited_snoc. auto.
        * reflexivity.
        * intros n _ C. exfalso. apply C. apply exited_snoc. auto.
  Qed.

  Lemma history_split evs a e o b : history evs = a ++ (e, o) :: b ->
    exists evs', inv (state_of evs') a /\ history evs' = a /\ o = snd (cstep k serialized (state_of evs') e).
  Proof.
    intros H. apply run_split in H. destruct H as (s & R & _ & E). cbn [fst snd] in E.
    exists (map fst a). pose proof (inv_all (map fst a)) as I. unfold history, state_of in *.
    rewrite R in *. auto.
  Qed.

  (** While the client listens, exactly the messages that are not for the base class are handed
      to the subclass, each once, whatever the subclass does; afterwards none. *)
  Theorem C32_given evs a m r o b :
    history evs = a ++ (EvMsg m r, o) :: b ->
    (listens k serialized a /\ ~ taken k serialized m -> handed o = [m]) /\
    (~ (listens k serialized a /\ ~ taken k serialized m) -> handed o = []).
  Proof.
    intros H. destruct (history_split _ _ _ _ _ H) as (evs' & I & <- & ->).
    destruct (state_of evs') eqn:S.
    - pose proof (proj1 (i_run _ _ I) eq_refl) as L. destruct (handle_spec m r) as (s & o & E & (G & U) & _).
      rewrite E. cbn [snd]. split; [intros (_ & T); auto|]. intros N. apply U. destruct (taken_dec m); tauto.
    - cbn. split; [|reflexivity]. intros (L & _). apply I in L. congruence.
    - cbn. split; [|reflexivity]. intros (L & _). apply I in L. congruence.
  Qed.

  (** The subclass is asked to terminate only after the client was stopped. *)
  Theorem C32_exit evs a r o b f :
    history evs = a ++ (EvTry r, o) :: b -> In (OutExit f) o ->
    exists n, attempts k serialized a n /\ ~ exited a /\
      ((r = Yes /\ f = true) \/ (r = Throws /\ f = false) \/
       (r = Again /\ f = serialized /\ k_abort k < u32 ((n + 1) * k_period k) <= k_warn k)).
  Proof.
    intros H O. destruct (history_split _ _ _ _ _ H) as (evs' & I & <- & ->).
    destruct (state_of evs') as [|ms|] eqn:S; cbn [cstep snd] in O; try easy.
    destruct (i_term _ _ I _ eq_refl) as (n & Nn & At & -> & NX). exists n. split; auto. split; auto.
    unfold attempt in O. destruct r; cbn [snd] in O.
    - rewrite u32_add in O. replace (n * k_period k + k_period k) with ((n + 1) * k_period k) in O by lia.
      destruct (Z.ltb_spec (k_warn k) (u32 ((n + 1) * k_period k))).
      { cbn in O. destruct O as [O|[]]. discriminate. }
      destruct (Z.ltb_spec (k_abort k) (u32 ((n + 1) * k_period k))); cbn in O; [|easy].
      destruct O as [O|[O|[]]]; [discriminate|]. injection O as <-. right. right. repeat split; auto.
    - destruct O as [O|[]]. injection O as <-. auto.
    - destruct O as [O|[]]. injection O as <-. auto.
  Qed.

  (** And in these cases the thread ends. *)
  Theorem C32_ends evs a r o b n :
    history evs = a ++ (EvTry r, o) :: b -> attempts k serialized a n -> ~ exited a ->
    (r = Yes \/ r = Throws \/ (k_abort k < u32 ((n + 1) * k_period k) <= k_warn k)) ->
    exists f, In (OutExit f) o.
  Proof.
    intros H At NX C. destruct (history_split _ _ _ _ _ H) as (evs' & I & <- & ->).
    rewrite (i_att _ _ I n At NX). cbn [cstep]. unfold attempt.
    destruct r; cbn [snd]; [|exists true; now left|exists false; now left].
    destruct C as [C|[C|C]]; try discriminate.
    rewrite u32_add. replace (n * k_period k + k_period k) with ((n + 1) * k_period k) by lia.
    destruct (Z.ltb_spec (k_warn k) (u32 ((n + 1) * k_period k))); [lia|].
    destruct (Z.ltb_spec (k_abort k) (u32 ((n + 1) * k_period k))); [|lia].
    exists serialized. right. now left.
  Qed.

  (** As the abort time is not below the warning time, a client is never abandoned: however often
      the subclass has refused, the thread goes on until it agrees or throws. *)
  Theorem C32_patient evs a r o b n :
    k_warn k <= k_abort k ->
    history evs = a ++ (EvTry r, o) :: b -> attempts k serialized a n -> ~ exited a ->
    ((exists f, In (OutExit f) o) <-> r <> Again) /\
    (In (OutExit true) o <-> r = Yes).
  Proof.
    intros W H At NX.
    assert (K : forall f, In (OutExit f) o -> (r = Yes /\ f = true) \/ (r = Throws /\ f = false)).
    { intros f O. destruct (C32_exit _ _ _ _ _ _ H O) as (n' & _ & _ & [C|[C|(_ & _ & C)]]); auto. lia. }
    split; split.
    - intros (f & O). destruct (K f O) as [(-> & _)|(-> & _)]; discriminate.
    - intros N. apply (C32_ends _ _ _ _ _ n H At NX). destruct r; auto. congruence.
    - intros O. destruct (K _ O) as [(E & _)|(_ & E)]; [auto|discriminate].
    - intros ->. destruct (C32_ends _ _ _ _ _ n H At NX) as (f & O); auto.
      destruct (K f O) as [(_ & ->)|(E & _)]; [auto|discriminate].
  Qed.

  (** If the abort time is below the warning time and the window between them is at least a
      period wide, the client is abandoned once the abort time has passed. *)
  Theorem C32_abort evs a r o b n :
    0 < k_period k -> 0 <= k_abort k -> k_abort k + k_period k <= k_warn k ->
    k_warn k < 4294967296 ->
    history evs = a ++ (EvTry r, o) :: b -> attempts k serialized a n ->
    k_abort k < (n + 1) * k_period k -> exited a \/ exists f, In (OutExit f) o.
  Proof.
    intros Pp Pa W Ov H At Late.
    destruct (history_split _ _ _ _ _ H) as (evs' & I & HA & Oo).
    assert (K : forall t m, (exists evs', history evs' = t) -> attempts k serialized t m ->
                k_abort k < m * k_period k -> exited t).
    { clear - Pp Pa W Ov. intros t m (evs' & Ht) At. revert evs' Ht.
      induction At as [a m r o L St|t m r o n At IH|t r o n At IH]; intros evs' Ht Late; [lia|..].
      - apply exited_snoc. left. destruct (history_split _ _ _ _ _ Ht) as (e2 & _ & H2 & _). eauto.
      - apply exited_snoc. destruct (history_split _ _ _ _ _ Ht) as (e2 & I & H2 & Oo).
        destruct (Z_lt_dec (k_abort k) (n * k_period k)) as [Lt|Ge]; [left; eauto|].
        assert (D : {exited t} + {~ exited t}).
        { unfold exited. clear. destruct (existsb (fun o => match o with OutExit _ => true | _ => false end) (flat_map snd t)) eqn:X.
          - left. apply existsb_exists in X. destruct X as (q & Q1 & Q2). destruct q; try discriminate. eauto.
          - right. intros (f & H). rewrite <- not_true_iff_false in X. apply X. apply existsb_exists. eauto. }
        destruct D as [D|D]; [auto|]. right.
        eapply (C32_ends evs' t r o [] n); eauto. right. right.
        assert (0 <= n).
        { clear - At. induction At; lia. }
        unfold u32. rewrite Z.mod_small; nia. }
    assert (D : {exited a} + {~ exited a}).
    { unfold exited. clear. destruct (existsb (fun o => match o with OutExit _ => true | _ => false end) (flat_map snd a)) eqn:X.
      - left. apply existsb_exists in X. destruct X as (q & Q1 & Q2). destruct q; try discriminate. eauto.
      - right. intros (f & H). rewrite <- not_true_iff_false in X. apply X. apply existsb_exists. eauto. }
    destruct D as [D|D]; [auto|]. right.
    assert (Ge : n * k_period k <= k_abort k).
    { destruct (Z_lt_dec (k_abort k) (n * k_period k)); [|lia]. exfalso. apply D. eapply K; eauto. }
    assert (0 <= n) by (clear - At; induction At; lia).
    eapply (C32_ends evs a r o b n); eauto. right. right. unfold u32. rewrite Z.mod_small; nia.
  Qed.
End Props.

(** The durations of the code (LmcpObjectNetworkClientBase.h:510-512). *)
Definition defaults : config :=
  {| k_id := 5; k_kill := true; k_abort := 10000; k_warn := 3000; k_period := 500 |}.

(** The claim that a client is abandoned after some time is false with these: whatever number of
    attempts is allowed, there is a run with that many attempts that has not ended. *)
Theorem C32_refuted serialized n :
  let evs := EvMsg (Kill 5) Again :: repeat (EvTry Again) n in
  attempts defaults serialized (history defaults serialized evs) (Z.of_nat n) /\
  ~ exited (history defaults serialized evs).
Proof.
  cbv zeta.
  assert (K : forall n, exists ms, attempts defaults serialized (history defaults serialized (EvMsg (Kill 5) Again :: repeat (EvTry Again) n)) (Z.of_nat n) /\
    ~ exited (history defaults serialized (EvMsg (Kill 5) Again :: repeat (EvTry Again) n)) /\
    state_of defaults serialized (EvMsg (Kill 5) Again :: repeat (EvTry Again) n) = Term ms).
  { clear n. induction n as [|n (ms & A & N & St)].
    - exists 0. split; [|split].
      + assert (E : history defaults serialized (EvMsg (Kill 5) Again :: repeat (EvTry Again) 0) =
                    [] ++ [(EvMsg (Kill 5) Again, [])]) by (destruct serialized; reflexivity).
        rewrite E. apply attempts_stop; [intros ? ? ? []|]. left. auto.
      + intros (f & H). destruct serialized; vm_compute in H; tauto.
      + destruct serialized; reflexivity.
    - assert (E : repeat (EvTry Again) (Datatypes.S n) = repeat (EvTry Again) n ++ [EvTry Again]).
      { clear. induction n; cbn; [auto|]. now rewrite <- IHn. }
      rewrite E, app_comm_cons. unfold history, state_of in *. rewrite run_snoc. cbn [fst snd].
      rewrite St. cbn [cstep]. unfold attempt.
      set (ms' := u32 (ms + k_period defaults)).
      replace (Z.of_nat (Datatypes.S n)) with (Z.of_nat n + 1) by lia.
      exists ms'. destruct (Z.ltb_spec (k_warn defaults) ms') as [L|L].
      + split; [now apply attempts_try|]. split; [|reflexivity]. cbn [snd].
        rewrite exited_snoc. intros [C|(f & [C|[]])]; [tauto|discriminate].
      + destruct (Z.ltb_spec (k_abort defaults) ms') as [L'|L'].
        * exfalso. change (k_warn defaults) with 3000 in L. change (k_abort defaults) with 10000 in L'. lia.
        * split; [now apply attempts_try|]. split; [|reflexivity]. cbn [snd].
          rewrite exited_snoc. intros [C|(f & [])]; tauto. }
  destruct (K n) as (ms & A & N & _). auto.
Qed.

(** A plain client survives exceptions, is stopped by its own KillService and ends with its
    subclass; a serialized one drops KillService for others and dies of an exception. *)
Example plain_run :
  map snd (history defaults false
    [EvMsg (Other 1) Throws; EvMsg (Kill 4) Again; EvTry Yes; EvMsg (Kill 5) Again; EvMsg (Other 2) Again;
     EvTry Again; EvTry Yes; EvTry Yes]) =
  [[OutGiven (Other 1)]; [OutGiven (Kill 4)]; []; []; []; []; [OutExit true]; []].
Proof. vm_compute. reflexivity. Qed.

Example serialized_run :
  map snd (history defaults true
    [EvMsg (Other 1) Again; EvMsg (Kill 4) Again; EvMsg (Other 2) Throws; EvMsg (Other 3) Again]) =
  [[OutGiven (Other 1)]; []; [OutGiven (Other 2); OutExit false]; []].
Proof. vm_compute. reflexivity. Qed.

(** With the thresholds swapped the client is abandoned. *)
Definition swapped : config :=
  {| k_id := 5; k_kill := true; k_abort := 1000; k_warn := 3000; k_period := 500 |}.

Example abort_run : map snd (history swapped false (EvMsg (Other 1) Yes :: repeat (EvTry Again) 4)) =
  [[OutGiven (Other 1)]; []; []; [OutAbort 1500; OutExit false]; []].
Proof. vm_compute. reflexivity. Qed.

Print Assumptions C32_given.
Print Assumptions C32_exit.
Print Assumptions C32_ends.
Print Assumptions C32_patient.
Print Assumptions C32_abort.
Print Assumptions C32_refuted.

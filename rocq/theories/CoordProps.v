(** Property C39: the coordination of assignments. *)
From Coq Require Import List ZArith Bool Permutation Lia.
From Verif Require Import ZMap Run CoordModel CoordSpec CoordProofs.
Import ListNotations.
Open Scope list_scope.
Open Scope Z_scope.

Lemma times_app rid a b : times rid (a ++ b) = (times rid a + times rid b)%nat.
Proof. unfold times. rewrite filter_app, app_length. reflexivity. Qed.

Lemma times_zero rid o : (forall es b ps, ~ In (OutTask rid es b ps) o) -> times rid o = 0%nat.
Proof.
  intros H. unfold times. induction o as [|x o IH]; [reflexivity|]. cbn.
  destruct x as [|rid' es b ps|]; try (apply IH; intros es' b' ps' C; apply (H es' b' ps'); right; exact C).
  destruct (Z.eqb_spec rid' rid) as [->|N]; [exfalso; apply (H es b ps); left; reflexivity|].
  apply IH. intros es' b' ps' C. apply (H es' b' ps'). right. exact C.
Qed.

Lemma times_pos rid o : times rid o <> 0%nat -> forwarded rid o.
Proof.
  intros H. destruct (existsb (fun x => match x with OutTask rid' _ _ _ => rid' =? rid | _ => false end) o) eqn:E.
  - apply existsb_exists in E. destruct E as ([|rid' es b ps|] & I & E); try discriminate. apply Z.eqb_eq in E. subst. exists es, b, ps. exact I.
  - exfalso. apply H, times_zero. intros es b ps I. rewrite <- not_true_iff_false in E. apply E, existsb_exists.
    exists (OutTask rid es b ps). split; [exact I|apply Z.eqb_refl].
Qed.

Lemma forwarded_times rid o : forwarded rid o -> times rid o <> 0%nat.
Proof.
  intros (es & bd & ps & I). apply in_split in I. destruct I as (o1 & o2 & ->). rewrite times_app. unfold times. cbn.
  rewrite Z.eqb_refl. cbn. lia.
Qed.

Section Props.
  Context (me : Z) (ord : list pstate -> list pstate) (ord_perm : forall l, Permutation (ord l) l).
  Local Notation step := (step me ord).
  Definition history (evs : list event) : trace := snd (run step init evs).

  Lemma history_split evs a ev o b : proper me evs -> history evs = a ++ (ev, o) :: b ->
    exists s, inv me a s /\ step s ev = (fst (step s ev), o) /\ proper me (map fst a ++ [ev]) /\ inv me (a ++ [(ev, o)]) (fst (step s ev)).
  Proof.
    intros P H. assert (E : map fst (history evs) = evs) by apply run_events.
    assert (P2 : proper me (map fst a ++ [ev])).
    { apply (proper_prefix _ _ (map fst b)). rewrite <- app_assoc. cbn. rewrite <- E, H, map_app in P. exact P. }
    apply run_split in H. destruct H as (s & R & _ & O). cbn [fst snd] in *.
    assert (I : inv me a s).
    { pose proof (inv_run me ord ord_perm (map fst a)) as I. rewrite R in I. apply I, (proper_prefix _ _ _ P2). }
    assert (St : step s ev = (fst (step s ev), o)) by (rewrite O; apply surjective_pairing).
    exists s. split; [exact I|]. split; [exact St|]. split; [exact P2|].
    apply (inv_step me ord ord_perm a s); assumption.
  Qed.

  (** The outcome of a report or request about [rid], with the entry [x] it makes. *)
  Lemma about_spec evs a ev o b rid pre l : proper me evs -> history evs = a ++ (ev, o) :: b -> about rid ev -> since rid a pre l ->
    exists x o1, entry_ok me rid pre (l ++ [(ev, o)]) (Some x) /\
      (forall y, In y o1 -> match y with OutReport _ _ => True | _ => False end) /\
      ((exists ps, o = o1 ++ [OutTask rid (r_entities (e_request x)) (r_body (e_request x)) ps] /\
          Permutation ps (map snd (e_states x)) /\ rid = r_id (e_request x) /\
          forall e, In e (r_entities (e_request x)) -> zhas (e_states x) e = true) \/
       (o = o1 /\ ~ (rid = r_id (e_request x) /\ forall e, In e (r_entities (e_request x)) -> zhas (e_states x) e = true))).
  Proof.
    intros P H A S. destruct (history_split _ _ _ _ _ P H) as (s & I & St & P2 & _).
    destruct ev as [id w|rid' p|r now|rid' resp|now]; cbn in A; try contradiction; subst.
    - set (x := {| e_request := e_request (entry s rid); e_states := zset (e_states (entry s rid)) (p_entity p) p |}).
      exists x, []. split; [apply (report_entry me s a); assumption|]. split; [intros y []|].
      cbn [CoordModel.step] in St. unfold onReport in St. fold x in St. set (s1 := set_elems s _) in St.
      assert (G : zget (elems s1) rid = Some x) by apply zget_set_same.
      assert (O : o = snd (checkReady ord s1 rid)) by (rewrite St; reflexivity).
      destruct (check_spec ord ord_perm s1 rid x G) as [(ps & C & Q)|(C & Q)]; rewrite C in O; cbn [snd] in O.
      + left. exists ps. auto.
      + right. auto.
    - set (x := {| e_request := r; e_states := request_states me s (r_id r) |}).
      set (oo := match last s with Some w => [OutReport (r_id r) {| p_entity := me; p_where := w |}] | None => [] end).
      exists x, oo. split; [apply (request_entry me s a); assumption|].
      split; [intros y J; unfold oo in J; destruct (last s); [destruct J as [<-|[]]; exact Logic.I|destruct J]|].
      cbn [CoordModel.step] in St. unfold onRequest in St.
      set (s1 := {| last := last s; elems := zset (elems s) (r_id r) x; deadlines := insert (now + r_max r) (r_id r) (deadlines s) |}).
      assert (O : o = oo ++ snd (checkReady ord s1 (r_id r))).
      { apply (f_equal snd) in St. cbn [snd] in St. rewrite <- St. unfold s1, x, oo, request_states. destruct (last s) as [w|]; destruct (checkReady _ _ _); reflexivity. }
      assert (G : zget (elems s1) (r_id r) = Some x) by apply zget_set_same.
      destruct (check_spec ord ord_perm s1 (r_id r) x G) as [(ps & C & Q)|(C & Q)]; rewrite C in O; cbn [snd] in O.
      + left. exists ps. auto.
      + right. rewrite app_nil_r in O. auto.
  Qed.

  Lemma nonzero evs a ev o b rid : proper me evs -> history evs = a ++ (ev, o) :: b -> about rid ev -> rid <> 0.
  Proof.
    intros P H A C. subst rid. assert (E : map fst (history evs) = evs) by apply run_events.
    assert (I : In ev evs) by (rewrite <- E, H, map_app; apply in_or_app; right; left; reflexivity).
    destruct P as (_ & Z & Q & _). destruct ev as [id w|rid' p|r now|rid' resp|now]; cbn in A; try contradiction; subst.
    - exact (Q p I).
    - apply Z, in_ids. exists r, now. auto.
  Qed.

  (** What an entry says about the request. *)
  Lemma entry_request rid pre l x : rid <> 0 -> entry_ok me rid pre l (Some x) ->
    (forall r, asked rid l r -> e_request x = r) /\ (rid = r_id (e_request x) -> asked rid l (e_request x)).
  Proof.
    intros NZ (_ & H1 & H2 & _). split; [exact H1|]. intros E.
    destruct (existsb (fun y => match fst y with Request r _ => r_id r =? rid | _ => false end) l) eqn:X.
    - apply existsb_exists in X. destruct X as ((ev, o) & I & X). cbn in X. destruct ev as [ | |r now| | ]; try discriminate.
      apply Z.eqb_eq in X. assert (A : asked rid l r) by (exists now, o; auto). rewrite (H1 r A). exact A.
    - exfalso. rewrite H2 in E; [cbn in E; lia|]. intros r (now & o & I & R). rewrite <- not_true_iff_false in X. apply X, existsb_exists.
      exists (Request r now, o). split; [exact I|]. cbn. apply Z.eqb_eq, R.
  Qed.

  Lemma states_known rid pre l x e : entry_ok me rid pre l (Some x) ->
    zhas (e_states x) e = true <-> exists p, known me rid pre l p /\ p_entity p = e.
  Proof.
    intros (_ & _ & _ & _ & K). rewrite zhas_get. split; intros (p & H).
    - exists p. apply K in H. tauto.
    - exists p. apply K. tauto.
  Qed.

  (** C39: a report or request leads to the request being forwarded exactly when all its entities are
      then known; it is forwarded with its entities and with exactly the planning states known. *)
  Theorem C39_ready : forall evs a ev o b rid pre l,
    proper me evs -> history evs = a ++ (ev, o) :: b -> about rid ev -> since rid a pre l ->
    let l' := l ++ [(ev, o)] in
    (forall es body ps, In (OutTask rid es body ps) o -> exists r, asked rid l' r /\ es = r_entities r /\ body = r_body r /\
       exactly ps (known me rid pre l') /\ forall e, In e es -> exists p, known me rid pre l' p /\ p_entity p = e) /\
    (forall r, asked rid l' r -> (forall e, In e (r_entities r) -> exists p, known me rid pre l' p /\ p_entity p = e) ->
       times rid o = 1%nat) /\
    (forall rid', rid' <> rid -> times rid' o = 0%nat).
  Proof.
    intros evs a ev o b rid pre l P H A S l'. pose proof (nonzero _ _ _ _ _ _ P H A) as NZ.
    destruct (about_spec _ _ _ _ _ _ _ _ P H A S) as (x & o1 & EN & O1 & C). fold l' in EN.
    destruct (entry_request rid pre l' x NZ EN) as (R1 & R2).
    assert (T1 : forall k, times k o1 = 0%nat) by (intros k; apply times_zero; intros es bd ps J; exact (O1 _ J)).
    split; [|split].
    - intros es body ps I. destruct C as [(ps' & -> & Pm & E & F)|(-> & _)]; [|exfalso; exact (O1 _ I)].
      apply in_app_or in I. destruct I as [I|[I|[]]]; [exfalso; exact (O1 _ I)|]. injection I as <- <- <-.
      exists (e_request x). split; [apply R2, E|]. split; [reflexivity|]. split; [reflexivity|].
      split; [apply (exactly_states me rid pre l' x); assumption|]. intros e J. apply (states_known rid pre l' x e EN). apply F, J.
    - intros r R K. pose proof (R1 r R) as E. destruct C as [(ps' & -> & _)|(_ & N)].
      + rewrite times_app, T1. unfold times. cbn. rewrite Z.eqb_refl. reflexivity.
      + exfalso. apply N. rewrite E. split; [destruct R as (n & oo & _ & R); symmetry; exact R|].
        intros e J. apply (states_known rid pre l' x e EN). apply K, J.
    - intros rid' NE. destruct C as [(ps' & -> & _)|(-> & _)]; [|apply T1].
      rewrite times_app, T1. unfold times. cbn. destruct (Z.eqb_spec rid rid') as [C|_]; [congruence|reflexivity].
  Qed.

  (** C39: at the request this entity announces where it is, if it knows, and it announces nothing else. *)
  Theorem C39_announce : forall evs a ev o b rid p,
    proper me evs -> history evs = a ++ (ev, o) :: b ->
    In (OutReport rid p) o <->
    exists r now w, ev = Request r now /\ r_id r = rid /\ located me a w /\ p = {| p_entity := me; p_where := w |}.
  Proof.
    intros evs a ev o b rid p P H. destruct (history_split _ _ _ _ _ P H) as (s & I & St & P2 & _).
    assert (CH : forall s rid', ~ In (OutReport rid p) (snd (checkReady ord s rid'))).
    { intros s0 rid' J. unfold checkReady in J. destruct (zget (elems s0) rid'); [destruct (_ && _)|]; cbn in J; intuition discriminate. }
    destruct ev as [id w|rid' q|r now|rid' resp|now]; cbn [CoordModel.step] in St.
    - injection St as <-. split; [intros []|]. intros (r & n & w' & C & _). discriminate.
    - unfold onReport in St. apply (f_equal snd) in St. cbn [snd] in St. rewrite <- St. split; [intros J; exfalso; exact (CH _ _ J)|].
      intros (r & n & w' & C & _). discriminate.
    - unfold onRequest in St. apply (f_equal snd) in St. cbn [snd] in St. rewrite <- St. split.
      + intros J. destruct (last s) as [w|] eqn:L.
        * destruct (checkReady ord _ (r_id r)) as (sx, ox) eqn:E. cbn [snd] in J. destruct J as [[= <- <-]|J].
          -- exists r, now, w. split; [reflexivity|]. split; [reflexivity|]. split; [apply (i_last _ _ _ I), L|reflexivity].
          -- exfalso. eapply (CH _ (r_id r)). rewrite E. exact J.
        * destruct (checkReady ord _ (r_id r)) as (sx, ox) eqn:E. cbn [snd] in J. exfalso. eapply (CH _ (r_id r)). rewrite E. exact J.
      + intros (r' & n & w & [= <- <-] & <- & L & ->). apply (i_last _ _ _ I) in L. rewrite L.
        destruct (checkReady ord _ (r_id r)) as (sx, ox). left. reflexivity.
    - injection St as <-. split; [intros [C|[]]; discriminate|]. intros (r & n & w' & C & _). discriminate.
    - injection St as <-. split; [|intros (r & n & w' & C & _); discriminate]. intros J. apply in_flat_map in J.
      destruct J as (x & _ & J). unfold expire in J. destruct (zget (elems s) (snd x)); [destruct J as [C|[]]; discriminate|destruct J].
  Qed.

  Lemma tick_spec evs a now o b : proper me evs -> history evs = a ++ (Tick now, o) :: b ->
    exists s, inv me a s /\ o = flat_map (fun x => expire ord s (snd x)) (filter (fun x => fst x <? now) (deadlines s)).
  Proof.
    intros P H. destruct (history_split _ _ _ _ _ P H) as (s & I & St & _ & _). exists s. split; [exact I|].
    cbn [CoordModel.step] in St. injection St as <-. reflexivity.
  Qed.

  (** C39: when time has passed the deadline of a request, at the first look at the clock, whatever is known
      of it is forwarded: with the planning states known and only their entities. *)
  Theorem C39_deadline : forall evs a now o b,
    proper me evs -> history evs = a ++ (Tick now, o) :: b ->
    (forall rid es body ps, In (OutTask rid es body ps) o ->
       (exists r d, r_id r = rid /\ pending a r d /\ d < now) /\
       forall pre l, since rid a pre l ->
         (exists y, In y l /\ about rid (fst y)) /\ es = map p_entity ps /\ exactly ps (known me rid pre l) /\
         (forall r, asked rid l r -> body = r_body r) /\ ((forall r, ~ asked rid l r) -> body = None)) /\
    (forall r d pre l, pending a r d -> d < now -> since (r_id r) a pre l -> (exists y, In y l /\ about (r_id r) (fst y)) ->
       times (r_id r) o = 1%nat).
  Proof.
    intros evs a now o b P H. destruct (tick_spec _ _ _ _ _ P H) as (s & I & ->). split.
    - intros rid es body ps J. apply in_flat_map in J. destruct J as ((d, rid') & J & K). apply filter_In in J. destruct J as (J & L).
      cbn [fst snd] in *. unfold expire in K. destruct (zget (elems s) rid') as [x|] eqn:G; [|destruct K].
      destruct K as [K|[]]. injection K as <- <- <- <-. split.
      + apply (i_dead _ _ _ I) in J. destruct J as (r & R & Q). exists r, d. apply Z.ltb_lt in L. auto.
      + intros pre l S. pose proof (i_elem _ _ _ I _ _ _ S) as EN. rewrite G in EN. pose proof EN as (AB & R1 & R2 & _).
        split; [exact AB|]. split; [reflexivity|]. split; [apply (exactly_states me _ pre l x); [exact EN|apply ord_perm]|].
        split; [intros r A; rewrite (R1 r A); reflexivity|]. intros N. rewrite (R2 N). reflexivity.
    - intros r d pre l Q L S AB. pose proof (i_elem _ _ _ I _ _ _ S) as EN.
      destruct (zget (elems s) (r_id r)) as [x|] eqn:G; [|exfalso; destruct AB as (y & J & K); exact (EN y J K)].
      assert (J : In (d, r_id r) (filter (fun x => fst x <? now) (deadlines s))).
      { apply filter_In. split; [apply (i_dead _ _ _ I); exists r; auto|]. apply Z.ltb_lt. exact L. }
      assert (N : NoDup (map snd (filter (fun x => fst x <? now) (deadlines s)))) by apply NoDup_filter_map, (i_nodup _ _ _ I).
      revert J N. generalize (filter (fun x => fst x <? now) (deadlines s)). intros q. induction q as [|(d', k) q IH]; intros J N; [destruct J|].
      cbn [flat_map snd]. rewrite times_app. cbn in N. inversion N as [|? ? N1 N2]; subst. destruct J as [[= -> ->]|J].
      + replace (times (r_id r) (expire ord s (r_id r))) with 1%nat
          by (unfold expire; rewrite G; unfold times; cbn; rewrite Z.eqb_refl; reflexivity).
        replace (times (r_id r) (flat_map _ q)) with 0%nat; [reflexivity|]. symmetry. apply times_zero. intros es bd ps C.
        apply in_flat_map in C. destruct C as ((d', k) & C & K). apply N1. unfold expire in K. cbn [snd] in K.
        destruct (zget (elems s) k); [|destruct K]. destruct K as [K|[]]. injection K as -> _ _ _. apply in_map_iff. exists (d', r_id r). auto.
      + rewrite (IH J N2). assert (NE : k <> r_id r) by (intros ->; apply N1, in_map_iff; exists (d, r_id r); auto).
        replace (times (r_id r) (expire ord s k)) with 0%nat; [reflexivity|]. symmetry. apply times_zero. intros es bd ps C.
        unfold expire in C. destruct (zget (elems s) k); [|destruct C]. destruct C as [C|[]]. injection C as -> _ _ _. contradiction.
  Qed.

  (** Nothing is forwarded at other events. *)
  Theorem C39_only : forall evs a ev o b rid, proper me evs -> history evs = a ++ (ev, o) :: b -> forwarded rid o ->
    about rid ev \/ exists now, ev = Tick now.
  Proof.
    intros evs a ev o b rid P H (es & body & ps & J). destruct (history_split _ _ _ _ _ P H) as (s & I & St & _ & _).
    destruct ev as [id w|rid' q|r now|rid' resp|now]; cbn [CoordModel.step] in St; [| | | |right; eauto].
    - injection St as <-. destruct J.
    - left. cbn. unfold onReport in St. apply (f_equal snd) in St. cbn [snd] in St. rewrite <- St in J. unfold checkReady in J.
      destruct (zget _ rid'); [destruct (_ && _)|]; cbn in J; try contradiction. destruct J as [[= <- _ _ _]|[]]. reflexivity.
    - left. cbn. unfold onRequest in St. apply (f_equal snd) in St. cbn [snd] in St. rewrite <- St in J.
      destruct (last s); unfold checkReady in J; destruct (zget _ (r_id r)); [destruct (_ && _)| |destruct (_ && _)|]; cbn in J;
        repeat (destruct J as [J|J]; try discriminate; try (injection J as -> _ _ _; reflexivity)); contradiction.
    - injection St as <-. destruct J as [J|[]]. discriminate.
  Qed.

  (** No report about [rid] arrives after it was forwarded or answered. *)
  Definition calm (rid : Z) (t : trace) : Prop :=
    forall a ev o b p o', t = a ++ (ev, o) :: b -> (forwarded rid o \/ exists resp, ev = Response rid resp) -> ~ In (Report rid p, o') b.

  Lemma calm_prefix rid a x : calm rid (a ++ [x]) -> calm rid a.
  Proof.
    intros C a0 ev o b p o' E F I. apply (C a0 ev o (b ++ [x]) p o'); [rewrite E, <- app_assoc; reflexivity|exact F|]. apply in_or_app. auto.
  Qed.

  Lemma pending_unique t s r d r' d' : inv me t s -> pending t r d -> pending t r' d' -> r_id r = r_id r' -> d = d'.
  Proof.
    intros I Q Q' E. assert (J : In (d, r_id r) (deadlines s)) by (apply (i_dead _ _ _ I); eauto).
    assert (J' : In (d', r_id r) (deadlines s)) by (apply (i_dead _ _ _ I); eauto).
    pose proof (i_nodup _ _ _ I) as N. clear - J J' N. induction (deadlines s) as [|(x, k) l IH]; [destruct J|].
    cbn in N. inversion N as [|? ? N1 N2]; subst. destruct J as [[= -> ->]|J], J' as [[= ->]|J']; auto.
    - exfalso. apply N1, in_map_iff. exists (d', r_id r). auto.
    - exfalso. subst k. apply N1, in_map_iff. exists (d, r_id r). auto.
  Qed.

  Definition was_asked (rid : Z) (t : trace) : Prop := exists r now o, In (Request r now, o) t /\ r_id r = rid.

  Lemma once_inv evs rid : proper me evs -> calm rid (history evs) ->
    let t := history evs in
    times rid (sent t) = 0%nat \/
    (times rid (sent t) = 1%nat /\ was_asked rid t /\
     ((forall pre l, since rid t pre l -> forall y, In y l -> ~ about rid (fst y)) \/
      forall r d, r_id r = rid -> ~ pending t r d)).
  Proof.
    cbn zeta. induction evs as [|ev evs IH] using rev_ind; intros P C; [left; reflexivity|].
    assert (HS : history (evs ++ [ev]) = history evs ++ [(ev, snd (step (fst (run step init evs)) ev))]) by (unfold history; rewrite run_snoc; reflexivity).
    set (o := snd (step (fst (run step init evs)) ev)) in *. set (t := history evs) in *.
    assert (H0 : history (evs ++ [ev]) = t ++ (ev, o) :: []) by exact HS.
    specialize (IH (proper_prefix _ _ _ P)). rewrite HS in C |- *. specialize (IH (calm_prefix _ _ _ C)).
    rewrite sent_snoc, times_app.
    destruct (history_split _ _ _ _ _ P H0) as (s & I & St & P2 & I2).
    destruct (since_exists rid t) as (pre & l & S).
    (* a request or report about rid means it was neither forwarded nor answered before *)
    assert (AB : about rid ev -> times rid (sent t) = 0%nat).
    { intros A. destruct IH as [E|(E & (r & n & oo & J & R) & _)]; [exact E|exfalso].
      destruct ev as [id w|rid' p|r' n'|rid' resp|n']; cbn in A; try contradiction.
      - subst rid'. assert (F : forwarded rid (sent t)) by (apply times_pos; rewrite E; discriminate).
        destruct F as (es & bd & ps & F). apply in_sent in F. destruct F as (a & e & oe & b & Et & F).
        apply (C a e oe (b ++ [(Report rid p, o)]) p o); [rewrite Et, <- app_assoc; reflexivity|left; exists es, bd, ps; exact F|].
        apply in_or_app. right. left. reflexivity.
      - destruct (proper_fresh _ _ _ _ P2) as (F & _). apply F, in_ids. exists r, n. split; [|congruence].
        apply in_map_iff. exists (Request r n, oo). auto. }
    destruct (times rid o) as [|k] eqn:T.
    - (* not forwarded now *)
      rewrite Nat.add_0_r. destruct IH as [E|(E & (r & n & oo & J & R) & K)]; [left; exact E|right].
      assert (NA : ~ about rid ev) by (intros A; specialize (AB A); congruence).
      split; [exact E|]. split; [exists r, n, oo; split; [apply in_or_app; auto|exact R]|].
      destruct K as [K|K]; [left|right].
      + intros pre' l' S'. apply since_snoc in S'. destruct S' as [(_ & _ & ->)|(_ & l0 & -> & S')]; [intros y []|].
        intros y Y. apply in_app_or in Y. destruct Y as [Y|[<-|[]]]; [exact (K _ _ S' y Y)|exact NA].
      + intros r' d R' Q. apply pending_snoc in Q. cbn [fst] in Q. destruct Q as [(n' & -> & _)|(Q & _)]; [|exact (K _ _ R' Q)].
        apply NA. cbn. exact R'.
    - (* forwarded now *)
      assert (F : forwarded rid o) by (apply times_pos; rewrite T; discriminate).
      destruct (C39_only _ _ _ _ _ _ P H0 F) as [A|(now & ->)].
      + right. rewrite (AB A). destruct (about_spec _ _ _ _ _ _ _ _ P H0 A S) as (x & o1 & EN & O1 & X).
        pose proof (nonzero _ _ _ _ _ _ P H0 A) as NZ.
        assert (T1 : times rid o1 = 0%nat) by (apply times_zero; intros es bd ps J; exact (O1 _ J)).
        destruct X as [(ps & X & Pm & E & _)|(-> & _)]; [|congruence]. split; [|split].
        * rewrite <- T, X, times_app, T1. unfold times. cbn. rewrite Z.eqb_refl. reflexivity.
        * destruct (entry_request rid pre _ x NZ EN) as (_ & R2). destruct (R2 E) as (n & oo & J & R). exists (e_request x), n, oo.
          split; [|exact R]. destruct S as (-> & _). rewrite <- app_assoc. apply in_or_app. right. exact J.
        * left. intros pre' l' S'. apply since_snoc in S'. destruct S' as [(_ & _ & ->)|(N & _)]; [intros y []|].
          exfalso. apply N. destruct ev; cbn in A; try contradiction; exact F.
      + destruct (C39_deadline _ _ _ _ _ P H0) as (D1 & D2). destruct F as (es & bd & ps & F).
        destruct (D1 _ _ _ _ F) as ((r & d & R & Q & L) & D3). destruct (D3 pre l S) as (Y & _).
        subst rid. pose proof (D2 r d pre l Q L S Y) as T1.
        assert (Z0 : times (r_id r) (sent t) = 0%nat).
        { destruct IH as [E|(E & _ & [K|K])]; [exact E|exfalso..].
          - destruct Y as (y & Y1 & Y2). exact (K pre l S y Y1 Y2).
          - exact (K r d eq_refl Q). }
        right. split; [rewrite Z0, <- T, T1; reflexivity|]. split.
        * destruct Q as (a & n & oo & b & Et & _). exists r, n, oo. split; [|reflexivity]. rewrite Et. apply in_or_app. left.
          apply in_or_app. right. left. reflexivity.
        * right. intros r' d' R' Q'. apply pending_snoc in Q'. cbn [fst] in Q'. destruct Q' as [(n' & X & _)|(Q' & N)]; [discriminate|].
          specialize (N now eq_refl). assert (d = d') by (apply (pending_unique t s r d r' d' I Q Q'); auto). lia.
  Qed.

  (** C39: a request is forwarded at most once, if no reports about it arrive after that. *)
  Theorem C39_once : forall evs rid, proper me evs -> calm rid (history evs) -> (times rid (sent (history evs)) <= 1)%nat.
  Proof. intros evs rid P C. destruct (once_inv evs rid P C) as [E|(E & _)]; cbn zeta in E; rewrite E; lia. Qed.

  (** C39: and it is forwarded exactly once after its deadline was noticed, if it was not answered by someone else. *)
  Theorem C39_exactly_once : forall evs a r now o b n o',
    proper me evs -> calm (r_id r) (history evs) ->
    history evs = a ++ (Request r now, o) :: b -> In (Tick n, o') b -> now + r_max r < n ->
    (forall resp, ~ In (Response (r_id r) resp) evs) ->
    times (r_id r) (sent (history evs)) = 1%nat.
  Proof.
    intros evs a r now o b n o' P C H T L NR.
    assert (K : forall b' b'', b = b' ++ b'' ->
       let t := a ++ (Request r now, o) :: b' in
       (pending t r (now + r_max r) /\ forall m om, In (Tick m, om) b' -> m <= now + r_max r) \/ (1 <= times (r_id r) (sent t))%nat).
    { induction b' as [|x b' IH] using rev_ind; intros b'' E; cbn zeta.
      - left. split; [|intros ? ? []]. exists a, now, o, []. split; [reflexivity|]. split; [reflexivity|]. intros ? ? [].
      - specialize (IH (x :: b'')). rewrite E, <- app_assoc in IH. specialize (IH eq_refl). cbn zeta in IH.
        assert (TX : a ++ (Request r now, o) :: b' ++ [x] = (a ++ (Request r now, o) :: b') ++ [x]) by (rewrite <- app_assoc; reflexivity).
        rewrite TX. set (t := a ++ (Request r now, o) :: b') in *. destruct x as [ev ox]. rewrite sent_snoc, times_app.
        destruct IH as [(Q & M)|G]; [|right; lia].
        destruct (Nat.eq_dec (times (r_id r) (sent t)) 0) as [Z0|NZ]; [|right; lia].
        assert (HT : history evs = t ++ (ev, ox) :: b'') by (rewrite H, E; unfold t; rewrite <- !app_assoc; reflexivity).
        assert (CASE : (forall m, ev = Tick m -> m <= now + r_max r) \/ exists m, ev = Tick m /\ now + r_max r < m).
        { destruct ev as [id w|rid' p|r' n'|rid' resp|m]; try (left; intros m C'; discriminate).
          destruct (Z_le_gt_dec m (now + r_max r)); [left; intros m' [= <-]; assumption|right; exists m; split; [reflexivity|lia]]. }
        destruct CASE as [N|(m & -> & Lm)].
        + left. split; [apply pending_snoc; right; auto|]. intros m om J. apply in_app_or in J. destruct J as [J|[[= -> ->]|[]]]; [exact (M _ _ J)|].
          apply N. reflexivity.
        + right. destruct (C39_deadline _ _ _ _ _ P HT) as (_ & D2). destruct (since_exists (r_id r) t) as (pre & l & S).
          assert (PN : pre = []).
          { destruct S as (Et & Sp & _). destruct Sp as [Sp|(p & y & Sp & Cl)]; [exact Sp|exfalso].
            destruct y as [ey oy]. destruct ey as [id w|rid' p'|r' n'|rid' resp|m']; cbn in Cl; try contradiction.
            - apply forwarded_times in Cl. unfold times in Cl. rewrite Et, Sp, !sent_app, !times_app in Z0. cbn in Z0. rewrite app_nil_r in Z0. lia.
            - apply forwarded_times in Cl. unfold times in Cl. rewrite Et, Sp, !sent_app, !times_app in Z0. cbn in Z0. rewrite app_nil_r in Z0. lia.
            - subst rid'. apply (NR resp). pose proof (run_events step init evs) as RE. fold (history evs) in RE. rewrite <- RE, HT, Et, Sp.
              rewrite !map_app. apply in_or_app. left. apply in_or_app. left. apply in_or_app. right. left. reflexivity. }
          assert (T1 : times (r_id r) ox = 1%nat).
          { apply (D2 r (now + r_max r) pre l Q Lm S). exists (Request r now, o). split; [|reflexivity]. destruct S as (Et & _). rewrite PN in Et. cbn in Et.
            rewrite <- Et. unfold t. apply in_or_app. right. left. reflexivity. }
          lia. }
    specialize (K b [] (eq_sym (app_nil_r b))). cbn zeta in K. rewrite <- H in K.
    pose proof (C39_once evs (r_id r) P C). destruct K as [(_ & M)|G]; [|lia]. specialize (M _ _ T). lia.
  Qed.
End Props.
Print Assumptions C39_ready.
Print Assumptions C39_announce.
Print Assumptions C39_deadline.
Print Assumptions C39_only.
Print Assumptions C39_once.
Print Assumptions C39_exactly_once.

(** ** Cases *)
Definition ask (id : Z) : request := {| r_id := id; r_entities := [1; 2]; r_body := Some 5; r_max := 100 |}.
Definition at_ (e w : Z) : pstate := {| p_entity := e; p_where := w |}.

Definition case_complete : list event :=
  [VehicleState 1 77; Report 9 (at_ 2 50); VehicleState 1 78; Request (ask 8) 1000; Request (ask 9) 1000; Report 8 (at_ 3 60); Tick 1100; Tick 1101].
Example case_complete_proper : proper 1 case_complete /\
  map snd (history 1 (fun l => l) case_complete) =
  [[]; []; []; [OutReport 8 (at_ 1 78)];
   [OutReport 9 (at_ 1 78); OutTask 9 [1; 2] (Some 5) [at_ 1 78; at_ 2 50]]; []; [];
   [OutTask 8 [3; 1] (Some 5) [at_ 3 60; at_ 1 78]]].
Proof.
  split; [|vm_compute; reflexivity]. split; [repeat constructor; cbn; lia|]. split; [cbn; lia|]. split; [cbn; intuition discriminate|].
  cbn. intros rid p H. repeat (destruct H as [H|H]; try discriminate; try (injection H as <- <-; cbn; lia)). contradiction.
Qed.

(** C39: after the deadline the request is kept, so that a late report has it forwarded a second time. *)
Theorem C39_twice_refuted : exists evs, proper 1 evs /\ times 9 (sent (history 1 (fun l => l) evs)) = 2%nat.
Proof.
  exists [VehicleState 1 77; Request (ask 9) 1000; Tick 1101; Report 9 (at_ 2 50)]. split; [|vm_compute; reflexivity].
  split; [repeat constructor; cbn; lia|]. split; [cbn; lia|]. split; [cbn; intuition discriminate|].
  cbn. intros rid p H. repeat (destruct H as [H|H]; try discriminate; try (injection H as <- <-; cbn; lia)). contradiction.
Qed.
Print Assumptions C39_twice_refuted.

(** C39: a report that comes after the request was forwarded and before its deadline makes the coordinator
    forward an empty request under the same id at the deadline. *)
Theorem C39_empty_refuted : exists evs, proper 1 evs /\
  sent (history 1 (fun l => l) evs) =
    [OutReport 9 (at_ 1 77); OutTask 9 [1; 2] (Some 5) [at_ 2 50; at_ 1 77]; OutTask 9 [2] None [at_ 2 51]].
Proof.
  exists [VehicleState 1 77; Request (ask 9) 1000; Report 9 (at_ 2 50); Report 9 (at_ 2 51); Tick 1101]. split; [|vm_compute; reflexivity].
  split; [repeat constructor; cbn; lia|]. split; [cbn; lia|]. split; [cbn; intuition discriminate|].
  cbn. intros rid p H. repeat (destruct H as [H|H]; try discriminate; try (injection H as <- <-; cbn; lia)). contradiction.
Qed.
Print Assumptions C39_empty_refuted.

(** C39: a report with request id 0 has a request forwarded that no one made. *)
Theorem C39_zero_refuted : forall me p ord, (forall l, Permutation (ord l) l) ->
  sent (history me ord [Report 0 p]) = [OutTask 0 [] None [p]].
Proof.
  intros me p ord OP. unfold history. cbn. f_equal. f_equal. pose proof (OP [p]) as Q. apply Permutation_sym, Permutation_length_1_inv in Q. exact Q.
Qed.
Print Assumptions C39_zero_refuted.

Example case_calm : calm 8 (history 1 (fun l => l) case_complete).
Proof.
  intros a ev o b p o' E F I. symmetry in E. revert E. generalize (eq_refl (history 1 (fun l => l) case_complete)).
  generalize (history 1 (fun l => l) case_complete) at 1 3. intros h Hh E. vm_compute in Hh. subst h. symmetry in E.
  Ltac one E F I := injection E as <- <- <-; cbn in I;
    first [ exfalso; repeat (destruct I as [I|I]; [discriminate|]); exact I
          | destruct F as [(es & bd & ps & F)|(resp & F)]; [|discriminate]; cbn in F; repeat (destruct F as [F|F]; [discriminate|]); exact F].
  destruct a as [|x a]; [one E F I|injection E as _ E].
  destruct a as [|x1 a]; [one E F I|injection E as _ E].
  destruct a as [|x2 a]; [one E F I|injection E as _ E].
  destruct a as [|x3 a]; [one E F I|injection E as _ E].
  destruct a as [|x4 a]; [one E F I|injection E as _ E].
  destruct a as [|x5 a]; [one E F I|injection E as _ E].
  destruct a as [|x6 a]; [one E F I|injection E as _ E].
  destruct a as [|x7 a]; [one E F I|injection E as _ E].
  destruct a; discriminate E.
Qed.

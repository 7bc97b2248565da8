(** C77: when the vehicles of a rendezvous are taken to arrive. *)
From Coq Require Import List ZArith Bool Lia Permutation.
From Verif Require Import ZMap RvTimeModel RvTimeSpec.
Import ListNotations.
Open Scope list_scope.
Open Scope Z_scope.

Lemma snoc_split {A} (h : list A) e h1 x h2 : h ++ [e] = h1 ++ x :: h2 ->
  h2 = [] /\ h1 = h /\ x = e \/ exists h3, h2 = h3 ++ [e] /\ h = h1 ++ x :: h3.
Proof.
  intros H. destruct (exists_last (l := x :: h2)) as (l & y & L); [discriminate|]. rewrite L, app_assoc in H. apply app_inj_tail in H. destruct H as (-> & ->).
  destruct l as [|x' l]; cbn in L; injection L as -> ->; [left; rewrite app_nil_r; auto|right; exists l; auto].
Qed.

Section Times.
  Context (task r : Z).
  Notation tells := (tells task r). Notation own := (own task r). Notation told := (told task r).
  Notation known := (known r). Notation priced := (priced r). Notation assumes := (assumes r). Notation assumed := (assumed r).
  Notation starts_at := (starts_at task r).

  Lemma own_tells v e : own v e -> exists t, tells v e t.
  Proof. intros (t & ->). exists t. left. eauto. Qed.
  Lemma tells_fun v e t t' : tells v e t -> tells v e t' -> t = t'.
  Proof. intros [(k & ->)|(k & -> & _)] [(k' & E)|(k' & E & _)]; congruence. Qed.
  Lemma tells_dec v e : (exists t, tells v e t) \/ forall t, ~ tells v e t.
  Proof.
    destruct e as [? ?|? ?|q u k x|q u k x|?]; try (right; intros t [(? & E)|(? & E & _)]; discriminate).
    - destruct (Z.eq_dec q r) as [->|]; [|right; intros t [(? & E)|(? & E & _)]; congruence].
      destruct (Z.eq_dec u v) as [->|]; [|right; intros t [(? & E)|(? & E & _)]; congruence]. left. exists x. left. eauto.
    - destruct (Z.eq_dec q r) as [->|]; [|right; intros t [(? & E)|(? & E & _)]; congruence].
      destruct (Z.eq_dec u v) as [->|]; [|right; intros t [(? & E)|(? & E & _)]; congruence].
      destruct (Z.eq_dec k task) as [->|]; [right; intros t [(? & E)|(? & E & K)]; [congruence|apply K; congruence]|]. left. exists x. right. eauto.
  Qed.

  Lemma own_dec v e : own v e \/ ~ own v e.
  Proof.
    destruct e as [? ?|? ?|q u k x|q u k x|?]; try (right; intros (? & E); discriminate).
    destruct (Z.eq_dec q r) as [->|]; [|right; intros (? & E); congruence]. destruct (Z.eq_dec u v) as [->|]; [|right; intros (? & E); congruence].
    destruct (Z.eq_dec k task) as [->|]; [left; eexists; reflexivity|right; intros (? & E); congruence].
  Qed.
  Lemma own_in_dec v h : (exists e, In e h /\ own v e) \/ forall e, In e h -> ~ own v e.
  Proof.
    induction h as [|e h [(x & I & O)|IH]]; [right; intros ? []|left; exists x; split; [right; exact I|exact O]|].
    destruct (own_dec v e) as [O|O]; [left; exists e; split; [left; reflexivity|exact O]|right; intros x [<-|X]; auto].
  Qed.
  Lemma told_after_own v h e t : (exists e', In e' h /\ own v e') -> (told v (h ++ [e]) t <-> told v h t).
  Proof.
    intros (e' & I & O). split; intros (h1 & x & h2 & E & T & N & L).
    - apply snoc_split in E. destruct E as [(-> & -> & ->)|(h3 & -> & ->)]; [exfalso; exact (N _ I O)|].
      exists h1, x, h3. split; [reflexivity|]. split; [exact T|]. split; [exact N|]. destruct L as [L|L]; [left; exact L|right].
      intros y t' Y. apply L. apply in_or_app. left. exact Y.
    - exists h1, x, (h2 ++ [e]). split; [rewrite E, <- app_assoc; reflexivity|]. split; [exact T|]. split; [exact N|]. left.
      destruct (own_dec v x) as [X|X]; [exact X|]. exfalso. destruct L as [L|L]; [contradiction|]. rewrite E in I. apply in_app_iff in I. destruct I as [I|[->|I]].
      + exact (N _ I O).
      + contradiction.
      + destruct (own_tells v e' O) as (t0 & T0). exact (L _ _ I T0).
  Qed.
  Lemma told_new v h e t t' : (forall e', In e' h -> ~ own v e') -> tells v e t' -> (told v (h ++ [e]) t <-> t = t').
  Proof.
    intros N T'. split.
    - intros (h1 & x & h2 & E & T & _ & L). apply snoc_split in E. destruct E as [(-> & -> & ->)|(h3 & -> & ->)]; [eapply tells_fun; eassumption|].
      exfalso. destruct L as [L|L]; [apply (N x); [apply in_or_app; right; left; reflexivity|exact L]|].
      apply (L e t'); [apply in_or_app; right; left; reflexivity|exact T'].
    - intros ->. exists h, e, []. split; [reflexivity|]. split; [exact T'|]. split; [exact N|]. right. intros ? ? [].
  Qed.
  Lemma told_other v h e t : (forall t', ~ tells v e t') -> (told v (h ++ [e]) t <-> told v h t).
  Proof.
    intros N. split; intros (h1 & x & h2 & E & T & NO & L).
    - apply snoc_split in E. destruct E as [(-> & -> & ->)|(h3 & -> & ->)]; [exfalso; exact (N _ T)|].
      exists h1, x, h3. split; [reflexivity|]. split; [exact T|]. split; [exact NO|]. destruct L as [L|L]; [left; exact L|right].
      intros y t' Y. apply L. apply in_or_app. left. exact Y.
    - exists h1, x, (h2 ++ [e]). split; [rewrite E, <- app_assoc; reflexivity|]. split; [exact T|]. split; [exact NO|]. destruct L as [L|L]; [left; exact L|right].
      intros y t' Y. apply in_app_iff in Y. destruct Y as [Y|[<-|[]]]; auto.
  Qed.
  Lemma told_or_silent v h : (exists t, told v h t) \/ forall e t, In e h -> ~ tells v e t.
  Proof.
    induction h as [|e h IH] using rev_ind; [right; intros ? ? []|]. destruct (own_in_dec v h) as [O|O].
    - destruct IH as [(t & T)|S].
      + left. exists t. apply told_after_own; assumption.
      + exfalso. destruct O as (x & X & O). destruct (own_tells v x O) as (t & T). exact (S _ _ X T).
    - destruct (tells_dec v e) as [(t & T)|N]; [left; exists t; apply (told_new v h e t t O T); reflexivity|].
      destruct IH as [(t & T)|S]; [left; exists t; apply told_other; assumption|right].
      intros x t X. apply in_app_iff in X. destruct X as [X|[<-|[]]]; auto.
  Qed.
  Lemma told_silent v h t : told v h t -> ~ forall e t', In e h -> ~ tells v e t'.
  Proof. intros (h1 & e & h2 & -> & T & _) S. apply (S e t); [apply in_or_app; right; left; reflexivity|exact T]. Qed.

  (** *** Assignments *)
  Lemma known_snoc h e l : known (h ++ [e]) l <-> match e with Summary q l' => if q =? r then l = l' else known h l | _ => known h l end.
  Proof.
    assert (G : (forall l', e <> Summary r l') -> (known (h ++ [e]) l <-> known h l)).
    { intros NE. split; intros (h1 & h2 & E & N).
      - apply snoc_split in E. destruct E as [(_ & _ & E)|(h3 & -> & ->)]; [exfalso; apply (NE l); congruence|].
        exists h1, h3. split; [reflexivity|]. intros l' I. apply (N l'). apply in_or_app. left. exact I.
      - exists h1, (h2 ++ [e]). split; [rewrite E, <- app_assoc; reflexivity|]. intros l' I. apply in_app_iff in I. destruct I as [I|[I|[]]]; [exact (N _ I)|exact (NE _ I)]. }
    destruct e as [q l'| | | |]; try (apply G; intros; discriminate). destruct (Z.eqb_spec q r) as [->|Q]; [|apply G; intros; congruence]. split.
    - intros (h1 & h2 & E & N). apply snoc_split in E. destruct E as [(_ & _ & E)|(h3 & -> & ->)]; [congruence|]. exfalso. apply (N l'). apply in_or_app. right. left. reflexivity.
    - intros ->. exists h, []. split; [reflexivity|]. intros ? [].
  Qed.
  Lemma priced_snoc h e l : priced (h ++ [e]) l <-> match e with Matrix q l' => if q =? r then l = l' else priced h l | _ => priced h l end.
  Proof.
    assert (G : (forall l', e <> Matrix r l') -> (priced (h ++ [e]) l <-> priced h l)).
    { intros NE. split; intros (h1 & h2 & E & N).
      - apply snoc_split in E. destruct E as [(_ & _ & E)|(h3 & -> & ->)]; [exfalso; apply (NE l); congruence|].
        exists h1, h3. split; [reflexivity|]. intros l' I. apply (N l'). apply in_or_app. left. exact I.
      - exists h1, (h2 ++ [e]). split; [rewrite E, <- app_assoc; reflexivity|]. intros l' I. apply in_app_iff in I. destruct I as [I|[I|[]]]; [exact (N _ I)|exact (NE _ I)]. }
    destruct e as [|q l'| | |]; try (apply G; intros; discriminate). destruct (Z.eqb_spec q r) as [->|Q]; [|apply G; intros; congruence]. split.
    - intros (h1 & h2 & E & N). apply snoc_split in E. destruct E as [(_ & _ & E)|(h3 & -> & ->)]; [congruence|]. exfalso. apply (N l'). apply in_or_app. right. left. reflexivity.
    - intros ->. exists h, []. split; [reflexivity|]. intros ? [].
  Qed.
  Lemma assumed_old v h e t : assumed v h t -> assumed v (h ++ [e]) t.
  Proof. intros (h1 & x & h2 & -> & A & F). exists h1, x, (h2 ++ [e]). split; [rewrite <- app_assoc; reflexivity|]. split; [exact A|exact F]. Qed.
  Lemma assumed_snoc v h e t : assumed v (h ++ [e]) t -> assumed v h t \/ assumes v h e t /\ forall t', ~ assumed v h t'.
  Proof.
    intros (h1 & x & h2 & E & A & F). apply snoc_split in E. destruct E as [(-> & -> & ->)|(h3 & -> & ->)]; [right|left; exists h1, x, h3; auto].
    split; [exact A|]. intros t' (a & y & b & -> & Y & _). exact (F a y b t' eq_refl Y).
  Qed.
  Lemma assumed_none v h : (exists t, assumed v h t) \/ forall h3 e h4 t, h = h3 ++ e :: h4 -> ~ assumes v h3 e t.
  Proof.
    induction h as [|e h IH] using rev_ind; [right; intros [|] ? ? ? E; discriminate|]. destruct IH as [(t & A)|F]; [left; exists t; apply assumed_old, A|].
    assert (K : forall h, (exists l, known h l) \/ forall l, ~ known h l).
    { intros g. induction g as [|x g IHg] using rev_ind; [right; intros l ([|] & ? & E & _); discriminate|].
      destruct x as [q l0|q l0|q a b c|q a b c|q]; try (destruct IHg as [(l & L)|N]; [left; exists l; apply known_snoc, L|right; intros l L; apply known_snoc in L; exact (N _ L)]).
      destruct (Z.eqb_spec q r) as [->|Q].
      - left. exists l0. apply known_snoc. rewrite Z.eqb_refl. reflexivity.
      - destruct (Z.eqb_spec q r) as [|_] in *; [contradiction|]. destruct IHg as [(l & L)|N]; [left; exists l; apply known_snoc|right; intros l L; apply known_snoc in L];
          destruct (Z.eqb_spec q r); try contradiction; [exact L|exact (N _ L)]. }
    assert (KF : forall h l l', known h l -> known h l' -> l = l').
    { intros g. induction g as [|x g IHg] using rev_ind; intros l l' L L'; [destruct L as ([|] & ? & E & _); discriminate|].
      apply known_snoc in L, L'. destruct x as [q l0|q l0|q a b c|q a b c|q]; eauto. destruct (q =? r); [congruence|eauto]. }
    assert (D : (exists t, assumes v h e t) \/ forall t, ~ assumes v h e t).
    { destruct e as [q1 x1|q2 x2|q u k x|q3 x3 x4 x5|q6]; try (right; intros t (? & ? & ? & E & _); discriminate).
      destruct (Z.eq_dec q r) as [->|]; [|right; intros t (? & ? & ? & E & _); congruence]. destruct (K h) as [(l & L)|N]; [|right; intros t (? & ? & l & _ & L & _); exact (N _ L)].
      destruct (in_dec Z.eq_dec v (map a_vehicle l)) as [I|I]; [left; exists x, u, k, l; split; [reflexivity|split; assumption]|right; intros t (? & ? & l2 & _ & L2 & I2); rewrite (KF h l l2 L L2) in I; contradiction]. }
    destruct D as [(t & A)|N].
    - left. exists t, h, e, []. split; [reflexivity|]. split; [exact A|exact F].
    - right. intros h3 x h4 t E. apply snoc_split in E. destruct E as [(-> & -> & ->)|(h5 & -> & ->)]; [apply N|apply (F h3 x h5 t eq_refl)].
  Qed.
  Lemma assumed_new v h e t : (forall t', ~ assumed v h t') -> assumes v h e t -> assumed v (h ++ [e]) t.
  Proof.
    intros N A. destruct (assumed_none v h) as [(t' & X)|F]; [exfalso; exact (N _ X)|]. exists h, e, []. auto.
  Qed.

  Lemma fill_get start v : forall l m, zget (fill l start m) v = match zget m v with Some t => Some t | None => if in_dec Z.eq_dec v (map a_vehicle l) then Some start else None end.
  Proof.
    induction l as [|a l IH]; intros m; cbn [fill map]; [destruct (zget m v); reflexivity|]. rewrite IH. unfold zhas.
    destruct (zget m (a_vehicle a)) as [t|] eqn:E.
    - destruct (zget m v) eqn:F; [reflexivity|]. destruct (in_dec Z.eq_dec v (map a_vehicle l)) as [I|I]; destruct (in_dec Z.eq_dec v (a_vehicle a :: map a_vehicle l)) as [J|J]; try reflexivity; exfalso.
      + apply J. right. exact I.
      + destruct J as [J|J]; [congruence|contradiction].
    - destruct (Z.eq_dec v (a_vehicle a)) as [->|N].
      + rewrite zget_set_same, E. destruct (in_dec Z.eq_dec (a_vehicle a) (a_vehicle a :: map a_vehicle l)) as [J|J]; [reflexivity|exfalso; apply J; left; reflexivity].
      + rewrite zget_set_other by exact N. destruct (zget m v); [reflexivity|].
        destruct (in_dec Z.eq_dec v (map a_vehicle l)) as [I|I]; destruct (in_dec Z.eq_dec v (a_vehicle a :: map a_vehicle l)) as [J|J]; try reflexivity; exfalso.
        * apply J. right. exact I.
        * destruct J as [J|J]; [congruence|contradiction].
  Qed.

  Lemma told_fun v h : forall t t', told v h t -> told v h t' -> t = t'.
  Proof.
    induction h as [|e h IH] using rev_ind; intros t t' T T'; [destruct T as ([|] & ? & ? & E & _); discriminate|].
    destruct (own_in_dec v h) as [O|O]; [apply (told_after_own v h e) in T, T'; auto|].
    destruct (tells_dec v e) as [(x & X)|N]; [apply (told_new v h e _ x O X) in T, T'; congruence|apply (told_other v h e) in T, T'; auto].
  Qed.
  Lemma assumes_fun v h e t t' : assumes v h e t -> assumes v h e t' -> t = t'.
  Proof. intros (? & ? & ? & -> & _) (? & ? & ? & E & _). congruence. Qed.
  Lemma assumed_fun v h : forall t t', assumed v h t -> assumed v h t' -> t = t'.
  Proof.
    induction h as [|e h IH] using rev_ind; intros t t' T T'; [destruct T as ([|] & ? & ? & E & _); discriminate|].
    apply assumed_snoc in T, T'. destruct T as [T|(T & N)], T' as [T'|(T' & N')]; [auto|exfalso; exact (N' _ T)|exfalso; exact (N _ T')|eapply assumes_fun; eassumption].
  Qed.
  Lemma starts_fun v h t t' : starts_at h v t -> starts_at h v t' -> t = t'.
  Proof.
    intros [T|(S & A)] [T'|(S' & A')]; [eapply told_fun; eassumption|exfalso; exact (told_silent _ _ _ T S')|exfalso; exact (told_silent _ _ _ T' S)|eapply assumed_fun; eassumption].
  Qed.

  (** Nothing changes for a vehicle. *)
  Lemma starts_keep v h e t : (forall t', ~ tells v e t') -> starts_at h v t -> starts_at (h ++ [e]) v t.
  Proof.
    intros N [T|(S & A)]; [left; apply told_other; assumption|right]. split; [|apply assumed_old, A].
    intros x t' X. apply in_app_iff in X. destruct X as [X|[<-|[]]]; auto.
  Qed.
  Lemma starts_none v h e : (forall t', ~ tells v e t') -> (forall t', ~ assumes v h e t') -> (forall t, ~ starts_at h v t) -> forall t, ~ starts_at (h ++ [e]) v t.
  Proof.
    intros N NA S t [T|(Si & A)]; [apply told_other in T; [|exact N]; apply (S t); left; exact T|].
    apply assumed_snoc in A. destruct A as [A|(A & _)]; [|exact (NA _ A)]. apply (S t). right. split; [|exact A]. intros x t' X. apply Si. apply in_or_app. left. exact X.
  Qed.
  Lemma starts_new v h e t : (forall t', ~ tells v e t') -> (forall t', ~ starts_at h v t') -> assumes v h e t -> starts_at (h ++ [e]) v t.
  Proof.
    intros N S A. destruct (told_or_silent v h) as [(x & X)|Si]; [exfalso; apply (S x); left; exact X|]. right.
    split; [intros x t' X; apply in_app_iff in X; destruct X as [X|[<-|[]]]; auto|]. apply assumed_new; [|exact A].
    intros t' A'. apply (S t'). right. split; assumption.
  Qed.

  Record inv (h : list ev) (s : state) : Prop := {
    i_known : forall l, zget (summaries s) r = Some l <-> known h l;
    i_priced : forall m, zget (matrices s) r = Some m <-> priced h m;
    i_met : forall v, zin v (met s r) = true <-> exists e, In e h /\ own v e;
    i_start : forall v, match zget (starts s r) v with Some t => starts_at h v t | None => forall t, ~ starts_at h v t end }.

  Lemma at_same {A} (f : Z -> A) k x : at_key f k x k = x.
  Proof. unfold at_key. rewrite Z.eqb_refl. reflexivity. Qed.
  Lemma at_other {A} (f : Z -> A) k x j : j <> k -> at_key f k x j = f j.
  Proof. unfold at_key. intros N. destruct (Z.eqb_spec j k); [contradiction|reflexivity]. Qed.

  Lemma own_snoc v h e : (exists x, In x (h ++ [e]) /\ own v x) <-> (exists x, In x h /\ own v x) \/ own v e.
  Proof.
    split.
    - intros (x & X & O). apply in_app_iff in X. destruct X as [X|[<-|[]]]; [left; eauto|right; exact O].
    - intros [(x & X & O)|O]; [exists x; split; [apply in_or_app; left; exact X|exact O]|exists e; split; [apply in_or_app; right; left; reflexivity|exact O]].
  Qed.

  Lemma inv_met_keep h e s (s' : state) : (forall v, ~ own v e) -> met s' r = met s r -> inv h s -> forall v, zin v (met s' r) = true <-> exists x, In x (h ++ [e]) /\ own v x.
  Proof. intros N E I v. rewrite E, own_snoc, (i_met _ _ I v). split; [auto|intros [X|X]; [exact X|exfalso; exact (N _ X)]]. Qed.
  Lemma inv_start_keep h e s (s' : state) : (forall v t, ~ tells v e t) -> (forall v t, ~ assumes v h e t) -> starts s' r = starts s r -> inv h s ->
    forall v, match zget (starts s' r) v with Some t => starts_at (h ++ [e]) v t | None => forall t, ~ starts_at (h ++ [e]) v t end.
  Proof.
    intros N NA E I v. rewrite E. pose proof (i_start _ _ I v) as X. destruct (zget (starts s r) v) as [t|]; [apply starts_keep; auto|apply starts_none; auto].
  Qed.

  Lemma inv_step h e s : e <> Answer r -> inv h s -> inv (h ++ [e]) (step task s e).
  Proof.
    intros NE I. destruct e as [q l0|q l0|q u k x|q u k x|q].
    - split.
      + intros l. rewrite known_snoc. cbn [step on_request summaries matrices starts met]. rewrite zget_set. rewrite (Z.eqb_sym q r). destruct (Z.eqb_spec r q); [split; congruence|apply (i_known _ _ I)].
      + intros l. rewrite priced_snoc. cbn [step on_request summaries matrices starts met]. apply (i_priced _ _ I).
      + apply (inv_met_keep h _ s); [intros v (? & E); discriminate|reflexivity|exact I].
      + apply (inv_start_keep h _ s); [intros v t [(? & E)|(? & E & _)]; discriminate|intros v t (? & ? & ? & E & _); discriminate|reflexivity|exact I].
    - split.
      + intros l. rewrite known_snoc. cbn [step on_request summaries matrices starts met]. apply (i_known _ _ I).
      + intros l. rewrite priced_snoc. cbn [step on_request summaries matrices starts met]. rewrite zget_set. rewrite (Z.eqb_sym q r). destruct (Z.eqb_spec r q); [split; congruence|apply (i_priced _ _ I)].
      + apply (inv_met_keep h _ s); [intros v (? & E); discriminate|reflexivity|exact I].
      + apply (inv_start_keep h _ s); [intros v t [(? & E)|(? & E & _)]; discriminate|intros v t (? & ? & ? & E & _); discriminate|reflexivity|exact I].
    - split.
      + intros l. rewrite known_snoc. cbn [step on_request summaries matrices starts met]. apply (i_known _ _ I).
      + intros l. rewrite priced_snoc. cbn [step on_request summaries matrices starts met]. apply (i_priced _ _ I).
      + destruct (Z.eq_dec q r) as [->|Q]; [|apply (inv_met_keep h _ s); [intros v (? & E); congruence|cbn [step on_request summaries matrices starts met]; rewrite at_other by congruence; reflexivity|exact I]].
        intros v. rewrite own_snoc. cbn [step on_request summaries matrices starts met]. rewrite at_same. rewrite <- (i_met _ _ I v).
        destruct (zin u (met s r)) eqn:Zu.
        * split; [auto|]. intros [X|(t & E)]; [exact X|]. injection E as -> -> ->. exact Zu.
        * destruct (Z.eqb_spec k task) as [->|K].
          -- rewrite !zin_In. cbn [In]. split; [intros [->|X]; [right; eexists; reflexivity|left; exact X]|intros [X|(t & E)]; [right; exact X|left; congruence]].
          -- split; [auto|]. intros [X|(t & E)]; [exact X|congruence].
      + destruct (Z.eq_dec q r) as [->|Q]; [|apply (inv_start_keep h _ s); [intros v t [(? & E)|(? & E & _)]; congruence|intros v t (? & ? & ? & E & _); congruence|cbn [step on_request summaries matrices starts met]; rewrite at_other by congruence; reflexivity|exact I]].
        intros v. cbn [step on_request summaries matrices starts met]. rewrite at_same. pose proof (i_start _ _ I v) as X.
        destruct (Z.eq_dec v u) as [->|V].
        * assert (Te : tells u (Request r u k x) x) by (left; eauto).
          assert (G : exists t, zget (if zin u (met s r) then starts s r else zset (starts s r) u x) u = Some t /\ starts_at (h ++ [Request r u k x]) u t).
          { destruct (zin u (met s r)) eqn:M.
            - apply (i_met _ _ I) in M. destruct (zget (starts s r) u) as [t|] eqn:E.
              + exists t. split; [reflexivity|]. left. apply told_after_own; [exact M|]. destruct X as [T|(Si & _)]; [exact T|]. exfalso. destruct M as (y & Y & O). destruct (own_tells _ _ O) as (t0 & T0). exact (Si _ _ Y T0).
              + exfalso. destruct (told_or_silent u h) as [(t & T)|Si]; [exact (X t (or_introl T))|]. destruct M as (y & Y & O). destruct (own_tells _ _ O) as (t0 & T0). exact (Si _ _ Y T0).
            - exists x. rewrite zget_set_same. split; [reflexivity|]. left. apply (told_new u h _ x x); [|exact Te|reflexivity].
              intros e' Y O. assert (zin u (met s r) = true) by (apply (i_met _ _ I); eauto). congruence. }
          destruct G as (t & G & T). destruct (zget (summaries s) r) as [l|]; [rewrite fill_get|]; rewrite G; exact T.
        * assert (N : forall t', ~ tells v (Request r u k x) t') by (intros t' [(? & E)|(? & E & _)]; congruence).
          assert (G : zget (if zin u (met s r) then starts s r else zset (starts s r) u x) v = zget (starts s r) v) by (destruct (zin u (met s r)); [reflexivity|apply zget_set_other; exact V]).
          destruct (zget (summaries s) r) as [l|] eqn:L.
          -- rewrite fill_get, G. destruct (zget (starts s r) v) as [t|]; [apply starts_keep; assumption|]. apply (i_known _ _ I) in L.
             destruct (in_dec Z.eq_dec v (map a_vehicle l)) as [J|J].
             ++ apply starts_new; [exact N|exact X|]. exists u, k, l. auto.
             ++ apply starts_none; [exact N| |exact X]. intros t' (? & ? & l' & E & L' & J'). apply J. apply (i_known _ _ I) in L, L'. congruence.
          -- rewrite G. destruct (zget (starts s r) v) as [t|]; [apply starts_keep; assumption|]. apply starts_none; [exact N| |exact X].
             intros t' (? & ? & l' & E & L' & J'). apply (i_known _ _ I) in L'. congruence.
    - assert (M : met (step task s (Response q u k x)) r = met s r) by (cbn [step]; unfold on_response; destruct (_ && _); reflexivity). split.
      + intros l. rewrite known_snoc. cbn [step]; unfold on_response. destruct (_ && _); apply (i_known _ _ I).
      + intros l. rewrite priced_snoc. cbn [step]; unfold on_response. destruct (_ && _); apply (i_priced _ _ I).
      + apply (inv_met_keep h _ s); [intros v (? & E); discriminate|exact M|exact I].
      + clear M. cbn [step]; unfold on_response. assert (NA : forall v t, ~ assumes v h (Response q u k x) t) by (intros v t (? & ? & ? & E & _); discriminate).
        destruct (Z.eq_dec q r) as [->|Q].
        2: { apply (inv_start_keep h _ s); [intros v t [(? & E)|(? & E & _)]; congruence|exact NA| |exact I]. destruct (_ && _); [cbn [step on_request summaries matrices starts met]; rewrite at_other by congruence|]; reflexivity. }
        destruct (Z.eqb_spec k task) as [->|K]; cbn [negb andb].
        { apply (inv_start_keep h _ s); [intros v t [(? & E)|(? & E & K)]; congruence|exact NA|reflexivity|exact I]. }
        intros v. pose proof (i_start _ _ I v) as X. destruct (Z.eq_dec v u) as [->|V].
        * destruct (zin u (met s r)) eqn:M; cbn [negb].
          -- apply (i_met _ _ I) in M. destruct (zget (starts s r) u) as [t|] eqn:E.
             ++ left. apply told_after_own; [exact M|]. destruct X as [T|(Si & _)]; [exact T|]. exfalso. destruct M as (y & Y & O). destruct (own_tells _ _ O) as (t0 & T0). exact (Si _ _ Y T0).
             ++ exfalso. destruct (told_or_silent u h) as [(t & T)|Si]; [exact (X t (or_introl T))|]. destruct M as (y & Y & O). destruct (own_tells _ _ O) as (t0 & T0). exact (Si _ _ Y T0).
          -- cbn [starts]. rewrite at_same, zget_set_same. left. apply (told_new u h _ x x); [|right; eauto|reflexivity].
             intros e' Y O. assert (zin u (met s r) = true) by (apply (i_met _ _ I); eauto). congruence.
        * assert (N : forall t', ~ tells v (Response r u k x) t') by (intros t' [(? & E)|(? & E & _)]; congruence).
          assert (G : zget (starts (if negb (zin u (met s r)) then {| summaries := summaries s; matrices := matrices s; starts := at_key (starts s) r (zset (starts s r) u x); met := met s |} else s) r) v = zget (starts s r) v)
            by (destruct (zin u (met s r)); [reflexivity|cbn [negb starts]; rewrite at_same; apply zget_set_other; exact V]).
          rewrite G. destruct (zget (starts s r) v) as [t|]; [apply starts_keep; auto|apply starts_none; auto].
    - assert (Q : r <> q) by congruence. split.
      + intros l. rewrite known_snoc. cbn [step on_request summaries matrices starts met]. rewrite zget_del_other by exact Q. apply (i_known _ _ I).
      + intros l. rewrite priced_snoc. cbn [step on_request summaries matrices starts met]. rewrite zget_del_other by exact Q. apply (i_priced _ _ I).
      + apply (inv_met_keep h _ s); [intros v (? & E); discriminate|reflexivity|exact I].
      + apply (inv_start_keep h _ s); [intros v t [(? & E)|(? & E & _)]; discriminate|intros v t (? & ? & ? & E & _); discriminate|cbn [step on_request summaries matrices starts met]; rewrite at_other by exact Q; reflexivity|exact I].
  Qed.
  Lemma inv_run h : ~ In (Answer r) h -> inv h (run task h).
  Proof.
    induction h as [|e h IH] using rev_ind; intros N.
    - split; cbn; try (intros l; split; [discriminate|intros ([|] & ? & E & _); discriminate]).
      + intros v. split; [discriminate|intros (? & [] & _)].
      + intros v t [([|] & ? & ? & E & _)|(_ & [|] & ? & ? & E & _)]; discriminate.
    - unfold run. rewrite fold_left_app. cbn [fold_left]. apply inv_step; [intros ->; apply N, in_or_app; right; left; reflexivity|].
      apply IH. intros X. apply N, in_or_app. left. exact X.
  Qed.

  (** Until the request has been answered, a start time is exactly as described. *)
  Theorem C77_start h v t : ~ In (Answer r) h -> zget (starts (run task h) r) v = Some t <-> starts_at h v t.
  Proof.
    intros N. pose proof (i_start _ _ (inv_run h N) v) as X. destruct (zget (starts (run task h) r) v) as [t'|].
    - split; [intros [= <-]; exact X|]. intros Y. f_equal. eapply starts_fun; eassumption.
    - split; [discriminate|]. intros Y. exfalso. exact (X _ Y).
  Qed.
End Times.

(** *** What is selected *)
Section Selected.
  Context (task : Z).
  Notation takes := (takes task). Notation after := (after task).

  Definition pick_one (x : zmap Z * zmap (Z * Z)) (a : assign) : zmap Z * zmap (Z * Z) :=
    let (sel, prev) := x in
    if a_task a =? task then (zset sel (a_vehicle a) (a_option a), prev)
    else if zhas sel (a_vehicle a) then (sel, prev) else (sel, zset prev (a_vehicle a) (a_task a, a_option a)).
  (** The last entry of a vehicle that does not have the task yet. *)
  Definition so_far (l : list assign) (v : Z) (p : Z * Z) : Prop :=
    exists l1 l2, l = l1 ++ {| a_task := fst p; a_option := snd p; a_vehicle := v |} :: l2 /\ forall a, In a l2 -> a_vehicle a <> v.

  Record sound (l : list assign) (sel : zmap Z) (prev : zmap (Z * Z)) : Prop := {
    n_keys : NoDup (map fst sel);
    n_sel : forall v o, zget sel v = Some o -> takes l v o;
    n_none : forall v, zget sel v = None -> forall a, In a l -> a_vehicle a = v -> a_task a <> task;
    n_after : forall v o, zget sel v = Some o -> after l v (match zget prev v with Some p => p | None => (0, 0) end);
    n_so_far : forall v, zget sel v = None -> match zget prev v with Some p => so_far l v p | None => forall a, In a l -> a_vehicle a <> v end }.

  Lemma takes_snoc l a v o : takes l v o -> (a_task a = task -> a_vehicle a <> v) -> takes (l ++ [a]) v o.
  Proof.
    intros (l1 & l2 & -> & N) D. exists l1, (l2 ++ [a]). split; [rewrite <- app_assoc; reflexivity|]. intros o' I. apply in_app_iff in I.
    destruct I as [I|[->|[]]]; [exact (N _ I)|cbn in D; apply (D eq_refl eq_refl)].
  Qed.
  Lemma after_snoc l a v p : after l v p -> after (l ++ [a]) v p.
  Proof.
    intros [(l1 & l2 & l3 & o & -> & A)|(l1 & l3 & o & -> & A)].
    - left. exists l1, l2, (l3 ++ [a]), o. split; [rewrite <- !app_assoc; cbn; rewrite <- app_assoc; reflexivity|exact A].
    - right. exists l1, (l3 ++ [a]), o. split; [rewrite <- !app_assoc; reflexivity|exact A].
  Qed.
  Lemma sound_step l sel prev a : sound l sel prev -> let (sel', prev') := pick_one (sel, prev) a in sound (l ++ [a]) sel' prev'.
  Proof.
    intros [K S N A F]. destruct a as [k o u]. cbn [pick_one a_task a_option a_vehicle]. destruct (Z.eqb_spec k task) as [->|K'].
    - split.
      + apply NoDup_keys_zset, K.
      + intros v x. rewrite zget_set. destruct (Z.eqb_spec v u) as [->|V]; [intros [= <-]; exists l, []; split; [reflexivity|intros ? []]|].
        intros X. apply takes_snoc; [apply S, X|cbn; congruence].
      + intros v. rewrite zget_set. destruct (Z.eqb_spec v u) as [|V]; [discriminate|]. intros X a I E. apply in_app_iff in I. destruct I as [I|[<-|[]]]; [eapply N; eassumption|cbn in E; congruence].
      + intros v x. rewrite zget_set. destruct (Z.eqb_spec v u) as [->|V]; [|intros X; apply after_snoc; eapply A; exact X].
        intros _. destruct (zget sel u) as [y|] eqn:Y; [apply after_snoc; eapply A; exact Y|]. specialize (F u Y). specialize (N u Y). destruct (zget prev u) as [p|].
        * destruct F as (l1 & l2 & -> & F). left. exists l1, l2, [], o. split; [rewrite <- app_assoc; reflexivity|]. split; [|split; [|exact F]].
          -- apply (N {| a_task := fst p; a_option := snd p; a_vehicle := u |}); [apply in_or_app; right; left; reflexivity|reflexivity].
          -- intros o' I. eapply N; [apply in_or_app; left; exact I|reflexivity|reflexivity].
        * right. exists l, [], o. auto.
      + intros v. rewrite zget_set. destruct (Z.eqb_spec v u) as [|V]; [discriminate|]. intros X. specialize (F v X). destruct (zget prev v) as [p|].
        * destruct F as (l1 & l2 & -> & F). exists l1, (l2 ++ [{| a_task := task; a_option := o; a_vehicle := u |}]). split; [rewrite <- app_assoc; reflexivity|].
          intros a I. apply in_app_iff in I. destruct I as [I|[<-|[]]]; [apply F, I|cbn; congruence].
        * intros a I. apply in_app_iff in I. destruct I as [I|[<-|[]]]; [apply F, I|cbn; congruence].
    - assert (S' : forall v x, zget sel v = Some x -> takes (l ++ [{| a_task := k; a_option := o; a_vehicle := u |}]) v x) by (intros v x X; apply takes_snoc; [apply S, X|cbn; congruence]).
      assert (N' : forall v, zget sel v = None -> forall a, In a (l ++ [{| a_task := k; a_option := o; a_vehicle := u |}]) -> a_vehicle a = v -> a_task a <> task)
        by (intros v X a I E; apply in_app_iff in I; destruct I as [I|[<-|[]]]; [eapply N; eassumption|exact K']).
      assert (O : forall v, v <> u -> zget sel v = None -> match zget prev v with Some p => so_far (l ++ [{| a_task := k; a_option := o; a_vehicle := u |}]) v p
                                           | None => forall a, In a (l ++ [{| a_task := k; a_option := o; a_vehicle := u |}]) -> a_vehicle a <> v end).
      { intros v V X. specialize (F v X). destruct (zget prev v) as [p|].
        - destruct F as (l1 & l2 & -> & F). exists l1, (l2 ++ [{| a_task := k; a_option := o; a_vehicle := u |}]). split; [rewrite <- app_assoc; reflexivity|].
          intros a I. apply in_app_iff in I. destruct I as [I|[<-|[]]]; [apply F, I|cbn; congruence].
        - intros a I. apply in_app_iff in I. destruct I as [I|[<-|[]]]; [apply F, I|cbn; congruence]. }
      unfold zhas. destruct (zget sel u) as [y|] eqn:Y.
      + split; [exact K|exact S'|exact N'|intros v x X; apply after_snoc; eapply A; exact X|]. intros v X. apply O; [congruence|exact X].
      + split; [exact K|exact S'|exact N'| |].
        * intros v x X. rewrite zget_set_other by congruence. apply after_snoc. eapply A; exact X.
        * intros v X. rewrite zget_set. destruct (Z.eqb_spec v u) as [->|V]; [|apply O; assumption].
          exists l, []. split; [reflexivity|intros ? []].
  Qed.
  Lemma sound_from : forall l l0 sel prev, sound l0 sel prev -> let (sel', prev') := selected task l sel prev in sound (l0 ++ l) sel' prev'.
  Proof.
    induction l as [|a l IH]; intros l0 sel prev S; cbn [selected]; [rewrite app_nil_r; exact S|]. pose proof (sound_step l0 sel prev a S) as X. cbn [pick_one] in X.
    replace (l0 ++ a :: l) with ((l0 ++ [a]) ++ l) by (rewrite <- app_assoc; reflexivity).
    destruct (a_task a =? task); [apply IH, X|]. destruct (zhas sel (a_vehicle a)); apply IH, X.
  Qed.
  Lemma sound_all l : let (sel, prev) := selected task l [] [] in sound l sel prev.
  Proof. apply (sound_from l [] [] []). split; cbn; try discriminate; [constructor|intros ? _ ? []|intros ? _ ? []]. Qed.

  Lemma takes_fun l v o o' : takes l v o -> takes l v o' -> o = o'.
  Proof.
    revert o o'. induction l as [|a l IH] using rev_ind; intros o o' T T'; [destruct T as ([|] & ? & E & _); discriminate|].
    destruct T as (l1 & l2 & E & N), T' as (k1 & k2 & E' & N'). apply snoc_split in E, E'.
    destruct E as [(-> & -> & E)|(l3 & -> & ->)], E' as [(-> & -> & E')|(k3 & -> & E')].
    - congruence.
    - exfalso. apply (N' o). rewrite <- E. apply in_or_app. right. left. reflexivity.
    - exfalso. apply (N o'). rewrite <- E'. apply in_or_app. right. left. reflexivity.
    - eapply IH; [exists l1, l3; split; [reflexivity|]|exists k1, k3; split; [exact E'|]].
      + intros x I. apply (N x). apply in_or_app. left. exact I.
      + intros x I. apply (N' x). apply in_or_app. left. exact I.
  Qed.
  Lemma takes_in l v o : takes l v o -> In {| a_task := task; a_option := o; a_vehicle := v |} l.
  Proof. intros (l1 & l2 & -> & _). apply in_or_app. right. left. reflexivity. Qed.

  (** The first entry of a vehicle for the task divides the list. *)
  Lemma divide l1 l2 k1 k2 v o o' : l1 ++ {| a_task := task; a_option := o; a_vehicle := v |} :: l2 = k1 ++ {| a_task := task; a_option := o'; a_vehicle := v |} :: k2 ->
    (forall x, ~ In {| a_task := task; a_option := x; a_vehicle := v |} l1) -> (forall x, ~ In {| a_task := task; a_option := x; a_vehicle := v |} k1) -> l1 = k1.
  Proof.
    revert k1. induction l1 as [|a l1 IH]; intros [|b k1] E N N'; cbn in E; [reflexivity| | |].
    - exfalso. injection E as <- _. apply (N' o). left. reflexivity.
    - exfalso. injection E as -> _. apply (N o'). left. reflexivity.
    - injection E as -> E. f_equal. apply IH; [exact E|intros x I; apply (N x); right; exact I|intros x I; apply (N' x); right; exact I].
  Qed.
  Lemma last_same v : forall l1 l2 k1 k2 (a b : assign), l1 ++ a :: l2 = k1 ++ b :: k2 -> a_vehicle a = v -> a_vehicle b = v -> (forall x, In x l2 -> a_vehicle x <> v) -> (forall x, In x k2 -> a_vehicle x <> v) -> a = b.
  Proof.
    induction l1 as [|x l1 IH]; intros l2 [|y k1] k2 a b E A B L K; cbn in E.
    - congruence.
    - exfalso. injection E as _ E. apply (L b); [rewrite E; apply in_or_app; right; left; reflexivity|exact B].
    - exfalso. injection E as _ E. apply (K a); [rewrite <- E; apply in_or_app; right; left; reflexivity|exact A].
    - injection E as _ E. eapply IH; eassumption.
  Qed.
  Lemma after_fun l v p p' : after l v p -> after l v p' -> p = p'.
  Proof.
    assert (D : forall p, after l v p -> exists b o c, l = b ++ {| a_task := task; a_option := o; a_vehicle := v |} :: c /\ (forall x, ~ In {| a_task := task; a_option := x; a_vehicle := v |} b)
      /\ (so_far b v p \/ p = (0, 0) /\ forall a, In a b -> a_vehicle a <> v)).
    { clear. intros p [(l1 & l2 & l3 & o & -> & T & N & F)|(l1 & l3 & o & -> & -> & F)].
      - exists (l1 ++ {| a_task := fst p; a_option := snd p; a_vehicle := v |} :: l2), o, l3. split; [rewrite <- app_assoc; reflexivity|]. split.
        + intros x I. apply in_app_iff in I. destruct I as [I|[I|I]]; [exact (N _ I)|congruence|apply (F _ I); reflexivity].
        + left. exists l1, l2. auto.
      - exists l1, o, l3. split; [reflexivity|]. split; [intros x I; apply (F _ I); reflexivity|right; auto]. }
    intros A A'. destruct (D p A) as (b & o & c & E & N & P), (D p' A') as (b' & o' & c' & E' & N' & P'). rewrite E in E'. pose proof (divide _ _ _ _ _ _ _ E' N N') as <-.
    destruct P as [(l1 & l2 & B & F)|(-> & F)], P' as [(k1 & k2 & B' & F')|(-> & F')].
    - rewrite B in B'. pose proof (last_same v _ _ _ _ _ _ B' eq_refl eq_refl F F') as X. injection X as X Y. destruct p, p'. cbn in *. congruence.
    - exfalso. apply (F' {| a_task := fst p; a_option := snd p; a_vehicle := v |}); [rewrite B; apply in_or_app; right; left; reflexivity|reflexivity].
    - exfalso. apply (F {| a_task := fst p'; a_option := snd p'; a_vehicle := v |}); [rewrite B'; apply in_or_app; right; left; reflexivity|reflexivity].
    - reflexivity.
  Qed.
End Selected.

(** *** The latest arrival *)
Section Latest.
  Context (task : Z).
  (** What a vehicle with an option gives. *)
  Definition due (m : list cost) (v o : Z) (p : Z * Z) (start t : Z) : Prop :=
    exists c, In c m /\ c_vehicle c = v /\ c_to c = task /\ c_to_option c = o /\ (c_from c, c_from_option c) = p /\ t = c_time c + start.
  Lemma matches_iff v o p c : matches task v o p c = true <-> c_vehicle c = v /\ c_to c = task /\ c_to_option c = o /\ (c_from c, c_from_option c) = p.
  Proof.
    unfold matches. rewrite !andb_true_iff, !Z.eqb_eq. destruct p as (a, b). cbn [fst snd]. split.
    - intros ((((A & B) & C) & D) & E). repeat split; congruence.
    - intros (A & B & C & [= D E]). auto.
  Qed.
  Lemma costs_ok v o p start : forall m best, let '(T, w) := through_costs task v o p start m best in
    fst best <= T /\ (forall t, due m v o p start t -> t <= T) /\ ((T, w) = best \/ w = v /\ due m v o p start T).
  Proof.
    induction m as [|c m IH]; intros best; cbn [through_costs].
    - destruct best as (T, w). cbn. split; [lia|]. split; [intros t (? & [] & _)|left; reflexivity].
    - match goal with |- context [through_costs _ _ _ _ _ m ?b] => set (b' := b); specialize (IH b') end. destruct (through_costs task v o p start m b') as (T, w). destruct IH as (A & B & D).
      assert (G : fst best <= fst b' /\ (matches task v o p c = true -> c_time c + start <= fst b') /\ (b' = best \/ b' = (c_time c + start, v) /\ matches task v o p c = true)).
      { unfold b'. destruct (matches task v o p c); [|split; [lia|split; [discriminate|left; reflexivity]]]. destruct (Z.ltb_spec (fst best) (c_time c + start)); cbn; split; try lia; split; auto; intros; lia. }
      destruct G as (G1 & G2 & G3). split; [lia|]. split.
      + intros t (c' & [<-|I] & E1 & E2 & E3 & E4 & ->).
        * apply Z.le_trans with (fst b'); [apply G2; apply matches_iff; auto|exact A].
        * apply B. exists c'. auto 10.
      + destruct D as [D|(-> & c' & I & D)].
        * destruct G3 as [->|(G3 & M)]; [left; exact D|right]. rewrite G3 in D. injection D as -> ->. split; [reflexivity|]. apply matches_iff in M. exists c. split; [left; reflexivity|]. tauto.
        * right. split; [reflexivity|]. exists c'. split; [right; exact I|exact D].
  Qed.
  Lemma vehicles_ok now prev st m : forall sel best, let '(T, w) := through_vehicles task now sel prev st m best in
    fst best <= T
    /\ (forall v o t, In (v, o) sel -> due m v o (match zget prev v with Some p => p | None => (0, 0) end) (match zget st v with Some t => t | None => now end) t -> t <= T)
    /\ ((T, w) = best \/ exists o, In (w, o) sel /\ due m w o (match zget prev w with Some p => p | None => (0, 0) end) (match zget st w with Some t => t | None => now end) T).
  Proof.
    induction sel as [|(v, o) sel IH]; intros best; cbn [through_vehicles].
    - destruct best as (T, w). cbn. split; [lia|]. split; [intros ? ? ? []|left; reflexivity].
    - set (p := match zget prev v with Some p => p | None => (0, 0) end). set (s := match zget st v with Some t => t | None => now end).
      pose proof (costs_ok v o p s m best) as X. destruct (through_costs task v o p s m best) as (T1, w1). destruct X as (A & B & D).
      specialize (IH (T1, w1)). destruct (through_vehicles task now sel prev st m (T1, w1)) as (T, w). destruct IH as (A' & B' & D'). cbn [fst] in A'. split; [lia|]. split.
      + intros v' o' t [[= <- <-]|I] U; [apply Z.le_trans with T1; [apply B, U|exact A']|eapply B'; eassumption].
      + destruct D' as [[= -> ->]|(o' & I & U)]; [|right; exists o'; split; [right; exact I|exact U]].
        destruct D as [D|(-> & U)]; [left; exact D|right; exists o; split; [left; reflexivity|exact U]].
  Qed.
End Latest.

Section Answer.
  Context (task r : Z).
  Context (order : list (Z * Z) -> list (Z * Z)) (order_perm : forall l, Permutation (order l) l).

  (** What the answer counts on is known exactly if an assignment, costs and a start time are. *)
  Theorem C77_when h v now : ~ In (Answer r) h ->
    (exists x, latest order task (run task h) r v now = Some x) <-> (exists l, known r h l) /\ (exists m, priced r h m) /\ exists t, starts_at task r h v t.
  Proof.
    intros N. pose proof (inv_run task r h N) as I. unfold latest. split.
    - intros (x & X). destruct (zget (summaries (run task h)) r) as [l|] eqn:L; [|discriminate]. destruct (zget (matrices (run task h)) r) as [m|] eqn:M; [|discriminate].
      destruct (zget (starts (run task h) r) v) as [t|] eqn:S; [|discriminate]. split; [exists l; apply (i_known _ _ _ _ I), L|]. split; [exists m; apply (i_priced _ _ _ _ I), M|].
      exists t. apply C77_start; assumption.
    - intros ((l & L) & (m & M) & t & S). apply (i_known _ _ _ _ I) in L. apply (i_priced _ _ _ _ I) in M. apply C77_start in S; [|exact N]. rewrite L, M, S.
      destruct (selected task l [] []). eexists. reflexivity.
  Qed.

  (** The time to meet is the latest of the arrivals, and the vehicle named is one that arrives then. *)
  Theorem C77_latest h v now T w s : ~ In (Answer r) h -> latest order task (run task h) r v now = Some (T, w, s) ->
    exists l m, known r h l /\ priced r h m /\ starts_at task r h v s /\ 0 <= T
      /\ (forall u t, arrives task r h now l m u t -> t <= T)
      /\ (T = 0 /\ w = 0 \/ arrives task r h now l m w T).
  Proof.
    intros N. pose proof (inv_run task r h N) as I. unfold latest. destruct (zget (summaries (run task h)) r) as [l|] eqn:L; [|discriminate]. destruct (zget (matrices (run task h)) r) as [m|] eqn:M; [|discriminate].
    destruct (zget (starts (run task h) r) v) as [t|] eqn:S; [|discriminate]. intros X. exists l, m. split; [apply (i_known _ _ _ _ I), L|]. split; [apply (i_priced _ _ _ _ I), M|].
    pose proof (sound_all task l) as Q. destruct (selected task l [] []) as (sel, prev). destruct Q as [K Se No Af _].
    pose proof (vehicles_ok task now prev (starts (run task h) r) m (order sel) (0, 0)) as V. destruct (through_vehicles task now (order sel) prev (starts (run task h) r) m (0, 0)) as (T', w').
    assert (E : T' = T /\ w' = w /\ t = s) by (split; [|split]; congruence). destruct E as (-> & -> & ->). clear X. split; [apply C77_start; assumption|]. destruct V as (A & B & D). cbn [fst] in A. split; [exact A|].
    assert (St : forall u x, x = match zget (starts (run task h) r) u with Some t => t | None => now end <-> starts_at task r h u x \/ x = now /\ forall s', ~ starts_at task r h u s').
    { intros u x. destruct (zget (starts (run task h) r) u) as [y|] eqn:Y.
      - split; [intros ->; left; apply C77_start; assumption|]. intros [Z|(_ & Z)]; [apply C77_start in Z; [congruence|exact N]|].
        exfalso. apply (Z y). apply C77_start; assumption.
      - split; [intros ->; right; split; [reflexivity|]; intros s' Z; apply C77_start in Z; [congruence|exact N]|]. intros [Z|(-> & _)]; [apply C77_start in Z; [congruence|exact N]|reflexivity]. }
    split.
    - intros u x (o & p & c & s' & H1 & H2 & H3 & H4 & H5 & H6 & H7 & H8 & ->). apply St in H8. subst s'.
      destruct (zget sel u) as [o'|] eqn:O.
      2: { exfalso. apply (No u O _ (takes_in _ _ _ _ H1)); reflexivity. }
      pose proof (takes_fun _ _ _ _ _ H1 (Se _ _ O)) as <-. pose proof (after_fun _ _ _ _ _ H2 (Af _ _ O)) as ->.
      apply (B u o); [apply Permutation_in with sel; [apply Permutation_sym, order_perm|apply In_zget, O]|]. exists c. auto 10.
    - destruct D as [[= -> ->]|(o & J & U)]; [left; auto|right]. apply (Permutation_in _ (order_perm sel)) in J. apply zget_In in J; [|exact K].
      destruct U as (c & U1 & U2 & U3 & U4 & U5 & U6). eexists o, _, c, _. split; [apply Se, J|]. split; [eapply Af, J|]. split; [exact U1|]. split; [exact U2|]. split; [exact U3|]. split; [exact U4|].
      split; [exact U5|]. split; [apply St; reflexivity|exact U6].
  Qed.
End Answer.

(** A rendezvous with number 5 of two vehicles; 400 comes from another task. *)
Definition ex_h : list ev :=
  [Summary 1 [{| a_task := 3; a_option := 7; a_vehicle := 400 |}; {| a_task := 5; a_option := 11; a_vehicle := 400 |}; {| a_task := 5; a_option := 12; a_vehicle := 500 |}];
   Matrix 1 [{| c_vehicle := 400; c_from := 0; c_from_option := 0; c_to := 5; c_to_option := 11; c_time := 90000 |};
             {| c_vehicle := 400; c_from := 3; c_from_option := 7; c_to := 5; c_to_option := 11; c_time := 4000 |};
             {| c_vehicle := 500; c_from := 0; c_from_option := 0; c_to := 5; c_to_option := 12; c_time := 6000 |}];
   Request 1 400 3 1000; Response 1 400 3 3500].

Example C77_latest_meets : ~ In (Answer 1) ex_h /\ latest (fun l => l) 5 (run 5 ex_h) 1 400 0 = Some (7500, 400, 3500).
Proof. split; [intros [H|[H|[H|[H|[]]]]]; discriminate|vm_compute; reflexivity]. Qed.
Example C77_start_meets : starts_at 5 1 ex_h 400 3500 /\ starts_at 5 1 ex_h 500 1000.
Proof.
  assert (N : ~ In (Answer 1) ex_h) by (intros [H|[H|[H|[H|[]]]]]; discriminate).
  split; apply C77_start; try exact N; vm_compute; reflexivity.
Qed.

(** A vehicle that has said nothing is taken to start like the first that has: here 500 is asked to start later than it is reckoned with,
    and the time to meet is before it can be there. *)
Theorem C77_assumed_refuted : exists task r h h' v u T w s T' w' s', ~ In (Answer r) (h ++ h')
  /\ latest (fun l => l) task (run task h) r v 0 = Some (T, w, s) /\ latest (fun l => l) task (run task (h ++ h')) r u 0 = Some (T', w', s') /\ T < T'.
Proof.
  exists 5, 1, ex_h, [Request 1 500 5 9000], 400, 500, 7500, 400, 3500, 15000, 500, 9000.
  split; [intros [H|[H|[H|[H|[H|[]]]]]]; discriminate|]. split; [vm_compute; reflexivity|]. split; [vm_compute; reflexivity|]. reflexivity.
Qed.

(** After a request has been answered the marks stay: the same request again finds no start time. *)
Theorem C77_again_refuted : exists task r h v, (exists x, latest (fun l => l) task (run task h) r v 0 = Some x)
  /\ latest (fun l => l) task (run task (h ++ Answer r :: h)) r v 0 = None.
Proof.
  exists 5, 1, [Summary 1 []; Matrix 1 []; Request 1 400 5 1000], 400. split; [eexists; vm_compute; reflexivity|vm_compute; reflexivity].
Qed.

Print Assumptions C77_start.
Print Assumptions C77_when.
Print Assumptions C77_latest.
Print Assumptions C77_assumed_refuted.
Print Assumptions C77_again_refuted.

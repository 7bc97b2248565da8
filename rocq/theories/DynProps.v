(** C57: vehicles on a task with a moving target are sent after it, not too often and not for nothing. *)
From Coq Require Import List ZArith QArith Bool Lia.
From Verif Require Import ZMap Run Latest DynModel DynSpec.
Import ListNotations.
Open Scope list_scope.
Open Scope Z_scope.

Section Proofs.
  Context {P N : Type}.
  Context (service task : Z) (eligible : list Z) (pause : Z) (threshold : Q).
  Context (shift gap : P -> P -> Q) (inside : N -> P -> bool) (touches : N -> P -> Q -> bool).
  Context (out_of away_from : N -> P -> Q -> P) (lead : P -> P -> P) (radius : Q -> Q).

  Notation step := (@step P N service task eligible pause threshold shift gap inside touches out_of away_from lead radius).
  Notation run := (@run (st P N) (ev P N) (out P) step init).
  Notation history := (@history P N service task eligible pause threshold shift gap inside touches out_of away_from lead radius).
  Notation move := (@move P N inside touches out_of away_from).
  Notation place := (@place P N inside touches out_of away_from radius).
  Notation attempt := (@attempt P N inside touches out_of away_from).
  Notation attend := (@attend P N service threshold shift gap inside touches out_of away_from lead radius).
  Notation active := (@active P N service pause threshold shift gap inside touches out_of away_from lead radius).
  Notation says_config := (@says_config P N eligible).
  Notation says_zone := (@says_zone P N).
  Notation says_region := (@says_region P N).
  Notation says_route := (@says_route P N service).
  Notation says_order := (@says_order P).
  Notation given := (@given P N).
  Notation mark := (@mark P N pause).
  Notation due := (@due P N pause).
  Notation reported := (@reported P N).
  Notation arrived := (@arrived P N service).
  Notation settled := (@settled P N inside touches out_of away_from).
  Notation meets := (@meets P N inside touches).
  Notation around := (@around P N eligible inside touches out_of away_from radius).
  Notation followed := (@followed P N service eligible pause threshold shift inside touches out_of away_from radius).
  Notation aim_of := (@aim_of P N service eligible pause threshold shift inside touches out_of away_from radius).
  Notation flight := (@flight P N service task eligible pause threshold shift inside touches out_of away_from radius).
  Notation offered := (@offered P N eligible inside touches out_of away_from radius).

  Definition end_number (ws : list (wp P)) : Z := match ws with [] => 0 | w :: r => w_number (last r w) end.

  Record inv (h : list (ev P N)) (s : st P N) : Prop := {
    IC : forall v, zget (confs s) v = keep (says_config v) h;
    IZ : forall i, zget (zones s) i = follow (says_zone i) h;
    IR : zget (regions s) 0 = follow says_region h;
    IO : forall v, zget (orders s) v = follow (says_order v) (given h);
    IW : forall v, zget (lastWp s) v = option_map end_number (follow (says_route v) h);
    IM : forall v m, zget (throttle s) v = Some m <-> mark h v m;
    IU : forall v, zget (throttle s) v = None <-> ~ reported h v;
    IA : forall v o, aim_of h v o <-> zget (aims s) v = o
  }.

  Lemma last_cons : forall {A} (r : list A) y w, last (y :: r) w = last r y.
  Proof. induction r as [|z r IH]; intros y w; [reflexivity|]. change (last (z :: r) w = last (z :: r) y). rewrite !IH. reflexivity. Qed.

  Lemma last_split : forall {A} (w : A) r, exists l, w :: r = l ++ [last r w].
  Proof.
    intros A w r. revert w. induction r as [|y r IH]; intros w; [exists []; reflexivity|].
    destruct (IH y) as (l & E). exists (w :: l). cbn [app]. rewrite last_cons, <- E. reflexivity.
  Qed.

  Lemma end_number_spec : forall (l : list (wp P)) w, end_number (l ++ [w]) = w_number w.
  Proof.
    intros l w. destruct l as [|y l]; [reflexivity|]. cbn [end_number app]. destruct (last_split y (l ++ [w])) as (l' & E).
    rewrite app_comm_cons in E. apply app_inj_tail in E. destruct E as (_ & E). rewrite <- E. reflexivity.
  Qed.

  Lemma settled_iff : forall h s ids r p x, inv h s -> settled h ids r p x <-> x = move (zones s) ids p r.
  Proof.
    intros h s ids r p x I. unfold DynSpec.settled. revert x.
    assert (M : forall z, (inside z p = false /\ touches z p r = false) <-> ~ meets z p r).
    { intros z. unfold DynSpec.meets. destruct (inside z p), (touches z p r); split; intros H; try (exfalso; apply H; auto; fail); try (destruct H; discriminate); auto.
      intros [X|X]; discriminate. }
    induction ids as [|i ids IH]; intros x; cbn [DynModel.move].
    - split.
      + intros [(l & i & l' & z & E & _)|(_ & E)]; [destruct l; discriminate|exact E].
      + intros ->. right. split; [intros ? ? []|reflexivity].
    - rewrite (IZ _ _ I). destruct (follow (says_zone i) h) as [z|] eqn:F.
      + pose proof (proj1 (follow_latest _ _ _) F) as L. destruct (inside z p) eqn:IN; [|destruct (touches z p r) eqn:T].
        * split.
          -- intros [(l & j & l' & z' & E & L' & ME & NO & ->)|(NO & _)].
             ++ destruct l as [|a l]; cbn in E; injection E as <- E.
                ** apply follow_latest in L'. rewrite F in L'. injection L' as <-. unfold pushed. rewrite IN. reflexivity.
                ** exfalso. apply (NO i z); [left; reflexivity|exact L|left; exact IN].
             ++ exfalso. apply (NO i z); [left; reflexivity|exact L|left; exact IN].
          -- intros ->. left. exists [], i, ids, z. unfold pushed. rewrite IN. split; [reflexivity|]. split; [exact L|].
             split; [left; exact IN|]. split; [intros ? ? []|reflexivity].
        * split.
          -- intros [(l & j & l' & z' & E & L' & ME & NO & ->)|(NO & _)].
             ++ destruct l as [|a l]; cbn in E; injection E as <- E.
                ** apply follow_latest in L'. rewrite F in L'. injection L' as <-. unfold pushed. rewrite IN. reflexivity.
                ** exfalso. apply (NO i z); [left; reflexivity|exact L|right; exact T].
             ++ exfalso. apply (NO i z); [left; reflexivity|exact L|right; exact T].
          -- intros ->. left. exists [], i, ids, z. unfold pushed. rewrite IN. split; [reflexivity|]. split; [exact L|].
             split; [right; exact T|]. split; [intros ? ? []|reflexivity].
        * assert (NM : ~ meets z p r) by (apply M; auto). rewrite <- IH. split.
          -- intros [(l & j & l' & z' & E & L' & ME & NO & ->)|(NO & ->)].
             ++ destruct l as [|a l]; cbn in E; injection E as <- E.
                ** apply follow_latest in L'. rewrite F in L'. injection L' as <-. contradiction.
                ** left. exists l, j, l', z'. split; [exact E|]. split; [exact L'|]. split; [exact ME|]. split; [|reflexivity].
                   intros j' z'' Hj. apply NO. right. exact Hj.
             ++ right. split; [|reflexivity]. intros j z' Hj. apply NO. right. exact Hj.
          -- intros [(l & j & l' & z' & E & L' & ME & NO & ->)|(NO & ->)].
             ++ left. exists (i :: l), j, l', z'. split; [cbn; f_equal; exact E|]. split; [exact L'|]. split; [exact ME|]. split; [|reflexivity].
                intros j' z'' [<-|Hj] L''; [|apply (NO j'); assumption]. apply follow_latest in L''. rewrite F in L''. injection L'' as <-. exact NM.
             ++ right. split; [|reflexivity]. intros j' z'' [<-|Hj] L''; [|apply (NO j'); assumption].
                apply follow_latest in L''. rewrite F in L''. injection L'' as <-. exact NM.
      + rewrite <- IH. split.
        * intros [(l & j & l' & z' & E & L' & ME & NO & ->)|(NO & ->)].
          -- destruct l as [|a l]; cbn in E; injection E as <- E.
             ++ apply follow_latest in L'. congruence.
             ++ left. exists l, j, l', z'. split; [exact E|]. split; [exact L'|]. split; [exact ME|]. split; [|reflexivity].
                intros j' z'' Hj. apply NO. right. exact Hj.
          -- right. split; [|reflexivity]. intros j z' Hj. apply NO. right. exact Hj.
        * intros [(l & j & l' & z' & E & L' & ME & NO & ->)|(NO & ->)].
          -- left. exists (i :: l), j, l', z'. split; [cbn; f_equal; exact E|]. split; [exact L'|]. split; [exact ME|]. split; [|reflexivity].
             intros j' z'' [<-|Hj] L''; [|apply (NO j'); assumption]. apply follow_latest in L''. congruence.
          -- right. split; [|reflexivity]. intros j' z'' [<-|Hj] L''; [|apply (NO j'); assumption]. apply follow_latest in L''. congruence.
  Qed.

  Lemma around_iff : forall h s v (air : bool) p x, inv h s ->
    around h v (air = true) p x <->
    x = match air, zget (confs s) v with true, Some c => attempt s p (radius (c_speed c) * (3 # 2)) | _, _ => p end.
  Proof.
    intros h s v air p x I. unfold DynSpec.around. rewrite (IC _ _ I). unfold DynModel.attempt. rewrite (IR _ _ I).
    destruct air.
    - destruct (keep (says_config v) h) as [c|] eqn:K.
      + destruct (follow says_region h) as [ids|] eqn:F.
        * split.
          -- intros [(_ & c' & ids' & EC & LR & SE)|([X|[X|X]] & _)].
             ++ apply keep_earliest in EC. apply follow_latest in LR. rewrite K in EC. rewrite F in LR. injection EC as <-. injection LR as <-.
                apply (settled_iff h s); assumption.
             ++ contradiction X. reflexivity.
             ++ apply keep_unsaid in X. congruence.
             ++ apply follow_unsaid in X. congruence.
          -- intros ->. left. split; [reflexivity|]. exists c, ids. split; [apply keep_earliest; exact K|]. split; [apply follow_latest; exact F|].
             apply (settled_iff h s); auto.
        * split.
          -- intros [(_ & c' & ids' & EC & LR & SE)|(_ & E)]; [apply follow_latest in LR; congruence|exact E].
          -- intros ->. right. split; [|reflexivity]. right. right. apply follow_unsaid. exact F.
      + split.
        * intros [(_ & c' & ids' & EC & LR & SE)|(_ & E)]; [apply keep_earliest in EC; congruence|exact E].
        * intros ->. right. split; [|reflexivity]. right. left. apply keep_unsaid. exact K.
    - split.
      + intros [(X & _)|(_ & E)]; [discriminate|exact E].
      + intros ->. right. split; [left; discriminate|reflexivity].
  Qed.

  Definition is_air (k : kind) : bool := match k with Air => true | _ => false end.
  Lemma around_air : forall h v k p x, around h v (k = Air) p x <-> around h v (is_air k = true) p x.
  Proof.
    intros h v k p x. unfold DynSpec.around. destruct k; cbn [is_air]; intuition (try congruence);
      try (left; intuition; fail); right; intuition congruence.
  Qed.

  Lemma place_iff : forall h s v k p x, inv h s -> around h v (k = Air) p x <-> x = place s v k p.
  Proof.
    intros h s v k p x I. rewrite around_air, (around_iff h s) by exact I. unfold DynModel.place.
    destruct k; cbn [is_air]; destruct (zget (confs s) v); reflexivity.
  Qed.

  Lemma due_iff : forall h s v t1 t2, inv h s ->
    due h v t1 t2 <-> match zget (throttle s) v with Some m => m | None => t1 end + pause <= t2.
  Proof.
    intros h s v t1 t2 I. unfold DynSpec.due. destruct (zget (throttle s) v) as [m|] eqn:T.
    - split.
      + intros [(m' & M & L)|(U & _)].
        * apply (IM _ _ I) in M. rewrite T in M. injection M as <-. exact L.
        * apply (IU _ _ I) in U. congruence.
      + intros L. left. exists m. split; [apply (IM _ _ I); exact T|exact L].
    - split.
      + intros [(m' & M & L)|(_ & L)]; [apply (IM _ _ I) in M; congruence|exact L].
      + intros L. right. split; [apply (IU _ _ I); exact T|exact L].
  Qed.

  Lemma says_route_end : forall v e ws, says_route v e = Some ws -> exists l w, ws = l ++ [w].
  Proof.
    intros v e ws H. destruct e as [| | | | |id u [|[r [|w0 ws0]] rs]|]; try discriminate; cbn in H; destruct ((id =? service) && (u =? v) && (r =? 1)); try discriminate.
    injection H as <-. destruct (last_split w0 ws0) as (l & E). exists l, (last ws0 w0). exact E.
  Qed.

  Lemma arrived_iff : forall h s v k c, inv h s ->
    arrived h v k c <-> match k, zget (lastWp s) v with Ground, Some w => w = c | _, _ => True end.
  Proof.
    intros h s v k c I. unfold DynSpec.arrived. rewrite (IW _ _ I). destruct (follow (says_route v) h) as [ws|] eqn:F; cbn [option_map].
    - pose proof (proj1 (follow_latest _ _ _) F) as L.
      assert (X : exists l w, ws = l ++ [w]). { destruct L as (h1 & e & h2 & _ & S & _). exact (says_route_end _ _ _ S). }
      destruct X as (l & w & E). destruct k; [split; [intros; exact Logic.I|intros _ X; discriminate]| |split; [intros; exact Logic.I|intros _ X; discriminate]]. subst ws. rewrite end_number_spec. split.
      + intros H. apply (H eq_refl _ l w L eq_refl).
      + intros <- _ ws' l' w' L' E'. apply follow_latest in L'. rewrite F in L'. injection L' as <-.
        apply app_inj_tail in E'. destruct E' as (_ & <-). reflexivity.
    - split; [intros _; destruct k; exact Logic.I|]. intros _ _ ws l w L. apply follow_latest in L. congruence.
  Qed.

  Lemma followed_iff : forall h s v k c here tg t1 t2 t3 old x, inv h s ->
    followed h (Active v k c here tg t1 t2 t3) v old x <->
    exists q, tg = Some q
      /\ match zget (throttle s) v with Some m => m | None => t1 end + pause <= t2
      /\ match k, zget (lastWp s) v with Ground, Some w => w = c | _, _ => True end
      /\ (forall y, old = Some y -> (threshold <= shift q y)%Q)
      /\ x = place s v k q.
  Proof.
    intros h s v k c here tg t1 t2 t3 old x I. split.
    - intros (k' & c' & here' & q & u1 & u2 & u3 & E & D & AR & TH & PL). injection E as <- <- <- -> <- <- <-.
      exists q. split; [reflexivity|]. split; [apply (due_iff h s); assumption|]. split; [apply (arrived_iff h s); assumption|].
      split; [exact TH|apply (place_iff h s); assumption].
    - intros (q & -> & D & AR & TH & PL). exists k, c, here, q, t1, t2, t3. split; [reflexivity|].
      split; [apply (due_iff h s); assumption|]. split; [apply (arrived_iff h s); assumption|].
      split; [exact TH|apply (place_iff h s); assumption].
  Qed.

  Lemma followed_other : forall h e v old x, (forall k c p tg t1 t2 t3, e <> Active v k c p tg t1 t2 t3) -> ~ followed h e v old x.
  Proof. intros h e v old x NE (k & c & here & q & t1 & t2 & t3 & E & _). exact (NE _ _ _ _ _ _ _ E). Qed.

  Lemma mark_snoc : forall h e v m, mark (h ++ [e]) v m ->
    (exists k c p tg t1 t2 t3, e = Active v k c p tg t1 t2 t3
       /\ ((~ reported h v /\ t2 < t1 + pause /\ m = t1)
           \/ (~ reported h v /\ t1 + pause <= t2 /\ m = t3)
           \/ (exists m0, mark h v m0 /\ m0 + pause <= t2 /\ m = t3)
           \/ (mark h v m /\ t2 < m + pause)))
    \/ (mark h v m /\ forall k c p tg t1 t2 t3, e <> Active v k c p tg t1 t2 t3).
  Proof.
    intros h e v m M. remember (h ++ [e]) as l eqn:E. destruct M as [h' v k c p tg t1 t2 t3 U L|h' v k c p tg t1 t2 t3 U L|h' v k c p tg t1 t2 t3 m M L|h' v k c p tg t1 t2 t3 m M L|h' e' v m M NE];
      apply app_inj_tail in E; destruct E as (-> & <-).
    - left. exists k, c, p, tg, t1, t2, t3. split; [reflexivity|]. left. auto.
    - left. exists k, c, p, tg, t1, t2, t3. split; [reflexivity|]. right. left. auto.
    - left. exists k, c, p, tg, t1, t2, t3. split; [reflexivity|]. right. right. left. exists m. auto.
    - left. exists k, c, p, tg, t1, t2, t3. split; [reflexivity|]. right. right. right. auto.
    - right. auto.
  Qed.

  Lemma aim_snoc : forall h e v o, aim_of (h ++ [e]) v o ->
    exists old, aim_of h v old /\ ((exists x, followed h e v old x /\ o = Some x) \/ ((forall x, ~ followed h e v old x) /\ o = old)).
  Proof.
    intros h e v o M. remember (h ++ [e]) as l eqn:E. destruct M as [v|h' e' v old x A F|h' e' v old A F].
    - destruct h; discriminate.
    - apply app_inj_tail in E. destruct E as (-> & ->). exists old. split; [exact A|]. left. exists x. auto.
    - apply app_inj_tail in E. destruct E as (-> & ->). exists old. split; [exact A|]. right. auto.
  Qed.

  Lemma inv_init : inv [] init.
  Proof.
    constructor; try reflexivity; cbn [init throttle aims zget].
    - intros v m. split; [discriminate|]. intros M. inversion M as [h ? ? ? ? ? ? ? ? ? ? E|h ? ? ? ? ? ? ? ? ? ? E|h ? ? ? ? ? ? ? ? ? ? ? E|h ? ? ? ? ? ? ? ? ? ? ? E|h ? ? ? ? ? E]; destruct h; discriminate.
    - intros v. split; [|reflexivity]. intros _ (k & c & p & tg & t1 & t2 & t3 & []).
    - intros v o. split.
      + intros A. inversion A as [|h ? ? ? ? ? ? E|h ? ? ? ? ? E]; [reflexivity|destruct h; discriminate|destruct h; discriminate].
      + intros <-. constructor.
  Qed.

  Lemma given_snoc : forall h e, given (h ++ [e]) = given h ++ match e with Automation ms => ms | _ => [] end.
  Proof. intros h e. unfold DynSpec.given. rewrite flat_map_app. cbn [flat_map]. rewrite app_nil_r. reflexivity. Qed.

  Lemma orders_fold : forall ms v (m : zmap (Q * Q)),
    zget (fold_left automation ms m) v = match follow (says_order v) ms with Some x => Some x | None => zget m v end.
  Proof.
    intros ms v m. induction ms as [|x ms IH] using rev_ind; [reflexivity|].
    rewrite fold_left_app, follow_snoc. cbn [fold_left]. unfold automation at 1, DynSpec.says_order at 1.
    destruct x as [u ws]. cbn [fst snd]. destruct ws as [|w ws].
    - cbn [rev]. destruct (u =? v); exact IH.
    - destruct (last_split w ws) as (l & E). assert (ER : rev (w :: ws) = last ws w :: rev l) by (rewrite E, rev_app_distr; reflexivity).
      rewrite ER.
      rewrite zget_set, (Z.eqb_sym v u). destruct (u =? v); [reflexivity|exact IH].
  Qed.

  Lemma follow_app : forall {E A} (says : E -> option A) a b,
    follow says (a ++ b) = match follow says b with Some x => Some x | None => follow says a end.
  Proof.
    intros E A says a b. induction b as [|e b IH] using rev_ind; [rewrite app_nil_r; reflexivity|].
    rewrite app_assoc, !follow_snoc, IH. destruct (says e); reflexivity.
  Qed.

  (** Events that are not reports. *)
  Lemma inv_keep : forall h s e s', inv h s ->
    (forall v k c p tg t1 t2 t3, e <> Active v k c p tg t1 t2 t3) ->
    throttle s' = throttle s -> aims s' = aims s ->
    (forall v, zget (confs s') v = keep (says_config v) (h ++ [e])) ->
    (forall i, zget (zones s') i = follow (says_zone i) (h ++ [e])) ->
    zget (regions s') 0 = follow says_region (h ++ [e]) ->
    (forall v, zget (orders s') v = follow (says_order v) (given (h ++ [e]))) ->
    (forall v, zget (lastWp s') v = option_map end_number (follow (says_route v) (h ++ [e]))) ->
    inv (h ++ [e]) s'.
  Proof.
    intros h s e s' I NE ET EA C1 C2 C3 C4 C5. constructor; auto.
    - intros v m. rewrite ET, (IM _ _ I). split.
      + intros M. apply mark_other; [exact M|]. intros. apply NE.
      + intros M. apply mark_snoc in M. destruct M as [(k & c & p & tg & t1 & t2 & t3 & E & _)|(M & _)]; [destruct (NE _ _ _ _ _ _ _ _ E)|exact M].
    - intros v. rewrite ET, (IU _ _ I). unfold DynSpec.reported. split; intros U (k & c & p & tg & t1 & t2 & t3 & X); apply U; exists k, c, p, tg, t1, t2, t3.
      + apply in_app_or in X. destruct X as [X|[X|[]]]; [exact X|destruct (NE _ _ _ _ _ _ _ _ X)].
      + apply in_or_app. left. exact X.
    - intros v o. rewrite EA, <- (IA _ _ I). split.
      + intros A. apply aim_snoc in A. destruct A as (old & A & [(x & F & _)|(_ & ->)]); [|exact A].
        exfalso. apply (followed_other h e v old x); [intros; apply NE|exact F].
      + intros A. apply aim_same; [exact A|]. intros x. apply followed_other. intros. apply NE.
  Qed.

  Lemma inv_active : forall h s v k c here tg t1 t2 t3 s', inv h s ->
    confs s' = confs s -> zones s' = zones s -> regions s' = regions s -> orders s' = orders s -> lastWp s' = lastWp s ->
    let m := match zget (throttle s) v with Some m => m | None => t1 end in
    throttle s' = zset (throttle s) v (if m + pause <=? t2 then t3 else m) ->
    (forall u, u <> v -> zget (aims s') u = zget (aims s) u) ->
    (forall x, followed h (Active v k c here tg t1 t2 t3) v (zget (aims s) v) x -> zget (aims s') v = Some x) ->
    ((forall x, ~ followed h (Active v k c here tg t1 t2 t3) v (zget (aims s) v) x) -> zget (aims s') v = zget (aims s) v) ->
    inv (h ++ [Active v k c here tg t1 t2 t3]) s'.
  Proof.
    intros h s v k c here tg t1 t2 t3 s' I E1 E2 E3 E4 E5 m ET EO EF EN.
    constructor.
    - intros u. rewrite E1, keep_snoc, (IC _ _ I). cbn [DynSpec.says_config]. destruct (keep _ h); reflexivity.
    - intros i. rewrite E2, follow_snoc. apply (IZ _ _ I).
    - rewrite E3, follow_snoc. apply (IR _ _ I).
    - intros u. rewrite E4, given_snoc, app_nil_r. apply (IO _ _ I).
    - intros u. rewrite E5, follow_snoc. apply (IW _ _ I).
    - intros u m'. rewrite ET, zget_set. destruct (Z.eqb_spec u v) as [->|NE].
      + split.
        * intros X. injection X as <-. unfold m. destruct (zget (throttle s) v) as [m0|] eqn:T.
          -- apply (IM _ _ I) in T. destruct (m0 + pause <=? t2) eqn:D; [apply Z.leb_le in D; eapply mark_attended; eassumption|apply Z.leb_gt in D; apply mark_wait; assumption].
          -- apply (IU _ _ I) in T. destruct (t1 + pause <=? t2) eqn:D; [apply Z.leb_le in D; apply mark_at_once; assumption|apply Z.leb_gt in D; apply mark_first; assumption].
        * intros M. apply mark_snoc in M. destruct M as [(k' & c' & p' & tg' & u1 & u2 & u3 & E & H)|(_ & NE)]; [|destruct (NE _ _ _ _ _ _ _ eq_refl)].
          injection E as <- <- <- <- <- <- <-. unfold m.
          destruct H as [(U & L & ->)|[(U & L & ->)|[(m0 & M & L & ->)|(M & L)]]].
          -- apply (IU _ _ I) in U. rewrite U. replace (t1 + pause <=? t2) with false by (symmetry; apply Z.leb_gt; exact L). reflexivity.
          -- apply (IU _ _ I) in U. rewrite U. replace (t1 + pause <=? t2) with true by (symmetry; apply Z.leb_le; exact L). reflexivity.
          -- apply (IM _ _ I) in M. rewrite M. replace (m0 + pause <=? t2) with true by (symmetry; apply Z.leb_le; exact L). reflexivity.
          -- apply (IM _ _ I) in M. rewrite M. replace (m' + pause <=? t2) with false by (symmetry; apply Z.leb_gt; exact L). reflexivity.
      + rewrite (IM _ _ I). split.
        * intros M. apply mark_other; [exact M|]. intros ? ? ? ? ? ? ? X. injection X. congruence.
        * intros M. apply mark_snoc in M. destruct M as [(k' & c' & p' & tg' & u1 & u2 & u3 & E & H)|(M & _)]; [injection E; congruence|exact M].
    - intros u. rewrite ET, zget_set. destruct (Z.eqb_spec u v) as [->|NE].
      + split; [discriminate|]. intros U. exfalso. apply U. exists k, c, here, tg, t1, t2, t3. apply in_or_app. right. left. reflexivity.
      + rewrite (IU _ _ I). unfold DynSpec.reported. split; intros U (k' & c' & p' & tg' & u1 & u2 & u3 & X); apply U; exists k', c', p', tg', u1, u2, u3.
        * apply in_app_or in X. destruct X as [X|[X|[]]]; [exact X|injection X; congruence].
        * apply in_or_app. left. exact X.
    - intros u o. destruct (Z.eq_dec u v) as [->|NE].
      + split.
        * intros A. apply aim_snoc in A. destruct A as (old & A & [(x & F & ->)|(F & ->)]); apply (IA _ _ I) in A; subst old; [apply EF; exact F|apply EN; exact F].
        * intros <-. destruct (zget (aims s') v) as [x'|] eqn:Z'.
          -- assert (DE : (exists x, followed h (Active v k c here tg t1 t2 t3) v (zget (aims s) v) x) \/ ~ (exists x, followed h (Active v k c here tg t1 t2 t3) v (zget (aims s) v) x)).
             { destruct tg as [q|].
               - assert (FI := followed_iff h s v k c here (Some q) t1 t2 t3 (zget (aims s) v)). fold m in FI.
                 destruct (Z_le_gt_dec (m + pause) t2) as [L|L]; [|right; intros (x & F); apply FI in F; [|exact I]; destruct F as (q' & _ & D & _); lia].
                 assert (GD : (match k, zget (lastWp s) v with Ground, Some w => w = c | _, _ => True end) \/ ~ (match k, zget (lastWp s) v with Ground, Some w => w = c | _, _ => True end)).
                 { destruct k; [left; exact Logic.I| |left; exact Logic.I]. destruct (zget (lastWp s) v) as [w|]; [|left; exact Logic.I]. destruct (Z.eq_dec w c); auto. }
                 destruct GD as [G|G]; [|right; intros (x & F); apply FI in F; [|exact I]; destruct F as (q' & _ & _ & G' & _); contradiction].
                 destruct (zget (aims s) v) as [y|] eqn:A0.
                 + destruct (Qlt_le_dec (shift q y) threshold) as [L'|L'].
                   * right. intros (x & F). apply FI in F; [|exact I]. destruct F as (q' & E & _ & _ & TH & _). injection E as <-.
                     apply (Qlt_not_le _ _ L'). apply TH. reflexivity.
                   * left. exists (place s v k q). apply FI; [exact I|]. exists q. split; [reflexivity|]. split; [exact L|]. split; [exact G|]. split; [|reflexivity].
                     intros y' E. injection E as <-. exact L'.
                 + left. exists (place s v k q). apply FI; [exact I|]. exists q. split; [reflexivity|]. split; [exact L|]. split; [exact G|]. split; [|reflexivity].
                   intros y' E. discriminate.
               - right. intros (x & F). apply (followed_iff h s) in F; [|exact I]. destruct F as (q & E & _). discriminate. }
             destruct DE as [(x & F)|NF].
             ++ specialize (EF x F). assert (x' = x) by congruence. subst x'. eapply aim_new; [apply (IA _ _ I); reflexivity|exact F].
             ++ assert (NF' : forall x, ~ followed h (Active v k c here tg t1 t2 t3) v (zget (aims s) v) x) by (intros x F; apply NF; exists x; exact F).
                specialize (EN NF'). rewrite EN. apply aim_same; [apply (IA _ _ I); reflexivity|exact NF'].
          -- assert (NF' : forall x, ~ followed h (Active v k c here tg t1 t2 t3) v (zget (aims s) v) x) by (intros x F; specialize (EF x F); congruence).
             specialize (EN NF'). rewrite EN. apply aim_same; [apply (IA _ _ I); reflexivity|exact NF'].
      + rewrite (EO u NE), <- (IA _ _ I). split.
        * intros A. apply aim_snoc in A. destruct A as (old & A & [(x & F & _)|(_ & ->)]); [|exact A].
          exfalso. revert F. apply followed_other. intros ? ? ? ? ? ? ? X. injection X. congruence.
        * intros A. apply aim_same; [exact A|]. intros x. apply followed_other. intros ? ? ? ? ? ? ? X. injection X. congruence.
  Qed.

  Lemma place_throttle : forall s v k p u t, place (set_throttle s u t) v k p = place s v k p.
  Proof. reflexivity. Qed.

  (** A report that is attended to. *)
  Lemma attend_spec : forall h s v k c here tg t1 t2 t3, inv h s -> dead s = false ->
    match zget (throttle s) v with Some m => m | None => t1 end + pause <= t2 ->
    match k, zget (lastWp s) v with Ground, Some w => w = c | _, _ => True end ->
    let r := attend (set_throttle s v t3) v k here tg in
    let e := Active v k c here tg t1 t2 t3 in
    (dead (fst r) = false -> inv (h ++ [e]) (fst r))
    /\ (dead (fst r) = true -> snd r = [Crash])
    /\ (snd r = [Crash] <-> tg = None /\ zget (aims s) v <> None)
    /\ (forall q, In (Request q) (snd r) <-> exists x, followed h e v (zget (aims s) v) x
          /\ (threshold <= gap x here)%Q /\ q = {| q_vehicle := v; q_id := service; q_start := lead here x; q_end := x |})
    /\ (snd r = [] \/ snd r = [Crash] \/ exists q, snd r = [Request q]).
  Proof.
    intros h s v k c here tg t1 t2 t3 I D0 D G r e.
    pose proof (fun old x => followed_iff h s v k c here tg t1 t2 t3 old x I) as FI. fold e in FI.
    assert (LE : (match zget (throttle s) v with Some m => m | None => t1 end + pause <=? t2) = true) by (apply Z.leb_le; exact D).
    assert (AC : forall s', confs s' = confs s -> zones s' = zones s -> regions s' = regions s -> orders s' = orders s -> lastWp s' = lastWp s ->
       throttle s' = zset (throttle s) v t3 -> (forall u, u <> v -> zget (aims s') u = zget (aims s) u) ->
       (forall x, followed h e v (zget (aims s) v) x -> zget (aims s') v = Some x) ->
       ((forall x, ~ followed h e v (zget (aims s) v) x) -> zget (aims s') v = zget (aims s) v) -> inv (h ++ [e]) s').
    { intros s' X1 X2 X3 X4 X5 X6 X7 X8 X9. apply (inv_active h s v k c here tg t1 t2 t3 s'); try assumption. cbv zeta. rewrite LE. exact X6. }
    unfold DynModel.attend in r. change (zget (aims (set_throttle s v t3)) v) with (zget (aims s) v) in r.
    destruct tg as [q|].
    - assert (AIM : (forall y, zget (aims s) v = Some y -> (threshold <= shift q y)%Q) -> r = aim service threshold gap inside touches out_of away_from lead radius (set_throttle s v t3) v k here q -> 
        (dead (fst r) = false -> inv (h ++ [e]) (fst r))
        /\ (dead (fst r) = true -> snd r = [Crash])
        /\ (snd r = [Crash] <-> Some q = None /\ zget (aims s) v <> None)
        /\ (forall q, In (Request q) (snd r) <-> exists x, followed h e v (zget (aims s) v) x
              /\ (threshold <= gap x here)%Q /\ q = {| q_vehicle := v; q_id := service; q_start := lead here x; q_end := x |})
        /\ (snd r = [] \/ snd r = [Crash] \/ exists q, snd r = [Request q])).
      { intros TH ->. unfold aim. rewrite place_throttle. cbn [fst snd].
        assert (FO : forall x, followed h e v (zget (aims s) v) x <-> x = place s v k q).
        { intros x. rewrite FI. split.
          - intros (q' & E & _ & _ & _ & ->). injection E as <-. reflexivity.
          - intros ->. exists q. auto. }
        split; [|split; [|split; [|split]]].
        - intros _. apply AC; try reflexivity.
          + intros u NE. cbn [set_aim aims set_throttle]. rewrite zget_set_other by congruence. reflexivity.
          + intros x F. apply FO in F. subst x. cbn [set_aim aims]. rewrite zget_set_same. reflexivity.
          + intros NF. exfalso. apply (NF (place s v k q)). apply FO. reflexivity.
        - cbn [set_aim dead set_throttle]. congruence.
        - split; [|intros (X & _); discriminate]. destruct (Qle_bool threshold (gap (place s v k q) here)); discriminate.
        - intros q0. destruct (Qle_bool threshold (gap (place s v k q) here)) eqn:B; cbn [negb].
          + split.
            * intros [X|[]]. injection X as <-. exists (place s v k q). split; [apply FO; reflexivity|]. split; [apply Qle_bool_iff; exact B|reflexivity].
            * intros (x & F & L & ->). apply FO in F. subst x. left. reflexivity.
          + split; [intros []|]. intros (x & F & L & ->). apply FO in F. subst x. apply Qle_bool_iff in L. congruence.
        - destruct (Qle_bool threshold (gap (place s v k q) here)); cbn [negb]; [right; right; eexists; reflexivity|left; reflexivity]. }
      destruct (zget (aims s) v) as [p0|] eqn:A; [|apply AIM; [intros y X; discriminate|reflexivity]].
      destruct (Qle_bool threshold (shift q p0)) eqn:B; [apply AIM; [intros y X; injection X as <-; apply Qle_bool_iff; exact B|reflexivity]|].
      assert (NF : forall x, ~ followed h e v (Some p0) x).
      { intros x F. apply FI in F. destruct F as (q' & E & _ & _ & TH & _). injection E as <-. specialize (TH p0 eq_refl). apply Qle_bool_iff in TH. congruence. }
      subst r. cbn [negb fst snd]. split; [|split; [|split; [|split]]].
      + intros _. apply AC; try reflexivity.
        * intros x F. destruct (NF x F).
        * intros _. exact A.
      + cbn [set_throttle dead]. congruence.
      + split; [discriminate|intros (X & _); discriminate].
      + intros q0. split; [intros []|]. intros (x & F & _). destruct (NF x F).
      + left. reflexivity.
    - assert (NF : forall old x, ~ followed h e v old x).
      { intros old x F. apply FI in F. destruct F as (q' & E & _). discriminate. }
      destruct (zget (aims s) v) as [p0|] eqn:A; subst r; cbn [fst snd].
      + split; [|split; [|split; [|split]]].
        * discriminate.
        * reflexivity.
        * split; [intros _; split; [reflexivity|discriminate]|reflexivity].
        * intros q0. split; [intros [X|[]]; discriminate|]. intros (x & F & _). destruct (NF _ x F).
        * right. left. reflexivity.
      + split; [|split; [|split; [|split]]].
        * intros _. apply AC; try reflexivity.
          -- intros x F. destruct (NF _ x F).
          -- intros _. exact A.
        * cbn [set_throttle dead]. congruence.
        * split; [discriminate|intros (_ & X); contradiction].
        * intros q0. split; [intros []|]. intros (x & F & _). destruct (NF _ x F).
        * left. reflexivity.
  Qed.

  Lemma active_spec : forall h s v k c here tg t1 t2 t3, inv h s -> dead s = false ->
    let r := active s v k c here tg t1 t2 t3 in
    let e := Active v k c here tg t1 t2 t3 in
    (dead (fst r) = false -> inv (h ++ [e]) (fst r))
    /\ (dead (fst r) = true -> snd r = [Crash])
    /\ (snd r = [Crash] <-> tg = None /\ zget (aims s) v <> None /\ due h v t1 t2 /\ arrived h v k c)
    /\ (forall q, In (Request q) (snd r) <-> exists x, followed h e v (zget (aims s) v) x
          /\ (threshold <= gap x here)%Q /\ q = {| q_vehicle := v; q_id := service; q_start := lead here x; q_end := x |})
    /\ (snd r = [] \/ snd r = [Crash] \/ exists q, snd r = [Request q]).
  Proof.
    intros h s v k c here tg t1 t2 t3 I D0 r e.
    pose proof (due_iff h s v t1 t2 I) as DI. pose proof (arrived_iff h s v k c I) as AI.
    pose proof (fun old x => followed_iff h s v k c here tg t1 t2 t3 old x I) as FI. fold e in FI.
    assert (IDLE : forall s', ~ (due h v t1 t2 /\ arrived h v k c) -> r = (s', []) -> dead s' = false -> inv (h ++ [e]) s' ->
      (dead (fst r) = false -> inv (h ++ [e]) (fst r))
      /\ (dead (fst r) = true -> snd r = [Crash])
      /\ (snd r = [Crash] <-> tg = None /\ zget (aims s) v <> None /\ due h v t1 t2 /\ arrived h v k c)
      /\ (forall q, In (Request q) (snd r) <-> exists x, followed h e v (zget (aims s) v) x
            /\ (threshold <= gap x here)%Q /\ q = {| q_vehicle := v; q_id := service; q_start := lead here x; q_end := x |})
      /\ (snd r = [] \/ snd r = [Crash] \/ exists q, snd r = [Request q])).
    { intros s' NO -> DD II. cbn [fst snd]. split; [auto|]. split; [congruence|]. split; [|split; [|left; reflexivity]].
      - split; [discriminate|]. intros (_ & _ & X). contradiction.
      - intros q. split; [intros []|]. intros (x & F & _). apply FI in F. destruct F as (q' & _ & D & G & _). exfalso. apply NO.
        split; [apply DI; exact D|apply AI; exact G]. }
    unfold DynModel.active in r. set (m := match zget (throttle s) v with Some m => m | None => t1 end) in *.
    destruct (m + pause <=? t2) eqn:LE.
    - apply Z.leb_le in LE. change (zget (lastWp (set_throttle s v t3)) v) with (zget (lastWp s) v) in r.
      assert (GO : (match k, zget (lastWp s) v with Ground, Some w => w = c | _, _ => True end) -> r = attend (set_throttle s v t3) v k here tg ->
        (dead (fst r) = false -> inv (h ++ [e]) (fst r))
        /\ (dead (fst r) = true -> snd r = [Crash])
        /\ (snd r = [Crash] <-> tg = None /\ zget (aims s) v <> None /\ due h v t1 t2 /\ arrived h v k c)
        /\ (forall q, In (Request q) (snd r) <-> exists x, followed h e v (zget (aims s) v) x
              /\ (threshold <= gap x here)%Q /\ q = {| q_vehicle := v; q_id := service; q_start := lead here x; q_end := x |})
        /\ (snd r = [] \/ snd r = [Crash] \/ exists q, snd r = [Request q])).
      { intros G ->. pose proof (attend_spec h s v k c here tg t1 t2 t3 I D0 LE G) as (B1 & B2 & B3 & B4 & B5).
        fold e in B1, B4. split; [exact B1|]. split; [exact B2|]. split; [|split; [exact B4|exact B5]].
        rewrite B3, DI, AI. tauto. }
      destruct k; [apply GO; [exact Logic.I|reflexivity]| |apply GO; [exact Logic.I|reflexivity]].
      destruct (zget (lastWp s) v) as [w|] eqn:W; [|apply GO; [exact Logic.I|reflexivity]].
      destruct (Z.eqb_spec w c) as [->|NE]; [apply GO; [reflexivity|reflexivity]|].
      apply (IDLE (set_throttle s v t3)); [|reflexivity|exact D0|].
      + intros (_ & X). apply AI in X. contradiction.
      + apply (inv_active h s v Ground c here tg t1 t2 t3); try assumption; try reflexivity.
        * fold m. replace (m + pause <=? t2) with true by (symmetry; apply Z.leb_le; exact LE). reflexivity.
        * intros x F. apply FI in F. destruct F as (q' & _ & _ & G & _). contradiction.
    - apply Z.leb_gt in LE. apply (IDLE (set_throttle s v m)); [|reflexivity|exact D0|].
      + intros (X & _). apply DI in X. lia.
      + apply (inv_active h s v k c here tg t1 t2 t3); try assumption; try reflexivity.
        * fold m. replace (m + pause <=? t2) with false by (symmetry; apply Z.leb_gt; exact LE). reflexivity.
        * intros x F. apply FI in F. destruct F as (q' & _ & X & _). lia.
  Qed.

  Lemma offers_spec : forall h s, inv h s -> forall l n os,
    offers inside touches out_of away_from radius s n l = Some os <-> offered h n l os.
  Proof.
    intros h s I. induction l as [|[[v known] tg] l IH]; intros n os; cbn [offers].
    - split; [intros E; injection E as <-; constructor|]. intros H. inversion H. reflexivity.
    - pose proof (IC _ _ I v) as C. destruct known.
      + destruct (zget (confs s) v) as [c|] eqn:Z.
        * assert (EC : earliest (says_config v) h c) by (apply keep_earliest; auto).
          assert (NU : ~ unsaid (says_config v) h) by (intros X; apply keep_unsaid in X; congruence).
          destruct tg as [p|].
          -- set (x := match c_kind c with Air => attempt s p (radius (c_speed c) * (3 # 2)) | _ => p end).
             assert (AR : forall y, around h v (c_kind c = Air) p y <-> y = x).
             { intros y. rewrite around_air, (around_iff h s) by exact I. rewrite Z. subst x. destruct (c_kind c); reflexivity. }
             destruct (offers inside touches out_of away_from radius s (n + 1) l) as [os'|] eqn:R.
             ++ split.
                ** intros E. injection E as <-. apply offered_one with c; [exact EC|apply AR; reflexivity|apply IH; exact R].
                ** intros H. inversion H as [|? ? ? ? ? ? [X|X] H'|? ? ? y c' ? os'' EC' AR' H']; subst; [discriminate|contradiction|].
                   apply keep_earliest in EC'. rewrite <- C in EC'. injection EC' as <-. apply AR in AR'. subst y.
                   apply IH in H'. rewrite R in H'. injection H' as <-. reflexivity.
             ++ split; [discriminate|]. intros H. inversion H as [|? ? ? ? ? ? [X|X] H'|? ? ? y c' ? os'' EC' AR' H']; subst; [discriminate|contradiction|].
                apply IH in H'. congruence.
          -- split; [discriminate|]. intros H. inversion H as [|? ? ? ? ? ? [X|X] H'|]; subst; [discriminate|contradiction].
        * assert (NU : unsaid (says_config v) h) by (apply keep_unsaid; auto). rewrite IH. split.
          -- intros H. apply offered_skip; auto.
          -- intros H. inversion H as [|? ? ? ? ? ? X H'|? ? ? y c' ? os'' EC' AR' H']; subst; [exact H'|].
             apply keep_earliest in EC'. congruence.
      + replace (match zget (confs s) v with _ => _ end) with (offers inside touches out_of away_from radius s n l)
          by (destruct (zget (confs s) v); destruct tg; reflexivity).
        rewrite IH. split; [intros H; apply offered_skip; auto|].
        intros H. inversion H; subst; assumption.
  Qed.

  Lemma step_inv : forall h s e, inv h s -> dead s = false ->
    (dead (fst (step s e)) = false -> inv (h ++ [e]) (fst (step s e)))
    /\ (dead (fst (step s e)) = true -> snd (step s e) = [Crash]).
  Proof.
    intros h s e I D0. unfold DynModel.step. rewrite D0.
    assert (C1 : (forall v, says_config v e = None) -> forall v, zget (confs s) v = keep (says_config v) (h ++ [e])).
    { intros S v. rewrite keep_snoc, S, (IC _ _ I). destruct (keep _ h); reflexivity. }
    assert (C2 : (forall i, says_zone i e = None) -> forall i, zget (zones s) i = follow (says_zone i) (h ++ [e])).
    { intros S i. rewrite follow_snoc, S. apply (IZ _ _ I). }
    assert (C3 : says_region e = None -> zget (regions s) 0 = follow says_region (h ++ [e])).
    { intros S. rewrite follow_snoc, S. apply (IR _ _ I). }
    assert (C4 : (forall ms, e <> Automation ms) -> forall v, zget (orders s) v = follow (says_order v) (given (h ++ [e]))).
    { intros S v. rewrite given_snoc. destruct e; try (rewrite app_nil_r; apply (IO _ _ I)). destruct (S ms eq_refl). }
    assert (C5 : (forall v, says_route v e = None) -> forall v, zget (lastWp s) v = option_map end_number (follow (says_route v) (h ++ [e]))).
    { intros S v. rewrite follow_snoc, S. apply (IW _ _ I). }
    destruct e as [v k c here tg t1 t2 t3|v c|i z|i ids|ms|id v rs|l].
    - pose proof (active_spec h s v k c here tg t1 t2 t3 I D0) as (B1 & B2 & _). split; assumption.
    - cbn [fst snd]. 
      match goal with |- (dead ?X = false -> _) /\ _ => set (s' := X) end.
      assert (SC : forall u, zget (confs s') u = keep (says_config u) (h ++ [Config v c])).
      { subst s'. intros u. rewrite keep_snoc, <- (IC _ _ I). cbn [DynSpec.says_config].
        assert (SET : forall s', s' = {| confs := zset (confs s) v c; zones := zones s; regions := regions s; orders := orders s;
                throttle := throttle s; lastWp := lastWp s; aims := aims s; dead := false |} -> zget (confs s) v = None -> 
                zget (confs s') u = match zget (confs s) u with Some x => Some x | None => if v =? u then Some c else None end).
        { intros s' -> Z. cbn [confs]. rewrite zget_set, (Z.eqb_sym u v). destruct (Z.eqb_spec v u) as [<-|]; [rewrite Z; reflexivity|]. destruct (zget (confs s) u); reflexivity. }
        assert (NOT : (v = u -> zget (confs s) v <> None) -> forall o, zget (confs s) u = match zget (confs s) u with Some x => Some x | None => if v =? u then o else None end).
        { intros H o. destruct (zget (confs s) u) eqn:Z; [reflexivity|]. destruct (Z.eqb_spec v u) as [<-|]; [|reflexivity]. destruct (H eq_refl Z). }
        destruct eligible as [|x0 el].
        - destruct (zin v []); destruct (zget (confs s) v) as [c0|] eqn:Z; (apply NOT; congruence) || (erewrite SET; [|reflexivity|reflexivity]; reflexivity).
        - destruct (zin v (x0 :: el)) eqn:ZI.
          + apply zin_In in ZI. destruct (zget (confs s) v) as [c0|] eqn:Z; [apply NOT; congruence|].
            erewrite SET; [|reflexivity|reflexivity]. destruct (zget (confs s) u); [reflexivity|].
            destruct (Z.eqb_spec v u) as [E|]; [|reflexivity]. rewrite <- E. destruct (in_dec Z.eq_dec v (x0 :: el)); [reflexivity|contradiction].
          + assert (NI : ~ In v (x0 :: el)). { intros X. apply zin_In in X. congruence. }
            replace (match zget (confs s) v with _ => _ end) with s by (destruct (zget (confs s) v); reflexivity).
            destruct (zget (confs s) u); [reflexivity|]. destruct (Z.eqb_spec v u) as [E|]; [|reflexivity]. rewrite <- E.
            destruct (in_dec Z.eq_dec v (x0 :: el)); [contradiction|reflexivity]. }
      assert (SAME : throttle s' = throttle s /\ aims s' = aims s /\ zones s' = zones s /\ regions s' = regions s /\ orders s' = orders s /\ lastWp s' = lastWp s /\ dead s' = false).
      { subst s'. pose proof D0. destruct eligible; [|destruct (zin v _)]; destruct (zget (confs s) v); repeat (split; [reflexivity|]); first [reflexivity|assumption]. }
      destruct SAME as (S1 & S2 & S3 & S4 & S5 & S6 & S7). split; [|rewrite S7; discriminate]. intros _.
      apply (inv_keep h s); try assumption; try discriminate.
      + intros i. rewrite S3. apply C2. reflexivity.
      + rewrite S4. apply C3. reflexivity.
      + intros u. rewrite S5. apply C4. discriminate.
      + intros u. rewrite S6. apply C5. reflexivity.
    - cbn [fst snd dead]. split; [|congruence]. intros _. apply (inv_keep h s); try assumption; try discriminate; try reflexivity; cbn [confs zones regions orders lastWp].
      + apply C1. reflexivity.
      + intros j. rewrite zget_set, follow_snoc, (IZ _ _ I). cbn [DynSpec.says_zone]. rewrite (Z.eqb_sym j i). destruct (i =? j); reflexivity.
      + apply C3. reflexivity.
      + apply C4. discriminate.
      + apply C5. reflexivity.
    - cbn [fst snd dead]. split; [|congruence]. intros _. apply (inv_keep h s); try assumption; try discriminate; try reflexivity; cbn [confs zones regions orders lastWp].
      + apply C1. reflexivity.
      + apply C2. reflexivity.
      + rewrite zget_set, follow_snoc, (IR _ _ I). cbn [DynSpec.says_region]. rewrite (Z.eqb_sym 0 i). destruct (i =? 0); reflexivity.
      + apply C4. discriminate.
      + apply C5. reflexivity.
    - cbn [fst snd dead]. split; [|congruence]. intros _. apply (inv_keep h s); try assumption; try discriminate; try reflexivity; cbn [confs zones regions orders lastWp].
      + apply C1. reflexivity.
      + apply C2. reflexivity.
      + apply C3. reflexivity.
      + intros v. rewrite orders_fold, given_snoc, follow_app, (IO _ _ I). reflexivity.
      + apply C5. reflexivity.
    - unfold routes. 
      assert (KEEP : (forall u, says_route u (Routes id v rs) = None) -> inv (h ++ [Routes id v rs]) s).
      { intros S. apply (inv_keep h s); try assumption; try discriminate; try reflexivity.
        + apply C1. reflexivity.
        + apply C2. reflexivity.
        + apply C3. reflexivity.
        + apply C4. discriminate.
        + apply C5. exact S. }
      destruct rs as [|[r [|w0 ws]] rs].
      + cbn [fst snd]. split; [|congruence]. intros _. apply KEEP. reflexivity.
      + cbn [fst snd]. split; [|congruence]. intros _. apply KEEP. intros u. cbn [DynSpec.says_route]. destruct ((id =? service) && (v =? u) && (r =? 1)); reflexivity.
      + unfold first_route. destruct ((id =? service) && (r =? 1)) eqn:M; cbn [fst snd].
        * split; [|cbn [dead]; congruence]. intros _. apply (inv_keep h s); try assumption; try discriminate; try reflexivity; cbn [confs zones regions orders lastWp].
          -- apply C1. reflexivity.
          -- apply C2. reflexivity.
          -- apply C3. reflexivity.
          -- apply C4. discriminate.
          -- intros u. rewrite zget_set, follow_snoc, (IW _ _ I). cbn [DynSpec.says_route].
             apply andb_true_iff in M. destruct M as (M1 & M2). rewrite M1, M2, (Z.eqb_sym u v). destruct (v =? u); reflexivity.
        * split; [|congruence]. intros _. apply KEEP. intros u. cbn [DynSpec.says_route].
          destruct (id =? service), (r =? 1), (v =? u); cbn in *; congruence.
    - destruct (offers inside touches out_of away_from radius s 1 l) as [os|]; cbn [fst snd]; [|split; [discriminate|reflexivity]].
      split; [|congruence]. intros _. apply (inv_keep h s); try assumption; try discriminate; try reflexivity.
      + apply C1. reflexivity.
      + apply C2. reflexivity.
      + apply C3. reflexivity.
      + apply C4. discriminate.
      + apply C5. reflexivity.
  Qed.

  (** Nothing has crashed so far. *)
  Definition sound (t : list (ev P N * list (out P))) : Prop := forall x, In x t -> ~ In Crash (snd x).

  Lemma run_sound : forall h, sound (snd (run h)) -> inv h (fst (run h)) /\ dead (fst (run h)) = false.
  Proof.
    intros h. induction h as [|e h IH] using rev_ind; [intros _; split; [exact inv_init|reflexivity]|].
    rewrite run_snoc. cbn [fst snd]. intros S. destruct IH as (I & D0).
    { intros x Hx. apply S. apply in_or_app. left. exact Hx. }
    destruct (step_inv h (fst (run h)) e I D0) as (A & B).
    destruct (dead (fst (step (fst (run h)) e))) eqn:D.
    - exfalso. apply (S (e, snd (step (fst (run h)) e))); [apply in_or_app; right; left; reflexivity|]. cbn [snd]. rewrite (B eq_refl). left. reflexivity.
    - auto.
  Qed.

  Lemma step_dead : forall s e, dead s = true -> step s e = (s, []).
  Proof. intros s e E. unfold DynModel.step. rewrite E. reflexivity. Qed.

  Lemma attend_dies : forall s v k here tg, snd (attend s v k here tg) = [Crash] -> dead (fst (attend s v k here tg)) = true.
  Proof.
    intros s v k here tg. unfold DynModel.attend, aim. destruct tg as [p|], (zget (aims s) v) as [p0|]; cbn [fst snd]; try discriminate; try reflexivity.
    - destruct (negb (Qle_bool threshold (shift p p0))); cbn [fst snd]; [discriminate|]. destruct (negb _); discriminate.
    - destruct (negb _); discriminate.
  Qed.

  Lemma alive : forall h, dead (fst (run h)) = false -> sound (snd (run h)).
  Proof.
    intros h. induction h as [|e h IH] using rev_ind; [intros _ x []|].
    rewrite run_snoc. cbn [fst snd]. intros D0.
    assert (DD : dead (fst (run h)) = false).
    { destruct (dead (fst (run h))) eqn:DD; [|reflexivity]. rewrite step_dead in D0 by exact DD. cbn [fst] in D0. congruence. }
    specialize (IH DD). destruct (run_sound h IH) as (I & _). set (s := fst (run h)) in *.
    intros x Hx. apply in_app_or in Hx. destruct Hx as [Hx|[<-|[]]]; [apply IH; exact Hx|]. cbn [snd]. intros HC.
    unfold DynModel.step in HC, D0. rewrite DD in HC, D0.
    destruct e as [v k c here tg t1 t2 t3| | | | |id v rs|l]; cbn [snd In] in HC; try contradiction.
    - destruct (active_spec h s v k c here tg t1 t2 t3 I DD) as (_ & B2 & B3 & _ & B5).
      destruct B5 as [B5|[B5|(q & B5)]]; rewrite B5 in HC; cbn [In] in HC; [contradiction| |destruct HC as [HC|[]]; discriminate].
      clear - B5 D0. unfold DynModel.active in B5, D0.
      match type of B5 with context [if ?b then _ else _] => destruct b end; [|discriminate].
      destruct k; try (rewrite attend_dies in D0 by exact B5; discriminate).
      destruct (zget _ v) as [w|]; [|rewrite attend_dies in D0 by exact B5; discriminate].
      destruct (w =? c); [rewrite attend_dies in D0 by exact B5; discriminate|discriminate].
    - unfold routes in HC. destruct rs as [|[r [|w0 ws]] rs]; cbn [snd In] in HC; try contradiction.
      destruct ((id =? service) && (r =? first_route)); cbn [snd In] in HC; [destruct HC as [HC|[]]; discriminate|contradiction].
    - destruct (offers _ _ _ _ _ _ _ _) as [os|]; cbn [snd fst In die dead] in *; [destruct HC as [HC|[]]; discriminate|discriminate].
  Qed.

  Lemma at_state : forall evs t1 e o t2, history evs = t1 ++ (e, o) :: t2 -> sound t1 ->
    exists s, inv (map fst t1) s /\ dead s = false /\ o = snd (step s e).
  Proof.
    intros evs t1 e o t2 E S. apply run_split in E. destruct E as (s & E1 & _ & E3). cbn [fst snd] in E3.
    destruct (run_sound (map fst t1)) as (I & D0); [rewrite E1; exact S|]. rewrite E1 in I, D0. cbn [fst] in I, D0.
    exists s. auto.
  Qed.

  (** A report of a vehicle on the task leads to a request for a route exactly when the vehicle is to head for a
      new place that is not near; it ends the process when no target is known but one was. *)
  Theorem C57_request : forall evs t1 v k c here tg a b d o t2,
    history evs = t1 ++ (Active v k c here tg a b d, o) :: t2 -> sound t1 ->
    let h := map fst t1 in
    exists old, aim_of h v old /\ (forall old', aim_of h v old' -> old' = old)
      /\ (forall q, In (Request q) o <-> exists x, followed h (Active v k c here tg a b d) v old x
            /\ (threshold <= gap x here)%Q /\ q = {| q_vehicle := v; q_id := service; q_start := lead here x; q_end := x |})
      /\ (In Crash o <-> tg = None /\ old <> None /\ due h v a b /\ arrived h v k c)
      /\ (length o <= 1)%nat /\ (forall m, ~ In (Mission m) o) /\ (forall l, ~ In (Offer l) o).
  Proof.
    intros evs t1 v k c here tg a b d o t2 E S h. destruct (at_state _ _ _ _ _ E S) as (s & I & D0 & ->). fold h in I.
    unfold DynModel.step. rewrite D0. destruct (active_spec h s v k c here tg a b d I D0) as (_ & _ & B3 & B4 & B5).
    exists (zget (aims s) v). split; [apply (IA _ _ I); reflexivity|]. split; [intros o' H; apply (IA _ _ I) in H; congruence|].
    split; [exact B4|]. split; [|destruct B5 as [-> | [-> | (q & ->)]]; cbn [length In]; repeat split; try lia; intros ? []; try discriminate; contradiction].
    rewrite <- B3. destruct B5 as [-> | [-> | (q & ->)]]; cbn [In]; split; intros H; try discriminate; try contradiction; auto.
    - destruct H as [H|[]]; discriminate.
  Qed.

  Lemma fst_app : forall a e (o : list (out P)) b, map fst (a ++ (e, o) :: b) = map fst a ++ (e : ev P N) :: map fst b.
  Proof. intros. rewrite map_app. reflexivity. Qed.

  Lemma mark_from : forall a v t3 b e t1 t2, reading e = Some (t1, t2, t3) -> clock (a ++ e :: b) -> mark (a ++ [e]) v t3 ->
    exists m, mark (a ++ e :: b) v m /\ t3 <= m.
  Proof.
    intros a v t3 b e t1 t2 RE. induction b as [|e' b IH] using rev_ind; intros C M.
    - exists t3. split; [exact M|lia].
    - destruct IH as (m & M' & L); [|exact M|].
      + destruct C as (C1 & C2). split.
        * intros x u1 u2 u3 Hx. apply (C1 x). apply in_app_or in Hx. apply in_or_app. destruct Hx as [Hx|[Hx|Hx]]; [left; exact Hx|right; left; exact Hx|right; right; apply in_or_app; left; exact Hx].
        * intros a0 e0 b0 e1 c0 x1 x2 x3 y1 y2 y3 E. apply (C2 a0 e0 b0 e1 (c0 ++ [e'])).
          rewrite app_comm_cons, app_assoc, E, <- app_assoc. cbn [app]. rewrite <- app_assoc. reflexivity.
      + rewrite app_comm_cons, app_assoc. destruct C as (C1 & C2).
        destruct e' as [u k c p tg u1 u2 u3| | | | | |]; try (exists m; split; [apply mark_other; [exact M'|discriminate]|exact L]).
        destruct (Z.eq_dec u v) as [->|NE]; [|exists m; split; [apply mark_other; [exact M'|congruence]|exact L]].
        destruct (Z_le_gt_dec (m + pause) u2) as [LE|GT].
        * exists u3. split; [apply mark_attended with m; assumption|].
          assert (X : t3 <= u1) by (apply (C2 a e b (Active v k c p tg u1 u2 u3) [] t1 t2 t3 u1 u2 u3 eq_refl RE eq_refl)).
          assert (Y : u1 <= u2 <= u3) by (apply (C1 (Active v k c p tg u1 u2 u3)); [apply in_or_app; right; right; apply in_or_app; right; left; reflexivity|reflexivity]). lia.
        * exists m. split; [apply mark_wait; [exact M'|lia]|exact L].
  Qed.

  (** If the clock never goes back, two requests for the same vehicle are at least the pause apart. *)
  Theorem C57_rate : forall evs t1 v k c p tg a b d o t2 k' c' p' tg' a' b' d' o' t3 q q',
    history evs = t1 ++ (Active v k c p tg a b d, o) :: t2 ++ (Active v k' c' p' tg' a' b' d', o') :: t3 ->
    clock evs -> In (Request q) o -> In (Request q') o' -> d + pause <= b'.
  Proof.
    intros evs t1 v k c p tg a b d o t2 k' c' p' tg' a' b' d' o' t3 q q' E C H H'.
    assert (EV : map fst (history evs) = evs) by (apply run_events).
    assert (E2 : history evs = (t1 ++ (Active v k c p tg a b d, o) :: t2) ++ (Active v k' c' p' tg' a' b' d', o') :: t3) by (rewrite E, <- app_assoc; reflexivity).
    assert (S2 : sound (t1 ++ (Active v k c p tg a b d, o) :: t2)).
    { (* a crash ends everything *)
      assert (R : exists s, run (map fst (t1 ++ (Active v k c p tg a b d, o) :: t2)) = (s, t1 ++ (Active v k c p tg a b d, o) :: t2) /\ o' = snd (step s (Active v k' c' p' tg' a' b' d'))).
      { apply run_split in E2. destruct E2 as (s & X & _ & Y). exists s. auto. }
      destruct R as (s & X & Y). 
      assert (DD : dead s = false). { unfold DynModel.step in Y. destruct (dead s); [|reflexivity]. rewrite Y in H'. destruct H'. }
      rewrite <- (f_equal snd X : snd (run (map fst (t1 ++ (Active v k c p tg a b d, o) :: t2))) = t1 ++ (Active v k c p tg a b d, o) :: t2).
      apply alive. rewrite X. exact DD. }
    assert (S1 : sound t1) by (intros x Hx; apply S2; apply in_or_app; left; exact Hx).
    destruct (C57_request _ _ _ _ _ _ _ _ _ _ _ _ E S1) as (old & _ & _ & R & _). apply R in H. destruct H as (x & F & _).
    destruct (C57_request _ _ _ _ _ _ _ _ _ _ _ _ E2 S2) as (old' & _ & _ & R' & _). apply R' in H'. destruct H' as (x' & F' & _).
    destruct F as (? & ? & ? & ? & ? & ? & ? & EQ & DU & _). injection EQ; intros; subst.
    destruct F' as (? & ? & ? & ? & ? & ? & ? & EQ' & DU' & _). injection EQ'; intros; subst.
    destruct (at_state _ _ _ _ _ E2 S2) as (s & I & _ & _). rewrite fst_app in *.
    match goal with |- ?d + pause <= ?b' => set (dd := d) in *; set (bb := b') in * end.
    match type of I with inv (map fst t1 ++ ?e :: _) _ => set (e1 := e) in * end.
    destruct (mark_from (map fst t1) v dd (map fst t2) e1 x4 x5) as (m & M & L); [reflexivity| | |].
    - rewrite <- EV, E in C. rewrite map_app in C. cbn [map fst] in C. rewrite map_app in C. cbn [map fst] in C. fold e1 in C. destruct C as (C1 & C2). split.
      + intros y u1 u2 u3 Hy. apply (C1 y). apply in_app_or in Hy. apply in_or_app. destruct Hy as [Hy|[Hy|Hy]]; [left; exact Hy|right; left; exact Hy|right; right; apply in_or_app; left; exact Hy].
      + intros a0 e0 b0 e2 c0 y1 y2 y3 z1 z2 z3 EE. eapply (C2 a0 e0 b0 e2). 
        change (map fst t1 ++ e1 :: map fst t2 ++ ?r) with (map fst t1 ++ (e1 :: map fst t2) ++ r). rewrite app_assoc, EE, <- app_assoc. cbn [app]. rewrite <- app_assoc. reflexivity.
    - subst e1. destruct DU as [(m & M & L)|(NR & L)]; [apply mark_attended with m; assumption|apply mark_at_once; assumption].
    - destruct DU' as [(m' & M' & L')|(NR & _)].
      + apply (IM _ _ I) in M, M'. rewrite M in M'. injection M' as <-. lia.
      + exfalso. apply NR. unfold DynSpec.reported. subst e1. do 7 eexists. apply in_or_app. right. left. reflexivity.
  Qed.

  Lemma nth_first : forall f (l : list (wp P)) i,
    nth_error (on_first f l) i = option_map (if Nat.eqb i 0 then f else fun w => w) (nth_error l i).
  Proof. intros f [|w l] [|i]; try reflexivity. cbn. destruct (nth_error l i); reflexivity. Qed.

  Lemma nth_last : forall f (l : list (wp P)) i,
    nth_error (on_last f l) i = option_map (if Nat.eqb (S i) (length l) then f else fun w => w) (nth_error l i).
  Proof.
    induction l as [|w [|w' l] IH]; intros i.
    - destruct i; reflexivity.
    - destruct i as [|[|i]]; reflexivity.
    - destruct i as [|i]; [reflexivity|]. change (on_last f (w :: w' :: l)) with (w :: on_last f (w' :: l)). cbn [nth_error]. rewrite IH. reflexivity.
  Qed.

  Lemma length_first : forall f (l : list (wp P)), length (on_first f l) = length l.
  Proof. intros f [|w l]; reflexivity. Qed.
  Lemma length_last : forall f (l : list (wp P)), length (on_last f l) = length l.
  Proof. induction l as [|w [|w' l] IH]; [reflexivity..|]. cbn in *. rewrite IH. reflexivity. Qed.

  Lemma fly_spec : forall h s v w0 ws, inv h s -> flight h v (w0 :: ws) (fly task radius s v (w0 :: ws)).
  Proof.
    intros h s v w0 ws I. unfold DynSpec.flight, fly. set (l := w0 :: ws). cbn [m_vehicle m_first m_wps].
    split; [reflexivity|]. split; [exists w0, ws; auto|].
    set (ws1 := on_last close (map (dress task (zget (orders s) v)) l)).
    assert (L1 : length ws1 = length l) by (subst ws1; rewrite length_last, map_length; reflexivity).
    split; [destruct (zget (confs s) v), (zget (aims s) v); rewrite ?length_last, ?length_first; exact L1|].
    intros i w NW.
    assert (N1 : nth_error ws1 i = Some ((if Nat.eqb (S i) (length l) then close else fun w => w) (dress task (zget (orders s) v) w))).
    { subst ws1. rewrite nth_last, map_length, nth_error_map, NW. reflexivity. }
    set (w1 := (if Nat.eqb (S i) (length l) then close else fun w => w) (dress task (zget (orders s) v) w)) in *.
    assert (F1 : w_number w1 = w_number w /\ w_next w1 = (if Nat.eqb (S i) (length l) then w_number w else w_next w) /\ w_tasks w1 = w_tasks w ++ [task] /\ w_acts w1 = w_acts w
      /\ w_speed w1 = match zget (orders s) v with Some x => fst x | None => w_speed w end
      /\ w_alt w1 = match zget (orders s) v with Some x => snd x | None => w_alt w end)
      by (subst w1; destruct (Nat.eqb (S i) (length l)); repeat split; reflexivity).
    clearbody w1. destruct F1 as (F1 & F2 & F3 & F4 & F5 & F6).
    assert (OS : forall sp a, latest (says_order v) (given h) (sp, a) -> zget (orders s) v = Some (sp, a)) by (intros sp a X; rewrite (IO _ _ I); apply follow_latest; exact X).
    assert (ON : unsaid (says_order v) (given h) -> zget (orders s) v = None) by (intros X; rewrite (IO _ _ I); apply follow_unsaid; exact X).
    assert (SPD : forall w' : wp P, w_speed w' = w_speed w1 -> w_alt w' = w_alt w1 ->
       (forall sp a, latest (says_order v) (given h) (sp, a) -> w_speed w' = sp /\ w_alt w' = a)
       /\ (unsaid (says_order v) (given h) -> w_speed w' = w_speed w /\ w_alt w' = w_alt w)).
    { intros w' A B. rewrite A, B, F5, F6. split; [intros sp a X; rewrite (OS _ _ X); auto|intros X; rewrite (ON X); auto]. }
    destruct (zget (confs s) v) as [c|] eqn:ZC.
    - assert (EC : earliest (says_config v) h c) by (apply keep_earliest; rewrite <- (IC _ _ I); exact ZC).
      destruct (zget (aims s) v) as [x|] eqn:ZA.
      + set (w2 := (if Nat.eqb (S i) (length l) then (fun w => add_acts w [loiter radius s v c x]) else fun w => w)
                    ((if Nat.eqb i 0 then (fun w => add_acts w (stares c x)) else fun w => w) w1)).
        exists w2. split; [rewrite nth_last, length_first, L1, nth_first, N1; reflexivity|].
        assert (G : w_number w2 = w_number w1 /\ w_next w2 = w_next w1 /\ w_tasks w2 = w_tasks w1 /\ w_speed w2 = w_speed w1 /\ w_alt w2 = w_alt w1
          /\ w_acts w2 = w_acts w1 ++ (if Nat.eqb i 0 then stares c x else []) ++ (if Nat.eqb (S i) (length l) then [loiter radius s v c x] else [])).
        { subst w2. destruct (Nat.eqb (S i) (length l)), (Nat.eqb i 0); cbn [add_acts w_number w_next w_tasks w_speed w_alt w_acts app]; rewrite ?app_nil_r, <- ?app_assoc; repeat split; reflexivity. }
        clearbody w2. destruct G as (G1 & G2 & G3 & G4 & G5 & G6).
        split; [congruence|]. split; [congruence|]. split; [congruence|]. destruct (SPD w2 G4 G5) as (SP1 & SP2).
        split; [exact SP1|]. split; [exact SP2|]. split.
        * intros c' x' EC' A'. apply keep_earliest in EC'. rewrite <- (IC _ _ I), ZC in EC'. injection EC' as <-.
          apply (IA _ _ I) in A'. rewrite ZA in A'. injection A' as <-.
          exists (match zget (orders s) v with Some (_, a) => a | None => c_alt c end).
          split; [rewrite G6, F4; unfold loiter, stares; destruct (c_kind c); reflexivity|].
          split; [intros sp a X; rewrite (OS _ _ X); reflexivity|intros X; rewrite (ON X); reflexivity].
        * intros [X|X]; [apply keep_unsaid in X; rewrite <- (IC _ _ I) in X; congruence|apply (IA _ _ I) in X; congruence].
      + exists w1. split; [exact N1|]. split; [exact F1|]. split; [exact F2|]. split; [exact F3|]. destruct (SPD w1 eq_refl eq_refl) as (SP1 & SP2).
        split; [exact SP1|]. split; [exact SP2|]. split; [|intros _; exact F4]. intros c' x' _ A'. apply (IA _ _ I) in A'. congruence.
    - exists w1. split; [exact N1|]. split; [exact F1|]. split; [exact F2|]. split; [exact F3|]. destruct (SPD w1 eq_refl eq_refl) as (SP1 & SP2).
      split; [exact SP1|]. split; [exact SP2|]. split; [|intros _; exact F4]. intros c' x' EC' _. apply keep_earliest in EC'. rewrite <- (IC _ _ I) in EC'. congruence.
  Qed.

  (** A route for this service with waypoints becomes a mission for the vehicle; nothing else does. *)
  Theorem C57_mission : forall evs t1 e o t2, history evs = t1 ++ (e, o) :: t2 -> sound t1 ->
    (forall v ws rest, e = Routes service v ((1, ws) :: rest) -> ws <> [] ->
       exists m, o = [Mission m] /\ flight (map fst t1) v ws m)
    /\ (forall m, In (Mission m) o -> exists v ws rest, e = Routes service v ((1, ws) :: rest) /\ ws <> []).
  Proof.
    intros evs t1 e o t2 E S. destruct (at_state _ _ _ _ _ E S) as (s & I & D0 & ->). split.
    - intros v ws rest -> NE. destruct ws as [|w0 ws]; [contradiction|]. unfold DynModel.step. rewrite D0. unfold routes, first_route.
      rewrite !Z.eqb_refl. cbn [andb snd]. eexists. split; [reflexivity|]. apply fly_spec. exact I.
    - intros m H. destruct e as [v k c here tg a b d| | | | |id v rs|l].
      + destruct (C57_request _ _ _ _ _ _ _ _ _ _ _ _ E S) as (_ & _ & _ & _ & _ & _ & X & _). destruct (X _ H).
      + unfold DynModel.step in H. rewrite D0 in H. destruct H.
      + unfold DynModel.step in H. rewrite D0 in H. destruct H.
      + unfold DynModel.step in H. rewrite D0 in H. destruct H.
      + unfold DynModel.step in H. rewrite D0 in H. destruct H.
      + unfold DynModel.step in H. rewrite D0 in H. unfold routes, first_route in H. destruct rs as [|[r [|w0 ws]] rs]; [destruct H..|].
        destruct (Z.eqb_spec id service) as [->|]; [|destruct H]. destruct (Z.eqb_spec r 1) as [->|]; [|destruct H].
        exists v, (w0 :: ws), rs. split; [reflexivity|discriminate].
      + unfold DynModel.step in H. rewrite D0 in H. destruct (offers _ _ _ _ _ _ _ _); cbn [snd In] in H; destruct H as [H|[]]; discriminate.
  Qed.

  Lemma offers_none : forall h s, inv h s -> forall l n,
    offers inside touches out_of away_from radius s n l = None <-> exists v, In (v, true, None) l /\ ~ unsaid (says_config v) h.
  Proof.
    intros h s I. induction l as [|[[v known] tg] l IH]; intros n; cbn [offers].
    - split; [discriminate|intros (v & [] & _)].
    - assert (C : zget (confs s) v = None <-> unsaid (says_config v) h) by (rewrite (IC _ _ I); apply keep_unsaid).
      assert (REST : (exists u, In (u, true, None) l /\ ~ unsaid (says_config u) h) -> exists u, In (u, true, None) ((v, known, tg) :: l) /\ ~ unsaid (says_config u) h).
      { intros (u & X & Y). exists u. split; [right; exact X|exact Y]. }
      assert (BACK : known = false \/ zget (confs s) v = None \/ tg <> None -> (exists u, In (u, true, None) ((v, known, tg) :: l) /\ ~ unsaid (says_config u) h) -> exists u, In (u, true, None) l /\ ~ unsaid (says_config u) h).
      { intros W (u & [X|X] & Y); [|exists u; auto]. exfalso. injection X; intros; subst. destruct W as [W|[W|W]]; [discriminate|apply Y, C, W|apply W; reflexivity]. }
      destruct known; [|replace (match zget (confs s) v with _ => _ end) with (offers inside touches out_of away_from radius s n l) by (destruct (zget (confs s) v); destruct tg; reflexivity); rewrite IH; split; auto].
      destruct (zget (confs s) v) as [c|] eqn:Z; [|rewrite IH; split; auto].
      destruct tg as [p|].
      + assert (K : forall A (x : option A) B (f : A -> B), match x with Some os => Some (f os) | None => None end = None <-> x = None) by (intros A [x|] B f; split; congruence).
        rewrite (K _ _ _ (fun os => {| o_id := n; o_vehicle := v; o_loc := match c_kind c with Air => attempt s p (radius (c_speed c) * (3 # 2)) | _ => p end |} :: os)).
        rewrite IH. split; [exact REST|apply BACK; right; right; discriminate].
      + split; [|reflexivity]. intros _. exists v. split; [left; reflexivity|]. intros X. apply C in X. discriminate.
  Qed.

  (** One option for each vehicle with a known state and configuration, at its target; without a target the
      process ends. *)
  Theorem C57_offers : forall evs t1 l o t2, history evs = t1 ++ (Options l, o) :: t2 -> sound t1 ->
    let h := map fst t1 in
    (forall os, In (Offer os) o <-> offered h 1 l os)
    /\ (In Crash o <-> exists v, In (v, true, None) l /\ ~ unsaid (says_config v) h)
    /\ length o = 1%nat.
  Proof.
    intros evs t1 l o t2 E S h. destruct (at_state _ _ _ _ _ E S) as (s & I & D0 & ->). fold h in I.
    unfold DynModel.step. rewrite D0.
    pose proof (offers_spec h s I l 1) as OS. pose proof (offers_none h s I l 1) as ON.
    destruct (offers _ _ _ _ _ _ _ _) as [os|]; cbn [snd].
    - split; [|split; [|reflexivity]].
      + intros os'. rewrite <- OS. split; [intros [X|[]]; congruence|intros X; left; congruence].
      + rewrite <- ON. split; [intros [X|[]]; discriminate|discriminate].
    - split; [|split; [|reflexivity]].
      + intros os'. rewrite <- OS. split; [intros [X|[]]; discriminate|discriminate].
      + split; [intros _; apply ON; reflexivity|intros _; left; reflexivity].
  Qed.

  (** After a crash there is nothing. *)
  Theorem C57_end : forall evs t1 e o t2, history evs = t1 ++ (e, o) :: t2 -> In Crash o -> sent t2 = [].
  Proof.
    intros evs t1 e o t2 E H.
    assert (X : forall s t, run (map fst t) = (s, t) -> dead s = true -> forall r u evs', snd (run evs') = t ++ r ++ u -> sent r = []).
    { intros s t R D0 r. induction r as [|[e' o'] r IH] using rev_ind; intros u evs' EE; [reflexivity|].
      assert (Y : sent r = []) by (apply (IH ((e', o') :: u) evs'); rewrite EE, <- app_assoc; reflexivity).
      rewrite sent_app, Y. cbn. rewrite app_nil_r. rewrite app_assoc, app_assoc, <- (app_assoc (t ++ r)) in EE. cbn [app] in EE. apply run_split in EE. destruct EE as (s' & R' & _ & EO). cbn [fst snd] in EO. rewrite EO.
      rewrite step_dead; [reflexivity|].
      assert (DD : forall b, dead (fst (run (map fst t ++ b))) = true).
      { intros b. induction b as [|y b IHb] using rev_ind; [rewrite app_nil_r, R; exact D0|]. rewrite app_assoc, run_snoc. cbn [fst]. rewrite step_dead by exact IHb. exact IHb. }
      specialize (DD (map fst r)). rewrite <- map_app, R' in DD. exact DD. }
    pose proof E as E0. apply run_split in E0. destruct E0 as (s & R & R2 & EO). cbn [fst snd] in R2, EO.
    apply (X (fst (step s e)) (t1 ++ [(e, o)])) with (u := []) (evs' := evs).
    - rewrite map_app. cbn [map fst]. rewrite R2. reflexivity.
    - destruct (dead (fst (step s e))) eqn:DD; [reflexivity|]. exfalso.
      apply (alive (map fst t1 ++ [e])) with (x := (e, o)); [rewrite R2; exact DD|rewrite R2; apply in_or_app; right; left; reflexivity|exact H].
    - rewrite app_nil_r. rewrite <- app_assoc. exact E.
  Qed.
End Proofs.

(** Places on a line, distances in metres, zones between two places. *)
Definition far (a b : Z) : Q := inject_Z (Z.abs (a - b)).
Definition within (z : Z * Z) (p : Z) : bool := (fst z <=? p) && (p <=? snd z).
Definition near (z : Z * Z) (p : Z) (r : Q) : bool := Qle_bool (inject_Z (fst z)) (inject_Z p + r) && Qle_bool (inject_Z p - r) (inject_Z (snd z)).
Definition up (q : Q) : Z := - ((- Qnum q) / Zpos (Qden q)).
Definition right_of (z : Z * Z) (p : Z) (r : Q) : Z := snd z + up r.
Definition ahead (here aim : Z) : Z := if here <? aim then here + 50 else here - 50.
Definition turn (s : Q) : Q := s * 2.
Definition play (evs : list (ev Z (Z * Z))) := history 9 77 [] 3000 400 far far within near right_of right_of ahead turn evs.
Definition uav : config := {| c_kind := Air; c_speed := 20; c_alt := 700; c_gimbals := [4; 5] |}.
Definition way (n m : Z) : wp Z := {| w_number := n; w_next := m; w_speed := 15; w_alt := 100; w_tasks := []; w_acts := [] |}.
Definition at_ (v here : Z) (tg : option Z) (t : Z) : ev Z (Z * Z) := Active v Air 0 here tg t t t.

(** The first report is put off, the second leads to a request, the route to a mission; a small movement of the
    target is not followed, the next one is, around a zone. *)
Definition chase : list (ev Z (Z * Z)) :=
  [Config 1 uav; Options [(1, true, Some 900); (2, true, Some 0)]; at_ 1 0 (Some 1000) 5000; at_ 1 0 (Some 1000) 8000;
   Automation [(1, [way 1 2; {| w_number := 2; w_next := 3; w_speed := 18; w_alt := 300; w_tasks := []; w_acts := [] |}])];
   Routes 9 1 [(1, [way 1 2; way 2 3])]; at_ 1 500 (Some 1399) 11000; Zone 6 (1900, 2100); Region 0 [6]; at_ 1 900 (Some 2000) 14000].

Example C57_chase :
  map snd (play chase) =
  [[]; [Offer [{| o_id := 1; o_vehicle := 1; o_loc := 900 |}]]; [];
   [Request {| q_vehicle := 1; q_id := 9; q_start := 50; q_end := 1000 |}];
   [];
   [Mission {| m_vehicle := 1; m_first := 1;
      m_wps := [{| w_number := 1; w_next := 2; w_speed := 18; w_alt := 300; w_tasks := [77];
                   w_acts := [Stare 4 1000; Stare 5 1000] |};
                {| w_number := 2; w_next := 2; w_speed := 18; w_alt := 300; w_tasks := [77];
                   w_acts := [Loiter 1000 300 40 20 false] |}] |}];
   []; []; [];
   [Request {| q_vehicle := 1; q_id := 9; q_start := 950; q_end := 2160 |}]].
Proof. vm_compute. reflexivity. Qed.

(** Its clock never goes back, and nothing crashes. *)
Example C57_chase_sound : sound (play chase) /\ clock chase.
Proof.
  split.
  - intros x H. apply (in_map snd) in H. rewrite C57_chase in H. cbn [In] in H. intros C.
    repeat match type of H with _ \/ _ => destruct H as [H|H] end; try contradiction;
      rewrite <- H in C; cbn [In] in C; repeat match type of C with _ \/ _ => destruct C as [C|C] end; try contradiction; discriminate.
  - split.
    + intros e t1 t2 t3 H R. unfold chase in H. cbn [In] in H.
      repeat match type of H with _ \/ _ => destruct H as [<-|H] end; try contradiction; cbn in R; try discriminate; injection R; intros; lia.
    + intros a e b e' c t1 t2 t3 u1 u2 u3 E R R'. unfold chase in E.
      unfold at_ in E.
      repeat (destruct a as [|? a]; cbn [app] in E;
        [try discriminate; injection E as <- E; cbn in R; try discriminate; injection R as _ _ <-;
         repeat (destruct b as [|? b]; cbn [app] in E;
           [try discriminate; injection E as <- E; cbn in R'; try discriminate; injection R' as <- _ _; lia
           |try discriminate; injection E as _ E]); fail
        |try discriminate; injection E as _ E]).
Qed.

(** As long as the target stays near where the vehicle was sent, no further request is made: if the route never
    comes, the vehicle is left where it is. *)
Theorem C57_lost_refuted : forall l,
  (forall e, In e l -> exists p t, e = at_ 1 p (Some 1000) t) ->
  sent (play ([Config 1 uav; at_ 1 0 (Some 1000) 5000; at_ 1 0 (Some 1000) 8000] ++ l))
  = [Request {| q_vehicle := 1; q_id := 9; q_start := 50; q_end := 1000 |}].
Proof.
  intros l H. set (first := [Config 1 uav; at_ 1 0 (Some 1000) 5000; at_ 1 0 (Some 1000) 8000]).
  unfold play, history. set (st_ := DynModel.step _ _ _ _ _ _ _ _ _ _ _ _ _).
  assert (G : zget (aims (fst (run st_ init (first ++ l)))) 1 = Some 1000 /\ dead (fst (run st_ init (first ++ l))) = false
    /\ sent (snd (run st_ init (first ++ l))) = [Request {| q_vehicle := 1; q_id := 9; q_start := 50; q_end := 1000 |}]).
  { induction l as [|e l IH] using rev_ind; [vm_compute; auto|].
    destruct IH as (A & D & S); [intros e' H'; apply H; apply in_or_app; auto|].
    rewrite app_assoc, run_snoc. cbn [fst snd]. rewrite sent_snoc, S.
    destruct (H e) as (p & t & ->); [apply in_or_app; right; left; reflexivity|].
    set (s := fst (run st_ init (first ++ l))) in *. unfold st_, DynModel.step. rewrite D. unfold at_, active.
    match goal with |- context [if ?b then _ else _] => destruct b end.
    - unfold attend. cbn [set_throttle aims]. rewrite A. cbn. auto.
    - cbn [fst snd set_throttle aims dead app]. auto. }
  apply G.
Qed.

(** A report for which the derived task knows no target ends the process once there has been one. *)
Theorem C57_stale_refuted : exists evs, In Crash (sent (play evs)) /\ (forall l, ~ In (Options l) evs).
Proof.
  exists [Config 1 uav; at_ 1 0 (Some 1000) 5000; at_ 1 0 (Some 1000) 8000; at_ 1 0 None 11000].
  split; [vm_compute; auto|]. intros l H. cbn [In at_] in H. repeat destruct H as [H|H]; try discriminate; contradiction.
Qed.

(** A changed configuration has no effect: the loiter has the old speed. *)
Definition fast : config := {| c_kind := Air; c_speed := 40; c_alt := 700; c_gimbals := [] |}.
Theorem C57_first_config_refuted : exists m,
  sent (play [Config 1 uav; Config 1 fast; at_ 1 0 (Some 1000) 5000; at_ 1 0 (Some 1000) 8000; Routes 9 1 [(1, [way 1 2])]])
  = [Request {| q_vehicle := 1; q_id := 9; q_start := 50; q_end := 1000 |}; Mission m]
  /\ map w_acts (m_wps m) = [[Stare 4 1000; Stare 5 1000; Loiter 1000 700 40 20 false]].
Proof. eexists. split; vm_compute; reflexivity. Qed.

(** A target moved out of one zone is sent into the next one. *)
Theorem C57_two_zones_refuted : exists q,
  sent (play [Config 1 uav; Zone 6 (900, 1100); Zone 7 (1150, 1400); Region 0 [6; 7];
              at_ 1 0 (Some 1000) 5000; at_ 1 0 (Some 1000) 8000]) = [Request q]
  /\ within (1150, 1400) (q_end q) = true.
Proof. eexists. split; vm_compute; reflexivity. Qed.

(** Zones of an operating region other than 0 are not respected. *)
Theorem C57_other_region_refuted : exists q,
  sent (play [Config 1 uav; Zone 6 (900, 1100); Region 5 [6]; at_ 1 0 (Some 1000) 5000; at_ 1 0 (Some 1000) 8000]) = [Request q]
  /\ within (900, 1100) (q_end q) = true.
Proof. eexists. split; vm_compute; reflexivity. Qed.

Print Assumptions C57_request.
Print Assumptions C57_rate.
Print Assumptions C57_mission.
Print Assumptions C57_offers.
Print Assumptions C57_end.
Print Assumptions C57_lost_refuted.
Print Assumptions C57_stale_refuted.
Print Assumptions C57_first_config_refuted.
Print Assumptions C57_two_zones_refuted.
Print Assumptions C57_other_region_refuted.

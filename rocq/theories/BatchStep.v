(** The invariant of the batch summary service is kept by its steps. *)
From Coq Require Import List ZArith Bool Permutation Lia.
From Verif Require Import ZMap Run BatchModel BatchSpec BatchProofs BatchInv BatchRun.
Import ListNotations.
Open Scope list_scope.
Open Scope Z_scope.

Lemma number_length n l : length (number n l) = length l.
Proof. revert n. induction l as [|a l IH]; intros n; [reflexivity|]. cbn. rewrite IH. reflexivity. Qed.

Lemma number_fst l : forall n, map fst (number (Z.of_nat n) l) = map Z.of_nat (seq n (length l)).
Proof.
  induction l as [|a l IH]; intros n; [reflexivity|]. cbn [number map length seq fst]. f_equal. rewrite <- IH. f_equal. f_equal. lia.
Qed.

Lemma number_snd l : forall n, map snd (number n l) = l.
Proof. induction l as [|a l IH]; intros n; [reflexivity|]. cbn. rewrite IH. reflexivity. Qed.

Lemma ids_plans l : ids (map (fun x => OutPlan (fst x) (snd x)) l) = map fst l.
Proof. unfold ids. induction l as [|x l IH]; [reflexivity|]. cbn. rewrite IH. reflexivity. Qed.

Section Step.
  Context (flight : wp -> wp -> Z) (dist : Z -> Z -> Z) (hits : Z -> loiter -> bool).
  Local Notation step := (step flight dist hits).
  Local Notation onResponse := (onResponse flight dist hits).
  Local Notation sums_up := (sums_up flight).
  Local Notation assessAll := (assessAll dist hits).
  Local Notation assess := (assess dist hits).
  Local Notation update := (update flight).

  Lemma assess_view e l : view (assessAll e l) = view l.
  Proof.
    unfold view, BatchModel.assessAll. rewrite map_map. apply map_ext. intros y. cbn. rewrite map_map. reflexivity.
  Qed.

  Lemma view_tasks l : map fst (view l) = map t_task l.
  Proof. unfold view. rewrite map_map. reflexivity. Qed.

  Lemma sums_start q : sums_up q [] {| p_id := q_id q; p_sums := fst (split q) |}.
  Proof.
    unfold BatchSpec.sums_up. cbn [p_id p_sums]. split; [reflexivity|]. split; [apply split_tasks|]. intros P _ y I.
    pose proof (split_view q (proj1 P)) as V.
    assert (J : In (t_task y, map line (t_vehicles y)) (view (fst (split q)))) by (unfold view; apply in_map_iff; exists y; auto).
    rewrite V in J. apply in_map_iff in J. destruct J as (t & [= <- <-] & _). split; [reflexivity|].
    intros x Ls K F. inversion F; subst. destruct (split_blank q y x I K) as (v & i & d & ->). unfold reports, mine. cbn. auto.
  Qed.

  Lemma sums_answer e q ms ms' p : sums_up q ms p ->
    sums_up q (ms ++ ms') {| p_id := p_id p; p_sums := assessAll e (update ms' (p_sums p)) |}.
  Proof.
    intros (A & B & C). split; [exact A|]. cbn [p_sums].
    assert (VV : view (assessAll e (update ms' (p_sums p))) = view (p_sums p)) by (rewrite assess_view; apply update_view).
    split; [rewrite <- view_tasks, VV, view_tasks; exact B|].
    intros P S y I. apply Forall_app in S. destruct S as (S & S'). specialize (C P S).
    assert (V : view (p_sums p) = map (fun t => (t, lines q t)) (q_tasks q)).
    { rewrite <- B. unfold view. rewrite map_map. apply map_ext_in. intros y0 I0. f_equal. apply C, I0. }
    assert (J : In (t_task y, map line (t_vehicles y)) (view (p_sums p))) by (rewrite <- VV; unfold view; apply in_map_iff; exists y; auto).
    rewrite V in J. apply in_map_iff in J. destruct J as (t & E & J). injection E as <- E. split; [symmetry; exact E|].
    intros x Ls K F. apply Forall2_app_inv_l in F. destruct F as (L1 & L2 & F1 & F2 & ->).
    rewrite mine_app by (clear - F1; induction F1; cbn; auto).
    assert (AR : all_report flight (p_sums p) (fun k => mine k ms L1)) by (intros y0 x0 I0 J0; apply (proj2 (C y0 I0)); assumption).
    pose proof (update_reports flight ms' L2 S' F2 (p_sums p) _ (lines_orderly q _ P V) AR) as U.
    unfold BatchModel.assessAll in I. apply in_map_iff in I. destruct I as (y0 & <- & I). cbn in K. apply in_map_iff in K.
    destruct K as (x0 & <- & K). exact (U y0 x0 I K).
  Qed.

  (** [k] is the key of the batch that starts after [a]. *)
  Definition key (a : trace) : Z := 1 + Z.of_nat (nreq a).

  Definition open_batch (s : state) (k : Z) (q : query) (o : list out) (b : trace) : Prop :=
    match unanswered (ids o) b with
    | [] => zget (owner s) k = None
    | l => zget (owner s) k = Some l /\ exists p, zget (working s) k = Some p /\ sums_up q (answers (ids o) b) p
    end.

  (** Flags set come from zones that were reported. *)
  Definition roz_ok (t : trace) (x : vsum) : Prop := v_roz x = true ->
    exists w l id z o, In w (v_wps x) /\ In l (w_loiters w) /\ In (Zone id z, o) t /\ hits z l = true.

  Record inv (t : trace) (s : state) : Prop := {
    i_batch : next_batch s = key t;
    i_next : next_plan s = 1 + Z.of_nat (length (all_ids t));
    i_ids : all_ids t = map Z.of_nat (seq 1 (length (all_ids t)));
    i_cut : forall a q o b, t = a ++ (Request q, o) :: b -> open_batch s (key a) q o b;
    i_own : forall k l, zget (owner s) k = Some l -> exists a q o b, t = a ++ (Request q, o) :: b /\ k = key a;
    i_nodup : NoDup (map fst (owner s));
    i_env : knows t (env s);
    i_towers : NoDup (map fst (towers (env s)));
    i_zones : NoDup (map fst (zones (env s)));
    i_roz : forall k p y x, zget (working s) k = Some p -> In y (p_sums p) -> In x (t_vehicles y) -> roz_ok t x }.

  Lemma inv_ids t s : inv t s -> NoDup (all_ids t).
  Proof.
    intros I. rewrite (i_ids _ _ I). apply NoDup_map_inj; [intros x y _ _ E; lia|]. apply seq_NoDup.
  Qed.

  Lemma inv_init : inv [] init.
  Proof.
    split; try reflexivity; try (cbn; constructor; fail).
    - intros a q o b E. destruct a; discriminate.
    - intros k l H. discriminate.
    - intros id. repeat split; reflexivity.
    - intros k p y x H. discriminate.
  Qed.

  Lemma key_inj a a' : key a = key a' -> nreq a = nreq a'.
  Proof. unfold key. lia. Qed.

  (** The batch an answer belongs to is found. *)
  Lemma found t s a q o b rid : inv t s -> t = a ++ (Request q, o) :: b -> In rid (unanswered (ids o) b) ->
    find (fun x => zin rid (snd x)) (owner s) = Some (key a, unanswered (ids o) b) /\
    exists p, zget (working s) (key a) = Some p /\ sums_up q (answers (ids o) b) p.
  Proof.
    intros I E U. pose proof (i_cut _ _ I _ _ _ _ E) as C. unfold open_batch in C.
    destruct (unanswered (ids o) b) as [|r0 l] eqn:UN; [destruct U|]. destruct C as (G & P). split; [|exact P].
    destruct (find (fun x => zin rid (snd x)) (owner s)) as [(k, l')|] eqn:F.
    - apply find_some in F. destruct F as (J & Z). cbn in Z. apply zin_In in Z. apply (zget_In _ _ _ (i_nodup _ _ I)) in J.
      destruct (i_own _ _ I _ _ J) as (a' & q' & o' & b' & E' & ->). pose proof (i_cut _ _ I _ _ _ _ E') as C'. unfold open_batch in C'.
      destruct (unanswered (ids o') b') as [|r1 l1] eqn:UN'; [congruence|]. destruct C' as (G' & _). rewrite G' in J. injection J as <-.
      assert (I1 : In rid (ids o)) by (apply (unanswered_incl b); rewrite UN; exact U).
      assert (I2 : In rid (ids o')) by (apply (unanswered_incl b'); rewrite UN'; exact Z).
      destruct (cut_id t rid a (Request q, o) b a' (Request q', o') b' (inv_ids _ _ I) E E' I1 I2) as (-> & [= <- <-] & <-).
      rewrite UN in UN'. rewrite UN'. reflexivity.
    - exfalso. pose proof (find_none _ _ F _ (In_zget _ _ _ G)) as N. cbn in N. change (zin rid (r0 :: l) = false) in N. apply zin_false in N. contradiction.
  Qed.

  Lemma not_found t s rid : inv t s -> (forall a q o b, t = a ++ (Request q, o) :: b -> ~ In rid (unanswered (ids o) b)) ->
    find (fun x => zin rid (snd x)) (owner s) = None.
  Proof.
    intros I N. destruct (find (fun x => zin rid (snd x)) (owner s)) as [(k, l')|] eqn:F; [exfalso|reflexivity].
    apply find_some in F. destruct F as (J & Z). cbn in Z. apply zin_In in Z. apply (zget_In _ _ _ (i_nodup _ _ I)) in J.
    destruct (i_own _ _ I _ _ J) as (a' & q' & o' & b' & E' & ->). pose proof (i_cut _ _ I _ _ _ _ E') as C'. unfold open_batch in C'.
    destruct (unanswered (ids o') b') as [|r1 l1] eqn:UN'; [congruence|]. destruct C' as (G' & _). rewrite G' in J. injection J as <-.
    apply (N _ _ _ _ E'). rewrite UN'. exact Z.
  Qed.

  Lemma classic_cut t s rid : inv t s ->
    (exists a q o b, t = a ++ (Request q, o) :: b /\ In rid (unanswered (ids o) b)) \/
    (forall a q o b, t = a ++ (Request q, o) :: b -> ~ In rid (unanswered (ids o) b)).
  Proof.
    intros I. destruct (find (fun x => zin rid (snd x)) (owner s)) as [(k, l')|] eqn:F.
    - left. apply find_some in F. destruct F as (J & Z). cbn in Z. apply zin_In in Z. apply (zget_In _ _ _ (i_nodup _ _ I)) in J.
      destruct (i_own _ _ I _ _ J) as (a' & q' & o' & b' & E' & ->). exists a', q', o', b'. split; [exact E'|].
      pose proof (i_cut _ _ I _ _ _ _ E') as C'. unfold open_batch in C'.
      destruct (unanswered (ids o') b') as [|r1 l1] eqn:UN'; [congruence|]. destruct C' as (G' & _). rewrite G' in J. injection J as <-. exact Z.
    - right. intros a q o b E U. destruct (found t s a q o b rid I E U) as (F' & _). rewrite F in F'. discriminate.
  Qed.

  (** ** Requests *)
  Lemma request_out s q : onRequest s q =
    let numbered := number (next_plan s) (wanted q) in
    match numbered with
    | [] => ({| next_batch := next_batch s + 1; next_plan := next_plan s; owner := owner s;
                working := zdel (zset (working s) (next_batch s) {| p_id := q_id q; p_sums := fst (split q) |}) (next_batch s);
                env := env s |}, [OutSummary {| p_id := q_id q; p_sums := fst (split q) |}])
    | _ => ({| next_batch := next_batch s + 1; next_plan := next_plan s + Z.of_nat (length (wanted q));
               owner := zset (owner s) (next_batch s) (map fst numbered);
               working := zset (working s) (next_batch s) {| p_id := q_id q; p_sums := fst (split q) |};
               env := env s |}, map (fun x => OutPlan (fst x) (snd x)) numbered)
    end.
  Proof.
    unfold onRequest. rewrite <- split_plans. destruct (split q) as (sums, plans). cbn [fst snd]. cbv zeta.
    destruct (number (next_plan s) plans) as [|x l] eqn:E; [|reflexivity].
    assert (L : length plans = 0%nat) by (rewrite <- (number_length (next_plan s)), E; reflexivity). rewrite L.
    unfold finalize. cbn [working next_batch next_plan owner env]. rewrite zget_set_same. rewrite Z.add_0_r. reflexivity.
  Qed.

  Lemma nil_or {A} (l : list A) : l = [] \/ exists x l', l = x :: l'.
  Proof. destruct l; eauto. Qed.

  Lemma ids_of_request t s q : inv t s -> ids (snd (onRequest s q)) = map Z.of_nat (seq (1 + length (all_ids t)) (length (wanted q))).
  Proof.
    intros I. rewrite request_out. cbv zeta.
    replace (next_plan s) with (Z.of_nat (1 + length (all_ids t))) by (rewrite (i_next _ _ I); lia).
    rewrite <- number_fst. destruct (number _ (wanted q)) as [|x l]; [reflexivity|]. cbn [snd]. apply ids_plans.
  Qed.

  Lemma unanswered_nil t : unanswered [] t = [].
  Proof. induction t as [|(ev, o) t IH]; [reflexivity|]. destruct ev; exact IH. Qed.

  Lemma inv_request t s q : inv t s -> inv (t ++ [(Request q, snd (onRequest s q))]) (fst (onRequest s q)).
  Proof.
    intros I. pose proof (ids_of_request t s q I) as IDS. pose proof (request_out s q) as R. cbv zeta in R.
    set (o := snd (onRequest s q)) in *. set (s' := fst (onRequest s q)).
    assert (K0 : forall a q' o' b, t = a ++ (Request q', o') :: b -> key a < next_batch s).
    { intros a q' o' b E. rewrite (i_batch _ _ I), E. unfold key. rewrite nreq_app. change (nreq ((Request q', o') :: b)) with (S (nreq b)). lia. }
    assert (OTHER : forall k, k <> next_batch s -> zget (owner s') k = zget (owner s) k /\ zget (working s') k = zget (working s) k).
    { intros k N. unfold s'. rewrite R. destruct (number _ _) as [|x l]; cbn [fst owner working].
      - split; [reflexivity|]. rewrite zget_del_other, zget_set_other by exact N. reflexivity.
      - rewrite !zget_set_other by exact N. auto. }
    assert (NEWK : forall b : nat, zget (owner s) (next_batch s) = None).
    { intros _. destruct (zget (owner s) (next_batch s)) as [l|] eqn:G; [|reflexivity]. exfalso.
      destruct (i_own _ _ I _ _ G) as (a & q' & o' & b & E & K). specialize (K0 _ _ _ _ E). lia. }
    assert (LEN : length (all_ids (t ++ [(Request q, o)])) = (length (all_ids t) + length (wanted q))%nat).
    { rewrite all_ids_app, app_length. unfold all_ids at 2. cbn [flat_map snd]. rewrite app_nil_r, IDS, map_length, seq_length. reflexivity. }
    assert (ENV : env s' = env s) by (unfold s'; rewrite R; destruct (number _ _); reflexivity).
    split.
    - unfold s'. rewrite R. unfold key. rewrite nreq_app. change (nreq [(Request q, o)]) with 1%nat. rewrite (i_batch _ _ I).
      unfold key. destruct (number _ _); cbn [fst next_batch]; lia.
    - rewrite LEN. unfold s'. rewrite R. rewrite (i_next _ _ I).
      destruct (number (1 + Z.of_nat (length (all_ids t))) (wanted q)) as [|x l] eqn:E; cbn [fst next_plan]; [|lia].
      assert (L : length (wanted q) = 0%nat) by (rewrite <- (number_length (1 + Z.of_nat (length (all_ids t)))), E; reflexivity). lia.
    - rewrite LEN, all_ids_app. unfold all_ids at 2. cbn [flat_map snd]. rewrite app_nil_r, IDS. rewrite seq_app, map_app. f_equal. exact (i_ids _ _ I).
    - intros a q' o' b E. apply cut_snoc in E. destruct E as [(-> & [= -> ->] & ->)|(b' & -> & E)].
      + unfold open_batch. cbn [unanswered]. rewrite IDS.
        replace (map Z.of_nat (seq (1 + length (all_ids t)) (length (wanted q)))) with (map fst (number (next_plan s) (wanted q)))
          by (rewrite <- number_fst; f_equal; f_equal; rewrite (i_next _ _ I); lia).
        replace (key t) with (next_batch s) by apply (i_batch _ _ I). unfold s'. rewrite R.
        destruct (number (next_plan s) (wanted q)) as [|x l]; cbn [fst owner working map]; [apply (NEWK 0%nat)|].
        rewrite zget_set_same. split; [reflexivity|]. eexists. split; [apply zget_set_same|]. cbn [answers]. apply sums_start.
      + assert (N : key a <> next_batch s) by (specialize (K0 _ _ _ _ E); lia). destruct (OTHER _ N) as (O1 & O2).
        pose proof (i_cut _ _ I _ _ _ _ E) as C. unfold open_batch in *. rewrite unanswered_snoc, answers_snoc. cbn [fst]. rewrite app_nil_r, O1, O2. exact C.
    - intros k l G. destruct (Z.eq_dec k (next_batch s)) as [->|N].
      + exists t, q, o, []. split; [reflexivity|]. apply (i_batch _ _ I).
      + destruct (OTHER _ N) as (O1 & _). rewrite O1 in G. destruct (i_own _ _ I _ _ G) as (a & q' & o' & b & -> & K).
        exists a, q', o', (b ++ [(Request q, o)]). split; [rewrite <- app_assoc; reflexivity|exact K].
    - unfold s'. rewrite R. destruct (number _ _); cbn [fst owner]; [apply (i_nodup _ _ I)|]. apply NoDup_keys_zset, (i_nodup _ _ I).
    - rewrite ENV. change (env s) with (learn (env s) (Request q)). apply learn_knows, (i_env _ _ I).
    - rewrite ENV. apply (i_towers _ _ I).
    - rewrite ENV. apply (i_zones _ _ I).
    - intros k p y x G J L. assert (C : zget (working s) k = Some p \/ p = {| p_id := q_id q; p_sums := fst (split q) |}).
      { unfold s' in G. rewrite R in G. destruct (number _ _); cbn [fst working] in G.
        - rewrite zget_del in G. destruct (k =? next_batch s) eqn:EK; [discriminate|]. rewrite zget_set, EK in G. auto.
        - rewrite zget_set in G. destruct (k =? next_batch s); [injection G as <-|]; auto. }
      destruct C as [C| ->].
      + intros V. destruct (i_roz _ _ I _ _ _ _ C J L V) as (w & l & id & z & oz & A & B & D & E). exists w, l, id, z, oz.
        repeat split; auto. apply in_or_app. auto.
      + cbn [p_sums] in J. destruct (split_blank q y x J L) as (v & i & d & ->). intros V. discriminate.
  Qed.

  (** ** Answers *)
  Lemma response_found t s a q o b rid ms : inv t s -> t = a ++ (Request q, o) :: b -> In rid (unanswered (ids o) b) ->
    exists p, zget (working s) (key a) = Some p /\ sums_up q (answers (ids o) b) p /\
      let p' := {| p_id := p_id p; p_sums := assessAll (env s) (update ms (p_sums p)) |} in
      let left := zrem rid (unanswered (ids o) b) in
      onResponse s rid ms =
      match left with
      | [] => ({| next_batch := next_batch s; next_plan := next_plan s; owner := zdel (zset (owner s) (key a) []) (key a);
                  working := zdel (zset (working s) (key a) p') (key a); env := env s |}, [OutSummary p'])
      | _ => ({| next_batch := next_batch s; next_plan := next_plan s; owner := zset (owner s) (key a) left;
                 working := zset (working s) (key a) p'; env := env s |}, [])
      end.
  Proof.
    intros I E U. destruct (found t s a q o b rid I E U) as (F & p & W & S). exists p. split; [exact W|]. split; [exact S|]. cbv zeta.
    unfold BatchModel.onResponse. rewrite F, W. destruct (zrem rid (unanswered (ids o) b)) as [|r l] eqn:L; [|reflexivity].
    unfold finalize. cbn [working next_batch next_plan owner env]. rewrite zget_set_same. reflexivity.
  Qed.

  Lemma response_none t s rid ms : inv t s -> (forall a q o b, t = a ++ (Request q, o) :: b -> ~ In rid (unanswered (ids o) b)) ->
    onResponse s rid ms = (s, []).
  Proof. intros I N. unfold BatchModel.onResponse. rewrite (not_found t s rid I N). reflexivity. Qed.

  Lemma in_existsb {A} (f : A -> bool) (l : list A) : existsb f l = true -> exists x, In x l /\ f x = true.
  Proof. apply existsb_exists. Qed.

  Lemma knows_zone t e id z : knows t e -> zget (zones e) id = Some z -> exists o, In (Zone id z, o) t.
  Proof.
    intros K G. destruct (K id) as (_ & _ & _ & Z & _). rewrite Z in G. clear - G.
    induction t as [|(ev, o) t IH]; [discriminate|]. cbn in G. destruct (lastly (says_zone id) t) as [z'|].
    - destruct (IH G) as (o' & I). exists o'. right. exact I.
    - destruct ev; cbn in G; try discriminate. unfold when in G. destruct (Z.eqb_spec id0 id) as [->|_]; [|discriminate]. injection G as ->. exists o. left. reflexivity.
  Qed.

  Lemma fill_wps ws x w : In w (v_wps x) -> In w (v_wps (fill flight ws x)).
  Proof. intros I. unfold fill. destruct ws; [exact I|]. destruct (times _ _ _ _ _). cbn. apply in_or_app. left. exact I. Qed.

  Lemma fill_roz ws x : v_roz (fill flight ws x) = v_roz x.
  Proof. unfold fill. destruct ws; [reflexivity|]. destruct (times _ _ _ _ _). reflexivity. Qed.

  Lemma fill_ok t ws x : roz_ok t x -> roz_ok t (fill flight ws x).
  Proof.
    intros H V. rewrite fill_roz in V. destruct (H V) as (w & l & id & z & o & A & B). exists w, l, id, z, o. split; [apply fill_wps, A|exact B].
  Qed.

  Lemma placeV_ok t v i d ws l : (forall x, In x l -> roz_ok t x) -> forall x, In x (placeV flight v i d ws l) -> roz_ok t x.
  Proof.
    induction l as [|z l IH]; intros H x I; [destruct I|]. cbn in I. destruct (_ && _).
    - destruct I as [<-|I]; [apply fill_ok, H; left; reflexivity|apply H; right; exact I].
    - destruct I as [<-|I]; [apply H; left; reflexivity|]. apply IH; [|exact I]. intros x' J. apply H. right. exact J.
  Qed.

  Definition sums_ok (t : trace) (l : list tsum) : Prop := forall y x, In y l -> In x (t_vehicles y) -> roz_ok t x.

  Lemma place_ok t v i d ws l : sums_ok t l -> sums_ok t (place flight v i d ws l).
  Proof.
    induction l as [|z l IH]; intros H y x I J; [destruct I|]. cbn in I. destruct (t_task z =? d).
    - destruct I as [<-|I]; [cbn in J; apply (placeV_ok t v i d ws (t_vehicles z)); auto; intros x' K; apply (H z); auto; left; reflexivity|].
      apply (H y); auto. right. exact I.
    - destruct I as [<-|I]; [apply (H z); auto; left; reflexivity|]. apply (IH (fun y x I => H y x (or_intror I)) y); auto.
  Qed.

  Lemma update_ok t ms : forall l, sums_ok t l -> sums_ok t (update ms l).
  Proof.
    unfold BatchModel.update. induction ms as [|m ms IH]; intros l H; [exact H|]. cbn [fold_left]. apply IH. generalize (walk [] true 0 0 (m_wps m)).
    intros L. revert l H. induction L as [|((i, d), ws) L IHL]; intros l H; [exact H|]. cbn. apply IHL, place_ok, H.
  Qed.

  Lemma assess_ok t e l : knows t e -> NoDup (map fst (zones e)) -> sums_ok t l -> sums_ok t (assessAll e l).
  Proof.
    intros K N H y x I J. unfold BatchModel.assessAll in I. apply in_map_iff in I. destruct I as (y0 & <- & I). cbn in J. apply in_map_iff in J.
    destruct J as (x0 & <- & J). intros V. cbn in V. apply orb_true_iff in V. destruct V as [V|V].
    - exact (H y0 x0 I J V).
    - apply existsb_exists in V. destruct V as (w & A & V). apply existsb_exists in V. destruct V as (l0 & B & V). apply existsb_exists in V.
      destruct V as ((id, z) & C & V). apply (zget_In _ _ _ N) in C. destruct (knows_zone t e id z K C) as (o & D).
      exists w, l0, id, z, o. auto.
  Qed.

  Lemma roz_snoc t x y : roz_ok t x -> roz_ok (t ++ [y]) x.
  Proof.
    intros H V. destruct (H V) as (w & l & id & z & o & A & B & C & D). exists w, l, id, z, o. repeat split; auto. apply in_or_app. auto.
  Qed.

  Lemma nreq_other t ev o : (forall q, ev <> Request q) -> nreq (t ++ [(ev, o)]) = nreq t.
  Proof. intros N. rewrite nreq_app. unfold nreq at 2. cbn. destruct ev; try (cbn; lia). exfalso. apply (N q). reflexivity. Qed.

  Lemma inv_response t s rid ms : inv t s -> inv (t ++ [(Response rid ms, snd (onResponse s rid ms))]) (fst (onResponse s rid ms)).
  Proof.
    intros I. set (o' := snd (onResponse s rid ms)). set (s' := fst (onResponse s rid ms)).
    assert (OI : ids o' = [] /\ next_batch s' = next_batch s /\ next_plan s' = next_plan s /\ env s' = env s).
    { unfold o', s'. destruct (classic_cut t s rid I) as [(a & q & o & b & E & U)|N].
      - destruct (response_found t s a q o b rid ms I E U) as (p & _ & _ & R). cbv zeta in R. rewrite R.
        destruct (zrem rid (unanswered (ids o) b)); cbn; auto.
      - rewrite (response_none t s rid ms I N). cbn. auto. }
    destruct OI as (OI & NB & NP & EV).
    assert (AI : all_ids (t ++ [(Response rid ms, o')]) = all_ids t) by (rewrite all_ids_app; unfold all_ids at 2; cbn [flat_map snd]; rewrite OI, !app_nil_r; reflexivity).
    assert (KE : key (t ++ [(Response rid ms, o')]) = key t) by (unfold key; rewrite nreq_other by discriminate; reflexivity).
    assert (CUT : forall a q o b, t = a ++ (Request q, o) :: b -> open_batch s' (key a) q o (b ++ [(Response rid ms, o')])).
    { intros a1 q1 o1 b1 E1. unfold open_batch. rewrite unanswered_snoc, answers_snoc. cbn [fst].
      pose proof (i_cut _ _ I _ _ _ _ E1) as C. unfold open_batch in C.
      destruct (in_dec Z.eq_dec rid (unanswered (ids o1) b1)) as [U|U].
      - destruct (response_found t s a1 q1 o1 b1 rid ms I E1 U) as (p & W & S & R). cbv zeta in R.
        rewrite (proj2 (zin_In _ _) U). unfold s'. rewrite R. destruct (zrem rid (unanswered (ids o1) b1)) as [|r l]; cbn [fst owner working].
        + apply zget_del_same.
        + rewrite !zget_set_same. split; [reflexivity|]. eexists. split; [reflexivity|]. apply sums_answer, S.
      - rewrite (proj2 (zin_false _ _) U), (zrem_none _ _ U), app_nil_r.
        assert (O : zget (owner s') (key a1) = zget (owner s) (key a1) /\ zget (working s') (key a1) = zget (working s) (key a1)).
        { unfold s'. destruct (classic_cut t s rid I) as [(a & q & o & b & E & U')|N].
          - destruct (response_found t s a q o b rid ms I E U') as (p & _ & _ & R). cbv zeta in R. rewrite R.
            assert (NK : key a1 <> key a).
            { intros KK. apply key_inj in KK. destruct (cut_count _ _ _ _ _ _ _ _ _ E1 E KK) as (-> & -> & -> & ->). contradiction. }
            destruct (zrem rid (unanswered (ids o) b)); cbn [fst owner working].
            + rewrite !zget_del_other, !zget_set_other by exact NK. auto.
            + rewrite !zget_set_other by exact NK. auto.
          - rewrite (response_none t s rid ms I N). auto. }
        destruct O as (O1 & O2). rewrite O1, O2. exact C. }
    split.
    - rewrite NB, KE. apply (i_batch _ _ I).
    - rewrite NP, AI. apply (i_next _ _ I).
    - rewrite AI. apply (i_ids _ _ I).
    - intros a q o b E. apply cut_snoc in E. destruct E as [(-> & C & ->)|(b' & -> & E)]; [discriminate|]. apply CUT, E.
    - intros k l G. assert (X : exists l', zget (owner s) k = Some l').
      { unfold s' in G. destruct (classic_cut t s rid I) as [(a & q & o & b & E & U)|N].
        - destruct (found t s a q o b rid I E U) as (F & _). apply find_some in F. destruct F as (J & _). apply (zget_In _ _ _ (i_nodup _ _ I)) in J.
          destruct (response_found t s a q o b rid ms I E U) as (p & _ & _ & R). cbv zeta in R. rewrite R in G.
          destruct (Z.eq_dec k (key a)) as [->|NK]; [eauto|].
          destruct (zrem rid (unanswered (ids o) b)); cbn [fst owner] in G; [rewrite zget_del_other in G by exact NK|]; rewrite zget_set_other in G by exact NK; eauto.
        - rewrite (response_none t s rid ms I N) in G. eauto. }
      destruct X as (l' & X). destruct (i_own _ _ I _ _ X) as (a & q & o & b & -> & K). exists a, q, o, (b ++ [(Response rid ms, o')]).
      split; [rewrite <- app_assoc; reflexivity|exact K].
    - unfold s'. destruct (classic_cut t s rid I) as [(a & q & o & b & E & U)|N].
      + destruct (response_found t s a q o b rid ms I E U) as (p & _ & _ & R). cbv zeta in R. rewrite R.
        destruct (zrem rid (unanswered (ids o) b)); cbn [fst owner]; [apply NoDup_keys_zdel|]; apply NoDup_keys_zset, (i_nodup _ _ I).
      + rewrite (response_none t s rid ms I N). apply (i_nodup _ _ I).
    - rewrite EV. change (env s) with (learn (env s) (Response rid ms)). apply learn_knows, (i_env _ _ I).
    - rewrite EV. apply (i_towers _ _ I).
    - rewrite EV. apply (i_zones _ _ I).
    - intros k p y x G J L. apply roz_snoc. revert y x J L. fold (sums_ok t (p_sums p)). unfold s' in G.
      destruct (classic_cut t s rid I) as [(a & q & o & b & E & U)|N].
      + destruct (response_found t s a q o b rid ms I E U) as (p0 & W & _ & R). cbv zeta in R. rewrite R in G.
        assert (X : zget (working s) k = Some p \/ p = {| p_id := p_id p0; p_sums := assessAll (env s) (update ms (p_sums p0)) |}).
        { destruct (zrem rid (unanswered (ids o) b)); cbn [fst working] in G.
          - rewrite zget_del in G. destruct (k =? key a) eqn:EK; [discriminate|]. rewrite zget_set, EK in G. auto.
          - rewrite zget_set in G. destruct (k =? key a); [injection G as <-|]; auto. }
        destruct X as [X| ->]; [intros y x; apply (i_roz _ _ I _ _ _ _ X)|]. cbn [p_sums]. apply assess_ok; [apply (i_env _ _ I)|apply (i_zones _ _ I)|].
        apply update_ok. intros y x. apply (i_roz _ _ I _ _ _ _ W).
      + rewrite (response_none t s rid ms I N) in G. intros y x. apply (i_roz _ _ I _ _ _ _ G).
  Qed.

  Lemma learn_towers e ev : NoDup (map fst (towers e)) -> NoDup (map fst (towers (learn e ev))).
  Proof. intros N. destruct ev; cbn [learn towers]; try exact N; apply NoDup_keys_zset, N. Qed.
  Lemma learn_zones e ev : NoDup (map fst (zones e)) -> NoDup (map fst (zones (learn e ev))).
  Proof. intros N. destruct ev; cbn [learn zones]; try exact N; apply NoDup_keys_zset, N. Qed.

  Lemma inv_learn t s ev : (forall q, ev <> Request q) -> (forall r ms, ev <> Response r ms) -> inv t s ->
    inv (t ++ [(ev, [])]) {| next_batch := next_batch s; next_plan := next_plan s; owner := owner s; working := working s; env := learn (env s) ev |}.
  Proof.
    intros N1 N2 I.
    assert (AI : all_ids (t ++ [(ev, [])]) = all_ids t) by (rewrite all_ids_app; cbn; apply app_nil_r).
    assert (KE : key (t ++ [(ev, [])]) = key t) by (unfold key; rewrite nreq_other by exact N1; reflexivity).
    split; cbn [next_batch next_plan owner working env].
    - rewrite KE. apply (i_batch _ _ I).
    - rewrite AI. apply (i_next _ _ I).
    - rewrite AI. apply (i_ids _ _ I).
    - intros a q o b E. apply cut_snoc in E. destruct E as [(-> & C & ->)|(b' & -> & E)]; [exfalso; injection C as C _; apply (N1 q); auto|].
      pose proof (i_cut _ _ I _ _ _ _ E) as C. unfold open_batch in *. cbn [owner working]. rewrite unanswered_snoc, answers_snoc. cbn [fst].
      destruct ev; try (rewrite app_nil_r; exact C). exfalso. apply (N2 rid ms). reflexivity.
    - intros k l G. destruct (i_own _ _ I _ _ G) as (a & q & o & b & -> & K). exists a, q, o, (b ++ [(ev, [])]). split; [rewrite <- app_assoc; reflexivity|exact K].
    - apply (i_nodup _ _ I).
    - apply learn_knows, (i_env _ _ I).
    - apply learn_towers, (i_towers _ _ I).
    - apply learn_zones, (i_zones _ _ I).
    - intros k p y x G J L. apply roz_snoc. exact (i_roz _ _ I _ _ _ _ G J L).
  Qed.

  Lemma inv_step t s ev : inv t s -> inv (t ++ [(ev, snd (step s ev))]) (fst (step s ev)).
  Proof.
    intros I. destruct ev; cbn [BatchModel.step fst snd]; try (apply inv_learn; try discriminate; exact I).
    - apply inv_request, I.
    - apply inv_response, I.
  Qed.

  Definition history (evs : list event) : trace := snd (run step init evs).

  Lemma inv_run evs : inv (history evs) (fst (run step init evs)).
  Proof.
    unfold history. induction evs as [|ev evs IH] using rev_ind; [exact inv_init|]. rewrite run_snoc. cbn [fst snd]. apply inv_step, IH.
  Qed.

  Lemma history_split evs a ev o b : history evs = a ++ (ev, o) :: b -> exists s, inv a s /\ o = snd (step s ev).
  Proof.
    intros H. apply run_split in H. destruct H as (s & R & _ & O). exists s. split; [|exact O].
    pose proof (inv_run (map fst a)) as I. unfold history in I. rewrite R in I. exact I.
  Qed.
End Step.

(** Properties C38 and C47: batch summaries. *)
From Coq Require Import List ZArith Bool Permutation Lia.
From Verif Require Import ZMap Run BatchModel BatchSpec BatchProofs BatchInv BatchRun BatchStep.
Import ListNotations.
Open Scope list_scope.
Open Scope Z_scope.

(** How many summaries with the id [k] were sent in a history. *)
Definition sent_for (k : Z) (o : list out) : nat :=
  length (filter (fun x => match x with OutSummary p => p_id p =? k | _ => false end) o).
Definition summaries (k : Z) (t : trace) : nat := sent_for k (flat_map snd t).

(** How many of the requests with the id [k] have all their planning requests answered. *)
Fixpoint completed (k : Z) (t : trace) : nat :=
  match t with
  | [] => 0
  | (Request q, o) :: t' =>
      ((if (q_id q =? k)%Z then match unanswered (ids o) t' with [] => 1 | _ => 0 end else 0) + completed k t')%nat
  | _ :: t' => completed k t'
  end.

Lemma zrem_last r l : NoDup l -> In r l -> zrem r l = [] -> l = [r].
Proof.
  intros N I Z. assert (A : forall x, In x l -> x = r).
  { intros x J. destruct (Z.eq_dec x r) as [E|E]; [exact E|]. exfalso. assert (K : In x (zrem r l)) by (apply In_zrem; auto). rewrite Z in K. destruct K. }
  destruct l as [|a l]; [destruct I|]. assert (a = r) by (apply A; left; reflexivity). subst a. destruct l as [|b l]; [reflexivity|].
  exfalso. assert (b = r) by (apply A; right; left; reflexivity). subst b. inversion N; subst. apply H1. left. reflexivity.
Qed.

Lemma zrem_self r : zrem r [r] = [].
Proof. cbn. rewrite Z.eqb_refl. reflexivity. Qed.

Lemma unanswered_NoDup t : forall l, NoDup l -> NoDup (unanswered l t).
Proof.
  induction t as [|(ev, o) t IH]; intros l N; [exact N|]. destruct ev; cbn; apply IH; try exact N. apply NoDup_filter, N.
Qed.

Lemma sent_for_app k a b : sent_for k (a ++ b) = (sent_for k a + sent_for k b)%nat.
Proof. unfold sent_for. rewrite filter_app, app_length. reflexivity. Qed.

Lemma summaries_app k a b : summaries k (a ++ b) = (summaries k a + summaries k b)%nat.
Proof. unfold summaries. rewrite flat_map_app. apply sent_for_app. Qed.

Lemma sent_for_plans k l : sent_for k (map (fun x => OutPlan (fst x) (snd x)) l) = 0%nat.
Proof. unfold sent_for. induction l as [|x l IH]; [reflexivity|exact IH]. Qed.

(** An event that answers no outstanding request completes nothing. *)
Lemma completed_same k ev o t : (forall q, ev <> Request q) ->
  (forall a q o1 b rid ms, ev = Response rid ms -> t = a ++ (Request q, o1) :: b -> In rid (unanswered (ids o1) b) -> zrem rid (unanswered (ids o1) b) <> []) ->
  completed k (t ++ [(ev, o)]) = completed k t.
Proof.
  intros N. induction t as [|(ev', o') t IH]; intros H.
  - cbn. destruct ev; try reflexivity. exfalso. apply (N q). reflexivity.
  - assert (IH' : completed k (t ++ [(ev, o)]) = completed k t).
    { apply IH. intros a q o1 b rid ms E C. apply (H ((ev', o') :: a) q o1 b rid ms E). rewrite C. reflexivity. }
    rewrite <- app_comm_cons. cbn [completed]. destruct ev'; try exact IH'. rewrite IH'. f_equal. destruct (q_id q =? k); [|reflexivity].
    rewrite unanswered_snoc. cbn [fst]. destruct ev; try reflexivity.
    destruct (in_dec Z.eq_dec rid (unanswered (ids o') t)) as [U|U]; [|rewrite (zrem_none _ _ U); reflexivity].
    specialize (H [] q o' t rid ms eq_refl eq_refl U). destruct (zrem rid (unanswered (ids o') t)) eqn:Z; [contradiction|].
    destruct (unanswered (ids o') t); [destruct U|reflexivity].
Qed.

Lemma completed_more k rid ms o a : forall q o1 b, NoDup (all_ids (a ++ (Request q, o1) :: b)) ->
  unanswered (ids o1) b = [rid] ->
  completed k ((a ++ (Request q, o1) :: b) ++ [(Response rid ms, o)]) =
  ((if (q_id q =? k)%Z then 1 else 0) + completed k (a ++ (Request q, o1) :: b))%nat.
Proof.
  induction a as [|(ev', o') a IH]; intros q o1 b N U.
  - cbn [app completed] in *. rewrite unanswered_snoc, U. cbn [fst]. rewrite zrem_self.
    assert (C : completed k (b ++ [(Response rid ms, o)]) = completed k b).
    { apply completed_same; [discriminate|]. intros a' q' o' b' rid' ms' [= -> ->] E I _.
      assert (I1 : In rid' (ids o1)) by (apply (unanswered_incl b); rewrite U; left; reflexivity).
      apply unanswered_incl in I. destruct (cut_id ((Request q, o1) :: b) rid' [] (Request q, o1) b ((Request q, o1) :: a') (Request q', o') b' N eq_refl) as (X & _); auto.
      - rewrite E. reflexivity.
      - discriminate. }
    rewrite C. destruct (q_id q =? k); lia.
  - assert (N' : NoDup (all_ids (a ++ (Request q, o1) :: b))).
    { change (all_ids (((ev', o') :: a) ++ (Request q, o1) :: b)) with (ids o' ++ all_ids (a ++ (Request q, o1) :: b)) in N. apply NoDup_app_r_ in N. exact N. }
    specialize (IH q o1 b N' U). rewrite <- !app_comm_cons in *. cbn [completed]. destruct ev'; try exact IH. rewrite IH.
    assert (NI : ~ In rid (unanswered (ids o') (a ++ (Request q, o1) :: b))).
    { intros I. apply unanswered_incl in I. assert (I1 : In rid (ids o1)) by (apply (unanswered_incl b); rewrite U; left; reflexivity).
      destruct (cut_id ((Request q0, o') :: a ++ (Request q, o1) :: b) rid [] (Request q0, o') (a ++ (Request q, o1) :: b)
                  ((Request q0, o') :: a) (Request q, o1) b N eq_refl eq_refl I I1) as (X & _). discriminate. }
    rewrite unanswered_snoc. cbn [fst]. rewrite (zrem_none _ _ NI). lia.
Qed.

(** ** Reach *)
Lemma fold_max_le {A} (f : A -> Z) (l : list A) : forall d R,
  fold_left (fun d x => if d <? f x then f x else d) l d <= R <-> d <= R /\ forall x, In x l -> f x <= R.
Proof.
  induction l as [|y l IH]; intros d R; cbn.
  - split; [intros H; split; [exact H|intros x []]|intros (H & _); exact H].
  - rewrite IH. split.
    + intros (H & K). destruct (Z.ltb_spec d (f y)); (split; [lia|]); intros x [<-|I]; auto; lia.
    + intros (H & K). split; [|intros x I; apply K; right; exact I]. pose proof (K y (or_introl eq_refl)). destruct (Z.ltb_spec d (f y)); lia.
Qed.

Lemma le_fold_max (l : list Z) : forall d r,
  d <= fold_left (fun r x => if r <? x then x else r) l r <-> d <= r \/ exists x, In x l /\ d <= x.
Proof.
  induction l as [|y l IH]; intros d r; cbn.
  - split; [auto|intros [H|(x & [] & _)]; exact H].
  - rewrite IH. split.
    + intros [H|(x & I & H)]; [|right; exists x; auto]. destruct (Z.ltb_spec r y); [right; exists y; auto|left; exact H].
    + intros [H|(x & [<-|I] & H)]; [left; destruct (Z.ltb_spec r y); lia|left; destruct (Z.ltb_spec r y); lia|right; eauto].
Qed.

Section Props.
  Context (flight : wp -> wp -> Z) (dist : Z -> Z -> Z) (hits : Z -> loiter -> bool).
  Local Notation step := (step flight dist hits).
  Local Notation history := (history flight dist hits).
  Local Notation sums_up := (sums_up flight).

  Lemma reach e v ws t pos : beyondTower dist e v ws (t, pos) = false <->
    zget (states e) v = None \/ zget (ranges e) t = None \/ within dist e v ws t pos.
  Proof.
    unfold beyondTower. cbn [fst snd]. destruct (zget (states e) v) as [p|] eqn:S; [|split; auto].
    destruct (zget (ranges e) t) as [(r, on)|] eqn:RG; [|split; auto].
    set (R := match zget (radios e) v with Some rs => _ | None => _ end).
    assert (BR : forall d, d <= R <-> bridged e v t d).
    { intros d. unfold bridged, R. destruct (zget (radios e) v) as [rs|] eqn:RA.
      - rewrite le_fold_max. split.
        + intros H. exists r, on. split; [exact RG|]. destruct H as [H|(x & I & H)]; [left; exact H|right; exists rs, x; auto].
        + intros (r' & on' & E & H). rewrite RG in E. injection E as <- <-. destruct H as [H|(rs' & x & E & I & H)]; [left; exact H|].
          injection E as <-. right. eauto.
      - split; [intros H; exists r, on; auto|]. intros (r' & on' & E & H). rewrite RG in E. injection E as <- <-.
        destruct H as [H|(rs' & x & E & _)]; [exact H|discriminate]. }
    rewrite orb_false_iff, Z.ltb_ge, BR. split.
    - intros (A & B). right. right. split; [intros at_ E; rewrite S in E; injection E as <-; exact A|]. intros w I.
      assert (F : farthest dist pos w <= R).
      { apply Z.ltb_ge. destruct (R <? farthest dist pos w) eqn:X; [|reflexivity].
        assert (Y : existsb (fun w => R <? farthest dist pos w) ws = true) by (apply existsb_exists; eauto). congruence. }
      unfold farthest in F. apply fold_max_le in F. destruct F as (F1 & F2). split; [apply BR, F1|]. intros l J. apply BR, F2, J.
    - intros [C|[C|(A & B)]]; try discriminate. split; [apply A; exact S|].
      destruct (existsb (fun w => R <? farthest dist pos w) ws) eqn:X; [exfalso|reflexivity]. apply existsb_exists in X. destruct X as (w & I & X).
      apply Z.ltb_lt in X. assert (farthest dist pos w <= R); [|lia]. unfold farthest. apply fold_max_le. destruct (B w I) as (B1 & B2).
      split; [apply BR, B1|]. intros l J. apply BR, B2, J.
  Qed.

  Lemma assess_judged e x : NoDup (map fst (towers e)) -> NoDup (map fst (zones e)) -> judged dist hits e (assess dist hits e x).
  Proof.
    intros NT NZ. split.
    - cbn [assess v_beyond v_vehicle v_wps]. rewrite negb_false_iff, existsb_exists. split.
      + intros ((t, pos) & I & H). apply negb_true_iff, reach in H. exists t, pos. split; [apply zget_In; assumption|exact H].
      + intros (t & pos & G & H). exists (t, pos). split; [apply In_zget, G|]. apply negb_true_iff, reach, H.
    - intros (w & l & id & z & A & B & C & D). cbn in *. apply orb_true_iff. right. apply existsb_exists. exists w. split; [exact A|].
      apply existsb_exists. exists l. split; [exact B|]. apply existsb_exists. exists (id, z). split; [apply In_zget, C|exact D].
  Qed.

  (** ** C38 *)

  (** A request sends out what is to be planned, with new consecutive ids; if there is nothing to be
      planned the summary is sent at once. *)
  Theorem C38_request evs a q o b : history evs = a ++ (Request q, o) :: b ->
    plans o = wanted q /\
    ids o = map Z.of_nat (seq (S (length (flat_map (fun x => ids (snd x)) a))) (length (wanted q))) /\
    (wanted q <> [] -> o = map (fun x => OutPlan (fst x) (snd x)) (combine (ids o) (wanted q))) /\
    (wanted q = [] -> exists p, o = [OutSummary p] /\ sums_up q [] p).
  Proof.
    intros H. apply history_split in H. destruct H as (s & I & ->). cbn [BatchModel.step].
    pose proof (ids_of_request flight hits _ _ q I) as IDS. split; [|split; [exact IDS|split]].
    - rewrite request_out. cbv zeta. transitivity (map snd (number (next_plan s) (wanted q))); [|apply number_snd]. destruct (number (next_plan s) (wanted q)) as [|x l] eqn:E.
      + reflexivity.
      + cbn [snd]. unfold plans. generalize (x :: l). intros l'. induction l' as [|y l' IH]; [reflexivity|]. cbn. rewrite IH. reflexivity.
    - intros N. rewrite IDS at 1. clear IDS.
      assert (C : combine (map Z.of_nat (seq (1 + length (all_ids a)) (length (wanted q)))) (wanted q) = number (next_plan s) (wanted q)).
      { rewrite <- number_fst. rewrite (i_next _ _ _ _ I). replace (Z.of_nat (1 + length (all_ids a))) with (1 + Z.of_nat (length (all_ids a))) by lia.
        clear. generalize (1 + Z.of_nat (length (all_ids a))). induction (wanted q) as [|x l IH]; intros z; [reflexivity|]. cbn. rewrite IH. reflexivity. }
      rewrite C, request_out. cbv zeta. destruct (number (next_plan s) (wanted q)) as [|x l] eqn:E; [|reflexivity].
      exfalso. apply N. rewrite <- (number_snd (wanted q) (next_plan s)), E. reflexivity.
    - intros N. rewrite request_out. cbv zeta. rewrite N. cbn [number snd]. eexists. split; [reflexivity|]. apply sums_start.
  Qed.

  (** All ids of planning requests are different: they count up from 1. *)
  Theorem C38_ids evs :
    let all := flat_map (fun x => ids (snd x)) (history evs) in
    all = map Z.of_nat (seq 1 (length all)) /\ NoDup all.
  Proof.
    pose proof (inv_run flight dist hits evs) as I. split; [exact (i_ids _ _ _ _ I)|exact (inv_ids _ _ _ _ I)].
  Qed.

  (** An answer sends the summary of a request exactly if it is the last answer outstanding for it. *)
  Theorem C38_answer evs a rid ms o b : history evs = a ++ (Response rid ms, o) :: b ->
    (forall a1 q o1 b1, a = a1 ++ (Request q, o1) :: b1 -> unanswered (ids o1) b1 = [rid] ->
       exists p, o = [OutSummary p] /\ sums_up q (answers (ids o1) b1 ++ ms) p) /\
    ((forall a1 q o1 b1, a = a1 ++ (Request q, o1) :: b1 -> unanswered (ids o1) b1 <> [rid]) -> o = []).
  Proof.
    intros H. apply history_split in H. destruct H as (s & I & ->). cbn [BatchModel.step]. split.
    - intros a1 q o1 b1 E U. assert (J : In rid (unanswered (ids o1) b1)) by (rewrite U; left; reflexivity).
      destruct (response_found flight dist hits _ _ _ _ _ _ rid ms I E J) as (p & _ & S & R). cbv zeta in R. rewrite R, U, zrem_self. cbn [snd].
      eexists. split; [reflexivity|]. apply sums_answer, S.
    - intros N. destruct (classic_cut flight hits _ _ rid I) as [(a1 & q & o1 & b1 & E & U)|NN].
      + destruct (response_found flight dist hits _ _ _ _ _ _ rid ms I E U) as (p & _ & _ & R). cbv zeta in R. rewrite R.
        destruct (zrem rid (unanswered (ids o1) b1)) eqn:Z; [exfalso|reflexivity]. apply (N _ _ _ _ E). apply zrem_last; auto.
        apply unanswered_NoDup. pose proof (inv_ids _ _ _ _ I) as ND. rewrite E, all_ids_app in ND. apply NoDup_app_r_ in ND.
        change (NoDup (ids o1 ++ all_ids b1)) in ND. clear - ND. induction (ids o1) as [|x l IH]; [constructor|]. cbn in ND. inversion ND; subst.
        constructor; [|apply IH; assumption]. intros J. apply H1. apply in_or_app. left. exact J.
      + rewrite (response_none flight dist hits _ _ rid ms I NN). reflexivity.
  Qed.

  (** Nothing else sends anything. *)
  Theorem C38_only evs a ev o b : history evs = a ++ (ev, o) :: b -> o <> [] ->
    (exists q, ev = Request q) \/ (exists rid ms, ev = Response rid ms).
  Proof.
    intros H N. apply history_split in H. destruct H as (s & I & ->). destruct ev; cbn in N; try (exfalso; apply N; reflexivity); eauto.
  Qed.

  (** As many summaries are sent for an id as requests with that id have been completed. *)
  Theorem C38_exactly_once evs k : summaries k (history evs) = completed k (history evs).
  Proof.
    pose proof (inv_run flight dist hits evs) as IV. revert IV. unfold BatchStep.history.
    induction evs as [|ev evs IH] using rev_ind; [reflexivity|]. intros _. pose proof (inv_run flight dist hits evs) as I. specialize (IH I).
    unfold BatchStep.history in I. rewrite run_snoc. cbn [snd fst]. set (t := snd (run step init evs)) in *. set (s := fst (run step init evs)) in *.
    assert (HS : history (evs ++ [ev]) = t ++ (ev, snd (step s ev)) :: []) by (unfold BatchStep.history; rewrite run_snoc; reflexivity).
    rewrite summaries_app, IH. unfold summaries. cbn [flat_map snd]. rewrite app_nil_r.
    destruct (match ev with Request q => Some q | _ => None end) as [q|] eqn:RQ.
    - destruct ev; try discriminate. injection RQ as ->. destruct (C38_request _ _ _ _ _ HS) as (_ & IDS & A & B).
      set (o := snd (step s (Request q))) in *. clearbody o.
      assert (C : forall t', completed k (t' ++ [(Request q, o)]) =
                  (completed k t' + (if (q_id q =? k)%Z then match ids o with [] => 1 | _ => 0 end else 0))%nat).
      { induction t' as [|(ev', o') t' IHt].
        - cbn. lia.
        - rewrite <- app_comm_cons. cbn [completed]. destruct ev'; try exact IHt. rewrite IHt, unanswered_snoc. cbn [fst]. lia. }
      rewrite C. f_equal. destruct (wanted q) as [|w l] eqn:W.
      + destruct (B eq_refl) as (p & -> & S). unfold sent_for. cbn. rewrite (proj1 S). destruct (q_id q =? k); reflexivity.
      + rewrite (A ltac:(discriminate)), sent_for_plans. rewrite <- (A ltac:(discriminate)). rewrite IDS. cbn. destruct (q_id q =? k); reflexivity.
    - assert (NQ : forall q, ev <> Request q) by (intros q ->; discriminate).
      destruct (match ev with Response rid ms => Some (rid, ms) | _ => None end) as [(rid, ms)|] eqn:RS.
      + destruct ev; try discriminate. injection RS as -> ->. destruct (C38_answer _ _ _ _ _ _ HS) as (A & B).
        set (o := snd (step s (Response rid ms))) in *. clearbody o.
        destruct (classic_cut flight hits _ _ rid I) as [(a1 & q & o1 & b1 & E & U)|NN].
        * destruct (list_eq_dec Z.eq_dec (unanswered (ids o1) b1) [rid]) as [L|L].
          -- destruct (A _ _ _ _ E L) as (p & -> & S). pose proof (inv_ids _ _ _ _ I) as ND. rewrite E in ND |- *.
             rewrite (completed_more k rid ms _ a1 q o1 b1 ND L). rewrite <- E. unfold sent_for. cbn. rewrite (proj1 S).
             destruct (q_id q =? k); cbn; lia.
          -- rewrite B.
             ++ rewrite completed_same; [cbn; lia|discriminate|]. intros a2 q2 o2 b2 rid' ms' [= <- <-] E2 U2 Z.
                destruct (cut_id t rid a1 (Request q, o1) b1 a2 (Request q2, o2) b2 (inv_ids _ _ _ _ I) E E2) as (<- & [= <- <-] & <-);
                  try (cbn [snd]; eapply unanswered_incl; eassumption).
                apply L. apply zrem_last; auto. apply unanswered_NoDup. pose proof (inv_ids _ _ _ _ I) as ND. rewrite E, all_ids_app in ND.
                apply NoDup_app_r_ in ND. change (NoDup (ids o1 ++ all_ids b1)) in ND. clear - ND. induction (ids o1) as [|x l IH]; [constructor|].
                cbn in ND. inversion ND; subst. constructor; [|apply IH; assumption]. intros J. apply H1. apply in_or_app. left. exact J.
             ++ intros a2 q2 o2 b2 E2 U2.
                destruct (cut_id t rid a1 (Request q, o1) b1 a2 (Request q2, o2) b2 (inv_ids _ _ _ _ I) E E2) as (<- & [= <- <-] & <-).
                ** cbn [snd]; eapply unanswered_incl; eassumption.
                ** cbn [snd]. apply (unanswered_incl b2). rewrite U2. left. reflexivity.
                ** contradiction.
        * rewrite B.
          -- rewrite completed_same; [cbn; lia|discriminate|]. intros a2 q2 o2 b2 rid' ms' [= <- <-] E2 U2 _. exact (NN _ _ _ _ E2 U2).
          -- intros a2 q2 o2 b2 E2 U2. apply (NN _ _ _ _ E2). rewrite U2. left. reflexivity.
      + rewrite completed_same; [|exact NQ|intros a2 q2 o2 b2 rid' ms' ->; discriminate].
        destruct ev; try discriminate; cbn; lia.
  Qed.

  (** Every mission has legs, so that the lines of a summary are determined. *)
  Theorem C38_legs m : exists L, mission_legs m L.
  Proof. apply mission_legs_exist. Qed.

  (** ** C47 *)

  (** The lines of a summary sent at an answer are judged by what was last reported before. *)
  Theorem C47_judged evs a rid ms o b p y x : history evs = a ++ (Response rid ms, o) :: b ->
    In (OutSummary p) o -> In y (p_sums p) -> In x (t_vehicles y) ->
    (exists e, knows a e /\ judged dist hits e x) /\
    (v_roz x = true -> exists w l id z oz, In w (v_wps x) /\ In l (w_loiters w) /\ In (Zone id z, oz) a /\ hits z l = true).
  Proof.
    intros H. apply history_split in H. destruct H as (s & I & ->). cbn [BatchModel.step]. intros IO IY IX.
    destruct (classic_cut flight hits _ _ rid I) as [(a1 & q & o1 & b1 & E & U)|NN].
    - destruct (response_found flight dist hits _ _ _ _ _ _ rid ms I E U) as (p0 & W & _ & R). cbv zeta in R. rewrite R in IO.
      destruct (zrem rid (unanswered (ids o1) b1)); [|destruct IO]. destruct IO as [IO|[]]. injection IO as <-. cbn [p_sums] in IY. split.
      + exists (env s). split; [apply (i_env _ _ _ _ I)|]. unfold assessAll in IY. apply in_map_iff in IY. destruct IY as (y0 & <- & IY).
        cbn in IX. apply in_map_iff in IX. destruct IX as (x0 & <- & IX). apply assess_judged; [apply (i_towers _ _ _ _ I)|apply (i_zones _ _ _ _ I)].
      + assert (SO : sums_ok hits a (update flight ms (p_sums p0))) by (apply update_ok; intros y' x'; apply (i_roz _ _ _ _ I _ _ _ _ W)).
        exact (assess_ok dist hits a (env s) _ (i_env _ _ _ _ I) (i_zones _ _ _ _ I) SO y x IY IX).
    - rewrite (response_none flight dist hits _ _ rid ms I NN) in IO. destruct IO.
  Qed.

  (** The world as last reported is unique. *)
  Theorem C47_world t e e' : knows t e -> knows t e' -> forall id,
    zget (states e) id = zget (states e') id /\ zget (radios e) id = zget (radios e') id /\ zget (towers e) id = zget (towers e') id /\
    zget (zones e) id = zget (zones e') id /\ zget (ranges e) id = zget (ranges e') id.
  Proof.
    intros K K' id. destruct (K id) as (A & B & C & D & E). destruct (K' id) as (A' & B' & C' & D' & E').
    rewrite A, B, C, D, E, A', B', C', D', E'. auto 6.
  Qed.
End Props.

Print Assumptions C38_request.
Print Assumptions C38_ids.
Print Assumptions C38_answer.
Print Assumptions C38_only.
Print Assumptions C38_exactly_once.
Print Assumptions C38_legs.
Print Assumptions C47_judged.
Print Assumptions C47_world.

(** ** Concrete histories *)

Definition ex_flight (u w : wp) : Z := Z.abs (w_pos w - w_pos u).
Definition ex_dist (a b : Z) : Z := Z.abs (a - b).
Definition ex_hits (z : Z) (l : loiter) : bool := Z.abs (z - l_pos l) <=? l_radius l.
Definition ex_wp (n pos : Z) (ts : list Z) : wp := {| w_number := n; w_tasks := ts; w_pos := pos; w_loiters := [] |}.
Definition ex_loiter (n pos : Z) (ts : list Z) : wp :=
  {| w_number := n; w_tasks := ts; w_pos := pos; w_loiters := [{| l_pos := pos; l_radius := 3 |}] |}.
Definition ex_run (evs : list event) : trace := BatchStep.history ex_flight ex_dist ex_hits evs.

(** Two vehicles and one task; the answers come in the other order and one of them twice. *)
Definition ex_query : query := {| q_id := 70; q_vehicles := [1; 2]; q_tasks := [5]; q_related := false |}.
Definition ex_answer (v : Z) : list mission :=
  [{| m_vehicle := v; m_wps := [ex_wp 1 0 []; ex_wp 2 10 [5]; ex_loiter 3 30 [5]; ex_wp 4 35 []] |}].
Definition ex_events : list event :=
  [TowerConfig 900 [] 10 40 true; State 1 0; State 2 100; Zone 8 28; Request ex_query; Response 2 (ex_answer 2); Response 2 (ex_answer 2); Response 1 (ex_answer 1)].

Example ex_outputs : map snd (ex_run ex_events) =
  [[]; []; []; [];
   [OutPlan 1 {| a_tasks := [5]; a_vehicle := 1; a_order := None |}; OutPlan 2 {| a_tasks := [5]; a_vehicle := 2; a_order := None |}];
   []; [];
   [OutSummary {| p_id := 70; p_sums := [{| t_task := 5; t_vehicles :=
      [{| v_vehicle := 1; v_init := 0; v_dest := 5; v_wps := [ex_wp 1 0 []; ex_wp 2 10 [5]; ex_loiter 3 30 [5]; ex_wp 4 35 []];
          v_onTask := 25; v_arrive := 10; v_first := 1; v_roz := true; v_beyond := false |};
       {| v_vehicle := 2; v_init := 0; v_dest := 5; v_wps := [ex_wp 1 0 []; ex_wp 2 10 [5]; ex_loiter 3 30 [5]; ex_wp 4 35 []];
          v_onTask := 25; v_arrive := 10; v_first := 1; v_roz := true; v_beyond := true |}] |}] |}]].
Proof. vm_compute. reflexivity. Qed.

Example ex_proper : proper ex_query /\ Forall small (ex_answer 1 ++ ex_answer 2).
Proof.
  split.
  - split; [repeat constructor; cbn; tauto|]. split; [repeat constructor; cbn; lia|]. cbn. lia.
  - unfold ex_answer. cbn [app]. constructor; [|constructor; [|constructor]]; intros w t [<-|[<-|[<-|[<-|[]]]]] I; cbn in I; lia.
Qed.

(** The last answer of the history is the one that C38_answer speaks about. *)
Example ex_last : exists a o b1 o1 a1, ex_run ex_events = a ++ [(Response 1 (ex_answer 1), o)] /\
  a = a1 ++ (Request ex_query, o1) :: b1 /\ unanswered (ids o1) b1 = [1] /\ answers (ids o1) b1 = ex_answer 2.
Proof.
  exists (firstn 7 (ex_run ex_events)), (snd (nth 7 (ex_run ex_events) (Zone 0 0, []))), (firstn 2 (skipn 5 (ex_run ex_events))),
    (snd (nth 4 (ex_run ex_events) (Zone 0 0, []))), (firstn 4 (ex_run ex_events)).
  vm_compute. auto.
Qed.

Example ex_once : summaries 70 (ex_run ex_events) = 1%nat /\ completed 70 (ex_run ex_events) = 1%nat.
Proof. vm_compute. auto. Qed.

(** The legs of a mission with two tasks. *)
Example ex_legs : mission_legs {| m_vehicle := 1; m_wps := [ex_wp 1 0 []; ex_wp 2 10 [5]; ex_wp 3 20 []; ex_wp 4 30 [6]; ex_wp 5 40 [6]] |}
  [(0, 5, [ex_wp 1 0 []; ex_wp 2 10 [5]; ex_wp 3 20 []]); (5, 6, [ex_wp 3 20 []; ex_wp 4 30 [6]; ex_wp 5 40 [6]])].
Proof.
  right. exists [ex_wp 1 0 []; ex_wp 2 10 [5]; ex_wp 3 20 []; ex_wp 4 30 [6]], (ex_wp 5 40 [6]). split; [reflexivity|].
  assert (B : forall n p t, busy (ex_wp n p [t])) by (intros n p t; discriminate).
  apply (legs_more _ [] 0 [ex_wp 1 0 []] [ex_wp 2 10 [5]] 5 (ex_wp 3 20 []) [ex_wp 4 30 [6]]).
  - repeat constructor.
  - exists (ex_wp 2 10 [5]), [], []. repeat split. constructor; [apply B|constructor].
  - reflexivity.
  - apply (legs_last _ [ex_wp 3 20 []] 5 [] [ex_wp 4 30 [6]] 6).
    + constructor.
    + exists (ex_wp 4 30 [6]), [], []. repeat split. constructor; [apply B|constructor].
Qed.

(** ** What does not hold *)

(** With relationships and three tasks the way from the vehicle to a task is planned twice, once for each
    task that may follow, and its waypoints are listed twice. *)
Definition rep_query : query := {| q_id := 71; q_vehicles := [1]; q_tasks := [5; 6; 7]; q_related := true |}.
Definition rep_answer (i j : Z) : list mission :=
  [{| m_vehicle := 1; m_wps := [ex_wp 1 0 []; ex_wp 2 10 [i]; ex_wp 3 20 []; ex_wp 4 30 [j]; ex_wp 5 40 []] |}].
Definition rep_events : list event :=
  [Request rep_query; Response 1 (rep_answer 5 6); Response 2 (rep_answer 5 7); Response 3 (rep_answer 6 5); Response 4 (rep_answer 6 7);
   Response 5 (rep_answer 7 5); Response 6 (rep_answer 7 6)].

Theorem C38_repeat_refuted : exists p y x ws, In (OutSummary p) (flat_map snd (ex_run rep_events)) /\
  In y (p_sums p) /\ In x (t_vehicles y) /\ v_wps x = ws ++ ws /\ ws <> [] /\ v_init x = 0.
Proof.
  set (o := flat_map snd (ex_run rep_events)). vm_compute in o. subst o.
  eexists. eexists. eexists. exists [ex_wp 1 0 []; ex_wp 2 10 [5]; ex_wp 3 20 []].
  split; [do 6 right; left; reflexivity|]. split; [left; reflexivity|]. split; [left; reflexivity|].
  split; [vm_compute; reflexivity|]. split; [discriminate|reflexivity].
Qed.

(** With relationships and a single task nothing is planned: the summary is sent at once and its lines are empty. *)
Theorem C38_single_task_refuted q v ts : q_related q = true -> q_tasks q = [ts] -> q_vehicles q = [v] ->
  map snd (ex_run [Request q]) =
  [[OutSummary {| p_id := q_id q; p_sums := [{| t_task := ts; t_vehicles :=
      [{| v_vehicle := v; v_init := 0; v_dest := ts; v_wps := []; v_onTask := -1; v_arrive := -1; v_first := 0; v_roz := false; v_beyond := false |}] |}] |}]].
Proof.
  intros R T V. destruct q as [k vs tl r]. cbn [q_related q_tasks q_vehicles q_id] in *. subst.
  unfold ex_run, BatchStep.history, run. cbn [fold_left fst snd map]. unfold BatchModel.step, onRequest, split. cbn -[Z.eqb].
  rewrite !Z.eqb_refl. reflexivity.
Qed.

(** A task id of more than 31 bits is cut, so that its line stays empty although the mission performs the task. *)
Definition big_query : query := {| q_id := 72; q_vehicles := [1]; q_tasks := [2147483648]; q_related := false |}.
Theorem C38_int32_refuted : exists p y x,
  In (OutSummary p) (flat_map snd (ex_run [Request big_query; Response 1 [{| m_vehicle := 1; m_wps := [ex_wp 1 0 []; ex_wp 2 10 [2147483648]; ex_wp 3 20 []] |}]])) /\
  In y (p_sums p) /\ In x (t_vehicles y) /\ v_wps x = [] /\ v_arrive x = -1.
Proof.
  set (o := flat_map snd _). vm_compute in o. subst o. eexists. eexists. eexists.
  split; [right; left; reflexivity|]. split; [left; reflexivity|]. split; [left; reflexivity|]. auto.
Qed.

(** An answer that reports a mission, but to a request of somebody else whose id happens to be the same, is
    taken as an answer: the service looks at the id alone. *)
Theorem C38_foreign_refuted : exists p, In (OutSummary p) (flat_map snd (ex_run [Request big_query; Response 1 []])).
Proof. set (o := flat_map snd _). vm_compute in o. subst o. eexists. right. left. reflexivity. Qed.

(** Without a known tower every line of an answered request is said to be beyond range; a vehicle whose state is not known is
    said to be in range of any tower. *)
Theorem C47_no_tower e x : (forall id, zget (towers e) id = None) -> v_beyond (assess ex_dist ex_hits e x) = true.
Proof.
  intros N. cbn. destruct (towers e) as [|(t, p) l] eqn:E; [reflexivity|]. exfalso. specialize (N t). cbn in N. rewrite Z.eqb_refl in N. discriminate.
Qed.

Print Assumptions C38_repeat_refuted.
Print Assumptions C38_single_task_refuted.
Print Assumptions C38_int32_refuted.
Print Assumptions C38_foreign_refuted.
Print Assumptions C47_no_tower.

(** C25: the plan builder implements an assignment one task after the other and reports once.

    [run (bstep ord lead) binit evs] is the history of the service for the received messages
    [evs]; [ord] is the order in which known vehicles are enumerated, and [lead] moves a
    position ahead along its heading.  The vocabulary is in BuilderSpec. *)
From Coq Require Import List ZArith Bool Permutation Lia.
From Verif Require Import ZMap Run BuilderModel BuilderSpec BuilderProofs BuilderInv.
Import ListNotations.
Open Scope list_scope.
Open Scope Z_scope.

Section Props.
  Context (ord : list Z -> list Z) (ord_perm : forall l, Permutation (ord l) l)
          (lead : pose -> pose).

  Definition history (evs : list event) : trace := snd (run (bstep ord lead) binit evs).

  Lemma history_events evs : map fst (history evs) = evs.
  Proof. apply run_events. Qed.

  Lemma history_prefix evs t1 t2 : history evs = t1 ++ t2 -> t1 = history (map fst t1).
  Proof.
    intros H. destruct t2 as [|x t2].
    - rewrite app_nil_r in H. rewrite <- H, history_events. reflexivity.
    - apply run_split in H. destruct H as (s & R & _). unfold history. now rewrite R.
  Qed.

  Lemma orderly_app t1 t2 : orderly (t1 ++ t2) -> orderly t1.
  Proof.
    induction t2 as [|(e, o) t2 IH] using rev_ind; [now rewrite app_nil_r|].
    rewrite app_assoc. intros H. apply IH. eapply orderly_prefix; eauto.
  Qed.

  Lemma the_phase evs q : orderly (history evs) ->
    exists s, phase lead q (history evs) s (impls q (history evs)) (answers q (history evs))
                (resps q (history evs)).
  Proof.
    intros O. pose proof (inv_run ord ord_perm lead evs O) as I.
    eexists. apply (in_phase _ _ _ I).
  Qed.

  (** Implementation requests ask for the tasks of the assignment, in its order. *)
  Theorem C25_in_order evs q :
    orderly (history evs) -> impls q (history evs) <> [] ->
    exists ta ts o tb u later,
      history evs = ta ++ (EvSummary q ts, o) :: tb /\ acceptable ta q ts u /\
      ts = map asked (impls q (history evs)) ++ later.
  Proof.
    intros O N. destruct (the_phase evs q O) as (s & PH).
    destruct PH as [I R P S|u ta ts o0 tb r js ms T X1 X2 X3 X4 X5 X6 X7 X8
                  |u ta ts o0 tb js ms T X1 X2 X3 X4 X5 X6]; [easy| |].
    - exists ta, ts, o0, tb, u, r. split; [auto|]. split; [auto|]. symmetry. apply (co_order _ _ _ _ _ _ _ _ _ _ X6).
    - exists ta, ts, o0, tb, u, []. split; [auto|]. split; [auto|]. symmetry. apply (co_order _ _ _ _ _ _ _ _ _ _ X4).
  Qed.

  Lemma new_unanswered evs t1 e o t2 i xs q is0 :
    orderly (history evs) -> history evs = t1 ++ (e, o) :: t2 -> In (OutImpl i) o ->
    xs = answers q (t1 ++ [(e, o)]) -> Forall2 answered (is0 ++ [i]) xs -> False.
  Proof.
    intros O H I -> F.
    assert (OP : orderly (t1 ++ [(e, o)])).
    { assert (H' : history evs = (t1 ++ [(e, o)]) ++ t2) by (rewrite H, <- app_assoc; reflexivity).
      rewrite H' in O. eapply orderly_app; eauto. }
    pose proof (orderly_prefix _ _ _ OP) as O1.
    pose proof (history_prefix _ _ _ H) as H1.
    pose proof H as HR. apply run_split in HR. destruct HR as (s0 & R0 & _ & EO).
    cbn [fst snd] in EO.
    assert (ID : ids t1 s0).
    { rewrite H1 in O1. pose proof (inv_run ord ord_perm lead _ O1) as J.
      rewrite R0 in J. apply (in_ids _ _ _ J). }
    destruct (Forall2_In_l _ _ _ i F) as (y & Y & (E & _)); [apply in_or_app; right; left; auto|].
    unfold answers in Y. apply filter_In in Y. destruct Y as (Y & _).
    assert (L : x_id y < b_impl s0).
    { rewrite replies_snoc in Y. apply in_app_or in Y. destruct Y as [Y|Y].
      - eapply reply_lt; eauto.
      - destruct e; try easy. destruct Y as [->|[]].
        destruct (or_echo _ OP t1 y o [] eq_refl) as (j & J1 & J2 & _).
        rewrite <- J2. now apply (id_lt _ _ ID). }
    destruct (step_effect ord lead s0 e) as [[(Q & _)|(i0 & Q & R & _)]]; rewrite <- EO in Q;
      apply in_all_impl in I; rewrite Q in I; [easy|]. destruct I as [->|[]]. lia.
  Qed.

  (** The next implementation request is only sent once every earlier one has been answered. *)
  Theorem C25_one_at_a_time evs q t1 e o t2 i :
    orderly (history evs) -> history evs = t1 ++ (e, o) :: t2 ->
    In (OutImpl i) o -> i_corr i = q ->
    Forall2 answered (impls q t1) (answers q (t1 ++ [(e, o)])).
  Proof.
    intros O H I C.
    assert (H' : history evs = (t1 ++ [(e, o)]) ++ t2) by (rewrite H, <- app_assoc; reflexivity).
    pose proof (history_prefix _ _ _ H') as HP.
    assert (OP : orderly (t1 ++ [(e, o)])).
    { pose proof O as O'. rewrite H' in O'. eapply orderly_app; eauto. }
    pose proof H as HR. apply run_split in HR. destruct HR as (s0 & _ & _ & EO). cbn [fst snd] in EO.
    assert (FO : flat_map (impl_of q) o = [i]).
    { destruct (step_effect ord lead s0 e) as [[(Q & _)|(i0 & Q & _)]]; rewrite <- EO in Q.
      - apply in_all_impl in I. rewrite Q in I. easy.
      - apply in_all_impl in I. rewrite Q in I. destruct I as [->|[]].
        clear - Q C. revert Q. induction o as [|p o IH]; [discriminate|]. cbn.
        destruct p as [i1|q1 ms fs|q1|]; cbn [all_impl app impl_of]; auto.
        intros Q. injection Q as -> Q. rewrite C, Z.eqb_refl. cbn. f_equal.
        clear - Q. induction o as [|p o IH]; [reflexivity|]. cbn in *.
        destruct p; cbn in *; auto. discriminate. }
    rewrite HP in OP. destruct (the_phase _ q OP) as (s & PH). rewrite <- HP in PH.
    rewrite impls_snoc, FO in PH.
    destruct PH as [I' R P S|u ta ts o0 tb r js ms T X1 X2 X3 X4 X5 X6 X7 X8
                  |u ta ts o0 tb js ms T X1 X2 X3 X4 X5 X6].
    - now apply app_eq_nil in I'.
    - destruct X8 as [(is0 & i' & E & F)|(F & _)].
      + apply app_inj_tail in E. destruct E as (-> & ->). exact F.
      + exfalso. eapply (new_unanswered evs t1 e o t2 i); eauto.
    - exfalso. eapply (new_unanswered evs t1 e o t2 i); eauto.
  Qed.

  (** A request gets at most one response, and only when each task of its assignment has been
      asked for and answered.  The response holds the plan made of those answers and the poses
      the vehicles end up in. *)
  Theorem C25_once evs q :
    orderly (history evs) ->
    resps q (history evs) = [] \/
    exists ms fs ta ts o tb u,
      resps q (history evs) = [(ms, fs)] /\
      history evs = ta ++ (EvSummary q ts, o) :: tb /\ acceptable ta q ts u /\
      ts = map asked (impls q (history evs)) /\
      Forall2 answered (impls q (history evs)) (answers q (history evs)) /\
      is_plan (answers q (history evs)) ms /\
      poses lead u ta (answers q (history evs)) (fun _ => False) fs.
  Proof.
    intros O. destruct (the_phase evs q O) as (s & PH).
    destruct PH as [I R P S|u ta ts o0 tb r js ms T X1 X2 X3 X4 X5 X6 X7 X8
                  |u ta ts o0 tb js ms T X1 X2 X3 X4 X5 X6]; [auto|auto|].
    right. exists ms, (map (fun j => (j_vehicle j, j_pose j)) js), ta, ts, o0, tb, u.
    destruct X4 as [C1 C2 C3 C4]. split; [auto|]. split; [auto|]. split; [auto|].
    split; [now rewrite app_nil_r in C1|]. split; [auto|]. split; [auto|]. now apply poses_finals.
  Qed.

  Lemma summary_split t ta ts o tb ta' ts' o' tb' q :
    NoDup (summaryIds t) -> t = ta ++ (EvSummary q ts, o) :: tb ->
    t = ta' ++ (EvSummary q ts', o') :: tb' -> ta = ta' /\ ts = ts'.
  Proof.
    revert tb tb'. induction t as [|(e, p) t IH] using rev_ind; intros tb tb' N E E'.
    - destruct ta; discriminate.
    - rewrite summaryIds_snoc in N. apply snoc_cases in E. apply snoc_cases in E'.
      destruct E as [(-> & <- & E)|(b & -> & E)], E' as [(-> & <- & E')|(b' & -> & E')].
      + split; congruence.
      + exfalso. injection E as -> ->. apply NoDup_snoc_not in N. apply N. rewrite E'.
        apply in_summaryIds.
      + exfalso. injection E' as -> ->. apply NoDup_snoc_not in N. apply N. rewrite E.
        apply in_summaryIds.
      + eapply IH; eauto. eapply NoDup_prefix; eauto.
  Qed.

  (** Once an assignment has been accepted and all its vehicles take part, the builder either
      waits for the answer to its last implementation request or has sent the response. *)
  Theorem C25_progress evs q ta ts o tb u :
    orderly (history evs) -> history evs = ta ++ (EvSummary q ts, o) :: tb ->
    acceptable ta q ts u -> (forall a, In a ts -> participates u ta (g_vehicle a)) ->
    (resps q (history evs) = [] /\
     exists is0 i, impls q (history evs) = is0 ++ [i] /\
                   Forall2 answered is0 (answers q (history evs))) \/
    (length (resps q (history evs)) = 1%nat /\
     map asked (impls q (history evs)) = ts /\
     Forall2 answered (impls q (history evs)) (answers q (history evs))).
  Proof.
    intros O H A V. destruct (the_phase evs q O) as (s & PH).
    destruct PH as [I R P S|u' ta' ts' o0 tb' r js ms T X1 X2 X3 X4 X5 X6 X7 X8
                  |u' ta' ts' o0 tb' js ms T X1 X2 X3 X4 X5 X6].
    - destruct (S _ _ _ _ _ H A).
    - left. split; [auto|]. destruct X8 as [X8|(_ & a & r' & -> & NP)]; [exact X8|].
      exfalso. apply NP. destruct (summary_split _ _ _ _ _ _ _ _ _ _ (or_summary _ O) H T) as (<- & <-).
      assert (u' = u).
      { destruct A as (_ & A1 & A2 & _), X1 as (_ & B1 & B2 & _).
        eapply unique_request; [|exact B1|exact A1|congruence].
        assert (OO := or_unique _ O). rewrite H in OO. unfold requestIds in OO.
        rewrite flat_map_app in OO. eapply NoDup_prefix; eauto. }
      subst u'. apply V. rewrite <- (co_order _ _ _ _ _ _ _ _ _ _ X6). apply in_or_app. right. left. auto.
    - right. destruct (summary_split _ _ _ _ _ _ _ _ _ _ (or_summary _ O) H T) as (<- & <-).
      split; [now rewrite X5|]. split; [|auto].
      rewrite <- (co_order _ _ _ _ _ _ _ _ _ _ X4). now rewrite app_nil_r.
  Qed.

  (** An assignment that cannot be acted on is reported as an error and nothing else. *)
  Theorem C25_rejected evs q ts :
    NoDup (requestIds (history evs)) -> (forall u, ~ acceptable (history evs) q ts u) ->
    history (evs ++ [EvSummary q ts]) = history evs ++ [(EvSummary q ts, [OutError])].
  Proof.
    intros NU N. unfold history. rewrite run_snoc. cbn [snd]. f_equal. f_equal. f_equal.
    assert (K : known (history evs) (fst (run (bstep ord lead) binit evs))).
    { clear. revert evs. apply (run_inv (bstep ord lead) binit (fun _ s t => known t s)).
      - constructor; cbn; auto.
      - intros evs e s t s' o IH V _. pose proof (known_step ord lead t s e IH) as H.
        rewrite V in H. exact H. }
    destruct K as [KS KR]. specialize (KR q). cbn [bstep].
    unfold processSummary. set (s := fst (run (bstep ord lead) binit evs)) in *.
    destruct (zget (b_reqs s) q) as [u|]; [|reflexivity].
    destruct ts as [|a ts]; [reflexivity|].
    destruct (forallb _ _) eqn:FA; [|reflexivity].
    exfalso. apply (N u). destruct KR as (K1 & K2). split; [easy|]. split; [auto|]. split; [auto|].
    intros v I. rewrite forallb_forall in FA. specialize (FA v I). rewrite <- KS.
    unfold zhas in FA. destruct (zget (b_states s) v); easy.
  Qed.

  (** Each implementation request starts where the answers so far have brought its vehicle:
      it carries the next waypoint number, the pose and the time, and tells where the other
      vehicles are. *)
  Theorem C25_carries_on evs q before i after :
    orderly (history evs) -> impls q (history evs) = before ++ i :: after ->
    exists ta ts o tb u,
      history evs = ta ++ (EvSummary q ts, o) :: tb /\ acceptable ta q ts u /\
      carries_on lead u ta (firstn (length before) (answers q (history evs))) i.
  Proof.
    intros O E. destruct (the_phase evs q O) as (s & PH).
    destruct PH as [I R P S|u ta ts o0 tb r js ms T X1 X2 X3 X4 X5 X6 X7 X8
                  |u ta ts o0 tb js ms T X1 X2 X3 X4 X5 X6].
    - rewrite I in E. destruct before; discriminate.
    - exists ta, ts, o0, tb, u. split; [auto|]. split; [auto|].
      apply (co_start _ _ _ _ _ _ _ _ _ _ X6 _ _ _ E).
    - exists ta, ts, o0, tb, u. split; [auto|]. split; [auto|].
      apply (co_start _ _ _ _ _ _ _ _ _ _ X4 _ _ _ E).
  Qed.

  (** No two missions ever sent have the same command id. *)
  Theorem C25_command_ids evs : NoDup (map m_cmd (missions (history evs))).
  Proof.
    pose proof (cm_nd _ _ (cmds_run ord lead evs)) as N. rewrite map_app in N.
    eapply NoDup_prefix; eauto.
  Qed.

  (** * Well formed missions from well formed answers *)

  Lemma numbered_app n a b :
    numbered n (a ++ b) <-> numbered n a /\ numbered (n + Z.of_nat (length a)) b.
  Proof.
    revert n. induction a as [|w a IH]; intros n; cbn [app numbered length].
    - rewrite Z.add_0_r. tauto.
    - rewrite IH. replace (n + 1 + Z.of_nat (length a)) with (n + Z.of_nat (S (length a))) by lia.
      tauto.
  Qed.

  Lemma linkLast_nums l n : map w_num (linkLast l n) = map w_num l.
  Proof.
    destruct l as [|w l _] using rev_ind; [reflexivity|]. rewrite linkLast_snoc, !map_app. reflexivity.
  Qed.

  Lemma linkLast_length l n : length (linkLast l n) = length l.
  Proof. rewrite <- (map_length w_num (linkLast l n)), linkLast_nums. apply map_length. Qed.

  Lemma numbered_nums n a b : map w_num a = map w_num b -> numbered n a -> numbered n b.
  Proof.
    revert n b. induction a as [|w a IH]; intros n [|w' b] E; try discriminate; [auto|].
    cbn in *. injection E as E1 E2. intros (A & B). split; [congruence|]. eapply IH; eauto.
  Qed.

  Lemma chained_app l w p :
    chained l -> chained (w :: p) -> chained (linkLast l (w_num w) ++ w :: p).
  Proof.
    induction l as [|a l IH]; [auto|]. intros C D. destruct l as [|b l].
    - cbn [linkLast app]. split; [reflexivity|exact D].
    - destruct C as (C1 & C2). specialize (IH C2 D).
      change (linkLast (a :: b :: l) (w_num w)) with (a :: linkLast (b :: l) (w_num w)).
      pose proof (linkLast_hd (b :: l) (w_num w)) as H.
      destruct (linkLast (b :: l) (w_num w)) as [|b' l'] eqn:E; [discriminate|].
      cbn in H. injection H as H. cbn [app] in *. split; [congruence|exact IH].
  Qed.

  Lemma last_number n l w d : numbered n (w :: l) -> w_num (last (w :: l) d) = n + Z.of_nat (length l).
  Proof.
    revert n w. induction l as [|b l IH]; intros n w (A & B).
    - cbn. lia.
    - change (last (w :: b :: l) d) with (last (b :: l) d). rewrite (IH (n + 1) b B).
      cbn [length]. lia.
  Qed.

  (** The answer's route is numbered from where it was asked to start and is chained. *)
  Definition proper (i : ireq) (x : iresp) : Prop :=
    numbered (i_start i) (x_wps x) /\ chained (x_wps x).

  Lemma well_formed u ta is xs v :
    Forall2 answered is xs -> Forall2 proper is xs ->
    (forall a i b, is = a ++ i :: b -> carries_on lead u ta (firstn (length a) xs) i) ->
    let l := join (pieces v xs) in
    numbered 1 l /\ chained l /\
    (forall n p tm, reached lead u ta v xs = Some (n, p, tm) -> n = 1 + Z.of_nat (length l)).
  Proof.
    intros F. revert is F. induction xs as [|x xs IH] using rev_ind; intros is F PR CO.
    - cbn. split; [auto|]. split; [auto|]. intros n p tm. unfold reached. cbn [latest rev find].
      destruct (lastState v ta) as [(p0, tm0)|]; [|discriminate]. intros E. injection E. lia.
    - apply Forall2_app_inv_r in F. destruct F as (is0 & l1 & F & F1 & ->).
      inversion F1 as [|i ? ? ? A F2]; subst. inversion F2; subst. clear F1 F2.
      apply Forall2_app_inv_l in PR. destruct PR as (xs0 & l2 & PR & PR1 & E).
      inversion PR1 as [|? y ? ? PX PR2]; subst. inversion PR2; subst. clear PR1 PR2.
      apply app_inj_tail in E. destruct E as (<- & <-).
      specialize (IH is0 F PR).
      assert (LN : length is0 = length xs) by (eapply Forall2_len; eauto).
      destruct IH as (N & C & R).
      { intros a j b E. specialize (CO a j (b ++ [i])). rewrite E, <- app_assoc in CO.
        specialize (CO eq_refl). rewrite firstn_app in CO.
        assert (L : (length a <= length xs)%nat).
        { rewrite <- LN, E, app_length. lia. }
        replace (length a - length xs)%nat with 0%nat in CO by lia. cbn [firstn] in CO.
        now rewrite app_nil_r in CO. }
      specialize (CO is0 i [] eq_refl). rewrite LN, firstn_app, Nat.sub_diag, firstn_all in CO.
      cbn [firstn] in CO. rewrite app_nil_r in CO. destruct CO as (CO & _).
      cbn zeta. rewrite pieces_snoc.
      destruct ((x_vehicle x =? v) && has_route x) eqn:B.
      + pose proof B as B'. apply andb_true_iff in B'. destruct B' as (BV & BR).
        apply Z.eqb_eq in BV. unfold has_route in BR. destruct (x_wps x) as [|w ws] eqn:W; [easy|].
        destruct A as (_ & A). rewrite A, BV in CO. specialize (R _ _ _ CO).
        destruct PX as (PN & PC). rewrite W in PN, PC.
        rewrite join_snoc by apply pieces_nonempty.
        set (l := join (pieces v xs)) in *.
        split; [|split].
        * apply numbered_app. split.
          -- eapply numbered_nums; [|exact N]. symmetry. apply linkLast_nums.
          -- rewrite linkLast_length, <- R. exact PN.
        * now apply chained_app.
        * intros n p tm. unfold reached. rewrite latest_snoc, B, W.
          rewrite (last_number _ _ _ _ PN). intros E. assert (E' := f_equal (option_map (fun y => fst (fst y))) E).
          cbn [option_map fst] in E'. injection E' as E'.
          rewrite app_length, linkLast_length. cbn [length]. lia.
      + rewrite app_nil_r. split; [auto|]. split; [auto|].
        intros n p tm. unfold reached. rewrite latest_snoc, B. apply R.
  Qed.

  (** If every answer numbers its waypoints from where it was asked to start, and chains them,
      each mission is numbered 1, 2, 3 ... and chained from its first waypoint to its last. *)
  Theorem C25_missions_well_formed evs q ms fs m :
    orderly (history evs) -> In (ms, fs) (resps q (history evs)) -> In m ms ->
    Forall2 proper (impls q (history evs)) (answers q (history evs)) ->
    m_first m = 1 /\ numbered 1 (m_wps m) /\ chained (m_wps m).
  Proof.
    intros O I J PR. destruct (the_phase evs q O) as (s & PH).
    destruct PH as [E R P S|u ta ts o0 tb r js ms' T X1 X2 X3 X4 X5 X6 X7 X8
                  |u ta ts o0 tb js ms' T X1 X2 X3 X4 X5 X6];
      [rewrite R in I; easy|rewrite X7 in I; easy|].
    rewrite X5 in I. destruct I as [I|[]]. injection I as -> _.
    destruct X4 as [C1 (_ & _ & C2) C3 C4]. destruct (C2 m J) as (M1 & w & M2 & M3).
    destruct (well_formed u ta _ _ (m_vehicle m) X6 PR C4) as (N & C & _).
    rewrite M1. split; [|auto]. rewrite M1 in M2.
    destruct (join (pieces (m_vehicle m) (answers q (history evs)))) as [|w' l]; [discriminate|].
    cbn in M2. injection M2 as ->. destruct N as (N & _). congruence.
  Qed.
End Props.

(** * Examples *)

(** A computable form of [orderly]. *)
Fixpoint distinct (l : list Z) : bool :=
  match l with [] => true | x :: l' => negb (zin x l') && distinct l' end.

Lemma distinct_sound l : distinct l = true -> NoDup l.
Proof.
  induction l as [|x l IH]; cbn; [constructor|]. intros H. apply andb_prop in H.
  destruct H as (A & B). constructor; auto. apply zin_false. destruct (zin x l); auto.
Qed.

Fixpoint echoes (seen : list out) (t : trace) : bool :=
  match t with
  | [] => true
  | (e, o) :: t' =>
      match e with
      | EvImpl x => existsb (fun p => match p with
                                      | OutImpl i => (i_id i =? x_id x) && (i_vehicle i =? x_vehicle x)
                                      | _ => false
                                      end) seen
      | _ => true
      end && echoes (seen ++ o) t'
  end.

Lemma echoes_sound t : forall seen, echoes seen t = true ->
  forall t1 x o t2, t = t1 ++ (EvImpl x, o) :: t2 ->
  exists i, In (OutImpl i) (seen ++ sent t1) /\ i_id i = x_id x /\ i_vehicle i = x_vehicle x.
Proof.
  induction t as [|(e, o0) t IH]; intros seen H t1 x o t2 E; [destruct t1; discriminate|].
  cbn [echoes] in H. apply andb_prop in H. destruct H as (H1 & H2).
  destruct t1 as [|y t1].
  - cbn in E. injection E as -> -> ->. apply existsb_exists in H1. destruct H1 as (p & I & P).
    destruct p; try discriminate. apply andb_prop in P. destruct P as (P1 & P2).
    exists i. cbn [sent flat_map]. rewrite app_nil_r. split; [auto|]. lia.
  - cbn in E. injection E as <- E. destruct (IH _ H2 _ _ _ _ E) as (i & I & P).
    exists i. split; [|auto]. cbn [sent flat_map snd]. now rewrite app_assoc.
Qed.

Definition orderlyb (t : trace) : bool :=
  distinct (requestIds t) && distinct (summaryIds t) && distinct (map x_id (replies t)) &&
  echoes [] t.

Lemma orderlyb_sound t : orderlyb t = true -> orderly t.
Proof.
  unfold orderlyb. intros H. apply andb_prop in H. destruct H as (H & H4).
  apply andb_prop in H. destruct H as (H & H3). apply andb_prop in H. destruct H as (H1 & H2).
  constructor; try (apply distinct_sound; assumption).
  intros t1 x o t2 E. apply (echoes_sound _ [] H4 _ _ _ _ E).
Qed.

Definition hist := history (fun l => l) (fun p => p + 50).
Definition aReq := {| u_id := 7; u_entities := [1; 2]; u_region := 9; u_planning := [(2, 444)] |}.
Definition aWp n := {| w_num := n; w_next := n + 1; w_data := 100 * n |}.
Definition aTask n v := {| g_task := n; g_option := 1; g_vehicle := v; g_threshold := 0 |}.
Definition anAnswer k v ws p := {| x_id := k; x_vehicle := v; x_wps := ws; x_time := 10 * k; x_pose := p |}.

(** Three tasks for two vehicles. *)
Definition aRun : list event :=
  [EvState 1 100 5; EvState 2 200 6; EvUnique aReq;
   EvSummary 7 [aTask 31 1; aTask 32 2; aTask 33 1];
   EvImpl (anAnswer 1 1 [aWp 1; aWp 2] 555); EvImpl (anAnswer 2 2 [aWp 1] 666);
   EvImpl (anAnswer 3 1 [aWp 3] 777)].

Example C25_example :
  orderly (hist aRun) /\
  map i_task (impls 7 (hist aRun)) = [31; 32; 33] /\
  map i_start (impls 7 (hist aRun)) = [1; 1; 3] /\
  map i_pose (impls 7 (hist aRun)) = [150; 444; 555] /\
  resps 7 (hist aRun) =
    [([{| m_cmd := 1; m_vehicle := 1; m_first := 1; m_wps := [aWp 1; aWp 2; aWp 3] |};
       {| m_cmd := 2; m_vehicle := 2; m_first := 1; m_wps := [aWp 1] |}],
      [(1, 777); (2, 666)])] /\
  Forall2 proper (impls 7 (hist aRun)) (answers 7 (hist aRun)) /\
  acceptable (firstn 3 (hist aRun)) 7 [aTask 31 1; aTask 32 2; aTask 33 1] aReq /\
  (forall a, In a [aTask 31 1; aTask 32 2; aTask 33 1] ->
     participates aReq (firstn 3 (hist aRun)) (g_vehicle a)).
Proof.
  split; [apply orderlyb_sound; vm_compute; reflexivity|].
  split; [vm_compute; reflexivity|]. split; [vm_compute; reflexivity|].
  split; [vm_compute; reflexivity|]. split; [vm_compute; reflexivity|].
  split; [vm_compute; repeat constructor|]. split.
  - split; [easy|]. split; [vm_compute; auto|]. split; [reflexivity|].
    intros v [<-|[<-|[]]]; vm_compute; discriminate.
  - intros a [<-|[<-|[<-|[]]]]; vm_compute; auto.
Qed.

(** An assignment for an unknown request, an empty one, and one for a request with a vehicle
    without state are rejected. *)
Example C25_rejected_example :
  NoDup (requestIds (hist [EvState 1 100 5; EvUnique aReq])) /\
  (forall u, ~ acceptable (hist [EvState 1 100 5; EvUnique aReq]) 7 [aTask 31 1] u).
Proof.
  split; [vm_compute; repeat constructor; easy|].
  intros u (_ & I & _ & A). vm_compute in I. destruct I as [I|[I|[]]]; [discriminate|].
  injection I as <-. apply (A 2); vm_compute; auto.
Qed.

(** * What does not hold *)

(** If the assigned vehicle is not among those of the request, nothing is ever sent: neither an
    implementation request, nor a response, nor an error. *)
Theorem C25_stall_refuted :
  exists evs ta ts o u,
    orderly (hist evs) /\ hist evs = ta ++ [(EvSummary 7 ts, o)] /\ acceptable ta 7 ts u /\
    sent (hist evs) = [].
Proof.
  exists [EvState 1 100 5; EvState 2 200 6; EvState 3 300 7; EvUnique aReq;
          EvSummary 7 [aTask 31 3]].
  eexists [_; _; _; _], _, _, aReq.
  split; [apply orderlyb_sound; vm_compute; reflexivity|].
  split; [reflexivity|]. split; [|reflexivity].
  split; [easy|]. split; [vm_compute; auto 6|]. split; [reflexivity|].
  intros v [<-|[<-|[]]]; vm_compute; discriminate.
Qed.

(** If an answer is delivered twice, its route is flown twice and two implementation requests
    are outstanding at the same time. *)
Definition aReplay : list event :=
  [EvState 1 100 5; EvState 2 200 6; EvUnique aReq;
   EvSummary 7 [aTask 31 1; aTask 32 2; aTask 33 1];
   EvImpl (anAnswer 1 1 [aWp 1; aWp 2] 555); EvImpl (anAnswer 1 1 [aWp 1; aWp 2] 555)].

Theorem C25_replay_refuted :
  NoDup (requestIds (hist aReplay)) /\ NoDup (summaryIds (hist aReplay)) /\
  length (impls 7 (hist aReplay)) = 3%nat /\ map x_id (replies (hist aReplay)) = [1; 1] /\
  exists ms fs, resps 7 (hist (aReplay ++ [EvImpl (anAnswer 2 2 [aWp 1] 666)])) = [(ms, fs)] /\
    map (fun m => map w_num (m_wps m)) ms = [[1; 2; 1; 2]; [1]].
Proof.
  split; [apply distinct_sound; vm_compute; reflexivity|].
  split; [apply distinct_sound; vm_compute; reflexivity|].
  split; [vm_compute; reflexivity|]. split; [vm_compute; reflexivity|].
  eexists _, _. split; [vm_compute; reflexivity|]. reflexivity.
Qed.

Print Assumptions C25_in_order.
Print Assumptions C25_one_at_a_time.
Print Assumptions C25_once.
Print Assumptions C25_progress.
Print Assumptions C25_rejected.
Print Assumptions C25_carries_on.
Print Assumptions C25_command_ids.
Print Assumptions C25_missions_well_formed.
Print Assumptions C25_stall_refuted.
Print Assumptions C25_replay_refuted.

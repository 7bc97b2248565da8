(** C48: the options of a task that plans routes for them first. *)
From Coq Require Import List ZArith Bool Lia Sorted.
From Verif Require Import ZMap Run TaskBaseModel TaskBaseSpec TaskBaseNotice TaskBaseInv TaskBaseStep
  TaskBaseWps TaskBaseImpl TaskBaseOpt TaskBaseOptions.
Import ListNotations.
Open Scope list_scope.
Open Scope Z_scope.

Section C48.
  Context (task : Z) (eligible : list Z) (transActive : bool) (coloc : Z -> Z -> bool).
  Context (restCost : Z -> list wp -> Z).
  Context (ordv : list Z -> list Z) (ordw : zmap Z -> list (Z * Z)).
  Context (ordw_in : forall m x, In x (ordw m) -> In x m).
  Notation step := (step task eligible transActive coloc restCost ordv ordw).
  Notation run := (run step).
  Notation history := (history task eligible transActive coloc restCost ordv ordw).
  Notation at_ := (at_ task eligible transActive coloc restCost ordv ordw).

  Section Lanes.
    Context (n : Z) (evs : list ev) (t0 mid1 t1 : list (ev * list out)) (q : areq) (u : built)
            (o0 o1 : list out) (l : list (Z * Z * list (Z * Z))).
    Context (H : history n evs = t0 ++ (Request q u, o0) :: mid1 ++ (Lanes l, o1) :: t1).
    Context (AN : anew task (map fst t0) q) (NOW : u_now u = false) (QM : quietly task mid1).
    Context (CU : current (map fst (t0 ++ (Request q u, o0) :: mid1)) <> None).
    Context (NDL : NoDup (map (fun x => fst (fst x)) l)).
    Context (KN : forall k v ls, In (k, v, ls) l ->
                    ls <> [] /\ exists x, In x (u_opts u) /\ p_option (fst x) = k).

    Let R := (Request q u, o0).
    Let sL := at_ n (t0 ++ R :: mid1).
    Let n0 := nextId sL.
    Let E := numbered n0 l.
    Let ids := map fst E.

    Lemma known k v ls : In (k, v, ls) l ->
      exists x, find (fun x => p_option (fst x) =? k) (u_opts u) = Some x /\ p_option (fst x) = k.
    Proof.
      intros HI. destruct (KN _ _ _ HI) as (_ & x & X1 & X2).
      destruct (find (fun x => p_option (fst x) =? k) (u_opts u)) as [y|] eqn:F.
      - exists y. split; auto. apply find_some in F. destruct F as (_ & F). apply Z.eqb_eq in F. exact F.
      - eapply find_none in F; eauto. cbn in F. apply Z.eqb_neq in F. contradiction.
    Qed.

    Lemma before_lanes :
      opts sL = newOpts (u_opts u) /\ planReq sL = q_id q /\ planOpts sL = [] /\ pendOpt sL = [] /\
      pendImpl sL = [].
    Proof.
      assert (H1 : snd (run (init n) evs) = t0 ++ R :: (mid1 ++ (Lanes l, o1) :: t1)) by exact H.
      pose proof (hist_next _ _ _ _ _ _ _ _ _ _ _ _ _ H1) as (S1 & _).
      rewrite (anew_fresh task eligible transActive coloc restCost ordv ordw ordw_in (map fst t0)) in S1
        by (auto; apply ginv_run).
      assert (H2 : snd (run (init n) evs) = (t0 ++ [R]) ++ mid1 ++ (Lanes l, o1) :: t1)
        by (rewrite <- app_assoc; exact H1).
      unfold sL. change (t0 ++ R :: mid1) with (t0 ++ [R] ++ mid1). rewrite app_assoc.
      apply (hist_ind task eligible transActive coloc restCost ordv ordw n evs
        (fun _ s => opts s = newOpts (u_opts u) /\ planReq s = q_id q /\ planOpts s = [] /\
                    pendOpt s = [] /\ pendImpl s = []) _ _ _ H2).
      - unfold R. rewrite S1. unfold fresh. rewrite NOW. cbn. auto.
      - intros a e o b EM (I1 & I2 & I3 & I4 & I5) EO.
        destruct (calm_still task eligible transActive coloc restCost ordv ordw (at_ n ((t0 ++ [R]) ++ a)) e)
          as ((A1 & A2 & A3 & A4 & A5 & _) & _); auto.
        + apply QM. rewrite EM, map_app. apply in_or_app. cbn; auto.
        + intros id v rs _. left. rewrite I4. intros [].
        + repeat split; congruence.
    Qed.

    Lemma lanes_step :
      let r := fold_left lane l (sL, []) in
      at_ n (t0 ++ R :: mid1 ++ [(Lanes l, o1)]) = fst r /\ o1 = snd r.
    Proof.
      assert (H1 : snd (run (init n) evs) = (t0 ++ R :: mid1) ++ (Lanes l, o1) :: t1)
        by (rewrite <- app_assoc; exact H).
      pose proof (hist_next _ _ _ _ _ _ _ _ _ _ _ _ _ H1) as (S1 & O1).
      rewrite <- app_assoc in S1. cbn [app] in S1. cbn [TaskBaseModel.step] in S1, O1. unfold lanes in S1, O1.
      fold sL in S1, O1. pose proof (req_current task _ sL (ninv_run task eligible transActive coloc restCost ordv ordw n _)) as RC.
      fold R in CU. destruct (current _) as [q4|]; [|contradiction].
      rewrite RC in S1, O1. cbn zeta. split; [exact S1|exact O1].
    Qed.

    Lemma opts_known k v ls : In (k, v, ls) l -> zget (opts sL) k <> None.
    Proof.
      intros HI. destruct before_lanes as (-> & _). rewrite newOpts_find.
      destruct (known _ _ _ HI) as (x & -> & _). discriminate.
    Qed.
    Lemma opts_nodup : NoDup (map fst (opts sL)).
    Proof. destruct before_lanes as (-> & _). apply newOpts_NoDup. Qed.

    Lemma outputs :
      o1 = map (fun x => Ask (fst x) (snd (fst (snd x))) true (numbered 2 (snd (snd x)))) E.
    Proof.
      destruct lanes_step as (_ & LS). rewrite LS. clear LS.
      pose proof (lanes_requests task eligible coloc restCost ordv l sL [] NDL opts_known opts_nodup) as
        (_ & _ & _ & _ & _ & I6 & _). exact I6.
    Qed.

    Lemma idsOf_ids : idsOf o1 = ids.
    Proof.
      rewrite outputs. unfold idsOf, ids. clear. induction E as [|x r IH]; cbn; [reflexivity|].
      unfold idsOf in *. rewrite IH. reflexivity.
    Qed.

    Lemma asksFor_iff id k ls rts :
      asksFor l o1 id k ls rts <-> exists v, In (id, (k, v, ls)) E /\ rts = numbered 2 ls.
    Proof.
      unfold asksFor. rewrite outputs. split.
      - intros (j & v & A & B). rewrite nth_error_map in B. unfold E in B. rewrite numbered_nth, A in B.
        cbn in B. injection B as <- <-. exists v. split; [|reflexivity].
        apply (nth_error_In E j). unfold E. rewrite numbered_nth, A. reflexivity.
      - intros (v & A & ->). apply In_nth_error in A. destruct A as (j & A). exists j, v.
        rewrite nth_error_map, A. cbn [option_map fst snd]. split; [|reflexivity].
        unfold E in A. rewrite numbered_nth in A. destruct (nth_error l j); [|discriminate].
        cbn in A. injection A as _ ->. reflexivity.
    Qed.

    (** The state while the responses [a] have arrived. *)
    Definition priced (x : Z * list route) (p : pub) : Prop :=
      exists k v ls pu rr, In (fst x, (k, v, ls)) E /\
        find (fun y => p_option (fst y) =? k) (u_opts u) = Some (pu, rr) /\ offer pu ls (snd x) p.

    Record winv (a : list (ev * list out)) (s : st) : Prop := {
      w_impl : pendImpl s = [];
      w_opt : forall id, In id (pendOpt s) <->
                         In id ids /\ ~ In id (map fst (answers task ids (map fst a)));
      w_req : planReq s = q_id q;
      w_plan : Forall2 priced (answers task ids (map fst a)) (planOpts s);
      w_ent : forall id k v ls, In (id, (k, v, ls)) E ->
        zget (rtype s) id = Some (false, k) /\
        exists op, zget (opts s) k = Some op /\
          (In id (map fst (answers task ids (map fst a))) -> o_pending op = []) /\
          (~ In id (map fst (answers task ids (map fst a))) ->
             (forall x, In x (o_pending op) <-> In x (map fst (numbered 2 ls))) /\
             exists pu rr, find (fun y => p_option (fst y) =? k) (u_opts u) = Some (pu, rr) /\
                           o_pub op = laid pu ls);
      w_rest : forall k op, zget (opts s) k = Some op ->
        (exists id v ls, In (id, (k, v, ls)) E) \/ o_pending op = [];
      w_nd : NoDup (map fst (opts s))
    }.

    Lemma E_l id k v ls : In (id, (k, v, ls)) E -> In (k, v, ls) l.
    Proof. intros Q. apply (in_map snd) in Q. unfold E in Q. rewrite numbered_snd in Q. exact Q. Qed.
    Lemma l_E k v ls : In (k, v, ls) l -> exists id, In (id, (k, v, ls)) E.
    Proof.
      intros Q. unfold E. rewrite <- (numbered_snd l n0) in Q. apply in_map_iff in Q.
      destruct Q as ((id, y) & Q1 & Q2). cbn in Q1. subst y. eauto.
    Qed.
    Lemma E_inj id id' k v v' ls ls' :
      In (id, (k, v, ls)) E -> In (id', (k, v', ls')) E -> id = id' /\ v = v' /\ ls = ls'.
    Proof.
      unfold E. generalize n0. clear - NDL. induction l as [|x r IH]; intros m; cbn [numbered In]; [tauto|].
      cbn [map] in NDL. inversion NDL as [|? ? N1 N2]; subst.
      assert (D : forall m id v ls, In (id, (fst (fst x), v, ls)) (numbered m r) -> False).
      { intros m0 id0 v0 ls0 Q. apply N1. apply (in_map snd) in Q. rewrite numbered_snd in Q.
        apply (in_map (fun x => fst (fst x))) in Q. exact Q. }
      intros [A|A] [B|B].
      - injection A as <- ->. injection B as <- <- <-. auto.
      - injection A as <- ->. edestruct D; eauto.
      - injection B as <- ->. edestruct D; eauto.
      - eapply IH; eauto.
    Qed.
    Lemma ids_E id : In id ids -> exists k v ls, In (id, (k, v, ls)) E.
    Proof.
      intros Q. unfold ids in Q. apply in_map_iff in Q. destruct Q as ((x, ((k, v), ls)) & Q1 & Q2).
      cbn in Q1. subst x. eauto.
    Qed.
    Lemma E_ids id y : In (id, y) E -> In id ids.
    Proof. intros Q. apply (in_map fst) in Q. exact Q. Qed.
    Lemma E_fun id y y' : In (id, y) E -> In (id, y') E -> y = y'.
    Proof.
      intros A B. pose proof (numbered_NoDup l n0) as N. fold E in N.
      apply (zget_In E _ _ N) in A. apply (zget_In E _ _ N) in B. congruence.
    Qed.

    Lemma winv_start : winv [] (at_ n (t0 ++ R :: mid1 ++ [(Lanes l, o1)])).
    Proof.
      destruct lanes_step as (-> & _).
      destruct before_lanes as (B1 & B2 & B3 & B4 & B5).
      pose proof (lanes_requests task eligible coloc restCost ordv l sL [] NDL opts_known opts_nodup) as
        (I1 & I2 & I3 & I4 & I5 & I6 & I7 & I8 & I9 & I10).
      constructor; cbn [map answers fold_left].
      - congruence.
      - intros id. rewrite I5, B4. fold n0. fold E. fold ids. cbn. tauto.
      - congruence.
      - rewrite I2, B3. constructor.
      - intros id k v ls HI. split; [eapply I8; exact HI|].
        apply E_l in HI. destruct (known _ _ _ HI) as ((pu, rr) & F1 & F2).
        assert (G : zget (opts sL) k = Some {| o_pub := pu; o_pending := []; o_plans := putAll [] rr;
                       o_ask := []; o_first := -1; o_restart := None |}).
        { rewrite B1, newOpts_find, F1. reflexivity. }
        destruct (I9 _ _ _ _ HI G) as (op' & G' & P1 & P2). exists op'. split; [exact G'|].
        split; [intros []|]. intros _. split.
        + intros x. rewrite P1. cbn. tauto.
        + exists pu, rr. split; [exact F1|exact P2].
      - intros k op G. destruct (in_dec Z.eq_dec k (map (fun x => fst (fst x)) l)) as [HI|HI].
        + left. apply in_map_iff in HI. destruct HI as (((k', v), ls) & Q1 & Q2). cbn in Q1. subst k'.
          apply l_E in Q2. destruct Q2 as (id & Q2). eauto.
        + right. rewrite I10, B1, newOpts_find in G by exact HI.
          destruct (find (fun x => p_option (fst x) =? k) (u_opts u)); [|discriminate].
          injection G as <-. reflexivity.
      - exact I4.
    Qed.

    Definition whole (e : ev) : Prop :=
      forall id v rs k ls rts, e = Routes id task v rs -> asksFor l o1 id k ls rts ->
        NoDup (map r_id rs) /\ forall x, In x (map fst rts) <-> In x (map r_id rs).

    Lemma Forall2_weaken {A B} (P Q : A -> B -> Prop) xs ys :
      (forall x y, P x y -> Q x y) -> Forall2 P xs ys -> Forall2 Q xs ys.
    Proof. intros W F. induction F; constructor; auto. Qed.
    Lemma Forall2_snoc {A B} (P : A -> B -> Prop) xs ys x y :
      Forall2 P xs ys -> P x y -> Forall2 P (xs ++ [x]) (ys ++ [y]).
    Proof. intros F Q. apply Forall2_app; auto. Qed.

    Lemma winv_step a s e o :
      winv a s ->
      match e with
      | Request q _ => ~ In task (q_tasks q)
      | Lanes _ => False
      | Implement i => i_task i <> task
      | _ => True
      end -> whole e ->
      winv (a ++ [(e, o)]) (fst (step s e)) /\
      match e with
      | Routes id t v rs =>
          if (t =? task) && zin id ids && negb (zin id (map fst (answers task ids (map fst a)))) &&
             forallb (fun j => (j =? id) || zin j (map fst (answers task ids (map fst a)))) ids
          then exists ps, snd (step s e) = [Options (q_id q) ps] /\
                          Forall2 priced (answers task ids (map fst a) ++ [(id, rs)]) ps
          else forall x, In x (snd (step s e)) -> isOptions x = false
      | _ => forall x, In x (snd (step s e)) -> isOptions x = false
      end.
    Proof.
      intros W C EX. set (ans := answers task ids (map fst a)) in *.
      (* messages that are no first response *)
      assert (NO : (forall id v rs, e = Routes id task v rs -> In id ids -> In id (map fst ans)) ->
        winv (a ++ [(e, o)]) (fst (step s e)) /\ forall x, In x (snd (step s e)) -> isOptions x = false).
      { intros N. destruct (calm_still task eligible transActive coloc restCost ordv ordw s e)
          as ((A1 & A2 & A3 & A4 & A5 & A6 & _) & OUT); auto.
        - apply (w_impl _ _ W).
        - intros id v rs Q. left. rewrite (w_opt _ _ W). intros (X & Y). apply Y. eapply N; eauto.
        - split; [|exact OUT].
          assert (EA : answers task ids (map fst (a ++ [(e, o)])) = ans).
          { rewrite map_app. cbn [map fst]. rewrite answers_snoc. fold ans.
            destruct e; rewrite ?app_nil_r; auto.
            destruct (task0 =? task) eqn:T; [|rewrite app_nil_r; auto]. apply Z.eqb_eq in T. subst task0.
            destruct (zin id ids) eqn:Z; [|rewrite app_nil_r; auto]. apply zin_In in Z.
            assert (Y : zin id (map fst ans) = true) by (apply zin_In; eapply N; eauto).
            fold ans. rewrite Y. cbn. rewrite app_nil_r. reflexivity. }
          destruct W as [W1 W2 W3 W4 W5 W6 W7].
          constructor; rewrite ?EA, ?A1, ?A2, ?A3, ?A4, ?A5, ?A6; auto. }
      assert (DEC : (exists id v rs, e = Routes id task v rs /\ In id ids /\ ~ In id (map fst ans)) \/
                    (forall id v rs, e = Routes id task v rs -> In id ids -> In id (map fst ans))).
      { destruct e as [| | | | | |id tk v rs]; try (right; discriminate).
        destruct (Z.eq_dec tk task) as [->|D]; [|right; congruence].
        destruct (in_dec Z.eq_dec id ids) as [I1|I1];
          [|right; intros ? ? ? Q; injection Q as <- _ _; contradiction].
        destruct (in_dec Z.eq_dec id (map fst ans)) as [I2|I2];
          [right; intros ? ? ? Q; injection Q as <- _ _; auto|]. left. eauto 8. }
      destruct DEC as [(id & v & rs & -> & I1 & I2)|N].
      2:{ destruct (NO N) as (W' & OUT). split; [exact W'|]. destruct e; auto.
          destruct (_ && _ && _ && _) eqn:B; auto. exfalso.
          apply andb_prop in B. destruct B as (B & _). apply andb_prop in B. destruct B as (B & B3).
          apply andb_prop in B. destruct B as (B1 & B2). apply Z.eqb_eq in B1. subst.
          apply zin_In in B2. apply negb_true_iff, zin_false in B3. apply B3. eapply N; eauto. }
      clear NO. destruct (ids_E _ I1) as (k & v0 & ls & HE).
      destruct (w_ent _ _ W _ _ _ _ HE) as (RT & op & G & _ & OP). fold ans in OP.
      destruct (OP I2) as (PE & pu & rr & F & PU). clear OP.
      destruct (EX id v rs k ls (numbered 2 ls) eq_refl) as (ND & SET).
      { apply asksFor_iff. exists v0. auto. }
      assert (IP : zin id (pendOpt s) = true) by (apply zin_In, (w_opt _ _ W); auto).
      assert (LN : ls <> []) by (apply E_l in HE; apply KN in HE; tauto).
      assert (NE : rs <> []).
      { intros ->. destruct ls as [|y ls']; [contradiction|]. destruct (SET 2) as (Q & _). apply Q.
        left. reflexivity. }
      assert (PS : forall x, In x (o_pending op) <-> In x (map r_id rs)) by (intros x; rewrite PE; apply SET).
      cbn [TaskBaseModel.step]. unfold routes. rewrite Z.eqb_refl, RT. unfold optionRoutes. rewrite IP.
      match goal with |- context [fold_left (optionRoute k) rs (?a1, [])] =>
        pose proof (option_fold k rs a1 [] op NE ND G (w_nd _ _ W) PS) as OF;
        destruct (fold_left (optionRoute k) rs (a1, [])) as (s', o') end.
      cbn zeta in OF. cbn [fst snd setPending planReq planOpts pendOpt pendImpl rtype nextId opts] in *.
      destruct OF as (O1 & O2 & O3 & O4 & O5 & O6 & O7 & O8 & (op' & O9 & O9') & O10).
      set (pp := withCost (o_pub op) (total (p_cost (o_pub op)) rs)) in *.
      assert (PR : priced (id, rs) pp).
      { exists k, v0, ls, pu, rr. split; [exact HE|]. split; [exact F|].
        unfold pp. rewrite PU.
        assert (CQ : p_cost (laid pu ls) = p_cost pu) by (destruct ls; reflexivity). rewrite CQ.
        apply laid_offer, LN. }
      assert (EA : answers task ids (map fst (a ++ [(Routes id task v rs, o)])) = ans ++ [(id, rs)]).
      { rewrite map_app. cbn [map fst]. rewrite answers_snoc. fold ans. rewrite Z.eqb_refl.
        apply zin_In in I1. rewrite I1. apply zin_false in I2. rewrite I2. reflexivity. }
      assert (W' : winv (a ++ [(Routes id task v rs, o)]) s').
      { constructor; rewrite ?EA.
        - rewrite O4. apply (w_impl _ _ W).
        - intros j. rewrite O3, In_zrem, (w_opt _ _ W), map_app, in_app_iff. fold ans. cbn [map fst In].
          intuition congruence.
        - rewrite O1. apply (w_req _ _ W).
        - rewrite O2. apply Forall2_snoc; auto. apply (w_plan _ _ W).
        - intros j k1 v1 ls1 HE1. rewrite O5. destruct (w_ent _ _ W _ _ _ _ HE1) as (RT1 & op1 & G1 & A1 & A2).
          fold ans in A1, A2. split; [exact RT1|].
          destruct (Z.eq_dec k1 k) as [->|D].
          + destruct (E_inj _ _ _ _ _ _ _ HE HE1) as (<- & <- & <-). exists op'. split; [exact O9|].
            split; [auto|]. intros Q. destruct Q. rewrite map_app. apply in_or_app. cbn; auto.
          + exists op1. rewrite O8 by auto. split; [exact G1|].
            assert (DJ : j <> id).
            { intros ->. pose proof (E_fun _ _ _ HE HE1) as X. congruence. }
            rewrite map_app, in_app_iff. cbn [map fst In]. split.
            * intros [Q|[Q|[]]]; [auto|congruence].
            * intros Q. apply A2. tauto.
        - intros k1 op1 G1. destruct (Z.eq_dec k1 k) as [->|D]; [left; eauto|].
          rewrite O8 in G1 by auto. apply (w_rest _ _ W _ _ G1).
        - exact O7. }
      split; [exact W'|].
      assert (B1 : zin id ids = true) by (apply zin_In, I1).
      assert (B2 : zin id (map fst ans) = false) by (apply zin_false, I2).
      rewrite B1, B2. cbn [andb negb].
      assert (AD : allDone (opts s') =
                   forallb (fun j => (j =? id) || zin j (map fst ans)) ids).
      { apply Bool.eq_iff_eq_true. rewrite (allDone_iff _ O7), forallb_forall. split.
        - intros AL j HJ. destruct (ids_E _ HJ) as (k1 & v1 & ls1 & HE1).
          destruct (Z.eqb_spec j id) as [->|D]; [reflexivity|]. cbn [orb]. apply zin_In.
          destruct (in_dec Z.eq_dec j (map fst ans)) as [|NI]; auto. exfalso.
          destruct (w_ent _ _ W' _ _ _ _ HE1) as (_ & op1 & G1 & _ & A2). rewrite EA in A2.
          destruct A2 as (A2 & _).
          { rewrite map_app, in_app_iff. cbn. intuition. }
          rewrite (AL _ _ G1) in A2.
          assert (L1 : ls1 <> []) by (apply E_l in HE1; apply KN in HE1; tauto).
          destruct ls1 as [|y ls1]; [contradiction|]. destruct (A2 2) as (_ & Q). apply Q. left. reflexivity.
        - intros AL k1 op1 G1. destruct (w_rest _ _ W' _ _ G1) as [(j & v1 & ls1 & HE1)|Q]; auto.
          destruct (w_ent _ _ W' _ _ _ _ HE1) as (_ & op2 & G2 & A1 & _). rewrite G1 in G2.
          injection G2 as <-. apply A1. rewrite EA, map_app, in_app_iff.
          specialize (AL j (E_ids _ _ HE1)). apply orb_prop in AL. destruct AL as [Q|Q].
          + apply Z.eqb_eq in Q. cbn. auto.
          + apply zin_In in Q. auto. }
      rewrite O10, AD. cbn [app]. destruct (forallb _ ids).
      - exists (planOpts s ++ [pp]). rewrite (w_req _ _ W). split; [reflexivity|].
        apply Forall2_snoc; auto. apply (w_plan _ _ W).
      - intros x [].
    Qed.
  End Lanes.

  (** On the list of lanes for the options the costs of all their routes are asked for, one request
      per option, with distinct numbers. *)
  Theorem C48_asked n evs t0 q u o0 mid1 l o1 t1 :
    history n evs = t0 ++ (Request q u, o0) :: mid1 ++ (Lanes l, o1) :: t1 ->
    anew task (map fst t0) q -> u_now u = false -> quietly task mid1 ->
    current (map fst (t0 ++ (Request q u, o0) :: mid1)) <> None ->
    NoDup (map (fun x => fst (fst x)) l) ->
    (forall k v ls, In (k, v, ls) l -> ls <> [] /\ exists x, In x (u_opts u) /\ p_option (fst x) = k) ->
    requests l o1 /\ NoDup (idsOf o1).
  Proof.
    intros H AN NOW Q1 CU NDL KN.
    rewrite (idsOf_ids n evs t0 mid1 t1 q u o0 o1 l H AN NOW Q1 CU NDL KN). split.
    - rewrite (outputs n evs t0 mid1 t1 q u o0 o1 l H AN NOW Q1 CU NDL KN). unfold requests.
      generalize (nextId (at_ n (t0 ++ (Request q u, o0) :: mid1))). clear.
      induction l as [|((k, v), ls) l IH]; intros m; cbn [numbered map]; constructor; auto.
      exists m, (numbered 2 ls). cbn [fst snd]. split; [reflexivity|]. split; [apply numbered_snd|].
      intros j y Q. rewrite numbered_nth in Q. destruct (nth_error ls j); [|discriminate].
      cbn in Q. injection Q as <-. reflexivity.
    - apply numbered_NoDup.
  Qed.

  (** If the route planner answers the requests completely, the options are published exactly once,
      on the first response that leaves no request unanswered, with the costs, the start and the end
      of the routes. *)
  Theorem C48_options n evs t0 q u o0 mid1 l o1 a e o t3 :
    history n evs = t0 ++ (Request q u, o0) :: mid1 ++ (Lanes l, o1) :: a ++ (e, o) :: t3 ->
    anew task (map fst t0) q -> u_now u = false -> quietly task mid1 -> quietly task (a ++ [(e, o)]) ->
    current (map fst (t0 ++ (Request q u, o0) :: mid1)) <> None ->
    NoDup (map (fun x => fst (fst x)) l) ->
    (forall k v ls, In (k, v, ls) l -> ls <> [] /\ exists x, In x (u_opts u) /\ p_option (fst x) = k) ->
    (forall id v rs k ls rts, In (Routes id task v rs) (map fst (a ++ [(e, o)])) ->
       asksFor l o1 id k ls rts ->
       NoDup (map r_id rs) /\ forall x, In x (map fst rts) <-> In x (map r_id rs)) ->
    let done := answers task (idsOf o1) (map fst a) in
    (forall id v rs, e = Routes id task v rs -> In id (idsOf o1) -> ~ In id (map fst done) ->
       (forall j, In j (idsOf o1) -> j = id \/ In j (map fst done)) ->
       exists ps, o = [Options (q_id q) ps] /\
         Forall2 (fun x p => exists k ls rts pu rr,
             asksFor l o1 (fst x) k ls rts /\
             find (fun y => p_option (fst y) =? k) (u_opts u) = Some (pu, rr) /\
             offer pu ls (snd x) p) (done ++ [(id, rs)]) ps) /\
    ((exists r ps, In (Options r ps) o) ->
       exists id v rs, e = Routes id task v rs /\ In id (idsOf o1) /\ ~ In id (map fst done) /\
         forall j, In j (idsOf o1) -> j = id \/ In j (map fst done)).
  Proof.
    intros H AN NOW Q1 Q2 CU NDL KN EX. cbn zeta.
    pose proof (idsOf_ids n evs t0 mid1 _ q u o0 o1 l H AN NOW Q1 CU NDL KN) as IDS.
    pose proof (asksFor_iff n evs t0 mid1 _ q u o0 o1 l H AN NOW Q1 CU NDL KN) as AF.
    pose proof (winv_start n evs t0 mid1 _ q u o0 o1 l H AN NOW Q1 CU NDL KN) as W0.
    assert (H2 : snd (run (init n) evs) =
                 (t0 ++ (Request q u, o0) :: mid1 ++ [(Lanes l, o1)]) ++ (a ++ [(e, o)]) ++ t3).
    { rewrite <- !app_assoc. cbn [app]. rewrite <- app_assoc. exact H. }
    assert (STEP : forall a1 e1 o1' s1,
      winv n t0 mid1 q u o0 l a1 s1 -> In e1 (map fst (a ++ [(e, o)])) ->
      winv n t0 mid1 q u o0 l (a1 ++ [(e1, o1')]) (fst (step s1 e1)) /\
      match e1 with
      | Routes id t v rs =>
          if (t =? task) && zin id (idsOf o1) && negb (zin id (map fst (answers task (idsOf o1) (map fst a1)))) &&
             forallb (fun j => (j =? id) || zin j (map fst (answers task (idsOf o1) (map fst a1)))) (idsOf o1)
          then exists ps, snd (step s1 e1) = [Options (q_id q) ps] /\
                 Forall2 (priced n t0 mid1 q u o0 l) (answers task (idsOf o1) (map fst a1) ++ [(id, rs)]) ps
          else forall x, In x (snd (step s1 e1)) -> isOptions x = false
      | _ => forall x, In x (snd (step s1 e1)) -> isOptions x = false
      end).
    { intros a1 e1 o1' s1 W HI. rewrite IDS.
      eapply (winv_step n evs t0 mid1 _ q u o0 o1 l H AN NOW Q1 CU NDL KN a1 s1 e1 o1' W).
      - apply (Q2 e1 HI).
      - intros id v rs k ls rts -> Q. eapply EX; eauto. }
    assert (WA : winv n t0 mid1 q u o0 l a
                   (at_ n ((t0 ++ (Request q u, o0) :: mid1 ++ [(Lanes l, o1)]) ++ a))).
    { assert (H4 : snd (run (init n) evs) =
                 (t0 ++ (Request q u, o0) :: mid1 ++ [(Lanes l, o1)]) ++ a ++ (e, o) :: t3).
      { rewrite H2, <- (app_assoc a). reflexivity. }
      apply (hist_ind task eligible transActive coloc restCost ordv ordw n evs
        (fun a1 s => winv n t0 mid1 q u o0 l a1 s) _ _ _ H4 W0).
      intros a1 e1 o1' b1 EM IH EO. apply STEP; auto. rewrite EM, !map_app. apply in_or_app. left.
      apply in_or_app. cbn; auto. }
    assert (H3 : snd (run (init n) evs) =
                 ((t0 ++ (Request q u, o0) :: mid1 ++ [(Lanes l, o1)]) ++ a) ++ (e, o) :: t3).
    { rewrite H2, <- (app_assoc a), <- (app_assoc _ a). reflexivity. }
    apply hist_next in H3. destruct H3 as (_ & EO).
    destruct (STEP a e o _ WA) as (_ & S); [rewrite map_app; apply in_or_app; cbn; auto|].
    rewrite <- EO in S. split.
    - intros id v rs -> I1 I2 I3. rewrite Z.eqb_refl in S.
      apply zin_In in I1. rewrite I1 in S. apply zin_false in I2. rewrite I2 in S. cbn [andb negb] in S.
      assert (FB : forallb (fun j => (j =? id) || zin j (map fst (answers task (idsOf o1) (map fst a)))) (idsOf o1) = true).
      { apply forallb_forall. intros j HJ. apply I3 in HJ. destruct HJ as [->|HJ].
        - rewrite Z.eqb_refl. reflexivity.
        - apply zin_In in HJ. rewrite HJ. apply orb_true_r. }
      rewrite FB in S. destruct S as (ps & S1 & S2). exists ps. split; [exact S1|].
      eapply Forall2_weaken; [|exact S2]. intros (j, rs1) p (k & v1 & ls & pu & rr & P1 & P2 & P3).
      exists k, ls, (numbered 2 ls), pu, rr. split; [|split; [exact P2|exact P3]].
      apply AF. exists v1. auto.
    - intros (r & ps & HO).
      assert (NO : (forall x, In x o -> isOptions x = false) -> False).
      { intros Q. apply Q in HO. discriminate. }
      destruct e as [v ts c|v|q' u'|l'|j ms|i|id tk v rs]; try (destruct (NO S); fail).
      destruct (_ && _ && _ && _) eqn:B; [|destruct (NO S)].
      apply andb_prop in B. destruct B as (B & B4). apply andb_prop in B. destruct B as (B & B3).
      apply andb_prop in B. destruct B as (B1 & B2). apply Z.eqb_eq in B1. subst tk.
      apply zin_In in B2. apply negb_true_iff, zin_false in B3.
      exists id, v, rs. do 3 (split; [auto|]). intros j HJ. rewrite forallb_forall in B4.
      apply B4 in HJ. apply orb_prop in HJ. destruct HJ as [HJ|HJ].
      + apply Z.eqb_eq in HJ. auto.
      + apply zin_In in HJ. auto.
  Qed.
End C48.

(** Task 5 with an option for vehicle 7 that has two lanes and one for vehicle 8 that has one; the
    routes of the latter are planned first. *)
Definition pA : pub := {| p_option := 1; p_eligible := [7]; p_cost := 0; p_start := 0; p_end := 0 |}.
Definition pB : pub := {| p_option := 2; p_eligible := [8]; p_cost := 5; p_start := 0; p_end := 0 |}.
Definition qq : areq :=
  {| q_id := 1; q_sandbox := false; q_redo := false; q_tasks := [5]; q_entities := [7; 8] |}.
Definition bb : built := {| u_opts := [(pA, []); (pB, [])]; u_now := false |}.
Definition cost (id c : Z) : route := {| r_id := id; r_cost := c; r_wps := [] |}.
Definition sweep : list (Z * Z * list (Z * Z)) := [(1, 7, [(20, 21); (22, 23)]); (2, 8, [(30, 31)])].
Definition replay (evs : list ev) : list (ev * list out) :=
  history 5 [] false Z.eqb (fun _ _ => 0) (fun l => l) (fun m => m) 50 evs.
Definition planning : list ev :=
  [Config 7; Request qq bb; Config 8; Lanes sweep; Routes 51 5 8 [cost 2 40]; State 7 [] 1;
   Routes 50 5 7 [cost 3 10; cost 2 11]; Routes 50 5 7 [cost 3 10; cost 2 11]].

Example C48_planning :
  map snd (replay planning) =
  [[]; []; []; [Ask 50 7 true [(2, (20, 21)); (3, (22, 23))]; Ask 51 8 true [(2, (30, 31))]]; []; [];
   [Options 1 [{| p_option := 2; p_eligible := [8]; p_cost := 45; p_start := 30; p_end := 31 |};
               {| p_option := 1; p_eligible := [7]; p_cost := 21; p_start := 20; p_end := 23 |}]]; []].
Proof. vm_compute. reflexivity. Qed.

(** It meets the conditions of [C48_asked] and [C48_options]. *)
Example C48_planning_conditions :
  exists t0 o0 mid1 o1 a o t3,
    replay planning = t0 ++ (Request qq bb, o0) :: mid1 ++ (Lanes sweep, o1) :: a ++
                      (Routes 50 5 7 [cost 3 10; cost 2 11], o) :: t3 /\
    anew 5 (map fst t0) qq /\ u_now bb = false /\ quietly 5 mid1 /\
    quietly 5 (a ++ [(Routes 50 5 7 [cost 3 10; cost 2 11], o)]) /\
    current (map fst (t0 ++ (Request qq bb, o0) :: mid1)) <> None /\
    NoDup (map (fun x => fst (fst x)) sweep) /\
    (forall k v ls, In (k, v, ls) sweep -> ls <> [] /\ exists x, In x (u_opts bb) /\ p_option (fst x) = k) /\
    (forall id v rs k ls rts,
       In (Routes id 5 v rs) (map fst (a ++ [(Routes 50 5 7 [cost 3 10; cost 2 11], o)])) ->
       asksFor sweep o1 id k ls rts ->
       NoDup (map r_id rs) /\ forall x, In x (map fst rts) <-> In x (map r_id rs)) /\
    idsOf o1 = [50; 51] /\ answers 5 (idsOf o1) (map fst a) = [(51, [cost 2 40])] /\ mid1 <> [].
Proof.
  set (o1 := [Ask 50 7 true [(2, (20, 21)); (3, (22, 23))]; Ask 51 8 true [(2, (30, 31))]]).
  exists [(Config 7, [])], [], [(Config 8, [])], o1, [(Routes 51 5 8 [cost 2 40], []); (State 7 [] 1, [])].
  eexists. eexists. split; [vm_compute; reflexivity|].
  split; [split; [cbn; auto|right; intros v ts c _ [Q|[]]; discriminate]|].
  split; [reflexivity|]. split; [intros e [<-|[]]; exact I|].
  split; [intros e [<-|[<-|[<-|[]]]]; exact I|]. split; [discriminate|].
  split; [repeat constructor; cbn; intuition discriminate|]. split.
  { intros k v ls [Q|[Q|[]]]; injection Q as <- <- <-; (split; [discriminate|]); cbn; eauto. }
  split.
  { intros id v rs k ls rts HI (j & v' & A & B).
    destruct HI as [Q|[Q|[Q|[]]]]; try discriminate; injection Q as <- <- <-;
      (destruct j as [|[|j]]; cbn in A, B; [| |destruct j; discriminate]);
      injection A as <- <- <-; try discriminate; injection B as <-.
    - split; [repeat constructor; cbn; tauto|]. cbn. tauto.
    - split; [repeat constructor; cbn; intuition discriminate|]. cbn. tauto. }
  repeat split; discriminate.
Qed.

(** The conditions are needed.  A response that contains a route too many makes the service publish
    the options twice. *)
Theorem C48_extra_route_refuted :
  exists evs ps1 ps2 o1,
    In (Lanes [(1, 7, [(20, 21)])], [Ask 50 7 true [(2, (20, 21))]]) (replay evs) /\
    In (Routes 50 5 7 [cost 2 40; cost 3 1], o1) (replay evs) /\ o1 = [Options 1 ps1; Options 1 ps2].
Proof.
  exists [Config 7; Request qq {| u_opts := [(pA, [])]; u_now := false |}; Lanes [(1, 7, [(20, 21)])];
          Routes 50 5 7 [cost 2 40; cost 3 1]].
  do 3 eexists. split; [vm_compute; auto 6|]. split; [vm_compute; do 3 right; left; reflexivity|].
  reflexivity.
Qed.

(** A free route makes the option the dearest there is. *)
Theorem C48_free_route_refuted :
  exists evs p,
    In (Routes 50 5 7 [cost 2 0; cost 3 0], [Options 1 [p]]) (replay evs) /\ p_cost p = 9223372036854775.
Proof.
  exists [Config 7; Request qq {| u_opts := [(pA, [])]; u_now := false |};
          Lanes [(1, 7, [(20, 21); (22, 23)])]; Routes 50 5 7 [cost 2 0; cost 3 0]].
  eexists. split; [vm_compute; do 3 right; left; reflexivity|]. reflexivity.
Qed.

(** An option for which no lanes are found is not among the published ones. *)
Theorem C48_without_lanes_refuted :
  exists evs p,
    In (Request qq bb) evs /\ map (fun x => p_option (fst x)) (u_opts bb) = [1; 2] /\
    In (Routes 50 5 7 [cost 2 40], [Options 1 [p]]) (replay evs) /\ p_option p = 1.
Proof.
  exists [Config 7; Request qq bb; Lanes [(1, 7, [(20, 21)])]; Routes 50 5 7 [cost 2 40]].
  eexists. split; [cbn; auto|]. split; [reflexivity|].
  split; [vm_compute; do 3 right; left; reflexivity|]. reflexivity.
Qed.

(** If lanes are made again with fewer of them before the routes arrive, the complete response to
    the new request publishes nothing. *)
Theorem C48_replanned_refuted :
  exists evs,
    In (Lanes [(1, 7, [(20, 21)])], [Ask 51 7 true [(2, (20, 21))]]) (replay evs) /\
    In (Routes 51 5 7 [cost 2 40]) evs /\
    forall e o r ps, In (e, o) (replay evs) -> ~ In (Options r ps) o.
Proof.
  exists [Config 7; Request qq {| u_opts := [(pA, [])]; u_now := false |};
          Lanes [(1, 7, [(20, 21); (22, 23)])]; Lanes [(1, 7, [(20, 21)])]; Routes 51 5 7 [cost 2 40]].
  split; [vm_compute; auto 6|]. split; [cbn; auto 8|].
  match goal with |- forall e o r ps, In (e, o) (replay ?l) -> _ => set (evs := l) end.
  assert (E : forallb (fun x => forallb (fun y => negb (isOptions y)) (snd x)) (replay evs) = true)
    by (vm_compute; reflexivity).
  intros e o r ps HI HX. rewrite forallb_forall in E. apply E in HI. cbn [snd] in HI.
  rewrite forallb_forall in HI. apply HI in HX. discriminate.
Qed.

Print Assumptions C48_asked.
Print Assumptions C48_options.
Print Assumptions C48_extra_route_refuted.
Print Assumptions C48_free_route_refuted.
Print Assumptions C48_without_lanes_refuted.
Print Assumptions C48_replanned_refuted.

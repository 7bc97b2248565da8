(** Plans, and regions that are settled before vehicles use them. *)
From Coq Require Import List ZArith QArith Bool Lia Lqa.
From Verif Require Import ZMap Run Latest AirPlanModel AirPlanSpec AirPlanBuild AirPlanProofs AirPlanEnv AirPlanUnique.
Import ListNotations.
Open Scope list_scope.
Open Scope Z_scope.

Section Answer.
  Context {B : Type} (outline : B -> option poly) (merge : list (poly * Z) -> option (list poly)) (trim : poly -> poly)
          (fits : list poly -> bool) (inside : list poly -> point -> bool)
          (way : list poly -> point -> point -> list point) (len : list point -> Q)
          (same : zone B -> zone B -> bool).
  Notation step := (step outline merge trim fits inside way len same).
  Notation state := (fun h => fst (run step init h)).
  Notation made := (made outline merge trim fits).
  Notation makes := (makes outline merge trim fits).
  Notation occasion := (occasion same).
  Notation environment := (environment outline merge trim fits same).
  Notation planned := (planned inside way len).
  Notation along := (along len).

  Lemma qlt_lt : forall a b, qlt a b = true <-> (a < b)%Q.
  Proof.
    intros a b. unfold qlt. rewrite negb_true_iff. split.
    - intros H. apply Qnot_le_lt. intros L. apply Qle_bool_iff in L. congruence.
    - intros H. destruct (Qle_bool b a) eqn:E; [|reflexivity]. apply Qle_bool_iff in E. lra.
  Qed.
  Lemma qlt_ge : forall a b, qlt a b = false <-> (b <= a)%Q.
  Proof. intros a b. unfold qlt. rewrite negb_false_iff. apply Qle_bool_iff. Qed.

  Lemma trunc_takes : forall l sp, takes l sp (cost l sp).
  Proof.
    intros l sp. unfold takes, cost, trunc. set (t := (l / sp * 1000)%Q). clearbody t. destruct t as (n, d). cbn [Qnum Qden].
    unfold Qle, Qlt, inject_Z. cbn [Qnum Qden]. rewrite !Z.mul_1_r, !Z.mul_0_l.
    pose proof (Z.quot_rem' n (Z.pos d)) as Q. pose proof (Z.rem_bound_pos n (Z.pos d)) as R1.
    pose proof (Z.rem_bound_pos_neg n (Z.pos d)) as R2.
    split; intros H; [destruct R1; try lia; split; nia|destruct R2; try lia; split; nia].
  Qed.

  Lemma waypoints_nth : forall sp al l n k x, nth_error l k = Some x ->
    nth_error (waypoints n sp al l) k =
      Some {| w_num := n + Z.of_nat k; w_next := Z.min (n + Z.of_nat k + 1) (n - 1 + Z.of_nat (length l)); w_place := x; w_alt := al; w_speed := sp |}.
  Proof.
    intros sp al l. induction l as [|p l IH]; intros n k x E; [destruct k; discriminate|].
    destruct k as [|k]; cbn [nth_error waypoints] in *.
    - injection E as ->. f_equal. f_equal; [lia|]. destruct l as [|y l]; cbn [length]; lia.
    - rewrite (IH (n + 1) k x E). f_equal. f_equal; cbn [length]; lia.
  Qed.
  Lemma waypoints_length : forall sp al l n, length (waypoints n sp al l) = length l.
  Proof. intros sp al l. induction l as [|p l IH]; intros n; cbn; auto. Qed.
  Lemma along_waypoints : forall i co sp al l,
    along {| p_id := i; p_cost := Some (cost (len l) sp); p_points := if co : bool then [] else waypoints 1 sp al l |} co sp al l.
  Proof.
    intros i co sp al l. split; cbn [p_cost p_points]; [eexists; split; [reflexivity|apply trunc_takes]|].
    destruct co; [reflexivity|]. split; [apply waypoints_length|]. intros k x E. eexists. split; [apply waypoints_nth, E|].
    cbn [w_num w_next w_place w_alt w_speed]. repeat split; lia.
  Qed.

  Section State.
    Context (h : list (ev B)) (s : st B) (I : inv h s).

    Lemma state_latest : forall v x, zget (states s) v = Some x <-> latest (says_state v) h x.
    Proof. intros. rewrite (i_states _ _ I). apply follow_latest. Qed.
    Lemma state_none : forall v x, zget (states s) v = None -> ~ latest (says_state v) h x.
    Proof. intros v x E L. apply state_latest in L. congruence. Qed.
    Lemma conf_latest : forall v x, zget (confs s) v = Some x <-> latest (says_conf v) h x.
    Proof. intros. rewrite (i_confs _ _ I). apply follow_latest. Qed.
    Lemma conf_none : forall v, zget (confs s) v = None <-> unsaid (says_conf v) h.
    Proof. intros. rewrite (i_confs _ _ I). apply follow_unsaid. Qed.

    Lemma travels_speed : forall v sp al, travels h v sp al -> speed_alt s v = (sp, al).
    Proof.
      intros v sp al [(x & L & <- & <- & H)|(c & L & <- & <- & H)]; unfold speed_alt; cbv zeta.
      - apply state_latest in L. rewrite L. cbn [fst]. destruct H as [H|H].
        + apply qlt_ge in H. rewrite H. cbn [orb]. destruct (zget (confs s) v); reflexivity.
        + apply conf_none in H. rewrite H. reflexivity.
      - apply conf_latest in L. rewrite L. destruct (zget (states s) v) as [x|] eqn:E; [|reflexivity].
        cbn [fst orb]. apply state_latest in E. apply H in E. apply qlt_lt in E. rewrite E. reflexivity.
    Qed.
    Lemma speed_travels : forall v sp al, speed_alt s v = (sp, al) -> (1 # 10000 <= sp)%Q -> travels h v sp al.
    Proof.
      intros v sp al. unfold speed_alt. cbv zeta. destruct (zget (states s) v) as [x|] eqn:E; cbn [fst orb].
      - destruct (zget (confs s) v) as [c|] eqn:C.
        + destruct (qlt (v_speed x) (1 # 10)) eqn:Q; intros X; injection X as <- <-; intros H.
          * right. exists c. apply conf_latest in C. repeat split; auto. intros y L. apply state_latest in L.
            assert (y = x) by congruence. subst. apply qlt_lt, Q.
          * left. exists x. apply state_latest in E. apply qlt_ge in Q. repeat split; auto.
        + intros X; injection X as <- <-; intros H. left. exists x. apply state_latest in E. apply conf_none in C. repeat split; auto.
      - destruct (zget (confs s) v) as [c|] eqn:C; intros X; injection X as <- <-; intros H.
        + right. exists c. apply conf_latest in C. repeat split; auto. intros y L. apply state_latest in L. congruence.
        + exfalso. lra.
    Qed.
    Lemma place_at : forall v o p, at_place h v o p <-> place s v o = Some p.
    Proof.
      intros v o p. unfold at_place, place. destruct o as [x|].
      - split; [intros [E|(E & _)]; congruence|auto].
      - split.
        + intros [E|(_ & x & L & <-)]; [discriminate|]. apply state_latest in L. rewrite L. reflexivity.
        + destruct (zget (states s) v) as [x|] eqn:E; [|discriminate]. intros X. injection X as <-. right.
          split; [reflexivity|]. exists x. apply state_latest in E. auto.
    Qed.

    Lemma plan_planned : forall q r, planned h q (look s (q_region q) (q_vehicle q)) r (plan_route inside way len s q r).
    Proof.
      intros q r. unfold plan_route, AirPlanSpec.planned.
      destruct (speed_alt s (q_vehicle q)) as (sp, al) eqn:SA.
      destruct (qlt sp (1 # 10000)) eqn:Q.
      { cbn [p_id]. split; [reflexivity|]. left. split; [split; reflexivity|]. left. intros sp' al' T.
        apply travels_speed in T. assert (sp' = sp) by congruence. subst. apply qlt_lt, Q. }
      apply qlt_ge in Q. pose proof (speed_travels _ _ _ SA Q) as T.
      destruct (place s (q_vehicle q) (r_start r)) as [a|] eqn:PA.
      2:{ cbn [p_id]. split; [reflexivity|]. left. split; [split; reflexivity|]. right. left. intros a A.
          apply place_at in A. congruence. }
      destruct (place s (q_vehicle q) (r_end r)) as [b|] eqn:PB.
      2:{ cbn [p_id]. split; [reflexivity|]. left. split; [split; reflexivity|]. right. right. intros b A.
          apply place_at in A. congruence. }
      apply place_at in PA. apply place_at in PB. unfold look.
      destruct (zget (inner (envs s) (q_region q)) (q_vehicle q)) as [l|].
      - destruct (inside l a && inside l b) eqn:IN.
        + apply andb_true_iff in IN. destruct IN. split; [reflexivity|]. right. exists sp, al, a, b.
          repeat (split; [assumption|]). left. repeat (split; [assumption|]). apply along_waypoints.
        + apply andb_false_iff in IN. split; [reflexivity|]. right. exists sp, al, a, b.
          repeat (split; [assumption|]). right. split; [exact IN|]. split; reflexivity.
      - split; [reflexivity|]. right. exists sp, al, a, b. repeat (split; [assumption|]). apply along_waypoints.
    Qed.
  End State.

  (** Settled regions. *)

  Lemma made_ext : forall h h' g v w m,
    (forall z, In z (g_ins g) -> follow (says_in z) h = follow (says_in z) h') ->
    (forall z, In z (g_outs g) -> follow (says_out z) h = follow (says_out z) h') ->
    made h g v w m -> made h' g v w m.
  Proof.
    intros h h' g v w m HI HO M. apply made_eq in M. apply made_eq. subst m.
    assert (X : forall l, build outline merge trim fits (table ins_of h) (table outs_of h) g v w = Some l
                 <-> build outline merge trim fits (table ins_of h') (table outs_of h') g v w = Some l).
    { intros l. rewrite <- !build_makes. split; intros Y; eapply makes_ext; try exact Y; intros i J; rewrite ?table_in, ?table_out;
        (apply HI || apply HO || (symmetry; apply HI) || (symmetry; apply HO)); exact J. }
    destruct (build outline merge trim fits (table ins_of h) (table outs_of h) g v w) as [l|];
    destruct (build outline merge trim fits (table ins_of h') (table outs_of h') g v w) as [l'|]; auto.
    - apply X. reflexivity.
    - symmetry. apply X. reflexivity.
    - assert (N : None = Some l') by (apply X; reflexivity). discriminate.
  Qed.

  Definition quiet (h : list (ev B)) (g : region) : Prop :=
    (forall z x, In (KeepIn z x) h -> ~ In z (g_ins g)) /\ (forall z x, In (KeepOut z x) h -> ~ In z (g_outs g)).

  Lemma flies_water : forall (h : list (ev B)) v, flies h v -> water_area h v None.
  Proof.
    intros h v F c a b L K _. apply (conf_surface _ _ _ _ L) in K. destruct K as (e & I & S). exact (F e I S).
  Qed.
  Lemma made_known : forall h g v w, exists m, made h g v w m.
  Proof. intros h g v w. eexists. apply made_eq. reflexivity. Qed.
  Lemma air_dec : forall (h : list (ev B)) v, air h v \/ ~ air h v.
  Proof.
    intros h v. pose proof (inv_run outline merge trim fits inside way len same h) as I. cbv beta in I.
    set (s := fst (run step init h)) in *. rewrite <- (i_airs _ _ I), <- zin_In.
    destruct (zin v (airs s)); [left; reflexivity|right; discriminate].
  Qed.

  Lemma settled : forall h1 r g v, unsaid (says_region r) h1 -> forall h2,
    (forall g', In (Region r g') h2 -> g' = g) -> quiet h2 g ->
    flies (h1 ++ Region r g :: h2) v -> (forall c, In (Conf v c) (h1 ++ Region r g :: h2) -> c_kind c <> CAir false) ->
    exists m, environment r v (h1 ++ Region r g :: h2) m
      /\ (air (h1 ++ Region r g :: h2) v -> made (h1 ++ Region r g :: h2) g v None m)
      /\ (~ air (h1 ++ Region r g :: h2) v -> m = None).
  Proof.
    intros h1 r g v U h2. induction h2 as [|e h2 IH] using rev_ind; intros RG Q F C.
    - set (h := h1 ++ [Region r g]) in *.
      assert (F1 : flies h1 v) by (intros e I; apply F, in_or_app; left; exact I).
      pose proof (environment_run outline merge trim fits inside way len same h1 r v (or_introl F1)) as E0. cbv beta in E0.
      set (m0 := look (fst (run step init h1)) r v) in *. clearbody m0.
      assert (A1 : air h v <-> air h1 v).
      { unfold h. rewrite air_snoc. unfold is_air. split; [intros [X|[(x & X)|(c & b & X & _)]]; [exact X|discriminate|discriminate]|auto]. }
      assert (X1 : forall m, made h1 g v None m -> made h g v None m).
      { intros m. apply made_ext; intros z _; unfold h; rewrite follow_snoc; reflexivity. }
      destruct (air_dec h1 v) as [A|A].
      + destruct (made_known h1 g v None) as (m & M). exists m. split; [|split; [intros _; apply X1, M|intros N; exfalso; apply N, A1, A]].
        eapply env_anew; [|exact M|exact E0]. apply new_region; [reflexivity| |left; exact A|apply flies_water, F1].
        intros g0 E. apply keep_earliest in E. apply keep_unsaid in U. congruence.
      + exists None. split; [|split; [intros X; apply A1 in X; contradiction|reflexivity]].
        assert (NK : ~ known h1 v) by (intros [K|(e & I & S)]; [contradiction|exact (F1 e I S)]).
        destruct m0 as [l|]; [exfalso; apply NK; eapply env_known; [exact E0|discriminate]|].
        apply env_kept; [|exact E0]. intros b g' w O. inversion O; congruence || contradiction.
    - set (h := h1 ++ Region r g :: h2) in *.
      assert (EQ : h1 ++ Region r g :: h2 ++ [e] = h ++ [e]) by (unfold h; rewrite <- app_assoc; reflexivity).
      rewrite EQ in *. destruct IH as (m & E & MA & MN).
      { intros g' I. apply RG, in_or_app. left. exact I. }
      { destruct Q as (Q1 & Q2). split; intros z x I; [eapply Q1|eapply Q2]; apply in_or_app; left; exact I. }
      { intros e' I. apply F, in_or_app. left. exact I. }
      { intros c I. apply C, in_or_app. left. exact I. }
      assert (EG : earliest (says_region r) h g).
      { exists h1, (Region r g), h2. split; [reflexivity|]. split; [cbn; rewrite Z.eqb_refl; reflexivity|exact U]. }
      assert (EX : forall m, made h g v None m -> made (h ++ [e]) g v None m).
      { intros m'. destruct Q as (Q1 & Q2). apply made_ext; intros z Z0; rewrite follow_snoc.
        - destruct e as [| | |y x| | | |]; cbn; try reflexivity. destruct (y =? z) eqn:Y; [|reflexivity]. apply Z.eqb_eq in Y. subst y.
          exfalso. eapply Q1; [apply in_or_app; right; left; reflexivity|exact Z0].
        - destruct e as [| | | |y x| | |]; cbn; try reflexivity. destruct (y =? z) eqn:Y; [|reflexivity]. apply Z.eqb_eq in Y. subst y.
          exfalso. eapply Q2; [apply in_or_app; right; left; reflexivity|exact Z0]. }
      assert (FE : ~ is_surface v e) by (apply F, in_or_app; right; left; reflexivity).
      assert (FH : flies h v) by (intros e' I; apply F, in_or_app; left; exact I).
      assert (NS : ~ surface h v) by (intros (e' & I & S); exact (FH e' I S)).
      assert (ONLY : forall b g' w, occasion h e r v b g' w -> ~ air h v /\ is_air v e /\ b = false /\ g' = g /\ w = None).
      { intros b g' w O. inversion O as [g2 w2 E1 N K W|z x y g2 w2 E1 L S E2 I K W|z x y g2 w2 E1 L S E2 I K W
          |x g2 E1 N E2|x g2 E1 N E2|c g2 E1 K N E2|c a g2 w2 E1 K N E2 W|c a b2 g2 E1 L K E2]; subst.
        - exfalso. apply (N g EG). symmetry. apply RG, in_or_app. right. left. reflexivity.
        - exfalso. apply keep_earliest in E2. apply keep_earliest in EG. assert (g' = g) by congruence. subst g'.
          destruct Q as (Q1 & _). eapply Q1; [apply in_or_app; right; left; reflexivity|exact I].
        - exfalso. apply keep_earliest in E2. apply keep_earliest in EG. assert (g' = g) by congruence. subst g'.
          destruct Q as (_ & Q2). eapply Q2; [apply in_or_app; right; left; reflexivity|exact I].
        - apply keep_earliest in E2. apply keep_earliest in EG. split; [exact N|]. split; [left; eauto|]. repeat split; congruence.
        - exfalso. apply FE. left. eauto.
        - apply keep_earliest in E2. apply keep_earliest in EG. split; [exact N|]. split; [right; eauto|]. repeat split; congruence.
        - exfalso. apply FE. right. eauto.
        - exfalso. apply NS. eapply conf_surface; eauto. }
      destruct (air_dec h v) as [A|A].
      + exists m. split; [apply env_kept; [intros b g' w O; destruct (ONLY _ _ _ O); contradiction|exact E]|].
        split; [intros _; apply EX, MA, A|intros N; exfalso; apply N, air_snoc; left; exact A].
      + assert (m = None) by (apply MN, A). subst m.
        destruct (air_dec (h ++ [e]) v) as [A'|A'].
        * pose proof A' as A2. apply air_snoc in A2. destruct A2 as [A2|A2]; [contradiction|].
          assert (O : occasion h e r v false g None).
          { destruct A2 as [(x & ->)|(c & b & -> & K)]; [eapply first_air_state; eauto|].
            eapply first_air_conf; eauto. destruct b; [exact K|]. exfalso. eapply C; [apply in_or_app; right; left; reflexivity|exact K]. }
          destruct (made_known h g v None) as ([l|] & M).
          -- exists (Some l). split; [eapply env_try; eauto|]. split; [intros _; apply EX, M|contradiction].
          -- exists None. split; [eapply env_fail; eauto|]. split; [intros _; apply EX, M|contradiction].
        * exists None. split; [|split; [contradiction|reflexivity]].
          apply env_kept; [|exact E]. intros b g' w O. destruct (ONLY _ _ _ O) as (_ & IA & _). apply A', air_snoc. right. exact IA.
  Qed.
End Answer.

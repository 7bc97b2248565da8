(** The polygons kept for a region and a vehicle are those of the specification. *)
From Coq Require Import List ZArith QArith Bool Lia.
From Verif Require Import ZMap Run Latest AirPlanModel AirPlanSpec AirPlanBuild AirPlanProofs.
Import ListNotations.
Open Scope list_scope.
Open Scope Z_scope.

Section Env.
  Context {B : Type} (outline : B -> option poly) (merge : list (poly * Z) -> option (list poly)) (trim : poly -> poly)
          (fits : list poly -> bool) (inside : list poly -> point -> bool)
          (way : list poly -> point -> point -> list point) (len : list point -> Q)
          (same : zone B -> zone B -> bool).
  Notation step := (step outline merge trim fits inside way len same).
  Notation state := (fun h => fst (run step init h)).
  Notation bld := (bld outline merge trim fits).
  Notation made := (made outline merge trim fits).
  Notation occasion := (occasion same).
  Notation environment := (environment outline merge trim fits same).

  Lemma made_bld : forall h s g v w, inv h s -> made h g v w (bld s g v w).
  Proof.
    intros h s g v w I. exists (zget (ins s)), (zget (outs s)). split; [|split].
    - intros z. rewrite (i_ins _ _ I). destruct (follow (says_in z) h) eqn:F; [apply follow_latest, F|apply follow_unsaid, F].
    - intros z. rewrite (i_outs _ _ I). destruct (follow (says_out z) h) eqn:F; [apply follow_latest, F|apply follow_unsaid, F].
    - unfold AirPlanProofs.bld. destruct (build outline merge trim fits (ins s) (outs s) g v w) as [l|] eqn:E.
      + apply build_makes. exact E.
      + intros l M. apply build_makes in M. congruence.
  Qed.

  Lemma water_of_area : forall h (s : st B) v, inv h s -> water_area h v (water_of s v).
  Proof.
    intros h s v I. unfold water_of. rewrite (i_confs _ _ I).
    destruct (follow (says_conf v) h) as [c|] eqn:C.
    - pose proof (proj1 (follow_latest _ _ _) C) as L. destruct (c_kind c) eqn:K;
        try (intros c' a b L' K'; apply follow_latest in L'; congruence).
      rewrite (i_waters _ _ I). destruct (follow (says_water water) h) as [b|] eqn:W.
      + exists c, water. split; [exact L|]. split; [exact K|apply follow_latest, W].
      + intros c' a b L' K' L2. apply follow_latest in L'. assert (c' = c) by congruence. subst c'.
        assert (a = water) by congruence. subst a. apply follow_latest in L2. congruence.
    - intros c a b L. apply follow_latest in L. congruence.
  Qed.
  Lemma latest_In : forall (A : Type) (says : ev B -> option A) h x, latest says h x -> exists e, In e h /\ says e = Some x.
  Proof. intros A says h x (h1 & e & h2 & -> & S & _). exists e. split; [apply in_or_app; right; left; reflexivity|exact S]. Qed.
  Lemma says_conf_inv : forall v (e : ev B) c, says_conf v e = Some c -> e = Conf v c /\ c_kind c <> COther.
  Proof.
    intros v e c. destruct e as [|u d| | | | | |]; cbn; try discriminate. destruct (u =? v) eqn:E; [|discriminate].
    apply Z.eqb_eq in E. subst. destruct (c_kind d) eqn:K; intros X; try discriminate; injection X as <-; split; congruence.
  Qed.
  Lemma conf_surface : forall (h : list (ev B)) v c a, latest (says_conf v) h c -> c_kind c = CSurface a -> surface h v.
  Proof.
    intros h v c a L K. apply latest_In in L. destruct L as (e & I & S). apply says_conf_inv in S. destruct S as (-> & _).
    exists (Conf v c). split; [exact I|]. right. eauto.
  Qed.

  Lemma occasion_known : forall h e r v b g w, occasion h e r v b g w -> known (h ++ [e]) v.
  Proof.
    intros h e r v b g w O. unfold known. rewrite air_snoc, surface_snoc. unfold is_air, is_surface.
    destruct O as [? ? ? ? [K|K] ?|? ? ? ? ? ? ? ? ? ? [K|K] ?|? ? ? ? ? ? ? ? ? ? [K|K] ?|? ? ? ? ?|? ? ? ? ?|? ? ? ? ? ?|? ? ? ? ? ? ? ?|? ? ? ? ? L K ?]; auto.
    - left. right. left. eauto.
    - right. right. left. eauto.
    - left. right. right. eauto.
    - right. right. right. eauto.
    - right. left. eapply conf_surface; eauto.
  Qed.
  Lemma known_snoc : forall h (e : ev B) v, known h v -> known (h ++ [e]) v.
  Proof. intros h e v. unfold known. rewrite air_snoc, surface_snoc. tauto. Qed.
  Lemma env_known : forall r v h m, environment r v h m -> m <> None -> known h v.
  Proof.
    intros r v h m E. induction E; intros N; [congruence| | | |]; eauto using occasion_known, known_snoc.
  Qed.

  Lemma same_region_eq : forall a b, same_region a b = true <-> a = b.
  Proof.
    intros (a1, a2) (b1, b2). unfold same_region. cbn [g_ins g_outs].
    destruct (list_eq_dec Z.eq_dec a1 b1) as [->|N]; [|cbn; split; [discriminate|intros E; injection E as E _; contradiction]].
    destruct (list_eq_dec Z.eq_dec a2 b2) as [->|N]; [split; auto|]. cbn. split; [discriminate|intros E; injection E as E; contradiction].
  Qed.

  (** What a rebuilt region has for a vehicle of one kind. *)
  Lemma rebuilt_known : forall h s g v, inv h s -> one_kind h v -> known h v ->
    rebuilt outline merge trim fits s g v = bld s g v (water_of s v).
  Proof.
    intros h s g v I OK K. unfold rebuilt. cbv zeta.
    destruct OK as [F|F].
    - assert (NS : ~ surface h v) by (intros (e & J & S); exact (F e J S)).
      rewrite (proj2 (zin_false v (surfaces s))) by (rewrite (i_surfaces _ _ I); exact NS).
      rewrite (proj2 (zin_In v (airs s))) by (apply (i_airs _ _ I); destruct K; [assumption|contradiction]).
      pose proof (water_of_area h s v I) as W. destruct (water_of s v) as [b|]; [|reflexivity].
      destruct W as (c & a & L & C & _). exfalso. apply NS. eapply conf_surface; eauto.
    - assert (NA : ~ air h v) by (intros (e & J & S); destruct (F e J) as (N & _); exact (N S)).
      rewrite (proj2 (zin_false v (airs s))) by (rewrite (i_airs _ _ I); exact NA).
      rewrite (proj2 (zin_In v (surfaces s))) by (apply (i_surfaces _ _ I); destruct K; [contradiction|assumption]).
      destruct (bld s g v (water_of s v)); reflexivity.
  Qed.
  Lemma rebuilt_unknown : forall h s g v, inv h s -> ~ known h v -> rebuilt outline merge trim fits s g v = None.
  Proof.
    intros h s g v I K. unfold rebuilt. cbv zeta.
    rewrite (proj2 (zin_false v (surfaces s))) by (rewrite (i_surfaces _ _ I); intros S; apply K; right; exact S).
    rewrite (proj2 (zin_false v (airs s))) by (rewrite (i_airs _ _ I); intros S; apply K; left; exact S). reflexivity.
  Qed.
  Lemma known_dec : forall h (s : st B) v, inv h s -> known h v \/ ~ known h v.
  Proof.
    intros h s v I. unfold known. rewrite <- (i_airs _ _ I), <- (i_surfaces _ _ I), <- !zin_In.
    destruct (zin v (airs s)); [auto|]. destruct (zin v (surfaces s)); [auto|]. right. intros [X|X]; discriminate.
  Qed.

  (** After giving up the polygons. *)
  Lemma env_region : forall h s e r v m0 g, inv h s -> one_kind h v -> environment r v h m0 ->
    (known h v -> water_area h v (water_of s v) -> occasion h e r v true g (water_of s v)) ->
    (~ known h v -> forall b g w, ~ occasion h e r v b g w) ->
    environment r v (h ++ [e]) (rebuilt outline merge trim fits s g v).
  Proof.
    intros h s e r v m0 g I OK E0 HK HN. destruct (known_dec h s v I) as [K|K].
    - rewrite (rebuilt_known h) by assumption. eapply env_anew; [apply HK; [exact K|apply water_of_area, I]| |exact E0].
      apply made_bld. exact I.
    - rewrite (rebuilt_unknown h) by assumption. apply env_kept; [apply HN, K|].
      destruct m0 as [l|]; [|exact E0]. exfalso. apply K. eapply env_known; [exact E0|discriminate].
  Qed.
  Lemma env_orelse : forall h s e r v m0 g w, inv h s -> environment r v h m0 -> occasion h e r v false g w ->
    environment r v (h ++ [e]) (orelse (bld s g v w) m0).
  Proof.
    intros h s e r v m0 g w I E0 O. pose proof (made_bld h s g v w I) as M. destruct (bld s g v w) as [l|]; cbn [orelse].
    - eapply env_try; eauto.
    - eapply env_fail; eauto.
  Qed.

  Lemma one_kind_prefix : forall (h : list (ev B)) e v, one_kind (h ++ [e]) v -> one_kind h v.
  Proof.
    intros h e v [F|F]; [left|right]; intros x J; apply F; apply in_or_app; auto.
  Qed.

  Lemma keep_ear : forall r h (g : region), keep (@says_region B r) h = Some g -> earliest (says_region r) h g.
  Proof. intros. apply keep_earliest. assumption. Qed.

  Lemma region_eq_dec : forall a b : region, {a = b} + {a <> b}.
  Proof. intros a b. destruct (same_region a b) eqn:E; [left; apply same_region_eq, E|right; intros F; apply same_region_eq in F; congruence]. Qed.

  (** A vehicle whose regions are tried. *)
  Lemma env_update : forall h s s' e r u v w (zero : bool), inv h s -> environment r v h (look s r v) ->
    regions s' = regions s -> ins s' = ins s -> outs s' = outs s -> look s' r v = look s r v ->
    (forall g, v = u -> (earliest (says_region r) h g \/ (zero = true /\ region_or_zero h r g)) -> occasion h e r v false g w) ->
    ((v <> u \/ (forall g, ~ earliest (says_region r) h g /\ (zero = true -> ~ region_or_zero h r g))) ->
       forall b g w, ~ occasion h e r v b g w) ->
    environment r v (h ++ [e]) (look (update_vehicle outline merge trim fits s' u w zero) r v).
  Proof.
    intros h s s' e r u v w zero I E0 RR RI RO L HO HN.
    rewrite look_update by (rewrite RR; apply I). rewrite RR, L.
    assert (RB : forall g, AirPlanProofs.bld outline merge trim fits s' g u w = bld s g u w)
      by (intros; unfold AirPlanProofs.bld; rewrite RI, RO; reflexivity).
    destruct (v =? u) eqn:V.
    - apply Z.eqb_eq in V. subst u. rewrite (i_regions _ _ I). destruct (keep (says_region r) h) as [g|] eqn:K.
      + rewrite RB. apply env_orelse; [exact I|exact E0|]. apply HO; [reflexivity|]. left. apply keep_ear, K.
      + assert (U : unsaid (@says_region B r) h) by (apply keep_unsaid, K).
        destruct (zero && (r =? 0)) eqn:Z0.
        * apply andb_true_iff in Z0. destruct Z0 as (-> & Z0). apply Z.eqb_eq in Z0. subst r.
          rewrite RB. apply env_orelse; [exact I|exact E0|]. apply HO; [reflexivity|]. right. split; [reflexivity|]. right. auto.
        * apply env_kept; [|exact E0]. apply HN. right. intros g.
          assert (NE : ~ earliest (says_region r) h g) by (intros E; apply keep_earliest in E; congruence).
          split; [exact NE|]. intros -> [E|(-> & _)]; [exact (NE E)|discriminate].
    - apply Z.eqb_neq in V. apply env_kept; [|exact E0]. apply HN. left. exact V.
  Qed.

  Ltac other := let O := fresh in intros ? ? ? O; inversion O; subst; congruence.
  Ltac inj := repeat match goal with
    | H : State _ _ _ = State _ _ _ |- _ => injection H; clear H; intros; subst
    | H : Conf _ _ = Conf _ _ |- _ => injection H; clear H; intros; subst
    | H : Water _ _ = Water _ _ |- _ => injection H; clear H; intros; subst
    | H : KeepIn _ _ = KeepIn _ _ |- _ => injection H; clear H; intros; subst
    | H : KeepOut _ _ = KeepOut _ _ |- _ => injection H; clear H; intros; subst
    | H : Region _ _ = Region _ _ |- _ => injection H; clear H; intros; subst
    end.

  Lemma environment_run : forall h r v, one_kind h v -> environment r v h (look (state h) r v).
  Proof.
    intros h r v. induction h as [|e h IH] using rev_ind; intros OK; [constructor|].
    pose proof (one_kind_prefix _ _ _ OK) as OK'. specialize (IH OK').
    pose proof (inv_run outline merge trim fits inside way len same h) as I. rewrite run_snoc. cbn [fst].
    set (s := fst (run step init h)) in *. clearbody s. cbv beta in I, IH.
    assert (NR : NoDup (map fst (regions s))) by apply I.
    destruct e as [u k x|u c|z b|z x|z x|r0 g|sender q|]; cbn [AirPlanModel.step fst].
    - (* states *)
      destruct k.
      + apply env_kept; [other|exact IH].
      + change (environment r v (h ++ [State u SAir x])
          (look (if zin u (airs s) then put_state s u x
                 else update_vehicle outline merge trim fits (put_state s u x) u None false) r v)).
        destruct (zin u (airs s)) eqn:A.
        * apply env_kept; [|exact IH]. apply zin_In, (i_airs _ _ I) in A.
          intros b' g' w' O; inversion O; inj; congruence || contradiction.
        * apply zin_false in A. rewrite (i_airs _ _ I) in A.
          apply (env_update h s); try assumption; try reflexivity.
          -- intros g -> [E|(X & _)]; [|discriminate]. eapply first_air_state; eauto.
          -- intros N b' g' w' O; inversion O; inj; try congruence. destruct N as [N|N]; [congruence|]. destruct (N g') as (N' & _). contradiction.
      + apply env_kept; [other|exact IH].
      + change (environment r v (h ++ [State u SSurface x])
          (look (if zin u (surfaces s) then put_state s u x
                 else update_vehicle outline merge trim fits (put_state s u x) u None false) r v)).
        destruct (zin u (surfaces s)) eqn:A.
        * apply env_kept; [|exact IH]. apply zin_In, (i_surfaces _ _ I) in A.
          intros b' g' w' O; inversion O; inj; congruence || contradiction.
        * apply zin_false in A. rewrite (i_surfaces _ _ I) in A.
          apply (env_update h s); try assumption; try reflexivity.
          -- intros g -> [E|(X & _)]; [|discriminate]. eapply first_surface_state; eauto.
          -- intros N b' g' w' O; inversion O; inj; try congruence. destruct N as [N|N]; [congruence|]. destruct (N g') as (N' & _). contradiction.
      + apply env_kept; [other|exact IH].
    - (* configurations *)
      destruct (c_kind c) eqn:K.
      + apply env_kept; [intros b' g' w' O; inversion O; inj; congruence|exact IH].
      + change (environment r v (h ++ [Conf u c])
          (look (if zin u (airs s) || negb exact then put_conf s u c
                 else update_vehicle outline merge trim fits (put_conf s u c) u None false) r v)).
        destruct (zin u (airs s) || negb exact) eqn:A.
        * apply env_kept; [|exact IH]. apply orb_true_iff in A.
          intros b' g' w' O; inversion O; inj; try congruence.
          destruct A as [A|A]; [apply zin_In, (i_airs _ _ I) in A; contradiction|].
          assert (exact = true) by congruence. subst. discriminate.
        * apply orb_false_iff in A. destruct A as (A & X). apply negb_false_iff in X. subst exact.
          apply zin_false in A. rewrite (i_airs _ _ I) in A.
          apply (env_update h s); try assumption; try reflexivity.
          -- intros g -> [E|(X & _)]; [|discriminate]. eapply first_air_conf; eauto.
          -- intros N b' g' w' O; inversion O; inj; try congruence. destruct N as [N|N]; [congruence|]. destruct (N g') as (N' & _). contradiction.
      + apply env_kept; [intros b' g' w' O; inversion O; inj; congruence|exact IH].
      + change (environment r v (h ++ [Conf u c])
          (look (if zhas (confs s) u then s else update_vehicle outline merge trim fits s u (zget (waters s) water) true) r v)).
        unfold zhas. rewrite (i_confs _ _ I). destruct (follow (says_conf u) h) as [c'|] eqn:F.
        * apply env_kept; [|exact IH]. intros b' g' w' O; inversion O; inj; try congruence.
          match goal with H : unsaid _ _ |- _ => apply follow_unsaid in H end. congruence.
        * apply (env_update h s); try assumption; try reflexivity.
          -- intros g -> E. eapply first_surface_conf; [reflexivity|exact K|apply follow_unsaid, F| |].
             ++ destruct E as [E|(_ & E)]; [left; exact E|exact E].
             ++ rewrite (i_waters _ _ I). destruct (follow (says_water water) h) eqn:W; [apply follow_latest, W|apply follow_unsaid, W].
          -- intros N b' g' w' O; inversion O; inj; try congruence. destruct N as [N|N]; [congruence|].
             destruct (N g') as (_ & N'). apply N'; auto.
      + apply env_kept; [intros b' g' w' O; inversion O; inj; congruence|exact IH].
    - (* water zones *)
      set (s0 := put_water s z b).
      rewrite (look_waters outline merge trim fits s0 z r v NR (confs s) s0 (i_nd_confs _ _ I) (fields_refl s0)).
      rewrite (i_confs _ _ I). change (regions s0) with (regions s).
      change (look s0 r v) with (look s r v).
      change (AirPlanProofs.bld outline merge trim fits s0) with (bld s).
      destruct (follow (says_conf v) h) as [c|] eqn:F.
      2:{ apply env_kept; [|exact IH]. intros b' g' w' O; inversion O; inj; try congruence.
          match goal with H : latest (says_conf _) _ _ |- _ => apply follow_latest in H end. congruence. }
      assert (U : forall a, c_kind c = CSurface a -> a <> z ->
                forall b' g' w', ~ occasion h (Water z b) r v b' g' w').
      { intros a K N b' g' w' O; inversion O; inj; try congruence.
        match goal with H : latest (says_conf _) _ _ |- _ => apply follow_latest in H end. congruence. }
      destruct (c_kind c) eqn:K; try (apply env_kept; [|exact IH]; intros b' g' w' O; inversion O; inj; try congruence;
        match goal with H : latest (says_conf _) _ _ |- _ => apply follow_latest in H end; congruence).
      destruct (water =? z) eqn:Z0; [|apply Z.eqb_neq in Z0; apply env_kept; [apply (U water); auto|exact IH]].
      apply Z.eqb_eq in Z0. subst water.
      assert (W : zget (waters s0) z = Some b) by (unfold s0, put_water; cbn [waters]; rewrite zget_set, Z.eqb_refl; reflexivity).
      rewrite W, (i_regions _ _ I). apply follow_latest in F.
      destruct (keep (says_region r) h) as [g|] eqn:G.
      + apply env_orelse; [exact I|exact IH|]. eapply new_water; eauto. left. apply keep_ear, G.
      + destruct (r =? 0) eqn:R0.
        * apply Z.eqb_eq in R0. subst r. apply env_orelse; [exact I|exact IH|]. eapply new_water; eauto. right.
          split; [reflexivity|]. split; [apply keep_unsaid, G|reflexivity].
        * apply env_kept; [|exact IH]. intros b' g' w' O; inversion O; inj; try congruence.
          match goal with H : region_or_zero _ _ _ |- _ => destruct H as [E|(-> & _)] end; [|discriminate].
          apply keep_earliest in E. congruence.
    - (* zones to stay in *)
      change (environment r v (h ++ [KeepIn z x])
        (look (match zget (ins s) z with
               | Some y => if same y x then s else update_zone outline merge trim fits s g_ins z
               | None => s end) r v)).
      rewrite (i_ins _ _ I). destruct (follow (says_in z) h) as [y|] eqn:F.
      2:{ apply env_kept; [|exact IH]. intros b' g' w' O; inversion O; inj; try congruence.
          match goal with H : latest (says_in _) _ _ |- _ => apply follow_latest in H end. congruence. }
      destruct (same y x) eqn:S.
      { apply env_kept; [|exact IH]. intros b' g' w' O; inversion O; inj; try congruence.
          match goal with H : latest (says_in _) _ _ |- _ => apply follow_latest in H end. congruence. }
      rewrite look_zone by exact NR. rewrite (i_regions _ _ I). apply follow_latest in F.
      destruct (keep (says_region r) h) as [g|] eqn:G.
      2:{ apply env_kept; [|exact IH]. intros b' g' w' O; inversion O; inj; try congruence.
          match goal with H : earliest (says_region _) _ _ |- _ => apply keep_earliest in H end. congruence. }
      apply keep_ear in G. destruct (zin z (g_ins g)) eqn:Z0.
      + apply zin_In in Z0. eapply env_region; eauto.
        * intros KN WA. eapply changed_in; eauto.
        * intros N b' g' w' O; inversion O; inj; congruence || contradiction.
      + apply zin_false in Z0. apply env_kept; [|exact IH]. intros b' g' w' O; inversion O; inj; try congruence.
        match goal with H : earliest (says_region _) _ g' |- _ => apply keep_earliest in H end.
        apply keep_earliest in G. assert (g' = g) by congruence. subst. contradiction.
    - (* zones to avoid *)
      change (environment r v (h ++ [KeepOut z x])
        (look (match zget (outs s) z with
               | Some y => if same y x then s else update_zone outline merge trim fits s g_outs z
               | None => s end) r v)).
      rewrite (i_outs _ _ I). destruct (follow (says_out z) h) as [y|] eqn:F.
      2:{ apply env_kept; [|exact IH]. intros b' g' w' O; inversion O; inj; try congruence.
          match goal with H : latest (says_out _) _ _ |- _ => apply follow_latest in H end. congruence. }
      destruct (same y x) eqn:S.
      { apply env_kept; [|exact IH]. intros b' g' w' O; inversion O; inj; try congruence.
          match goal with H : latest (says_out _) _ _ |- _ => apply follow_latest in H end. congruence. }
      rewrite look_zone by exact NR. rewrite (i_regions _ _ I). apply follow_latest in F.
      destruct (keep (says_region r) h) as [g|] eqn:G.
      2:{ apply env_kept; [|exact IH]. intros b' g' w' O; inversion O; inj; try congruence.
          match goal with H : earliest (says_region _) _ _ |- _ => apply keep_earliest in H end. congruence. }
      apply keep_ear in G. destruct (zin z (g_outs g)) eqn:Z0.
      + apply zin_In in Z0. eapply env_region; eauto.
        * intros KN WA. eapply changed_out; eauto.
        * intros N b' g' w' O; inversion O; inj; congruence || contradiction.
      + apply zin_false in Z0. apply env_kept; [|exact IH]. intros b' g' w' O; inversion O; inj; try congruence.
        match goal with H : earliest (says_region _) _ g' |- _ => apply keep_earliest in H end.
        apply keep_earliest in G. assert (g' = g) by congruence. subst. contradiction.
    - (* regions *)
      destruct (Z.eq_dec r0 r) as [->|NE].
      2:{ assert (L : look (match zget (regions s) r0 with
                 | Some g0 => if same_region g0 g then s else build_region outline merge trim fits s r0 g
                 | None => build_region outline merge trim fits (put_region s r0 g) r0 g end) r v = look s r v).
          { destruct (zget (regions s) r0) as [g0|]; [destruct (same_region g0 g); [reflexivity|]|];
              rewrite look_region; (destruct (r =? r0) eqn:E; [apply Z.eqb_eq in E; congruence|reflexivity]). }
          rewrite L. apply env_kept; [|exact IH]. intros b' g' w' O; inversion O; inj; congruence. }
      assert (R : forall s', fields s s' \/ s' = put_region s r g -> look (build_region outline merge trim fits s' r g) r v
                    = rebuilt outline merge trim fits s g v).
      { intros s' _x. rewrite look_region, Z.eqb_refl.
        change (rebuilt outline merge trim fits s' g v = rebuilt outline merge trim fits s g v).
        destruct _x as [F| ->]; [apply rebuilt_fields, F|reflexivity]. }
      assert (RE : (forall g0, earliest (says_region r) h g0 -> g0 <> g) ->
        environment r v (h ++ [Region r g]) (rebuilt outline merge trim fits s g v)).
      { intros N. eapply env_region; eauto.
        * intros KN WA. eapply new_region; eauto.
        * intros NK b' g' w' O; inversion O; inj; congruence || contradiction. }
      rewrite (i_regions _ _ I). destruct (keep (says_region r) h) as [g0|] eqn:G.
      + destruct (same_region g0 g) eqn:S.
        * apply same_region_eq in S. subst g0. apply env_kept; [|exact IH]. intros b' g' w' O; inversion O; inj; try congruence.
          apply keep_ear in G. match goal with H : forall g0, earliest _ _ g0 -> _ |- _ => exact (H _ G eq_refl) end.
        * rewrite R by (left; apply fields_refl). apply RE. intros g1 E1 ->. apply keep_earliest in E1.
          assert (g0 = g) by congruence. subst. rewrite (proj2 (same_region_eq g g) eq_refl) in S. discriminate.
      + rewrite R by (right; reflexivity). apply RE. intros g1 E1. apply keep_earliest in E1. congruence.
    - apply env_kept; [other|exact IH].
    - apply env_kept; [other|exact IH].
  Qed.
End Env.

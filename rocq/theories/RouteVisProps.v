(** C56: requests for route plans are answered with the zones and vehicles last told. *)
From Coq Require Import List ZArith QArith Qround Bool Lia Lqa.
From Verif Require Import ZMap Run RouteVisModel RouteVisSpec.
Import ListNotations.
Open Scope list_scope.
Open Scope Z_scope.

Lemma latest_snoc : forall P A (says : ev P -> option A) h e x,
  latest says (h ++ [e]) x <-> says e = Some x \/ (says e = None /\ latest says h x).
Proof.
  intros P A says h e x. split.
  - intros (h1 & e' & h2 & E & S & N). destruct h2 as [|z h2 _] using rev_ind.
    + apply app_inj_tail in E. destruct E as (-> & ->). left. exact S.
    + rewrite app_comm_cons, app_assoc in E. apply app_inj_tail in E. destruct E as (-> & ->).
      right. split; [apply N; apply in_or_app; right; left; reflexivity|].
      exists h1, e', h2. split; [reflexivity|]. split; [exact S|]. intros y Hy. apply N. apply in_or_app. left. exact Hy.
  - intros [S|(S & h1 & e' & h2 & -> & S' & N)].
    + exists h, e, []. split; [reflexivity|]. split; [exact S|intros ? []].
    + exists h1, e', (h2 ++ [e]). rewrite <- app_assoc. split; [reflexivity|]. split; [exact S'|].
      intros y Hy. apply in_app_or in Hy. destruct Hy as [Hy|[<-|[]]]; [auto|exact S].
Qed.

Lemma latest_nil : forall P A (says : ev P -> option A) x, ~ latest says [] x.
Proof. intros P A says x (h1 & e & h2 & E & _). destruct h1; discriminate. Qed.

Lemma int_of_eq : forall a b, (int_of a =? int_of b) = true <-> a mod 4294967296 = b mod 4294967296.
Proof.
  intros a b. rewrite Z.eqb_eq. unfold int_of. split.
  - intros H. assert (E : (a + 2147483648) mod 4294967296 = (b + 2147483648) mod 4294967296) by lia.
    clear H. replace a with (a + 2147483648 - 2147483648) by lia. replace b with (b + 2147483648 - 2147483648) by lia.
    rewrite Zminus_mod, E, <- Zminus_mod. reflexivity.
  - intros H. rewrite (Zplus_mod a), (Zplus_mod b), H. reflexivity.
Qed.

Section Proofs.
  Context {P G W : Type} (make : list (zone P) -> option G) (len : G -> P -> P -> Z) (points : G -> P -> P -> list W).

  Notation step := (@step P G W make len points).
  Notation init := (@init P G make).
  Notation run := (@run (state P G) (ev P) (out W) step init).

  Lemma put_add : forall (z : zone P) l l', put z l l' <-> l' = add_polygon l z.
  Proof.
    intros z l l'. split.
    - intros H. destruct H as [l H|l1 x l2 H C].
      + induction l as [|y l IH]; [reflexivity|]. cbn [add_polygon app].
        destruct (int_of (z_id y) =? int_of (z_id z)) eqn:E.
        * apply int_of_eq in E. exfalso. apply (H y); [left; reflexivity|exact E].
        * rewrite <- IH; [reflexivity|]. intros w Hw. apply H. right. exact Hw.
      + induction l1 as [|y l1 IH]; cbn [add_polygon app].
        * rewrite (proj2 (int_of_eq _ _) C). reflexivity.
        * destruct (int_of (z_id y) =? int_of (z_id z)) eqn:E.
          -- apply int_of_eq in E. exfalso. apply (H y); [left; reflexivity|exact E].
          -- rewrite <- IH; [reflexivity|]. intros w Hw. apply H. right. exact Hw.
    - intros ->. assert (X : forall pre, (forall y, In y pre -> ~ confused y z) -> put z (pre ++ l) (pre ++ add_polygon l z)).
      { induction l as [|y l IH]; intros pre N.
        - cbn [add_polygon]. rewrite app_nil_r. apply put_end. exact N.
        - cbn [add_polygon]. destruct (int_of (z_id y) =? int_of (z_id z)) eqn:E.
          + apply int_of_eq in E. apply put_in; assumption.
          + assert (NC : ~ confused y z). { intros C. apply int_of_eq in C. congruence. }
            specialize (IH (pre ++ [y])). rewrite <- !app_assoc in IH. apply IH.
            intros w Hw. apply in_app_or in Hw. destruct Hw as [Hw|[<-|[]]]; auto. }
      apply (X []). intros ? [].
  Qed.

  Definition merge (acc : list (zone P)) (z : zone P) : list (zone P) :=
    match z_points z with [] => acc | _ => add_polygon acc z end.

  Lemma count_fold : forall (zs : list (zone P)) acc r, count zs acc r <-> r = fold_left merge zs acc.
  Proof.
    induction zs as [|z zs IH]; intros acc r; cbn [fold_left].
    - split; [intros H; inversion H; reflexivity|intros ->; constructor].
    - split.
      + intros H. inversion H as [|z' zs' acc0 r0 E H'|z' zs' acc0 acc' r0 E PT H']; subst; apply IH in H'; rewrite H'; cbn [fold_left]; f_equal; unfold merge.
        * rewrite E. reflexivity.
        * apply put_add in PT. subst acc'. destruct (z_points z) as [|? ?]; [contradiction|reflexivity].
      + intros ->. unfold merge at 2. destruct (z_points z) as [|p l] eqn:E.
        * apply count_skip; [exact E|]. apply IH. reflexivity.
        * apply count_put with (add_polygon acc z); [rewrite E; discriminate|apply put_add; reflexivity|apply IH; reflexivity].
  Qed.

  Lemma collect_spec : forall (zm : zmap (zone P)) ids acc r,
    collect zm ids acc = Some r <->
    exists zs, Forall2 (fun i z => zget zm i = Some z) ids zs /\ r = fold_left merge zs acc.
  Proof.
    intros zm. induction ids as [|i ids IH]; intros acc r; cbn [collect].
    - split.
      + intros E. injection E as ->. exists []. split; [constructor|reflexivity].
      + intros (zs & F & ->). inversion F. reflexivity.
    - destruct (zget zm i) as [z|] eqn:E.
      + rewrite IH. fold (merge acc z). split.
        * intros (zs & F & ->). exists (z :: zs). split; [constructor; assumption|reflexivity].
        * intros (zs & F & ->). inversion F as [|? z' ? zs' E' F']; subst. rewrite E in E'. injection E' as ->. exists zs'. auto.
      + split; [discriminate|]. intros (zs & F & _). inversion F as [|? z' ? zs' E' F']; subst. congruence.
  Qed.

  (** What a region message leads to. *)
  Definition made (zm : zmap (zone P)) (ins outs : list Z) : option G :=
    match collect zm (ins ++ outs) [] with Some ps => make ps | None => None end.

  Lemma collect_app : forall (zm : zmap (zone P)) a b acc,
    collect zm (a ++ b) acc = match collect zm a acc with Some ps => collect zm b ps | None => None end.
  Proof.
    intros zm. induction a as [|i a IH]; intros b acc; cbn [collect app]; [reflexivity|].
    destruct (zget zm i); [apply IH|reflexivity].
  Qed.

  Lemma region_made : forall s i ins outs,
    region make s i ins outs = match made (zones s) ins outs with
                               | Some g => {| configs := configs s; speeds := speeds s; zones := zones s; graphs := zset (graphs s) i g |}
                               | None => s end.
  Proof.
    intros s i ins outs. unfold region, made. rewrite collect_app.
    destruct (collect (zones s) ins []) as [ps|]; [|reflexivity].
    destruct (collect (zones s) outs ps); reflexivity.
  Qed.

  Lemma made_makes : forall h zm ins outs g,
    (forall i z, zget zm i = Some z <-> latest (says_zone i) h z) ->
    made zm ins outs = Some g <-> makes make h ins outs g.
  Proof.
    intros h zm ins outs g Z. unfold made, makes. split.
    - destruct (collect zm (ins ++ outs) []) as [ps|] eqn:E; [|discriminate]. intros M.
      apply collect_spec in E. destruct E as (zs & F & ->). exists zs, (fold_left merge zs []).
      split; [|split; [apply count_fold; reflexivity|exact M]].
      clear M. induction F as [|i z is zs H F IH]; constructor; [apply Z; exact H|exact IH].
    - intros (zs & l & F & C & M). apply count_fold in C.
      rewrite (proj2 (collect_spec zm (ins ++ outs) [] l)); [exact M|]. exists zs. split; [|exact C].
      clear C M. induction F as [|i z is zs H F IH]; constructor; [apply Z; exact H|exact IH].
  Qed.

  Lemma region_graph_snoc : forall h e i g,
    region_graph make (h ++ [e]) i g <->
    (exists ins outs, e = Region i ins outs /\ makes make h ins outs g)
    \/ ((forall ins outs, e = Region i ins outs -> forall g', ~ makes make h ins outs g') /\ region_graph make h i g).
  Proof.
    intros h e i g. split.
    - intros [(h1 & ins & outs & h2 & E & M & N)|(I0 & M0 & N)].
      + destruct h2 as [|z h2 _] using rev_ind.
        * apply app_inj_tail in E. destruct E as (-> & ->). left. exists ins, outs. auto.
        * rewrite app_comm_cons, app_assoc in E. apply app_inj_tail in E. destruct E as (-> & ->). right. split.
          -- intros ins' outs' -> g'. apply (N h2 ins' outs' []). reflexivity.
          -- left. exists h1, ins, outs, h2. split; [reflexivity|]. split; [exact M|].
             intros a ins' outs' b ->. apply (N a ins' outs' (b ++ [z])). rewrite <- app_assoc. reflexivity.
      + right. split.
        * intros ins outs -> g'. apply (N h ins outs []). reflexivity.
        * right. split; [exact I0|]. split; [exact M0|]. intros h1 ins outs h2 ->. apply (N h1 ins outs (h2 ++ [e])).
          rewrite <- app_assoc. reflexivity.
    - intros [(ins & outs & -> & M)|(NE & [(h1 & ins & outs & h2 & -> & M & N)|(I0 & M0 & N)])].
      + left. exists h, ins, outs, []. split; [reflexivity|]. split; [exact M|]. intros [|? ?] ? ? ? E; discriminate.
      + left. exists h1, ins, outs, (h2 ++ [e]). rewrite <- app_assoc. split; [reflexivity|]. split; [exact M|].
        intros a ins' outs' b E. destruct b as [|z b _] using rev_ind.
        * apply app_inj_tail in E. destruct E as (-> & ->). intros g'. apply (NE ins' outs' eq_refl).
        * rewrite app_comm_cons, app_assoc in E. apply app_inj_tail in E. destruct E as (-> & ->). apply (N a ins' outs' b). reflexivity.
      + right. split; [exact I0|]. split; [exact M0|]. intros h1 ins outs h2 E. destruct h2 as [|z h2 _] using rev_ind.
        * apply app_inj_tail in E. destruct E as (-> & ->). intros g'. apply (NE ins outs eq_refl).
        * rewrite app_comm_cons, app_assoc in E. apply app_inj_tail in E. destruct E as (-> & ->). apply (N h1 ins outs h2). reflexivity.
  Qed.

  Definition inv (h : list (ev P)) (s : state P G) : Prop :=
    (forall i k, zget (configs s) i = Some k <-> latest (says_config i) h k)
    /\ (forall i, zget (speeds s) i = option_map speed_of (zget (configs s) i))
    /\ (forall i z, zget (zones s) i = Some z <-> latest (says_zone i) h z)
    /\ (forall i g, zget (graphs s) i = Some g <-> region_graph make h i g).

  Lemma region_graph_nil : forall i g, region_graph make [] i g <-> i = 0 /\ make [] = Some g.
  Proof.
    intros i g. split.
    - intros [(h1 & ins & outs & h2 & E & _)|(I0 & M & _)]; [destruct h1; discriminate|auto].
    - intros (I0 & M). right. split; [exact I0|]. split; [exact M|]. intros [|? ?] ? ? ? E; discriminate.
  Qed.

  Lemma inv_init : inv [] init.
  Proof.
    unfold init, RouteVisModel.init. rewrite region_made. unfold made. cbn [app collect zones].
    assert (F : forall A (says : ev P -> option A) (x : A), None = Some x <-> latest says [] x).
    { intros A says x. split; [discriminate|]. intros H. destruct (latest_nil _ _ _ _ H). }
    unfold inv. destruct (make []) as [g0|] eqn:M; cbn [configs speeds zones graphs zget option_map].
    - split; [intros; apply F|]. split; [reflexivity|]. split; [intros; apply F|]. intros i g. rewrite region_graph_nil, zget_set.
      cbn [zget]. destruct (Z.eqb_spec i 0) as [->|N]; split.
      + intros E. injection E as ->. auto.
      + intros (_ & E). rewrite M in E. exact E.
      + discriminate.
      + intros (E & _). contradiction.
    - split; [intros; apply F|]. split; [reflexivity|]. split; [intros; apply F|]. intros i g. rewrite region_graph_nil.
      split; [discriminate|]. intros (_ & E). congruence.
  Qed.

  Lemma latest_skip : forall A (says : ev P -> option A) h e x, says e = None -> latest says (h ++ [e]) x <-> latest says h x.
  Proof. intros A says h e x E. rewrite latest_snoc, E. split; [intros [X|(_ & X)]; [discriminate|exact X]|auto]. Qed.

  Lemma graph_skip : forall h e i g, (forall ins outs, e <> Region i ins outs) -> region_graph make (h ++ [e]) i g <-> region_graph make h i g.
  Proof.
    intros h e i g N. rewrite region_graph_snoc. split.
    - intros [(ins & outs & E & _)|(_ & H)]; [destruct (N _ _ E)|exact H].
    - intros H. right. split; [intros ins outs E; destruct (N _ _ E)|exact H].
  Qed.

  Lemma inv_step : forall h s e, inv h s -> inv (h ++ [e]) (fst (step s e)).
  Proof.
    intros h s e (IC & IS & IZ & IG). destruct e as [i k|i b [ps|] pad|i ins outs|from q|]; cbn [RouteVisModel.step fst]; unfold inv; cbn [configs speeds zones graphs].
    - split; [|split; [|split]].
      + intros j k'. rewrite zget_set, latest_snoc. unfold says_config at 1 2. rewrite (Z.eqb_sym j i). destruct (i =? j).
        * split; [intros E; left; exact E|intros [E|(E & _)]; [exact E|discriminate]].
        * rewrite IC. split; [intros E; right; auto|intros [E|(_ & E)]; [discriminate|exact E]].
      + intros j. rewrite !zget_set. destruct (j =? i); [reflexivity|apply IS].
      + intros j z. rewrite latest_skip by reflexivity. apply IZ.
      + intros j g. rewrite graph_skip by discriminate. apply IG.
    - split; [|split; [|split]].
      + intros j k'. rewrite latest_skip by reflexivity. apply IC.
      + exact IS.
      + intros j z. rewrite zget_set, latest_snoc. unfold says_zone at 1 2. rewrite (Z.eqb_sym j i). destruct (i =? j).
        * split; [intros E; left; exact E|intros [E|(E & _)]; [exact E|discriminate]].
        * rewrite IZ. split; [intros E; right; auto|intros [E|(_ & E)]; [discriminate|exact E]].
      + intros j g. rewrite graph_skip by discriminate. apply IG.
    - split; [|split; [|split]]; [intros j k'; rewrite latest_skip by reflexivity; apply IC|exact IS|intros j z; rewrite latest_skip by reflexivity; apply IZ|].
      intros j g. rewrite graph_skip by discriminate. apply IG.
    - rewrite region_made.
      assert (X : forall s', configs s' = configs s -> speeds s' = speeds s -> zones s' = zones s ->
                  (forall j g, zget (graphs s') j = Some g <-> region_graph make (h ++ [Region i ins outs]) j g) ->
                  inv (h ++ [Region i ins outs]) s').
      { intros s' E1 E2 E3 H. unfold inv. rewrite E1, E2, E3.
        split; [|split; [|split]]; [intros j k'; rewrite latest_skip by reflexivity; apply IC|exact IS|intros j z; rewrite latest_skip by reflexivity; apply IZ|exact H]. }
      destruct (made (zones s) ins outs) as [g0|] eqn:M; apply X; try reflexivity; cbn [graphs]; intros j g.
      + rewrite zget_set. destruct (Z.eqb_spec j i) as [->|N].
        * rewrite region_graph_snoc. split.
          -- intros E. injection E as ->. left. exists ins, outs. split; [reflexivity|]. apply (made_makes h (zones s)); assumption.
          -- intros [(ins' & outs' & E & MK)|(NE & _)].
             ++ injection E as <- <-. apply (made_makes h (zones s)) in MK; [|exact IZ]. congruence.
             ++ exfalso. apply (NE ins outs eq_refl g0). apply (made_makes h (zones s)); assumption.
        * rewrite graph_skip by (intros ? ? E; injection E; congruence). apply IG.
      + rewrite region_graph_snoc. split.
        * intros E. right. split; [|apply IG; exact E]. intros ins' outs' E' g' MK. injection E' as -> <- <-.
          apply (made_makes h (zones s)) in MK; [|exact IZ]. congruence.
        * intros [(ins' & outs' & E & MK)|(_ & E)].
          -- injection E as -> <- <-. apply (made_makes h (zones s)) in MK; [|exact IZ]. congruence.
          -- apply IG. exact E.
    - split; [|split; [|split]]; [intros j k'; rewrite latest_skip by reflexivity; apply IC|exact IS|intros j z; rewrite latest_skip by reflexivity; apply IZ|].
      intros j g. rewrite graph_skip by discriminate. apply IG.
    - split; [|split; [|split]]; [intros j k'; rewrite latest_skip by reflexivity; apply IC|exact IS|intros j z; rewrite latest_skip by reflexivity; apply IZ|].
      intros j g. rewrite graph_skip by discriminate. apply IG.
  Qed.

  Lemma inv_run : forall h, inv h (fst (run h)).
  Proof.
    intros h. induction h as [|e h IH] using rev_ind; [exact inv_init|].
    rewrite run_snoc. cbn [fst]. apply inv_step. exact IH.
  Qed.

  Lemma trunc_pos : forall q, (0 <= q)%Q -> (inject_Z (trunc q) <= q)%Q /\ (q < inject_Z (trunc q + 1))%Q.
  Proof.
    intros q H. assert (E : trunc q = Qfloor q).
    { unfold trunc. destruct q as [n d]. cbn [Qnum Qden Qfloor]. apply Z.quot_div_nonneg; [|lia].
      unfold Qle in H. cbn in H. lia. }
    rewrite E. split; [apply Qfloor_le|apply Qlt_floor].
  Qed.
  Lemma trunc_opp : forall q, trunc (- q) = - trunc q.
  Proof. intros [n d]. unfold trunc. cbn [Qopp Qnum Qden]. apply Z.quot_opp_l. lia. Qed.
  Lemma trunc_neg : forall q, (q <= 0)%Q -> (q <= inject_Z (trunc q))%Q /\ (inject_Z (trunc q - 1) < q)%Q.
  Proof.
    intros q H. destruct (trunc_pos (- q)) as (A & B); [lra|]. rewrite trunc_opp in A, B.
    rewrite inject_Z_plus in B. rewrite inject_Z_opp in A, B. unfold Z.sub. rewrite inject_Z_plus.
    change (inject_Z 1) with 1%Q in B. change (inject_Z (- (1))) with (-1)%Q.
    revert A B. generalize (inject_Z (trunc q)). intros x A B. split; lra.
  Qed.

  Lemma cost_spec : forall l v, milliseconds l v (cost l v).
  Proof.
    intros l v. unfold milliseconds, cost. destruct (Qlt_le_dec 0 v) as [V|V].
    - destruct (Qle_bool v 0) eqn:E; [apply Qle_bool_iff in E; exfalso; exact (Qlt_not_le _ _ V E)|]. cbn zeta.
      assert (I : (0 < / v)%Q) by (apply Qinv_lt_0_compat; exact V).
      split; intros L; rewrite Zle_Qle in L; change (inject_Z 0) with 0%Q in L.
      + apply trunc_pos. unfold Qdiv. nra.
      + apply trunc_neg. unfold Qdiv. nra.
    - rewrite (proj2 (Qle_bool_iff v 0) V). reflexivity.
  Qed.

  Theorem C56_answered : forall h t1 from q o t2 k g,
    snd (run h) = t1 ++ (Request from q, o) :: t2 ->
    latest (says_config (q_vehicle q)) (map fst t1) k -> k <> Ground ->
    region_graph make (map fst t1) (q_region q) g ->
    exists a, o = [Send from a] /\ answers len points k g q a.
  Proof.
    intros h t1 from q o t2 k g E LC NK RG. apply run_split in E. destruct E as (s & E1 & _ & E3). cbn [fst snd] in E3.
    pose proof (inv_run (map fst t1)) as (IC & IS & IZ & IG). rewrite E1 in *. cbn [fst] in *.
    cbn [RouteVisModel.step snd] in E3. apply IC in LC. apply IG in RG. rewrite LC in E3.
    unfold answer in E3. rewrite (IS (q_vehicle q)), LC, RG in E3. cbn [option_map] in E3.
    eexists. split; [destruct k; [exact E3|exact E3|contradiction]|].
    unfold answers. cbn [a_id a_vehicle a_region a_task a_plans]. repeat (split; [reflexivity|]).
    clear - NK. induction (q_routes q) as [|r rs IH]; cbn [map]; constructor; [|exact IH].
    cbn [plan_route p_id p_cost p_points]. split; [reflexivity|]. split; [|reflexivity].
    destruct k; cbn [speed_of]; [apply cost_spec|reflexivity|contradiction].
  Qed.

  Theorem C56_silent : forall h t1 e o t2,
    snd (run h) = t1 ++ (e, o) :: t2 ->
    (forall from q k g, e = Request from q -> latest (says_config (q_vehicle q)) (map fst t1) k -> k <> Ground ->
       region_graph make (map fst t1) (q_region q) g -> False) ->
    o = [].
  Proof.
    intros h t1 e o t2 E N. apply run_split in E. destruct E as (s & E1 & _ & E3). cbn [fst snd] in E3.
    pose proof (inv_run (map fst t1)) as (IC & IS & IZ & IG). rewrite E1 in *. cbn [fst] in *.
    destruct e as [i k|i b [ps|] pad|i ins outs|from q|]; cbn [RouteVisModel.step snd] in E3; try exact E3.
    destruct (zget (configs s) (q_vehicle q)) as [k|] eqn:LC; [|exact E3].
    unfold answer in E3. rewrite (IS (q_vehicle q)), LC in E3. cbn [option_map] in E3.
    destruct (zget (graphs s) (q_region q)) as [g|] eqn:RG; [|destruct k; exact E3].
    destruct k as [v| |]; [| |exact E3]; exfalso; (eapply (N from q _ g eq_refl); [apply IC; exact LC|discriminate|apply IG; exact RG]).
  Qed.

  (** With ids of 32 bits and no zone named twice, all zones with corners count. *)
  Lemma merge_distinct : forall (zs acc : list (zone P)),
    (forall z x, In z zs -> In x acc -> ~ confused x z) -> ForallOrdPairs (fun a b => ~ confused a b) zs ->
    fold_left merge zs acc = acc ++ filter (fun z => match z_points z with [] => false | _ => true end) zs.
  Proof.
    induction zs as [|z zs IH]; intros acc N D; cbn [fold_left filter]; [rewrite app_nil_r; reflexivity|].
    inversion D as [|? ? D1 D2]; subst. unfold merge at 2. destruct (z_points z) as [|p l] eqn:E.
    - apply IH; [|exact D2]. intros y x IY IX. apply N; [right; exact IY|exact IX].
    - rewrite <- (proj1 (put_add z acc (acc ++ [z]))).
      + rewrite IH; [rewrite <- app_assoc; reflexivity| |exact D2].
        intros y x IY IX. apply in_app_or in IX. destruct IX as [IX|[<-|[]]]; [apply N; [right; exact IY|exact IX]|].
        rewrite Forall_forall in D1. apply D1. exact IY.
      + apply put_end. intros x IX. apply N; [left; reflexivity|exact IX].
  Qed.

  Theorem C56_all_zones : forall (zs l : list (zone P)),
    (forall z, In z zs -> 0 <= z_id z < 4294967296) -> NoDup (map z_id zs) ->
    count zs [] l -> l = filter (fun z => match z_points z with [] => false | _ => true end) zs.
  Proof.
    intros zs l R ND C. apply count_fold in C. rewrite C. apply merge_distinct; [intros ? ? ? []|].
    clear C. induction zs as [|z zs IH]; constructor.
    - apply Forall_forall. intros y IY C. unfold confused in C.
      rewrite !Z.mod_small in C by (apply R; auto using in_eq, in_cons).
      cbn in ND. apply NoDup_cons_iff in ND. apply (proj1 ND). rewrite C. apply in_map. exact IY.
    - apply IH; [intros y IY; apply R; right; exact IY|]. cbn in ND. apply NoDup_cons_iff in ND. apply ND.
  Qed.
End Proofs.

(** Concrete case: the graph is the list of zone ids, a position a number. *)
Definition ids (l : list (zone Z)) : option (list Z) := if existsb (fun z => Qle_bool 99 (z_pad z)) l then None else Some (map z_id l).
Definition zone_msg (i : Z) (p : list Z) : ev Z := Zone i false (Some p) 1.
Definition ask (region : Z) : ev Z :=
  Request (5, 6) {| q_id := 1; q_vehicle := 400; q_region := region; q_task := 2; q_cost_only := false;
                    q_routes := [{| r_id := 10; r_start := 0; r_end := 700 |}; {| r_id := 11; r_start := 5; r_end := 5 |}] |}.
Definition case_run := @run _ (ev Z) (out (list Z)) (@step Z (list Z) (list Z) ids (fun _ a b => Z.abs (a - b)) (fun g _ _ => [g])) (@init Z (list Z) ids).
Definition case_history := [Config 400 (Air 20); zone_msg 7 [1]; zone_msg 8 [2]; Region 3 [8] [7]; ask 3].

Example C56_case :
  snd (case_run case_history) = map (fun e => (e, [])) (firstn 4 case_history) ++
    [(ask 3, [Send (5, 6) {| a_id := 1; a_vehicle := 400; a_region := 3; a_task := 2;
       a_plans := [{| p_id := 10; p_cost := 35000; p_points := [[8; 7]] |}; {| p_id := 11; p_cost := 0; p_points := [[8; 7]] |}] |}])]
  /\ latest (says_config 400) (firstn 4 case_history) (Air 20)
  /\ region_graph ids (firstn 4 case_history) 3 [8; 7].
Proof.
  split; [vm_compute; reflexivity|]. split.
  - exists [], (Config 400 (Air 20)), [zone_msg 7 [1]; zone_msg 8 [2]; Region 3 [8] [7]].
    split; [reflexivity|]. split; [reflexivity|]. intros e' [<-|[<-|[<-|[]]]]; reflexivity.
  - assert (H := inv_run ids (fun _ a b => Z.abs (a - b)) (fun g _ _ => [g]) (firstn 4 case_history)).
    apply H. vm_compute. reflexivity.
Qed.

(** A zone told again does not move the graph of a region already told. *)
Theorem C56_zone_update_refuted :
  exists h1 z, latest (says_zone 7) (h1 ++ [z]) {| z_id := 7; z_in := false; z_points := []; z_pad := 1 |}
    /\ region_graph ids (h1 ++ [z]) 3 [8; 7]
    /\ region_graph ids (h1 ++ [z; Region 3 [8] [7]]) 3 [8].
Proof.
  exists (firstn 4 case_history), (zone_msg 7 []).
  split; [|split].
  - exists (firstn 4 case_history), (zone_msg 7 []), []. split; [reflexivity|]. split; [reflexivity|]. intros ? [].
  - apply (inv_run ids (fun _ a b => Z.abs (a - b)) (fun g _ _ => [g]) (firstn 4 case_history ++ [zone_msg 7 []])). vm_compute. reflexivity.
  - apply (inv_run ids (fun _ a b => Z.abs (a - b)) (fun g _ _ => [g]) (firstn 4 case_history ++ [zone_msg 7 []; Region 3 [8] [7]])). vm_compute. reflexivity.
Qed.

(** A region told again with a zone that is not known keeps its old graph. *)
Theorem C56_stale_region_refuted : forall {P G : Type} (make : list (zone P) -> option G) h i ins outs g j,
  region_graph make h i g -> In j (ins ++ outs) -> (forall z, ~ latest (says_zone j) h z) ->
  region_graph make (h ++ [Region i ins outs]) i g.
Proof.
  intros P G make h i ins outs g j RG IJ N. apply region_graph_snoc. right. split; [|exact RG].
  intros ins' outs' E g' (zs & l & F & _). injection E as <- <-. revert IJ. clear - F N.
  induction F as [|a z l1 l2 H F IH]; intros IJ; [destruct IJ|]. destruct IJ as [->|IJ]; [exact (N z H)|auto].
Qed.

(** Of two zones whose ids differ by 2^32 only one counts. *)
Theorem C56_zone_lost_refuted :
  exists zs l : list (zone Z), NoDup (map z_id zs) /\ (forall z, In z zs -> z_points z <> []) /\ count zs [] l /\ List.length l <> List.length zs.
Proof.
  exists [{| z_id := 7; z_in := true; z_points := [1]; z_pad := 1 |}; {| z_id := 4294967303; z_in := false; z_points := [2]; z_pad := 1 |}].
  eexists. split; [|split; [|split; [apply count_fold; vm_compute; reflexivity|vm_compute; discriminate]]].
  - repeat constructor; cbn; intuition discriminate.
  - intros z [<-|[<-|[]]]; discriminate.
Qed.

Print Assumptions C56_answered.
Print Assumptions C56_silent.
Print Assumptions C56_all_zones.
Print Assumptions C56_zone_update_refuted.
Print Assumptions C56_stale_region_refuted.
Print Assumptions C56_zone_lost_refuted.

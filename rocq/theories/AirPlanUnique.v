(** The specification fixes the polygons; settled regions. *)
From Coq Require Import List ZArith QArith Bool Lia.
From Verif Require Import ZMap Run Latest AirPlanModel AirPlanSpec AirPlanBuild AirPlanProofs AirPlanEnv.
Import ListNotations.
Open Scope list_scope.
Open Scope Z_scope.

Section Unique.
  Context {B : Type} (outline : B -> option poly) (merge : list (poly * Z) -> option (list poly)) (trim : poly -> poly)
          (fits : list poly -> bool) (same : zone B -> zone B -> bool).
  Notation made := (made outline merge trim fits).
  Notation makes := (makes outline merge trim fits).
  Notation occasion := (occasion same).
  Notation environment := (environment outline merge trim fits same).

  Lemma outlines_ext : forall (k k' : Z -> option (zone B)) v pad ids l, (forall i, In i ids -> k i = k' i) ->
    outlines outline k v pad ids l -> outlines outline k' v pad ids l.
  Proof.
    intros k k' v pad ids l H O. induction O.
    - constructor.
    - apply unknown_zone; [rewrite <- H; [assumption|left; reflexivity]|apply IHO; intros; apply H; right; assumption].
    - eapply other_zone; [rewrite <- H; [eassumption|left; reflexivity]|assumption|apply IHO; intros; apply H; right; assumption].
    - eapply counted_zone; [rewrite <- H; [eassumption|left; reflexivity]|assumption|eassumption|assumption|
        apply IHO; intros; apply H; right; assumption].
  Qed.
  Lemma makes_ext : forall (ki ki' ko ko' : Z -> option (zone B)) g v w l,
    (forall i, In i (g_ins g) -> ki i = ki' i) -> (forall i, In i (g_outs g) -> ko i = ko' i) ->
    makes ki ko g v w l -> makes ki' ko' g v w l.
  Proof.
    intros ki ki' ko ko' g v w l HI HO (a & gr & hs & s & s' & r & A & R). destruct R as (R1 & R2 & R3 & R).
    exists a, gr, hs, s, s', r. split; [eapply outlines_ext; eauto|]. split; [exact R1|]. split; [exact R2|].
    split; [eapply outlines_ext; eauto|exact R].
  Qed.

  (** The zones of a history as a table. *)
  Fixpoint table (says : ev B -> option (Z * zone B)) (h : list (ev B)) : zmap (zone B) :=
    match h with
    | [] => []
    | e :: h' => match says e with
                 | Some (z, x) => if zhas (table says h') z then table says h' else zset (table says h') z x
                 | None => table says h'
                 end
    end.
  Definition ins_of (e : ev B) : option (Z * zone B) := match e with KeepIn z x => Some (z, x) | _ => None end.
  Definition outs_of (e : ev B) : option (Z * zone B) := match e with KeepOut z x => Some (z, x) | _ => None end.
  Lemma follow_cons : forall (A : Type) (says : ev B -> option A) e h,
    follow says (e :: h) = match follow says h with Some x => Some x | None => says e end.
  Proof.
    intros A says e h. induction h as [|x h IH] using rev_ind; [cbn; destruct (says e); reflexivity|].
    rewrite app_comm_cons, !follow_snoc, IH. destruct (says x); reflexivity.
  Qed.
  Lemma table_in : forall h z, zget (table ins_of h) z = follow (says_in z) h.
  Proof.
    induction h as [|e h IH]; intros z; [reflexivity|]. rewrite follow_cons, <- IH. cbn [table].
    destruct e as [| | |y x| | | |]; cbn [ins_of says_in]; try (destruct (zget (table ins_of h) z); reflexivity).
    unfold zhas. destruct (zget (table ins_of h) y) eqn:E.
    - destruct (zget (table ins_of h) z) eqn:F; [reflexivity|]. destruct (y =? z) eqn:G; [|reflexivity]. apply Z.eqb_eq in G. congruence.
    - rewrite zget_set, (Z.eqb_sym z y). destruct (y =? z) eqn:G; [apply Z.eqb_eq in G; subst; rewrite E; reflexivity|].
      destruct (zget (table ins_of h) z); reflexivity.
  Qed.
  Lemma table_out : forall h z, zget (table outs_of h) z = follow (says_out z) h.
  Proof.
    induction h as [|e h IH]; intros z; [reflexivity|]. rewrite follow_cons, <- IH. cbn [table].
    destruct e as [| | | |y x| | |]; cbn [outs_of says_out]; try (destruct (zget (table outs_of h) z); reflexivity).
    unfold zhas. destruct (zget (table outs_of h) y) eqn:E.
    - destruct (zget (table outs_of h) z) eqn:F; [reflexivity|]. destruct (y =? z) eqn:G; [|reflexivity]. apply Z.eqb_eq in G. congruence.
    - rewrite zget_set, (Z.eqb_sym z y). destruct (y =? z) eqn:G; [apply Z.eqb_eq in G; subst; rewrite E; reflexivity|].
      destruct (zget (table outs_of h) z); reflexivity.
  Qed.
  Lemma told_in : forall h k, told says_in h k -> forall z, k z = zget (table ins_of h) z.
  Proof.
    intros h k T z. rewrite table_in. specialize (T z). destruct (k z) as [x|]; symmetry; [apply follow_latest, T|apply follow_unsaid, T].
  Qed.
  Lemma told_out : forall h k, told says_out h k -> forall z, k z = zget (table outs_of h) z.
  Proof.
    intros h k T z. rewrite table_out. specialize (T z). destruct (k z) as [x|]; symmetry; [apply follow_latest, T|apply follow_unsaid, T].
  Qed.
  Lemma told_tables : forall h, told says_in h (zget (table ins_of h)) /\ told says_out h (zget (table outs_of h)).
  Proof.
    intros h. split; intros z.
    - rewrite table_in. destruct (follow (says_in z) h) eqn:E; [apply follow_latest, E|apply follow_unsaid, E].
    - rewrite table_out. destruct (follow (says_out z) h) eqn:E; [apply follow_latest, E|apply follow_unsaid, E].
  Qed.

  Lemma made_eq : forall h g v w m,
    made h g v w m <-> m = build outline merge trim fits (table ins_of h) (table outs_of h) g v w.
  Proof.
    intros h g v w m. split.
    - intros (ki & ko & TI & TO & M).
      assert (X : forall l, makes ki ko g v w l <-> build outline merge trim fits (table ins_of h) (table outs_of h) g v w = Some l).
      { intros l. rewrite <- build_makes. split; intros Y; eapply makes_ext; try exact Y; intros i _;
          rewrite ?(told_in _ _ TI), ?(told_out _ _ TO); reflexivity. }
      destruct m as [l|]; [apply X in M; auto|].
      destruct (build outline merge trim fits (table ins_of h) (table outs_of h) g v w) as [l|] eqn:E; [|reflexivity].
      exfalso. apply (M l), X. reflexivity.
    - intros ->. exists (zget (table ins_of h)), (zget (table outs_of h)). destruct (told_tables h) as (TI & TO).
      split; [exact TI|]. split; [exact TO|].
      destruct (build outline merge trim fits (table ins_of h) (table outs_of h) g v w) as [l|] eqn:E.
      + apply build_makes. exact E.
      + intros l M. apply build_makes in M. congruence.
  Qed.

  Lemma earliest_fun : forall (A : Type) (says : ev B -> option A) h x y, earliest says h x -> earliest says h y -> x = y.
  Proof. intros A says h x y E F. apply keep_earliest in E. apply keep_earliest in F. congruence. Qed.
  Lemma latest_fun : forall (A : Type) (says : ev B -> option A) h x y, latest says h x -> latest says h y -> x = y.
  Proof. intros A says h x y E F. apply follow_latest in E. apply follow_latest in F. congruence. Qed.
  Lemma water_fun : forall (h : list (ev B)) v w w', water_area h v w -> water_area h v w' -> w = w'.
  Proof.
    intros h v [b|] [b'|]; cbn; auto.
    - intros (c & a & L & K & W) (c' & a' & L' & K' & W'). pose proof (latest_fun _ _ _ _ _ L L'). subst c'.
      assert (a = a') by congruence. subst a'. f_equal. eapply latest_fun; eauto.
    - intros (c & a & L & K & W) N. exfalso. eapply N; eauto.
    - intros N (c & a & L & K & W). exfalso. eapply N; eauto.
  Qed.
  Lemma zero_fun : forall (h : list (ev B)) r g g', region_or_zero h r g -> region_or_zero h r g' -> g = g'.
  Proof.
    intros h r g g' [E|(-> & U & ->)] [E'|(Z0 & U' & E')]; subst; auto.
    - eapply earliest_fun; eauto.
    - apply keep_earliest in E. apply keep_unsaid in U'. congruence.
    - apply keep_earliest in E'. apply keep_unsaid in U. congruence.
  Qed.

  Ltac inj := repeat match goal with
    | H : State _ _ _ = State _ _ _ |- _ => injection H; clear H; intros; subst
    | H : Conf _ _ = Conf _ _ |- _ => injection H; clear H; intros; subst
    | H : Water _ _ = Water _ _ |- _ => injection H; clear H; intros; subst
    | H : KeepIn _ _ = KeepIn _ _ |- _ => injection H; clear H; intros; subst
    | H : KeepOut _ _ = KeepOut _ _ |- _ => injection H; clear H; intros; subst
    | H : Region _ _ = Region _ _ |- _ => injection H; clear H; intros; subst
    end.

  Lemma occasion_fun : forall h e r v b g w b' g' w',
    occasion h e r v b g w -> occasion h e r v b' g' w' -> b = b' /\ g = g' /\ w = w'.
  Proof.
    intros h e r v b g w b' g' w' O O'.
    inversion O; subst; inversion O'; subst; try discriminate; inj; try congruence;
      (split; [reflexivity|]); split; eauto using earliest_fun, water_fun, zero_fun.
    assert (a0 = a) by congruence. subst a0. destruct w as [x|], w' as [y|]; auto.
    - f_equal. eapply latest_fun; eauto.
    - match goal with H : latest _ _ _ |- _ => apply follow_latest in H end.
      match goal with H : unsaid (says_water _) _ |- _ => apply follow_unsaid in H end. congruence.
    - match goal with H : latest _ _ _ |- _ => apply follow_latest in H end.
      match goal with H : unsaid (says_water _) _ |- _ => apply follow_unsaid in H end. congruence.
  Qed.

  Lemma environment_fun : forall r v h m m', environment r v h m -> environment r v h m' -> m = m'.
  Proof.
    intros r v h m m' E. revert m'.
    induction E as [|h e g w m m0 O M E IH|h e g w l m0 O M E IH|h e g w m0 O M E IH|h e m0 N E IH]; intros m' E'.
    - inversion E'; auto; match goal with H : _ ++ [_] = [] |- _ => destruct (app_cons_not_nil _ _ _ (eq_sym H)) end.
    - inversion E' as [X|h' e' g' w' m1 m2 O' M' E2 X|h' e' g' w' l' m2 O' M' E2 X|h' e' g' w' m2 O' M' E2 X|h' e' m2 N' E2 X];
        try (destruct (app_cons_not_nil _ _ _ X)); apply app_inj_tail in X; destruct X as (-> & ->); subst;
        try (destruct (N' _ _ _ O)); destruct (occasion_fun _ _ _ _ _ _ _ _ _ _ O O') as (X & -> & ->); try discriminate.
      apply made_eq in M. apply made_eq in M'. congruence.
    - inversion E' as [X|h' e' g' w' m1 m2 O' M' E2 X|h' e' g' w' l' m2 O' M' E2 X|h' e' g' w' m2 O' M' E2 X|h' e' m2 N' E2 X];
        try (destruct (app_cons_not_nil _ _ _ X)); apply app_inj_tail in X; destruct X as (-> & ->); subst;
        try (destruct (N' _ _ _ O)); destruct (occasion_fun _ _ _ _ _ _ _ _ _ _ O O') as (X & -> & ->); try discriminate;
        apply made_eq in M; apply made_eq in M'; congruence.
    - inversion E' as [X|h' e' g' w' m1 m2 O' M' E2 X|h' e' g' w' l' m2 O' M' E2 X|h' e' g' w' m2 O' M' E2 X|h' e' m2 N' E2 X];
        try (destruct (app_cons_not_nil _ _ _ X)); apply app_inj_tail in X; destruct X as (-> & ->); subst;
        try (destruct (N' _ _ _ O)); destruct (occasion_fun _ _ _ _ _ _ _ _ _ _ O O') as (X & -> & ->); try discriminate;
        [apply made_eq in M; apply made_eq in M'; congruence|apply IH; exact E2].
    - inversion E' as [X|h' e' g' w' m1 m2 O' M' E2 X|h' e' g' w' l' m2 O' M' E2 X|h' e' g' w' m2 O' M' E2 X|h' e' m2 N' E2 X];
        try (destruct (app_cons_not_nil _ _ _ X)); apply app_inj_tail in X; destruct X as (-> & ->); subst;
        try (destruct (N _ _ _ O')). apply IH. exact E2.
  Qed.
End Unique.

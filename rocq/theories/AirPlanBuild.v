(** The polygons made by the model are those of the specification. *)
From Coq Require Import List ZArith Bool Lia.
From Verif Require Import ZMap AirPlanModel AirPlanSpec.
Import ListNotations.
Open Scope list_scope.
Open Scope Z_scope.

(** Areas. *)

Lemma chain_app : forall l a b c, chain a (l ++ [b]) c = chain a l b + cross b c.
Proof. induction l as [|x l IH]; intros a b c; cbn; [reflexivity|]. rewrite IH. lia. Qed.
Lemma area_turn : forall a l, area (l ++ [a]) = area (a :: l).
Proof. intros a [|b l]; [reflexivity|]. cbn. rewrite chain_app. cbn. lia. Qed.
Lemma area_rot : forall l1 l2, area (l1 ++ l2) = area (l2 ++ l1).
Proof.
  induction l1 as [|a l1 IH]; intros l2; [rewrite app_nil_r; reflexivity|].
  cbn [app]. rewrite <- area_turn, <- app_assoc, IH, <- app_assoc. reflexivity.
Qed.
Lemma cross_swap : forall a b, cross a b = - cross b a.
Proof. intros a b. unfold cross. lia. Qed.
Lemma chain_rev : forall l a b, chain a l b = - chain b (rev l) a.
Proof.
  induction l as [|x l IH]; intros a b; cbn [chain rev]; [apply cross_swap|].
  rewrite chain_app, IH, (cross_swap x a). lia.
Qed.
Lemma area_rev : forall p, area (rev p) = - area p.
Proof. intros [|a l]; [reflexivity|]. cbn [rev]. rewrite area_turn. cbn. rewrite (chain_rev l a a). lia. Qed.

(** Standard form. *)

Lemma before_less : forall a b, before a b = true <-> less a b.
Proof.
  intros a b. unfold before, less. rewrite orb_true_iff, andb_true_iff, !Z.ltb_lt, Z.eqb_eq. tauto.
Qed.
Lemma peqb_eq : forall a b, peqb a b = true <-> a = b.
Proof.
  intros (x, y) (z, w). unfold peqb. cbn. rewrite andb_true_iff, !Z.eqb_eq. split; [intros (-> & ->); reflexivity|].
  intros E; injection E; auto.
Qed.
Lemma less_trans : forall a b c, less a b -> less b c -> less a c.
Proof. unfold less. intros. lia. Qed.
Lemma nless_trans : forall a b c, ~ less b a -> ~ less c b -> ~ less c a.
Proof. unfold less. intros. lia. Qed.
Lemma less_nless : forall a b c, less a b -> ~ less c b -> less a c.
Proof. unfold less. intros. lia. Qed.

(** The least point of [p] and [m]: the first one. *)
Lemma least_spec : forall p m l0, (forall b, In b l0 -> ~ less b m) ->
  (least p m = m /\ forall b, In b p -> ~ less b m)
  \/ exists l1 l2, p = l1 ++ least p m :: l2 /\ (forall b, In b l1 -> less (least p m) b) /\ less (least p m) m
       /\ forall b, In b l2 -> ~ less b (least p m).
Proof.
  induction p as [|a p IH]; intros m l0 H0; [left; split; [reflexivity|intros ? []]|].
  cbn [least]. destruct (before a m) eqn:E.
  - apply before_less in E. destruct (IH a [] (fun b (F : In b []) => match F with end)) as [(R & N)|(l1 & l2 & R & L & M & N)].
    + right. exists [], p. rewrite R. cbn. split; [reflexivity|]. split; [intros ? []|]. split; [exact E|exact N].
    + right. exists (a :: l1), l2. split; [cbn; congruence|].
      split; [intros b [<-|I]; [exact M|apply L, I]|]. split; [eapply less_trans; eauto|exact N].
  - assert (E' : ~ less a m) by (intros F; apply before_less in F; congruence).
    destruct (IH m [] (fun b (F : In b []) => match F with end)) as [(R & N)|(l1 & l2 & R & L & M & N)].
    + left. split; [exact R|]. intros b [<-|I]; [exact E'|apply N, I].
    + right. exists (a :: l1), l2. split; [cbn; congruence|].
      split; [|split; [exact M|exact N]]. intros b [<-|I]; [|apply L, I]. eapply less_nless; eauto.
Qed.

Lemma turn_to_spec : forall l1 m l2 f, (forall b, In b l1 -> b <> m) -> (length l1 < f)%nat ->
  turn_to f m (l1 ++ m :: l2) = m :: l2 ++ l1.
Proof.
  induction l1 as [|a l1 IH]; intros m l2 f N F.
  - destruct f as [|f]; [cbn in F; lia|]. cbn [app turn_to]. rewrite (proj2 (peqb_eq m m) eq_refl), app_nil_r. reflexivity.
  - destruct f as [|f]; [cbn in F; lia|]. cbn [app turn_to].
    destruct (peqb a m) eqn:E; [apply peqb_eq in E; subst; exfalso; exact (N m (or_introl eq_refl) eq_refl)|].
    rewrite <- app_assoc. cbn [app]. rewrite IH; [rewrite <- app_assoc; reflexivity| |cbn in F; lia].
    intros b I. apply N. right. exact I.
Qed.

Lemma standard_begun : forall p, begun p (standard p).
Proof.
  intros [|a p]; [left; auto|]. right. unfold standard.
  destruct (least_spec (a :: p) a [] (fun b (F : In b []) => match F with end)) as [(R & N)|(l1 & l2 & R & L & M & N)].
  - exists [], a, p. rewrite R. split; [reflexivity|]. cbn [length turn_to].
    rewrite (proj2 (peqb_eq a a) eq_refl), app_nil_r. split; [reflexivity|]. split; [intros ? []|].
    intros b I. apply N. right. exact I.
  - set (m := least (a :: p) a) in *. exists l1, m, l2. split; [exact R|].
    split; [|split; [exact L|exact N]]. rewrite R at 2. apply turn_to_spec.
    + intros b I ->. specialize (L _ I). unfold less in L. lia.
    + rewrite R, app_length. cbn. lia.
Qed.

Lemma begun_unique : forall p q q', begun p q -> begun p q' -> q = q'.
Proof.
  intros p q q' [(-> & ->)|(l1 & a & l2 & -> & -> & L & N)] [(E & ->)|(l1' & a' & l2' & E & -> & L' & N')].
  - reflexivity.
  - destruct l1'; discriminate.
  - destruct l1; discriminate.
  - assert (K : l1 = l1' /\ a = a' /\ l2 = l2').
    { revert l1' E L L'. induction l1 as [|b l1 IH]; intros l1' E L L'.
      - destruct l1' as [|b' l1']; cbn in E; injection E as -> E; [auto|].
        exfalso. specialize (L' b' (or_introl eq_refl)). apply (N a'); [rewrite E; apply in_or_app; right; left; reflexivity|exact L'].
      - destruct l1' as [|b' l1']; cbn in E.
        + injection E as -> E. exfalso. specialize (L a' (or_introl eq_refl)).
          apply (N' a); [rewrite <- E; apply in_or_app; right; left; reflexivity|exact L].
        + injection E as -> E. destruct (IH _ E) as (-> & -> & ->); auto.
          * intros x I. apply L. right. exact I.
          * intros x I. apply L'. right. exact I. }
    destruct K as (-> & -> & ->). reflexivity.
Qed.

Lemma begun_area : forall p q, begun p q -> area q = area p.
Proof.
  intros p q [(-> & ->)|(l1 & a & l2 & -> & -> & _)]; [reflexivity|].
  change (a :: l2 ++ l1) with ((a :: l2) ++ l1). apply area_rot.
Qed.

Section Build.
  Context {B : Type} (outline : B -> option poly) (merge : list (poly * Z) -> option (list poly)) (trim : poly -> poly)
          (fits : list poly -> bool).

  Lemma hole_run : forall p q, run_as trim (-1) p q <-> hole trim p = q.
  Proof.
    intros p q. unfold run_as, hole. cbv zeta. destruct (0 <? area (trim p)) eqn:E.
    - apply Z.ltb_lt in E. split.
      + intros [(F & _)|(_ & G)]; [lia|]. eapply begun_unique; [apply standard_begun|exact G].
      + intros <-. right. split; [lia|apply standard_begun].
    - apply Z.ltb_ge in E. split.
      + intros [(_ & G)|(F & _)]; [|lia]. eapply begun_unique; [apply standard_begun|exact G].
      + intros <-. left. split; [lia|apply standard_begun].
  Qed.
  Lemma rim_run : forall p q, run_as trim 1 p q <-> rim trim p = q.
  Proof.
    intros p q. unfold run_as, rim. cbv zeta. destruct (area (trim p) <? 0) eqn:E.
    - apply Z.ltb_lt in E. split.
      + intros [(F & _)|(_ & G)]; [lia|]. eapply begun_unique; [apply standard_begun|exact G].
      + intros <-. right. split; [lia|apply standard_begun].
    - apply Z.ltb_ge in E. split.
      + intros [(_ & G)|(F & _)]; [|lia]. eapply begun_unique; [apply standard_begun|exact G].
      + intros <-. left. split; [lia|apply standard_begun].
  Qed.
  Lemma Forall2_map : forall (R : poly -> poly -> Prop) (f : poly -> poly), (forall p q, R p q <-> f p = q) ->
    forall l m, Forall2 R l m <-> m = map f l.
  Proof.
    intros R f H l. induction l as [|p l IH]; intros m; split.
    - intros F. inversion F. reflexivity.
    - intros ->. constructor.
    - intros F. inversion F as [|a b c d X Y]; subst. apply H in X. apply IH in Y. cbn. congruence.
    - intros ->. cbn. constructor; [apply H; reflexivity|apply IH; reflexivity].
  Qed.

  Lemma ccw_eq : forall p q, ccw p q <-> q = (if area p <? 0 then rev p else p).
  Proof.
    intros p q. unfold ccw. destruct (area p <? 0) eqn:E; [apply Z.ltb_lt in E|apply Z.ltb_ge in E]; split.
    - intros [(_ & F)|(-> & _)]; [lia|reflexivity].
    - auto.
    - intros [(-> & _)|(_ & F)]; [reflexivity|lia].
    - auto.
  Qed.

  Lemma applies_affects : forall v (z : zone B), applies v z = true <-> affects z v.
  Proof.
    intros v z. unfold applies, affects. rewrite orb_true_iff, existsb_exists. split.
    - intros [(x & I & E)|E]; [apply Z.eqb_eq in E; subst; auto|]. destruct (z_for z); [auto|discriminate].
    - intros [E|I]; [rewrite E; auto|left; exists v; split; [exact I|apply Z.eqb_refl]].
  Qed.

  Lemma listed_outlines : forall (zs : zmap (zone B)) v clip pad, (forall d, clip d = pad d) ->
    forall ids l, outlines outline (zget zs) v pad ids l <-> listed outline zs v clip ids = l.
  Proof.
    intros zs v clip pad EP. induction ids as [|i ids IH]; intros l; split.
    - intros O. inversion O. reflexivity.
    - cbn. intros <-. constructor.
    - cbn. intros O. inversion O as [|j js m K O'|j z js m K N O'|j z p q js m K A P C O']; subst; rewrite K.
      + apply IH. exact O'.
      + apply IH in O'. destruct (applies v z) eqn:A; [|exact O'].
        destruct N as [N|N]; [exfalso; apply N, applies_affects, A|rewrite N; exact O'].
      + rewrite (proj2 (applies_affects v z) A), P. apply IH in O'. apply ccw_eq in C. rewrite EP, O', C. reflexivity.
    - cbn. destruct (zget zs i) as [z|] eqn:K.
      + destruct (applies v z) eqn:A.
        * destruct (outline (z_bound z)) as [p|] eqn:P; intros <-.
          -- rewrite EP. eapply counted_zone; eauto; [apply applies_affects, A|apply ccw_eq; reflexivity|apply IH; reflexivity].
          -- eapply other_zone; eauto. apply IH. reflexivity.
        * intros <-. eapply other_zone; eauto; [|apply IH; reflexivity].
          left. intros F. apply applies_affects in F. congruence.
      + intros <-. eapply unknown_zone; eauto. apply IH. reflexivity.
  Qed.

  Lemma agree_cons : forall p d l,
    agree ((p, d) :: l) <-> (forall q d', In (q, d') l -> (0 < d -> 0 < d') /\ (d < 0 -> d' < 0)) /\ agree l.
  Proof.
    intros p d l. split.
    - intros A. split.
      + intros q d' I. apply in_split in I. destruct I as (l1 & l2 & ->). apply (A [] p d l1 q d' l2). reflexivity.
      + intros l1 p1 d1 l2 q d' l3 ->. apply (A ((p, d) :: l1) p1 d1 l2 q d' l3). reflexivity.
    - intros (H & A) [|x l1] p1 d1 l2 q d' l3 E; cbn in E.
      + injection E as -> -> E. apply (H q d'). rewrite E. apply in_or_app. right. left. reflexivity.
      + injection E as _ E. eapply A. exact E.
  Qed.
  Lemma signs_agree : forall l p d, signs (Z.sgn d) (map snd l) = true <-> agree ((p, d) :: l).
  Proof.
    induction l as [|(q, e) l IH]; intros p d.
    - split; [|reflexivity]. intros _ [|x [|y l1]] p1 d1 l2 q d' l3 E; cbn in E; try discriminate;
        injection E as _ _ E; destruct l2; discriminate.
    - cbn [map snd signs]. rewrite agree_cons. destruct (Z.sgn d =? 0) eqn:D.
      + apply Z.eqb_eq in D. rewrite (IH q e). split; [|tauto]. intros A. split; [|exact A]. intros. lia.
      + apply Z.eqb_neq in D. rewrite andb_true_iff, Z.eqb_eq. split.
        * intros (E & S). rewrite <- E in S. apply (IH q) in S. split; [|exact S].
          apply agree_cons in S. destruct S as (S & _). intros q' d' [X|I]; [injection X as <- <-; lia|].
          specialize (S q' d' I). lia.
        * intros (H & A). assert (E : Z.sgn e = Z.sgn d) by (specialize (H q e (or_introl eq_refl)); lia).
          split; [exact E|]. rewrite <- E. apply (IH q). exact A.
  Qed.
  Lemma offset_shifted : forall l m, shifted merge l m <-> offset merge l = Some m.
  Proof.
    intros [|(p, d) l] m; unfold shifted, offset.
    - split; [intros [(_ & ->)|(F & _)]; [reflexivity|congruence]|]. intros E. injection E as <-. auto.
    - rewrite <- signs_agree. split.
      + intros [(F & _)|(_ & -> & E)]; [discriminate|exact E].
      + destruct (signs (Z.sgn d) (map snd l)); [|discriminate]. intros E. right. split; [discriminate|auto].
  Qed.

  (** The greatest. *)
  Lemma largest_spec : forall l m, (largest m l = m /\ forall x, In x l -> Z.abs (area x) <= Z.abs (area m))
    \/ exists l1 l2, l = l1 ++ largest m l :: l2 /\ Z.abs (area m) < Z.abs (area (largest m l))
         /\ (forall x, In x l1 -> Z.abs (area x) < Z.abs (area (largest m l)))
         /\ (forall x, In x l2 -> Z.abs (area x) <= Z.abs (area (largest m l))).
  Proof.
    induction l as [|p l IH]; intros m; [left; split; [reflexivity|intros ? []]|]. cbn [largest].
    destruct (Z.abs (area m) <? Z.abs (area p)) eqn:E; [apply Z.ltb_lt in E|apply Z.ltb_ge in E].
    - destruct (IH p) as [(R & N)|(l1 & l2 & R & M & L & N)]; right.
      + exists [], l. rewrite R. split; [reflexivity|]. split; [exact E|]. split; [intros ? []|exact N].
      + exists (p :: l1), l2. split; [cbn; congruence|]. split; [lia|]. split; [|exact N].
        intros x [<-|I]; [lia|apply L, I].
    - destruct (IH m) as [(R & N)|(l1 & l2 & R & M & L & N)].
      + left. split; [exact R|]. intros x [<-|I]; [exact E|apply N, I].
      + right. exists (p :: l1), l2. split; [cbn; congruence|]. split; [lia|]. split; [|exact N].
        intros x [<-|I]; [lia|apply L, I].
  Qed.
  Lemma largest_split : forall m l, exists l1 l2, m :: l = l1 ++ largest m l :: l2
         /\ (forall x, In x l1 -> Z.abs (area x) < Z.abs (area (largest m l)))
         /\ (forall x, In x l2 -> Z.abs (area x) <= Z.abs (area (largest m l))).
  Proof.
    intros m l. destruct (largest_spec l m) as [(R & N)|(l1 & l2 & R & M & L & N)].
    - exists [], l. rewrite R. split; [reflexivity|]. split; [intros ? []|exact N].
    - exists (m :: l1), l2. split; [cbn; congruence|]. split; [|exact N]. intros x [<-|I]; [exact M|apply L, I].
  Qed.
  Lemma largest_unique : forall (f : poly -> Z) l l1 r l2 l1' r' l2',
    l = l1 ++ r :: l2 -> l = l1' ++ r' :: l2' ->
    (forall x, In x l1 -> f x < f r) -> (forall x, In x l2 -> f x <= f r) ->
    (forall x, In x l1' -> f x < f r') -> (forall x, In x l2' -> f x <= f r') -> r = r'.
  Proof.
    intros f l l1. revert l. induction l1 as [|a l1 IH]; intros l r l2 l1' r' l2' E E' L N L' N'; subst l.
    - destruct l1' as [|b l1']; cbn in E'; injection E' as -> E'; [reflexivity|].
      exfalso. specialize (L' b (or_introl eq_refl)). assert (I : In r' l2) by (rewrite E'; apply in_or_app; right; left; reflexivity).
      specialize (N _ I). lia.
    - destruct l1' as [|b l1']; cbn in E'.
      + injection E' as -> E'. exfalso. specialize (L r' (or_introl eq_refl)).
        assert (I : In r l2') by (rewrite <- E'; apply in_or_app; right; left; reflexivity). specialize (N' _ I). lia.
      + injection E' as -> E'. eapply (IH _ r l2 l1' r' l2' eq_refl E'); auto; intros x I.
        * apply L. right. exact I.
        * apply L'. right. exact I.
  Qed.

  (** The box. *)
  Definition wide (b : point * point) (l : list point) : Prop :=
    (forall p, In p l -> fst (fst b) <= fst p <= fst (snd b) /\ snd (fst b) <= snd p <= snd (snd b))
    /\ (exists p, In p l /\ fst p = fst (fst b)) /\ (exists p, In p l /\ fst p = fst (snd b))
    /\ (exists p, In p l /\ snd p = snd (fst b)) /\ (exists p, In p l /\ snd p = snd (snd b)).
  Lemma wide_unique : forall b b' l, wide b l -> wide b' l -> b = b'.
  Proof.
    intros ((a1, a2), (a3, a4)) ((b1, b2), (b3, b4)) l (H & (p1 & I1 & E1) & (p2 & I2 & E2) & (p3 & I3 & E3) & (p4 & I4 & E4))
      (H' & (q1 & J1 & F1) & (q2 & J2 & F2) & (q3 & J3 & F3) & (q4 & J4 & F4)). cbn in *.
    pose proof (H _ J1). pose proof (H _ J2). pose proof (H _ J3). pose proof (H _ J4).
    pose proof (H' _ I1). pose proof (H' _ I2). pose proof (H' _ I3). pose proof (H' _ I4).
    repeat f_equal; lia.
  Qed.
  Lemma wide_snoc : forall b l p, wide b l ->
    wide ((Z.min (fst (fst b)) (fst p), Z.min (snd (fst b)) (snd p)),
          (Z.max (fst (snd b)) (fst p), Z.max (snd (snd b)) (snd p))) (l ++ [p]).
  Proof.
    intros ((a1, a2), (a3, a4)) l p (H & (p1 & I1 & E1) & (p2 & I2 & E2) & (p3 & I3 & E3) & (p4 & I4 & E4)).
    cbn [fst snd] in *. unfold wide. cbn [fst snd].
    assert (IN : forall x, In x l -> In x (l ++ [p])) by (intros; apply in_or_app; auto).
    assert (IP : In p (l ++ [p])) by (apply in_or_app; right; left; reflexivity).
    split; [|split; [|split; [|split]]].
    - intros x I. apply in_app_or in I. destruct I as [I|[<-|[]]]; [specialize (H _ I)|]; lia.
    - destruct (Z.min_spec a1 (fst p)) as [(_ & ->)|(_ & ->)]; [exists p1|exists p]; auto.
    - destruct (Z.max_spec a3 (fst p)) as [(_ & ->)|(_ & ->)]; [exists p|exists p2]; auto.
    - destruct (Z.min_spec a2 (snd p)) as [(_ & ->)|(_ & ->)]; [exists p3|exists p]; auto.
    - destruct (Z.max_spec a4 (snd p)) as [(_ & ->)|(_ & ->)]; [exists p|exists p4]; auto.
  Qed.
  Lemma bounds_wide : forall l, match bounds l with Some b => wide b l | None => l = [] end.
  Proof.
    intros [|a l]; [reflexivity|]. unfold bounds. induction l as [|p l IH] using rev_ind.
    - cbn. split; [intros p [<-|[]]; cbn; lia|]. repeat split; exists a; cbn; auto.
    - rewrite fold_left_app. cbn [fold_left]. change (a :: l ++ [p]) with ((a :: l) ++ [p]). apply wide_snoc. exact IH.
  Qed.

  Lemma box_around : forall l q, around l q <-> box l = Some q.
  Proof.
    intros l q. unfold box. pose proof (bounds_wide (flat_map fst l)) as W.
    assert (C : forall p, In p (flat_map fst l) <-> exists o d, In (o, d) l /\ In p o).
    { intros p. rewrite in_flat_map. split.
      - intros ((o, d) & I & J). exists o, d. auto.
      - intros (o & d & I & J). exists (o, d). auto. }
    assert (K : forall x0 x1 y0 y1, x0 <= x1 -> y0 <= y1 ->
      (let d := 50000000 in let p := [(x1 + d, y1 + d); (x1 + d, y0 - d); (x0 - d, y0 - d); (x0 - d, y1 + d)] in
       standard (if area p <? 0 then rev p else p))
      = (let d := 50000000 in [(x0 - d, y0 - d); (x1 + d, y0 - d); (x1 + d, y1 + d); (x0 - d, y1 + d)])).
    { intros x0 x1 y0 y1 Hx Hy. cbv zeta. rewrite (proj2 (Z.ltb_lt _ _)); [|cbn; unfold cross; cbn [fst snd]; nia].
      cbn [rev app]. eapply begun_unique; [apply standard_begun|]. right.
      exists [(x0 - 50000000, y1 + 50000000)], (x0 - 50000000, y0 - 50000000),
        [(x1 + 50000000, y0 - 50000000); (x1 + 50000000, y1 + 50000000)].
      split; [reflexivity|]. split; [reflexivity|]. unfold less. split.
      - intros b [<-|[]]. cbn [fst snd]. lia.
      - intros b [<-|[<-|[]]]; cbn [fst snd]; lia. }
    destruct (bounds (flat_map fst l)) as [((x0, y0), (x1, y1))|].
    - assert (O : x0 <= x1 /\ y0 <= y1).
      { destruct W as (H & (p & I & _) & _). specialize (H p I). cbn in H. lia. }
      cbv zeta in K |- *. rewrite (K x0 x1 y0 y1) by lia. split.
      + intros (a0 & a1 & b0 & b1 & H & E1 & E2 & E3 & E4 & ->).
        assert (W' : wide ((a0, b0), (a1, b1)) (flat_map fst l)).
        { split; [|split; [|split; [|split]]]; cbn [fst snd].
          - intros p I. apply C in I. apply H. exact I.
          - destruct E1 as (p & I & E). exists p. rewrite C. auto.
          - destruct E2 as (p & I & E). exists p. rewrite C. auto.
          - destruct E3 as (p & I & E). exists p. rewrite C. auto.
          - destruct E4 as (p & I & E). exists p. rewrite C. auto. }
        pose proof (wide_unique _ _ _ W W') as E. injection E as -> -> -> ->. reflexivity.
      + intros E. injection E as <-. destruct W as (H & E1 & E2 & E3 & E4). cbn [fst snd] in *.
        exists x0, x1, y0, y1. cbv zeta.
        split; [intros p I; apply H, C, I|].
        split; [destruct E1 as (p & I & E); exists p; rewrite C in I; auto|].
        split; [destruct E2 as (p & I & E); exists p; rewrite C in I; auto|].
        split; [destruct E3 as (p & I & E); exists p; rewrite C in I; auto|].
        split; [destruct E4 as (p & I & E); exists p; rewrite C in I; auto|reflexivity].
    - split; [|discriminate]. intros (a0 & a1 & b0 & b1 & _ & (p & I & _) & _).
      apply C in I. rewrite W in I. destruct I.
  Qed.

  Lemma valid_spec : forall r hs, valid fits (r :: hs) = true <->
    fits (r :: hs) = true /\ 0 < area r /\ Forall (fun h => area h < 0) hs.
  Proof.
    intros r hs. unfold valid. rewrite !andb_true_iff, Z.ltb_lt, forallb_forall, Forall_forall.
    split; [intros ((A & C) & D)|intros (A & C & D)]; repeat split; auto; intros x I; apply Z.ltb_lt; auto.
  Qed.
  Lemma holes_invalid : forall l, valid fits (map (hole trim) l) = false.
  Proof.
    intros [|p l]; [reflexivity|]. unfold valid. cbn [map].
    assert (A : area (hole trim p) <= 0).
    { pose proof (proj2 (hole_run p _) eq_refl) as [(E & G)|(E & G)]; rewrite (begun_area _ _ G), ?area_rev; lia. }
    rewrite (proj2 (Z.ltb_ge _ _) A), andb_false_r. reflexivity.
  Qed.

  Lemma build_makes : forall (i o : zmap (zone B)) g v w l,
    makes outline merge trim fits (zget i) (zget o) g v w l <-> build outline merge trim fits i o g v w = Some l.
  Proof.
    intros i o g v w l. unfold build. cbv zeta.
    set (avoid := listed outline o v (Z.max 0) (g_outs g)).
    set (st0 := listed outline i v (Z.min 0) (g_ins g)).
    assert (HA : forall a, outlines outline (zget o) v widen (g_outs g) a <-> avoid = a).
    { intros a. apply listed_outlines. intros d. unfold widen. destruct (Z.ltb_spec d 0); lia. }
    assert (HS : forall a, outlines outline (zget i) v narrow (g_ins g) a <-> st0 = a).
    { intros a. apply listed_outlines. intros d. unfold narrow. destruct (Z.ltb_spec 0 d); lia. }
    set (stay := st0 ++ match w with
                        | Some b => match outline b with Some p => [(if area p <? 0 then rev p else p, 0)] | None => [] end
                        | None => [] end).
    assert (HW : forall s, (match w with
          | Some b => match outline b with Some p => exists q, ccw p q /\ s = st0 ++ [(q, 0)] | None => s = st0 end
          | None => s = st0 end) <-> s = stay).
    { intros s. unfold stay. destruct w as [b|]; [|rewrite app_nil_r; tauto]. destruct (outline b) as [p|]; [|rewrite app_nil_r; tauto].
      split; [intros (q & C & ->); apply ccw_eq in C; rewrite C; reflexivity|]. intros ->. eexists. split; [apply ccw_eq; reflexivity|reflexivity]. }
    split.
    - intros (avoid' & grown & holes & stay' & st' & r & A & G & H & S & W & R & -> & F & P & N).
      apply HA in A. subst avoid'. apply HS in S. subst st'. apply HW in W. subst stay'.
      apply offset_shifted in G. rewrite G. apply (Forall2_map _ _ hole_run) in H. subst holes.
      assert (E : match offset merge stay with
                  | Some (p :: ps) => Some (largest (rim trim p) (map (rim trim) ps))
                  | _ => match g_ins g with [] => box avoid | _ => None end
                  end = Some r).
      { destruct R as [(m & rs & l1 & l2 & M & Q & E & L & K)|(M & Z0 & X)].
        - apply offset_shifted in M. rewrite M. apply (Forall2_map _ _ rim_run) in Q. subst rs.
          destruct m as [|p ps]; [destruct l1; discriminate|]. cbn [map] in E.
          destruct (largest_split (rim trim p) (map (rim trim) ps)) as (l1' & l2' & E' & L' & K').
          f_equal. eapply (largest_unique (fun x => Z.abs (area x)) _ l1' _ l2' l1 r l2 E' E); auto.
        - apply box_around in X. destruct (offset merge stay) as [[|p ps]|] eqn:O.
          + rewrite Z0. exact X.
          + exfalso. apply offset_shifted in O. specialize (M _ O). discriminate.
          + rewrite Z0. exact X. }
      rewrite E. rewrite (proj2 (valid_spec r _)); auto.
    - destruct (offset merge avoid) as [grown|] eqn:G; [|discriminate].
      set (outer := match offset merge stay with
                  | Some (p :: ps) => Some (largest (rim trim p) (map (rim trim) ps))
                  | _ => match g_ins g with [] => box avoid | _ => None end
                  end).
      destruct outer as [r|] eqn:O; [|rewrite holes_invalid; discriminate].
      destruct (valid fits (r :: map (hole trim) grown)) eqn:V; [|discriminate]. intros E. injection E as <-.
      apply valid_spec in V. destruct V as (F & P & N).
      exists avoid, grown, (map (hole trim) grown), stay, st0, r.
      split; [apply HA; reflexivity|]. split; [apply offset_shifted; exact G|].
      split; [apply (Forall2_map _ _ hole_run); reflexivity|]. split; [apply HS; reflexivity|].
      split; [apply HW; reflexivity|]. split; [|auto].
      unfold outer in O. destruct (offset merge stay) as [[|p ps]|] eqn:M.
      + right. split; [intros m X; apply offset_shifted in X; rewrite M in X; injection X as <-; reflexivity|].
        destruct (g_ins g); [|discriminate]. split; [reflexivity|apply box_around; exact O].
      + left. injection O as <-. destruct (largest_split (rim trim p) (map (rim trim) ps)) as (l1 & l2 & E & L & K).
        exists (p :: ps), (map (rim trim) (p :: ps)), l1, l2. split; [apply offset_shifted; exact M|].
        split; [apply (Forall2_map _ _ rim_run); reflexivity|]. auto.
      + right. split; [intros m X; apply offset_shifted in X; rewrite M in X; discriminate|].
        destruct (g_ins g); [|discriminate]. split; [reflexivity|apply box_around; exact O].
  Qed.
End Build.

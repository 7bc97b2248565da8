(** Lemmas about the next actions of task relationship expressions. *)
From Coq Require Import List Arith ZArith Bool Lia Permutation.
From Verif Require Import AlgebraModel AlgebraSpec.
Import ListNotations.
Open Scope list_scope.

Definition pre (L : list Z -> Prop) (h : list Z) : Prop := exists k, L (h ++ k).
Definition disj (A B : list Z) : Prop := forall x, In x A -> In x B -> False.

(** What the proof needs of the action part of a result ... *)
Record goodN (L : list Z -> Prop) (A : list Z) (n : list Z -> list Z) : Prop := {
  gn_incl : forall t, L t -> incl t A;
  gn_ex : exists t, L t;
  gn_ext : forall h h', (forall a, In a A -> (In a h <-> In a h')) -> n h = n h';
  gn_done : forall h, pre L h -> (n h = [] <-> L h);
  gn_next : forall h a, pre L h -> (In a (n h) <-> pre L (h ++ [a])) }.

(** ... and of the flag. *)
Record goodE (L : list Z -> Prop) (A : list Z) (e : list Z -> bool) : Prop := {
  ge_ext : forall h h', (forall a, In a A -> (In a h <-> In a h')) -> e h = e h';
  ge_flag : forall h, pre L h -> (e h = true <-> h <> []) }.

Lemma pre_of L h k : pre L (h ++ k) -> pre L h.
Proof. intros (r & H). exists (k ++ r). rewrite app_assoc. auto. Qed.

Lemma pre_self (L : list Z -> Prop) h : L h -> pre L h.
Proof. intros H. exists []. rewrite app_nil_r. auto. Qed.

Lemma pre_incl L A n h : goodN L A n -> pre L h -> incl h A.
Proof.
  intros G (k & H) x I. apply (gn_incl _ _ _ G _ H). apply in_or_app. auto.
Qed.

Lemma pre_nil L A n : goodN L A n -> pre L [].
Proof. intros G. destruct (gn_ex _ _ _ G) as (t & H). exists t. auto. Qed.

Lemma done_dec L A n h : goodN L A n -> pre L h -> L h \/ (n h <> [] /\ ~ L h).
Proof.
  intros G P. destruct (n h) eqn:N.
  - left. apply (gn_done _ _ _ G); auto.
  - right. split; [discriminate|]. intros H. apply (gn_done _ _ _ G h P) in H. congruence.
Qed.

(** A complete trace cannot be continued. *)
Lemma done_stop L A n h k : goodN L A n -> L h -> pre L (h ++ k) -> k = [].
Proof.
  intros G H P. destruct k as [|a k]; auto. exfalso.
  assert (P' : pre L (h ++ [a])).
  { apply pre_of with (k := k). rewrite <- app_assoc. auto. }
  apply (gn_next _ _ _ G) in P'; [|apply pre_self; auto].
  apply (gn_done _ _ _ G) in H; [|apply pre_self; auto]. rewrite H in P'. destruct P'.
Qed.

Lemma split_unique A1 A2 (x1 x2 y1 y2 : list Z) :
  disj A1 A2 -> incl x1 A1 -> incl y1 A1 -> incl x2 A2 -> incl y2 A2 ->
  x1 ++ x2 = y1 ++ y2 -> x1 = y1 /\ x2 = y2.
Proof.
  intros D. revert y1. induction x1 as [|a x1 IH]; intros [|b y1] I1 J1 I2 J2 E.
  - auto.
  - exfalso. cbn in E. subst x2. apply (D b); [apply J1; left; auto|apply I2; left; auto].
  - exfalso. cbn in E. subst y2. apply (D a); [apply I1; left; auto|apply J2; left; auto].
  - injection E as -> E. destruct (IH y1) as (-> & ->); auto.
    + intros z Z. apply I1. right. auto.
    + intros z Z. apply J1. right. auto.
Qed.

(** ** Sequential composition of two *)

Definition seqL (L1 L2 : list Z -> Prop) (t : list Z) : Prop :=
  exists t1 t2, t = t1 ++ t2 /\ L1 t1 /\ L2 t2.

Lemma pre_seq L1 L2 A2 n2 h :
  goodN L2 A2 n2 ->
  (pre (seqL L1 L2) h <-> pre L1 h \/ exists h1 h2, h = h1 ++ h2 /\ L1 h1 /\ pre L2 h2).
Proof.
  intros G2. split.
  - intros (k & t1 & t2 & E & H1 & H2).
    destruct (Nat.le_gt_cases (length h) (length t1)) as [L|L].
    + left. exists (skipn (length h) t1).
      assert (F : firstn (length h) (h ++ k) = firstn (length h) (t1 ++ t2)) by congruence.
      rewrite !firstn_app, firstn_all, Nat.sub_diag in F. cbn [firstn] in F.
      rewrite app_nil_r in F. replace (length h - length t1) with 0 in F by lia.
      cbn [firstn] in F. rewrite app_nil_r in F. rewrite F at 1. rewrite firstn_skipn. auto.
    + right. exists t1, (skipn (length t1) h).
      assert (F : firstn (length t1) (h ++ k) = firstn (length t1) (t1 ++ t2)) by congruence.
      rewrite !firstn_app, firstn_all, Nat.sub_diag in F. cbn [firstn] in F.
      rewrite app_nil_r in F. replace (length t1 - length h) with 0 in F by lia.
      cbn [firstn] in F. rewrite app_nil_r in F.
      assert (E' : h = t1 ++ skipn (length t1) h)
        by (rewrite <- F at 1; rewrite firstn_skipn; auto).
      split; [auto|]. split; [auto|]. exists k.
      rewrite E' in E at 1. rewrite <- app_assoc in E. apply app_inv_head in E.
      rewrite E. auto.
  - intros [(k & H)|(h1 & h2 & -> & H1 & k & H2)].
    + destruct (gn_ex _ _ _ G2) as (t2 & H2). exists (k ++ t2), (h ++ k), t2.
      rewrite app_assoc. auto.
    + exists k, h1, (h2 ++ k). rewrite <- app_assoc. auto.
Qed.

Lemma seq_good L1 A1 n1 L2 A2 n2 :
  goodN L1 A1 n1 -> goodN L2 A2 n2 -> disj A1 A2 ->
  goodN (seqL L1 L2) (A1 ++ A2) (fun h => match n1 h with [] => n2 h | r => r end).
Proof.
  intros G1 G2 D. split.
  - intros t (t1 & t2 & -> & H1 & H2) x I. apply in_or_app. apply in_app_or in I.
    destruct I as [I|I]; [left; apply (gn_incl _ _ _ G1 _ H1)|right; apply (gn_incl _ _ _ G2 _ H2)]; auto.
  - destruct (gn_ex _ _ _ G1) as (t1 & H1), (gn_ex _ _ _ G2) as (t2 & H2).
    exists (t1 ++ t2), t1, t2. auto.
  - intros h h' H.
    rewrite (gn_ext _ _ _ G1 h h'), (gn_ext _ _ _ G2 h h'); auto; intros a I; apply H;
      apply in_or_app; auto.
  - intros h P. apply (pre_seq _ _ _ _ _ G2) in P.
    assert (P' : (pre L1 h /\ ~ L1 h /\ n1 h <> []) \/
                 exists h1 h2, h = h1 ++ h2 /\ L1 h1 /\ pre L2 h2).
    { destruct P as [P|P]; auto. destruct (done_dec _ _ _ _ G1 P) as [H|(N & H)]; auto.
      right. exists h, []. rewrite app_nil_r. repeat split; auto. eapply pre_nil; eauto. }
    clear P. destruct P' as [(P & NL & NN)|(h1 & h2 & E & H1 & P2)].
    + destruct (n1 h) eqn:N; [congruence|]. split; [discriminate|].
      intros (t1 & t2 & E & H1 & H2). exfalso. apply NL.
      pose proof (pre_incl _ _ _ _ G1 P) as I1.
      destruct (split_unique A1 A2 h [] t1 t2) as (-> & _); auto.
      * apply (gn_incl _ _ _ G1 _ H1).
      * intros x [].
      * apply (gn_incl _ _ _ G2 _ H2).
      * rewrite app_nil_r. auto.
    + assert (I1 := gn_incl _ _ _ G1 _ H1). assert (I2 := pre_incl _ _ _ _ G2 P2).
      assert (X1 : n1 h = n1 h1).
      { apply (gn_ext _ _ _ G1). intros a A. rewrite E, in_app_iff. split; auto.
        intros [I|I]; auto. exfalso. apply (D a); auto. }
      assert (X2 : n2 h = n2 h2).
      { apply (gn_ext _ _ _ G2). intros a A. rewrite E, in_app_iff. split; auto.
        intros [I|I]; auto. exfalso. apply (D a); auto. }
      assert (N1 : n1 h1 = []) by (apply (gn_done _ _ _ G1); auto; apply pre_self; auto).
      rewrite X1, N1, X2. rewrite (gn_done _ _ _ G2 h2 P2). split.
      * intros H2. exists h1, h2. auto.
      * intros (t1 & t2 & E' & K1 & K2).
        destruct (split_unique A1 A2 h1 h2 t1 t2) as (-> & ->); auto; try congruence.
        -- apply (gn_incl _ _ _ G1 _ K1).
        -- apply (gn_incl _ _ _ G2 _ K2).
  - intros h a P. pose proof P as P0. apply (pre_seq _ _ _ _ _ G2) in P.
    assert (P' : (pre L1 h /\ ~ L1 h /\ n1 h <> []) \/
                 exists h1 h2, h = h1 ++ h2 /\ L1 h1 /\ pre L2 h2).
    { destruct P as [P|P]; auto. destruct (done_dec _ _ _ _ G1 P) as [H|(N & H)]; auto.
      right. exists h, []. rewrite app_nil_r. repeat split; auto. eapply pre_nil; eauto. }
    clear P. rewrite (pre_seq _ _ _ _ _ G2).
    destruct P' as [(P & NL & NN)|(h1 & h2 & E & H1 & P2)].
    + assert (X : (match n1 h with [] => n2 h | _ :: _ => n1 h end) = n1 h)
        by (destruct (n1 h); congruence).
      assert (Y : In a (match n1 h with [] => n2 h | z :: l => z :: l end) <-> In a (n1 h)).
      { destruct (n1 h); [congruence|]. tauto. }
      rewrite Y, (gn_next _ _ _ G1 h a P). split; auto.
      intros [H|(h1 & h2 & E & H1 & P2)]; auto.
      pose proof (pre_incl _ _ _ _ G1 P) as I1.
      pose proof (pre_incl _ _ _ _ G2 P2) as I2.
      destruct h2 as [|b h2'] eqn:Eh2 using rev_ind.
      * rewrite app_nil_r in E. subst. apply pre_self. auto.
      * clear IHh2'. rewrite app_assoc in E. apply app_inj_tail in E. destruct E as (E & ->).
        exfalso. apply NL.
        destruct (split_unique A1 A2 h [] h1 h2') as (-> & _); auto.
        -- apply (gn_incl _ _ _ G1 _ H1).
        -- intros x [].
        -- intros x I. apply I2, in_or_app. auto.
        -- rewrite app_nil_r. auto.
    + assert (I1 := gn_incl _ _ _ G1 _ H1). assert (I2 := pre_incl _ _ _ _ G2 P2).
      assert (X1 : n1 h = n1 h1).
      { apply (gn_ext _ _ _ G1). intros x A. rewrite E, in_app_iff. split; auto.
        intros [I|I]; auto. exfalso. apply (D x); auto. }
      assert (X2 : n2 h = n2 h2).
      { apply (gn_ext _ _ _ G2). intros x A. rewrite E, in_app_iff. split; auto.
        intros [I|I]; auto. exfalso. apply (D x); auto. }
      assert (N1 : n1 h1 = []) by (apply (gn_done _ _ _ G1); auto; apply pre_self; auto).
      rewrite X1, N1, X2. rewrite (gn_next _ _ _ G2 h2 a P2). split.
      * intros H. right. exists h1, (h2 ++ [a]). rewrite E, app_assoc. auto.
      * intros [H|(k1 & k2 & E' & K1 & K2)].
        -- exfalso. rewrite E, <- app_assoc in H. apply (done_stop _ _ _ _ _ G1 H1) in H.
           apply app_eq_nil in H. destruct H; discriminate.
        -- assert (J1 := gn_incl _ _ _ G1 _ K1). assert (J2 := pre_incl _ _ _ _ G2 K2).
           rewrite E, <- app_assoc in E'.
           destruct k2 as [|b k2'] eqn:Ek2 using rev_ind.
           ++ exfalso. rewrite app_nil_r in E'. subst k1.
              apply pre_self, (done_stop _ _ _ _ _ G1 H1) in K1.
              apply app_eq_nil in K1. destruct K1; discriminate.
           ++ clear IHk2'. rewrite !app_assoc in E'. apply app_inj_tail in E'.
              destruct E' as (E' & ->).
              destruct (split_unique A1 A2 h1 h2 k1 k2') as (-> & ->); auto.
              intros x I. apply J2, in_or_app. auto.
Qed.

(** ** Parallel composition of two *)

Definition proj (A h : list Z) : list Z := filter (fun x => existsb (Z.eqb x) A) h.

Lemma existsb_in x A : existsb (Z.eqb x) A = true <-> In x A.
Proof.
  rewrite existsb_exists. split.
  - intros (y & I & E). apply Z.eqb_eq in E. subst. auto.
  - intros I. exists x. rewrite Z.eqb_refl. auto.
Qed.

Lemma in_proj x A h : In x (proj A h) <-> In x h /\ In x A.
Proof. unfold proj. rewrite filter_In, existsb_in. tauto. Qed.

Lemma proj_app A h k : proj A (h ++ k) = proj A h ++ proj A k.
Proof. apply filter_app. Qed.

Lemma proj_all A h : incl h A -> proj A h = h.
Proof.
  induction h as [|x h IH]; intros I; auto. cbn [proj filter].
  assert (E : existsb (Z.eqb x) A = true) by (apply existsb_in, I; left; auto).
  rewrite E. f_equal. apply IH. intros y Y. apply I. right. auto.
Qed.

Lemma proj_none A h : disj A h -> proj A h = [].
Proof.
  induction h as [|x h IH]; intros D; auto. cbn [proj filter].
  destruct (existsb (Z.eqb x) A) eqn:E.
  - exfalso. apply (D x); [apply existsb_in; auto|left; auto].
  - apply IH. intros y Y1 Y2. apply (D y); auto. right. auto.
Qed.

Lemma inter_proj A1 A2 t1 t2 t :
  disj A1 A2 -> interleave t1 t2 t -> incl t1 A1 -> incl t2 A2 ->
  proj A1 t = t1 /\ proj A2 t = t2 /\ incl t (A1 ++ A2).
Proof.
  intros D H. induction H as [|a t1 t2 t H IH|a t1 t2 t H IH]; intros I1 I2.
  - repeat split; auto. intros x [].
  - assert (A : In a A1) by (apply I1; left; auto).
    destruct IH as (E1 & E2 & I); auto.
    { intros x X. apply I1. right. auto. }
    cbn [proj filter]. fold (proj A1 t) (proj A2 t). rewrite E1, E2.
    rewrite (proj2 (existsb_in a A1) A).
    destruct (existsb (Z.eqb a) A2) eqn:E; [exfalso; apply (D a); auto; apply existsb_in; auto|].
    repeat split; auto. intros x [<-|X]; [apply in_or_app; auto|apply I; auto].
  - assert (A : In a A2) by (apply I2; left; auto).
    destruct IH as (E1 & E2 & I); auto.
    { intros x X. apply I2. right. auto. }
    cbn [proj filter]. fold (proj A1 t) (proj A2 t). rewrite E1, E2.
    rewrite (proj2 (existsb_in a A2) A).
    destruct (existsb (Z.eqb a) A1) eqn:E; [exfalso; apply (D a); auto; apply existsb_in; auto|].
    repeat split; auto. intros x [<-|X]; [apply in_or_app; auto|apply I; auto].
Qed.

Lemma proj_inter A1 A2 t :
  disj A1 A2 -> incl t (A1 ++ A2) -> interleave (proj A1 t) (proj A2 t) t.
Proof.
  intros D. induction t as [|a t IH]; intros I; [constructor|].
  assert (H : interleave (proj A1 t) (proj A2 t) t).
  { apply IH. intros x X. apply I. right. auto. }
  cbn [proj filter]. fold (proj A1 t) (proj A2 t).
  assert (A := I a (or_introl eq_refl)). apply in_app_or in A.
  destruct (existsb (Z.eqb a) A1) eqn:E1, (existsb (Z.eqb a) A2) eqn:E2.
  - exfalso. apply (D a); apply existsb_in; auto.
  - constructor. auto.
  - constructor. auto.
  - exfalso. destruct A as [A|A]; apply existsb_in in A; congruence.
Qed.

Definition parL (L1 L2 : list Z -> Prop) (t : list Z) : Prop :=
  exists t1 t2, interleave t1 t2 t /\ L1 t1 /\ L2 t2.

Section par.
  Context L1 A1 n1 L2 A2 n2 (G1 : goodN L1 A1 n1) (G2 : goodN L2 A2 n2) (D : disj A1 A2).

  Lemma parL_proj t :
    parL L1 L2 t <-> incl t (A1 ++ A2) /\ L1 (proj A1 t) /\ L2 (proj A2 t).
  Proof.
    split.
    - intros (t1 & t2 & I & H1 & H2).
      destruct (inter_proj A1 A2 _ _ _ D I (gn_incl _ _ _ G1 _ H1) (gn_incl _ _ _ G2 _ H2))
        as (-> & -> & ?). auto.
    - intros (I & H1 & H2). exists (proj A1 t), (proj A2 t). split; auto.
      apply proj_inter; auto.
  Qed.

  Lemma pre_par h :
    pre (parL L1 L2) h <-> incl h (A1 ++ A2) /\ pre L1 (proj A1 h) /\ pre L2 (proj A2 h).
  Proof.
    split.
    - intros (k & H). apply parL_proj in H. destruct H as (I & H1 & H2).
      rewrite proj_app in H1, H2. split; [|split; eexists; eauto].
      intros x X. apply I, in_or_app. auto.
    - intros (I & (k1 & H1) & (k2 & H2)). exists (k1 ++ k2). apply parL_proj.
      assert (J1 := gn_incl _ _ _ G1 _ H1). assert (J2 := gn_incl _ _ _ G2 _ H2).
      assert (K1 : incl k1 A1) by (intros x X; apply J1, in_or_app; auto).
      assert (K2 : incl k2 A2) by (intros x X; apply J2, in_or_app; auto).
      rewrite !proj_app, (proj_all A1 k1), (proj_all A2 k2), (proj_none A1 k2), (proj_none A2 k1),
        app_nil_r; auto; try (intros x X Y; apply (D x); auto).
      split; auto. intros x X. apply in_app_or in X. destruct X as [X|X]; auto.
      apply in_app_or in X. apply in_or_app. destruct X; auto.
  Qed.

  Lemma ext_proj1 h : n1 h = n1 (proj A1 h).
  Proof. apply (gn_ext _ _ _ G1). intros a A. rewrite in_proj. tauto. Qed.
  Lemma ext_proj2 h : n2 h = n2 (proj A2 h).
  Proof. apply (gn_ext _ _ _ G2). intros a A. rewrite in_proj. tauto. Qed.

  Lemma proj_snoc_in A h a : In a A -> proj A (h ++ [a]) = proj A h ++ [a].
  Proof.
    intros I. rewrite proj_app. f_equal. apply proj_all. intros x [<-|[]]. auto.
  Qed.
  Lemma proj_snoc_out A h a : ~ In a A -> proj A (h ++ [a]) = proj A h.
  Proof.
    intros I. rewrite proj_app, (proj_none A [a]); [apply app_nil_r|].
    intros x X [<-|[]]. auto.
  Qed.

  Lemma par_good : goodN (parL L1 L2) (A1 ++ A2) (fun h => n1 h ++ n2 h).
  Proof.
    split.
    - intros t H. apply parL_proj in H. tauto.
    - destruct (gn_ex _ _ _ G1) as (t1 & H1), (gn_ex _ _ _ G2) as (t2 & H2).
      exists (t1 ++ t2). apply parL_proj.
      assert (J1 := gn_incl _ _ _ G1 _ H1). assert (J2 := gn_incl _ _ _ G2 _ H2).
      rewrite !proj_app, (proj_all A1 t1), (proj_all A2 t2), (proj_none A1 t2), (proj_none A2 t1),
        app_nil_r; auto; try (intros x X Y; apply (D x); auto).
      split; auto. intros x X. apply in_app_or in X. apply in_or_app. destruct X; auto.
    - intros h h' H.
      rewrite (gn_ext _ _ _ G1 h h'), (gn_ext _ _ _ G2 h h'); auto; intros a I; apply H;
        apply in_or_app; auto.
    - intros h P. apply pre_par in P. destruct P as (I & P1 & P2).
      rewrite ext_proj1, ext_proj2, parL_proj.
      rewrite <- (gn_done _ _ _ G1 _ P1), <- (gn_done _ _ _ G2 _ P2).
      split; [|intros (_ & -> & ->); auto].
      intros H. apply app_eq_nil in H. tauto.
    - intros h a P. apply pre_par in P. destruct P as (I & P1 & P2).
      rewrite ext_proj1, ext_proj2, in_app_iff, pre_par.
      rewrite (gn_next _ _ _ G1 _ a P1), (gn_next _ _ _ G2 _ a P2).
      split.
      + intros [H|H].
        * assert (A : In a A1) by (apply (pre_incl _ _ _ _ G1 H), in_or_app; right; left; auto).
          rewrite proj_snoc_in, proj_snoc_out; auto.
          2:{ intros B. apply (D a); auto. }
          split; auto. intros x X. apply in_app_or in X. destruct X as [X|[<-|[]]]; auto.
          apply in_or_app. auto.
        * assert (A : In a A2) by (apply (pre_incl _ _ _ _ G2 H), in_or_app; right; left; auto).
          rewrite (proj_snoc_in A2), (proj_snoc_out A1); auto.
          2:{ intros B. apply (D a); auto. }
          split; auto. intros x X. apply in_app_or in X. destruct X as [X|[<-|[]]]; auto.
          apply in_or_app. auto.
      + intros (J & Q1 & Q2).
        assert (A : In a (A1 ++ A2)) by (apply J, in_or_app; right; left; auto).
        apply in_app_or in A. destruct A as [A|A].
        * left. rewrite proj_snoc_in in Q1; auto.
        * right. rewrite proj_snoc_in in Q2; auto.
  Qed.

  Lemma par_goodE e1 e2 :
    goodE L1 A1 e1 -> goodE L2 A2 e2 ->
    goodE (parL L1 L2) (A1 ++ A2) (fun h => e1 h || e2 h).
  Proof.
    intros E1 E2. split.
    - intros h h' H.
      rewrite (ge_ext _ _ _ E1 h h'), (ge_ext _ _ _ E2 h h'); auto; intros a I; apply H;
        apply in_or_app; auto.
    - intros h P. apply pre_par in P. destruct P as (I & P1 & P2).
      assert (X1 : e1 h = e1 (proj A1 h))
        by (apply (ge_ext _ _ _ E1); intros a A; rewrite in_proj; tauto).
      assert (X2 : e2 h = e2 (proj A2 h))
        by (apply (ge_ext _ _ _ E2); intros a A; rewrite in_proj; tauto).
      rewrite X1, X2, orb_true_iff, (ge_flag _ _ _ E1 _ P1), (ge_flag _ _ _ E2 _ P2).
      split.
      + intros [H|H] ->; apply H; reflexivity.
      + intros H. destruct h as [|x h]; [congruence|].
        assert (X := I x (or_introl eq_refl)). apply in_app_or in X.
        destruct X as [X|X]; [left|right]; intros Z.
        * assert (In x (proj A1 (x :: h))) by (apply in_proj; split; auto; left; auto).
          rewrite Z in *. auto.
        * assert (In x (proj A2 (x :: h))) by (apply in_proj; split; auto; left; auto).
          rewrite Z in *. auto.
  Qed.
End par.

(** ** Expressions *)

Definition nx (e : expr) (h : list Z) : list Z := fst (nextActions h e).
Definition en (e : expr) (h : list Z) : bool := snd (nextActions h e).

Record good (e : expr) : Prop := {
  g_n : goodN (traces e) (actions e) (nx e);
  g_e : goodE (traces e) (actions e) (en e);
  g_ne : forall t, traces e t -> t <> [] }.

Fixpoint expr_ind' (P : expr -> Prop) (HA : forall a, P (Act a))
    (HO : forall o cs, Forall P cs -> P (Op o cs)) (e : expr) : P e :=
  match e with
  | Act a => HA a
  | Op o cs => HO o cs ((fix go (l : list expr) : Forall P l :=
                           match l with
                           | [] => Forall_nil P
                           | c :: l' => Forall_cons c (expr_ind' P HA HO c) (go l')
                           end) cs)
  end.

Lemma act_good a : good (Act a).
Proof.
  assert (P0 : forall h, pre (traces (Act a)) h -> h = [] \/ h = [a]).
  { intros h (k & H). cbn in H. destruct h as [|x [|y h]]; auto.
    - injection H as -> _. auto.
    - discriminate. }
  split.
  - split.
    + intros t -> x X. auto.
    + exists [a]. reflexivity.
    + intros h h' H. unfold nx. cbn [nextActions].
      assert (E : existsb (Z.eqb a) h = existsb (Z.eqb a) h').
      { specialize (H a (or_introl eq_refl)). rewrite <- !existsb_in in H.
        destruct (existsb (Z.eqb a) h), (existsb (Z.eqb a) h'); auto; intuition. }
      rewrite E. auto.
    + intros h P. unfold nx. cbn [nextActions traces]. destruct (P0 h P) as [->| ->]; cbn.
      * split; discriminate.
      * rewrite Z.eqb_refl. cbn. tauto.
    + intros h b P. unfold nx. cbn [nextActions].
      destruct (P0 h P) as [->| ->]; cbn [existsb app].
      * cbn [fst]. split.
        -- intros [->|[]]. exists []. reflexivity.
        -- intros H. destruct (P0 _ H) as [E|E]; [discriminate|]. injection E as ->. left. auto.
      * rewrite Z.eqb_refl. cbn. split; [tauto|]. intros H.
        destruct (P0 _ H) as [E|E]; discriminate.
  - split.
    + intros h h' H. unfold en. cbn [nextActions].
      assert (E : existsb (Z.eqb a) h = existsb (Z.eqb a) h').
      { specialize (H a (or_introl eq_refl)). rewrite <- !existsb_in in H.
        destruct (existsb (Z.eqb a) h), (existsb (Z.eqb a) h'); auto; intuition. }
      rewrite E. auto.
    + intros h P. unfold en. cbn [nextActions]. destruct (P0 h P) as [->| ->]; cbn.
      * split; [discriminate|congruence].
      * rewrite Z.eqb_refl. cbn. split; [discriminate|auto].
  - intros t ->. discriminate.
Qed.

(** Traces of the children lists, as the operators use them. *)
Fixpoint seqsL (cs : list expr) (t : list Z) : Prop :=
  match cs with
  | [] => t = []
  | c :: cs' => seqL (traces c) (seqsL cs') t
  end.

Fixpoint parsL (cs : list expr) (t : list Z) : Prop :=
  match cs with
  | [] => t = []
  | c :: cs' => parL (traces c) (parsL cs') t
  end.

Lemma traces_seq cs t : traces (Op Seq cs) t <-> seqsL cs t.
Proof.
  revert t. induction cs as [|c cs IH]; intros t; cbn [traces seqsL]; [tauto|].
  unfold seqL. split; intros (t1 & t2 & E & H1 & H2); exists t1, t2; repeat split; auto;
    apply IH; auto.
Qed.

Lemma traces_par cs t : traces (Op Par cs) t <-> parsL cs t.
Proof.
  revert t. induction cs as [|c cs IH]; intros t; cbn [traces parsL]; [tauto|].
  unfold parL. split; intros (t1 & t2 & E & H1 & H2); exists t1, t2; repeat split; auto;
    apply IH; auto.
Qed.

Lemma traces_alt cs t : traces (Op Alt cs) t <-> exists c, In c cs /\ traces c t.
Proof.
  induction cs as [|c cs IH]; cbn [traces].
  - split; [tauto|]. intros (c & [] & _).
  - split.
    + intros [H|H]; [exists c; split; auto; left; auto|].
      apply IH in H. destruct H as (c' & I & H). exists c'. split; auto. right. auto.
    + intros (c' & [->|I] & H); auto. right. apply IH. eauto.
Qed.

Definition actionsL (cs : list expr) : list Z := flat_map actions cs.

Lemma nodup_split (A B : list Z) : NoDup (A ++ B) -> NoDup A /\ NoDup B /\ disj A B.
Proof.
  induction A as [|a A IH]; intros N.
  - repeat split; auto; [constructor|intros x []].
  - inversion N as [|? ? NI N']; subst. destruct (IH N') as (N1 & N2 & D). repeat split; auto.
    + constructor; auto. intros I. apply NI, in_or_app. auto.
    + intros x [<-|X] Y; [apply NI, in_or_app; auto|apply (D x); auto].
Qed.

Lemma goodN_equiv L L' A n n' :
  (forall t, L t <-> L' t) -> (forall h, n h = n' h) -> goodN L A n -> goodN L' A n'.
Proof.
  intros EL EN G.
  assert (EP : forall h, pre L h <-> pre L' h)
    by (intros h; split; intros (k & H); exists k; apply EL; auto).
  split.
  - intros t H. apply (gn_incl _ _ _ G), EL, H.
  - destruct (gn_ex _ _ _ G) as (t & H). exists t. apply EL, H.
  - intros h h' H. rewrite <- !EN. apply (gn_ext _ _ _ G); auto.
  - intros h P. rewrite <- EN, <- EL. apply (gn_done _ _ _ G), EP, P.
  - intros h a P. rewrite <- EN, <- EP. apply (gn_next _ _ _ G), EP, P.
Qed.

Lemma goodE_equiv L L' A e e' :
  (forall t, L t <-> L' t) -> (forall h, e h = e' h) -> goodE L A e -> goodE L' A e'.
Proof.
  intros EL EN G.
  assert (EP : forall h, pre L h <-> pre L' h)
    by (intros h; split; intros (k & H); exists k; apply EL; auto).
  split.
  - intros h h' H. rewrite <- !EN. apply (ge_ext _ _ _ G); auto.
  - intros h P. rewrite <- EN. apply (ge_flag _ _ _ G), EP, P.
Qed.

Lemma nil_goodN : goodN (fun t => t = []) [] (fun _ => []).
Proof.
  split.
  - intros t -> x [].
  - eauto.
  - auto.
  - intros h (k & H). apply app_eq_nil in H. tauto.
  - intros h a (k & H). apply app_eq_nil in H. destruct H as (-> & _). split; [intros []|].
    intros (k' & H). discriminate.
Qed.

Lemma seqs_good cs b :
  Forall good cs -> NoDup (actionsL cs) ->
  goodN (seqsL cs) (actionsL cs) (fun h => fst (seq_scan b (map (nextActions h) cs))).
Proof.
  revert b. induction cs as [|c cs IH]; intros b F N; [apply nil_goodN|].
  inversion F as [|? ? Gc Gcs]; subst. cbn [actionsL flat_map] in N.
  apply nodup_split in N. destruct N as (_ & N2 & D).
  specialize (IH false Gcs N2). cbn [seqsL actionsL flat_map].
  eapply goodN_equiv; [| |apply (seq_good _ _ _ _ _ _ (g_n _ Gc) IH D)].
  - intros t. tauto.
  - intros h. cbn [map seq_scan]. unfold nx. destruct (nextActions h c) as ([|x r], f); reflexivity.
Qed.

Lemma pars_good cs :
  Forall good cs -> NoDup (actionsL cs) ->
  goodN (parsL cs) (actionsL cs) (fun h => fst (par_scan (map (nextActions h) cs))) /\
  goodE (parsL cs) (actionsL cs) (fun h => snd (par_scan (map (nextActions h) cs))).
Proof.
  induction cs as [|c cs IH]; intros F N.
  - split; [apply nil_goodN|]. split; auto. intros h (k & H). apply app_eq_nil in H.
    destruct H as (-> & _). cbn. split; [discriminate|congruence].
  - inversion F as [|? ? Gc Gcs]; subst. cbn [actionsL flat_map] in N.
    apply nodup_split in N. destruct N as (_ & N2 & D).
    specialize (IH Gcs N2). destruct IH as (IN & IE). cbn [parsL actionsL flat_map]. split.
    + eapply goodN_equiv; [| |apply (par_good _ _ _ _ _ _ (g_n _ Gc) IN D)].
      * intros t. tauto.
      * intros h. reflexivity.
    + eapply goodE_equiv; [| |apply (par_goodE _ _ _ _ _ _ (g_n _ Gc) IN D _ _ (g_e _ Gc) IE)].
      * intros t. tauto.
      * intros h. reflexivity.
Qed.

Lemma alt_none rs : forall acc,
  Forall (fun r => snd r = false) rs -> alt_scan rs acc = (acc ++ concat (map fst rs), false).
Proof.
  induction rs as [|(r, e) rs IH]; intros acc F; cbn [alt_scan].
  - cbn. rewrite app_nil_r. auto.
  - inversion F as [|? ? E F']; subst. cbn in E. subst e. rewrite IH by auto.
    cbn [map concat fst]. rewrite app_assoc. auto.
Qed.

Lemma alt_one rs1 r rs2 : forall acc,
  Forall (fun r => snd r = false) rs1 -> alt_scan (rs1 ++ (r, true) :: rs2) acc = (r, true).
Proof.
  induction rs1 as [|(q, e) rs IH]; intros acc F; cbn [alt_scan app]; auto.
  inversion F as [|? ? E F']; subst. cbn in E. subst e. auto.
Qed.

Lemma actionsL_in cs c x : In c cs -> In x (actions c) -> In x (actionsL cs).
Proof. intros I X. apply in_flat_map. eauto. Qed.

(** Distinct children share no action. *)
Lemma nodup_children l1 c l2 :
  NoDup (actionsL (l1 ++ c :: l2)) ->
  (forall c', In c' l1 \/ In c' l2 -> disj (actions c) (actions c')).
Proof.
  intros N c' H x X Y. unfold actionsL in N. rewrite flat_map_app in N. cbn [flat_map] in N.
  apply nodup_split in N. destruct N as (_ & N & D1).
  apply nodup_split in N. destruct N as (_ & _ & D2). destruct H as [H|H].
  - apply (D1 x); [apply in_flat_map; eauto|apply in_or_app; auto].
  - apply (D2 x); auto. apply in_flat_map. eauto.
Qed.

Lemma pre_alt cs h : pre (traces (Op Alt cs)) h <-> exists c, In c cs /\ pre (traces c) h.
Proof.
  split.
  - intros (k & H). apply traces_alt in H. destruct H as (c & I & H). exists c. split; auto.
    exists k. auto.
  - intros (c & I & k & H). exists k. apply traces_alt. eauto.
Qed.

(** Once something has been executed, exactly the chosen branch counts. *)
Lemma alt_chosen cs c h :
  Forall good cs -> NoDup (actionsL cs) -> In c cs -> pre (traces c) h -> h <> [] ->
  alt_scan (map (nextActions h) cs) [] = (nx c h, true) /\
  (forall c' k, In c' cs -> pre (traces c') (h ++ k) -> c' = c).
Proof.
  intros F N I P H. apply in_split in I. destruct I as (l1 & l2 & ->).
  assert (D := nodup_children _ _ _ N).
  rewrite Forall_forall in F.
  assert (Gc : good c) by (apply F, in_or_app; right; left; auto).
  assert (Ih := pre_incl _ _ _ _ (g_n _ Gc) P).
  assert (O : forall c', In c' l1 \/ In c' l2 -> en c' h = false).
  { intros c' I'.
    assert (Gc' : good c') by (apply F, in_or_app; destruct I'; auto; right; right; auto).
    assert (E : en c' h = en c' []).
    { apply (ge_ext _ _ _ (g_e _ Gc')). intros a A. split; [|intros []].
      intros B. apply (D c' I' a); auto. }
    rewrite E. pose proof (ge_flag _ _ _ (g_e _ Gc') [] (pre_nil _ _ _ (g_n _ Gc'))) as X.
    destruct (en c' []); auto. exfalso. apply X; auto. }
  assert (T : en c h = true) by (apply (ge_flag _ _ _ (g_e _ Gc) h P); auto).
  split.
  - rewrite map_app. cbn [map]. unfold en in T. unfold nx.
    destruct (nextActions h c) as (r, e). cbn in T. subst e. cbn [fst].
    apply alt_one. apply Forall_forall. intros r' R. apply in_map_iff in R.
    destruct R as (c' & <- & I'). apply O. auto.
  - intros c' k I' P'. apply pre_of in P'.
    apply in_app_or in I'. destruct I' as [I'|[I'|I']]; auto; exfalso;
      (assert (Gc' : good c') by (apply F, in_or_app; auto; right; right; auto);
       destruct h as [|x h]; [congruence|];
       apply (D c') with (x := x);
       [auto|apply Ih; left; auto|apply (pre_incl _ _ _ _ (g_n _ Gc') P'); left; auto]).
Qed.

Lemma alt_start cs h :
  Forall good cs -> disj (actionsL cs) h ->
  alt_scan (map (nextActions h) cs) [] = (concat (map (fun c => nx c []) cs), false).
Proof.
  intros F D. rewrite alt_none.
  - cbn [app]. f_equal. rewrite map_map. f_equal. apply map_ext_in. intros c I.
    rewrite Forall_forall in F. apply (gn_ext _ _ _ (g_n _ (F c I))).
    intros a A. split; [|intros []]. intros B. apply (D a); auto. eapply actionsL_in; eauto.
  - apply Forall_forall. intros r R. apply in_map_iff in R. destruct R as (c & <- & I).
    rewrite Forall_forall in F. assert (Gc := F c I).
    change (en c h = false).
    assert (E : en c h = en c []).
    { apply (ge_ext _ _ _ (g_e _ Gc)). intros a A. split; [|intros []].
      intros B. apply (D a); auto. eapply actionsL_in; eauto. }
    rewrite E. pose proof (ge_flag _ _ _ (g_e _ Gc) [] (pre_nil _ _ _ (g_n _ Gc))) as X.
    destruct (en c []); auto. exfalso. apply X; auto.
Qed.

Lemma nextActions_ext e : forall h h',
  (forall a, In a (actions e) -> (In a h <-> In a h')) -> nextActions h e = nextActions h' e.
Proof.
  induction e as [a|o cs IH] using expr_ind'; intros h h' H; cbn [nextActions].
  - assert (E : existsb (Z.eqb a) h = existsb (Z.eqb a) h').
    { specialize (H a (or_introl eq_refl)). rewrite <- !existsb_in in H.
      destruct (existsb (Z.eqb a) h), (existsb (Z.eqb a) h'); auto; intuition. }
    rewrite E. auto.
  - assert (E : map (nextActions h) cs = map (nextActions h') cs).
    { apply map_ext_in. intros c I. rewrite Forall_forall in IH. apply IH; auto.
      intros a A. apply H. cbn [actions]. apply in_flat_map. eauto. }
    rewrite E. auto.
Qed.

Lemma ne_list cs : no_empty_op (Op Alt cs) -> cs <> [] /\ forall c, In c cs -> no_empty_op c.
Proof.
  cbn [no_empty_op]. intros (N & H). split; auto. clear N.
  induction cs as [|c cs IH]; intros c' I; [destruct I|].
  destruct H as (H1 & H2). destruct I as [<-|I]; auto.
Qed.

Lemma nodup_child cs c : NoDup (actionsL cs) -> In c cs -> NoDup (actions c).
Proof.
  intros N I. apply in_split in I. destruct I as (l1 & l2 & ->). unfold actionsL in N.
  rewrite flat_map_app in N. cbn [flat_map] in N.
  apply nodup_split in N. destruct N as (_ & N & _). apply nodup_split in N. tauto.
Qed.

Lemma expr_good e : no_empty_op e -> NoDup (actions e) -> good e.
Proof.
  induction e as [a|o cs IH] using expr_ind'; intros W N; [apply act_good|].
  assert (W' : cs <> [] /\ forall c, In c cs -> no_empty_op c)
    by (apply ne_list; destruct o; exact W).
  destruct W' as (NE & WC). cbn [actions] in N. fold (actionsL cs) in N.
  assert (F : Forall good cs).
  { apply Forall_forall. intros c I. rewrite Forall_forall in IH. apply IH; auto.
    eapply nodup_child; eauto. }
  clear IH W WC. destruct o.
  - (* sequence *)
    assert (GN := seqs_good cs true F N).
    assert (GN' : goodN (traces (Op Seq cs)) (actionsL cs) (nx (Op Seq cs))).
    { eapply goodN_equiv; [| |exact GN]; [intros t; symmetry; apply traces_seq|].
      intros h. reflexivity. }
    destruct cs as [|c cs]; [congruence|].
    inversion F as [|? ? Gc Gcs]; subst.
    assert (NET : forall t, traces (Op Seq (c :: cs)) t -> t <> []).
    { intros t H. apply traces_seq in H. destruct H as (t1 & t2 & -> & H1 & _).
      apply (g_ne _ Gc) in H1. destruct t1; [congruence|discriminate]. }
    split; auto. split.
    + intros h h' H. unfold en. now rewrite (nextActions_ext _ h h').
    + intros h P. unfold en. cbn [nextActions map seq_scan].
      assert (PC : pre (traces (Op Seq (c :: cs))) h <->
                   pre (seqL (traces c) (seqsL cs)) h).
      { split; intros (k & H); exists k; apply traces_seq in H || apply traces_seq; auto. }
      apply PC in P. clear PC.
      apply nodup_split in N. destruct N as (_ & N2 & D).
      pose proof (seqs_good cs false Gcs N2) as G2.
      apply (pre_seq _ _ _ _ _ G2) in P.
      assert (P' : (pre (traces c) h /\ ~ traces c h /\ nx c h <> []) \/
                   exists h1 h2, h = h1 ++ h2 /\ traces c h1 /\ pre (seqsL cs) h2).
      { destruct P as [P|P]; auto. destruct (done_dec _ _ _ _ (g_n _ Gc) P) as [H|(N & H)]; auto.
        right. exists h, []. rewrite app_nil_r. repeat split; auto. eapply pre_nil; eauto. }
      destruct P' as [(P1 & _ & NN)|(h1 & h2 & E & H1 & P2)].
      * pose proof (ge_flag _ _ _ (g_e _ Gc) h P1) as FL. unfold nx in NN. unfold en in FL.
        destruct (nextActions h c) as ([|x r], f); [cbn in NN; congruence|]. cbn [snd] in *.
        exact FL.
      * assert (X1 : nx c h = nx c h1).
        { apply (gn_ext _ _ _ (g_n _ Gc)). intros a A. rewrite E, in_app_iff. split; auto.
          intros [I|I]; auto. exfalso. apply (D a); auto.
          apply (pre_incl _ _ _ _ G2 P2). auto. }
        assert (N1 : nx c h = []).
        { rewrite X1. apply (gn_done _ _ _ (g_n _ Gc)); auto. apply pre_self; auto. }
        unfold nx in N1. destruct (nextActions h c) as (r, f). cbn in N1. subst r.
        assert (S : snd (seq_scan false (map (nextActions h) cs)) = true).
        { clear. induction (map (nextActions h) cs) as [|([|x r], f) l IH]; auto. }
        rewrite S. split; auto. intros _ H. rewrite H in E.
        symmetry in E. apply app_eq_nil in E. destruct E as (-> & ->).
        apply (g_ne _ Gc [] H1); auto.
  - (* alternative *)
    assert (GN' : goodN (traces (Op Alt cs)) (actionsL cs) (nx (Op Alt cs))).
    { split.
      - intros t H x X. apply traces_alt in H. destruct H as (c & I & H).
        rewrite Forall_forall in F.
        eapply actionsL_in; eauto. apply (gn_incl _ _ _ (g_n _ (F c I)) _ H), X.
      - destruct cs as [|c cs]; [congruence|]. inversion F as [|? ? Gc _]; subst.
        destruct (gn_ex _ _ _ (g_n _ Gc)) as (t & H). exists t. apply traces_alt. exists c.
        split; auto. left; auto.
      - intros h h' H. unfold nx. now rewrite (nextActions_ext _ h h').
      - intros h P. apply pre_alt in P. destruct P as (c & I & P).
        pose proof F as F'. rewrite Forall_forall in F'.
        unfold nx. cbn [nextActions]. destruct h as [|x h].
        + rewrite (alt_start cs []); auto; [|intros y _ []]. cbn [fst]. split.
          * intros H. exfalso.
            assert (Z : nx c [] = []).
            { apply in_split in I. destruct I as (l1 & l2 & ->). rewrite map_app in H.
              cbn [map] in H. rewrite concat_app in H. cbn [concat] in H.
              apply app_eq_nil in H. destruct H as (_ & H). apply app_eq_nil in H. tauto. }
            apply (gn_done _ _ _ (g_n _ (F' c I)) [] P) in Z.
            apply (g_ne _ (F' c I)) in Z. congruence.
          * intros H. exfalso. apply traces_alt in H. destruct H as (c' & I' & H).
            apply (g_ne _ (F' c' I')) in H. congruence.
        + destruct (alt_chosen cs c (x :: h) F N I P) as (E & U); [discriminate|].
          rewrite E. cbn [fst]. rewrite (gn_done _ _ _ (g_n _ (F' c I)) _ P). split.
          * intros H. apply traces_alt. eauto.
          * intros H. apply traces_alt in H. destruct H as (c' & I' & H).
            assert (c' = c) as ->; auto. apply (U c' []); auto. rewrite app_nil_r.
            apply pre_self; auto.
      - intros h a P. apply pre_alt in P. destruct P as (c & I & P).
        pose proof F as F'. rewrite Forall_forall in F'.
        unfold nx. cbn [nextActions]. rewrite pre_alt. destruct h as [|x h].
        + rewrite (alt_start cs []); auto; [|intros y _ []]. cbn [fst]. split.
          * intros H. apply in_concat in H. destruct H as (r & R & H). apply in_map_iff in R.
            destruct R as (c' & <- & I'). exists c'. split; auto.
            apply (gn_next _ _ _ (g_n _ (F' c' I'))); auto. eapply pre_nil, g_n, F', I'.
          * intros (c' & I' & H). apply in_concat. exists (nx c' []). split.
            -- apply in_map_iff. eauto.
            -- apply (gn_next _ _ _ (g_n _ (F' c' I'))); auto. eapply pre_nil, g_n, F', I'.
        + destruct (alt_chosen cs c (x :: h) F N I P) as (E & U); [discriminate|].
          rewrite E. cbn [fst]. rewrite (gn_next _ _ _ (g_n _ (F' c I)) _ a P). split.
          * intros H. eauto.
          * intros (c' & I' & H). assert (c' = c) as -> by (apply (U c' [a]); auto). auto. }
    split; auto.
    + split.
      * intros h h' H. unfold en. now rewrite (nextActions_ext _ h h').
      * intros h P. apply pre_alt in P. destruct P as (c & I & P). unfold en.
        cbn [nextActions]. destruct h as [|x h].
        -- rewrite (alt_start cs []); auto; [|intros y _ []]. cbn. split; [discriminate|congruence].
        -- destruct (alt_chosen cs c (x :: h) F N I P) as (E & U); [discriminate|].
           rewrite E. cbn [snd]. split; auto. discriminate.
    + intros t H. apply traces_alt in H. destruct H as (c & I & H).
      rewrite Forall_forall in F. apply (g_ne _ (F c I)); auto.
  - (* parallel *)
    destruct (pars_good cs F N) as (GN & GE).
    split.
    + eapply goodN_equiv; [| |exact GN]; [intros t; symmetry; apply traces_par|].
      intros h. reflexivity.
    + eapply goodE_equiv; [| |exact GE]; [intros t; symmetry; apply traces_par|].
      intros h. reflexivity.
    + intros t H. apply traces_par in H. destruct cs as [|c cs]; [congruence|].
      destruct H as (t1 & t2 & I & H1 & _). inversion F as [|? ? Gc _]; subst.
      apply (g_ne _ Gc) in H1. inversion I; subst; auto; discriminate.
Qed.

(** ** Runs *)

Lemma interleave_perm t1 t2 t : interleave t1 t2 t -> Permutation t (t1 ++ t2).
Proof.
  induction 1; cbn; auto. apply Permutation_cons_app. auto.
Qed.

Lemma traces_nodup e : NoDup (actions e) -> forall t, traces e t -> NoDup t /\ incl t (actions e).
Proof.
  induction e as [a|o cs IH] using expr_ind'; intros N t H.
  - cbn in H. subst. split; [repeat constructor; auto|cbn; intros x X; auto].
  - cbn [actions] in *. destruct o.
    + apply traces_seq in H. revert t H. induction cs as [|c cs IHc]; intros t H.
      * cbn in H. subst. split; [constructor|intros x []].
      * destruct H as (t1 & t2 & -> & H1 & H2). inversion IH as [|? ? I1 I2]; subst.
        cbn [flat_map] in *. apply nodup_split in N. destruct N as (N1 & N2 & D).
        destruct (I1 N1 _ H1) as (Q1 & J1). destruct (IHc I2 N2 _ H2) as (Q2 & J2).
        split.
        -- 
           clear - Q1 Q2 J1 J2 D. induction t1 as [|x t1 IH]; auto. inversion Q1; subst.
           cbn. constructor.
           ++ rewrite in_app_iff. intros [I|I]; auto. apply (D x); [apply J1; left; auto|auto].
           ++ apply IH; auto. intros y Y. apply J1. right; auto.
        -- intros x X. apply in_app_or in X. apply in_or_app. destruct X; auto.
    + apply traces_alt in H. destruct H as (c & I & H). rewrite Forall_forall in IH.
      destruct (IH c I (nodup_child cs c N I) t H) as (Q & J). split; auto.
      intros x X. apply in_flat_map. eauto.
    + apply traces_par in H. revert t H. induction cs as [|c cs IHc]; intros t H.
      * cbn in H. subst. split; [constructor|intros x []].
      * destruct H as (t1 & t2 & T & H1 & H2). inversion IH as [|? ? I1 I2]; subst.
        cbn [flat_map] in *. apply nodup_split in N. destruct N as (N1 & N2 & D).
        destruct (I1 N1 _ H1) as (Q1 & J1). destruct (IHc I2 N2 _ H2) as (Q2 & J2).
        apply interleave_perm in T. split.
        -- apply (Permutation_NoDup (l := t1 ++ t2)); [symmetry; auto|].
           clear - Q1 Q2 J1 J2 D. induction t1 as [|x t1 IH]; auto. inversion Q1; subst.
           cbn. constructor.
           ++ rewrite in_app_iff. intros [I|I]; auto. apply (D x); [apply J1; left; auto|auto].
           ++ apply IH; auto. intros y Y. apply J1. right; auto.
        -- intros x X. apply (Permutation_in _ T) in X. apply in_app_or in X.
           apply in_or_app. destruct X; auto.
Qed.

Lemma no_alt_traces e : no_alternative e -> forall t, traces e t -> Permutation t (actions e).
Proof.
  induction e as [a|o cs IH] using expr_ind'; intros N t H.
  - cbn in *. subst. auto.
  - cbn [actions no_alternative] in *. destruct N as (NA & N). destruct o; [|congruence|].
    + apply traces_seq in H. revert t H. induction cs as [|c cs IHc]; intros t H.
      * cbn in H. subst. constructor.
      * destruct H as (t1 & t2 & -> & H1 & H2). inversion IH as [|? ? I1 I2]; subst.
        destruct N as (N1 & N2). cbn [flat_map]. apply Permutation_app; auto.
    + apply traces_par in H. revert t H. induction cs as [|c cs IHc]; intros t H.
      * cbn in H. subst. constructor.
      * destruct H as (t1 & t2 & T & H1 & H2). inversion IH as [|? ? I1 I2]; subst.
        destruct N as (N1 & N2). cbn [flat_map]. rewrite (interleave_perm _ _ _ T).
        apply Permutation_app; auto.
Qed.

Lemma run_legal e h : well_formed e -> offered_run (searchNext e) h -> legal e h.
Proof.
  intros (W & N). pose proof (expr_good e W N) as G. induction 1 as [|h a R IH I].
  - apply (pre_nil _ _ _ (g_n _ G)).
  - apply (gn_next _ _ _ (g_n _ G)); auto.
Qed.

Lemma legal_run e h : well_formed e -> legal e h -> offered_run (searchNext e) h.
Proof.
  intros (W & N). pose proof (expr_good e W N) as G.
  induction h as [|a h IH] using rev_ind; intros L; [constructor|].
  constructor.
  - apply IH. apply pre_of with (k := [a]); auto.
  - apply (gn_next _ _ _ (g_n _ G)); auto. apply pre_of with (k := [a]); auto.
Qed.

Lemma next_nodup e : NoDup (actions e) -> forall h,
  NoDup (nx e h) /\ incl (nx e h) (actions e) /\ (forall a, In a (nx e h) -> ~ In a h).
Proof.
  induction e as [a|o cs IH] using expr_ind'; intros N h; unfold nx.
  - cbn [nextActions actions]. destruct (existsb (Z.eqb a) h) eqn:E; cbn [fst].
    + repeat split; [constructor|intros x []|intros x []].
    + repeat split; [repeat constructor; auto|intros x X; auto|].
      intros x [<-|[]] I. apply existsb_in in I. congruence.
  - cbn [nextActions actions] in *. fold (actionsL cs) in N |- *.
    assert (K : forall c, In c cs -> NoDup (nx c h) /\ incl (nx c h) (actions c) /\
                           (forall a, In a (nx c h) -> ~ In a h)).
    { intros c I. rewrite Forall_forall in IH. apply IH; auto. eapply nodup_child; eauto. }
    assert (C : NoDup (concat (map fst (map (nextActions h) cs))) /\
                incl (concat (map fst (map (nextActions h) cs))) (actionsL cs) /\
                (forall a, In a (concat (map fst (map (nextActions h) cs))) -> ~ In a h)).
    { clear IH. induction cs as [|c cs IHc].
      - cbn. repeat split; [constructor|intros x []|intros x []].
      - cbn [actionsL flat_map] in N. fold (actionsL cs) in N.
        apply nodup_split in N. destruct N as (N1 & N2 & D).
        destruct IHc as (Q & J & O); auto; [intros; apply K; right; auto|].
        destruct (K c (or_introl eq_refl)) as (Q0 & J0 & O0).
        cbn [map concat actionsL flat_map]. fold (nx c h) (actionsL cs). repeat split.
        + clear - Q Q0 J J0 D. unfold nx in *.
          induction (fst (nextActions h c)) as [|x t1 IH]; auto. inversion Q0; subst.
          cbn. constructor.
          * rewrite in_app_iff. intros [I|I]; auto. apply (D x); [apply J0; left; auto|auto].
          * apply IH; auto. intros y Y. apply J0. right; auto.
        + intros x X. apply in_app_or in X. apply in_or_app. destruct X; auto.
        + intros x X. apply in_app_or in X. destruct X; auto. }
    assert (S : forall b, (exists c, In c cs /\ fst (seq_scan b (map (nextActions h) cs)) = nx c h)
                          \/ fst (seq_scan b (map (nextActions h) cs)) = []).
    { clear. induction cs as [|c cs IH]; intros b; [right; auto|]. cbn [map seq_scan].
      unfold nx at 1. destruct (nextActions h c) as ([|x r], f) eqn:E.
      - destruct (IH false) as [(c' & I & H)|H]; [left|right; auto].
        exists c'. split; [right; auto|auto].
      - left. exists c. split; [left; auto|]. rewrite E. auto. }
    assert (A : forall acc, (exists c, In c cs /\ fst (alt_scan (map (nextActions h) cs) acc) = nx c h)
                 \/ fst (alt_scan (map (nextActions h) cs) acc)
                    = acc ++ concat (map fst (map (nextActions h) cs))).
    { clear. induction cs as [|c cs IH]; intros acc; [right; cbn; rewrite app_nil_r; auto|].
      cbn [map alt_scan concat]. unfold nx at 1.
      destruct (nextActions h c) as (r, []) eqn:E.
      - left. exists c. split; [left; auto|]. rewrite E. auto.
      - destruct (IH (acc ++ r)) as [(c' & I & H)|H].
        + left. exists c'. split; [right; auto|auto].
        + right. rewrite H. cbn [fst]. rewrite app_assoc. auto. }
    destruct o.
    + destruct (S true) as [(c & I & ->)| ->].
      * destruct (K c I) as (Q & J & O). repeat split; auto.
        intros x X. eapply actionsL_in; eauto.
      * repeat split; [constructor|intros x []|intros x []].
    + destruct (A []) as [(c & I & ->)| ->]; auto.
      destruct (K c I) as (Q & J & O). repeat split; auto.
      intros x X. eapply actionsL_in; eauto.
    + exact C.
Qed.

(** ** Shuffling *)

Definition same_lang (e e' : expr) : Prop := forall t, traces e t <-> traces e' t.

Lemma inter_comm t1 t2 t : interleave t1 t2 t -> interleave t2 t1 t.
Proof. induction 1; constructor; auto. Qed.

Lemma inter_swap a u t : interleave a u t -> forall b c, interleave b c u ->
  exists v, interleave a c v /\ interleave b v t.
Proof.
  induction 1 as [|x t1 t2 t H IH|x t1 t2 t H IH]; intros b c B.
  - inversion B; subst. exists []. split; constructor.
  - destruct (IH _ _ B) as (v & V1 & V2). exists (x :: v). split; constructor; auto.
  - inversion B as [|? b' ? ? B'|? ? c' ? B']; subst.
    + destruct (IH _ _ B') as (v & V1 & V2). exists v. split; auto. constructor. auto.
    + destruct (IH _ _ B') as (v & V1 & V2). exists (x :: v). split; constructor; auto.
Qed.

Lemma parsL_perm cs cs' : Permutation cs cs' -> forall t, parsL cs t -> parsL cs' t.
Proof.
  induction 1 as [|c cs cs' P IH|c d cs|cs1 cs2 cs3 P1 IH1 P2 IH2]; intros t H; auto.
  - destruct H as (t1 & t2 & I & H1 & H2). exists t1, t2. auto.
  - destruct H as (t1 & u & I & H1 & t2 & t3 & J & H2 & H3).
    destruct (inter_swap _ _ _ I _ _ J) as (v & V1 & V2).
    exists t2, v. repeat split; auto. exists t1, t3. auto.
Qed.

Lemma op_lang o cs cs' : Forall2 same_lang cs cs' -> same_lang (Op o cs) (Op o cs').
Proof.
  intros F t. destruct o.
  - rewrite !traces_seq. revert t. induction F as [|c c' cs cs' E F IH]; intros t; cbn; [tauto|].
    unfold seqL. split; intros (t1 & t2 & X & H1 & H2); exists t1, t2; repeat split; auto;
      try apply E; try apply IH; auto.
  - rewrite !traces_alt. split; intros (c & I & H).
    + clear - F I H. induction F as [|a b l l' E F IH]; [destruct I|].
      destruct I as [->|I]; [exists b; split; [left; auto|apply E; auto]|].
      destruct (IH I) as (c' & I' & H'). exists c'. split; [right|]; auto.
    + clear - F I H. induction F as [|a b l l' E F IH]; [destruct I|].
      destruct I as [->|I]; [exists a; split; [left; auto|apply E; auto]|].
      destruct (IH I) as (c' & I' & H'). exists c'. split; [right|]; auto.
  - rewrite !traces_par. revert t. induction F as [|c c' cs cs' E F IH]; intros t; cbn; [tauto|].
    unfold parL. split; intros (t1 & t2 & X & H1 & H2); exists t1, t2; repeat split; auto;
      try apply E; try apply IH; auto.
Qed.

Lemma perm_lang o cs cs' : o <> Seq -> Permutation cs cs' -> same_lang (Op o cs) (Op o cs').
Proof.
  intros NS P t. destruct o; [congruence| |].
  - rewrite !traces_alt. split; intros (c & I & H); exists c; split; auto.
    + eapply Permutation_in; eauto.
    + eapply Permutation_in; [symmetry|]; eauto.
  - rewrite !traces_par. split; apply parsL_perm; auto. symmetry; auto.
Qed.

Lemma pick_all_perm rnd i : forall k rest, length rest = i ->
  Permutation rest (pick_all rnd k i rest).
Proof.
  induction i as [|i IH]; intros k rest L; cbn [pick_all].
  - destruct rest; [constructor|discriminate].
  - set (j := rnd k mod S i). assert (J : j < S i) by (apply Nat.mod_upper_bound; lia).
    destruct (nth_error rest j) as [c|] eqn:E.
    2:{ apply nth_error_None in E. lia. }
    apply nth_error_split in E. destruct E as (l1 & l2 & -> & LJ).
    rewrite <- LJ. rewrite firstn_app, firstn_all, Nat.sub_diag. cbn [firstn].
    rewrite app_nil_r. rewrite skipn_app.
    rewrite skipn_all2 by lia. replace (S (length l1) - length l1) with 1 by lia.
    cbn [skipn app]. etransitivity; [symmetry; apply Permutation_middle|].
    apply perm_skip. apply IH. rewrite !app_length in *. cbn [length] in L. lia.
Qed.

Lemma shuffle_lang small rnd d : forall k e e' k',
  shuffle small rnd d k e = Some (e', k') ->
  same_lang e e' /\ Permutation (actions e) (actions e').
Proof.
  induction d as [|d IH]; intros k e e' k' H; cbn [shuffle] in H; [discriminate|].
  destruct e as [a|o cs].
  - injection H as <- <-. split; [intros t; tauto|auto].
  - cbv zeta in H.
    set (k1 := if match o with Seq => false | _ => true end then S k else k) in *.
    set (doit := match o with Seq => false | _ => true end && small (rnd k)) in *.
    set (cs1 := if doit then pick_all rnd k1 (length cs) cs else cs) in *.
    set (k2 := if doit then k1 + length cs else k1) in *.
    assert (P : Permutation cs cs1).
    { unfold cs1. destruct doit; auto. apply pick_all_perm; auto. }
    assert (S1 : same_lang (Op o cs) (Op o cs1)).
    { unfold cs1. destruct doit eqn:D; [|intros t; tauto].
      apply perm_lang; [intros ->; discriminate|]. apply pick_all_perm; auto. }
    clearbody k1 k2 cs1.
    match type of H with match ?f k2 cs1 with _ => _ end = _ => set (go := f) in H end.
    destruct (go k2 cs1) as [(cs2, k3)|] eqn:G; [|discriminate]. injection H as <- <-.
    assert (Q : Forall2 same_lang cs1 cs2 /\ Permutation (actionsL cs1) (actionsL cs2)).
    { clear P S1. revert k2 cs2 k3 G. induction cs1 as [|c cs1 IHc]; intros k2 cs2 k3 G.
      - cbn in G. injection G as <- <-. split; constructor.
      - cbn in G. fold go in G. destruct (shuffle small rnd d k2 c) as [(c', kk)|] eqn:SC; [|discriminate].
        destruct (go kk cs1) as [(l, kl)|] eqn:GL; [|discriminate]. injection G as <- <-.
        destruct (IH _ _ _ _ SC) as (L1 & A1). destruct (IHc _ _ _ GL) as (L2 & A2).
        split; [constructor; auto|]. cbn [actionsL flat_map]. apply Permutation_app; auto. }
    destruct Q as (Q1 & Q2). split.
    + intros t. rewrite (S1 t). apply op_lang. auto.
    + cbn [actions]. fold (actionsL cs) (actionsL cs2). rewrite <- Q2.
      apply Permutation_flat_map. auto.
Qed.

Lemma ne_iff o cs : no_empty_op (Op o cs) <-> cs <> [] /\ Forall no_empty_op cs.
Proof.
  cbn [no_empty_op].
  assert (H : (fix go (cs : list expr) : Prop :=
         match cs with [] => True | c :: cs' => no_empty_op c /\ go cs' end) cs
         <-> Forall no_empty_op cs).
  { induction cs as [|c cs IH]; [split; auto|]. split.
    - intros (A & B). constructor; auto. apply IH; auto.
    - intros F. inversion F; subst. split; auto. apply IH; auto. }
  rewrite H. tauto.
Qed.

Lemma shuffle_total small rnd d : forall k e, depth e <= d ->
  exists e' k', shuffle small rnd d k e = Some (e', k') /\
    (no_empty_op e -> no_empty_op e').
Proof.
  induction d as [|d IH]; intros k e L.
  - destruct e; cbn in L; lia.
  - destruct e as [a|o cs]; cbn [shuffle]; [eauto|].
    set (k1 := if match o with Seq => false | _ => true end then S k else k) in *.
    set (doit := match o with Seq => false | _ => true end && small (rnd k)) in *.
    set (cs1 := if doit then pick_all rnd k1 (length cs) cs else cs) in *.
    set (k2 := if doit then k1 + length cs else k1) in *.
    assert (P : Permutation cs cs1).
    { unfold cs1. destruct doit; auto. apply pick_all_perm; auto. }
    assert (LD : forall c, In c cs1 -> depth c <= d).
    { intros c I. apply (Permutation_in c (Permutation_sym P)) in I.
      cbn [depth] in L. apply le_S_n in L. clear - L I.
      induction cs as [|c' cs IHc]; [destruct I|]. cbn [fold_right] in L.
      destruct I as [->|I]; [lia|]. apply IHc; auto. lia. }
    clearbody k1 k2 cs1.
    match goal with |- context [match ?f k2 cs1 with _ => _ end] => set (go := f) end.
    assert (Q : exists cs2 k3, go k2 cs1 = Some (cs2, k3) /\ length cs2 = length cs1 /\
                  (Forall no_empty_op cs1 -> Forall no_empty_op cs2)).
    { clear P. revert k2. induction cs1 as [|c cs1 IHc]; intros k2.
      - exists [], k2. cbn. auto.
      - destruct (IH k2 c) as (c' & kk & SC & W); [apply LD; left; auto|].
        destruct (IHc (fun c I => LD c (or_intror I)) kk) as (l & kl & GL & LE & WL).
        exists (c' :: l), kl. cbn. fold go. rewrite SC, GL. split; auto. split; [lia|].
        intros F. inversion F; subst. constructor; auto. }
    destruct Q as (cs2 & k3 & G & LE & W). rewrite G. exists (Op o cs2), k3. split; auto.
    intros N. apply ne_iff in N. apply ne_iff. destruct N as (NE & F). split.
    + intros ->. cbn in LE. apply Permutation_length in P. rewrite <- LE in P.
      destruct cs; [congruence|discriminate].
    + apply W. eapply Permutation_Forall; eauto.
Qed.

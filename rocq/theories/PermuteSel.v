(** The selections visited by the code are all selections, once each. *)
From Coq Require Import List Arith Bool Lia Permutation Sorted Factorial.
From Verif Require Import PermuteModel PermuteSpec PermuteProofs.
Import ListNotations.
Open Scope list_scope.

(** Parametricity: the positions chosen do not depend on the elements. *)
Section Rel.
  Context {A B : Type} (R : A -> B -> Prop).

  Lemma F2_app l1 l2 m1 m2 : Forall2 R l1 m1 -> Forall2 R l2 m2 -> Forall2 R (l1 ++ l2) (m1 ++ m2).
  Proof. induction 1; cbn; auto. Qed.

  Lemma F2_cons_map x y ll mm : R x y -> Forall2 (Forall2 R) ll mm ->
    Forall2 (Forall2 R) (map (cons x) ll) (map (cons y) mm).
  Proof. intros H. induction 1; cbn; auto. Qed.
End Rel.

Lemma F2_apps {A B} (R : A -> B -> Prop) l1 l2 m1 m2 :
  Forall2 (Forall2 R) l1 m1 -> Forall2 (Forall2 R) l2 m2 -> Forall2 (Forall2 R) (l1 ++ l2) (m1 ++ m2).
Proof. apply F2_app. Qed.

Lemma choose_rel {A B} (R : A -> B -> Prop) l m :
  Forall2 R l m -> forall k, Forall2 (Forall2 R) (choose k l) (choose k m).
Proof.
  induction 1 as [|x y l m H HH IH]; intros [|k]; cbn; auto.
  apply F2_apps; [|apply (IH (S k))]. apply F2_cons_map; auto.
Qed.

Lemma picks_rel {A B} (R : A -> B -> Prop) l m :
  Forall2 R l m ->
  Forall2 (fun p q => R (fst p) (fst q) /\ Forall2 R (snd p) (snd q)) (picks l) (picks m).
Proof.
  induction 1 as [|x y l m H HH IH]; cbn; auto. constructor; [auto|].
  clear HH. induction IH as [|p q l' m' [I1 I2] _ IH']; cbn; constructor; cbn; auto.
Qed.

Lemma flat_map_rel {A B C D} (P : A -> B -> Prop) (R : C -> D -> Prop) f h l m :
  (forall a b, P a b -> Forall2 R (f a) (h b)) -> Forall2 P l m ->
  Forall2 R (flat_map f l) (flat_map h m).
Proof. intros H. induction 1; cbn; auto. apply F2_app; auto. Qed.

Lemma perms_rel {A B} (R : A -> B -> Prop) n : forall l m,
  Forall2 R l m -> Forall2 (Forall2 R) (perms n l) (perms n m).
Proof.
  induction n as [|n IH]; intros l m H; cbn; auto.
  eapply flat_map_rel; [|apply picks_rel; exact H].
  intros [a l'] [b m'] [H1 H2]. cbn in *. apply F2_cons_map; auto.
Qed.

Lemma hold_rel {A B} (R : A -> B -> Prop) n l m :
  Forall2 R l m -> Forall2 (Forall2 R) (hold n l) (hold n m).
Proof.
  destruct 1; cbn; auto. apply F2_cons_map; auto. apply perms_rel. assumption.
Qed.

(** The numbers of selections. *)
Lemma choose_elem_length {T} (l : list T) : forall k x, In x (choose k l) -> length x = k.
Proof.
  induction l as [|y l IH]; intros [|k] x H; cbn in H; try (destruct H as [<-|[]]; reflexivity).
  - contradiction.
  - apply in_app_or in H. destruct H as [H|H]; [|apply (IH (S k) _ H)].
    apply in_map_iff in H. destruct H as (z & <- & Hz). cbn. f_equal. auto.
Qed.

(** Combinations. *)
Lemma In_choose l : StronglySorted lt l -> forall k x,
  In x (choose k l) <-> length x = k /\ (forall i, In i x -> In i l) /\ StronglySorted lt x.
Proof.
  induction 1 as [|y l SS IH Hy]; intros [|k] x.
  - cbn. split; [intros [<-|[]]; repeat split; [intros i []|constructor]|].
    intros (L & _). destruct x; [auto|discriminate].
  - cbn. split; [intros []|]. intros (L & I & _). destruct x as [|z x]; [discriminate|].
    apply (I z). left; reflexivity.
  - cbn. split; [intros [<-|[]]; repeat split; [intros i []|constructor]|].
    intros (L & _). destruct x; [auto|discriminate].
  - cbn [choose]. rewrite in_app_iff, (IH (S k)), in_map_iff. rewrite Forall_forall in Hy. split.
    + intros [(z & <- & Hz)|(L & I & Sx)].
      * apply IH in Hz. destruct Hz as (L & I & Sz). split; [cbn; lia|]. split.
        -- intros i [<-|Hi]; [left; reflexivity|right; auto].
        -- constructor; [exact Sz|]. apply Forall_forall. auto.
      * split; [exact L|]. split; [|exact Sx]. intros i Hi. right; auto.
    + intros (L & I & Sx). destruct x as [|z x]; [discriminate|].
      inversion Sx as [|? ? Sx' Fx]; subst. rewrite Forall_forall in Fx.
      destruct (I z (or_introl eq_refl)) as [<-|Hz].
      * left. exists x. split; [reflexivity|]. apply IH. split; [cbn in L; lia|]. split; [|exact Sx'].
        intros i Hi. destruct (I i (or_intror Hi)) as [<-|]; [|assumption].
        specialize (Fx _ Hi). lia.
      * right. split; [exact L|]. split; [|exact Sx].
        intros i Hi. destruct (I i Hi) as [<-|]; [|assumption].
        destruct Hi as [<-|Hi]; [assumption|]. specialize (Fx _ Hi). specialize (Hy _ Hz). lia.
Qed.

Lemma NoDup_appd {A} (l1 l2 : list A) :
  NoDup l1 -> NoDup l2 -> (forall x, In x l1 -> ~ In x l2) -> NoDup (l1 ++ l2).
Proof.
  induction 1 as [|x l1 H N IH]; cbn; intros N2 D; [assumption|]. constructor.
  - rewrite in_app_iff. intros [K|K]; [contradiction|]. apply (D x); auto. 
  - apply IH; auto.
Qed.

Lemma NoDup_map_cons {A} (x : A) ll : NoDup ll -> NoDup (map (cons x) ll).
Proof.
  induction 1 as [|l ll H N IH]; cbn; constructor; [|assumption].
  rewrite in_map_iff. intros (z & [= ->] & K). contradiction.
Qed.

Lemma NoDup_choose {T} (l : list T) : NoDup l -> forall k, NoDup (choose k l).
Proof.
  assert (I : forall (l : list T) k x, In x (choose k l) -> forall i, In i x -> In i l).
  { clear. induction l as [|y l IH]; intros [|k] x H i Hi; cbn in H; try (destruct H as [<-|[]]; destruct Hi).
    - contradiction.
    - apply in_app_or in H. destruct H as [H|H]; [|right; apply (IH (S k) x H i Hi)].
      apply in_map_iff in H. destruct H as (z & <- & Hz).
      destruct Hi as [<-|Hi]; [left; reflexivity|right; eauto]. }
  induction 1 as [|y l H N IH]; intros [|k]; cbn; try (repeat constructor; intros []).
  apply NoDup_appd; [apply NoDup_map_cons; apply IH|apply (IH (S k))|].
  intros x Hx Hx'. apply in_map_iff in Hx. destruct Hx as (z & <- & _).
  apply H. apply (I l (S k) _ Hx'). left; reflexivity.
Qed.

(** Permutations. *)
Lemma In_picks {T} (l : list T) x r : In (x, r) (picks l) <-> exists u v, l = u ++ x :: v /\ r = u ++ v.
Proof.
  revert x r; induction l as [|y l IH]; intros x r; cbn.
  - split; [intros []|]. intros ([|] & ? & E & _); discriminate.
  - rewrite in_map_iff. split.
    + intros [[= -> ->]|((z & w) & [= -> <-] & H)].
      * exists [], r. auto.
      * cbn in *. apply IH in H. destruct H as (u & v & -> & ->). exists (y :: u), v. auto.
    + intros ([|z u] & v & E & ->); injection E as -> E; [left; subst; reflexivity|].
      right. exists (x, u ++ v). split; [reflexivity|]. apply IH. eauto.
Qed.

Lemma In_perms {T} n : forall (l x : list T), length l = n ->
  (In x (perms n l) <-> Permutation l x).
Proof.
  induction n as [|n IH]; intros l x L; cbn.
  - destruct l; [|discriminate]. split; [intros [<-|[]]; constructor|].
    intros P. apply Permutation_nil in P. auto.
  - rewrite in_flat_map. split.
    + intros ((y & r) & Hp & Hx). cbn in Hx. apply in_map_iff in Hx. destruct Hx as (z & <- & Hz).
      apply In_picks in Hp. destruct Hp as (u & v & -> & ->).
      rewrite app_length in L. cbn in L.
      apply IH in Hz; [|rewrite app_length; lia].
      rewrite <- Hz. symmetry. apply Permutation_middle.
    + intros P. destruct x as [|y x].
      { apply Permutation_sym, Permutation_nil in P. subst. discriminate. }
      assert (Hy : In y l) by (apply (Permutation_in y (Permutation_sym P)); left; reflexivity).
      apply in_split in Hy. destruct Hy as (u & v & ->).
      exists (y, u ++ v). split; [apply In_picks; eauto|]. cbn. apply in_map. apply IH.
      * rewrite app_length in *. cbn in L. lia.
      * apply (Permutation_cons_inv (a := y)). rewrite <- P. apply Permutation_middle.
Qed.

Lemma NoDup_flat_map {A B} (f : A -> list B) l :
  NoDup l -> (forall a, In a l -> NoDup (f a)) ->
  (forall a b y, In a l -> In b l -> In y (f a) -> In y (f b) -> a = b) ->
  NoDup (flat_map f l).
Proof.
  induction 1 as [|a l H N IH]; intros ND D; cbn; [constructor|].
  apply NoDup_appd.
  - apply ND. left; reflexivity.
  - apply IH; [intros; apply ND; right; assumption|]. intros; eapply D; eauto; right; assumption.
  - intros y Hy Hy'. apply in_flat_map in Hy'. destruct Hy' as (b & Hb & Hyb).
    assert (a = b) by (eapply D; eauto; [left; reflexivity|right; assumption]). subst. contradiction.
Qed.

Lemma NoDup_picks {T} (l : list T) : NoDup l -> NoDup (map fst (picks l)) /\ forall p, In p (picks l) -> NoDup (snd p).
Proof.
  intros N. split.
  - assert (E : map fst (picks l) = l).
    { clear. induction l as [|x l IH]; [reflexivity|]. cbn. rewrite map_map. cbn. f_equal. exact IH. }
    rewrite E. exact N.
  - intros (x & r) H. apply In_picks in H. destruct H as (u & v & -> & ->). cbn.
    apply NoDup_remove_1 in N. exact N.
Qed.

Lemma NoDup_perms {T} n : forall (l : list T), length l = n -> NoDup l -> NoDup (perms n l).
Proof.
  induction n as [|n IH]; intros l L N; cbn; [repeat constructor; intros []|].
  destruct (NoDup_picks l N) as [P1 P2].
  apply NoDup_flat_map.
  - apply (NoDup_map_inv fst). exact P1.
  - intros (x & r) H. cbn. apply NoDup_map_cons. apply IH; [|apply (P2 _ H)].
    apply In_picks in H. destruct H as (u & v & -> & ->). rewrite app_length in *. cbn in L. lia.
  - intros (x & r) (x' & r') y H H' Hy Hy'. cbn in *.
    apply in_map_iff in Hy. destruct Hy as (z & <- & _).
    apply in_map_iff in Hy'. destruct Hy' as (z' & [= -> ->] & _).
    clear - H H' P1. revert H H' P1. generalize (picks l). intros ps.
    induction ps as [|p ps IHp]; intros H H' P1; [destruct H|]. cbn in P1. inversion P1; subst.
    destruct H as [->|H]; destruct H' as [E|H'].
    + congruence.
    + exfalso. apply H2. apply (in_map fst) in H'. exact H'.
    + exfalso. apply H2. subst. apply (in_map fst) in H. exact H.
    + apply IHp; assumption.
Qed.

(** Sorted selections. *)
Lemma sorted_nth x : StronglySorted lt x <->
  forall p q u v, nth_error x p = Some u -> nth_error x q = Some v -> p < q -> u < v.
Proof.
  split.
  - induction 1 as [|y x SS IH Hy]; intros [|p] [|q] u v Hp Hq L; cbn in *; try lia; try discriminate.
    + injection Hp as ->. rewrite Forall_forall in Hy. apply Hy. apply nth_error_In in Hq. exact Hq.
    + apply (IH p q); [assumption|assumption|lia].
  - induction x as [|y x IH]; intros H; constructor.
    + apply IH. intros p q u v Hp Hq L. apply (H (S p) (S q) u v Hp Hq). lia.
    + apply Forall_forall. intros v Hv. apply In_nth_error in Hv. destruct Hv as (q & Hq).
      apply (H 0 (S q) y v); [reflexivity|exact Hq|lia].
Qed.

Lemma sorted_seq s n : StronglySorted lt (seq s n).
Proof.
  revert s; induction n as [|n IH]; intros s; cbn; constructor; [apply IH|].
  apply Forall_forall. intros i Hi. apply in_seq in Hi. lia.
Qed.

Lemma sorted_NoDup x : StronglySorted lt x -> NoDup x.
Proof.
  induction 1 as [|y x SS IH Hy]; constructor; [|assumption]. intros H.
  rewrite Forall_forall in Hy. specialize (Hy _ H). lia.
Qed.

Lemma sorted_unique x : forall y, StronglySorted lt x -> StronglySorted lt y -> Permutation x y -> x = y.
Proof.
  induction x as [|a x IH]; intros y Sx Sy P.
  - apply Permutation_nil in P. auto.
  - destruct y as [|b y]; [apply Permutation_sym, Permutation_nil in P; discriminate|].
    inversion Sx as [|? ? Sx' Fx]; inversion Sy as [|? ? Sy' Fy]; subst.
    rewrite Forall_forall in Fx, Fy.
    assert (a = b).
    { assert (Ha : In a (b :: y)) by (apply (Permutation_in a P); left; reflexivity).
      assert (Hb : In b (a :: x)) by (apply (Permutation_in b (Permutation_sym P)); left; reflexivity).
      destruct Ha as [->|Ha]; [reflexivity|]. destruct Hb as [->|Hb]; [reflexivity|].
      specialize (Fx _ Hb). specialize (Fy _ Ha). lia. }
    subst b. f_equal. apply IH; try assumption. apply (Permutation_cons_inv P).
Qed.

Lemma filter_sorted f x : StronglySorted lt x -> StronglySorted lt (filter f x).
Proof.
  induction 1 as [|y x SS IH Hy]; cbn; [constructor|]. destruct (f y); [|assumption].
  constructor; [assumption|]. rewrite Forall_forall in *. intros i Hi. apply filter_In in Hi. apply Hy, Hi.
Qed.

(** Every selection is a permutation of an ascending one. *)
Lemma sort_exists n x : NoDup x -> (forall i, In i x -> i < n) ->
  exists c, StronglySorted lt c /\ (forall i, In i c -> i < n) /\ Permutation c x.
Proof.
  intros N B. exists (filter (fun i => existsb (Nat.eqb i) x) (seq 0 n)).
  assert (E : forall i, In i (filter (fun i => existsb (Nat.eqb i) x) (seq 0 n)) <-> In i x).
  { intros i. rewrite filter_In, in_seq, existsb_exists. split.
    - intros (_ & j & Hj & Ej). apply Nat.eqb_eq in Ej. subst. exact Hj.
    - intros Hi. specialize (B _ Hi). split; [lia|]. exists i. split; [exact Hi|apply Nat.eqb_refl]. }
  split; [apply filter_sorted, sorted_seq|]. split; [intros i Hi; apply E in Hi; auto|].
  apply NoDup_Permutation; [|exact N|exact E]. apply NoDup_filter, seq_NoDup.
Qed.

(** The three lists of selections. *)
Lemma combinations_all n r : all_combinations n r (choose r (seq 0 n)).
Proof.
  split; [apply NoDup_choose, seq_NoDup|]. intros x.
  rewrite (In_choose _ (sorted_seq 0 n)), sorted_nth.
  split; intros (L & I & H); (split; [exact L|]); (split; [|exact H]); intros i Hi; specialize (I _ Hi);
    rewrite in_seq in *; lia.
Qed.

Lemma in_choose_seq n r c : In c (choose r (seq 0 n)) <->
  length c = r /\ (forall i, In i c -> i < n) /\ StronglySorted lt c.
Proof.
  rewrite (In_choose _ (sorted_seq 0 n)).
  split; intros (L & I & H); (split; [exact L|]); (split; [|exact H]); intros i Hi; specialize (I _ Hi);
    rewrite in_seq in *; lia.
Qed.

Lemma permutations_all n r : all_permutations n r (flat_map (fun c => perms r c) (choose r (seq 0 n))).
Proof.
  split.
  - apply NoDup_flat_map.
    + apply NoDup_choose, seq_NoDup.
    + intros c Hc. apply in_choose_seq in Hc. destruct Hc as (L & _ & H).
      apply NoDup_perms; [exact L|apply sorted_NoDup, H].
    + intros a b y Ha Hb Hy Hy'. apply in_choose_seq in Ha, Hb.
      destruct Ha as (La & _ & Sa). destruct Hb as (Lb & _ & Sb).
      apply In_perms in Hy; [|exact La]. apply In_perms in Hy'; [|exact Lb].
      apply sorted_unique; [assumption|assumption|]. rewrite Hy, Hy'. reflexivity.
  - intros x. rewrite in_flat_map. split.
    + intros (c & Hc & Hx). apply in_choose_seq in Hc. destruct Hc as (L & I & H).
      apply In_perms in Hx; [|exact L]. split; [rewrite <- L; symmetry; apply Permutation_length, Hx|].
      split; [intros i Hi; apply I; apply (Permutation_in _ (Permutation_sym Hx) Hi)|].
      apply (Permutation_NoDup Hx), sorted_NoDup, H.
    + intros (L & I & N). destruct (sort_exists n x N I) as (c & Sc & Ic & P).
      assert (Lc : length c = r) by (rewrite <- L; apply Permutation_length, P).
      exists c. split; [apply in_choose_seq; auto|]. apply In_perms; assumption.
Qed.

Lemma hd_least c x l : StronglySorted lt (c :: l) -> In x (c :: l) -> c <= x.
Proof.
  intros H. inversion H as [|? ? _ F]; subst. rewrite Forall_forall in F.
  intros [->|Hx]; [lia|]. specialize (F _ Hx). lia.
Qed.

Lemma circular_all n r : all_circular n r (flat_map (hold r) (choose r (seq 0 n))).
Proof.
  assert (H0 : forall c x, In c (choose r (seq 0 n)) -> In x (hold r c) ->
     Permutation c x /\ hd_error c = hd_error x).
  { intros c x Hc Hx. apply in_choose_seq in Hc. destruct Hc as (L & _ & _).
    destruct c as [|y c]; cbn in Hx.
    - destruct Hx as [<-|[]]. auto.
    - apply in_map_iff in Hx. destruct Hx as (z & <- & Hz).
      apply In_perms in Hz; [|cbn in L; lia]. split; [constructor; exact Hz|reflexivity]. }
  split.
  - apply NoDup_flat_map.
    + apply NoDup_choose, seq_NoDup.
    + intros c Hc. apply in_choose_seq in Hc. destruct Hc as (L & _ & H).
      destruct c as [|y c]; cbn; [repeat constructor; intros []|].
      apply NoDup_map_cons. apply NoDup_perms; [cbn in L; lia|].
      inversion H; subst. apply sorted_NoDup. assumption.
    + intros a b y Ha Hb Hy Hy'. destruct (H0 _ _ Ha Hy) as [Pa _]. destruct (H0 _ _ Hb Hy') as [Pb _].
      apply in_choose_seq in Ha, Hb.
      destruct Ha as (La & _ & Sa). destruct Hb as (Lb & _ & Sb).
      apply sorted_unique; [assumption|assumption|]. rewrite Pa, Pb. reflexivity.
  - intros x. rewrite in_flat_map. split.
    + intros (c & Hc & Hx). destruct (H0 _ _ Hc Hx) as [P E].
      apply in_choose_seq in Hc. destruct Hc as (L & I & H).
      split; [rewrite <- L; symmetry; apply Permutation_length, P|].
      split; [intros i Hi; apply I; apply (Permutation_in _ (Permutation_sym P) Hi)|].
      split; [apply (Permutation_NoDup P), sorted_NoDup, H|].
      intros h Eh i Hi. rewrite <- E in Eh. destruct c as [|y c]; [discriminate|]. injection Eh as <-.
      apply (hd_least y i c H). apply (Permutation_in _ (Permutation_sym P) Hi).
    + intros (L & I & N & Least). destruct (sort_exists n x N I) as (c & Sc & Ic & P).
      assert (Lc : length c = r) by (rewrite <- L; apply Permutation_length, P).
      exists c. split; [apply in_choose_seq; auto|].
      destruct c as [|y c]; destruct x as [|z x]; cbn in *; subst; try discriminate; [auto|].
      assert (E : y = z).
      { assert (z <= y) by (apply (Least z eq_refl); apply (Permutation_in y P); left; reflexivity).
        assert (y <= z) by (apply (hd_least y z c Sc); apply (Permutation_in z (Permutation_sym P)); left; reflexivity).
        lia. }
      subst z. apply in_map. apply In_perms; [lia|]. apply (Permutation_cons_inv P).
Qed.

(** How many there are. *)
Lemma choose_count {T} (l : list T) : forall k, k <= length l ->
  length (choose k l) * (fact k * fact (length l - k)) = fact (length l).
Proof.
  induction l as [|x l IH]; intros [|k] H; cbn [choose length] in *; try lia; [reflexivity|cbn; lia|].
  rewrite app_length, map_length.
  pose proof (IH k ltac:(lia)) as E1.
  destruct (Nat.eq_dec k (length l)) as [->|N].
  - rewrite (choose_short (S (length l))) by lia. cbn [length]. rewrite !Nat.sub_diag in *. cbn [fact] in *. nia.
  - pose proof (IH (S k) ltac:(lia)) as E2.
    replace (S (length l) - S k) with (length l - k) by lia.
    replace (length l - k) with (S (length l - S k)) in * by lia.
    cbn [fact] in *.
    replace (fact (length l) + length l * fact (length l)) with (S (length l) * fact (length l)) by reflexivity.
    set (m := length l - S k) in *. set (A := length (choose k l)) in *. set (B := length (choose (S k) l)) in *.
    assert (EN : length l = S k + m) by lia.
    set (F := fact (length l)) in *.
    assert (E2' : B * ((S k * fact k) * fact m) = F) by (rewrite <- E2; cbn; lia).
    assert (E1' : A * (fact k * (S m * fact m)) = F) by (rewrite <- E1; cbn; lia).
    replace ((fact k + k * fact k) * (fact m + m * fact m)) with (S k * fact k * (S m * fact m)) by (cbn; lia).
    rewrite EN.
    transitivity (S k * (A * (fact k * (S m * fact m))) + S m * (B * ((S k * fact k) * fact m))); [ring|].
    rewrite E1', E2'. ring.
Qed.

Lemma perms_count {T} n : forall l : list T, length l = n -> length (perms n l) = fact n.
Proof.
  induction n as [|n IH]; intros l L; [reflexivity|]. cbn [perms].
  assert (G : forall ps : list (T * list T), (forall p, In p ps -> length (snd p) = n) ->
     length (flat_map (fun p => map (cons (fst p)) (perms n (snd p))) ps) = length ps * fact n).
  { induction ps as [|p ps IHp]; intros H; [reflexivity|]. cbn.
    rewrite app_length, map_length, IH by (apply H; left; reflexivity).
    rewrite IHp by (intros; apply H; right; assumption). reflexivity. }
  rewrite G.
  - assert (E : length (picks l) = length l).
    { clear. induction l as [|x l IH]; [reflexivity|]. cbn. rewrite map_length, IH. reflexivity. }
    rewrite E, L. reflexivity.
  - intros (x & r) H. apply In_picks in H. destruct H as (u & v & -> & ->). cbn.
    rewrite app_length in *. cbn in L. lia.
Qed.

Lemma flat_map_count {A B} (f : A -> list B) l k :
  (forall a, In a l -> length (f a) = k) -> length (flat_map f l) = length l * k.
Proof.
  induction l as [|a l IH]; intros H; [reflexivity|]. cbn.
  rewrite app_length, H, IH by (try left; auto; intros; apply H; right; assumption). reflexivity.
Qed.

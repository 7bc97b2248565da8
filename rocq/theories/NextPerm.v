(** Going through all arrangements of a list in order. *)
From Coq Require Import List ZArith Bool Lia Permutation Sorted.
From Verif Require Import RendezvousModel.
Import ListNotations.
Open Scope list_scope.

Section Order.
  Context {A : Type} (lt : A -> A -> bool).
  Context (irrefl : forall x, lt x x = false)
          (trans : forall x y z, lt x y = true -> lt y z = true -> lt x z = true)
          (total : forall x y, lt x y = true \/ x = y \/ lt y x = true).

  (** The order of the dictionary. *)
  Inductive lex : list A -> list A -> Prop :=
  | lex_here : forall x y s t, lt x y = true -> lex (x :: s) (y :: t)
  | lex_there : forall x s t, lex s t -> lex (x :: s) (x :: t).

  Lemma lex_irrefl : forall s, ~ lex s s.
  Proof. induction s as [|x s IH]; intros H; inversion H; subst; [rewrite irrefl in *; discriminate|auto]. Qed.
  Lemma lex_trans : forall s t u, lex s t -> lex t u -> lex s u.
  Proof.
    intros s t u H. revert u. induction H as [x y s t H|x s t H IH]; intros u G; inversion G; subst; try (constructor; eauto; fail).
  Qed.

  Definition ge (x y : A) : Prop := lt x y = false.
  Lemma ge_trans : forall x y z, ge x y -> ge y z -> ge x z.
  Proof.
    unfold ge. intros x y z H G. destruct (lt x z) eqn:E; [|reflexivity]. destruct (total x y) as [T|[->|T]]; [congruence|congruence|].
    rewrite (trans _ _ _ T E) in G. discriminate.
  Qed.
  Lemma ge_lt : forall x y z, ge x y -> lt z y = true -> lt z x = true.
  Proof.
    unfold ge. intros x y z H G. destruct (total z x) as [T|[->|T]]; [exact T|congruence|]. rewrite (trans _ _ _ T G) in H. discriminate.
  Qed.

  Lemma split_last_some : forall (p : A -> bool) l a y b, split_last p l = Some (a, y, b) ->
    l = a ++ y :: b /\ p y = true /\ forall z, In z b -> p z = false.
  Proof.
    intros p. assert (N : forall l, split_last p l = None -> forall z, In z l -> p z = false).
    { induction l as [|x l IH]; intros H z Z; [destruct Z|]. cbn in H. destruct (split_last p l) as [[[? ?] ?]|]; [discriminate|].
      destruct (p x) eqn:P; [discriminate|]. destruct Z as [<-|Z]; auto. }
    induction l as [|x l IH]; intros a y b H; [discriminate|]. cbn in H. destruct (split_last p l) as [[[a' y'] b']|] eqn:E.
    - injection H as <- <- <-. destruct (IH _ _ _ eq_refl) as (-> & P & B). auto.
    - destruct (p x) eqn:P; [|discriminate]. injection H as <- <- <-. split; [reflexivity|]. split; [exact P|]. apply N, E.
  Qed.
  Lemma split_last_none : forall (p : A -> bool) l, split_last p l = None -> forall z, In z l -> p z = false.
  Proof.
    induction l as [|x l IH]; intros H z Z; [destruct Z|]. cbn in H. destruct (split_last p l) as [[[? ?] ?]|]; [discriminate|].
    destruct (p x) eqn:P; [discriminate|]. destruct Z as [<-|Z]; auto.
  Qed.

  Lemma next_some : forall l l', next_by lt l = Some l' -> Permutation l l' /\ lex l l'.
  Proof.
    induction l as [|x t IH]; intros l' H; [discriminate|]. cbn in H. destruct (next_by lt t) as [t'|].
    - injection H as <-. destruct (IH _ eq_refl) as (P & L). split; [constructor; exact P|apply lex_there, L].
    - destruct (split_last (lt x) t) as [[[a y] b]|] eqn:E; [|discriminate]. injection H as <-.
      destruct (split_last_some _ _ _ _ _ E) as (-> & P & _). split; [|apply lex_here, P].
      apply Permutation_trans with (x :: y :: a ++ b); [constructor; symmetry; apply Permutation_middle|].
      apply Permutation_trans with (y :: x :: a ++ b); [apply perm_swap|]. constructor.
      apply Permutation_trans with (a ++ x :: b); [apply Permutation_middle|apply Permutation_rev].
  Qed.
  Lemma next_none : forall l, next_by lt l = None -> StronglySorted ge l.
  Proof.
    induction l as [|x t IH]; intros H; [constructor|]. cbn in H. destruct (next_by lt t) as [t'|]; [discriminate|].
    destruct (split_last (lt x) t) as [[[a y] b]|] eqn:E; [discriminate|]. constructor; [apply IH; reflexivity|].
    apply Forall_forall. intros z Z. exact (split_last_none _ _ E z Z).
  Qed.

  Lemma sorted_last : forall l, StronglySorted ge l -> forall m, Permutation l m -> ~ lex l m.
  Proof.
    induction l as [|x l IH]; intros S m P H; inversion H; subst; inversion S as [|? ? S' F]; subst.
    - assert (I : In y (x :: l)) by (apply (Permutation_in _ (Permutation_sym P)); left; reflexivity).
      destruct I as [->|I]; [rewrite irrefl in *; discriminate|]. rewrite Forall_forall in F. apply F in I. unfold ge in I. congruence.
    - apply (IH S' t); [apply Permutation_cons_inv with x; exact P|assumption].
  Qed.
  Lemma sorted_first : forall l, StronglySorted (fun x y => ge y x) l -> forall m, Permutation l m -> l = m \/ lex l m.
  Proof.
    induction l as [|x l IH]; intros S m P; [left; apply Permutation_nil in P; congruence|]. inversion S as [|? ? S' F]; subst.
    destruct m as [|y m]; [apply Permutation_sym, Permutation_nil in P; discriminate|].
    destruct (total x y) as [T|[<-|T]]; [right; apply lex_here, T| |].
    - apply Permutation_cons_inv in P. destruct (IH S' m P) as [->|L]; [left; reflexivity|right; apply lex_there, L].
    - exfalso. assert (I : In y (x :: l)) by (apply (Permutation_in _ (Permutation_sym P)); left; reflexivity).
      destruct I as [->|I]; [rewrite irrefl in T; discriminate|]. rewrite Forall_forall in F. apply F in I. unfold ge in I. congruence.
  Qed.

  Lemma sorted_app : forall (R : A -> A -> Prop) a b, StronglySorted R a -> StronglySorted R b -> (forall x y, In x a -> In y b -> R x y) -> StronglySorted R (a ++ b).
  Proof.
    intros R a b SA SB H. induction SA as [|x a SA IH F]; [exact SB|]. cbn. constructor; [apply IH; intros; apply H; [right|]; assumption|].
    apply Forall_app. split; [exact F|]. apply Forall_forall. intros y Y. apply H; [left; reflexivity|exact Y].
  Qed.
  Lemma sorted_app_inv : forall (R : A -> A -> Prop) a b, StronglySorted R (a ++ b) -> StronglySorted R a /\ StronglySorted R b /\ forall x y, In x a -> In y b -> R x y.
  Proof.
    intros R a b. induction a as [|x a IH]; intros S; [split; [constructor|]; split; [exact S|intros ? ? []]|].
    cbn in S. inversion S as [|? ? S' F]; subst. apply IH in S'. destruct S' as (A1 & B1 & C1). apply Forall_app in F. destruct F as (F1 & F2).
    split; [constructor; assumption|]. split; [exact B1|]. intros u v [<-|U] V; [rewrite Forall_forall in F2; auto|auto].
  Qed.
  Lemma sorted_rev : forall (R : A -> A -> Prop) l, StronglySorted R l -> StronglySorted (fun x y => R y x) (rev l).
  Proof.
    intros R l S. induction S as [|x l S IH F]; [constructor|]. cbn. apply sorted_app; [exact IH|repeat constructor|].
    intros u v U [<-|[]]. rewrite Forall_forall in F. apply F. apply in_rev. exact U.
  Qed.

  (** Nothing is left out between an arrangement and the next one. *)
  Lemma next_least : forall l m, Permutation l m -> lex l m -> exists l', next_by lt l = Some l' /\ (l' = m \/ lex l' m).
  Proof.
    induction l as [|x t IH]; intros m P H; [inversion H|]. inversion H as [? y ? s L|? ? s L]; subst; cbn [next_by].
    - destruct (next_by lt t) as [t'|] eqn:E; [exists (x :: t'); split; [reflexivity|right; apply lex_here, L]|].
      apply next_none in E.
      assert (I : In y t).
      { assert (I : In y (x :: t)) by (apply (Permutation_in _ (Permutation_sym P)); left; reflexivity).
        destruct I as [->|I]; [rewrite irrefl in L; discriminate|exact I]. }
      destruct (split_last (lt x) t) as [[[a z] b]|] eqn:S; [|rewrite (split_last_none _ _ S y I) in L; discriminate].
      destruct (split_last_some _ _ _ _ _ S) as (-> & PZ & PB). exists (z :: rev (a ++ x :: b)). split; [reflexivity|].
      destruct (sorted_app_inv _ _ _ E) as (SA & SB & AB). inversion SB as [|? ? SB' FB]; subst.
      assert (ZY : ge y z).
      { apply in_app_iff in I. destruct I as [I|[<-|I]]; [apply AB; [exact I|left; reflexivity]|apply irrefl|]. rewrite (PB y I) in L. discriminate. }
      destruct (total z y) as [T|[<-|T]]; [right; apply lex_here, T| |unfold ge in ZY; congruence].
      assert (PS : Permutation (rev (a ++ x :: b)) s).
      { apply Permutation_cons_inv with z. apply Permutation_trans with (x :: a ++ z :: b); [|exact P].
        apply Permutation_trans with (z :: a ++ x :: b); [constructor; symmetry; apply Permutation_rev|].
        apply Permutation_trans with (z :: x :: a ++ b); [constructor; symmetry; apply Permutation_middle|].
        apply Permutation_trans with (x :: z :: a ++ b); [apply perm_swap|constructor; apply Permutation_middle]. }
      assert (SR : StronglySorted (fun u v => ge v u) (rev (a ++ x :: b))).
      { apply (sorted_rev ge). apply sorted_app; [exact SA| |].
        - constructor; [exact SB'|]. apply Forall_forall. intros u U. exact (PB u U).
        - intros u v U [<-|V].
          + unfold ge. destruct (lt u x) eqn:UX; [|reflexivity]. pose proof (AB u z U (or_introl eq_refl)) as G. unfold ge in G.
            rewrite (trans _ _ _ UX PZ) in G. discriminate.
          + apply AB; [exact U|right; exact V]. }
      destruct (sorted_first _ SR s PS) as [->|Q]; [left; reflexivity|right; apply lex_there, Q].
    - apply Permutation_cons_inv in P. destruct (IH s P L) as (t' & -> & Q). exists (x :: t'). split; [reflexivity|].
      destruct Q as [->|Q]; [left; reflexivity|right; apply lex_there, Q].
  Qed.

  (** At most [n] arrangements, but at least one, from one on. *)
  Fixpoint from (n : nat) (l : list A) : list (list A) :=
    l :: match n with
         | O => []
         | S n => if Nat.eqb n 0 then [] else match next_by lt l with Some l' => from n l' | None => [] end
         end.

  Lemma from_spec : forall n l, (1 <= n)%nat ->
    (forall m, In m (from n l) -> Permutation l m /\ (m = l \/ lex l m))
    /\ NoDup (from n l) /\ (length (from n l) <= n)%nat
    /\ (length (from n l) = n \/ forall m, Permutation l m -> l = m \/ lex l m -> In m (from n l)).
  Proof.
    induction n as [|n IH]; intros l N; [lia|]. cbn [from]. destruct (Nat.eqb_spec n 0) as [->|N0].
    - split; [intros m [<-|[]]; auto|]. split; [repeat constructor; intros []|]. cbn. split; [lia|left; reflexivity].
    - destruct (next_by lt l) as [l'|] eqn:E.
      + destruct (next_some _ _ E) as (P & L). destruct (IH l' ltac:(lia)) as (A1 & A2 & A3 & A4).
        assert (G : forall m, In m (from n l') -> Permutation l m /\ lex l m).
        { intros m M. apply A1 in M. destruct M as (M1 & M2). split; [eapply Permutation_trans; eassumption|].
          destruct M2 as [->|M2]; [exact L|eapply lex_trans; eassumption]. }
        split; [intros m [<-|M]; [auto|]; apply G in M; tauto|].
        split; [constructor; [intros I; apply G in I; exact (lex_irrefl _ (proj2 I))|exact A2]|]. cbn [length]. split; [lia|].
        destruct A4 as [A4|A4]; [left; lia|right]. intros m PM [<-|LM]; [left; reflexivity|]. right.
        destruct (next_least l m PM LM) as (l2 & E2 & Q). rewrite E in E2. injection E2 as <-.
        apply A4; [eapply Permutation_trans; [apply Permutation_sym, P|exact PM]|]. destruct Q as [->|Q]; auto.
      + split; [intros m [<-|[]]; auto|]. split; [repeat constructor; intros []|]. cbn. split; [lia|]. right.
        intros m PM [->|LM]; [left; reflexivity|]. exfalso. exact (sorted_last l (next_none l E) m PM LM).
  Qed.
End Order.

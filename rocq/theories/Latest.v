(** The last message of a history that says something, as a relation and as a function. *)
From Coq Require Import List.
Import ListNotations.

Section Latest.
  Context {E A : Type}.

  (** The last message that says something says [x]. *)
  Definition latest (says : E -> option A) (h : list E) (x : A) : Prop :=
    exists h1 e h2, h = h1 ++ e :: h2 /\ says e = Some x /\ forall e', In e' h2 -> says e' = None.
  (** The first one. *)
  Definition earliest (says : E -> option A) (h : list E) (x : A) : Prop :=
    exists h1 e h2, h = h1 ++ e :: h2 /\ says e = Some x /\ forall e', In e' h1 -> says e' = None.
  (** None says anything. *)
  Definition unsaid (says : E -> option A) (h : list E) : Prop := forall e, In e h -> says e = None.

  Lemma latest_snoc : forall says h e x,
    latest says (h ++ [e]) x <-> says e = Some x \/ (says e = None /\ latest says h x).
  Proof.
    intros says h e x. split.
    - intros (h1 & e' & h2 & E0 & S & N). destruct h2 as [|z h2 _] using rev_ind.
      + apply app_inj_tail in E0. destruct E0 as (-> & ->). left. exact S.
      + rewrite app_comm_cons, app_assoc in E0. apply app_inj_tail in E0. destruct E0 as (-> & ->).
        right. split; [apply N; apply in_or_app; right; left; reflexivity|].
        exists h1, e', h2. split; [reflexivity|]. split; [exact S|]. intros y Hy. apply N. apply in_or_app. left. exact Hy.
    - intros [S|(S & h1 & e' & h2 & -> & S' & N)].
      + exists h, e, []. split; [reflexivity|]. split; [exact S|intros ? []].
      + exists h1, e', (h2 ++ [e]). rewrite <- app_assoc. split; [reflexivity|]. split; [exact S'|].
        intros y Hy. apply in_app_or in Hy. destruct Hy as [Hy|[<-|[]]]; [auto|exact S].
  Qed.

  Lemma latest_nil : forall says x, ~ latest says [] x.
  Proof. intros says x (h1 & e & h2 & E0 & _). destruct h1; discriminate. Qed.

  (** The value of a variable that starts empty and follows [says]. *)
  Definition follow (says : E -> option A) (h : list E) : option A :=
    fold_left (fun m e => match says e with Some x => Some x | None => m end) h None.
  Lemma follow_snoc : forall says h e, follow says (h ++ [e]) = match says e with Some x => Some x | None => follow says h end.
  Proof. intros. unfold follow. rewrite fold_left_app. reflexivity. Qed.
  Lemma follow_latest : forall says h x, follow says h = Some x <-> latest says h x.
  Proof.
    intros says h. induction h as [|e h IH] using rev_ind; intros x.
    - split; [discriminate|intros H; destruct (latest_nil _ _ H)].
    - rewrite follow_snoc, latest_snoc. destruct (says e) as [y|].
      + split; [auto|intros [H|(H & _)]; [exact H|discriminate]].
      + rewrite IH. split; [auto|intros [H|(_ & H)]; [discriminate|exact H]].
  Qed.
  Lemma follow_unsaid : forall says h, follow says h = None <-> unsaid says h.
  Proof.
    intros says h. unfold unsaid. induction h as [|e h IH] using rev_ind.
    - split; [intros _ ? []|reflexivity].
    - rewrite follow_snoc. split.
      + destruct (says e) eqn:S; [discriminate|]. intros F y Hy. apply in_app_or in Hy. destruct Hy as [Hy|[<-|[]]]; [apply IH; auto|exact S].
      + intros H. rewrite (H e) by (apply in_or_app; right; left; reflexivity). apply IH. intros y Hy. apply H. apply in_or_app. auto.
  Qed.

  (** The value of a variable that keeps the first thing said. *)
  Definition keep (says : E -> option A) (h : list E) : option A :=
    fold_left (fun m e => match m with Some x => Some x | None => says e end) h None.
  Lemma keep_snoc : forall says h e, keep says (h ++ [e]) = match keep says h with Some x => Some x | None => says e end.
  Proof. intros. unfold keep. rewrite fold_left_app. reflexivity. Qed.
  Lemma keep_unsaid : forall says h, keep says h = None <-> unsaid says h.
  Proof.
    intros says h. unfold unsaid. induction h as [|e h IH] using rev_ind.
    - split; [intros _ ? []|reflexivity].
    - rewrite keep_snoc. destruct (keep says h) as [y|].
      + split; [discriminate|]. intros H. assert (X : Some y = None) by (apply IH; intros z Hz; apply H; apply in_or_app; auto). discriminate.
      + split.
        * intros F z Hz. apply in_app_or in Hz. destruct Hz as [Hz|[<-|[]]]; [apply IH; auto|exact F].
        * intros H. apply H. apply in_or_app. right. left. reflexivity.
  Qed.
  Lemma keep_earliest : forall says h x, keep says h = Some x <-> earliest says h x.
  Proof.
    intros says h x. split.
    - induction h as [|e h IH] using rev_ind; [discriminate|]. rewrite keep_snoc. destruct (keep says h) as [y|] eqn:K.
      + intros E0. destruct (IH E0) as (h1 & e' & h2 & -> & S & N). exists h1, e', (h2 ++ [e]).
        rewrite <- app_assoc. auto.
      + intros S. exists h, e, []. split; [reflexivity|]. split; [exact S|]. apply keep_unsaid. exact K.
    - intros (h1 & e & h2 & -> & S & N). induction h2 as [|z h2 IH] using rev_ind.
      + rewrite keep_snoc. rewrite (proj2 (keep_unsaid says h1) N). exact S.
      + rewrite app_comm_cons, app_assoc, keep_snoc, IH. reflexivity.
  Qed.
End Latest.

(** Histories of a service: a list of received messages, handled one after the other, and the
    messages sent while handling each.  Message handling in OpenUxAS is single threaded per
    service (LmcpObjectNetworkClientBase.cpp:275-352). *)
From Coq Require Import List.
Import ListNotations.
Open Scope list_scope.

Section Run.
  Context {S E O : Type} (step : S -> E -> S * list O) (init : S).

  (** The state after a history and what was sent at each step. *)
  Definition run (evs : list E) : S * list (E * list O) :=
    fold_left (fun st e => let (s', o) := step (fst st) e in (s', snd st ++ [(e, o)]))
              evs (init, []).

  Lemma run_snoc evs e :
    run (evs ++ [e]) = (fst (step (fst (run evs)) e),
                        snd (run evs) ++ [(e, snd (step (fst (run evs)) e))]).
  Proof.
    unfold run. rewrite fold_left_app. cbn [fold_left].
    destruct (step _ e) as (s', o). reflexivity.
  Qed.

  Lemma run_events evs : map fst (snd (run evs)) = evs.
  Proof.
    induction evs as [|e evs IH] using rev_ind; [reflexivity|].
    rewrite run_snoc. cbn [snd]. rewrite map_app, IH. reflexivity.
  Qed.

  Lemma run_split evs t1 x t2 :
    snd (run evs) = t1 ++ x :: t2 ->
    exists s, run (map fst t1) = (s, t1) /\
              run (map fst t1 ++ [fst x]) = (fst (step s (fst x)), t1 ++ [x]) /\
              snd x = snd (step s (fst x)).
  Proof.
    revert t1 x t2. induction evs as [|e evs IH] using rev_ind; intros t1 x t2.
    - cbn. destruct t1; discriminate.
    - rewrite run_snoc. cbn [snd].
      destruct t2 as [|y t2] using rev_ind.
      + intros H. apply app_inj_tail in H. destruct H as (E1 & E2). subst x t1. cbn [fst snd].
        rewrite run_events. exists (fst (run evs)). split; [destruct (run evs); auto|].
        rewrite run_snoc. auto.
      + clear IHt2. rewrite app_comm_cons, app_assoc. intros H. apply app_inj_tail in H.
        destruct H as (E1 & _). eapply IH; eauto.
  Qed.

  (** An invariant of the state and the history. *)
  Lemma run_inv (P : list E -> S -> list (E * list O) -> Prop) :
    P [] init [] ->
    (forall evs e s t s' o, P evs s t -> step s e = (s', o) -> run evs = (s, t) ->
       P (evs ++ [e]) s' (t ++ [(e, o)])) ->
    forall evs, P evs (fst (run evs)) (snd (run evs)).
  Proof.
    intros H0 HS evs. induction evs as [|e evs IH] using rev_ind; [exact H0|].
    rewrite run_snoc. cbn [fst snd].
    destruct (step (fst (run evs)) e) as (s', o) eqn:V. cbn [fst snd].
    eapply HS; eauto. destruct (run evs); auto.
  Qed.
End Run.

(** Everything sent in a history. *)
Definition sent {E O : Type} (t : list (E * list O)) : list O := flat_map snd t.

Lemma sent_snoc {E O : Type} (t : list (E * list O)) e o : sent (t ++ [(e, o)]) = sent t ++ o.
Proof. unfold sent. rewrite flat_map_app. cbn. rewrite app_nil_r. auto. Qed.

Lemma sent_app {E O : Type} (a b : list (E * list O)) : sent (a ++ b) = sent a ++ sent b.
Proof. apply flat_map_app. Qed.

(** A trace is the events with what they caused; its prefixes are traces. *)
Lemma in_sent {E O : Type} (t : list (E * list O)) x :
  In x (sent t) <-> exists t1 e o t2, t = t1 ++ (e, o) :: t2 /\ In x o.
Proof.
  unfold sent. rewrite in_flat_map. split.
  - intros ((e, o) & I & X). apply in_split in I. destruct I as (t1 & t2 & ->).
    exists t1, e, o, t2. auto.
  - intros (t1 & e & o & t2 & -> & X). exists (e, o). split; auto. apply in_or_app. right. left. auto.
Qed.

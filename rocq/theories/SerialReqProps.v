(** Property C41: requests are forwarded one at a time. *)
From Coq Require Import List ZArith Bool Lia.
From Verif Require Import Run SerialReqModel SerialReqSpec.
Import ListNotations.
Open Scope list_scope.
Open Scope Z_scope.

Definition history (evs : list event) : list (event * list output) := snd (run step init evs).
Definition state_of (evs : list event) : state := fst (run step init evs).
Definition done (evs : list event) : list Z := forwarded (sent (history evs)).

Lemma done_snoc evs e : done (evs ++ [e]) = done evs ++ forwarded (snd (step (state_of evs) e)).
Proof.
  unfold done, history, state_of. rewrite run_snoc. cbn [snd]. rewrite sent_snoc.
  unfold forwarded. apply map_app.
Qed.

Lemma state_snoc evs e : state_of (evs ++ [e]) = fst (step (state_of evs) e).
Proof. unfold state_of. rewrite run_snoc. reflexivity. Qed.

Lemma requests_snoc evs e : requests (evs ++ [e]) = requests evs ++ match e with EvRequest r => [r] | _ => [] end.
Proof. unfold requests. rewrite flat_map_app. cbn. rewrite app_nil_r. reflexivity. Qed.

Lemma step_queue s e :
  forwarded (snd (step s e)) ++ waiting (fst (step s e)) =
  waiting s ++ match e with EvRequest r => [r] | _ => [] end.
Proof.
  destruct s as [[|w ws] c a]; destruct e; cbn; try destruct c; try destruct a; cbn; rewrite ?app_nil_r; reflexivity.
Qed.

Lemma queue_all evs : requests evs = done evs ++ waiting (state_of evs).
Proof.
  induction evs as [|e evs IH] using rev_ind; [reflexivity|].
  rewrite requests_snoc, done_snoc, state_snoc, IH, <- !app_assoc, step_queue. reflexivity.
Qed.

(** C41: the requests are forwarded in the order of arrival, each at most once. *)
Theorem C41_order : forall evs, exists rest, requests evs = done evs ++ rest.
Proof. intros evs. exists (waiting (state_of evs)). apply queue_all. Qed.
Print Assumptions C41_order.

Lemma clear_waiting evs : clear (state_of evs) = true -> waiting (state_of evs) = [].
Proof.
  induction evs as [|e evs IH] using rev_ind; [reflexivity|]. rewrite state_snoc.
  destruct (state_of evs) as [w c a]. cbn in IH. destruct e; cbn.
  - destruct w as [|x w]; cbn; [destruct c; cbn; [discriminate|discriminate]|]. intros C. specialize (IH C). discriminate.
  - destruct w as [|x w]; cbn; [reflexivity|]. intros C. specialize (IH C). discriminate.
  - destruct a; cbn; [|exact IH]. destruct w as [|x w]; cbn; [reflexivity|]. intros C. specialize (IH C). discriminate.
Qed.

(** After forwarding, nothing is clear until the next response or timeout. *)
Lemma busy_until s mid : clear s = false -> (forall e, In e mid -> ~ releases e) ->
  clear (fst (run step s mid)) = false /\ sent (snd (run step s mid)) = [].
Proof.
  intros C H. induction mid as [|e mid IH] using rev_ind; [auto|].
  destruct IH as [I1 I2]; [intros x Hx; apply H, in_or_app; auto|].
  rewrite run_snoc. cbn [fst snd]. rewrite sent_snoc, I2.
  assert (N : ~ releases e) by (apply H, in_or_app; right; left; reflexivity).
  destruct e as [r| |]; [|exfalso; apply N; left; reflexivity|exfalso; apply N; right; reflexivity].
  cbn [step]. rewrite I1, andb_false_r. auto.
Qed.

Lemma run_from {S E O} (stp : S -> E -> S * list O) s a b :
  run stp s (a ++ b) = (fst (run stp (fst (run stp s a)) b), snd (run stp s a) ++ snd (run stp (fst (run stp s a)) b)).
Proof.
  induction b as [|e b IH] using rev_ind.
  - rewrite app_nil_r. destruct (run stp s a) as (s', t). cbn. rewrite app_nil_r. reflexivity.
  - rewrite app_assoc, !run_snoc, IH. cbn [fst snd]. rewrite app_assoc. reflexivity.
Qed.

Lemma forward_busy evs e o : In o (snd (step (state_of evs) e)) -> clear (state_of (evs ++ [e])) = false.
Proof.
  rewrite state_snoc. pose proof (clear_waiting evs) as CW. destruct (state_of evs) as [w c a]. cbn in CW.
  destruct e; cbn.
  - destruct w, c; cbn; tauto.
  - destruct w; cbn; [tauto|]. intros _. destruct c; [specialize (CW eq_refl); discriminate|reflexivity].
  - destruct a; [|intros []]. destruct w; cbn; [tauto|]. intros _. destruct c; [specialize (CW eq_refl); discriminate|reflexivity].
Qed.

(** C41: of two forwarded requests, the second is forwarded only when a response or a timeout came
    after the first. *)
Theorem C41_single : forall evs a e1 o1 mid e2 o2 b x1 x2,
  history evs = a ++ (e1, o1) :: mid ++ (e2, o2) :: b -> In x1 o1 -> In x2 o2 ->
  exists e, In e (map fst mid ++ [e2]) /\ releases e.
Proof.
  intros evs a e1 o1 mid e2 o2 b x1 x2 H I1 I2. unfold history in H.
  destruct (run_split _ _ _ _ _ _ H) as (s1 & R1 & R2 & R3). cbn [fst snd] in *.
  replace (a ++ (e1, o1) :: mid ++ (e2, o2) :: b) with ((a ++ (e1, o1) :: mid) ++ (e2, o2) :: b) in H
    by (rewrite <- app_assoc; reflexivity).
  destruct (run_split _ _ _ _ _ _ H) as (s2 & Q1 & _ & Q3). cbn [fst snd] in *.
  assert (D : (exists e, In e (map fst mid ++ [e2]) /\ releases e) \/
              forall e, In e (map fst mid ++ [e2]) -> ~ releases e).
  { generalize (map fst mid ++ [e2]). intros l. clear. induction l as [|e l IH]; [right; intros e []|].
    destruct IH as [(x & X & R)|N]; [left; exists x; split; [right; exact X|exact R]|].
    destruct e; [right|left; exists EvResponse; split; [left; reflexivity|left; reflexivity]|
                      left; exists EvTimeout; split; [left; reflexivity|right; reflexivity]].
    intros x [<-|X]; [intros [C|C]; discriminate|apply N, X]. }
  destruct D as [D|D]; [exact D|]. exfalso.
  assert (E1 : state_of (map fst a) = s1) by (unfold state_of; rewrite R1; reflexivity).
  assert (B : clear (state_of (map fst a ++ [e1])) = false).
  { apply (forward_busy _ _ x1). rewrite E1, <- R3. exact I1. }
  destruct (busy_until (state_of (map fst a ++ [e1])) (map fst mid ++ [e2]) B D) as [_ SN].
  rewrite run_snoc in SN. cbn [snd] in SN. rewrite sent_snoc in SN.
  assert (E2 : fst (run step (state_of (map fst a ++ [e1])) (map fst mid)) = s2).
  { rewrite map_app in Q1. cbn [map] in Q1.
    replace (map fst a ++ fst (e1, o1) :: map fst mid) with ((map fst a ++ [e1]) ++ map fst mid) in Q1
      by (rewrite <- app_assoc; reflexivity).
    rewrite run_from in Q1. injection Q1 as Q1 _. exact Q1. }
  rewrite E2, <- Q3 in SN. apply app_eq_nil in SN. destruct SN as [_ ->]. destruct I2.
Qed.
Print Assumptions C41_single.

(** C41: each response forwards the next waiting request: once there were as many responses
    after a history as requests were waiting, all are forwarded. *)
Theorem C41_all : forall evs n,
  (length (requests evs) <= length (done evs) + n)%nat ->
  done (evs ++ repeat EvResponse n) = requests evs.
Proof.
  intros evs n. revert evs. induction n as [|n IH]; intros evs H.
  - cbn [repeat]. rewrite app_nil_r. pose proof (queue_all evs) as Q.
    destruct (waiting (state_of evs)) as [|w ws] eqn:W; [rewrite Q, app_nil_r; reflexivity|].
    rewrite Q, app_length in H. cbn in H. lia.
  - cbn [repeat]. replace (evs ++ EvResponse :: repeat EvResponse n) with ((evs ++ [EvResponse]) ++ repeat EvResponse n)
      by (rewrite <- app_assoc; reflexivity).
    rewrite IH.
    + rewrite requests_snoc, app_nil_r. reflexivity.
    + rewrite requests_snoc, app_nil_r, done_snoc, app_length.
      pose proof (queue_all evs) as Q. cbn [step]. unfold release.
      destruct (waiting (state_of evs)) as [|w ws]; cbn; [rewrite Q, app_nil_r; lia|lia].
Qed.
Print Assumptions C41_all.

(** C41: a request that arrives after the response to the last one is forwarded at once. *)
Theorem C41_idle : forall evs r,
  done evs = requests evs ->
  done ((evs ++ [EvResponse]) ++ [EvRequest r]) = requests evs ++ [r].
Proof.
  intros evs r H. pose proof (queue_all evs) as Q. rewrite H in Q.
  assert (W : waiting (state_of evs) = []).
  { destruct (waiting (state_of evs)) as [|w ws]; [reflexivity|].
    apply (f_equal (@length Z)) in Q. rewrite app_length in Q. cbn in Q. lia. }
  rewrite !done_snoc, state_snoc. cbn [step]. unfold release. rewrite W. cbn.
  rewrite H, app_nil_r. reflexivity.
Qed.
Print Assumptions C41_idle.

Definition case : list event := [EvRequest 1; EvRequest 2; EvRequest 3; EvResponse; EvTimeout; EvTimeout; EvResponse; EvRequest 4].

Example case_done : sent (history case) = [OutForward 1; OutForward 2; OutForward 3; OutForward 4].
Proof. reflexivity. Qed.

Example idle_case : done [EvRequest 1] = requests [EvRequest 1].
Proof. reflexivity. Qed.

(** C41: if the last request was forwarded on arrival or at an answer, a timeout brings the next waiting request forward. *)
Theorem C41_timeout : forall evs a e o b r rest,
  history evs = a ++ (e, o) :: b -> o <> [] -> e <> EvTimeout ->
  (forall e', In e' (map fst b) -> exists r', e' = EvRequest r') ->
  requests evs = done evs ++ r :: rest -> done (evs ++ [EvTimeout]) = done evs ++ [r].
Proof.
  intros evs a e o b r rest H N T B Q.
  assert (A : armed (state_of evs) = true).
  { assert (EV : evs = (map fst a ++ [e]) ++ map fst b).
    { rewrite <- (run_events step init evs). unfold history in H. rewrite H, map_app, <- app_assoc. reflexivity. }
    rewrite EV. clear Q EV. unfold history in H. destruct (run_split _ _ _ _ _ _ H) as (s & R & _ & O). cbn [fst snd] in *.
    assert (A0 : armed (state_of (map fst a ++ [e])) = true).
    { rewrite state_snoc. unfold state_of. rewrite R. cbn [fst]. rewrite O in N. destruct s as [w c ar].
      destruct e; [| |contradiction]; destruct w; cbn in *; try destruct c; cbn in *; try reflexivity; contradiction. }
    revert B. generalize (map fst b). clear - A0. intros l. induction l as [|x l IH] using rev_ind; intros B; [rewrite app_nil_r; exact A0|].
    rewrite app_assoc, state_snoc. assert (A1 : armed (state_of ((map fst a ++ [e]) ++ l)) = true) by (apply IH; intros e' I; apply B, in_or_app; auto).
    destruct (B x) as (r' & ->); [apply in_or_app; right; left; reflexivity|]. cbn [step]. destruct (_ && _); [reflexivity|exact A1]. }
  rewrite (queue_all evs) in Q. apply app_inv_head in Q. rewrite done_snoc. f_equal. cbn [step]. rewrite A. unfold release. cbn [waiting]. rewrite Q. reflexivity.
Qed.
Print Assumptions C41_timeout.

Example timeout_case : history [EvRequest 1; EvRequest 2] = [] ++ (EvRequest 1, [OutForward 1]) :: [(EvRequest 2, [])] /\
  requests [EvRequest 1; EvRequest 2] = done [EvRequest 1; EvRequest 2] ++ 2 :: [].
Proof. split; reflexivity. Qed.

(** C41: timeouts alone do not bring a waiting request forward: the timer cannot restart itself, so
    after one timeout an unanswered request blocks the service. *)
Theorem C41_timeout_refuted :
  exists evs, forall n, done (evs ++ repeat EvTimeout n) <> requests evs.
Proof.
  exists [EvRequest 1; EvRequest 2; EvRequest 3]. intros n.
  assert (G : forall m, done ([EvRequest 1; EvRequest 2; EvRequest 3] ++ repeat EvTimeout (S m)) = [1; 2] /\
                        armed (state_of ([EvRequest 1; EvRequest 2; EvRequest 3] ++ repeat EvTimeout (S m))) = false).
  { induction m as [|m IH]; [split; reflexivity|].
    replace (repeat EvTimeout (S (S m))) with (repeat EvTimeout (S m) ++ [EvTimeout]).
    2:{ clear. induction m as [|m IH]; [reflexivity|]. cbn in *. f_equal. exact IH. }
    rewrite app_assoc, done_snoc, state_snoc. destruct IH as [I1 I2]. cbn [step]. rewrite I1, I2. split; [reflexivity|exact I2]. }
  destruct n as [|n]; [discriminate|]. destruct (G n) as [-> _]. discriminate.
Qed.
Print Assumptions C41_timeout_refuted.

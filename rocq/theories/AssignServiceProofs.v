(** Proofs about the assignment service. *)
From Coq Require Import List Arith ZArith Bool Permutation Lia.
From Verif Require Import Base ZMap Run AlgebraModel AlgebraSpec FormulaModel FormulaSpec
  FormulaProps AssignModel AssignSpec AssignProps AssignServiceModel AssignServiceSpec.
Import ListNotations.
Open Scope list_scope.
Open Scope Z_scope.

Lemma last_request_snoc i h e :
  last_request i (h ++ [e]) =
  match e with EvRequest q => if q_id q =? i then Some q else last_request i h | _ => last_request i h end.
Proof. unfold last_request. rewrite fold_left_app. reflexivity. Qed.

Lemma last_matrix_snoc i h e :
  last_matrix i (h ++ [e]) =
  match e with EvMatrix j m => if j =? i then Some m else last_matrix i h | _ => last_matrix i h end.
Proof. unfold last_matrix. rewrite fold_left_app. reflexivity. Qed.

Lemma last_options_snoc i k h e :
  last_options i k (h ++ [e]) =
  match e with
  | EvOptions o => if (po_request o =? i) && (po_task o =? k) then Some o else last_options i k h
  | _ => last_options i k h
  end.
Proof. unfold last_options. rewrite fold_left_app. reflexivity. Qed.

Lemma fresh_snoc i t e o :
  fresh i (t ++ [(e, o)]) =
  if (about e =? i) && negb (match o with [] => true | _ => false end)
  then [] else fresh i t ++ [e].
Proof. unfold fresh. rewrite fold_left_app. reflexivity. Qed.

Lemma results_snoc i t e o :
  results i (t ++ [(e, o)]) =
  results i t ++ (if (about e =? i) && negb (match o with [] => true | _ => false end)
                  then [o] else []).
Proof.
  unfold results. rewrite filter_app, map_app, filter_app. f_equal. cbn [filter fst].
  destruct (about e =? i); cbn [andb map filter snd]; auto.
Qed.

Lemma about_request i h e : about e <> i -> last_request i (h ++ [e]) = last_request i h.
Proof.
  intros N. rewrite last_request_snoc. destruct e; auto. cbn in N.
  destruct (Z.eqb_spec (q_id q) i); [congruence|auto].
Qed.
Lemma about_matrix i h e : about e <> i -> last_matrix i (h ++ [e]) = last_matrix i h.
Proof.
  intros N. rewrite last_matrix_snoc. destruct e; auto. cbn in N.
  destruct (Z.eqb_spec req i); [congruence|auto].
Qed.
Lemma about_options i k h e : about e <> i -> last_options i k (h ++ [e]) = last_options i k h.
Proof.
  intros N. rewrite last_options_snoc. destruct e; auto. cbn in N.
  destruct (Z.eqb_spec (po_request o) i); [congruence|auto].
Qed.

Lemma options_key i k h o : last_options i k h = Some o -> po_request o = i /\ po_task o = k.
Proof.
  induction h as [|e h IH] using rev_ind; [discriminate|].
  rewrite last_options_snoc. destruct e; auto.
  destruct (Z.eqb_spec (po_request o0) i); cbn [andb]; auto.
  destruct (Z.eqb_spec (po_task o0) k); auto. intros [= <-]. auto.
Qed.

Lemma request_key i h q : last_request i h = Some q -> q_id q = i.
Proof.
  induction h as [|e h IH] using rev_ind; [discriminate|].
  rewrite last_request_snoc. destruct e; auto.
  destruct (Z.eqb_spec (q_id q0) i); auto. intros [= <-]. auto.
Qed.

(** What is kept for a request is what the messages say. *)
Definition keeps (i : Z) (h : list event) (p : prereq) : Prop :=
  p_request p = last_request i h /\ p_matrix p = last_matrix i h /\
  NoDup (map fst (p_options p)) /\
  forall k, zget (p_options p) k = last_options i k h.

Lemma keeps_ready i h p : keeps i h p -> (ready p = true <-> complete i h).
Proof.
  intros (R & M & _ & O). unfold ready, complete. rewrite R, M.
  destruct (last_request i h) as [q|]; [|split; [discriminate|intros (? & ? & ? & _); discriminate]].
  destruct (last_matrix i h) as [m|]; [|split; [discriminate|intros (? & ? & _ & ? & _); discriminate]].
  assert (E : (forallb (fun t => zhas (p_options p) t) (q_tasks q) = true) <->
              (forall k, In k (q_tasks q) -> last_options i k h <> None)).
  { rewrite forallb_forall. unfold zhas. split; intros H k K; specialize (H k K); rewrite O in *;
      destruct (last_options i k h); congruence. }
  destruct (q_tasks q) as [|t ts] eqn:T.
  - split; [discriminate|]. intros (q' & m' & [= <-] & _ & N & _). congruence.
  - rewrite <- T in *. rewrite E. split.
    + intros H. exists q, m. repeat split; auto. congruence.
    + intros (q' & m' & [= <-] & _ & _ & H). exact H.
Qed.

Lemma keeps_none i h p :
  keeps i h p -> ready p = true -> exists q m, p_request p = Some q /\ p_matrix p = Some m /\
  last_request i h = Some q /\ last_matrix i h = Some m.
Proof.
  intros K R. apply (keeps_ready _ _ _ K) in R. destruct R as (q & m & A & B & _).
  destruct K as (E1 & E2 & _). exists q, m. rewrite E1, E2. auto.
Qed.

Section Service.
Context (limit : Z) (order : list costEntry -> node -> list Z)
        (ord : zmap planOptions -> zmap planOptions)
        (vord : list (Z * vehicleState) -> list (Z * vehicleState)).

Notation step := (sstep limit order ord vord).
Notation calc := (calculate limit order ord vord).

(** The change a message makes to its entry. *)
Definition change (e : event) (p : prereq) : prereq :=
  match e with
  | EvRequest q => {| p_request := Some q; p_options := p_options p; p_matrix := p_matrix p |}
  | EvOptions o => {| p_request := p_request p;
                      p_options := zset (p_options p) (po_task o) o; p_matrix := p_matrix p |}
  | EvMatrix _ m => {| p_request := p_request p; p_options := p_options p; p_matrix := Some m |}
  end.

Lemma step_handle s e : step s e = handle limit order ord vord (about e) (change e) s.
Proof. destruct e; reflexivity. Qed.

Lemma change_keeps e h p : keeps (about e) h p -> keeps (about e) (h ++ [e]) (change e p).
Proof.
  intros (R & M & N & O). destruct e as [q|o|i m]; unfold keeps; cbn [change p_request p_matrix p_options about] in *;
    rewrite last_request_snoc, last_matrix_snoc; rewrite ?Z.eqb_refl.
  - repeat split; auto. intros k. rewrite last_options_snoc. auto.
  - repeat split; auto; [apply NoDup_keys_zset; auto|].
    intros k. rewrite last_options_snoc, zget_set, Z.eqb_refl. cbn [andb].
    rewrite Z.eqb_sym, O. auto.
  - repeat split; auto. intros k. rewrite last_options_snoc. auto.
Qed.

Definition entry_of (s : state) (i : Z) : prereq :=
  match zget s i with Some p => p | None => prereq0 end.

Lemma calc_nonempty p : ready p = true -> calc p <> [].
Proof.
  unfold ready, calculate. destruct (p_request p); [|discriminate].
  destruct (p_matrix p); [|discriminate]. intros _.
  destruct (initializeAlgebra _ _); try discriminate.
  destruct (calculateAssignment _ _ _ _ _ _) as [[?|]|]; discriminate.
Qed.

Definition kept (s : state) (t : trace) : Prop := forall i, keeps i (fresh i t) (entry_of s i).

Lemma kept0 : kept [] [].
Proof. intros i. repeat split; auto. constructor. Qed.

Lemma kept_step s t e :
  kept s t ->
  kept (fst (step s e)) (t ++ [(e, snd (step s e))]) /\
  (ready (change e (entry_of s (about e))) = true <-> snd (step s e) <> []) /\
  (snd (step s e) <> [] -> snd (step s e) = calc (change e (entry_of s (about e)))).
Proof.
  intros K. rewrite step_handle. unfold handle. fold (entry_of s (about e)). cbn zeta.
  set (p := change e (entry_of s (about e))).
  assert (KP : keeps (about e) (fresh (about e) t ++ [e]) p) by (apply change_keeps; auto).
  destruct (ready p) eqn:R; cbn [fst snd].
  - pose proof (calc_nonempty p R) as NE. split; [|split; [tauto|auto]].
    intros i. rewrite fresh_snoc. destruct (Z.eqb_spec (about e) i) as [<-|D].
    + destruct (calc p); [congruence|]. cbn [andb negb].
      unfold entry_of. rewrite zget_del_same. repeat split; auto. constructor.
    + cbn [andb]. unfold entry_of. rewrite zget_del_other by auto.
      destruct (K i) as (A & B & C & F).
      unfold keeps. rewrite about_request, about_matrix by auto. repeat split; auto.
      intros k. rewrite about_options by auto. apply F.
  - split; [|split; [split; [discriminate|congruence]|congruence]].
    intros i. rewrite fresh_snoc. destruct (Z.eqb_spec (about e) i) as [<-|D].
    + cbn [andb negb]. unfold entry_of. rewrite zget_set_same. auto.
    + cbn [andb]. unfold entry_of. rewrite zget_set_other by auto.
      destruct (K i) as (A & B & C & F).
      unfold keeps. rewrite about_request, about_matrix by auto. repeat split; auto.
      intros k. rewrite about_options by auto. apply F.
Qed.

Notation srun := (run step []).

Lemma kept_run evs : kept (fst (srun evs)) (snd (srun evs)).
Proof.
  apply (run_inv step [] (fun _ s t => kept s t)); [apply kept0|].
  intros h e s t s' o K E _. pose proof (proj1 (kept_step s t e K)) as H. rewrite E in H. exact H.
Qed.

(** What is sent at a step. *)
Lemma step_sends evs t1 e o t2 :
  snd (srun evs) = t1 ++ (e, o) :: t2 ->
  exists p, keeps (about e) (fresh (about e) t1 ++ [e]) p /\
    (o <> [] <-> ready p = true) /\ (o <> [] -> o = calc p).
Proof.
  intros H. destruct (run_split _ _ _ _ _ _ H) as (s & R1 & _ & R3). cbn [fst snd] in R3. subst o.
  pose proof (kept_run (map fst t1)) as K. rewrite R1 in K. cbn [fst snd] in K.
  destruct (kept_step s t1 e K) as (_ & A & B).
  exists (change e (entry_of s (about e))). split; [apply change_keeps; auto|]. split; [tauto|auto].
Qed.

(** *** Messages that are not repeated *)

Definition key (i : Z) (e : event) : list (option (option Z)) :=
  match e with
  | EvRequest q => if q_id q =? i then [None] else []
  | EvMatrix j _ => if j =? i then [Some None] else []
  | EvOptions o => if po_request o =? i then [Some (Some (po_task o))] else []
  end.

Lemma once_snoc i h e :
  once i (h ++ [e]) -> once i h /\ forall x, In x (key i e) -> ~ In x (flat_map (key i) h).
Proof.
  unfold once. rewrite flat_map_app. cbn [flat_map]. rewrite app_nil_r.
  change (NoDup (flat_map (key i) h ++ key i e) ->
          NoDup (flat_map (key i) h) /\ forall x, In x (key i e) -> ~ In x (flat_map (key i) h)).
  generalize (flat_map (key i) h). intros l N.
  induction l as [|y l IH]; [split; [constructor|intros x _ []]|].
  cbn [app] in N. inversion N as [|? ? N1 N2]; subst. destruct (IH N2) as (I1 & I2).
  split.
  - constructor; auto. intros X. apply N1. apply in_or_app. auto.
  - intros x X [->|Y]; [|exact (I2 x X Y)]. apply N1. apply in_or_app. auto.
Qed.

Lemma request_heard i h q : last_request i h = Some q -> In None (flat_map (key i) h).
Proof.
  induction h as [|e h IH] using rev_ind; [discriminate|].
  rewrite last_request_snoc, flat_map_app, in_app_iff. destruct e; auto.
  destruct (q_id q0 =? i) eqn:E; auto. intros _. right. cbn. rewrite E. cbn. auto.
Qed.

Lemma complete_stays i h e : once i (h ++ [e]) -> complete i h -> complete i (h ++ [e]).
Proof.
  intros O (q & m & Q & M & T & K).
  apply once_snoc in O. destruct O as (_ & O). pose proof (request_heard _ _ _ Q) as H.
  unfold complete. destruct e as [q'|o|j m'].
  - cbn [key] in O. destruct (Z.eqb_spec (q_id q') i) as [E|N].
    + exfalso. apply (O None); cbn; auto.
    + exists q, m. rewrite about_request, about_matrix by (cbn; auto). repeat split; auto.
      intros k I. rewrite about_options by (cbn; auto). auto.
  - exists q, m. rewrite last_request_snoc, last_matrix_snoc. repeat split; auto.
    intros k I. rewrite last_options_snoc. destruct (_ && _); [discriminate|auto].
  - exists q. rewrite last_request_snoc, last_matrix_snoc.
    exists (if j =? i then m' else m). split; auto. split; [destruct (j =? i); auto|].
    split; auto. intros k I. rewrite last_options_snoc. auto.
Qed.

Lemma fresh_request i (t : trace) q :
  last_request i (fresh i t) = Some q -> exists q', last_request i (map fst t) = Some q'.
Proof.
  revert q. induction t as [|(e, o) t IH] using rev_ind; intros q; [discriminate|].
  rewrite fresh_snoc, map_app. cbn [map fst]. destruct (_ && _); [discriminate|].
  rewrite !last_request_snoc. destruct e; auto; try (intros H; apply (IH q H)).
  destruct (q_id q0 =? i); eauto.
Qed.

Lemma once_counts i evs :
  once i evs ->
  let t := snd (srun evs) in
  (results i t = [] /\ fresh i t = evs /\ ~ complete i evs) \/
  (length (results i t) = 1%nat /\ last_request i (fresh i t) = None /\ complete i evs).
Proof.
  cbn zeta. induction evs as [|e evs IH] using rev_ind; intros O.
  - left. repeat split; auto. intros (q & m & Q & _). discriminate.
  - pose proof O as O0. apply once_snoc in O0. destruct O0 as (O1 & O2). specialize (IH O1).
    pose proof (kept_run evs) as K. rewrite run_snoc. cbn [snd].
    destruct (kept_step _ _ e K) as (_ & A & _).
    set (o := snd (step (fst (srun evs)) e)) in *. set (t := snd (srun evs)) in *.
    pose proof (change_keeps e _ _ (K (about e))) as KP.
    apply keeps_ready in KP.
    assert (AC : o <> [] <-> complete (about e) (fresh (about e) t ++ [e])) by tauto.
    clear A KP. rewrite results_snoc, fresh_snoc.
    destruct (Z.eqb_spec (about e) i) as [E|N].
    + rewrite E in AC. cbn [andb]. destruct IH as [(R & F & C)|(R & F & C)].
      * rewrite R, F in *. destruct o as [|x o]; cbn [negb app].
        -- left. repeat split; auto. intros X. apply AC in X. congruence.
        -- right. repeat split; auto. apply AC. discriminate.
      * destruct C as (q & m & Q & C).
        assert (LR : last_request i (fresh i t ++ [e]) = None).
        { rewrite last_request_snoc. destruct e; auto. cbn in E. subst i. exfalso.
          apply (O2 None); [cbn; rewrite Z.eqb_refl; cbn; auto|]. eapply request_heard; eauto. }
        assert (o = []) as ->.
        { destruct o as [|x o]; auto. exfalso.
          assert (X : x :: o <> []) by discriminate. apply AC in X.
          destruct X as (q' & m' & Q' & _). congruence. }
        cbn [negb]. rewrite app_nil_r. right. repeat split; auto.
        apply complete_stays; auto. exists q, m. auto.
    + cbn [andb]. rewrite app_nil_r. destruct IH as [(R & F & C)|(R & F & C)].
      * left. repeat split; auto; [rewrite F; auto|]. intros (q & m & Q & M & T & P). apply C.
        rewrite about_request in Q by auto. rewrite about_matrix in M by auto.
        exists q, m. repeat split; auto. intros k I. rewrite <- (about_options i k evs e) by auto. auto.
      * right. repeat split; auto; [rewrite about_request; auto|]. apply complete_stays; auto.
Qed.

End Service.

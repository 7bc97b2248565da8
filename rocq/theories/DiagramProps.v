(** C99: what is saved of an automation request, where, and what is there after a crash. *)
From Coq Require Import String Ascii List Arith ZArith NArith Bool Lia.
From Verif Require Import Base Decimal10 ZMap FormulaModel Run Latest DiagramModel DiagramSpec DiagramProofs.
Import ListNotations.
Open Scope list_scope.

Section Service.
Context (entity : N) (script : str -> str).

Notation drun fs0 := (run (dstep entity script) (data0, fs0)).
(** The disk after the messages. *)
Notation disk fs0 evs := (snd (fst (drun fs0 evs))).

(** The end of the name of each directory. *)
Definition tail_name (now : str) : str :=
  lit "_AutomationDiagram_ID" ++ pad4 entity ++ lit "_" ++ now.

Definition response_name (r : response) : str := named "UniqueAutomationResponse_Id_" (r_id r).

Lemma run_step fs0 evs e :
  let s := fst (drun fs0 evs) in
  let '(d, ops) := handle entity script (fst s) (snd s) e in
  fst (drun fs0 (evs ++ [e])) = (d, apply_all (snd s) ops) /\
  snd (drun fs0 (evs ++ [e])) = snd (drun fs0 evs) ++ [(e, ops)].
Proof.
  cbn zeta. rewrite run_snoc. cbn [fst snd]. unfold dstep.
  destruct (handle entity script _ _ e) as (d, ops). auto.
Qed.

Lemma filled_with d q :
  filled d q = complete_with (match q_entities q with [] => map fst (d_entities d) | l => l end) q.
Proof. unfold filled, complete_with. destruct q as [a l b c e]; cbn. destruct l; auto. Qed.

Lemma in_keys {A} (m : zmap A) i : In i (map fst m) <-> zget m i <> None.
Proof.
  induction m as [|(k, x) m IH]; cbn; [tauto|]. destruct (Z.eqb_spec k i) as [->|D].
  - split; [discriminate|auto].
  - rewrite <- IH. split; [intros [E|X]; congruence|auto].
Qed.

(** What is done for a response. *)
Lemma response_ops fs0 evs r now q :
  latest (says_request (r_id r)) evs q ->
  (q_entities q <> [] \/ latest (says_about (r_id r)) evs (Some q)) ->
  let fs := disk fs0 evs in
  let name := newName fs (prefix entity) now in
  exists inputs,
    (forall m t, In (m, t) inputs <-> input evs q m t) /\
    snd (drun fs0 (evs ++ [EvResponse r now]))
    = snd (drun fs0 evs) ++ [(EvResponse r now, createDirectory fs name ++
         writes_to name (inputs ++ [(response_name r, r_text r)] ++ scriptFiles script))] /\
    disk fs0 (evs ++ [EvResponse r now])
    = apply_all fs (createDirectory fs name ++
         writes_to name (inputs ++ [(response_name r, r_text r)] ++ scriptFiles script)).
Proof.
  intros L C. cbn zeta. pose proof (kept_run entity script fs0 evs) as K.
  pose proof (run_step fs0 evs (EvResponse r now)) as R. cbn zeta in R.
  set (s := fst (drun fs0 evs)) in *. destruct s as (d, fs) eqn:S. cbn [fst snd] in *.
  unfold handle, processResponse in R.
  destruct (proj2 (proj2 (proj2 (proj2 (proj2 (proj2 (proj2 K)))))) (r_id r)) as (Q1 & Q2).
  destruct (zget (d_requests d) (r_id r)) as [q'|] eqn:Z.
  2:{ exfalso. apply follow_latest in L. destruct Q1 as (Q1 & _). rewrite Q1 in L by auto. discriminate. }
  destruct (Q2 q' eq_refl) as (q0 & L0 & D). rewrite (latest_same _ _ _ _ L0 L) in *. clear L0 q0.
  assert (Q : q' = q).
  { destruct D as [D|(D1 & D2)]; auto. destruct C as [C|C]; [congruence|].
    pose proof (latest_same _ _ _ _ C D2). discriminate. }
  subst q'. destruct R as (R1 & R2).
  set (es := match q_entities q with [] => map fst (d_entities d) | l => l end).
  assert (W : forall i, In i es <-> wanted evs q i).
  { intros i. unfold es, wanted. destruct (q_entities q) as [|x l] eqn:E.
    - rewrite in_keys, (proj1 K i). split.
      + intros X. right. split; auto. destruct (follow (says_entity i) evs) as [t|] eqn:F; [|congruence].
        exists t. apply follow_latest. auto.
      + intros [[]|(_ & t & X)]. apply follow_latest in X. congruence.
    - split; [auto|]. intros [X|(X & _)]; [auto|discriminate]. }
  exists (flat_map (entityFiles d (complete_with es q)) es ++ flat_map (taskFiles d) (q_tasks q)
          ++ regionFiles d (q_region q)).
  split; [intros m t; apply inputs_exact; auto|].
  assert (F : files script d (filled d q) r
     = (flat_map (entityFiles d (complete_with es q)) es ++ flat_map (taskFiles d) (q_tasks q)
          ++ regionFiles d (q_region q)) ++ [(response_name r, r_text r)] ++ scriptFiles script).
  { rewrite filled_with. fold es. unfold files. cbn [complete_with q_entities q_tasks q_region].
    rewrite <- !app_assoc. reflexivity. }
  rewrite F in R1, R2. split; [exact R2|]. rewrite R1. reflexivity.
Qed.

(** The name of the new directory. *)
Lemma new_name fs now n :
  largest fs n -> (n < 9999)%N -> (forall name m, In (name, NFile) fs -> ~ numbered name m) ->
  let name := newName fs (prefix entity) now in
  numbered name (n + 1) /\ (exists digits, name = digits ++ tail_name now) /\
  (forall files, ~ In (name, NDir files) fs) /\ look fs name = None.
Proof.
  intros L B NF. cbn zeta. unfold newName. rewrite (max_largest _ _ L).
  destruct (pad4_ok (n + 1)) as (P1 & P2 & P3); [lia|].
  assert (NM : numbered (pad4 (n + 1) ++ lit "_" ++ prefix entity ++ lit "_" ++ now) (n + 1)).
  { exists (pad4 (n + 1)), (prefix entity ++ lit "_" ++ now). repeat split; auto. }
  split; auto. split; [exists (pad4 (n + 1)); reflexivity|].
  assert (ND : forall files, ~ In (pad4 (n + 1) ++ lit "_" ++ prefix entity ++ lit "_" ++ now, NDir files) fs).
  { intros f I. pose proof (proj2 L _ _ _ I NM). lia. }
  split; auto. destruct (look fs _) as [[|f]|] eqn:E; auto; apply look_in in E.
  - destruct (NF _ _ E NM).
  - destruct (ND _ E).
Qed.

Lemma all_saved evs q r inputs m t :
  (forall m t, In (m, t) inputs <-> input evs q m t) ->
  (In (m, t) (inputs ++ [(response_name r, r_text r)] ++ scriptFiles script)
   <-> saved script evs q r m t).
Proof.
  intros I. rewrite !in_app_iff, I, scripts_in. cbn [In]. split.
  - intros [X|[[[= <- <-]|[]]|(X & ->)]]; [apply saved_input; auto|apply saved_response|apply saved_script; auto].
  - intros X. apply saved_cases in X. destruct X as [X|[(-> & ->)|X]]; auto.
Qed.

(** A response to a request that was received: a new directory with the next number holds the
    inputs of the request as last told, the response and the scripts, and nothing else;
    nothing else on the disk is changed. *)
Theorem C99_saved fs0 evs r now q n :
  latest (says_request (r_id r)) evs q ->
  (q_entities q <> [] \/ latest (says_about (r_id r)) evs (Some q)) ->
  largest (disk fs0 evs) n -> (n < 9999)%N ->
  (forall name m, In (name, NFile) (disk fs0 evs) -> ~ numbered name m) ->
  exists name,
    numbered name (n + 1) /\ (exists digits, name = digits ++ tail_name now) /\
    (forall files, ~ In (name, NDir files) (disk fs0 evs)) /\
    (exists files, look (disk fs0 (evs ++ [EvResponse r now])) name = Some (NDir files) /\
       forall m t, look files m = Some t <-> saved script evs q r m t) /\
    forall other, other <> name ->
      look (disk fs0 (evs ++ [EvResponse r now])) other = look (disk fs0 evs) other.
Proof.
  intros L C LG B NF. destruct (response_ops fs0 evs r now q L C) as (inputs & I & _ & R).
  set (fs := disk fs0 evs) in *. destruct (new_name fs now n LG B NF) as (N1 & N2 & N3 & N4).
  set (name := newName fs (prefix entity) now) in *. exists name.
  split; auto. split; auto. split; auto. rewrite R. unfold createDirectory. rewrite N4.
  change ([Mkdir name] ++ ?l) with (Mkdir name :: l). unfold apply_all at 1. unfold apply_all. cbn [fold_left].
  fold (apply_all (apply fs (Mkdir name))
         (writes_to name (inputs ++ [(response_name r, r_text r)] ++ scriptFiles script))).
  split.
  - exists (puts [] (inputs ++ [(response_name r, r_text r)] ++ scriptFiles script)). split.
    + apply writes_dir. cbn [apply]. rewrite look_put, str_eqb_refl. auto.
    + intros m t. rewrite <- (all_saved evs q r inputs m t I). split.
      * apply puts_in.
      * apply (puts_all (saved script evs q r)); [|apply saved_same].
        intros m' t'. apply all_saved. auto.
  - intros other D. rewrite writes_other by auto. cbn [apply]. rewrite look_put.
    destruct (str_eqb_spec name other); congruence.
Qed.

(** Any other message, and a response to a request never received, leave the disk alone. *)
Theorem C99_others fs0 evs e :
  (forall r now, e = EvResponse r now -> unsaid (says_request (r_id r)) evs) ->
  disk fs0 (evs ++ [e]) = disk fs0 evs.
Proof.
  intros X. pose proof (kept_run entity script fs0 evs) as K.
  pose proof (run_step fs0 evs e) as R. cbn zeta in R.
  destruct e as [i t|q|i t|t|g|r now|i t|i t|i t|]; cbn [handle] in R;
    try (destruct R as (R & _); rewrite R; reflexivity).
  unfold processResponse in R.
  destruct (proj2 (proj2 (proj2 (proj2 (proj2 (proj2 (proj2 K)))))) (r_id r)) as ((_ & Q1) & _).
  rewrite Q1 in R by (apply follow_unsaid, (X r now eq_refl)).
  destruct R as (R & _); rewrite R; reflexivity.
Qed.

Lemma response_not_input evs q r m t : input evs q m t -> m <> response_name r.
Proof.
  intros X E. destruct (input_word _ _ _ _ X) as (w & i & -> & A & D).
  destruct (named_eq _ _ _ _ A (or_intror (or_intror (or_intror (or_intror (or_intror (or_intror
    (or_intror (or_intror (or_intror (or_introl eq_refl)))))))))) E) as (E' & _). congruence.
Qed.

Lemma script_not_input evs q m t : input evs q m t -> ~ In m script_names.
Proof.
  intros X. destruct (input_word _ _ _ _ X) as (w & i & -> & A & D). apply script_apart. auto.
Qed.

(** Wherever the computer stops while this is done: all other names stand for what they did
    before; every file in the new directory holds the beginning of its text; and if the file
    of the response is there, all the inputs are there and complete. *)
Theorem C99_crash fs0 evs r now q n ops fsc :
  latest (says_request (r_id r)) evs q ->
  (q_entities q <> [] \/ latest (says_about (r_id r)) evs (Some q)) ->
  largest (disk fs0 evs) n -> (n < 9999)%N ->
  (forall name m, In (name, NFile) (disk fs0 evs) -> ~ numbered name m) ->
  snd (drun fs0 (evs ++ [EvResponse r now])) = snd (drun fs0 evs) ++ [(EvResponse r now, ops)] ->
  crashed (disk fs0 evs) ops fsc ->
  exists name,
    numbered name (n + 1) /\ (forall files, ~ In (name, NDir files) (disk fs0 evs)) /\
    (forall other, other <> name -> look fsc other = look (disk fs0 evs) other) /\
    (look fsc name = None \/
     exists files, look fsc name = Some (NDir files) /\
       (forall m t, look files m = Some t -> exists t', saved script evs q r m (t ++ t')) /\
       (look files (response_name r) <> None ->
        forall m t, input evs q m t -> look files m = Some t)).
Proof.
  intros L C LG B NF OP CR. destruct (response_ops fs0 evs r now q L C) as (inputs & I & R & _).
  rewrite R in OP. apply app_inv_head in OP. pose proof (f_equal (fun l => snd (hd (EvOther, []) l)) OP) as E.
  cbn [hd snd] in E. subst ops. clear OP R.
  set (fs := disk fs0 evs) in *. destruct (new_name fs now n LG B NF) as (N1 & _ & N3 & N4).
  set (name := newName fs (prefix entity) now) in *. exists name.
  split; auto. split; auto. unfold createDirectory in CR. rewrite N4 in CR.
  set (W := inputs ++ [(response_name r, r_text r)] ++ scriptFiles script) in *.
  assert (WS : forall m t, In (m, t) W -> saved script evs q r m t)
    by (intros m t X; apply (all_saved evs q r inputs m t I); auto).
  (* what is on the disk *)
  assert (SH : fsc = fs \/
    exists l1 l2, W = l1 ++ l2 /\
      (fsc = apply_all (apply fs (Mkdir name)) (writes_to name l1) \/
       exists m t1 t2 l3, l2 = (m, t1 ++ t2) :: l3 /\
         fsc = apply_all (apply fs (Mkdir name)) (writes_to name (l1 ++ [(m, t1)])))).
  { destruct CR as (ops1 & ops2 & E & D). destruct ops1 as [|o ops1].
    - left. destruct D as [->|(dir & m & t1 & t2 & ops3 & E2 & _)]; auto.
      cbn [app] in E. rewrite <- E in E2. discriminate E2.
    - right. change (Mkdir name :: writes_to name W = o :: (ops1 ++ ops2)) in E.
      pose proof (f_equal (hd o) E) as E0. cbn [hd] in E0. subst o.
      pose proof (f_equal (@tl op) E) as E1. cbn [tl] in E1. clear E.
      unfold writes_to in E1. apply map_eq_app in E1.
      destruct E1 as (l1 & l2 & -> & <- & <-). exists l1, l2. split; auto.
      destruct D as [->|(dir & m & t1 & t2 & ops3 & E2 & ->)]; [left; reflexivity|]. right.
      destruct l2 as [|(m', t') l3]; [discriminate|]. cbn [map] in E2. injection E2 as <- <- -> _.
      exists m', t1, t2, l3. split; auto. unfold writes_to. rewrite map_app. reflexivity. }
  assert (LN : look (apply fs (Mkdir name)) name = Some (NDir [])).
  { cbn [apply]. rewrite look_put, str_eqb_refl. auto. }
  assert (LO : forall l other, other <> name ->
            look (apply_all (apply fs (Mkdir name)) (writes_to name l)) other = look fs other).
  { intros l other D. rewrite writes_other by auto. cbn [apply]. rewrite look_put.
    destruct (str_eqb_spec name other); congruence. }
  split.
  { intros other D. destruct SH as [->|(l1 & l2 & _ & [->|(m & t1 & t2 & l3 & _ & ->)])]; auto. }
  destruct SH as [->|(l1 & l2 & EW & SH)]; [auto|]. right.
  assert (PRE : (exists t, In (response_name r, t) l1) -> exists k, l1 = inputs ++ k).
  { intros (t & X). unfold W in EW. symmetry in EW. apply app_eq_app in EW.
    destruct EW as (k & [(-> & _)|(E & _)]); [eauto|]. exfalso.
    apply (response_not_input evs q r (response_name r) t); auto. apply I. rewrite E.
    apply in_or_app. auto. }
  assert (ALL : forall k, (forall m t, In (m, t) (inputs ++ k) -> In (m, t) W) ->
            forall m t, input evs q m t -> look (puts [] (inputs ++ k)) m = Some t).
  { intros k S m t X. apply (puts_all (saved script evs q r)); [auto|apply saved_same|].
    apply in_or_app. left. apply I. auto. }
  destruct SH as [->|(m0 & t1 & t2 & l3 & -> & ->)].
  - exists (puts [] l1). split; [apply writes_dir; auto|]. split.
    + intros m t X. apply puts_in in X. exists []. rewrite app_nil_r. apply WS. rewrite EW. apply in_or_app. auto.
    + intros X. destruct (look (puts [] l1) (response_name r)) as [t|] eqn:E; [|congruence].
      apply puts_in in E. destruct PRE as (k & ->); [eauto|]. apply ALL.
      intros m' t' Y. rewrite EW. apply in_or_app. auto.
  - exists (puts [] (l1 ++ [(m0, t1)])). split; [apply writes_dir; auto|]. rewrite puts_snoc. cbn [fst snd].
    assert (S0 : saved script evs q r m0 (t1 ++ t2)).
    { apply WS. rewrite EW. apply in_or_app. right. left. auto. }
    split.
    + intros m t X. rewrite look_put in X. destruct (str_eqb_spec m0 m) as [->|D].
      * injection X as <-. eauto.
      * apply puts_in in X. exists []. rewrite app_nil_r. apply WS. rewrite EW. apply in_or_app. auto.
    + intros X. rewrite look_put in X.
      assert (PRE2 : exists k, l1 = inputs ++ k).
      { destruct (str_eqb_spec m0 (response_name r)) as [E|D].
        - unfold W in EW. symmetry in EW. apply app_eq_app in EW.
          destruct EW as (k & [(-> & _)|(E1 & E2)]); [eauto|].
          destruct k as [|(m', t') k]; [exists []; rewrite app_nil_r in E1 |- *; auto|]. exfalso.
          injection E2 as <- <- _. apply (response_not_input evs q r m0 (t1 ++ t2)); auto.
          apply I. rewrite E1. apply in_or_app. right. left. auto.
        - destruct (look (puts [] l1) (response_name r)) as [t|] eqn:E; [|congruence].
          apply puts_in in E. apply PRE. eauto. }
      destruct PRE2 as (k & ->). intros m t Y. rewrite look_put.
      assert (M0 : m0 <> m).
      { intros ->. rewrite <- app_assoc in EW. unfold W in EW. apply app_inv_head in EW.
        assert (Z : In (m, t1 ++ t2) ([(response_name r, r_text r)] ++ scriptFiles script)).
        { rewrite EW. apply in_or_app. right. left. auto. }
        destruct Z as [Z|Z].
        - pose proof (f_equal fst Z) as Z1. cbn [fst] in Z1. apply (response_not_input evs q r m t); auto.
        - apply scripts_in in Z. apply (script_not_input evs q m t Y). tauto. }
      destruct (str_eqb_spec m0 m); [congruence|]. apply ALL; auto.
      intros m' t' Z. rewrite EW. apply in_or_app. auto.
Qed.

(** With 9999 directories the numbers end: a response is then saved to a directory that only
    the clock tells apart, and if it is there already, for another response, it is used again
    and no new one is made. *)
Theorem C99_ten_thousand_refuted fs0 evs r now q old :
  latest (says_request (r_id r)) evs q ->
  (q_entities q <> [] \/ latest (says_about (r_id r)) evs (Some q)) ->
  largest (disk fs0 evs) 9999 ->
  look (disk fs0 evs) (lit "10000" ++ tail_name now) = Some (NDir old) ->
  (forall other, other <> lit "10000" ++ tail_name now ->
     look (disk fs0 (evs ++ [EvResponse r now])) other = look (disk fs0 evs) other) /\
  exists files, look (disk fs0 (evs ++ [EvResponse r now])) (lit "10000" ++ tail_name now)
                = Some (NDir files) /\
    forall m t, input evs q m t -> look files m = Some t.
Proof.
  intros L C LG O. destruct (response_ops fs0 evs r now q L C) as (inputs & I & _ & R).
  set (fs := disk fs0 evs) in *. rewrite R.
  assert (N : newName fs (prefix entity) now = lit "10000" ++ tail_name now).
  { unfold newName. rewrite (max_largest _ _ LG). reflexivity. }
  rewrite N. unfold createDirectory. rewrite O. cbn [app]. split.
  - intros other D. apply writes_other. auto.
  - eexists. split; [apply writes_dir; exact O|]. intros m t X.
    assert (G : forall l, (forall t', In (m, t') l -> t' = t) -> In (m, t) l -> look (puts old l) m = Some t).
    { induction l as [|(a, b) l IH] using rev_ind; intros U V; [destruct V|].
      rewrite puts_snoc. cbn [fst snd]. rewrite look_put.
      destruct (str_eqb_spec a m) as [->|D].
      - f_equal. apply U. apply in_or_app. right. left. auto.
      - apply IH; [intros t' Y; apply U; apply in_or_app; auto|].
        apply in_app_or in V. destruct V as [V|[[= <- <-]|[]]]; [auto|congruence]. }
    assert (S : saved script evs q r m t) by (apply saved_input; auto).
    apply G; [|apply (all_saved evs q r inputs m t I); auto].
    intros t' Y. apply (all_saved evs q r inputs m t' I) in Y. apply (saved_same _ _ _ _ _ _ _ Y S).
Qed.

(** A request for all entities is only for those heard of at the first response: who appears
    later is left out of what is saved for later responses. *)
Theorem C99_later_refuted fs0 h1 r1 now1 h2 r2 now2 q x tx y ops :
  let evs := (h1 ++ [EvResponse r1 now1]) ++ h2 in
  r_id r2 = r_id r1 ->
  latest (says_about (r_id r1)) h1 (Some q) -> q_entities q = [] ->
  latest (says_entity x) h1 tx -> unsaid (says_entity y) h1 ->
  unsaid (says_request (r_id r1)) h2 ->
  snd (drun fs0 (evs ++ [EvResponse r2 now2])) = snd (drun fs0 evs) ++ [(EvResponse r2 now2, ops)] ->
  forall dir text, ~ In (Write dir (named "EntityState_Id_" y) text) ops.
Proof.
  intros evs ER LA QE LX UY U2 OP dir text X.
  set (P := fun d : data => exists q', zget (d_requests d) (r_id r1) = Some q' /\ q_entities q' <> [] /\
                                       ~ In y (q_entities q')).
  assert (P2 : P (fst (fst (drun fs0 evs)))).
  { unfold evs. clear OP X. induction h2 as [|e h2 IH] using rev_ind.
    - rewrite app_nil_r. pose proof (kept_run entity script fs0 h1) as K.
      pose proof (run_step fs0 h1 (EvResponse r1 now1)) as R. cbn zeta in R.
      set (s := fst (drun fs0 h1)) in *. destruct s as (d, fs). cbn [fst snd handle] in *.
      unfold processResponse in R.
      assert (LR : latest (says_request (r_id r1)) h1 q).
      { destruct LA as (a & e & b & -> & S & NB). exists a, e, b. split; auto. split.
        - destruct e; cbn in S |- *; try discriminate; destruct (_ =? _)%Z; congruence.
        - intros e' I. specialize (NB e' I). destruct e'; cbn in NB |- *; auto;
            destruct (_ =? _)%Z; congruence. }
      destruct (proj2 (proj2 (proj2 (proj2 (proj2 (proj2 (proj2 K)))))) (r_id r1)) as (Q1 & Q2).
      destruct (zget (d_requests d) (r_id r1)) as [q'|] eqn:Z.
      2:{ exfalso. apply follow_latest in LR. destruct Q1 as (Q1 & _). rewrite Q1 in LR by auto. discriminate. }
      destruct (Q2 q' eq_refl) as (q0 & L0 & D). rewrite (latest_same _ _ _ _ L0 LR) in *.
      destruct D as [->|(_ & D)]; [|pose proof (latest_same _ _ _ _ LA D); discriminate].
      destruct R as (R & _). rewrite R. cbn [fst]. exists (filled d q). cbn [d_requests].
      rewrite zget_set_same. split; auto. unfold filled. rewrite QE. cbn [q_entities].
      assert (KX := proj1 K). split.
      + assert (IX : In x (map fst (d_entities d))).
        { apply in_keys. rewrite KX. apply follow_latest in LX. congruence. }
        intros E. rewrite E in IX. destruct IX.
      + rewrite in_keys, KX. apply follow_unsaid in UY. rewrite UY. congruence.
    - rewrite app_assoc. pose proof (run_step fs0 ((h1 ++ [EvResponse r1 now1]) ++ h2) e) as R.
      cbn zeta in R. destruct IH as (q' & Z & NE & NY).
      { intros e' I. apply U2. apply in_or_app. auto. }
      assert (UE : says_request (r_id r1) e = None) by (apply U2; apply in_or_app; right; left; auto).
      set (s := fst (drun fs0 ((h1 ++ [EvResponse r1 now1]) ++ h2))) in *. destruct s as (d, fs).
      cbn [fst snd] in *.
      destruct e as [i t|q1|i t|t|g|r now|i t|i t|i t|]; cbn [handle] in R;
        try (destruct R as (R & _); rewrite R; cbn [fst]; exists q'; auto; fail).
      + destruct R as (R & _). rewrite R. cbn [fst]. exists q'. cbn [d_requests]. rewrite zget_set.
        cbn [says_request] in UE. rewrite Z.eqb_sym. destruct (q_id q1 =? r_id r1)%Z; [discriminate|auto].
      + unfold processResponse in R.
        destruct (zget (d_requests d) (r_id r)) as [q1|] eqn:Z1; destruct R as (R & _); rewrite R; cbn [fst].
        * cbn [d_requests]. unfold P. cbn [d_requests]. rewrite zget_set.
          destruct (Z.eqb_spec (r_id r1) (r_id r)) as [E|D]; [|exists q'; auto].
          rewrite <- E, Z in Z1. injection Z1 as <-. exists q'. unfold filled.
          destruct (q_entities q') eqn:EE; [congruence|]. auto.
        * exists q'. auto. }
  destruct P2 as (q' & Z & NE & NY).
  pose proof (run_step fs0 evs (EvResponse r2 now2)) as R. cbn zeta in R.
  set (s := fst (drun fs0 evs)) in *. destruct s as (d, fs). cbn [fst snd handle] in *.
  unfold processResponse in R. rewrite ER, Z in R. destruct R as (_ & R). rewrite R in OP.
  apply app_inv_head in OP. pose proof (f_equal (fun l => snd (hd (EvOther, []) l)) OP) as E.
  cbn [hd snd] in E. subst ops. clear OP R.
  assert (FQ : filled d q' = q') by (unfold filled; destruct (q_entities q'); congruence).
  rewrite FQ in X. apply in_app_or in X. destruct X as [X|X].
  { unfold createDirectory in X. destruct (look fs _); [destruct X|]. destruct X as [X|[]]. discriminate. }
  apply in_map_iff in X. destruct X as ((m & t) & EW & X). injection EW as _ -> _.
  assert (ES : In "EntityState_Id_"%string words) by (left; auto).
  assert (FND : forall w (mm : zmap str) i u, In w words -> w <> "EntityState_Id_"%string ->
            ~ In (named "EntityState_Id_" y, u) (found w mm i)).
  { intros w mm i u A D F. unfold found in F. destruct (zget mm i); [|destruct F].
    destruct F as [F|[]]. pose proof (f_equal fst F) as F1. cbn [fst] in F1.
    destruct (named_eq _ _ _ _ A ES F1) as (G & _). congruence. }
  unfold files in X. rewrite !in_app_iff, !in_flat_map in X.
  destruct X as [(i & I & X)|[(i & I & X)|[X|[X|X]]]].
  - assert (E : named "EntityState_Id_" y = named "EntityState_Id_" i).
    { unfold entityFiles, found in X. destruct (find _ _) as [p|].
      - destruct X as [X|[]]. exact (eq_sym (f_equal fst X)).
      - destruct (zget _ _); [|destruct X]. destruct X as [X|[]]. exact (eq_sym (f_equal fst X)). }
    apply named_inj in E. subst i. auto.
  - unfold taskFiles in X. destruct (zget (d_tasks d) i) as [k|]; [|destruct X].
    destruct X as [X|X].
    + pose proof (f_equal fst X) as F1. cbn [fst] in F1.
      destruct (named_eq "Task_Id_" _ _ _ (or_intror (or_introl eq_refl)) ES F1) as (G & _). discriminate.
    + unfold referred in X.
      destruct (t_kind k); [..|destruct X];
        (destruct (0 <? _)%Z; [|destruct X]); (eapply FND; [| |exact X]; [cbn; tauto|discriminate]).
  - unfold regionFiles in X. destruct (0 <? _)%Z; [|destruct X].
    destruct (zget (d_regions d) (q_region q')) as [g|]; [|destruct X].
    rewrite in_app_iff, !in_flat_map in X.
    destruct X as [(i & _ & X)|(i & _ & X)]; (eapply FND; [| |exact X]; [cbn; tauto|discriminate]).
  - destruct X as [X|[]]. pose proof (f_equal fst X) as F1. cbn [fst] in F1.
    destruct (named_eq "UniqueAutomationResponse_Id_" "EntityState_Id_" (r_id r2) y) as (G & _);
      [cbn; tauto|auto|exact F1|discriminate].
  - apply scripts_in in X. destruct X as (X & _). apply (script_apart _ _ ES X).
Qed.
End Service.

Print Assumptions C99_saved.
Print Assumptions C99_others.
Print Assumptions C99_crash.
Print Assumptions C99_ten_thousand_refuted.
Print Assumptions C99_later_refuted.

(** *** A case *)

Definition ex_q : request :=
  {| q_id := 7; q_entities := []; q_planning := [{| pl_entity := 2; pl_text := lit "planned" |}];
     q_tasks := [10; 11]; q_region := 5 |}.
Definition ex_r : response := {| r_id := 7; r_text := lit "plan" |}.
Definition ex_script (n : str) : str := lit "#".
Definition ex_disk : fsys := [(lit "0003_old", NDir [(lit "a", lit "b")]); (lit "notes", NFile)].
Definition ex_events : list event :=
  [EvEntity 1 (lit "old"); EvEntity 1 (lit "one"); EvEntity 2 (lit "two");
   EvTask {| t_id := 10; t_kind := WatchTask 2; t_text := lit "watch" |}; EvZone 4 (lit "zone");
   EvRegion {| g_id := 5; g_keepIn := []; g_keepOut := [4; 6] |}; EvRequest ex_q; EvOther].

Example C99_case :
  latest (says_about 7) ex_events (Some ex_q) /\ latest (says_request 7) ex_events ex_q /\
  largest ex_disk 3 /\ (forall name m, In (name, NFile) ex_disk -> ~ numbered name m) /\
  snd (fst (run (dstep 100 ex_script) (data0, ex_disk) ex_events)) = ex_disk /\
  look (snd (fst (run (dstep 100 ex_script) (data0, ex_disk) (ex_events ++ [EvResponse ex_r (lit "noon")]))))
    (lit "0004_AutomationDiagram_ID0100_noon")
  = Some (NDir
      [(lit "ProcessZones.py", lit "#"); (lit "ProcessEntityStates.py", lit "#");
       (lit "ProcessTasks.py", lit "#"); (lit "ProcessUniqueAutomationResponse.py", lit "#");
       (lit "PlotAutomationDiagram.py", lit "#"); (lit "UniqueAutomationResponse_Id_7.xml", lit "plan");
       (lit "ZoneKeepOut_Id_4.xml", lit "zone"); (lit "WatchedEntity_Id_2.xml", lit "two");
       (lit "Task_Id_10.xml", lit "watch"); (lit "EntityState_Id_1.xml", lit "one");
       (lit "EntityState_Id_2.xml", lit "planned")]) /\
  exists ops,
    snd (run (dstep 100 ex_script) (data0, ex_disk) (ex_events ++ [EvResponse ex_r (lit "noon")]))
    = snd (run (dstep 100 ex_script) (data0, ex_disk) ex_events) ++ [(EvResponse ex_r (lit "noon"), ops)] /\
    crashed ex_disk ops
      (apply_all ex_disk [Mkdir (lit "0004_AutomationDiagram_ID0100_noon");
                          Write (lit "0004_AutomationDiagram_ID0100_noon") (lit "EntityState_Id_2.xml") (lit "pl")]).
Proof.
  split; [apply follow_latest; reflexivity|]. split; [apply follow_latest; reflexivity|].
  assert (NN : forall name m, numbered name m -> is_numbered name = true)
    by (intros name m X; apply numbered_number in X; tauto).
  split.
  { split.
    - right. exists (lit "0003_old"), [(lit "a", lit "b")]. split; [left; auto|].
      exists (lit "0003"), (lit "old"). split; auto. split; auto. split; auto.
      repeat (apply Forall_cons; [vm_compute; tauto|]). apply Forall_nil.
    - intros name files m [E|[E|[]]] X; [|discriminate].
      pose proof (f_equal fst E) as E1. cbn [fst] in E1. subst name.
      apply numbered_number in X. destruct X as (_ & <-). vm_compute. discriminate. }
  split.
  { intros name m [E|[E|[]]] X; [discriminate|].
    pose proof (f_equal fst E) as E1. cbn [fst] in E1. subst name. apply NN in X. discriminate. }
  split; [vm_compute; reflexivity|]. split; [vm_compute; reflexivity|].
  eexists. split; [vm_compute; reflexivity|].
  eexists [_], _. split; [reflexivity|]. right.
  eexists _, _, (lit "pl"), (lit "anned"), _. split; reflexivity.
Qed.

(** Entity 3 appears after the first response: it is not saved for the second one. *)
Example C99_later_case :
  let evs := (ex_events ++ [EvResponse ex_r (lit "noon")]) ++ [EvEntity 3 (lit "three")] in
  latest (says_entity 1) ex_events (lit "one") /\ unsaid (says_entity 3) ex_events /\
  unsaid (says_request 7) [EvEntity 3 (lit "three")] /\
  exists files,
    look (snd (fst (run (dstep 100 ex_script) (data0, ex_disk) (evs ++ [EvResponse ex_r (lit "one")]))))
      (lit "0005_AutomationDiagram_ID0100_one") = Some (NDir files) /\
    look files (lit "EntityState_Id_1.xml") = Some (lit "one") /\
    look files (lit "EntityState_Id_3.xml") = None.
Proof.
  cbn zeta. split; [apply follow_latest; reflexivity|]. split; [apply follow_unsaid; reflexivity|].
  split; [apply follow_unsaid; reflexivity|].
  eexists. split; [vm_compute; reflexivity|]. split; vm_compute; reflexivity.
Qed.

(** Two responses at the same clock reading with a directory numbered 9999: the second is
    saved over the first. *)
Example C99_ten_thousand_case :
  let fs0 := [(lit "9999_x", NDir [])] in
  let evs := ex_events ++ [EvResponse ex_r (lit "noon"); EvRequest ex_q] in
  let fs1 := snd (fst (run (dstep 100 ex_script) (data0, fs0) evs)) in
  let fs2 := snd (fst (run (dstep 100 ex_script) (data0, fs0)
               (evs ++ [EvResponse {| r_id := 7; r_text := lit "other" |} (lit "noon")]))) in
  latest (says_about 7) evs (Some ex_q) /\
  (exists old, look fs1 (lit "10000" ++ tail_name 100 (lit "noon")) = Some (NDir old) /\
     look old (lit "UniqueAutomationResponse_Id_7.xml") = Some (lit "plan")) /\
  (exists new, look fs2 (lit "10000" ++ tail_name 100 (lit "noon")) = Some (NDir new) /\
     look new (lit "UniqueAutomationResponse_Id_7.xml") = Some (lit "other")) /\
  length fs1 = length fs2.
Proof.
  cbn zeta. split; [apply follow_latest; reflexivity|].
  split; [eexists; split; vm_compute; reflexivity|].
  split; [eexists; split; vm_compute; reflexivity|]. vm_compute. reflexivity.
Qed.

(** C45: relationship and composition texts are interpreted as written. *)
From Coq Require Import String Ascii List Arith ZArith NArith Bool Lia.
From Verif Require Import Base Decimal10 AlgebraModel AlgebraSpec SerialSpec
  FormulaModel FormulaSpec FormulaProofs.
Import ListNotations.
Open Scope list_scope.

(** The expression of a task with its options named by task and option. *)
Definition packed (t : Z) (e : expr) : expr := bind (fun o => Act (t * 100000 + o)%Z) e.

(** The texts of the tasks are well written: an operator expression whose packed option ids
    are 63 bit numbers, and every packed id is known to the algebra. *)
Definition tasks_written (tasks : list (Z * str)) (comp : Z -> expr) (known : list Z) : Prop :=
  NoDup (map fst tasks) /\
  forall t c, In (t, c) tasks ->
    is_operator (comp t) /\ writes (comp t) c /\
    forall o, In o (actions (comp t)) ->
      (0 <= t * 100000 + o < 2 ^ 63)%Z /\ In (t * 100000 + o)%Z known.

(** Text of an expression is read back as that expression, whatever the spacing. *)
Theorem C45_parse : forall e s known,
  writes e s -> incl (actions e) known -> initAlgebraString known s = Some (PTree e).
Proof. exact (fun e s known => parse_written e s known). Qed.
Print Assumptions C45_parse.

(** The id of an action may carry a sign, which counts. *)
Theorem C45_signed : forall d known,
  d <> [] -> all_digits d -> (dec_value d <= 2 ^ 63)%N -> In (- Z.of_N (dec_value d))%Z known ->
  initAlgebraString known ("p"%char :: "-"%char :: d) = Some (PTree (Act (- Z.of_N (dec_value d)))).
Proof.
  intros d known N D L I. unfold initAlgebraString. cbn [length parseFormula find_head Ascii.eqb Bool.eqb].
  assert (R : rfind_close ("p"%char :: "-"%char :: d) = None).
  { apply rfind_close_none. cbn. apply digits_no_close, D. }
  unfold strip. rewrite R. cbn [length Nat.ltb Nat.leb Nat.add skipn].
  assert (A : atoll ("-"%char :: d) = (- Z.of_N (dec_value d))%Z).
  { unfold atoll, leading_number. cbn [skip_space]. change (is_space "-"%char) with false. cbn iota.
    change (Ascii.eqb "-" "-") with true. cbn iota beta.
    pose proof (digit_prefix_app d [] D Logic.I) as P. rewrite app_nil_r in P. rewrite P.
    destruct d as [|c d]; [congruence|]. change (2 ^ 63)%N with 9223372036854775808%N in L. unfold int64_min, int64_max. lia. }
  rewrite A. assert (E : existsb (Z.eqb (- Z.of_N (dec_value d))) known = true).
  { apply existsb_exists. eexists. split; [exact I|apply Z.eqb_refl]. }
  rewrite E. reflexivity.
Qed.
Print Assumptions C45_signed.

Example C45_signed_case :
  initAlgebraString [5; -5]%Z (list_ascii_of_string "p-5") = Some (PTree (Act (-5))).
Proof. vm_compute. reflexivity. Qed.

(** The notation is unambiguous. *)
Theorem C45_unambiguous : forall e e' s, writes e s -> writes e' s -> e = e'.
Proof.
  intros e e' s W W'.
  pose proof (parse_written e s (actions e ++ actions e') W) as P.
  rewrite (parse_written e' s _ W') in P by (apply incl_appr, incl_refl).
  assert (Q : Some (PTree e') = Some (PTree e)) by (apply P, incl_appl, incl_refl). congruence.
Qed.
Print Assumptions C45_unambiguous.

Lemma actions_bind g e :
  incl (actions (bind g e)) (flat_map (fun a => actions (g a)) (actions e)).
Proof.
  induction e as [a|o cs IH] using AlgebraProofs.expr_ind'; cbn [bind actions].
  - cbn. rewrite app_nil_r. apply incl_refl.
  - intros x X. apply in_flat_map in X. destruct X as (c' & C & X).
    apply in_map_iff in C. destruct C as (c & <- & C).
    rewrite Forall_forall in IH. apply (IH c C) in X. apply in_flat_map in X.
    destruct X as (a & A & X). apply in_flat_map. exists a. split; auto.
    apply in_flat_map. eauto.
Qed.

Lemma composition_written t e c :
  is_operator e -> writes e c ->
  (forall o, In o (actions e) -> (0 <= t * 100000 + o < 2 ^ 63)%Z) ->
  exists c', compositionString t c = Some (RText c') /\ writes (packed t e) c'.
Proof.
  intros O W R. unfold compositionString.
  apply (rewrite_written true _ (fun o => to_string_Z (getTaskAndOptionId t o))); auto.
  intros a A. split; auto. cbn [app]. apply writes_number. apply R. auto.
Qed.

Lemma written_nonempty e s : writes e s -> s <> [].
Proof. destruct 1; discriminate. Qed.

Lemma compositions_written tasks comp known :
  tasks_written tasks comp known ->
  conversion_failed tasks = false /\
  exists cs, compositions tasks = map (fun tc => (fst tc, Some (cs (fst tc)))) tasks /\
             forall t c, In (t, c) tasks -> writes (packed t (comp t)) (cs t).
Proof.
  intros (ND & H). induction tasks as [|[t c] tasks IH].
  - split; auto. exists (fun _ => []). split; auto. intros ? ? [].
  - inversion ND as [|? ? NI ND']; subst.
    destruct IH as (CF & cs & E & W); auto.
    { intros t' c' I. apply (H t' c'). right. auto. }
    destruct (H t c (or_introl eq_refl)) as (O & Wc & K).
    destruct (composition_written t (comp t) c O Wc) as (c' & E' & W').
    { intros o I. apply K. auto. }
    pose proof (written_nonempty _ _ Wc) as NE.
    unfold conversion_failed, compositions in *. cbn [existsb map fst snd].
    destruct c as [|x c]; [congruence|]. rewrite E', CF, E. split; auto.
    exists (fun z => if (z =? t)%Z then c' else cs z). split.
    + rewrite Z.eqb_refl. f_equal. apply map_ext_in. intros (t2, c2) I. cbn [fst].
      destruct (Z.eqb_spec t2 t) as [->|]; auto. exfalso. apply NI.
      apply in_map_iff. exists (t, c2). auto.
    + intros t2 c2 [I|I].
      * injection I as <- <-. rewrite Z.eqb_refl. auto.
      * destruct (Z.eqb_spec t2 t) as [->|]; [auto|]. eauto.
Qed.

Lemma lookup_comp_some tasks (cs : Z -> str) t :
  In t (map fst tasks) ->
  lookup_comp (map (fun tc : Z * str => (fst tc, Some (cs (fst tc)))) tasks) t = Some (cs t).
Proof.
  induction tasks as [|[t' c] tasks IH]; cbn [map lookup_comp fst]; [intros []|].
  destruct (Z.eqb_spec t' t) as [->|N]; auto. intros [E|I]; [congruence|auto].
Qed.

(** A written relationship: each task stands for its composition. *)
Theorem C45_relationship : forall tasks rel s known comp,
  tasks_written tasks comp known ->
  writes rel s -> is_operator rel -> incl (actions rel) (map fst tasks) ->
  exists text,
    algebraString tasks s = Some (AString text) /\
    initAlgebraString known text = Some (PTree (bind (fun t => packed t (comp t)) rel)).
Proof.
  intros tasks rel s known comp T W O I.
  destruct (compositions_written _ _ _ T) as (CF & cs & E & CW).
  assert (A : forall a, In a (actions rel) -> writes (packed a (comp a)) (cs a)).
  { intros a A. apply I, in_map_iff in A. destruct A as ((t & c) & <- & A). eauto. }
  destruct (rewrite_written false (lookup_comp (compositions tasks)) cs
              (fun t => packed t (comp t)) rel s W O) as (text & R & WT).
  { intros a Ia. split; [|apply A; auto]. rewrite E. apply lookup_comp_some. auto. }
  exists text. split.
  - unfold algebraString, relationshipString. rewrite CF, R.
    pose proof (written_nonempty _ _ W). destruct s; [congruence|auto].
  - apply parse_written; auto. intros x X. apply actions_bind in X.
    apply in_flat_map in X. destruct X as (t & Ht & X). apply actions_bind in X.
    apply in_flat_map in X. destruct X as (o & Ho & X). cbn in X. destruct X as [<-|[]].
    apply I, in_map_iff in Ht. destruct Ht as ((t' & c) & E' & Ht). cbn [fst] in E'. subst t'.
    apply (proj2 T t c Ht). auto.
Qed.
Print Assumptions C45_relationship.

(** No relationship: all tasks in parallel. *)
Theorem C45_parallel : forall tasks known comp,
  tasks_written tasks comp known ->
  exists text,
    algebraString tasks [] = Some (AString text) /\
    initAlgebraString known text
    = Some (PTree (Op Par (map (fun tc => packed (fst tc) (comp (fst tc))) tasks))).
Proof.
  intros tasks known comp T.
  destruct (compositions_written _ _ _ T) as (CF & cs & E & CW).
  unfold algebraString. rewrite CF, E.
  replace (existsb _ (map (fun tc : Z * str => (fst tc, Some (cs (fst tc)))) tasks)) with false.
  2:{ clear. induction tasks; auto. }
  cbn [orb]. eexists. split; [reflexivity|].
  apply parse_written.
  - unfold parallelString. rewrite map_map. cbn [snd].
    change (lit "|(" ++ ?x ++ lit ")") with (op_char Par :: "("%char :: x ++ [")"%char]).
    constructor. rewrite map_map. cbn [snd].
    assert (Q : forall t c, In (t, c) tasks -> writes (packed t (comp t)) (cs t)) by exact CW.
    clear - Q. induction tasks as [|[t c] tasks IH]; cbn [map concat fst]; [constructor|].
    rewrite <- app_assoc. change (lit " " ++ ?x) with (" "%char :: x). constructor.
    + apply (Q t c). left. auto.
    + apply IH. intros t' c' I. apply (Q t' c'). right. auto.
  - cbn [actions]. intros x X. apply in_flat_map in X. destruct X as (e & Ee & X).
    apply in_map_iff in Ee. destruct Ee as ((t & c) & <- & It). cbn [fst] in X.
    apply actions_bind in X. apply in_flat_map in X. destruct X as (o & Ho & X).
    cbn in X. destruct X as [<-|[]]. apply (proj2 T t c It). auto.
Qed.
Print Assumptions C45_parallel.

(** A case with nested operators, odd spacing and two tasks. *)
Example C45_case :
  algebraString [(1, lit "+(p1 p2)"); (20, lit ".( p0  )")]%Z (lit ".(p1 |( p20 ))") 
  = Some (AString (lit ".(+(p100001 p100002) |( .( p2000000  ) ))")) /\
  initAlgebraString [100001; 100002; 2000000]%Z (lit ".(+(p100001 p100002) |( .( p2000000  ) ))")
  = Some (PTree (Op Seq [Op Alt [Act 100001; Act 100002]; Op Par [Op Seq [Act 2000000]]]))%Z.
Proof. vm_compute. auto. Qed.

Lemma number_written n d :
  d <> [] -> forallb is_digit d = true -> (dec_value d < 2 ^ 63)%N ->
  n = Z.of_N (dec_value d) -> writes (Act n) ("p"%char :: d).
Proof. intros ? ? ? ->. constructor; auto. apply SerialProofs.digits_spec. auto. Qed.

Ltac number :=
  match goal with
  | |- writes (Act _) ?s =>
      let s' := eval vm_compute in s in
      match s' with
      | _ :: ?d => change s with s'; apply (number_written _ d);
          [discriminate|vm_compute; reflexivity..]
      end
  end.

Example C45_case_written :
  tasks_written [(1, lit "+(p1 p2)"); (20, lit ".( p0  )")]%Z
    (fun t => if (t =? 1)%Z then Op Alt [Act 1; Act 2] else Op Seq [Act 0])%Z
    [100001; 100002; 2000000]%Z /\
  writes (Op Seq [Act 1; Op Par [Act 20]])%Z (lit ".(p1 |( p20 ))").
Proof.
  split; [split|].
  - repeat constructor; cbn; intuition discriminate.
  - intros t c [E|[E|[]]]; injection E as <- <-; cbn [Z.eqb Pos.eqb].
    + split; [exact I|]. split.
      * apply (w_op Alt _ (lit "p1" ++ " "%char :: lit "p2")). apply wl_cons; [number|].
        apply wl_last. number.
      * cbn [actions flat_map app In]. intros o [<-|[<-|[]]]; (split; [lia|tauto]).
    + split; [exact I|]. split.
      * apply (w_op Seq _ (" "%char :: lit "p0" ++ " "%char :: lit " ")).
        apply wl_space, wl_cons; [number|]. apply wl_space, wl_nil.
      * cbn [actions flat_map app In]. intros o [<-|[]]; (split; [lia|tauto]).
  - apply (w_op Seq _ (lit "p1" ++ " "%char :: (lit "|( p20 )"))). apply wl_cons; [number|].
    apply wl_last. apply (w_op Par _ (" "%char :: lit "p20" ++ " "%char :: [])).
    apply wl_space, wl_cons; [number|constructor].
Qed.

(** Finding: a relationship that is a single task is well written but makes the search for
    the end of the id fail; the resulting exception is not caught. *)
Theorem C45_single_task_refuted :
  exists tasks rel s comp known,
    tasks_written tasks comp known /\ writes rel s /\ incl (actions rel) (map fst tasks) /\
    algebraString tasks s = Some AThrow.
Proof.
  exists [(1, lit "+(p1)")]%Z, (Act 1)%Z, (lit "p1"), (fun _ => Op Alt [Act 1])%Z, [100001]%Z.
  repeat split.
  - repeat constructor. intros [].
  - destruct H as [E|[]]. injection E as <- <-.
    apply (w_op Alt _ (lit "p1")). apply wl_last. number.
  - destruct H as [E|[]]. injection E as <- <-. destruct H0 as [<-|[]]. lia.
  - destruct H as [E|[]]. injection E as <- <-. destruct H0 as [<-|[]]. lia.
  - destruct H as [E|[]]. injection E as <- <-. destruct H0 as [<-|[]]. left. reflexivity.
  - number.
  - intros x X. exact X.
Qed.
Print Assumptions C45_single_task_refuted.

(** Finding: an option id that the task does not offer, used inside an operator, is not
    reported: the null child is dereferenced. *)
Theorem C45_unknown_option_refuted :
  exists e s known, writes e s /\ is_operator e /\ initAlgebraString known s = Some PCrash.
Proof.
  exists (Op Seq [Act 3])%Z, (lit ".(p3)"), [1; 2]%Z. repeat split.
  apply (w_op Seq _ (lit "p3")). apply wl_last. number.
Qed.
Print Assumptions C45_unknown_option_refuted.

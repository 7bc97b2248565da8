(** C59: the options of the search tasks, and what their compositions allow. *)
From Coq Require Import String Ascii List ZArith Lia Bool Permutation.
From Verif Require Import Base Run AlgebraModel AlgebraSpec FormulaModel FormulaSpec FormulaProofs SearchOptionsModel SearchOptionsSpec.
From Verif Require AlgebraProps FormulaProps.
Import ListNotations.
Open Scope list_scope.
Open Scope Z_scope.

(** *** Writing compositions *)

(** Operands that end so that any others may follow. *)
Definition closed (cs : list expr) (b : str) : Prop :=
  forall cs' b', writes_list cs' b' -> writes_list (cs ++ cs') (b ++ b').

Lemma closed_nil : closed [] [].
Proof. intros cs' b' H. exact H. Qed.
Lemma closed_space : closed [] (lit " ").
Proof. intros cs' b' H. apply wl_space. exact H. Qed.
Lemma closed_app cs b cs2 b2 : closed cs b -> closed cs2 b2 -> closed (cs ++ cs2) (b ++ b2).
Proof. intros H H2 cs' b' H'. rewrite <- !app_assoc. apply H, H2, H'. Qed.
Lemma closed_name a : 0 <= a < 2 ^ 63 -> closed [Act a] (name a).
Proof.
  intros A cs' b' H. unfold name. rewrite <- app_assoc. rewrite <- app_assoc.
  change (writes_list (Act a :: cs') (("p"%char :: to_string_Z a) ++ " "%char :: b')).
  apply wl_cons; [apply writes_number; exact A|exact H].
Qed.
Lemma closed_names l : Forall (fun a => 0 <= a < 2 ^ 63) l -> closed (map Act l) (concat (map name l)).
Proof.
  induction 1 as [|a l A F IH]; [apply closed_nil|]. cbn [map concat].
  change (Act a :: map Act l) with ([Act a] ++ map Act l). apply closed_app; [apply closed_name; exact A|exact IH].
Qed.
Lemma closed_op o cs b : closed cs b -> closed [Op o cs] (op_char o :: "("%char :: b ++ [")"%char]).
Proof.
  intros C cs' b' H. apply (wl_cons_op (Op o cs)); [exact I| |exact H]. apply w_op.
  specialize (C [] [] wl_nil). rewrite !app_nil_r in C. exact C.
Qed.
Lemma closed_writes o cs b : closed cs b -> writes (Op o cs) (op_char o :: "("%char :: b ++ [")"%char]).
Proof. intros C. apply w_op. specialize (C [] [] wl_nil). rewrite !app_nil_r in C. exact C. Qed.

(** Expressions that stand for one of some actions. *)
Definition one_of (e : expr) (ids : list Z) : Prop :=
  (forall t, traces e t <-> exists a, In a ids /\ t = [a]) /\ actions e = ids /\ no_empty_op e.

Lemma one_act a : one_of (Act a) [a].
Proof.
  split; [|split; [reflexivity|exact I]]. intros t. cbn. split.
  - intros ->. exists a. auto.
  - intros (b & [<-|[]] & ->). reflexivity.
Qed.

Lemma alt_traces cs idss : Forall2 one_of cs idss ->
  (forall t, traces (Op Alt cs) t <-> exists a, In a (concat idss) /\ t = [a])
  /\ actions (Op Alt cs) = concat idss /\ (cs <> [] -> no_empty_op (Op Alt cs)).
Proof.
  intros F. split; [|split].
  - intros t. induction F as [|c ids cs idss H F IH]; [cbn; split; [intros []|intros (a & [] & _)]|].
    change (traces (Op Alt (c :: cs)) t) with (traces c t \/ traces (Op Alt cs) t). rewrite IH, (proj1 H t). cbn [concat]. split.
    + intros [(a & A & ->)|(a & A & ->)]; exists a; (split; [apply in_or_app; auto|reflexivity]).
    + intros (a & A & ->). apply in_app_or in A. destruct A as [A|A]; [left|right]; exists a; auto.
  - cbn [actions]. induction F as [|c ids cs idss H F IH]; [reflexivity|]. cbn [flat_map concat]. rewrite IH.
    f_equal. apply H.
  - intros N. split; [exact N|]. clear N. induction F as [|c ids cs idss H F IH]; [exact I|]. split; [apply H|exact IH].
Qed.

Lemma one_alt cs idss : cs <> [] -> Forall2 one_of cs idss -> one_of (Op Alt cs) (concat idss).
Proof. intros N F. destruct (alt_traces cs idss F) as (T & A & W). split; [exact T|]. split; [exact A|apply W; exact N]. Qed.

Lemma one_acts l : Forall2 one_of (map Act l) (map (fun a => [a]) l).
Proof. induction l; constructor; [apply one_act|assumption]. Qed.
Lemma concat_single (l : list Z) : concat (map (fun a => [a]) l) = l.
Proof. induction l as [|a l IH]; [reflexivity|]. cbn. f_equal. exact IH. Qed.

Lemma ascending_ge : forall ids a b, ascending a ids -> In b ids -> a <= b.
Proof.
  induction ids as [|c ids IH]; intros a b A B; [destruct B|]. destruct A as (A1 & A2). destruct B as [<-|B]; [exact A1|].
  specialize (IH _ _ A2 B). lia.
Qed.
Lemma ascending_nodup : forall ids a, ascending a ids -> NoDup ids.
Proof.
  induction ids as [|c ids IH]; intros a A; [constructor|]. destruct A as (A1 & A2). constructor; [|eapply IH; exact A2].
  intros B. pose proof (ascending_ge _ _ _ A2 B). lia.
Qed.
Lemma ascending_weak : forall ids a b, b <= a -> ascending a ids -> ascending b ids.
Proof. destruct ids as [|c ids]; intros a b B A; [exact I|]. destruct A as (A1 & A2). split; [lia|exact A2]. Qed.
Lemma ascending_app : forall l1 l2 a b, ascending a l1 -> (forall x, In x l1 -> x < b) -> a <= b -> ascending b l2 -> ascending a (l1 ++ l2).
Proof.
  induction l1 as [|c l1 IH]; intros l2 a b A B L A2; [eapply ascending_weak; eassumption|].
  destruct A as (A1 & A3). split; [exact A1|]. apply (IH l2 (c + 1) b); [exact A3|intros x X; apply B; right; exact X| |exact A2].
  specialize (B c (or_introl eq_refl)). lia.
Qed.
(** *** One after the other *)

Definition next (f : Z -> calc) (id : Z) : Z := if c_ok (f id) then c_id (f id) + 1 else c_id (f id).
Fixpoint opts_of (id : Z) (fs : list (Z -> calc)) : list option_ :=
  match fs with [] => [] | f :: fs' => c_opts (f id) ++ opts_of (next f id) fs' end.
Fixpoint text_of (id : Z) (fs : list (Z -> calc)) : str :=
  match fs with [] => [] | f :: fs' => (if c_ok (f id) then c_text (f id) ++ lit " " else []) ++ text_of (next f id) fs' end.

Lemma fold_offer : forall fs a, a_opts (fold_left offer fs a) = a_opts a ++ opts_of (a_id a) fs
  /\ a_text (fold_left offer fs a) = a_text a ++ text_of (a_id a) fs.
Proof.
  induction fs as [|f fs IH]; intros a; cbn [fold_left opts_of text_of]; [rewrite !app_nil_r; auto|].
  destruct (IH (offer a f)) as (H1 & H2). rewrite H1, H2. unfold offer, next.
  destruct (c_ok (f (a_id a))); cbn [a_id a_opts a_text]; rewrite ?app_assoc, ?app_nil_r; split; try reflexivity.
  all: rewrite <- ?app_assoc; reflexivity.
Qed.

Lemma offer_all_eq fs : offer_all fs = (opts_of first_option fs, lit "+(" ++ text_of first_option fs ++ lit ")").
Proof.
  unfold offer_all. cbv zeta. destruct (fold_offer fs start) as (H1 & H2). rewrite H1, H2. cbn [start a_id a_opts a_text app].
  rewrite <- app_assoc. reflexivity.
Qed.

(** The options of the steps that succeed. *)
Fixpoint kept_of (id : Z) (fs : list (Z -> calc)) : list option_ :=
  match fs with [] => [] | f :: fs' => (if c_ok (f id) then c_opts (f id) else []) ++ kept_of (next f id) fs' end.

(** A step that stores options for the first purposes, and writes them if it succeeds: the second. *)
Definition whats : Type := list (list Z * (Z * Z) * bool * Z).
Definition proper (f : Z -> calc) (w : whats * whats) : Prop :=
  forall id,
    map content (c_opts (f id)) = fst w /\ (if c_ok (f id) then fst w else []) = snd w
    /\ ascending id (map o_id (c_opts (f id))) /\ (forall a, In a (map o_id (c_opts (f id))) -> a < next f id) /\ id <= next f id
    /\ (0 <= id -> Forall (fun a => a < 2 ^ 63) (map o_id (c_opts (f id))) -> c_ok (f id) = true ->
        exists cs idss, closed cs (c_text (f id) ++ lit " ") /\ Forall2 one_of cs idss
             /\ concat idss = map o_id (c_opts (f id))).

Lemma proper_all fs ws : Forall2 proper fs ws -> forall id, 0 <= id ->
  map content (opts_of id fs) = concat (map fst ws)
  /\ map content (kept_of id fs) = concat (map snd ws)
  /\ incl (kept_of id fs) (opts_of id fs)
  /\ ascending id (map o_id (opts_of id fs))
  /\ ascending id (map o_id (kept_of id fs))
  /\ (Forall (fun a => a < 2 ^ 63) (map o_id (opts_of id fs)) ->
      exists cs idss, closed cs (text_of id fs) /\ Forall2 one_of cs idss
        /\ concat idss = map o_id (kept_of id fs)).
Proof.
  induction 1 as [|f what fs whats P F IH]; intros id D; cbn [opts_of text_of kept_of].
  { split; [reflexivity|]. split; [reflexivity|]. split; [intros x X; exact X|]. split; [exact I|]. split; [exact I|].
    intros _. exists [], []. split; [apply closed_nil|]. split; [constructor|reflexivity]. }
  destruct (P id) as (P1 & P1' & P2 & P3 & P4 & P5). destruct (IH (next f id)) as (I1 & I1' & IN & I2 & I2' & I3); [lia|].
  cbn [map concat]. split; [rewrite map_app, P1, I1; reflexivity|]. split; [|split; [|split; [|split]]].
  - rewrite map_app, I1', <- P1'. f_equal. destruct (c_ok (f id)); [exact P1|reflexivity].
  - intros x X. apply in_app_or in X. apply in_or_app. destruct X as [X|X]; [left|right; apply IN; exact X].
    destruct (c_ok (f id)); [exact X|destruct X].
  - rewrite map_app. apply (ascending_app _ _ _ (next f id)); assumption.
  - rewrite map_app. destruct (c_ok (f id)); [apply (ascending_app _ _ _ (next f id)); assumption|].
    apply (ascending_weak _ (next f id)); assumption.
  - rewrite map_app. intros B. apply Forall_app in B. destruct B as (B1 & B2). specialize (P5 D B1). specialize (I3 B2).
    destruct I3 as (cs2 & idss2 & C2 & O2 & E2). rewrite map_app. destruct (c_ok (f id)).
    + destruct (P5 eq_refl) as (cs & idss & C & O & E). exists (cs ++ cs2), (idss ++ idss2). split; [apply closed_app; assumption|].
      split; [apply Forall2_app; assumption|]. rewrite concat_app, E, E2. reflexivity.
    + exists cs2, idss2. split; [exact C2|]. split; [exact O2|exact E2].
Qed.

(** The result of [offer_all]. *)
Lemma offered_part fs ws : Forall2 proper fs ws ->
  map content (fst (offer_all fs)) = concat (map fst ws) /\ ascending 10 (map o_id (fst (offer_all fs)))
  /\ incl (kept_of first_option fs) (fst (offer_all fs)) /\ map content (kept_of first_option fs) = concat (map snd ws)
  /\ ascending 10 (map o_id (kept_of first_option fs))
  /\ (Forall (fun a => a < 2 ^ 63) (map o_id (fst (offer_all fs))) ->
      chooses_one (snd (offer_all fs)) (map o_id (kept_of first_option fs))).
Proof.
  intros F. rewrite offer_all_eq. cbn [fst snd].
  destruct (proper_all fs ws F first_option ltac:(unfold first_option; lia)) as (H1 & H1' & HI & H2 & H2' & H3).
  split; [exact H1|]. split; [exact H2|]. split; [exact HI|]. split; [exact H1'|]. split; [exact H2'|].
  intros B. destruct (H3 B) as (cs & idss & C & O & E).
  exists (Op Alt cs). destruct (alt_traces cs idss O) as (T & A & W). split; [apply (closed_writes Alt); exact C|].
  rewrite <- E. split; [exact T|]. intros N. split.
  - apply W. intros ->. inversion O; subst. apply N. reflexivity.
  - rewrite A, E. apply (ascending_nodup _ 10). exact H2'.
Qed.

Lemma kept_all fs ws : Forall2 proper fs (map (fun w => (w, w)) ws) -> forall id, kept_of id fs = opts_of id fs.
Proof.
  revert fs. induction ws as [|w ws IH]; intros fs F id; inversion F as [|f w' fs' ws' P F' E1 E2]; subst; [reflexivity|].
  cbn [kept_of opts_of]. rewrite (IH _ F'). f_equal. destruct (P id) as (P1 & P2 & _). cbn [fst snd] in *.
  destruct (c_ok (f id)); [reflexivity|]. rewrite <- P2 in P1. destruct (c_opts (f id)); [reflexivity|discriminate].
Qed.

Lemma offered fs ws : Forall2 proper fs (map (fun w => (w, w)) ws) -> offers (concat ws) (offer_all fs).
Proof.
  intros F. destruct (offered_part _ _ F) as (H1 & H2 & _ & _ & _ & H3). rewrite (kept_all _ _ F) in H3.
  rewrite offer_all_eq in *. cbn [fst snd] in *. rewrite map_map in H1. cbn [fst] in H1. rewrite map_id in H1.
  split; [exact H1|]. split; [exact H2|exact H3].
Qed.

Lemma Forall2_map_flat {A B C D} (R : C -> D -> Prop) (f : A -> B -> C) (g : A -> B -> D) bs : forall xs, (forall a b, R (f a b) (g a b)) ->
  Forall2 R (flat_map (fun a => map (f a) bs) xs) (flat_map (fun a => map (g a) bs) xs).
Proof.
  intros xs H. induction xs as [|a xs IH]; [constructor|]. cbn [flat_map]. apply Forall2_app; [|exact IH].
  clear IH. induction bs as [|b bs IHb]; constructor; [apply H|exact IHb].
Qed.
Lemma concat_flat {A B C} (f : A -> B -> list C) bs : forall xs,
  concat (flat_map (fun a => map (f a) bs) xs) = flat_map (fun a => flat_map (f a) bs) xs.
Proof.
  induction xs as [|a xs IH]; [reflexivity|]. cbn [flat_map]. rewrite concat_app, IH. f_equal. symmetry. apply flat_map_concat_map.
Qed.

Lemma map_flat {A B C D} (h : C -> D) (f : A -> B -> C) bs : forall xs,
  map h (flat_map (fun a => map (f a) bs) xs) = flat_map (fun a => map (fun b => h (f a b)) bs) xs.
Proof. induction xs as [|a xs IH]; [reflexivity|]. cbn [flat_map]. rewrite map_app, IH, map_map. reflexivity. Qed.

(** What it means for the assignment service: it does exactly one of the options. *)
Theorem C59_one_option : forall text ids known, chooses_one text ids -> ids <> [] -> incl ids known ->
  exists e, initAlgebraString known text = Some (PTree e)
    /\ forall h, offered_run (searchNext e) h <-> h = [] \/ exists a, In a ids /\ h = [a].
Proof.
  intros text ids known (e & W & T & F) N I. exists e. specialize (F N).
  assert (AC : incl (actions e) ids).
  { intros a A. destruct F as (F1 & F2).
    revert a A. clear - T F1 F2.
    assert (G : forall e, no_empty_op e -> forall a, In a (actions e) -> exists t, traces e t /\ In a t).
    { assert (NE : forall e, no_empty_op e -> exists t, traces e t).
      { fix IH 1. intros [b|o cs] H; [exists [b]; reflexivity|]. destruct H as (H1 & H2). destruct o.
        - clear H1. induction cs as [|c cs IHc]; [exists []; reflexivity|]. destruct H2 as (H2 & H3).
          destruct (IH c H2) as (t1 & T1). destruct (IHc H3) as (t2 & T2). exists (t1 ++ t2). exists t1, t2. auto.
        - destruct cs as [|c cs]; [congruence|]. destruct H2 as (H2 & _). destruct (IH c H2) as (t1 & T1). exists t1. left. exact T1.
        - clear H1. induction cs as [|c cs IHc]; [exists []; reflexivity|]. destruct H2 as (H2 & H3).
          destruct (IH c H2) as (t1 & T1). destruct (IHc H3) as (t2 & T2). exists (t1 ++ t2). exists t1, t2. split; [|auto].
          clear. induction t1 as [|x t1 IHt]; [|constructor; exact IHt]. induction t2; constructor; assumption. }
      fix IH 1. intros [b|o cs] H a A; [exists [b]; split; [reflexivity|exact A]|]. destruct H as (H1 & H2). cbn [actions] in A. destruct o.
      - clear H1. induction cs as [|c cs IHc]; [destruct A|]. destruct H2 as (H2 & H3). cbn [flat_map] in A. apply in_app_or in A. destruct A as [A|A].
        + destruct (IH c H2 a A) as (t1 & T1 & A1). destruct (NE (Op Seq (c :: cs))) as (t & t1' & t2 & _ & _ & T2); [split; [discriminate|split; assumption]|].
          exists (t1 ++ t2). split; [exists t1, t2; auto|apply in_or_app; auto].
        + destruct (IHc H3 A) as (t2 & T2 & A2). destruct (NE c H2) as (t1 & T1). exists (t1 ++ t2). split; [exists t1, t2; auto|apply in_or_app; auto].
      - clear H1. induction cs as [|c cs IHc]; [destruct A|]. destruct H2 as (H2 & H3). cbn [flat_map] in A. apply in_app_or in A. destruct A as [A|A].
        + destruct (IH c H2 a A) as (t1 & T1 & A1). exists t1. split; [left; exact T1|exact A1].
        + destruct (IHc H3 A) as (t2 & T2 & A2). exists t2. split; [right; exact T2|exact A2].
      - clear H1.
        assert (IL : forall t1 t2, interleave t1 t2 (t1 ++ t2)) by (clear; intros t1 t2; induction t1 as [|x t1 IHt]; [induction t2; constructor; assumption|constructor; exact IHt]).
        induction cs as [|c cs IHc]; [destruct A|]. destruct H2 as (H2 & H3). cbn [flat_map] in A. apply in_app_or in A. destruct A as [A|A].
        + destruct (IH c H2 a A) as (t1 & T1 & A1). destruct (NE (Op Par (c :: cs))) as (t & t1' & t2 & _ & _ & T2); [split; [discriminate|split; assumption]|].
          exists (t1 ++ t2). split; [exists t1, t2; auto|apply in_or_app; auto].
        + destruct (IHc H3 A) as (t2 & T2 & A2). destruct (NE c H2) as (t1 & T1). exists (t1 ++ t2). split; [exists t1, t2; auto|apply in_or_app; auto]. }
    intros a A. destruct (G e F1 a A) as (t & TT & At). apply T in TT. destruct TT as (b & B & ->). destruct At as [<-|[]]. exact B. }
  split; [apply FormulaProps.C45_parse; [exact W|intros a A; apply I, AC, A]|].
  intros h. split.
  - intros R. destruct (AlgebraProps.C16_runs e h F R) as ((k & K) & _). apply T in K. destruct K as (a & A & E).
    destruct h as [|b h]; [left; reflexivity|right]. cbn in E. injection E as -> E. apply app_eq_nil in E. destruct E as (-> & _). exists a. auto.
  - intros H. apply AlgebraProps.C16_all_reachable; [exact F|]. destruct H as [->|(a & A & ->)].
    + destruct ids as [|b ids]; [congruence|]. exists [b]. apply T. exists b. split; [left; reflexivity|reflexivity].
    + exists []. apply T. exists a. auto.
Qed.
Print Assumptions C59_one_option.

(** *** Lines *)

Lemma closed_pair a b : 0 <= a < 2 ^ 63 -> 0 <= b < 2 ^ 63 ->
  closed [Op Alt [Act a; Act b]] ((lit "+(" ++ name a ++ name b ++ lit ")") ++ lit " ").
Proof.
  intros A B. change [Op Alt [Act a; Act b]] with ([Op Alt [Act a; Act b]] ++ []). apply closed_app; [|apply closed_space].
  change (closed [Op Alt [Act a; Act b]] (op_char Alt :: "("%char :: name a ++ name b ++ [")"%char])). rewrite app_assoc.
  apply closed_op. change [Act a; Act b] with ([Act a] ++ [Act b]). apply closed_app; apply closed_name; assumption.
Qed.
Lemma closed_single a : 0 <= a < 2 ^ 63 -> closed [Op Alt [Act a]] ((lit "+(" ++ name a ++ lit ")") ++ lit " ").
Proof.
  intros A. change [Op Alt [Act a]] with ([Op Alt [Act a]] ++ []). apply closed_app; [|apply closed_space].
  change (closed [Op Alt [Act a]] (op_char Alt :: "("%char :: name a ++ [")"%char])). apply closed_op. apply closed_name. exact A.
Qed.
Lemma one_pair a b : one_of (Op Alt [Act a; Act b]) [a; b].
Proof. apply (one_alt [Act a; Act b] [[a]; [b]]); [discriminate|]. repeat constructor; try apply one_act. Qed.
Lemma one_single a : one_of (Op Alt [Act a]) [a].
Proof. apply (one_alt [Act a] [[a]]); [discriminate|]. repeat constructor; try apply one_act. Qed.

Definition forward (g : group) (k : Z * Z) : list Z * (Z * Z) * bool * Z := (vehicles g, k, false, 0).
Definition backward (g : group) (k : Z * Z) : list Z * (Z * Z) * bool * Z := (vehicles g, k, true, 0).

Lemma proper_cmasi points both fwd rev g k : proper (calc_cmasi_line points both fwd rev g k)
  ((if points && fwd g k then forward g k :: (if both && rev g k then [backward g k] else []) else []),
   (if points && fwd g k && (negb both || rev g k) then forward g k :: (if both then [backward g k] else []) else [])).
Proof.
  intros id. unfold next, calc_cmasi_line. cbv zeta. destruct (points && fwd g k) eqn:P; cbn [andb fst snd].
  2:{ cbn. split; [reflexivity|]. split; [reflexivity|]. split; [exact I|]. split; [intros a []|]. split; [lia|]. intros _ _ H. discriminate. }
  destruct both; [destruct (rev g k)|]; cbn [negb orb andb c_ok c_id c_opts c_text map o_id].
  - split; [reflexivity|]. split; [reflexivity|]. split; [cbn; lia|]. split; [cbn; lia|]. split; [lia|].
    intros D B _. inversion B as [|x y B1 B2]; inversion B2; subst. exists [Op Alt [Act id; Act (id + 1)]], [[id; id + 1]].
    split; [apply closed_pair; lia|]. split; [constructor; [apply one_pair|constructor]|reflexivity].
  - split; [reflexivity|]. split; [reflexivity|]. split; [cbn; lia|]. split; [cbn; lia|]. split; [lia|]. intros _ _ H. discriminate.
  - split; [reflexivity|]. split; [reflexivity|]. split; [cbn; lia|]. split; [cbn; lia|]. split; [lia|].
    intros D B _. inversion B as [|x y B1 B2]; subst. exists [Op Alt [Act id]], [[id]].
    split; [apply closed_single; lia|]. split; [constructor; [apply one_single|constructor]|reflexivity].
Qed.

Lemma proper_impact points both fwd rev g k : proper (calc_impact_line points both fwd rev g k)
  (let w := if points && (fwd g k && rev g k) then forward g k :: (if both then [backward g k] else []) else [] in (w, w)).
Proof.
  intros id. unfold next, calc_impact_line. cbv zeta. destruct (points && (fwd g k && rev g k)) eqn:P; cbn [andb fst snd].
  2:{ cbn. split; [reflexivity|]. split; [reflexivity|]. split; [exact I|]. split; [intros a []|]. split; [lia|]. intros _ _ H. discriminate. }
  destruct both; cbn [negb orb andb c_ok c_id c_opts c_text map o_id].
  - split; [reflexivity|]. split; [reflexivity|]. split; [cbn; lia|]. split; [cbn; lia|]. split; [lia|].
    intros D B _. inversion B as [|x y B1 B2]; inversion B2; subst. exists [Op Alt [Act id; Act (id + 1)]], [[id; id + 1]].
    split; [apply closed_pair; lia|]. split; [constructor; [apply one_pair|constructor]|reflexivity].
  - split; [reflexivity|]. split; [reflexivity|]. split; [cbn; lia|]. split; [cbn; lia|]. split; [lia|].
    intros D B _. inversion B as [|x y B1 B2]; subst. exists [Op Alt [Act id]], [[id]].
    split; [apply closed_single; lia|]. split; [constructor; [apply one_single|constructor]|reflexivity].
Qed.

(** Line searches of the first kind: for every group and every view angle an option to fly along the line and, if both
    ways are wanted, one to fly back, where the planner finds a way.  Exactly one option is to be done; those whose way
    back was wanted and not found are not among the alternatives. *)
Theorem C59_cmasi_line : forall points both fwd rev ks gs,
  let r := cmasi_line points both fwd rev ks gs in
  map content (fst r)
    = flat_map (fun g => flat_map (fun k =>
        if points && fwd g k then (vehicles g, k, false, 0) :: (if both && rev g k then [(vehicles g, k, true, 0)] else []) else []) ks) gs
  /\ ascending 10 (map o_id (fst r))
  /\ exists l, incl l (fst r)
      /\ map content l
         = flat_map (fun g => flat_map (fun k =>
             if points && fwd g k && (negb both || rev g k)
             then (vehicles g, k, false, 0) :: (if both then [(vehicles g, k, true, 0)] else []) else []) ks) gs
      /\ (Forall (fun a => a < 2 ^ 63) (map o_id (fst r)) -> chooses_one (snd r) (map o_id l)).
Proof.
  intros points both fwd rev ks gs r.
  pose proof (Forall2_map_flat proper (calc_cmasi_line points both fwd rev) (fun g k =>
    ((if points && fwd g k then forward g k :: (if both && rev g k then [backward g k] else []) else []),
     (if points && fwd g k && (negb both || rev g k) then forward g k :: (if both then [backward g k] else []) else []))) ks gs
    (proper_cmasi points both fwd rev)) as F.
  destruct (offered_part _ _ F) as (H1 & H2 & H3 & H4 & H5 & H6).
  assert (M : forall (p : whats * whats -> whats) (G : group -> Z * Z -> whats * whats),
    concat (map p (flat_map (fun g => map (G g) ks) gs)) = flat_map (fun g => flat_map (fun k => p (G g k)) ks) gs).
  { intros p G. clear. induction gs as [|g gs IH]; [reflexivity|]. cbn [flat_map]. rewrite map_app, concat_app, IH. f_equal.
    rewrite map_map. symmetry. apply flat_map_concat_map. }
  rewrite M in H1, H4. cbn [fst snd] in H1, H4.
  split; [exact H1|]. split; [exact H2|]. eexists. split; [exact H3|]. split; [exact H4|exact H6].
Qed.
Print Assumptions C59_cmasi_line.

Definition vehicle1 : group := {| speed := 200; altitude := 100; vehicles := [400] |}.
Definition vehicle2 : group := {| speed := 300; altitude := 100; vehicles := [500; 600] |}.

(** Two groups, one view angle, both ways: number 12 is not used. *)
Example C59_cmasi_line_both :
  cmasi_line true true (fun _ _ => true) (fun _ _ => true) [(90, -120)] [vehicle1; vehicle2]
  = ([{| o_id := 10; o_for := [400]; o_look := (90, -120); o_back := false; o_cost := 0 |};
      {| o_id := 11; o_for := [400]; o_look := (90, -120); o_back := true; o_cost := 0 |};
      {| o_id := 13; o_for := [500; 600]; o_look := (90, -120); o_back := false; o_cost := 0 |};
      {| o_id := 14; o_for := [500; 600]; o_look := (90, -120); o_back := true; o_cost := 0 |}],
     lit "+(+(p10 p11 ) +(p13 p14 ) )").
Proof. reflexivity. Qed.

(** So an option can be published that is never chosen, although it can be flown. *)
Theorem C59_left_out_refuted :
  exists fwd rev ks gs o ids, let r := cmasi_line true true fwd rev ks gs in
    In o (fst r) /\ chooses_one (snd r) ids /\ ~ In (o_id o) ids /\ ids <> [].
Proof.
  exists (fun _ _ => true), (fun g _ => speed g =? 200), [(90, -120)], [vehicle1; vehicle2],
    {| o_id := 13; o_for := [500; 600]; o_look := (90, -120); o_back := false; o_cost := 0 |}, [10; 11].
  cbv zeta. split; [vm_compute; tauto|]. split; [|split; [intros [H|[H|[]]]; discriminate|discriminate]].
  exists (Op Alt [Op Alt [Act 10; Act 11]]). destruct (one_alt [Op Alt [Act 10; Act 11]] [[10; 11]] ltac:(discriminate)) as (T & A & W); [constructor; [apply one_pair|constructor]|].
  split; [|split; [exact T|]].
  - change (snd _) with (op_char Alt :: "("%char :: ((lit "+(" ++ name 10 ++ name 11 ++ lit ")") ++ lit " ") ++ [")"%char]).
    apply closed_writes. apply closed_pair; lia.
  - intros _. split; [exact W|]. rewrite A. repeat constructor; cbn; lia.
Qed.
Print Assumptions C59_left_out_refuted.

(** Line searches of the second kind: options only where there are ways there and back, and exactly one is to be done. *)
Theorem C59_impact_line : forall (points both : bool) fwd rev ks gs,
  offers (flat_map (fun g => flat_map (fun k =>
            if points && (fwd g k && rev g k)
            then (vehicles g, k, false, 0) :: (if both then [(vehicles g, k, true, 0)] else []) else []) ks) gs)
         (impact_line points both fwd rev ks gs).
Proof.
  intros points both fwd rev ks gs. rewrite <- concat_flat. apply offered. rewrite map_flat.
  apply (Forall2_map_flat proper (calc_impact_line points both fwd rev)). apply proper_impact.
Qed.
Print Assumptions C59_impact_line.

Example C59_impact_line_both :
  impact_line true true (fun _ _ => true) (fun g _ => speed g =? 300) [(90, -120)] [vehicle1; vehicle2]
  = ([{| o_id := 10; o_for := [500; 600]; o_look := (90, -120); o_back := false; o_cost := 0 |};
      {| o_id := 11; o_for := [500; 600]; o_look := (90, -120); o_back := true; o_cost := 0 |}],
     lit "+(+(p10 p11 ) )").
Proof. reflexivity. Qed.

(** *** Areas *)

Lemma area_loop k : forall vs id, exists l s, calc_area_loop k vs id = (id + Z.of_nat (length vs), l, s)
  /\ map content l = map (fun v => ([v], k, false, 0)) vs
  /\ map o_id l = map (fun i => id + Z.of_nat i) (seq 0 (length vs))
  /\ s = concat (map name (map o_id l)).
Proof.
  induction vs as [|v vs IH]; intros id; cbn [calc_area_loop].
  { exists [], []. split; [f_equal; f_equal; cbn; lia|]. repeat split. }
  destruct (IH (id + 1)) as (l & s & -> & C & I & S). eexists. eexists. split; [f_equal; f_equal; cbn [length]; lia|].
  split; [cbn [map]; rewrite C; reflexivity|]. split.
  - cbn [map length seq o_id]. f_equal; [lia|]. rewrite I, <- seq_shift, map_map. apply map_ext. intros i. lia.
  - cbn [map o_id concat]. rewrite S. reflexivity.
Qed.

Lemma ascending_seq : forall n id a, a <= id -> ascending a (map (fun i => id + Z.of_nat i) (seq 0 n)).
Proof.
  induction n as [|n IH]; intros id a A; [exact I|]. cbn [seq map ascending]. split; [lia|].
  rewrite <- seq_shift, map_map. rewrite (map_ext _ (fun i => (id + 1) + Z.of_nat i)) by (intros i; lia). apply IH. lia.
Qed.

Lemma proper_area g k : proper (calc_area g k) (let w := map (fun v => ([v], k, false, 0)) (vehicles g) in (w, w)).
Proof.
  intros id. unfold next, calc_area. destruct (area_loop k (vehicles g) id) as (l & s & E & C & I & S). rewrite E.
  cbn [c_ok c_id c_opts c_text fst snd]. split; [exact C|]. split; [reflexivity|]. rewrite I. split; [apply ascending_seq; lia|].
  split; [|split; [lia|]].
  - intros a A. apply in_map_iff in A. destruct A as (i & <- & A). apply in_seq in A. lia.
  - intros D B _. rewrite <- I in *. exists (map Act (map o_id l)), (map (fun a => [a]) (map o_id l)).
    split; [|split; [apply one_acts|apply concat_single]]. rewrite <- (app_nil_r (map Act (map o_id l))).
    apply closed_app; [|apply closed_space]. rewrite S. apply closed_names. rewrite Forall_forall in *. intros a A.
    split; [|apply B; exact A]. rewrite I in A. apply in_map_iff in A. destruct A as (i & <- & _). lia.
Qed.

(** Area searches: an option for every vehicle and every view angle; exactly one option is to be done. *)
Theorem C59_area : forall ks gs,
  offers (flat_map (fun g => flat_map (fun k => map (fun v => ([v], k, false, 0)) (vehicles g)) ks) gs) (area ks gs).
Proof.
  intros ks gs. rewrite <- concat_flat. apply offered. rewrite map_flat.
  apply (Forall2_map_flat proper calc_area). apply proper_area.
Qed.
Print Assumptions C59_area.

Example C59_area_two :
  area [(0, -120)] [vehicle1; vehicle2]
  = ([{| o_id := 10; o_for := [400]; o_look := (0, -120); o_back := false; o_cost := 0 |};
      {| o_id := 12; o_for := [500]; o_look := (0, -120); o_back := false; o_cost := 0 |};
      {| o_id := 13; o_for := [600]; o_look := (0, -120); o_back := false; o_cost := 0 |}],
     lit "+(p10  p12 p13  )").
Proof. reflexivity. Qed.

Lemma footprints_ids : forall ks gs id,
  map fst (footprints_loop id (flat_map (fun g => map (fun k => (g, calc_area g k)) ks) gs))
  = map o_id (opts_of id (flat_map (fun g => map (calc_area g) ks) gs)).
Proof.
  intros ks gs.
  assert (G : forall fs id, map fst (footprints_loop id fs) = map o_id (opts_of id (map snd fs))).
  { induction fs as [|(g, f) fs IH]; intros id; [reflexivity|]. cbn [footprints_loop map snd opts_of]. rewrite !map_app, IH. f_equal.
    rewrite map_map. reflexivity. }
  intros id. rewrite G. f_equal. f_equal. rewrite map_flat. reflexivity.
Qed.

(** One footprint of the camera is asked for per option. *)
Theorem C59_footprints : forall ks gs, map fst (area_footprints ks gs) = map o_id (fst (area ks gs)).
Proof. intros ks gs. unfold area_footprints, area. rewrite footprints_ids, offer_all_eq. reflexivity. Qed.
Print Assumptions C59_footprints.

(** But for the first vehicle of the group, whatever the vehicle of the option is. *)
Theorem C59_footprint_refuted :
  exists ks gs o v, In o (fst (area ks gs)) /\ In (o_id o, Some v) (area_footprints ks gs) /\ ~ In v (o_for o).
Proof.
  exists [(0, -120)], [vehicle2], {| o_id := 11; o_for := [600]; o_look := (0, -120); o_back := false; o_cost := 0 |}, 500.
  split; [vm_compute; tauto|]. split; [vm_compute; tauto|]. intros [H|[]]. discriminate.
Qed.
Print Assumptions C59_footprint_refuted.

Lemma proper_pattern k g : proper (calc_pattern k g)
  (let w := match vehicles g with [] => [] | v :: _ => [([v], k, false, 0)] end in (w, w)).
Proof.
  intros id. unfold next, calc_pattern. destruct (vehicles g) as [|v vs]; cbn [c_ok c_id c_opts c_text map o_id fst snd].
  - split; [reflexivity|]. split; [reflexivity|]. split; [exact I|]. split; [intros a []|]. split; [lia|].
    intros _ _ _. exists [], []. split; [apply closed_space|]. split; [constructor|reflexivity].
  - split; [reflexivity|]. split; [reflexivity|]. split; [cbn; lia|]. split; [cbn; lia|]. split; [lia|].
    intros D B _. inversion B; subst. exists [Act id], [[id]]. split; [|split; [constructor; [apply one_act|constructor]|reflexivity]].
    change [Act id] with ([Act id] ++ []). apply closed_app; [apply closed_name; lia|apply closed_space].
Qed.

(** Pattern searches: an option for the first vehicle of every group only. *)
Theorem C59_pattern : forall u gs,
  offers (flat_map (fun g => match vehicles g with [] => [] | v :: _ => [([v], (0, -120 * u), false, 0)] end) gs) (pattern u gs).
Proof.
  intros u gs. rewrite flat_map_concat_map. apply offered. unfold pattern. rewrite map_map.
  induction gs as [|g gs IH]; constructor; [apply proper_pattern|exact IH].
Qed.
Print Assumptions C59_pattern.

(** The others are left out. *)
Theorem C59_pattern_refuted :
  exists u gs g v, In g gs /\ In v (vehicles g) /\ forall o, In o (fst (pattern u gs)) -> ~ In v (o_for o).
Proof.
  exists 1, [vehicle2], vehicle2, 600. split; [left; reflexivity|]. split; [right; left; reflexivity|].
  intros o H. vm_compute in H. destruct H as [<-|[]]. cbn. intros [H|[]]. discriminate.
Qed.
Print Assumptions C59_pattern_refuted.

Lemma proper_angled k v : proper (calc_angled k v) (let w := [([v], k, false, 0)] in (w, w)).
Proof.
  intros id. unfold next, calc_angled. cbn [c_ok c_id c_opts c_text map o_id fst snd].
  split; [reflexivity|]. split; [reflexivity|]. split; [cbn; lia|]. split; [cbn; lia|]. split; [lia|].
  intros D B _. inversion B; subst. exists [Act id], [[id]]. split; [|split; [constructor; [apply one_act|constructor]|reflexivity]].
  change [Act id] with ([Act id] ++ []). apply closed_app; [apply closed_name; lia|apply closed_space].
Qed.

(** Searches of an area at an angle: four options, one per corner, for every vehicle. *)
Theorem C59_angled : forall u sw gs,
  offers (flat_map (fun g => flat_map (fun v => repeat ([v], (sw, -120 * u), false, 0) 4) (vehicles g)) gs) (angled u sw gs).
Proof.
  intros u sw gs.
  set (ws := flat_map (fun g => flat_map (fun v => repeat [([v], (sw, -120 * u), false, 0)] 4) (vehicles g)) gs : list whats).
  assert (E : flat_map (fun g => flat_map (fun v => repeat ([v], (sw, -120 * u), false, 0) 4) (vehicles g)) gs = concat ws).
  { unfold ws. induction gs as [|g gs IH]; [reflexivity|]. cbn [flat_map]. rewrite concat_app, <- IH. f_equal. clear.
    induction (vehicles g) as [|v vs IHv]; [reflexivity|]. cbn [flat_map]. rewrite concat_app, <- IHv. reflexivity. }
  rewrite E. apply offered. unfold angled, ws. clear E ws.
  induction gs as [|g gs IH]; [constructor|]. cbn [flat_map]. rewrite map_app. apply Forall2_app; [|exact IH]. clear IH.
  induction (vehicles g) as [|v vs IHv]; [constructor|]. cbn [flat_map]. rewrite map_app. apply Forall2_app; [|exact IHv].
  cbn [repeat map]. repeat (constructor; [apply proper_angled|]). constructor.
Qed.
Print Assumptions C59_angled.

Example C59_angled_one :
  snd (angled 1 90 [vehicle1]) = lit "+(p10  p11  p12  p13  )".
Proof. reflexivity. Qed.

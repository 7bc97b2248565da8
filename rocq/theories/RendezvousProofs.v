(** Supporting lemmas about the options that a rendezvous offers. *)
From Coq Require Import String Ascii List ZArith Bool Lia Permutation Sorted Arith.
From Verif Require Import Base AlgebraModel AlgebraSpec FormulaModel FormulaSpec RendezvousModel RendezvousSpec NextPerm.
Import ListNotations.
Open Scope list_scope.
Open Scope Z_scope.

(** *** Options *)

Fixpoint num (o : Z) (ps : list (Z * nat)) : list option_ :=
  match ps with [] => [] | p :: ps => {| o_id := o; o_vehicle := fst p; o_state := snd p |} :: num (o + 1) ps end.
Fixpoint pl (v : Z) (i : nat) (states : list Z) : list nat :=
  match states with [] => [] | p :: s => if (p =? 0) || (p =? v) then i :: pl v (S i) s else pl v (S i) s end.

Lemma num_length : forall ps o, length (num o ps) = length ps.
Proof. induction ps as [|p ps IH]; intros o; [reflexivity|]. cbn [num length]. rewrite IH. reflexivity. Qed.
Lemma num_app : forall a o b, num o (a ++ b) = num o a ++ num (o + Z.of_nat (length a)) b.
Proof.
  induction a as [|p a IH]; intros o b; cbn [num app length]; [f_equal; lia|]. rewrite IH. do 3 f_equal. lia.
Qed.
Lemma num_pairs : forall ps o, map (fun x => (o_vehicle x, o_state x)) (num o ps) = ps.
Proof. induction ps as [|[v i] ps IH]; intros o; [reflexivity|]. cbn [num map o_vehicle o_state fst snd]. rewrite IH. reflexivity. Qed.
Lemma num_ids : forall ps o, map o_id (num o ps) = map (fun n => o + Z.of_nat n) (seq 0 (length ps)).
Proof.
  induction ps as [|p ps IH]; intros o; [reflexivity|]. cbn [num map length seq o_id]. rewrite IH. f_equal; [lia|].
  rewrite <- seq_shift, map_map. apply map_ext. intros n. lia.
Qed.

Lemma of_vehicle_num v : forall states i o, of_vehicle v i states o = num o (map (pair v) (pl v i states)).
Proof.
  induction states as [|p s IH]; intros i o; [reflexivity|]. cbn [of_vehicle pl]. destruct ((p =? 0) || (p =? v)); [|apply IH].
  cbn [map num fst snd]. rewrite IH. reflexivity.
Qed.
Definition all_pairs (vs states : list Z) : list (Z * nat) := flat_map (fun v => map (pair v) (pl v 0 states)) vs.
Lemma of_vehicles_num states : forall vs o, of_vehicles vs states o = num o (all_pairs vs states).
Proof.
  unfold all_pairs. induction vs as [|v vs IH]; intros o; [reflexivity|]. cbn [of_vehicles flat_map]. rewrite of_vehicle_num, IH, num_app, num_length. reflexivity.
Qed.
Lemma options_num groups states : options groups states = num 10 (all_pairs (concat groups) states).
Proof. apply of_vehicles_num. Qed.

Lemma pl_in v : forall states i j, In j (pl v i states) <-> (i <= j)%nat /\ suits states v (j - i).
Proof.
  unfold suits. induction states as [|p s IH]; intros i j; cbn [pl].
  - split; [intros []|]. intros (_ & H). destruct (j - i)%nat; destruct H; discriminate.
  - assert (E : In j (pl v (S i) s) <-> (S i <= j)%nat /\ (nth_error (p :: s) (j - i) = Some 0 \/ nth_error (p :: s) (j - i) = Some v)).
    { rewrite IH. split; intros (L & H); (split; [exact L|]); replace (j - i)%nat with (S (j - S i)) in * by lia; exact H. }
    destruct ((p =? 0) || (p =? v)) eqn:P.
    + cbn [In]. rewrite E. split.
      * intros [<-|(L & H)]; [|split; [lia|exact H]]. rewrite Nat.sub_diag. split; [lia|]. cbn. apply orb_true_iff in P.
        rewrite !Z.eqb_eq in P. destruct P as [->| ->]; auto.
      * intros (L & H). destruct (Nat.eq_dec i j) as [->|N]; [left; reflexivity|right]. split; [lia|exact H].
    + rewrite E. split; [intros (L & H); split; [lia|exact H]|]. intros (L & H). split; [|exact H].
      destruct (Nat.eq_dec i j) as [->|N]; [|lia]. exfalso. rewrite Nat.sub_diag in H. cbn in H. apply orb_false_iff in P. rewrite !Z.eqb_neq in P.
      destruct P as (P1 & P2). destruct H as [H|H]; injection H as H; contradiction.
Qed.
Lemma pl_sorted v : forall states i, StronglySorted lt (pl v i states).
Proof.
  induction states as [|p s IH]; intros i; cbn [pl]; [constructor|]. destruct ((p =? 0) || (p =? v)); [|apply IH].
  constructor; [apply IH|]. apply Forall_forall. intros j J. apply pl_in in J. lia.
Qed.
Lemma sorted_places (l : list nat) : StronglySorted lt l -> NoDup l /\ forall a b i j, l = a ++ i :: b -> In j b -> (i < j)%nat.
Proof.
  intros S. induction S as [|x l S (N & IH) F]; [split; [constructor|intros [|] ? ? ? H; discriminate]|]. rewrite Forall_forall in F. split.
  - constructor; [intros I; apply F in I; lia|exact N].
  - intros [|y a] b i j H J; injection H as -> ->; [apply F, J|eapply IH; [reflexivity|exact J]].
Qed.
Lemma places_sorted states v l : places states v l -> StronglySorted lt l.
Proof.
  intros (_ & _ & H). induction l as [|x l IH]; [constructor|]. constructor.
  - apply IH. intros a b i j -> J. apply (H (x :: a) b i j eq_refl J).
  - apply Forall_forall. intros j J. apply (H [] l x j eq_refl J).
Qed.
Lemma pl_places states v : places states v (pl v 0 states).
Proof.
  destruct (sorted_places _ (pl_sorted v states 0)) as (N & S). split; [exact N|]. split; [|exact S]. intros i. rewrite pl_in, Nat.sub_0_r.
  split; [tauto|]. split; [lia|assumption].
Qed.
Lemma sorted_eq : forall l m : list nat, StronglySorted lt l -> StronglySorted lt m -> (forall i, In i l <-> In i m) -> l = m.
Proof.
  induction l as [|x l IH]; intros m SL SM H.
  - destruct m as [|y m]; [reflexivity|]. exfalso. apply (H y). left. reflexivity.
  - destruct m as [|y m]; [exfalso; apply (H x); left; reflexivity|]. inversion SL as [|? ? SL' FL]; inversion SM as [|? ? SM' FM]; subst.
    rewrite Forall_forall in FL, FM.
    assert (x = y).
    { destruct (proj1 (H x) (or_introl eq_refl)) as [E|I]; [congruence|]. destruct (proj2 (H y) (or_introl eq_refl)) as [E|J]; [congruence|].
      apply FM in I. apply FL in J. lia. }
    subst y. f_equal. apply IH; [assumption|assumption|]. intros i. split; intros I.
    + destruct (proj1 (H i) (or_intror I)) as [<-|J]; [apply FL in I; lia|exact J].
    + destruct (proj2 (H i) (or_intror I)) as [<-|J]; [apply FM in I; lia|exact J].
Qed.
Lemma places_pl states v l : places states v l -> l = pl v 0 states.
Proof.
  intros P. apply sorted_eq; [eapply places_sorted; exact P|apply pl_sorted|]. intros i. destruct P as (_ & P & _). destruct (pl_places states v) as (_ & Q & _).
  rewrite P, Q. reflexivity.
Qed.

Lemma all_pairs_in vs states v i : In (v, i) (all_pairs vs states) <-> In v vs /\ suits states v i.
Proof.
  unfold all_pairs. rewrite in_flat_map. destruct (pl_places states v) as (_ & P & _). split.
  - intros (u & U & H). apply in_map_iff in H. destruct H as (j & E & H). injection E as <- <-. split; [exact U|apply P, H].
  - intros (V & S). exists v. split; [exact V|]. apply in_map, P, S.
Qed.
Lemma nodup_app {A} (a b : list A) : NoDup a -> NoDup b -> (forall x, In x a -> ~ In x b) -> NoDup (a ++ b).
Proof.
  intros NA NB H. induction NA as [|x a X NA IH]; [exact NB|]. cbn. constructor.
  - rewrite in_app_iff. intros [I|I]; [contradiction|]. apply (H x); [left; reflexivity|exact I].
  - apply IH. intros y Y. apply H. right. exact Y.
Qed.
Lemma all_pairs_nodup vs states : NoDup vs -> NoDup (all_pairs vs states).
Proof.
  intros N. induction N as [|v vs V N IH]; [constructor|]. cbn [all_pairs flat_map]. apply nodup_app; [|exact IH|].
  - apply FinFun.Injective_map_NoDup; [intros a b E; congruence|apply pl_places].
  - intros [u i] U W. apply in_map_iff in U. destruct U as (j & E & _). injection E as <- <-. apply all_pairs_in in W. tauto.
Qed.

Lemma options_complete groups states : NoDup (concat groups) -> complete (options groups states) (concat groups) states.
Proof.
  intros N. rewrite options_num. split; [rewrite num_ids, num_length; reflexivity|]. rewrite num_pairs. split; [apply all_pairs_nodup, N|apply all_pairs_in].
Qed.

(** *** The options of a vehicle *)

Lemma filter_other v : forall ps o, (forall p, In p ps -> fst p <> v) -> filter (fun x => o_vehicle x =? v) (num o ps) = [].
Proof.
  induction ps as [|p ps IH]; intros o H; [reflexivity|]. cbn [num filter o_vehicle].
  destruct (Z.eqb_spec (fst p) v) as [E|_]; [exfalso; apply (H p); [left; reflexivity|exact E]|]. apply IH. intros q Q. apply H. right. exact Q.
Qed.
Lemma filter_same v : forall l o, filter (fun x => o_vehicle x =? v) (num o (map (pair v) l)) = num o (map (pair v) l).
Proof. induction l as [|i l IH]; intros o; [reflexivity|]. cbn [map num filter o_vehicle fst]. rewrite Z.eqb_refl, IH. reflexivity. Qed.
Lemma filter_vehicle states v : forall vs o, NoDup vs -> In v vs ->
  exists o', filter (fun x => o_vehicle x =? v) (num o (all_pairs vs states)) = num o' (map (pair v) (pl v 0 states)).
Proof.
  induction vs as [|u vs IH]; intros o N I; [destruct I|]. inversion N as [|? ? U N']; subst. cbn [all_pairs flat_map]. rewrite num_app, filter_app.
  destruct I as [->|I].
  - rewrite filter_same, filter_other, app_nil_r; [eexists; reflexivity|]. intros [w i] W E. cbn in E. subst w. apply all_pairs_in in W. tauto.
  - rewrite filter_other; [|intros [w i] W E; apply in_map_iff in W; destruct W as (j & W & _); injection W as <- <-; cbn in E; subst; contradiction].
    cbn [app]. apply IH; assumption.
Qed.

Section Ids.
  Context (groups : list (list Z)) (states : list Z) (N : NoDup (concat groups)).
  Let l := options groups states.

  Lemma ids_nth v j a : In v (concat groups) ->
    (nth_error (ids l v) j = Some a <-> exists x, In x l /\ o_id x = a /\ o_vehicle x = v /\ nth_error (pl v 0 states) j = Some (o_state x)).
  Proof.
    intros V. unfold ids. unfold l at 1. rewrite options_num. destruct (filter_vehicle states v _ 10 N V) as (o' & E). 
    assert (P : forall j x, nth_error (num o' (map (pair v) (pl v 0 states))) j = Some x -> In x l /\ o_vehicle x = v /\ nth_error (pl v 0 states) j = Some (o_state x)).
    { intros i x X. split; [|split].
      - apply nth_error_In in X. rewrite <- E in X. apply filter_In in X. unfold l. rewrite options_num. apply X.
      - apply nth_error_In in X. rewrite <- E in X. apply filter_In in X. apply Z.eqb_eq, X.
      - pose proof (map_nth_error (fun x => (o_vehicle x, o_state x)) _ _ X) as Y. rewrite num_pairs in Y.
        destruct (nth_error (pl v 0 states) i) as [q|] eqn:Q.
        + rewrite (map_nth_error _ _ _ Q) in Y. congruence.
        + exfalso. apply nth_error_None in Q. assert (i < length (map (pair v) (pl v 0 states)))%nat by (apply nth_error_Some; congruence).
          rewrite map_length in *. lia. }
    rewrite E. split.
    - intros H. destruct (nth_error (num o' (map (pair v) (pl v 0 states))) j) as [x|] eqn:X.
      + rewrite (map_nth_error _ _ _ X) in H. injection H as <-. exists x. apply P in X. tauto.
      + exfalso. apply nth_error_None in X. assert (j < length (map o_id (num o' (map (pair v) (pl v 0 states)))))%nat by (apply nth_error_Some; congruence).
        rewrite map_length in *. lia.
    - intros (x & X1 & <- & X2 & X3).
      assert (L : (j < length (num o' (map (pair v) (pl v 0%nat states))))%nat).
      { rewrite num_length, map_length. apply nth_error_Some. congruence. }
      destruct (nth_error (num o' (map (pair v) (pl v 0 states))) j) as [y|] eqn:Y; [|apply nth_error_None in Y; lia].
      rewrite (map_nth_error _ _ _ Y). destruct (P _ _ Y) as (Y1 & Y2 & Y3). f_equal. rewrite X3 in Y3. injection Y3 as Y3.
      destruct (options_complete groups states N) as (_ & ND & _). fold l in ND.
      assert (F : forall m : list option_, NoDup (map (fun x => (o_vehicle x, o_state x)) m) -> In x m -> In y m -> x = y).
      { induction m as [|z m IH]; intros ND' A B; [destruct A|]. cbn in ND'. inversion ND' as [|? ? Z0 ND2]; subst.
        destruct A as [->|A]; destruct B as [->|B]; [reflexivity| | |auto].
        - exfalso. apply Z0. apply in_map_iff. exists y. split; [congruence|exact B].
        - exfalso. apply Z0. apply in_map_iff. exists x. split; [congruence|exact A]. }
      rewrite (F l ND X1 Y1). reflexivity.
  Qed.
  Lemma ids_length v : In v (concat groups) -> length (ids l v) = length (pl v 0 states).
  Proof.
    intros V. unfold ids, l. rewrite options_num. destruct (filter_vehicle states v _ 10 N V) as (o' & E). rewrite E, map_length, num_length, map_length. reflexivity.
  Qed.
  Lemma vehicles_in v : In v (vehicles l) <-> In v (concat groups) /\ pl v 0 states <> [].
  Proof.
    unfold vehicles. rewrite nodup_In, in_map_iff. destruct (options_complete groups states N) as (_ & _ & C). fold l in C. destruct (pl_places states v) as (_ & P & _). split.
    - intros (x & <- & X). destruct (proj1 (C (o_vehicle x) (o_state x))) as (A & B); [apply in_map_iff; exists x; auto|]. split; [exact A|].
      apply P in B. destruct (pl (o_vehicle x) 0 states); [destruct B|discriminate].
    - intros (V & H). destruct (pl v 0 states) as [|i q] eqn:E; [congruence|].
      assert (I : In (v, i) (map (fun x => (o_vehicle x, o_state x)) l)) by (apply C; split; [exact V|apply P; left; reflexivity]).
      apply in_map_iff in I. destruct I as (x & X & I). injection X as <- _. exists x. split; [reflexivity|exact I].
  Qed.
End Ids.

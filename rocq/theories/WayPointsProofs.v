(** Lemmas about the listing of waypoints. *)
From Coq Require Import Reals List ZArith Lia Lra.
From Verif Require Import SteeringCourseModel SteeringCourseProps PiBounds DubinsModel DubinsSpec DubinsProofs DubinsTangent WayPointsModel WayPointsSpec.
Import ListNotations.
Open Scope R_scope.

Lemma repeated_refl {A : Type} (l : list A) : repeated l l.
Proof. induction l; constructor; assumption. Qed.
Lemma repeated_app {A : Type} (k l : list A) : repeated k l -> forall k' l', repeated k' l' -> repeated (k ++ k') (l ++ l').
Proof. intros H. induction H as [|x k l H IH|x k l H IH]; intros k' l' H'; [exact H'|apply rep_one, IH, H'|apply rep_more, (IH k' l' H')]. Qed.

(** Consecutive places of the longer list are consecutive in the shorter one, or the same. *)
Lemma repeated_next {A : Type} (k l : list A) : repeated k l -> forall l1 x y l2, l = l1 ++ x :: y :: l2 ->
  x = y \/ exists k1 k2, k = k1 ++ x :: y :: k2.
Proof.
  intros H. induction H as [|z k l H IH|z k l H IH]; intros l1 x y l2 E.
  - destruct l1; discriminate.
  - destruct l1 as [|u l1]; cbn in E; injection E as -> E.
    + subst l. right. exists []. inversion H; subst; eexists; reflexivity.
    + destruct (IH _ _ _ _ E) as [->|(k1 & k2 & ->)]; [left; reflexivity|]. right. exists (u :: k1), k2. reflexivity.
  - destruct l1 as [|u l1]; cbn in E; injection E as -> E.
    + subst l. inversion H; subst; left; reflexivity.
    + destruct (IH _ _ _ _ E) as [->|(k1 & k2 & K)]; [left; reflexivity|]. right. exists k1, k2. exact K.
Qed.

Lemma straight_points start h c cs finish back r sep : exists pts,
  generate true start h (Some (c :: cs)) false finish back r sep = Listed pts /\ repeated (start :: (c :: cs) ++ [finish]) pts.
Proof.
  eexists. split; [reflexivity|]. cbn.
  apply rep_one. apply rep_more. apply rep_one.
  replace (last (cs ++ [finish]) start) with finish.
  2:{ induction cs as [|a cs IH]; [reflexivity|]. cbn. destruct (cs ++ [finish]) eqn:E; [destruct cs; discriminate|]. exact IH. }
  replace (match cs ++ [finish] with [] => c | _ => finish end) with finish by (destruct cs; reflexivity).
  rewrite <- app_assoc. apply repeated_app; [apply repeated_refl|]. cbn. apply rep_more, rep_more, rep_one, rep_nil.
Qed.

Lemma dist_sym p q : dist p q = dist q p.
Proof. unfold dist. f_equal. ring. Qed.
Lemma apart_sym p q : apart p q = dist p q.
Proof. rewrite dist_sym. apply apart_dist. Qed.

(** Thinning. *)
Lemma take_out_none l : take_out l = None -> without_short l l.
Proof.
  induction l as [|a t IH]; [constructor|]. cbn [take_out]. destruct t as [|b r]; [constructor|].
  rewrite apart_sym. destruct (Rlt_dec (dist a b) 1) as [|F]; [discriminate|].
  destruct (take_out (b :: r)); [discriminate|]. intros _. apply ws_keep; [lra|apply IH; reflexivity].
Qed.
Lemma take_out_same_head a l l' : take_out (a :: l) = Some l' -> exists r, l' = a :: r.
Proof.
  cbn [take_out]. destruct l as [|b r]; [discriminate|]. destruct (Rlt_dec _ _); [intros E; injection E as <-; eauto|].
  destruct (take_out (b :: r)); [|discriminate]. intros E; injection E as <-; eauto.
Qed.
Lemma take_out_some l : forall l', take_out l = Some l' -> length l = S (length l') /\ forall k, without_short l' k -> without_short l k.
Proof.
  induction l as [|a t IH]; intros l' E; [discriminate|]. cbn [take_out] in E. destruct t as [|b r]; [discriminate|].
  rewrite apart_sym in E. destruct (Rlt_dec (dist a b) 1) as [L|F].
  - injection E as <-. split; [reflexivity|]. intros k K. apply ws_drop; assumption.
  - destruct (take_out (b :: r)) as [t'|] eqn:T; [|discriminate]. injection E as <-.
    destruct (IH t' eq_refl) as (L & W). split; [cbn [length] in *; rewrite L; reflexivity|].
    intros k K. destruct (take_out_same_head _ _ _ T) as (r' & ->).
    inversion K as [|a'|a' b' l2 k2 D K2|a' b' l2 k2 D K2]; subst; [|lra]. apply ws_keep; [assumption|]. apply W. assumption.
Qed.
Lemma thin_spec n : forall l, (length l <= n)%nat -> without_short l (thin n l).
Proof.
  induction n as [|n IH]; intros l L.
  - destruct l; [constructor|cbn in L; lia].
  - cbn [thin]. destruct (take_out l) as [l'|] eqn:E; [|apply take_out_none; exact E].
    destruct (take_out_some _ _ E) as (L' & W). apply W, IH. lia.
Qed.

Lemma without_short_in l k : without_short l k -> forall x, In x k -> In x l.
Proof.
  intros H. induction H as [|a|a b l k D H IH|a b l k D H IH]; intros x X; [exact X|exact X| |].
  - destruct X as [->|X]; [left; reflexivity|right; apply IH; exact X].
  - destruct (IH x X) as [->|I]; [left; reflexivity|right; right; exact I].
Qed.
Lemma without_short_some a l k : without_short (a :: l) k -> exists r, k = a :: r.
Proof.
  intros H. remember (a :: l) as al eqn:E. revert a l E.
  induction H as [|a|a b l k D H IH|a b l k D H IH]; intros a0 l0 E; [discriminate| | |].
  - injection E as -> _. eauto.
  - injection E as -> _. eauto.
  - injection E as -> E. apply (IH a0 l eq_refl).
Qed.
(** The end stays, if it is at least a metre from the places before. *)
Lemma without_short_end l k f : without_short (l ++ [f]) k -> l <> [] -> (forall x, In x l -> 1 <= dist x f) ->
  exists m, k = m ++ [f] /\ without_short l m.
Proof.
  intros H. remember (l ++ [f]) as lf eqn:E. revert l E.
  induction H as [|a|a b t k D H IH|a b t k D H IH]; intros l E NE F.
  - destruct l; discriminate.
  - destruct l as [|x [|]]; try discriminate. contradiction NE; reflexivity.
  - destruct l as [|x l]; [discriminate|]. cbn in E. injection E as <- E.
    destruct l as [|y l].
    + cbn in E. injection E as -> ->. inversion H; subst. exists [a]. split; [reflexivity|constructor].
    + cbn in E. injection E as <- ->. destruct (IH (b :: l) eq_refl) as (m & -> & W); [discriminate|intros z Z; apply F; right; exact Z|].
      exists (a :: m). split; [reflexivity|]. apply ws_keep; assumption.
  - destruct l as [|x l]; [discriminate|]. cbn in E. injection E as <- E.
    destruct l as [|y l].
    + cbn in E. injection E as -> ->. specialize (F a (or_introl eq_refl)). lra.
    + cbn in E. injection E as <- ->. destruct (IH (a :: l) eq_refl) as (m & -> & W).
      * discriminate.
      * intros z [->|Z]; apply F; [left; reflexivity|right; right; exact Z].
      * exists m. split; [reflexivity|]. apply ws_drop; assumption.
Qed.

(** The heading at the end. *)
Lemma behind_spec y l : l <> [] -> exists a x b, rev l = a ++ x :: b /\ (forall z, In z b -> dist y z <= 10) /\ (10 < dist y x \/ a = []) /\ behind y l = x.
Proof.
  induction l as [|x l IH]; intros NE; [contradiction NE; reflexivity|]. destruct l as [|x2 l].
  - exists [], x, []. cbn. split; [reflexivity|]. split; [contradiction|]. auto.
  - change (behind y (x :: x2 :: l)) with (if Rlt_dec 10 (apart y x) then x else behind y (x2 :: l)). rewrite apart_sym.
    destruct (Rlt_dec 10 (dist y x)) as [F|N].
    + exists (rev (x2 :: l)), x, []. cbn [rev]. split; [reflexivity|]. split; [contradiction|]. auto.
    + destruct IH as (a & z & b & E & B & A & K); [discriminate|]. exists a, z, (b ++ [x]).
      change (rev (x :: x2 :: l)) with (rev (x2 :: l) ++ [x]). rewrite E, <- app_assoc. split; [reflexivity|].
      split; [|auto]. intros u U. apply in_app_or in U. destruct U as [U|[<-|[]]]; [auto|lra].
Qed.
Lemma direction x y : x <> y -> ahead x y (PI / 2 - angle_at x y).
Proof.
  intros NE. exists (dist x y). pose proof (angle_spec x y) as E. rewrite apart_dist in E.
  rewrite cos_shift, sin_shift. split.
  - destruct (Rle_lt_or_eq_dec 0 (dist x y) (sqrt_pos _)) as [|Z]; [assumption|]. exfalso. apply NE. rewrite <- Z in E. rewrite E. unfold around.
    destruct x as (n, e). cbn [fst snd]. f_equal; ring.
  - exact E.
Qed.
Lemma final_heading_spec l : l <> [] -> heading_at_end l (final_heading l).
Proof.
  intros NE. unfold final_heading. split.
  - intros x ->. reflexivity.
  - intros l1 y -> N1. rewrite rev_app_distr. cbn [rev app].
    destruct (rev l1) as [|x r] eqn:RV; [contradiction N1; rewrite <- (rev_involutive l1), RV; reflexivity|].
    destruct (behind_spec y (x :: r)) as (a & z & b & E & B & A & K); [discriminate|]. rewrite <- RV, rev_involutive in E. exists a, z, b.
    split; [exact E|]. split; [exact B|]. split; [exact A|]. intros Z. rewrite K. apply direction. exact Z.
Qed.
Lemma smooth_spec c cs f : (forall x, In x (c :: cs) -> 1 <= dist x f) ->
  let '(m, h) := smooth ((c :: cs) ++ [f]) in without_short (c :: cs) m /\ heading_at_end m h.
Proof.
  intros F. unfold smooth. pose proof (thin_spec (length ((c :: cs) ++ [f])) ((c :: cs) ++ [f]) (le_n _)) as T.
  set (t := thin _ _) in *. clearbody t. destruct (without_short_end _ _ _ T) as (m & -> & W); [discriminate|exact F|].
  destruct (without_short_some _ _ _ W) as (k & ->). rewrite removelast_last.
  assert (E : match (c :: k) ++ [f] with [a] => [a] | _ => c :: k end = c :: k) by (destruct k; reflexivity).
  rewrite E. split; [exact W|]. apply final_heading_spec. discriminate.
Qed.

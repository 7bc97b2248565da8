(** The invariant of the batch summary service. *)
From Coq Require Import List ZArith Bool Permutation Lia.
From Verif Require Import ZMap Run BatchModel BatchSpec BatchProofs BatchInv.
Import ListNotations.
Open Scope list_scope.
Open Scope Z_scope.

(** ** Histories *)
Definition is_request (x : event * list out) : bool := match fst x with Request _ => true | _ => false end.
Definition nreq (t : trace) : nat := length (filter is_request t).
Definition all_ids (t : trace) : list Z := flat_map (fun x => ids (snd x)) t.

Lemma nreq_app a b : nreq (a ++ b) = (nreq a + nreq b)%nat.
Proof. unfold nreq. rewrite filter_app, app_length. reflexivity. Qed.

Lemma all_ids_app a b : all_ids (a ++ b) = all_ids a ++ all_ids b.
Proof. apply flat_map_app. Qed.

Lemma unanswered_snoc l t x : unanswered l (t ++ [x]) =
  match fst x with Response rid _ => zrem rid (unanswered l t) | _ => unanswered l t end.
Proof.
  revert l. induction t as [|(ev, o) t IH]; intros l.
  - destruct x as [ev o]. destruct ev; reflexivity.
  - cbn. destruct ev; apply IH.
Qed.


Lemma zrem_none x l : ~ In x l -> zrem x l = l.
Proof.
  unfold zrem. induction l as [|y l IH]; intros H; [reflexivity|]. cbn. destruct (Z.eqb_spec y x) as [->|_]; [exfalso; apply H; left; reflexivity|].
  cbn. f_equal. apply IH. intros I. apply H. right. exact I.
Qed.

Lemma answers_snoc l t x : answers l (t ++ [x]) =
  answers l t ++ match fst x with Response rid ms => if zin rid (unanswered l t) then ms else [] | _ => [] end.
Proof.
  revert l. induction t as [|(ev, o) t IH]; intros l.
  - destruct x as [ev o]. destruct ev; cbn [app answers unanswered fst]; try reflexivity. destruct (zin rid l); rewrite ?app_nil_r; reflexivity.
  - cbn [app answers unanswered]. destruct ev; try apply IH. destruct (zin rid l) eqn:E.
    + rewrite IH, app_assoc. reflexivity.
    + rewrite (zrem_none rid l); [apply IH|]. apply zin_false. exact E.
Qed.

Lemma unanswered_incl t : forall l r, In r (unanswered l t) -> In r l.
Proof.
  induction t as [|(ev, o) t IH]; intros l r I; [exact I|]. destruct ev; cbn in I; try apply (IH _ _ I). apply IH in I. apply In_zrem in I. apply I.
Qed.

(** Where a history is cut, after one more event. *)
Lemma cut_snoc {A} (t : list A) x a y b : t ++ [x] = a ++ y :: b -> (a = t /\ y = x /\ b = []) \/ exists b', b = b' ++ [x] /\ t = a ++ y :: b'.
Proof.
  intros H. destruct b as [|z b _] using rev_ind.
  - left. apply app_inj_tail in H. destruct H as (-> & ->). auto.
  - right. rewrite app_comm_cons, app_assoc in H. apply app_inj_tail in H. destruct H as (-> & ->). exists b. auto.
Qed.

Lemma cut_count t a1 q1 o1 b1 a2 q2 o2 b2 : t = a1 ++ (Request q1, o1) :: b1 -> t = a2 ++ (Request q2, o2) :: b2 -> nreq a1 = nreq a2 ->
  a1 = a2 /\ q1 = q2 /\ o1 = o2 /\ b1 = b2.
Proof.
  revert a1 a2. induction t as [|x t IH]; intros a1 a2 E1 E2 N; [destruct a1; discriminate|].
  destruct a1 as [|x1 a1], a2 as [|x2 a2]; cbn in E1, E2.
  - injection E1 as -> ->. injection E2 as -> -> ->. auto.
  - injection E1 as -> ->. injection E2 as <- ->. unfold nreq in N. cbn in N. lia.
  - injection E2 as -> ->. injection E1 as <- ->. unfold nreq in N. cbn in N. lia.
  - injection E1 as -> E1. injection E2 as -> E2. assert (N' : nreq a1 = nreq a2) by (unfold nreq in *; cbn in N; destruct (is_request x2); cbn in N; lia).
    destruct (IH a1 a2 E1 E2 N') as (-> & Q). auto.
Qed.

Lemma in_all_ids t r : In r (all_ids t) <-> exists x, In x t /\ In r (ids (snd x)).
Proof. apply in_flat_map. Qed.

Lemma NoDup_app_r_ {A} (a b : list A) : NoDup (a ++ b) -> NoDup b.
Proof. induction a as [|x a IH]; [auto|]. intros N. inversion N. auto. Qed.

Lemma cut_id t r a1 x1 b1 a2 x2 b2 : NoDup (all_ids t) -> t = a1 ++ x1 :: b1 -> t = a2 ++ x2 :: b2 ->
  In r (ids (snd x1)) -> In r (ids (snd x2)) -> a1 = a2 /\ x1 = x2 /\ b1 = b2.
Proof.
  revert a1 a2. induction t as [|x t IH]; intros a1 a2 N E1 E2 I1 I2; [destruct a1; discriminate|].
  assert (NN : NoDup (all_ids t)) by (apply (NoDup_app_r_ (ids (snd x))); exact N).
  assert (X : In r (ids (snd x)) -> forall z, In z t -> ~ In r (ids (snd z))).
  { intros I z J K. cbn in N. apply in_split in I. destruct I as (l1 & l2 & E). rewrite E, <- app_assoc in N. cbn in N. apply NoDup_remove_2 in N.
    apply N. apply in_or_app. right. apply in_or_app. right. apply in_all_ids. exists z. auto. }
  destruct a1 as [|y1 a1], a2 as [|y2 a2]; cbn in E1, E2.
  - injection E1 as -> ->. injection E2 as -> ->. auto.
  - injection E1 as -> ->. injection E2 as <- ->. exfalso. apply (X I1 x2); [apply in_or_app; right; left; reflexivity|exact I2].
  - injection E2 as -> ->. injection E1 as <- ->. exfalso. apply (X I2 x1); [apply in_or_app; right; left; reflexivity|exact I1].
  - injection E1 as -> E1. injection E2 as -> E2. destruct (IH a1 a2 NN E1 E2 I1 I2) as (-> & Q). auto.
Qed.

(** ** The world *)
Lemma lastly_snoc {A} (f : event -> option A) t x : lastly f (t ++ [x]) = match f (fst x) with Some y => Some y | None => lastly f t end.
Proof.
  induction t as [|(ev, o) t IH]; [destruct x as [e oe]; cbn; destruct (f e); reflexivity|]. cbn. rewrite IH. destruct (f (fst x)); reflexivity.
Qed.

Lemma range_on id t : lastly (says_range id) t <> None -> lastly (says_on id) t <> None.
Proof.
  induction t as [|(ev, o) t IH]; [auto|]. cbn. intros R. destruct (lastly (says_on id) t) as [on|] eqn:E; [discriminate|].
  destruct (lastly (says_range id) t); [exfalso; apply IH; [discriminate|reflexivity]|]. destruct ev; cbn in *; try contradiction.
  unfold when in *. destruct (id0 =? id); [discriminate|contradiction].
Qed.

Lemma learn_knows t e ev o : knows t e -> knows (t ++ [(ev, o)]) (learn e ev).
Proof.
  intros K id. destruct (K id) as (A & B & C & D & E). rewrite !lastly_snoc. cbn [fst].
  destruct ev as [q|rid ms|i rs|i rs pos r on|i pos|i pos on|i z]; cbn [says_state says_radios says_tower says_range says_on says_zone learn states radios towers ranges zones];
    unfold when.
  - auto.
  - auto.
  - rewrite zget_set. rewrite (Z.eqb_sym id i). destruct (i =? id); auto.
  - rewrite !zget_set. rewrite (Z.eqb_sym id i). destruct (i =? id); auto.
  - rewrite zget_set. rewrite (Z.eqb_sym id i). destruct (i =? id); auto.
  - rewrite !zget_set. rewrite (Z.eqb_sym id i). destruct (Z.eqb_spec i id) as [->|N].
    + split; [reflexivity|]. split; [exact B|]. split; [reflexivity|]. split; [exact D|].
      destruct (lastly (says_range id) t) as [r|] eqn:R.
      * assert (O : lastly (says_on id) t <> None) by (apply range_on; rewrite R; discriminate).
        destruct (lastly (says_on id) t); [|contradiction]. rewrite E, zget_set_same. reflexivity.
      * rewrite E. exact E.
    + destruct (zget (ranges e) i) as [(r, on')|]; [rewrite zget_set_other by congruence|]; auto.
  - rewrite zget_set. rewrite (Z.eqb_sym id i). destruct (i =? id); auto.
Qed.

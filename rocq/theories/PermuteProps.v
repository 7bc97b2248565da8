(** Properties C35 and C36: enumeration and counting of combinations and permutations. *)
From Coq Require Import List ZArith Bool Factorial Lia Permutation.
From Verif Require Import PermuteModel PermuteSpec PermuteProofs PermuteSel PermuteCount.
Import ListNotations.
Open Scope list_scope.
Open Scope nat_scope.

(** No element is lost, even if the callback stops the enumeration. *)
Section Kept.
  Context {T : Type}.

  Lemma put_perm (l : list T) i x y : nth_error l i = Some x -> Permutation (x :: put l i y) (y :: l).
  Proof.
    intros H. apply nth_error_split in H. destruct H as (p & q & -> & <-). rewrite put_at.
    rewrite (Permutation_app_comm p (y :: q)), (Permutation_app_comm p (x :: q)). cbn. apply perm_swap.
  Qed.

  Lemma nth_put (l : list T) i p x y z :
    nth_error l i = Some x -> nth_error l p = Some y -> z = y -> nth_error (put l i z) p = Some y.
  Proof.
    intros Hi Hp ->. apply nth_error_split in Hi. destruct Hi as (u & v & -> & <-). rewrite put_at.
    destruct (Nat.eq_dec p (length u)) as [->|N]; [apply nth_at|].
    destruct (Nat.lt_ge_cases p (length u)).
    - rewrite nth_error_app1 in * by lia. exact Hp.
    - rewrite nth_error_app2 in * by lia. destruct (p - length u) eqn:E; [lia|]. exact Hp.
  Qed.

  Lemma swap_perm (l : list T) i p : Permutation (swap l i p) l.
  Proof.
    unfold swap. destruct (nth_error l i) as [x|] eqn:Hi; [|reflexivity].
    destruct (nth_error l p) as [y|] eqn:Hp; [|reflexivity].
    apply (Permutation_cons_inv (a := y)).
    rewrite (put_perm (put l i y) p y x) by (apply (nth_put l i p x y y); auto).
    apply put_perm. exact Hi.
  Qed.

  Lemma swap2_perm (a b : list T) i j :
    Permutation (fst (swap2 a i b j) ++ snd (swap2 a i b j)) (a ++ b).
  Proof.
    unfold swap2. destruct (nth_error a i) as [x|] eqn:Hi; [|reflexivity].
    destruct (nth_error b j) as [y|] eqn:Hj; [|reflexivity]. cbn [fst snd].
    apply (Permutation_cons_inv (a := x)). apply (Permutation_cons_inv (a := y)).
    transitivity ((x :: put a i y) ++ (y :: put b j x)).
    - cbn. rewrite perm_swap. constructor. apply Permutation_middle.
    - rewrite (put_perm a i x y Hi), (put_perm b j y x Hj). cbn. constructor.
      symmetry. apply Permutation_middle.
  Qed.

  Lemma rotate_perm n (l : list T) : Permutation (rotate n l) l.
  Proof. unfold rotate. rewrite Permutation_app_comm, firstn_skipn. reflexivity. Qed.

  Lemma rotate_disc_perm (a b : list T) :
    Permutation (fst (rotate_discontinuous a b) ++ snd (rotate_discontinuous a b)) (a ++ b).
  Proof.
    unfold rotate_discontinuous. destruct (length a <=? length b)%nat; cbn [fst snd].
    - rewrite rotate_perm, app_assoc, (Permutation_app_comm _ a), <- app_assoc, firstn_skipn. reflexivity.
    - rewrite rotate_perm, <- app_assoc, (Permutation_app_comm b), app_assoc, firstn_skipn. reflexivity.
  Qed.

  Lemma rotate_at_perm (a b : list T) i j :
    Permutation (fst (rotate_at a i b j) ++ snd (rotate_at a i b j)) (a ++ b).
  Proof.
    unfold rotate_at. pose proof (rotate_disc_perm (skipn i a) (skipn j b)) as P.
    destruct (rotate_discontinuous (skipn i a) (skipn j b)) as [a' b']. cbn [fst snd] in *.
    rewrite <- (firstn_skipn i a) at 2. rewrite <- (firstn_skipn j b) at 2.
    rewrite <- !app_assoc. apply Permutation_app_head.
    rewrite !(Permutation_app_comm (firstn j b)), !app_assoc. apply Permutation_app_tail. exact P.
  Qed.

  Context {St : Type}.

  Definition keeps (f : list T -> St -> bool * list T * St) : Prop :=
    forall a s, Permutation (snd (fst (f a s))) a.

  Definition both (r : @result T St) : list T := snd (fst (fst r)) ++ snd (fst r).

  Lemma lift_keeps f a b s : keeps f -> Permutation (both (lift f a b s)) (a ++ b).
  Proof.
    intros K. unfold lift, both. specialize (K a s). destruct (f a s) as [[st a'] s']. cbn in *.
    apply Permutation_app_tail. exact K.
  Qed.

  Lemma combine_keeps f : keeps f -> forall d1 top i j a b s,
    Permutation (both (combine_discontinuous f d1 top i j a b s)) (a ++ b).
  Proof.
    intros K. induction d1 as [|d1 IH]; intros top i j a b s; cbn [combine_discontinuous].
    - apply lift_keeps, K.
    - destruct (length b - j =? 0)%nat; [apply lift_keeps, K|].
      set (inner := fun jj a b s => match d1 with
           | O => lift f a b s
           | S _ => combine_discontinuous f d1 false (S i) jj a b s end).
      assert (KI : forall jj a b s, Permutation (both (inner jj a b s)) (a ++ b)).
      { intros. unfold inner. destruct d1; [apply lift_keeps, K|apply IH]. }
      assert (KL : forall n jj a b s, Permutation (both (combine_loop inner n i jj a b s)) (a ++ b)).
      { clear - KI. induction n as [|n IHn]; intros jj a b s; cbn [combine_loop]; [reflexivity|].
        specialize (KI jj a b s). destruct (inner jj a b s) as [[[[|] a1] b1] s1]; [exact KI|].
        pose proof (swap2_perm a1 b1 i jj) as P2. destruct (swap2 a1 i b1 jj) as [a2 b2].
        rewrite IHn. cbn [fst snd] in P2. rewrite P2. exact KI. }
      specialize (KL (length b - j)%nat j a b s).
      destruct (combine_loop inner (length b - j) i j a b s) as [[[[|] a1] b1] s1]; [exact KL|].
      pose proof (lift_keeps f a1 b1 s1 K) as K2.
      destruct (lift f a1 b1 s1) as [[[[|] a2] b2] s2]; [rewrite K2; exact KL|].
      set (r := if top then rotate_at a2 i b2 j else rotate_at a2 i b2 (S j)).
      assert (PR : Permutation (fst r ++ snd r) (a2 ++ b2)).
      { unfold r. destruct top; apply rotate_at_perm. }
      destruct r as [a3 b3]. unfold both in *. cbn [fst snd] in *. rewrite PR, K2. exact KL.
  Qed.

  Context (g : list T -> St -> bool * St).

  Lemma call_keeps : keeps (call g).
  Proof. intros a s. unfold call. destruct (g a s). reflexivity. Qed.

  Lemma keeps_call_seq (k : list T -> St -> bool * list T * St) :
    keeps k -> keeps (fun a s => let '(stop, a, s) := call g a s in if stop then (true, a, s) else k a s).
  Proof. intros K a s. unfold call. destruct (g a s) as [[|] s']; [reflexivity|apply K]. Qed.

  Lemma keeps_swap (k : list T -> St -> bool * list T * St) i j :
    keeps k -> keeps (fun a s => k (swap a i j) s).
  Proof. intros K a s. rewrite (K (swap a i j) s). apply swap_perm. Qed.

  Lemma two_keeps i : keeps (permute_two g i).
  Proof. apply keeps_call_seq, (keeps_swap (call g)), call_keeps. Qed.

  Lemma three_keeps i : keeps (permute_three g i).
  Proof.
    intros a s. unfold permute_three, call. cbv zeta.
    destruct (g a s) as [[|] s1]; [reflexivity|].
    do 4 (match goal with |- context [g ?x ?y] => destruct (g x y) as [[|] ?] end;
      [cbn [fst snd]; rewrite !swap_perm; reflexivity|]).
    match goal with |- context [g ?x ?y] => destruct (g x y) as [? ?] end.
    cbn [fst snd]. rewrite !swap_perm. reflexivity.
  Qed.

  Lemma reverse_perm i (l : list T) : Permutation (reverse i l) l.
  Proof.
    unfold reverse. rewrite <- (firstn_skipn i l) at 3. apply Permutation_app_head.
    symmetry. apply Permutation_rev.
  Qed.

  Lemma loop_keeps inner : keeps inner -> forall n i p, keeps (permute_loop inner n i p).
  Proof.
    intros K. induction n as [|n IH]; intros i p a s; cbn [permute_loop]; [reflexivity|].
    specialize (K a s). destruct (inner a s) as [[[|] a1] s1]; [exact K|].
    rewrite (IH i (S p) _ s1), swap_perm, reverse_perm. exact K.
  Qed.

  Lemma permute__keeps : forall d1 i, keeps (permute_ g d1 i).
  Proof.
    induction d1 as [|d1 IH]; intros i; [apply call_keeps|].
    destruct d1 as [|[|[|d1]]]; [apply call_keeps|apply two_keeps|apply three_keeps|].
    intros a s.
    change (Permutation (snd (fst
      (let '(stop, a1, s1) := permute_loop (permute_ g (S (S (S d1))) (S i)) (S (S (S d1))) i (S i) a s in
       if stop then (true, a1, s1) else permute_ g (S (S (S d1))) (S i) a1 s1))) a).
    pose proof (loop_keeps _ (IH (S i)) (S (S (S d1))) i (S i) a s) as K.
    destruct (permute_loop (permute_ g (S (S (S d1))) (S i)) (S (S (S d1))) i (S i) a s) as [[[|] a1] s1]; [exact K|].
    rewrite (IH (S i) a1 s1). exact K.
  Qed.

  Lemma permute_keeps d1 i : keeps (permute g d1 i).
  Proof.
    destruct d1 as [|[|[|[|d1]]]].
    - apply call_keeps.
    - apply call_keeps.
    - intros a s. cbn [permute]. pose proof (two_keeps i a s) as K.
      destruct (permute_two g i a s) as [[[|] a1] s1]; [exact K|]. cbn [fst snd]. rewrite swap_perm. exact K.
    - intros a s. cbn [permute]. pose proof (three_keeps i a s) as K.
      destruct (permute_three g i a s) as [[[|] a1] s1]; [exact K|]. cbn [fst snd]. rewrite swap_perm. exact K.
    - intros a s. pose proof (permute__keeps (S (S (S (S d1)))) i a s) as K.
      change (permute g (S (S (S (S d1)))) i a s) with
        (let '(stop, a1, s1) := permute_loop (permute_ g (S (S (S d1))) (S i)) (S (S (S d1))) i (S i) a s in
         if stop then (true, a1, s1) else
         let '(stop, a2, s2) := permute_ g (S (S (S d1))) (S i) a1 s1 in
         if stop then (true, a2, s2) else (false, reverse i a2, s2)).
      change (permute_ g (S (S (S (S d1)))) i a s) with
        (let '(stop, a1, s1) := permute_loop (permute_ g (S (S (S d1))) (S i)) (S (S (S d1))) i (S i) a s in
         if stop then (true, a1, s1) else permute_ g (S (S (S d1))) (S i) a1 s1) in K.
      destruct (permute_loop (permute_ g (S (S (S d1))) (S i)) (S (S (S d1))) i (S i) a s) as [[[|] a1] s1]; [exact K|].
      destruct (permute_ g (S (S (S d1))) (S i) a1 s1) as [[[|] a2] s2]; [exact K|].
      cbn [fst snd] in *. rewrite reverse_perm. exact K.
  Qed.

  Lemma circular_keeps d1 : keeps (circular_permutation g d1).
  Proof. destruct d1 as [|[|d1]]; [apply call_keeps|apply call_keeps|apply permute_keeps]. Qed.
End Kept.

Lemma positions {T} (l : list T) : Forall2 (fun i t => nth_error l i = Some t) (seq 0 (length l)) l.
Proof.
  enough (H : forall p q : list T,
    Forall2 (fun i t => nth_error (p ++ q) i = Some t) (seq (length p) (length q)) q) by apply (H [] l).
  intros p q. revert p. induction q as [|x q IH]; intros p; cbn; constructor; [apply nth_at|].
  specialize (IH (p ++ [x])). rewrite app_length, Nat.add_1_r, <- app_assoc in IH. exact IH.
Qed.

(** The common form of the three theorems. *)
Lemma enumeration {T St} (g : list T -> St -> bool * St) f (E : forall {A}, list A -> list (list A)) a b s :
  acts g f (length a) (@E T) -> keeps f ->
  (forall (x : list nat) (y : list T), at_positions (a ++ b) x y -> Forall2 (at_positions (a ++ b)) (E x) (E y)) ->
  exists ys stop s' a' b',
    Forall2 (at_positions (a ++ b)) (flat_map E (choose (length a) (seq 0 (length (a ++ b))))) ys /\
    visits g ys s = (stop, s') /\
    combine_discontinuous f (length a) true 0 0 a b s = (stop, a', b', s') /\
    (stop = false -> a' = a /\ b' = b) /\ Permutation (a' ++ b') (a ++ b).
Proof.
  intros F K R.
  destruct (enumerate g f (@E T) a b s F) as (stop & s' & V & H0 & H1).
  exists (flat_map (E T) (choose (length a) (a ++ b))), stop, s'.
  pose proof (combine_keeps f K (length a) true 0 0 a b s) as P.
  assert (FF : Forall2 (at_positions (a ++ b)) (flat_map (E nat) (choose (length a) (seq 0 (length (a ++ b)))))
                 (flat_map (E T) (choose (length a) (a ++ b)))).
  { eapply flat_map_rel; [exact R|]. apply choose_rel. apply positions. }
  destruct stop.
  - destruct (H1 eq_refl) as (a' & b' & Q). rewrite Q in P. exists a', b'.
    split; [exact FF|]. split; [exact V|]. split; [exact Q|]. split; [discriminate|exact P].
  - rewrite (H0 eq_refl). exists a, b. split; [exact FF|]. split; [exact V|]. repeat split; reflexivity.
Qed.

(** C35: the callback sees each combination of r = length of [first, mid) out of the n elements, in
    the order of the elements, once; it sees all of them unless it stops the enumeration by
    returning true.  The ranges are then as before. *)
Theorem C35_combinations : forall T St (g : list T -> St -> bool * St) a b s,
  exists sel ys stop s' a' b',
    all_combinations (length (a ++ b)) (length a) sel /\
    Forall2 (at_positions (a ++ b)) sel ys /\
    visits g ys s = (stop, s') /\
    for_each_combination g a b s = (stop, a', b', s') /\
    (stop = false -> a' = a /\ b' = b) /\ Permutation (a' ++ b') (a ++ b).
Proof.
  intros T St g a b s.
  destruct (enumeration g (call g) (fun A x => [x]) a b s (call_range g _) (call_keeps g)) as (ys & R).
  - intros x y H. constructor; [exact H|constructor].
  - exists (choose (length a) (seq 0 (length (a ++ b)))), ys. destruct R as (stop & s' & a' & b' & R).
    exists stop, s', a', b'. split; [apply combinations_all|].
    replace (flat_map (fun x => [x]) (choose (length a) (seq 0 (length (a ++ b)))))
      with (choose (length a) (seq 0 (length (a ++ b)))) in R; [exact R|].
    generalize (choose (length a) (seq 0 (length (a ++ b)))).
    intros l. induction l as [|x l IH]; [reflexivity|]. cbn. rewrite <- IH. reflexivity.
Qed.
Print Assumptions C35_combinations.

(** C35: the same for selections in every order. *)
Theorem C35_permutations : forall T St (g : list T -> St -> bool * St) a b s,
  exists sel ys stop s' a' b',
    all_permutations (length (a ++ b)) (length a) sel /\
    Forall2 (at_positions (a ++ b)) sel ys /\
    visits g ys s = (stop, s') /\
    for_each_permutation g a b s = (stop, a', b', s') /\
    (stop = false -> a' = a /\ b' = b) /\ Permutation (a' ++ b') (a ++ b).
Proof.
  intros T St g a b s.
  destruct (enumeration g (permute g (length a) 0) (fun A x => perms (length a) x) a b s
    (permute_range g _) (permute_keeps g _ _)) as (ys & R).
  - intros x y H. apply perms_rel. exact H.
  - eexists _, ys. destruct R as (stop & s' & a' & b' & R).
    exists stop, s', a', b'. split; [apply permutations_all|exact R].
Qed.
Print Assumptions C35_permutations.

(** C35: the same for arrangements on a circle. *)
Theorem C35_circular : forall T St (g : list T -> St -> bool * St) a b s,
  exists sel ys stop s' a' b',
    all_circular (length (a ++ b)) (length a) sel /\
    Forall2 (at_positions (a ++ b)) sel ys /\
    visits g ys s = (stop, s') /\
    for_each_circular_permutation g a b s = (stop, a', b', s') /\
    (stop = false -> a' = a /\ b' = b) /\ Permutation (a' ++ b') (a ++ b).
Proof.
  intros T St g a b s.
  destruct (enumeration g (circular_permutation g (length a)) (fun A x => hold (length a) x) a b s
    (circular_range g _) (circular_keeps g _)) as (ys & R).
  - intros x y H. apply hold_rel. exact H.
  - eexists _, ys. destruct R as (stop & s' & a' & b' & R).
    exists stop, s', a', b'. split; [apply circular_all|exact R].
Qed.
Print Assumptions C35_circular.

(** A callback that notes what it sees, and one that stops at the second call. *)
Example note_permutations :
  for_each_permutation (fun x s => (false, s ++ [x])) [1; 2]%nat [3]%nat [] =
  (false, [1; 2]%nat, [3]%nat, [[1; 2]; [2; 1]; [1; 3]; [3; 1]; [2; 3]; [3; 2]]%nat).
Proof. reflexivity. Qed.

Example stop_permutations :
  for_each_permutation (fun x s => (Nat.leb 3 (length s + 1), s ++ [x])) [1; 2]%nat [3]%nat [] =
  (true, [1; 3]%nat, [2]%nat, [[1; 2]; [2; 1]; [1; 3]]%nat).
Proof. reflexivity. Qed.

Example note_four :
  let '(stop, a, b, s) := for_each_permutation (fun x s => (false, S s)) [1; 2; 3; 4; 5]%nat [6; 7]%nat O in
  (stop, a, b, s) = (false, [1; 2; 3; 4; 5]%nat, [6; 7]%nat, 2520%nat).
Proof. vm_compute. reflexivity. Qed.

Example note_circular :
  for_each_circular_permutation (fun x s => (false, s ++ [x])) [1; 2; 3]%nat [4]%nat [] =
  (false, [1; 2; 3]%nat, [4]%nat,
   [[1; 2; 3]; [1; 3; 2]; [1; 2; 4]; [1; 4; 2]; [1; 3; 4]; [1; 4; 3]; [2; 3; 4]; [2; 4; 3]]%nat).
Proof. reflexivity. Qed.

Open Scope Z_scope.

(** C36: the counting functions return the exact number if it is representable and throw otherwise. *)
Theorem C36_combination : forall max d1 d2, 1 <= max -> 0 <= d1 <= max -> 0 <= d2 <= max ->
  exists c, c * (factorial d1 * factorial d2) = factorial (d1 + d2) /\
    count_each_combination max d1 d2 = if c <=? max then Some c else None.
Proof.
  intros max d1 d2 H H1 H2. destruct (combination_exact max d1 d2 H1 H2 H) as (c & C & E).
  exists c. split; [|exact E]. unfold bin in C. replace (d1 + d2 - d1) with d2 in C by lia. exact C.
Qed.
Print Assumptions C36_combination.

Theorem C36_permutation : forall max d1 d2, 1 <= max -> 0 <= d1 <= max -> 0 <= d2 <= max ->
  exists c, c * factorial d2 = factorial (d1 + d2) /\
    count_each_permutation max d1 d2 = if c <=? max then Some c else None.
Proof. intros max d1 d2 H H1 H2. apply (permutation_exact max d1 d2 H1 H2 H). Qed.
Print Assumptions C36_permutation.

Theorem C36_circular : forall max d1 d2, 1 <= max -> 0 <= d1 <= max -> 0 <= d2 <= max ->
  exists c, (if d1 =? 0 then c = 1 else c * (d1 * factorial d2) = factorial (d1 + d2)) /\
    count_each_circular_permutation max d1 d2 = if c <=? max then Some c else None.
Proof. intros max d1 d2 H H1 H2. apply (circular_exact max d1 d2 H1 H2 H). Qed.
Print Assumptions C36_circular.

Theorem C36_reversible : forall max d1 d2, 1 <= max -> 0 <= d1 <= max -> 0 <= d2 <= max ->
  exists c, c * ((if 1 <? d1 then 2 else 1) * factorial d2) = factorial (d1 + d2) /\
    count_each_reversible_permutation max d1 d2 = if c <=? max then Some c else None.
Proof. intros max d1 d2 H H1 H2. apply (reversible_exact max d1 d2 H1 H2 H). Qed.
Print Assumptions C36_reversible.

Theorem C36_reversible_circular : forall max d1 d2, 1 <= max -> 0 <= d1 <= max -> 0 <= d2 <= max ->
  exists c, (if d1 =? 0 then c = 1 else
             c * ((if 2 <? d1 then 2 else 1) * d1 * factorial d2) = factorial (d1 + d2)) /\
    count_each_reversible_circular_permutation max d1 d2 = if c <=? max then Some c else None.
Proof. intros max d1 d2 H H1 H2. apply (reversible_circular_exact max d1 d2 H1 H2 H). Qed.
Print Assumptions C36_reversible_circular.

(** At the boundary of 8 and 64 bits. *)
Example counts_at_limit :
  count_each_combination 255 5 5 = Some 252 /\ count_each_combination 255 4 7 = None /\
  count_each_combination 18446744073709551615 33 34 = Some 14226520737620288370 /\
  count_each_combination 18446744073709551615 34 34 = None /\
  count_each_permutation 18446744073709551615 20 0 = Some 2432902008176640000 /\
  count_each_permutation 18446744073709551615 21 0 = None /\
  count_each_circular_permutation 255 6 0 = Some 120 /\
  count_each_reversible_permutation 255 5 0 = Some 60 /\
  count_each_reversible_circular_permutation 255 6 0 = Some 60.
Proof. vm_compute. repeat split. Qed.

(** C36: these are the numbers of callbacks of an enumeration that is not stopped. *)
Section Calls.
  Context {T : Type}.

  Definition count_call (_ : list T) (k : Z) : bool * Z := (false, k + 1).

  Lemma visits_count ys k : visits count_call ys k = (false, k + Z.of_nat (length ys)).
  Proof.
    revert k; induction ys as [|y ys IH]; intros k; cbn [visits length]; [f_equal; lia|].
    cbn [count_call]. rewrite IH. f_equal. lia.
  Qed.

  Lemma factorial_nat n : factorial (Z.of_nat n) = Z.of_nat (fact n).
  Proof. Transparent factorial. unfold factorial. rewrite Nat2Z.id. reflexivity. Opaque factorial. Qed.

  Lemma choose_number (a b : list T) :
    Z.of_nat (length (choose (length a) (a ++ b))) *
      (factorial (Z.of_nat (length a)) * factorial (Z.of_nat (length b))) =
    factorial (Z.of_nat (length a) + Z.of_nat (length b)).
  Proof.
    rewrite <- Nat2Z.inj_add, <- app_length, !factorial_nat, <- !Nat2Z.inj_mul. f_equal.
    rewrite <- (choose_count (a ++ b) (length a)) by (rewrite app_length; lia).
    do 3 f_equal. rewrite app_length. lia.
  Qed.

  Lemma same_quotient x y z w : 0 < z -> x * z = w -> y * z = w -> x = y.
  Proof. intros P E1 E2. apply (Z.mul_reg_r _ _ z); [lia|congruence]. Qed.

  Lemma calls f E (a b : list T) :
    acts count_call f (length a) E ->
    combine_discontinuous f (length a) true 0 0 a b 0 =
    (false, a, b, Z.of_nat (length (flat_map E (choose (length a) (a ++ b))))).
  Proof.
    intros F. destruct (enumerate count_call f E a b 0 F) as (stop & s' & V & H0 & _).
    rewrite visits_count in V. injection V as <- <-. rewrite (H0 eq_refl). reflexivity.
  Qed.

  Theorem C36_combination_calls : forall max (a b : list T), 1 <= max ->
    Z.of_nat (length a) <= max -> Z.of_nat (length b) <= max ->
    exists c, for_each_combination count_call a b 0 = (false, a, b, c) /\
      count_each_combination max (Z.of_nat (length a)) (Z.of_nat (length b)) =
        if c <=? max then Some c else None.
  Proof.
    intros max a b H H1 H2. eexists. split; [apply calls, call_range|].
    destruct (C36_combination max (Z.of_nat (length a)) (Z.of_nat (length b))) as (c & C & ->); try lia.
    rewrite (flat_map_count _ _ 1) by reflexivity. rewrite Nat.mul_1_r.
    replace (Z.of_nat (length (choose (length a) (a ++ b)))) with c; [reflexivity|].
    apply (same_quotient _ _ _ _ ltac:(apply Z.mul_pos_pos; apply factorial_pos) C). apply choose_number.
  Qed.

  Theorem C36_permutation_calls : forall max (a b : list T), 1 <= max ->
    Z.of_nat (length a) <= max -> Z.of_nat (length b) <= max ->
    exists c, for_each_permutation count_call a b 0 = (false, a, b, c) /\
      count_each_permutation max (Z.of_nat (length a)) (Z.of_nat (length b)) =
        if c <=? max then Some c else None.
  Proof.
    intros max a b H H1 H2. eexists. split; [apply calls, permute_range|].
    destruct (C36_permutation max (Z.of_nat (length a)) (Z.of_nat (length b))) as (c & C & ->); try lia.
    rewrite (flat_map_count _ _ (fact (length a))).
    2:{ intros x Hx. apply perms_count. apply (choose_elem_length _ _ _ Hx). }
    match goal with |- _ = if ?v <=? _ then _ else _ => replace v with c; [reflexivity|] end.
    apply (same_quotient _ _ _ _ (factorial_pos _) C).
    rewrite Nat2Z.inj_mul, <- factorial_nat, <- Z.mul_assoc. apply choose_number.
  Qed.

  Theorem C36_circular_calls : forall max (a b : list T), 1 <= max ->
    Z.of_nat (length a) <= max -> Z.of_nat (length b) <= max ->
    exists c, for_each_circular_permutation count_call a b 0 = (false, a, b, c) /\
      count_each_circular_permutation max (Z.of_nat (length a)) (Z.of_nat (length b)) =
        if c <=? max then Some c else None.
  Proof.
    intros max a b H H1 H2. eexists. split; [apply calls, circular_range|].
    destruct (C36_circular max (Z.of_nat (length a)) (Z.of_nat (length b))) as (c & C & ->); try lia.
    rewrite (flat_map_count _ _ (fact (length a - 1))).
    2:{ intros x Hx. apply choose_elem_length in Hx. destruct x as [|y x]; cbn [length] in Hx.
        - rewrite <- Hx. reflexivity.
        - unfold hold. rewrite map_length. apply perms_count. lia. }
    match goal with |- _ = if ?v <=? _ then _ else _ => replace v with c; [reflexivity|] end.
    destruct (Z.eqb_spec (Z.of_nat (length a)) 0) as [Z0|Z0].
    - subst c. replace (length a) with O by lia. destruct (a ++ b); reflexivity.
    - assert (P : 0 < Z.of_nat (length a) * factorial (Z.of_nat (length b)))
        by (apply Z.mul_pos_pos; [lia|apply factorial_pos]).
      apply (same_quotient _ _ _ _ P C).
      rewrite Nat2Z.inj_mul, <- factorial_nat. rewrite <- choose_number.
      rewrite (factorial_S (Z.of_nat (length a))) by lia.
      replace (Z.of_nat (length a - 1)) with (Z.of_nat (length a) - 1) by lia. ring.
  Qed.
End Calls.
Print Assumptions C36_combination_calls.
Print Assumptions C36_permutation_calls.
Print Assumptions C36_circular_calls.

Example calls_met :
  for_each_permutation (@count_call Z) [7; 8; 9] [10; 11] 0 = (false, [7; 8; 9], [10; 11], 60) /\
  count_each_permutation 255 3 2 = Some 60 /\ count_each_permutation 59 3 2 = None.
Proof. vm_compute. repeat split. Qed.

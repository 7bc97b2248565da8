(** The enumeration functions of Permute.h visit the selections in lexicographic order. *)
From Coq Require Import List Arith Bool Lia.
From Verif Require Import PermuteModel PermuteSpec.
Import ListNotations.
Open Scope list_scope.

Lemma visits_app {A St} (g : A -> St -> bool * St) l1 l2 s :
  visits g (l1 ++ l2) s =
  let (stop, s') := visits g l1 s in if stop then (true, s') else visits g l2 s'.
Proof.
  revert s; induction l1 as [|x l1 IH]; intros s; cbn; [reflexivity|].
  destruct (g x s) as [[|] s']; [reflexivity|apply IH].
Qed.

Section Proofs.
  Context {T : Type}.

  (** Selections in the order of the code. *)
  Fixpoint choose (m : nat) (l : list T) : list (list T) :=
    match m, l with
    | O, _ => [[]]
    | S _, [] => []
    | S m', x :: l' => map (cons x) (choose m' l') ++ choose m l'
    end.

  Fixpoint picks (l : list T) : list (T * list T) :=
    match l with
    | [] => []
    | x :: l' => (x, l') :: map (fun p => (fst p, x :: snd p)) (picks l')
    end.

  Fixpoint perms (n : nat) (l : list T) : list (list T) :=
    match n with
    | O => [[]]
    | S n' => flat_map (fun p => map (cons (fst p)) (perms n' (snd p))) (picks l)
    end.

  Lemma choose_short m l : length l < m -> choose m l = [].
  Proof.
    revert m; induction l as [|x l IH]; intros [|m] H; cbn in *; try lia; [reflexivity|].
    rewrite !IH by lia. reflexivity.
  Qed.

  Lemma choose_full l : choose (length l) l = [l].
  Proof.
    induction l as [|x l IH]; [reflexivity|]. cbn. rewrite IH, choose_short by lia. reflexivity.
  Qed.

  Lemma put_at (p : list T) x y q : put (p ++ x :: q) (length p) y = p ++ y :: q.
  Proof.
    unfold put. rewrite firstn_app, Nat.sub_diag, firstn_all, app_nil_r.
    replace (p ++ x :: q) with ((p ++ [x]) ++ q) by (rewrite <- app_assoc; reflexivity).
    replace (S (length p)) with (length (p ++ [x]) + 0) by (rewrite app_length; cbn; lia).
    rewrite skipn_app, skipn_all2 by lia.
    replace (length (p ++ [x]) + 0 - length (p ++ [x])) with 0 by lia. reflexivity.
  Qed.

  Lemma nth_at (p : list T) x q : nth_error (p ++ x :: q) (length p) = Some x.
  Proof. rewrite nth_error_app2, Nat.sub_diag by lia. reflexivity. Qed.

  Lemma swap_at (p : list T) x q y r :
    swap (p ++ x :: q ++ y :: r) (length p) (length p + S (length q)) = p ++ y :: q ++ x :: r.
  Proof.
    unfold swap. rewrite nth_at.
    replace (length p + S (length q)) with (length (p ++ x :: q)) by (rewrite app_length; cbn; lia).
    replace (p ++ x :: q ++ y :: r) with ((p ++ x :: q) ++ y :: r) at 1
      by (rewrite <- app_assoc; reflexivity).
    rewrite nth_at, put_at.
    replace (length (p ++ x :: q)) with (length (p ++ y :: q)) by (rewrite !app_length; reflexivity).
    replace (p ++ y :: q ++ y :: r) with ((p ++ y :: q) ++ y :: r)
      by (rewrite <- app_assoc; reflexivity).
    rewrite put_at, <- app_assoc. reflexivity.
  Qed.

  Lemma swap2_at (p : list T) x q p' y q' :
    swap2 (p ++ x :: q) (length p) (p' ++ y :: q') (length p') = (p ++ y :: q, p' ++ x :: q').
  Proof. unfold swap2. rewrite !nth_at, !put_at. reflexivity. Qed.

  Lemma firstn_at (p q : list T) : firstn (length p) (p ++ q) = p.
  Proof. rewrite firstn_app, Nat.sub_diag, firstn_all, app_nil_r. reflexivity. Qed.

  Lemma skipn_at (p q : list T) : skipn (length p) (p ++ q) = q.
  Proof. rewrite skipn_app, Nat.sub_diag, skipn_all. reflexivity. Qed.

  Lemma reverse_at (p q : list T) : reverse (length p) (p ++ q) = p ++ rev q.
  Proof. unfold reverse. rewrite firstn_at, skipn_at. reflexivity. Qed.

  (** Rotation of the concatenation. *)
  Lemma rotate_disc (a b a' b' : list T) :
    length a' = length a -> b ++ a = a' ++ b' -> rotate_discontinuous a b = (a', b').
  Proof.
    intros L E. unfold rotate_discontinuous, rotate.
    assert (Ea : a' = firstn (length a) (b ++ a)) by (rewrite E, <- L, firstn_at; reflexivity).
    assert (Eb : b' = skipn (length a) (b ++ a)) by (rewrite E, <- L, skipn_at; reflexivity).
    destruct (Nat.leb_spec (length a) (length b)) as [H|H].
    - rewrite skipn_at, firstn_at.
      rewrite Ea, Eb, firstn_app, skipn_app.
      replace (length a - length b) with 0 by lia. cbn. rewrite app_nil_r. reflexivity.
    - assert (La : length (firstn (length a - length b) a) = length a - length b)
        by (rewrite firstn_length; lia).
      set (u := firstn (length a - length b) a) in *.
      rewrite <- La. rewrite (skipn_at u b), (firstn_at u b), La.
      rewrite Ea, Eb, firstn_app, skipn_app.
      rewrite (firstn_all2 b), (skipn_all2 b) by lia. reflexivity.
  Qed.

  Lemma rotate_at_ (p a q b a' b' : list T) :
    length a' = length a -> b ++ a = a' ++ b' ->
    rotate_at (p ++ a) (length p) (q ++ b) (length q) = (p ++ a', q ++ b').
  Proof.
    intros L E. unfold rotate_at. rewrite !skipn_at, !firstn_at, (rotate_disc _ _ a' b') by assumption.
    reflexivity.
  Qed.

  Context {St : Type} (g : list T -> St -> bool * St).

  (** [f] visits the arrangements [E a] and restores the range. *)
  Definition acts (f : @thunk T St) (n : nat) (E : list T -> list (list T)) : Prop :=
    forall a s, length a = n ->
      exists stop s', visits g (E a) s = (stop, s') /\
        (stop = false -> f a s = (false, a, s')) /\
        (stop = true -> exists a', f a s = (true, a', s')).

  Section Combine.
    Context (f : @thunk T St) (n : nat) (E : list T -> list (list T)) (F : acts f n E).

    (** [r] visits the arrangements of the selections [l] and ends with [a'] and [b']. *)
    Definition covers (l : list (list T)) (s : St) (r : @result T St) (a' b' : list T) : Prop :=
      exists stop s', visits g (flat_map E l) s = (stop, s') /\
        (stop = false -> r = (false, a', b', s')) /\
        (stop = true -> exists a1 b1, r = (true, a1, b1, s')).

    Lemma covers_lift a b s : length a = n -> covers [a] s (lift f a b s) a b.
    Proof.
      intros L. destruct (F a s L) as (stop & s' & V & H0 & H1).
      exists stop, s'. cbn. rewrite app_nil_r. split; [exact V|]. unfold lift. split.
      - intros S0. rewrite (H0 S0). reflexivity.
      - intros S1. destruct (H1 S1) as (a' & ->). eauto.
    Qed.

    Lemma covers_seq l1 l2 s r a b k a' b' :
      covers l1 s r a b ->
      (forall s1, covers l2 s1 (k a b s1) a' b') ->
      covers (l1 ++ l2) s
        (let '(stop, a1, b1, s1) := r in if stop then (true, a1, b1, s1) else k a1 b1 s1) a' b'.
    Proof.
      intros (stop & s1 & V & H0 & H1) K. unfold covers. rewrite flat_map_app, visits_app, V.
      destruct stop.
      - destruct (H1 eq_refl) as (a1 & b1 & ->). exists true, s1. split; [reflexivity|].
        split; [discriminate|eauto].
      - rewrite (H0 eq_refl). apply K.
    Qed.

    (** What a call that is not the outermost leaves behind. *)
    Definition left_a (l : list T) (m : nat) : list T := firstn m (tl l).
    Definition left_b (l : list T) (m : nat) : list T := firstn 1 l ++ skipn m (tl l).

    Lemma loop_covers inner m p q x a b s :
      (forall j p' a b s, length p' = S (length p) -> length a = m -> b <> [] ->
         length p' + m = n ->
         forall q', length q' = j ->
         covers (map (app p') (choose m (a ++ b))) s (inner j (p' ++ a) (q' ++ b) s)
           (p' ++ left_a (a ++ b) m) (q' ++ left_b (a ++ b) m)) ->
      length a = m -> length p + S m = n ->
      exists a1 b1,
        length a1 = S m /\ b1 ++ a1 = x :: a ++ b /\
        covers (map (app p) (choose (S m) (x :: a ++ b))) s
          (let '(stop, a1, b1, s1) :=
             combine_loop inner (length b) (length p) (length q) (p ++ x :: a) (q ++ b) s in
           if stop then (true, a1, b1, s1) else lift f a1 b1 s1)
          (p ++ a1) (q ++ b1).
    Proof.
      intros I. revert q x a s. induction b as [|y b IH]; intros q x a s La Ln.
      - exists (x :: a), []. split; [cbn; lia|]. split; [cbn; rewrite app_nil_r; reflexivity|].
        cbn [length combine_loop].
        replace (x :: a ++ []) with (x :: a) by (rewrite app_nil_r; reflexivity).
        replace (S m) with (length (x :: a)) by (cbn; lia). rewrite choose_full. cbn [map].
        apply covers_lift. rewrite app_length. cbn. lia.
      - cbn [length combine_loop].
        set (l := a ++ y :: b).
        assert (Hl : exists x' a', l = x' :: a' ++ b /\ length a' = m).
        { unfold l. destruct a as [|x' a0].
          - exists y, []. cbn in *. split; [reflexivity|lia].
          - exists x', (a0 ++ [y]). rewrite <- app_assoc, app_length. cbn in *. split; [reflexivity|lia]. }
        destruct Hl as (x' & a' & El & La').
        destruct (IH (q ++ [x]) x' a' s La' Ln) as (a1 & b1 & L1 & E1 & _).
        exists a1, (x :: b1). split; [exact L1|].
        split. { cbn. rewrite E1. change (y :: b) with ([y] ++ b). f_equal. symmetry. exact El. }
        cbn [choose]. rewrite map_app.
        replace (a ++ y :: b) with l by reflexivity.
        rewrite map_map.
        assert (C1 : covers (map (app (p ++ [x])) (choose m l)) s
                  (inner (length q) (p ++ x :: a) (q ++ y :: b) s)
                  (p ++ x :: a') (q ++ x' :: b)).
        { replace (p ++ x :: a') with ((p ++ [x]) ++ left_a l m).
          2:{ rewrite <- app_assoc. unfold left_a. rewrite El. cbn [tl app].
              rewrite <- La', firstn_at. reflexivity. }
          replace (x' :: b) with (left_b l m).
          2:{ unfold left_b. rewrite El. cbn [tl firstn app].
              rewrite <- La', skipn_at. reflexivity. }
          replace (p ++ x :: a) with ((p ++ [x]) ++ a) by (rewrite <- app_assoc; reflexivity).
          apply I; try assumption; try reflexivity.
          - rewrite app_length. cbn. lia.
          - discriminate.
          - rewrite app_length. cbn. lia. }
        replace (map (fun z => p ++ x :: z) (choose m l)) with (map (app (p ++ [x])) (choose m l))
          by (apply map_ext; intros z; rewrite <- app_assoc; reflexivity).
        assert (C2 : forall s1, covers (map (app p) (choose (S m) l)) s1
           (let (a2, b2) := swap2 (p ++ x :: a') (length p) (q ++ x' :: b) (length q) in
            let '(stop, a1, b1, s1) := combine_loop inner (length b) (length p) (S (length q)) a2 b2 s1 in
            if stop then (true, a1, b1, s1) else lift f a1 b1 s1) (p ++ a1) (q ++ x :: b1)).
        { intros s1. rewrite swap2_at.
          replace (q ++ x :: b) with ((q ++ [x]) ++ b) by (rewrite <- app_assoc; reflexivity).
          replace (q ++ x :: b1) with ((q ++ [x]) ++ b1) by (rewrite <- app_assoc; reflexivity).
          replace (S (length q)) with (length (q ++ [x])) by (rewrite app_length; cbn; lia).
          destruct (IH (q ++ [x]) x' a' s1 La' Ln) as (a1' & b1' & L1' & E1' & C).
          assert (Eq : b1 = b1' /\ a1 = a1').
          { assert (LL : length b1 = length b1').
            { pose proof (f_equal (@length T) E1) as G1. pose proof (f_equal (@length T) E1') as G2.
              rewrite app_length in G1, G2. lia. }
            split.
            - rewrite <- (firstn_at b1 a1), <- (firstn_at b1' a1'), E1, E1', LL. reflexivity.
            - rewrite <- (skipn_at b1 a1), <- (skipn_at b1' a1'), E1, E1', LL. reflexivity. }
          destruct Eq as [-> ->]. rewrite El. exact C. }
        pose proof (covers_seq _ _ s _ _ _ (fun a1 b1 s1 =>
            let (a2, b2) := swap2 a1 (length p) b1 (length q) in
            let '(stop, a1, b1, s1) := combine_loop inner (length b) (length p) (S (length q)) a2 b2 s1 in
            if stop then (true, a1, b1, s1) else lift f a1 b1 s1) _ _ C1 C2) as C.
        match type of C with covers _ _ ?r _ _ => match goal with |- covers _ _ ?r' _ _ => replace r' with r; [exact C|] end end.
        destruct (inner (length q) (p ++ x :: a) (q ++ y :: b) s) as [[[stop a3] b3] s3].
        destruct stop; [reflexivity|].
        destruct (swap2 a3 (length p) b3 (length q)) as [a4 b4]. reflexivity.
    Qed.

    Lemma combine_covers : forall m top p a q b s,
      length a = m -> length p + m = n -> (top = false -> b <> []) ->
      covers (map (app p) (choose m (a ++ b))) s
        (combine_discontinuous f m top (length p) (length q) (p ++ a) (q ++ b) s)
        (p ++ (if top then a else left_a (a ++ b) m))
        (q ++ (if top then b else left_b (a ++ b) m)).
    Proof.
      induction m as [|m IH]; intros top p a q b s La Ln Hb.
      - destruct a; [|discriminate]. cbn [combine_discontinuous choose map app].
        replace (if top then [] else left_a b 0) with (@nil T) by (destruct top; reflexivity).
        replace (if top then b else left_b b 0) with b.
        2:{ destruct top; [reflexivity|]. destruct b; [contradiction (Hb eq_refl); reflexivity|reflexivity]. }
        replace (choose 0 b) with [@nil T] by (destruct b; reflexivity). cbn [map].
        apply covers_lift. rewrite app_nil_r. lia.
      - destruct a as [|x a]; [discriminate|]. cbn [combine_discontinuous].
        rewrite app_length. replace (length q + length b - length q) with (length b) by lia.
        destruct b as [|y b].
        { cbn [length Nat.eqb]. destruct top; [|contradiction (Hb eq_refl); reflexivity].
          rewrite app_nil_r. replace (choose (S m) (x :: a)) with (choose (length (x :: a)) (x :: a)) by (rewrite La; reflexivity).
          rewrite choose_full. apply covers_lift. rewrite app_length. lia. }
        replace (length (y :: b) =? 0) with false by reflexivity.
        set (inner := fun jj a b s => match m with
           | O => lift f a b s
           | S _ => combine_discontinuous f m false (S (length p)) jj a b s end).
        destruct (loop_covers inner m p q x a (y :: b) s) as (a1 & b1 & L1 & E1 & C).
        + intros j p' a' b' s' Lp' La' Hb' Ln' q' Lq'. subst j.
          assert (C := IH false p' a' q' b' s' La' Ln' (fun _ => Hb')).
          unfold inner. destruct m as [|m']; [exact C|]. rewrite <- Lp'. exact C.
        + cbn in La. lia.
        + lia.
        + cbn [app].
          destruct C as (stop & s' & V & H0 & H1). exists stop, s'. split; [exact V|].
          destruct (combine_loop inner (length (y :: b)) (length p) (length q) (p ++ x :: a) (q ++ y :: b) s)
            as [[[st a2] b2] s2].
          destruct st.
          { split; intros Hs; [specialize (H0 Hs); discriminate|].
            destruct (H1 Hs) as (? & ? & Q). injection Q as -> -> ->. eauto. }
          destruct (lift f a2 b2 s2) as [[[st a3] b3] s3].
          split; intros Hs.
          * specialize (H0 Hs). injection H0 as -> -> -> ->.
            destruct top.
            -- rewrite (rotate_at_ p a1 q b1 (x :: a) (y :: b)); [reflexivity|cbn in *; lia|exact E1].
            -- destruct b1 as [|z b1].
               { exfalso. pose proof (f_equal (@length T) E1) as G. cbn in *.
                 rewrite app_length in G. cbn in G. lia. }
               injection E1 as -> E1.
               replace (S (length q)) with (length (q ++ [x])) by (rewrite app_length; cbn; lia).
               replace (q ++ x :: b1) with ((q ++ [x]) ++ b1) by (rewrite <- app_assoc; reflexivity).
               rewrite (rotate_at_ p a1 (q ++ [x]) b1 (left_a (x :: a ++ y :: b) (S m)) (skipn (S m) (a ++ y :: b))).
               ++ unfold left_b. rewrite <- app_assoc. reflexivity.
               ++ unfold left_a. cbn [tl]. rewrite firstn_length, app_length, L1. cbn [length] in *. lia.
               ++ unfold left_a. cbn [tl]. rewrite firstn_skipn. exact E1.
          * destruct (H1 Hs) as (a4 & b4 & Q). injection Q as -> -> -> ->. eauto.
    Qed.
  End Combine.

  (** Permutations. *)

  Definition acts_at (f : @thunk T St) (p l : list T) (ll : list (list T)) (l' : list T) : Prop :=
    forall s, exists stop s', visits g (map (app p) ll) s = (stop, s') /\
      (stop = false -> f (p ++ l) s = (false, p ++ l', s')) /\
      (stop = true -> exists a', f (p ++ l) s = (true, a', s')).

  Lemma perms_one x : perms 1 [x] = [[x]].
  Proof. reflexivity. Qed.

  Lemma call_acts p l : acts_at (call g) p l [l] l.
  Proof.
    intros s. cbn. unfold call. destruct (g (p ++ l) s) as [stop s'].
    exists stop, s'. destruct stop; (split; [reflexivity|]); split; intros; try discriminate; eauto.
  Qed.

  (** Sequencing. *)
  Lemma acts_seq f k p l ll1 l1 ll2 l2 :
    acts_at f p l ll1 l1 ->
    acts_at k p l1 ll2 l2 ->
    acts_at (fun a s => let '(stop, a1, s1) := f a s in if stop then (true, a1, s1) else k a1 s1)
      p l (ll1 ++ ll2) l2.
  Proof.
    intros A B s. destruct (A s) as (stop & s1 & V & H0 & H1).
    rewrite map_app, visits_app, V. destruct stop.
    - destruct (H1 eq_refl) as (a' & ->). exists true, s1. split; [reflexivity|].
      split; [discriminate|eauto].
    - rewrite (H0 eq_refl). apply B.
  Qed.

  Lemma acts_change f (h : list T -> list T) p l l1 ll l2 :
    h (p ++ l) = p ++ l1 -> acts_at f p l1 ll l2 -> acts_at (fun a s => f (h a) s) p l ll l2.
  Proof. intros H A s. destruct (A s) as (stop & s' & V & H0 & H1). rewrite H. eauto. Qed.

  Lemma swap_here (p : list T) x q y r i j :
    i = length p -> j = length p + S (length q) ->
    swap (p ++ x :: q ++ y :: r) i j = p ++ y :: q ++ x :: r.
  Proof. intros -> ->. apply swap_at. Qed.

  Lemma swap_01 (p : list T) x y r : swap (p ++ x :: y :: r) (length p) (length p + 1) = p ++ y :: x :: r.
  Proof. apply (swap_here p x [] y r); reflexivity. Qed.

  Lemma swap_02 (p : list T) x y z : swap (p ++ [x; y; z]) (length p) (length p + 2) = p ++ [z; y; x].
  Proof. apply (swap_here p x [y] z []); reflexivity. Qed.

  Lemma swap_12 (p : list T) x y z : swap (p ++ [x; y; z]) (length p + 1) (length p + 2) = p ++ [x; z; y].
  Proof.
    replace (p ++ [x; y; z]) with ((p ++ [x]) ++ [y; z]) by (rewrite <- app_assoc; reflexivity).
    replace (p ++ [x; z; y]) with ((p ++ [x]) ++ [z; y]) by (rewrite <- app_assoc; reflexivity).
    apply (swap_here (p ++ [x]) y [] z []); rewrite app_length; cbn; lia.
  Qed.

  Lemma two_acts p x y : acts_at (permute_two g (length p)) p [x; y] (perms 2 [x; y]) [y; x].
  Proof.
    change (perms 2 [x; y]) with ([[x; y]] ++ [[y; x]]).
    apply (acts_seq (call g) (fun a s => call g (swap a (length p) (length p + 1)) s) _ _ _ [x; y]).
    - apply call_acts.
    - apply (acts_change (call g) (fun a => swap a (length p) (length p + 1)) _ _ [y; x]).
      + apply swap_01.
      + apply call_acts.
  Qed.

  Lemma three_acts p x y z :
    acts_at (permute_three g (length p)) p [x; y; z] (perms 3 [x; y; z]) [z; y; x].
  Proof.
    intros s. unfold permute_three, call. cbn [perms picks flat_map map fst snd app visits].
    destruct (g (p ++ [x; y; z]) s) as [[|] s1]; [exists true, s1; repeat split; [discriminate|eauto]|].
    rewrite swap_12.
    destruct (g (p ++ [x; z; y]) s1) as [[|] s2]; [exists true, s2; repeat split; [discriminate|eauto]|].
    rewrite swap_02, swap_12.
    destruct (g (p ++ [y; x; z]) s2) as [[|] s3]; [exists true, s3; repeat split; [discriminate|eauto]|].
    rewrite swap_12.
    destruct (g (p ++ [y; z; x]) s3) as [[|] s4]; [exists true, s4; repeat split; [discriminate|eauto]|].
    rewrite swap_01, swap_12.
    destruct (g (p ++ [z; x; y]) s4) as [[|] s5]; [exists true, s5; repeat split; [discriminate|eauto]|].
    rewrite swap_12.
    destruct (g (p ++ [z; y; x]) s5) as [[|] s6]; eexists _, _; repeat split; try discriminate; eauto.
  Qed.

  (** The permutations that start with an element of [v], all of [u ++ v] being permuted. *)
  Fixpoint perms_from (n : nat) (u v : list T) : list (list T) :=
    match v with
    | [] => []
    | x :: v' => map (cons x) (perms n (u ++ v')) ++ perms_from n (u ++ [x]) v'
    end.

  Lemma picks_from n u v :
    perms_from n u v =
    flat_map (fun p => map (cons (fst p)) (perms n (u ++ snd p))) (picks v).
  Proof.
    revert u; induction v as [|x v IH]; intros u; [reflexivity|]. cbn. f_equal.
    rewrite IH. rewrite !flat_map_concat_map, map_map. f_equal. apply map_ext. intros [y w]. cbn.
    rewrite <- app_assoc. reflexivity.
  Qed.

  Lemma perms_eq n v : perms (S n) v = perms_from n [] v.
  Proof. rewrite picks_from. reflexivity. Qed.

  Lemma acts_under f p x l ll l' :
    acts_at f (p ++ [x]) l ll l' -> acts_at f p (x :: l) (map (cons x) ll) (x :: l').
  Proof.
    intros A s. destruct (A s) as (stop & s' & V & H0 & H1). exists stop, s'.
    rewrite map_map.
    replace (map (fun y => p ++ x :: y) ll) with (map (app (p ++ [x])) ll)
      by (apply map_ext; intros y; rewrite <- app_assoc; reflexivity).
    replace (p ++ x :: l) with ((p ++ [x]) ++ l) by (rewrite <- app_assoc; reflexivity).
    replace (p ++ x :: l') with ((p ++ [x]) ++ l') by (rewrite <- app_assoc; reflexivity).
    auto.
  Qed.

  Lemma permute_loop_acts inner n p u x v :
    (forall p' l, length p' = S (length p) -> length l = n -> acts_at inner p' l (perms n l) (rev l)) ->
    length (u ++ v) = n ->
    acts_at (fun a s =>
        let '(stop, a1, s1) := permute_loop inner (length v) (length p) (length p + S (length u)) a s in
        if stop then (true, a1, s1) else inner a1 s1)
      p (x :: u ++ v) (perms_from n u (x :: v)) (rev (u ++ x :: v)).
  Proof.
    intros I. revert u x. induction v as [|y v IH]; intros u x L.
    - cbn [length permute_loop perms_from]. rewrite !app_nil_r in *.
      rewrite rev_app_distr. cbn [rev app]. apply acts_under. apply I; [rewrite app_length; cbn; lia|exact L].
    - cbn [length permute_loop perms_from]. fold (perms_from n (u ++ [x]) (y :: v)).
      pose proof (acts_seq inner
        (fun a s => (fun a s => let '(stop, a1, s1) :=
            permute_loop inner (length v) (length p) (S (length p + S (length u))) a s in
            if stop then (true, a1, s1) else inner a1 s1)
            (swap (reverse (S (length p)) a) (length p) (length p + S (length u))) s)
        p (x :: u ++ y :: v) (map (cons x) (perms n (u ++ y :: v))) (x :: rev (u ++ y :: v))
        (perms_from n (u ++ [x]) (y :: v)) (rev (u ++ x :: y :: v))) as Q.
      intros s. edestruct Q as (stop & s' & V & H0 & H1).
      + apply acts_under. apply I; [rewrite app_length; cbn; lia|exact L].
      + apply (acts_change (fun a s => let '(stop, a1, s1) :=
            permute_loop inner (length v) (length p) (S (length p + S (length u))) a s in
            if stop then (true, a1, s1) else inner a1 s1)
            (fun a => swap (reverse (S (length p)) a) (length p) (length p + S (length u)))
                 p _ (y :: (u ++ [x]) ++ v)).
        * replace (p ++ x :: rev (u ++ y :: v)) with ((p ++ [x]) ++ rev (u ++ y :: v))
            by (rewrite <- app_assoc; reflexivity).
          replace (S (length p)) with (length (p ++ [x])) by (rewrite app_length; cbn; lia).
          rewrite reverse_at, rev_involutive, <- !app_assoc. cbn [app].
          apply swap_here; reflexivity.
        * replace (S (length p + S (length u))) with (length p + S (length (u ++ [x])))
            by (rewrite app_length; cbn; lia).
          replace (u ++ x :: y :: v) with ((u ++ [x]) ++ y :: v) by (rewrite <- app_assoc; reflexivity).
          apply IH. rewrite !app_length in *. cbn in *. lia.
      + exists stop, s'. split; [exact V|].
        assert (EQ : forall a,
         (let '(stop, a1, s1) := let '(stop, a1, s1) := inner a s in
              if stop then (true, a1, s1) else
                permute_loop inner (length v) (length p) (S (length p + S (length u)))
                  (swap (reverse (S (length p)) a1) (length p) (length p + S (length u))) s1 in
          if stop then (true, a1, s1) else inner a1 s1) =
         (let '(stop, a1, s1) := inner a s in
            if stop then (true, a1, s1)
            else
             let '(stop0, a2, s2) :=
              permute_loop inner (length v) (length p) (S (length p + S (length u)))
                (swap (reverse (S (length p)) a1) (length p) (length p + S (length u))) s1 in
             if stop0 then (true, a2, s2) else inner a2 s2)).
        { intros a. destruct (inner a s) as [[[|] a1] s1]; reflexivity. }
        rewrite EQ. auto.
  Qed.

  Lemma permute__acts n : forall p l, length l = n ->
    acts_at (permute_ g n (length p)) p l (perms n l) (rev l).
  Proof.
    induction n as [|n IH]; intros p l L.
    - destruct l; [|discriminate]. apply call_acts.
    - destruct n as [|[|[|n]]].
      + destruct l as [|x [|]]; try discriminate. apply call_acts.
      + destruct l as [|x [|y [|]]]; try discriminate. apply two_acts.
      + destruct l as [|x [|y [|z [|]]]]; try discriminate. apply three_acts.
      + destruct l as [|x l]; [discriminate|]. injection L as L.
        rewrite perms_eq.
        pose proof (permute_loop_acts (permute_ g (S (S (S n))) (S (length p))) (S (S (S n))) p [] x l) as Q.
        cbn [length app] in Q. rewrite L in Q. rewrite Nat.add_1_r in Q. apply Q; [|reflexivity].
        intros p' l0 Lp Ll. rewrite <- Lp. apply IH. exact Ll.
  Qed.

  Lemma acts_then f (h : list T -> list T) p l ll l1 l2 :
    acts_at f p l ll l1 -> h (p ++ l1) = p ++ l2 ->
    acts_at (fun a s => let '(stop, a1, s1) := f a s in if stop then (true, a1, s1) else (false, h a1, s1))
      p l ll l2.
  Proof.
    intros A H s. destruct (A s) as (stop & s' & V & H0 & H1). exists stop, s'. split; [exact V|].
    split; intros Hs.
    - rewrite (H0 Hs), H. reflexivity.
    - destruct (H1 Hs) as (a' & ->). eauto.
  Qed.

  Lemma permute_acts p l :
    acts_at (permute g (length l) (length p)) p l (perms (length l) l) l.
  Proof.
    destruct l as [|x [|y [|z [|w l]]]].
    - apply call_acts.
    - apply call_acts.
    - apply (acts_then (permute_two g (length p)) (fun a => swap a (length p) (length p + 1)) _ _ _ [y; x]).
      + apply two_acts.
      + apply swap_01.
    - apply (acts_then (permute_three g (length p)) (fun a => swap a (length p) (length p + 2)) _ _ _ [z; y; x]).
      + apply three_acts.
      + apply swap_02.
    - pose proof (acts_then (permute_ g (length (x :: y :: z :: w :: l)) (length p)) (reverse (length p)) p
        (x :: y :: z :: w :: l) _ _ (x :: y :: z :: w :: l)
        (permute__acts _ p (x :: y :: z :: w :: l) eq_refl)) as Q.
      intros s. destruct Q with (s := s) as (stop & s' & V & H0 & H1).
      + rewrite reverse_at, rev_involutive. reflexivity.
      + exists stop, s'. split; [exact V|].
        cbn [length permute_ permute] in *.
        set (LP := permute_loop _ _ _ _) in *.
        destruct (LP (p ++ x :: y :: z :: w :: l) s) as [[[|] a1] s1]; auto.
  Qed.

  (** The three enumerations. *)

  Lemma call_range n : acts (call g) n (fun a => [a]).
  Proof.
    intros a s _. destruct (call_acts [] a s) as (stop & s' & V & H0 & H1). exists stop, s'. auto.
  Qed.

  Lemma permute_range n : acts (permute g n 0) n (fun a => perms n a).
  Proof.
    intros a s L. subst n. destruct (permute_acts [] a s) as (stop & s' & V & H0 & H1).
    exists stop, s'. cbn [length app] in *. rewrite map_id in V. auto.
  Qed.

  Definition hold (n : nat) (a : list T) : list (list T) :=
    match a with
    | [] => [[]]
    | x :: l => map (cons x) (perms (n - 1) l)
    end.

  Lemma circular_range n : acts (circular_permutation g n) n (hold n).
  Proof.
    intros a s L. subst n. destruct a as [|x [|y l]].
    - apply (call_range 0); reflexivity.
    - apply (call_range 1 [x]); reflexivity.
    - destruct (permute_acts [x] (y :: l) s) as (stop & s' & V & H0 & H1).
      exists stop, s'. cbn [length app circular_permutation hold] in *.
      rewrite Nat.sub_succ, Nat.sub_0_r. auto.
  Qed.

  Lemma enumerate f E a b s :
    acts f (length a) E ->
    exists stop s', visits g (flat_map E (choose (length a) (a ++ b))) s = (stop, s') /\
      (stop = false -> combine_discontinuous f (length a) true 0 0 a b s = (false, a, b, s')) /\
      (stop = true -> exists a' b', combine_discontinuous f (length a) true 0 0 a b s = (true, a', b', s')).
  Proof.
    intros F.
    pose proof (combine_covers f (length a) E F (length a) true [] a [] b s eq_refl eq_refl
      ltac:(discriminate)) as C.
    cbn [app length] in C. rewrite map_id in C. exact C.
  Qed.
End Proofs.

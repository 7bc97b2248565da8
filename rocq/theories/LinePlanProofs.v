(** Thinning a line, by positions. *)
From Coq Require Import Reals List ZArith Bool Lia Lra.
From Verif Require Import LinePlanModel LinePlanSpec LinePlanGeom.
Import ListNotations.
Open Scope R_scope.

(** *** Rising lists *)

Lemma rising_tail i l : rising (i :: l) -> rising l.
Proof. destruct l; cbn; tauto. Qed.

Lemma rising_above i l : rising (i :: l) -> forall j, In j l -> (i < j)%nat.
Proof.
  revert i. induction l as [|k l IH]; intros i R j J; [destruct J|]. destruct R as (A & R). destruct J as [<-|J]; auto.
  specialize (IH k R j J). lia.
Qed.

Lemma rising_app l1 l2 : rising (l1 ++ l2) -> rising l1 /\ rising l2 /\ forall i j, In i l1 -> In j l2 -> (i < j)%nat.
Proof.
  induction l1 as [|a l1 IH]; intros R; [cbn; repeat split; auto; intros i j []|].
  destruct (IH (rising_tail _ _ R)) as (A & B & C). pose proof (rising_above _ _ R) as U. split; [|split; auto].
  - destruct l1; [exact I|]. split; [apply U; left; reflexivity|exact A].
  - intros i j [<-|I0] J; [apply U, in_app_iff; auto|auto].
Qed.

Lemma rising_cons i l : (forall j, In j l -> (i < j)%nat) -> rising l -> rising (i :: l).
Proof. destruct l as [|k l]; [cbn; auto|]. intros A R. split; [apply A; left; reflexivity|exact R]. Qed.

Lemma rising_join l1 l2 : rising l1 -> rising l2 -> (forall i j, In i l1 -> In j l2 -> (i < j)%nat) -> rising (l1 ++ l2).
Proof.
  induction l1 as [|a l1 IH]; intros R1 R2 C; auto. change (rising (a :: (l1 ++ l2))). apply rising_cons.
  - intros j J. apply in_app_iff in J. destruct J as [J|J]; [apply (rising_above _ _ R1), J|apply C; auto; left; auto].
  - apply IH; auto; [apply (rising_tail _ _ R1)|]. intros; apply C; auto. right; auto.
Qed.

Lemma rising_drop l1 j l2 : rising (l1 ++ j :: l2) -> rising (l1 ++ l2).
Proof.
  intros R. apply rising_app in R. destruct R as (A & B & C). apply rising_join; auto; [apply (rising_tail _ _ B)|].
  intros i k I0 K. apply C; auto. right; auto.
Qed.

Lemma rising_last l k : rising l -> hd_error (rev l) = Some k -> forall j, In j l -> (j <= k)%nat.
Proof.
  intros R E j J. destruct (rev l) as [|x r] eqn:Q; [discriminate|]. injection E as ->.
  assert (L : l = rev r ++ [k]) by (rewrite <- (rev_involutive l), Q; reflexivity). subst l.
  apply rising_app in R. destruct R as (_ & _ & C). apply in_app_iff in J. destruct J as [J|[<-|[]]]; [|lia].
  specialize (C j k J (or_introl eq_refl)). lia.
Qed.

Lemma seq_spans n : (1 <= n)%nat -> spans n (seq 0 n).
Proof.
  intros N. destruct n as [|n]; [lia|]. split; [reflexivity|]. split.
  - rewrite seq_S, rev_app_distr. cbn. f_equal. lia.
  - clear N. generalize 0%nat. generalize (S n). clear n. induction n as [|n IH]; intros k; [exact I|].
    cbn [seq]. apply rising_cons; [|apply IH]. intros j J. apply in_seq in J. lia.
Qed.

Lemma skipn_tl {A} n (l : list A) : skipn (S n) l = tl (skipn n l).
Proof. revert l. induction n as [|n IH]; intros [|x l]; auto. cbn [skipn] in *. rewrite <- IH. reflexivity. Qed.

Lemma nth_skip {A} (d : A) i : forall n l, nth n (skipn i l) d = nth (i + n) l d.
Proof. induction i as [|i IH]; intros n [|x l]; auto; [destruct n; reflexivity|apply IH]. Qed.

Lemma nth_first {A} (d : A) m : forall n l, (n < m)%nat -> nth n (firstn m l) d = nth n l d.
Proof. induction m as [|m IH]; intros n l N; [lia|]. destruct l as [|x l]; auto. destruct n as [|n]; auto. cbn. apply IH. lia. Qed.

(** *** The first pass *)

Section Thin.
  Context (line : list point).
  Notation L k := (nth k line origin).

  Fixpoint thin_pos (i j m : nat) : list nat :=
    match m with
    | O => [j]
    | S m' => if extraneous (L i) (L j) (L (S j)) then thin_pos i (S j) m' else j :: thin_pos j (S j) m'
    end.

  Lemma thin_map m : forall i j, length line = (S j + m)%nat -> thin (L i) (L j) (skipn (S j) line) = map (fun k => L k) (thin_pos i j m).
  Proof.
    induction m as [|m IH]; intros i j E.
    - rewrite skipn_all2 by lia. reflexivity.
    - assert (S : skipn (S j) line = L (S j) :: skipn (S (S j)) line).
      { destruct (skipn (S j) line) as [|c r] eqn:Q.
        - apply (f_equal (@length _)) in Q. rewrite skipn_length in Q. cbn in Q. lia.
        - assert (c = L (S j)). { rewrite <- (firstn_skipn (S j) line) at 1. rewrite app_nth2; rewrite firstn_length; [|lia].
            replace (S j - Nat.min (S j) (length line))%nat with 0%nat by lia. rewrite Q. reflexivity. }
          subst c. f_equal. rewrite (skipn_tl (S j)), Q. reflexivity. }
      rewrite S. cbn [thin thin_pos]. destruct (extraneous _ _ _).
      + apply IH. lia.
      + cbn [map]. f_equal. apply IH. lia.
  Qed.

  Lemma thin_pos_in m : forall i j k, In k (thin_pos i j m) -> (j <= k <= j + m)%nat.
  Proof.
    induction m as [|m IH]; intros i j k; cbn; [intros [<-|[]]; lia|]. destruct (extraneous _ _ _); [intros K; apply IH in K; lia|].
    intros [<-|K]; [lia|apply IH in K; lia].
  Qed.

  Lemma thin_pos_rising m : forall i j, rising (thin_pos i j m).
  Proof.
    induction m as [|m IH]; intros i j; [exact I|]. cbn. destruct (extraneous _ _ _); [apply IH|]. apply rising_cons; [|apply IH].
    intros k K. apply thin_pos_in in K. lia.
  Qed.

  Lemma thin_pos_last m : forall i j, hd_error (rev (thin_pos i j m)) = Some (j + m)%nat.
  Proof.
    induction m as [|m IH]; intros i j; [cbn; f_equal; lia|]. cbn. destruct (extraneous _ _ _); [rewrite IH; f_equal; lia|].
    cbn. specialize (IH j (S j)). destruct (rev (thin_pos j (S j) m)); [discriminate|]. cbn in *. rewrite IH. f_equal. lia.
  Qed.

  Lemma thin_pos_which m : forall i j q p, (i < j)%nat -> In q (i :: thin_pos i j m) -> (q < p)%nat ->
    (forall r, In r (i :: thin_pos i j m) -> ~ (q < r < p)%nat) -> (j <= p < j + m)%nat ->
    (In p (thin_pos i j m) <-> extraneous (L q) (L p) (L (S p)) = false).
  Proof.
    induction m as [|m IH]; intros i j q p IJ Q QP B P; [lia|]. cbn [thin_pos] in *.
    destruct (extraneous (L i) (L j) (L (S j))) eqn:X.
    - assert (J : p = j \/ (S j <= p)%nat) by lia. destruct J as [->|J].
      + assert (q = i). { destruct Q as [<-|Q]; auto. apply thin_pos_in in Q. lia. } subst q. rewrite X. split; [|discriminate].
        intros K. apply thin_pos_in in K. lia.
      + apply (IH i (S j)); auto; lia.
    - assert (J : p = j \/ (S j <= p)%nat) by lia. destruct J as [->|J].
      + assert (q = i). { destruct Q as [<-|[<-|Q]]; auto; [lia|]. apply thin_pos_in in Q. lia. } subst q. split; auto. intros _. left. reflexivity.
      + assert (q <> i). { intros ->. apply (B j); [right; left; reflexivity|lia]. }
        destruct Q as [<-|Q]; [congruence|]. rewrite <- (IH j (S j) q p); auto; [|intros r R; apply B; right; exact R|lia].
        split; [intros [<-|K]; [lia|exact K]|right; auto].
  Qed.
End Thin.

Definition at_ (line : list point) (k : nat) : place := plc (nth k line origin).

Lemma preprocess_pos line : (2 <= length line)%nat ->
  exists ks, spans (length line) ks /\ preprocess line = map (fun k => nth k line origin) ks /\
    forall q p, In q ks -> (q < p)%nat -> (forall r, In r ks -> ~ (q < r < p)%nat) -> (p < length line - 1)%nat ->
      (In p ks <-> ~ slight (at_ line q) (at_ line p) (at_ line (S p))).
Proof.
  intros N. destruct line as [|a [|b r]] eqn:E; cbn in N; try lia. exists (0%nat :: thin_pos line 0 1 (length r)).
  rewrite <- E. assert (LN : length line = S (S (length r))) by (rewrite E; reflexivity). split; [|split].
  - split; [reflexivity|]. split.
    + cbn [rev]. pose proof (thin_pos_last line (length r) 0 1) as H. destruct (rev (thin_pos line 0 1 (length r))); [discriminate|].
      cbn in *. rewrite H. f_equal. lia.
    + apply rising_cons; [|apply thin_pos_rising]. intros j J. apply thin_pos_in in J. lia.
  - pose proof (thin_map line (length r) 0 1 ltac:(lia)) as M. rewrite E in M at 1 2 3. cbn [nth skipn] in M.
    rewrite E at 1. cbn [preprocess map]. rewrite M. f_equal. rewrite E. reflexivity.
  - intros q p Q QP B P. unfold at_. rewrite <- extraneous_slight.
    assert (P0 : (1 <= p)%nat) by lia.
    rewrite not_true_iff_false. rewrite <- (thin_pos_which line (length r) 0 1 q p); auto; try lia.
    split; [intros [<-|K]; [lia|exact K]|right; auto].
Qed.

(** *** The second pass *)

Section Quick.
  Context (road : list point).
  Notation L k := (nth k road origin).
  Notation lossr := (loss (at_ road)).
  Notation stays := (fun k => fixed (L k)).

  Lemma loss_unique i k e e' : lossr i k e -> lossr i k e' -> e = e'.
  Proof.
    intros ((j & J & O) & U) ((j' & J' & O') & U'). specialize (U _ _ J' O'). specialize (U' _ _ J O). lra.
  Qed.

  Lemma fold_most a c l : forall m, let g := fun m p => let s := snd (separation a p c) in if Rlt_dec m s then s else m in
    m <= fold_left g l m /\ (forall p, In p l -> snd (separation a p c) <= fold_left g l m) /\
    (fold_left g l m = m \/ exists p, In p l /\ fold_left g l m = snd (separation a p c)).
  Proof.
    intros m g. revert m. induction l as [|p l IH]; intros m; [cbn; repeat split; [lra|intros ? []|auto]|].
    cbn [fold_left]. destruct (IH (g m p)) as (A & B & C). unfold g at 1 3 in A. cbn beta zeta in A.
    assert (M : m <= g m p /\ snd (separation a p c) <= g m p /\ (g m p = m \/ g m p = snd (separation a p c))).
    { unfold g. destruct (Rlt_dec m _); lra. }
    destruct M as (M1 & M2 & M3). fold (g m p) in A. split; [|split].
    - eapply Rle_trans; [exact M1|]. exact (proj1 (IH (g m p))).
    - intros q [<-|Q]; [|auto]. eapply Rle_trans; [exact M2|]. exact (proj1 (IH (g m p))).
    - destruct C as [C|(q & Q & C)]; [|right; exists q; split; [right; exact Q|exact C]].
      rewrite C. destruct M3 as [->|M3]; [auto|]. right. exists p. split; [left; reflexivity|exact M3].
  Qed.

  Lemma between i k p : (k <= length road)%nat -> (In p (firstn (k - S i) (skipn (S i) road)) <-> exists j, (i < j < k)%nat /\ p = L j).
  Proof.
    intros K. split.
    - intros H. apply In_nth with (d := origin) in H. destruct H as (n & N & <-). rewrite firstn_length, skipn_length in N.
      exists (S i + n)%nat. split; [lia|]. rewrite nth_first by lia. apply nth_skip.
    - intros (j & J & ->). replace j with (S i + (j - S i))%nat at 1 by lia. rewrite <- nth_skip, <- (nth_first _ (k - S i)) by lia.
      apply nth_In. rewrite firstn_length, skipn_length. lia.
  Qed.

  Lemma deviation_loss i j k : (i < j < k)%nat -> (k < length road)%nat -> lossr i k (deviation road (L i) (L j) (L k) i k).
  Proof.
    intros J K. unfold deviation. destruct (fold_most (L i) (L k) (firstn (k - S i) (skipn (S i) road)) (snd (separation (L i) (L j) (L k)))) as (A & B & C).
    cbn zeta in *. set (F := fold_left _ _ _) in *. split.
    - destruct C as [->|(p & P & ->)].
      + exists j. split; auto. apply sep_off.
      + apply between in P; [|lia]. destruct P as (j2 & J2 & ->). exists j2. split; auto. apply sep_off.
    - intros j2 d J2 O. rewrite (off_unique _ _ _ _ _ O (sep_off (L i) (L j2) (L k))). apply B. apply between; [lia|]. exists j2. auto.
  Qed.

  (** Entries that tell the truth. *)
  Definition true_spot (e : entry) : Prop := spot e = L (index e) /\ (index e < length road)%nat.

  Fixpoint good (l : list entry) : Prop :=
    match l with
    | a :: ((e :: r') as r) => match r' with c :: _ => lossr (index a) (index c) (effect e) | [] => True end /\ good r
    | _ => True
    end.

  Definition inv (l : list entry) : Prop := Forall true_spot l /\ rising (map index l) /\ good l.

  Definition refreshed (a b c : entry) : entry :=
    {| spot := spot b; effect := deviation road (spot a) (spot b) (spot c) (index a) (index c); index := index b |}.

  Lemma good_app l1 a e l2 : good (l1 ++ a :: e :: l2) <-> good (l1 ++ [a; e]) /\ good (a :: e :: l2).
  Proof.
    induction l1 as [|x l1 IH]; [cbn; tauto|]. destruct l1 as [|y l1].
    - cbn [app good] in *. tauto.
    - change (good (x :: y :: (l1 ++ a :: e :: l2)) <-> good (x :: y :: (l1 ++ [a; e])) /\ good (a :: e :: l2)).
      cbn [app] in IH. cbn [good] in *. destruct l1; cbn [app] in *; tauto.
  Qed.

  Lemma good_last l1 a e e' : index e = index e' -> good (l1 ++ [a; e]) -> good (l1 ++ [a; e']).
  Proof.
    intros I0. induction l1 as [|x l1 IH]; [cbn; tauto|]. destruct l1 as [|y l1].
    - cbn. rewrite I0. tauto.
    - cbn [app good] in *. destruct l1; cbn [app] in *; tauto.
  Qed.

  Lemma good_first a a' e l : index a = index a' -> good (a :: e :: l) -> good (a' :: e :: l).
  Proof. intros I0. cbn. rewrite I0. tauto. Qed.

  Lemma refresh_at l1 a b c l2 : refresh road (S (length l1)) (l1 ++ a :: b :: c :: l2) = l1 ++ a :: refreshed a b c :: c :: l2.
  Proof.
    unfold refresh. rewrite app_length. cbn [length].
    destruct (Nat.ltb_spec (S (S (length l1))) (length l1 + S (S (S (length l2))))%nat); [|lia]. cbn [Nat.ltb Nat.leb andb].
    replace (S (length l1) - 1)%nat with (length l1) by lia.
    rewrite (nth_error_app2 l1 _ (n := length l1)) by lia. rewrite (nth_error_app2 l1 _ (n := S (length l1))) by lia.
    rewrite (nth_error_app2 l1 _ (n := S (S (length l1)))) by lia.
    replace (length l1 - length l1)%nat with 0%nat by lia. replace (S (length l1) - length l1)%nat with 1%nat by lia.
    replace (S (S (length l1)) - length l1)%nat with 2%nat by lia. cbn [nth_error]. unfold update.
    rewrite firstn_app, skipn_app. replace (S (length l1) - length l1)%nat with 1%nat by lia.
    replace (S (S (length l1)) - length l1)%nat with 2%nat by lia. rewrite firstn_all2, skipn_all2 by lia. cbn [firstn skipn app].
    rewrite <- app_assoc. reflexivity.
  Qed.

  Lemma refresh_end l1 a b : refresh road (S (length l1)) (l1 ++ [a; b]) = l1 ++ [a; b].
  Proof.
    unfold refresh. rewrite app_length. cbn [length]. destruct (Nat.ltb_spec (S (S (length l1))) (length l1 + 2)%nat); [lia|].
    rewrite andb_false_r. reflexivity.
  Qed.

  Lemma refresh_zero l : refresh road 0 l = l.
  Proof. reflexivity. Qed.

  Lemma erase_at {A} (l1 : list A) e l2 : erase (length l1) (l1 ++ e :: l2) = l1 ++ l2.
  Proof.
    unfold erase. rewrite firstn_app, skipn_app. replace (length l1 - length l1)%nat with 0%nat by lia.
    replace (S (length l1) - length l1)%nat with 1%nat by lia. rewrite firstn_all2, skipn_all2 by lia. cbn. rewrite app_nil_r. reflexivity.
  Qed.

  Lemma true_index a b : index a = index b -> spot a = spot b -> true_spot a -> true_spot b.
  Proof. intros I0 S0 (A & B). split; congruence. Qed.

  Lemma refreshed_loss l1 a b c l2 : Forall true_spot (l1 ++ a :: b :: c :: l2) -> rising (map index (l1 ++ a :: b :: c :: l2)) ->
    lossr (index a) (index c) (effect (refreshed a b c)).
  Proof.
    intros T R. rewrite map_app in R. apply rising_app in R. destruct R as (_ & R & _). cbn in R. destruct R as (R1 & R2 & _).
    apply Forall_app in T. destruct T as (_ & T). inversion_clear T as [|? ? Ta T']. inversion_clear T' as [|? ? Tb T2].
    inversion_clear T2 as [|? ? Tc _]. destruct Ta as (Sa & Ia), Tb as (Sb & Ib), Tc as (Sc & Ic).
    cbn [refreshed effect]. rewrite Sa, Sb, Sc. apply deviation_loss; [split; assumption|exact Ic].
  Qed.

  Lemma step_inv l1 a e c l2 : inv (l1 ++ a :: e :: c :: l2) ->
    exists a' c', refresh road (length l1) (refresh road (S (length l1)) (l1 ++ a :: c :: l2)) = l1 ++ a' :: c' :: l2 /\
      index a' = index a /\ index c' = index c /\ inv (l1 ++ a' :: c' :: l2).
  Proof.
    intros (T & R & G).
    assert (T0 : Forall true_spot (l1 ++ a :: c :: l2)).
    { apply Forall_app in T. destruct T as (T1 & T2). apply Forall_app. split; auto. inversion_clear T2 as [|? ? Ta T3]. inversion_clear T3 as [|? ? Te T4].
      constructor; assumption. }
    assert (R0 : rising (map index (l1 ++ a :: c :: l2))).
    { rewrite map_app in *. cbn [map] in *. change (index a :: index e :: index c :: map index l2) with ([index a] ++ index e :: (index c :: map index l2)) in R.
      rewrite app_assoc in R. apply rising_drop in R. rewrite <- app_assoc in R. exact R. }
    assert (G0 : good (l1 ++ [a; e]) /\ good (e :: c :: l2)).
    { apply good_app in G. destruct G as (G1 & G2). split; auto. cbn in *. tauto. }
    destruct G0 as (G1 & G2). clear T R G.
    (* the one after the gap *)
    set (c' := match l2 with d :: _ => refreshed a c d | [] => c end).
    assert (E1 : refresh road (S (length l1)) (l1 ++ a :: c :: l2) = l1 ++ a :: c' :: l2).
    { unfold c'. destruct l2 as [|d l3]; [apply refresh_end|apply refresh_at]. }
    assert (C' : index c' = index c /\ spot c' = spot c) by (unfold c'; destruct l2; auto).
    destruct C' as (Ci & Cs).
    assert (GC : good (a :: c' :: l2)).
    { unfold c'. destruct l2 as [|d l3]; [cbn; auto|]. split; [apply (refreshed_loss l1 a c d l3); auto|].
      destruct G2 as (_ & G2). exact G2. }
    assert (T1 : Forall true_spot (l1 ++ a :: c' :: l2)).
    { apply Forall_app in T0. destruct T0 as (T1 & T2). apply Forall_app. split; auto. inversion_clear T2 as [|? ? Ta T3]. inversion_clear T3 as [|? ? Tc T4].
      constructor; auto. constructor; auto. apply (true_index c); auto. }
    assert (R1 : rising (map index (l1 ++ a :: c' :: l2))) by (rewrite map_app in *; cbn [map] in *; rewrite Ci; exact R0).
    rewrite E1. destruct l1 as [|z0 l0 _] using rev_ind.
    - exists a, c'. cbn [length app] in *. rewrite refresh_zero. split; [reflexivity|]. split; [reflexivity|]. split; [exact Ci|]. split; [exact T1|]. split; [exact R1|exact GC].
    - rewrite app_length. cbn [length]. replace (length l0 + 1)%nat with (S (length l0)) by lia. rewrite <- !app_assoc in *. cbn [app] in *.
      rewrite refresh_at. exists (refreshed z0 a c'), c'. rewrite <- app_assoc. cbn [app]. split; [reflexivity|]. split; [reflexivity|]. split; auto.
      split; [|split].
      + apply Forall_app in T1. destruct T1 as (A & B). apply Forall_app. split; auto. inversion_clear B as [|? ? Tz T3]. inversion_clear T3 as [|? ? Ta T4].
        constructor; [exact Tz|]. constructor; [apply (true_index a); auto|exact T4].
      + rewrite map_app in *. exact R1.
      + apply good_app. split.
        * apply (good_last l0 z0 a); [reflexivity|]. change (l0 ++ [z0; a; e]) with (l0 ++ z0 :: a :: [e]) in G1. apply good_app in G1. apply G1.
        * split; [apply (refreshed_loss l0 z0 a c' l2); auto|]. apply (good_first a); auto.
  Qed.

  (** The choice. *)
  Lemma least_none r : forall i best, least r i best = None ->
    best = None /\ forall r1 e r2, r = r1 ++ e :: r2 -> r2 <> [] -> fixed (spot e) = true.
  Proof.
    induction r as [|x r IH]; intros i best H; [cbn in H; split; auto; intros [|u1 u2] e r2 Q; discriminate|].
    destruct r as [|y r].
    - cbn in H. split; auto. intros r1 e r2 Q N. destruct r1 as [|? [|? ?]]; try discriminate. injection Q as <- <-. congruence.
    - cbn [least] in H. apply IH in H. destruct H as (B & F). destruct (fixed (spot x)) eqn:X.
      + split; auto. intros r1 e r2 Q N. destruct r1 as [|x' r1]; injection Q as <- Q; [exact X|]. apply (F r1 e r2 Q N).
      + destruct best as [(b, m)|]; [|discriminate]. destruct (Rlt_dec (effect x) m); discriminate.
  Qed.

  Lemma least_some r : forall i best j m, least r i best = Some (j, m) ->
    (best = Some (j, m) /\ forall r1 e r2, r = r1 ++ e :: r2 -> r2 <> [] -> fixed (spot e) = false -> m <= effect e) \/
    (exists r1 e r2, r = r1 ++ e :: r2 /\ r2 <> [] /\ fixed (spot e) = false /\ j = (i + length r1)%nat /\ m = effect e /\
       (forall b m0, best = Some (b, m0) -> m < m0) /\
       forall s1 e' s2, r = s1 ++ e' :: s2 -> s2 <> [] -> fixed (spot e') = false -> m <= effect e' /\ ((length s1 < length r1)%nat -> m < effect e')).
  Proof.
    induction r as [|x r IH]; intros i best j m H; [cbn in H; left; split; auto; intros [|u1 u2] e r2 Q; discriminate|].
    destruct r as [|y r].
    - cbn in H. left. split; auto. intros r1 e r2 Q N. destruct r1 as [|? [|? ?]]; try discriminate. injection Q as <- <-. congruence.
    - cbn [least] in H. apply IH in H. destruct (fixed (spot x)) eqn:X.
      + destruct H as [(B & F)|(r1 & e & r2 & Q & N & U & J & M & B & F)].
        * left. split; auto. intros r1 e r2 Q N U. destruct r1 as [|x' r1]; injection Q as <- Q; [congruence|]. apply (F r1 e r2 Q N U).
        * right. exists (x :: r1), e, r2. rewrite Q. split; [reflexivity|]. split; [exact N|]. split; [exact U|]. split; [cbn; lia|]. split; [exact M|]. split; [exact B|].
          intros s1 e' s2 H H0 H1. destruct s1 as [|x' s1]; injection H as <- H; [congruence|]. rewrite Q in F.
          destruct (F s1 e' s2 H H0 H1) as (F1 & F2). split; [exact F1|]. cbn [length]. intros Y. apply F2. lia.
      + assert (Y : exists b', (match best with None => Some (i, effect x) | Some (_, m0) => if Rlt_dec (effect x) m0 then Some (i, effect x) else best end) = Some b' /\
                  snd b' <= effect x /\ forall b m0, best = Some (b, m0) -> snd b' <= m0).
        { destruct best as [(b, m0)|].
          - destruct (Rlt_dec (effect x) m0).
            + exists (i, effect x). split; [reflexivity|]. split; [cbn; lra|]. intros b1 m1 [= <- <-]. cbn. lra.
            + exists (b, m0). split; [reflexivity|]. split; [cbn; lra|]. intros b1 m1 [= <- <-]. cbn. lra.
          - exists (i, effect x). split; [reflexivity|]. split; [cbn; lra|]. discriminate. }
        destruct H as [(B & F)|(r1 & e & r2 & Q & N & U & J & M & B & F)].
        * assert (Z : m = effect x /\ j = i -> (forall b m0, best = Some (b, m0) -> m < m0) ->
                   exists r1 e r2, x :: y :: r = r1 ++ e :: r2 /\ r2 <> [] /\ fixed (spot e) = false /\ j = (i + length r1)%nat /\ m = effect e /\
                     (forall b m0, best = Some (b, m0) -> m < m0) /\
                     forall s1 e' s2, x :: y :: r = s1 ++ e' :: s2 -> s2 <> [] -> fixed (spot e') = false -> m <= effect e' /\ ((length s1 < length r1)%nat -> m < effect e')).
          { intros (Z1 & Z2) Z3. exists [], x, (y :: r). split; [reflexivity|]. split; [discriminate|]. split; [exact X|]. split; [cbn; lia|]. split; [exact Z1|]. split; [exact Z3|].
            intros s1 e' s2 H H0 H1. split; [|cbn; lia]. destruct s1 as [|x' s1]; injection H as <- H; [lra|]. apply (F s1 e' s2 H H0 H1). }
          destruct best as [(b, m0)|].
          -- destruct (Rlt_dec (effect x) m0) as [Lx|Lx].
             ++ injection B as <- <-. right. apply Z; auto. intros b' m' [= <- <-]. exact Lx.
             ++ left. split; auto. injection B as <- <-. intros r1 e r2 Q N U. destruct r1 as [|x' r1]; injection Q as <- Q; [lra|]. apply (F r1 e r2 Q N U).
          -- injection B as <- <-. right. apply Z; auto. discriminate.
        * destruct Y as ((b', m') & Y1 & Y2 & Y4). cbn [snd] in *. right. exists (x :: r1), e, r2. rewrite Q.
          specialize (B b' m' Y1). split; [reflexivity|]. split; [exact N|]. split; [exact U|]. split; [cbn; lia|]. split; [exact M|]. split.
          -- intros b m0 E. specialize (Y4 b m0 E). lra.
          -- intros s1 e' s2 H H0 H1. destruct s1 as [|x' s1]; injection H as <- H; [split; lra|]. rewrite Q in F.
             destruct (F s1 e' s2 H H0 H1) as (F1 & F2). split; [exact F1|]. cbn [length]. intros Z. apply F2. lia.
  Qed.

  Lemma map_split {A B} (f : A -> B) l : forall l1 i j k l2, map f l = l1 ++ [i; j; k] ++ l2 ->
    exists m1 a e c m2, l = m1 ++ a :: e :: c :: m2 /\ map f m1 = l1 /\ f a = i /\ f e = j /\ f c = k /\ map f m2 = l2.
  Proof.
    intros l1 i j k l2 E. apply map_eq_app in E. destruct E as (m1 & r & -> & <- & E).
    destruct r as [|a [|e [|c m2]]]; try discriminate. cbn in E. injection E as <- <- <- <-. exists m1, a, e, c, m2. repeat split; reflexivity.
  Qed.

  Lemma good_at m1 a e c m2 : good (m1 ++ a :: e :: c :: m2) -> lossr (index a) (index c) (effect e).
  Proof. intros G. apply good_app in G. destruct G as (_ & G). cbn in G. tauto. Qed.

  Lemma true_at m1 e m2 : Forall true_spot (m1 ++ e :: m2) -> true_spot e.
  Proof. intros F. apply Forall_app in F. destruct F as (_ & F). inversion F; auto. Qed.

  Lemma prune_drops most : forall fuel l, (length l <= fuel)%nat -> inv l ->
    drops (at_ road) stays most (map index l) (map index (prune fuel road most l)) /\ inv (prune fuel road most l).
  Proof.
    induction fuel as [|f IH]; intros l LF V.
    - destruct l; [|cbn in LF; lia]. cbn. split; auto. apply drops_none. intros [|u1 u2] i j k l2 Q; discriminate.
    - cbn [prune]. destruct (Z.ltb_spec most (Z.of_nat (length l))) as [M|M].
      2:{ split; auto. apply drops_few. rewrite map_length. exact M. }
      destruct (least (tl l) 1 None) as [(i, m)|] eqn:Q.
      + apply least_some in Q. destruct Q as [(Q & _)|(r1 & e & r2 & E & N & U & J & Me & _ & F)]; [discriminate|].
        destruct l as [|h t]; [destruct r1; discriminate|]. cbn [tl] in E, F.
        destruct r2 as [|c r2]; [congruence|]. clear N.
        assert (S0 : exists m1 a, h :: t = m1 ++ a :: e :: c :: r2 /\ length m1 = length r1).
        { rewrite E. clear. destruct r1 as [|x r1 _] using rev_ind; [exists [], h; auto|]. exists (h :: r1), x. rewrite app_length. cbn [length].
          split; [|lia]. rewrite <- app_assoc. reflexivity. }
        destruct S0 as (m1 & a & S0 & LM). rewrite S0 in *.
        assert (I0 : i = S (length m1)) by (rewrite LM, J; reflexivity). subst i.
        assert (ER : erase (S (length m1)) (m1 ++ a :: e :: c :: r2) = m1 ++ a :: c :: r2).
        { replace (m1 ++ a :: e :: c :: r2) with ((m1 ++ [a]) ++ e :: c :: r2) by (rewrite <- app_assoc; reflexivity).
          replace (S (length m1)) with (length (m1 ++ [a])) by (rewrite app_length; cbn; lia). rewrite erase_at, <- app_assoc. reflexivity. }
        rewrite I0. rewrite ER. replace (S (length m1) - 1)%nat with (length m1) by lia.
        destruct (step_inv m1 a e c r2 V) as (a' & c' & EQ & Ia & Ic & V'). rewrite EQ.
        assert (LE : (length (m1 ++ a' :: c' :: r2) <= f)%nat) by (rewrite app_length in *; cbn [length] in *; lia).
        destruct (IH _ LE V') as (D & V2). split; auto.
        apply drops_step with (ks' := map index (m1 ++ a' :: c' :: r2)); [rewrite map_length; exact M| |exact D].
        destruct V as (T & R & G). exists (index e), (effect e). split.
        * rewrite !map_app. cbn [map]. rewrite Ia, Ic. change (map index m1 ++ index a :: index c :: map index r2) with (map index m1 ++ [index a; index c] ++ map index r2).
          apply costs_at; auto; [|apply (good_at _ _ _ _ _ G)].
          replace (m1 ++ a :: e :: c :: r2) with ((m1 ++ [a]) ++ e :: c :: r2) in T by (rewrite <- app_assoc; reflexivity).
          apply true_at in T. destruct T as (Se & _). rewrite <- Se. exact U.
        * intros ks2 j2 e2 C. destruct C as [l1 i0 j0 k0 l2 e0 Q2 St Lo]. apply map_split in Q2.
          destruct Q2 as (n1 & a2 & x & c2 & n2 & Q2 & N1 & Ia2 & Ix & Ic2 & N2).
          rewrite Q2 in T, G. pose proof (good_at _ _ _ _ _ G) as Gx. rewrite Ia2, Ic2 in Gx. rewrite (loss_unique _ _ _ _ Lo Gx).
          assert (Ux : fixed (spot x) = false).
          { replace (n1 ++ a2 :: x :: c2 :: n2) with ((n1 ++ [a2]) ++ x :: c2 :: n2) in T by (rewrite <- app_assoc; reflexivity).
            apply true_at in T. destruct T as (Sx & _). rewrite Sx, Ix. exact St. }
          assert (Tt : exists s1, t = s1 ++ x :: c2 :: n2 /\ length s1 = length n1).
          { rewrite <- S0 in Q2. clear - Q2. destruct n1 as [|y n1]; injection Q2 as -> ->; [exists []; auto|]. exists (n1 ++ [a2]).
            rewrite <- app_assoc, app_length. cbn. split; auto. lia. }
          destruct Tt as (s1 & Tt & LS).
          destruct (F s1 x (c2 :: n2) Tt ltac:(discriminate) Ux) as (F1 & F2). rewrite <- Me. split; [exact F1|]. intros LT. apply F2. rewrite LS, <- LM.
          (* earlier in the way *)
          destruct (Nat.lt_ge_cases (length n1) (length m1)) as [|GE]; auto. exfalso.
          rewrite Q2 in R. clear F F1 F2.
          assert (In (index x) (map index (skipn (S (length m1)) (n1 ++ a2 :: x :: c2 :: n2)))).
          { replace (n1 ++ a2 :: x :: c2 :: n2) with ((n1 ++ [a2]) ++ x :: c2 :: n2) by (rewrite <- app_assoc; reflexivity).
            rewrite skipn_app, map_app. apply in_app_iff. right. rewrite app_length. cbn [length]. replace (S (length m1) - (length n1 + 1))%nat with 0%nat by lia. cbn. auto. }
          rewrite <- Q2 in H, R. replace (m1 ++ a :: e :: c :: r2) with ((m1 ++ [a]) ++ e :: c :: r2) in H, R by (rewrite <- app_assoc; reflexivity).
          rewrite skipn_app in H. rewrite skipn_all2 in H by (rewrite app_length; cbn; lia). rewrite app_length in H. cbn [length] in H.
          replace (S (length m1) - (length m1 + 1))%nat with 0%nat in H by lia. cbn [skipn app] in H.
          rewrite map_app in R. apply rising_app in R. destruct R as (_ & R & _). destruct H as [H|H]; [lia|].
          apply (rising_above _ _ R) in H. lia.
      + apply least_none in Q. destruct Q as (_ & F). split; auto. apply drops_none. intros l1 i j k l2 Q2. apply map_split in Q2.
        destruct Q2 as (n1 & a2 & x & c2 & n2 & Q2 & N1 & Ia2 & Ix & Ic2 & N2). destruct V as (T & R & G).
        assert (Tt : exists s1, tl l = s1 ++ x :: c2 :: n2).
        { rewrite Q2. destruct n1 as [|y n1]; [exists []; auto|]. exists (n1 ++ [a2]). rewrite <- app_assoc. reflexivity. }
        destruct Tt as (s1 & Tt). specialize (F s1 x (c2 :: n2) Tt ltac:(discriminate)).
        rewrite Q2 in T. replace (n1 ++ a2 :: x :: c2 :: n2) with ((n1 ++ [a2]) ++ x :: c2 :: n2) in T by (rewrite <- app_assoc; reflexivity).
        apply true_at in T. destruct T as (Sx & _). rewrite Sx, Ix in F. exact F.
  Qed.

  Lemma entries_index : map index (entries road) = seq 0 (length road).
  Proof. unfold entries. rewrite map_map. cbn. apply map_id. Qed.

  Lemma entries_inv : inv (entries road).
  Proof.
    split; [|split].
    - unfold entries. apply Forall_map, Forall_forall. intros k K. apply in_seq in K. split; cbn; [reflexivity|lia].
    - rewrite entries_index. destruct (length road) eqn:E; [exact I|]. apply (seq_spans (S n)). lia.
    - unfold entries. assert (G : forall m k, (k + m = length road)%nat -> good (map (entry_of road) (seq k m))).
      { induction m as [|m IH]; intros k K; [exact I|]. destruct m as [|m]; [exact I|]. cbn [seq map]. specialize (IH (S k) ltac:(lia)).
        change (good (entry_of road k :: map (entry_of road) (seq (S k) (S m)))). split; [|exact IH].
        destruct m as [|m]; [exact I|]. cbn [seq map]. cbn [entry_of effect index].
        destruct (Nat.ltb_spec 0 (S k)); [|lia]. destruct (Nat.ltb_spec (S (S k)) (length road)); [|lia]. cbn [andb].
        replace (S k - 1)%nat with k by lia. split.
        - exists (S k). split; [lia|]. apply sep_off.
        - intros j d J O. assert (j = S k) by lia. subst j. right. apply (off_unique _ _ _ _ _ O (sep_off _ _ _)). }
      apply G. lia.
  Qed.

  Lemma quick_pos most : (2 <= length road)%nat -> exists ks,
    drops (at_ road) stays most (seq 0 (length road)) ks /\ plan_quickly road most = map (fun k => L k) ks.
  Proof.
    intros N. exists (map index (prune (length road) road most (entries road))).
    destruct (prune_drops most (length road) (entries road)) as (D & (T & _)); [unfold entries; rewrite map_length, seq_length; lia|apply entries_inv|].
    rewrite entries_index in D. split; auto. unfold plan_quickly. destruct (Nat.ltb_spec (length road) 2); [lia|].
    rewrite map_map. apply map_ext_in. intros e E. rewrite Forall_forall in T. apply T, E.
  Qed.
End Quick.

(** Supporting lemmas: the ways of meeting that a rendezvous goes through. *)
From Coq Require Import List ZArith Bool Lia Permutation Sorted Arith.
From Verif Require Import Base RendezvousModel NextPerm.
Import ListNotations.
Open Scope list_scope.

Definition ltm (a b : bool) : bool := a && negb b.
Lemma ltm_irrefl x : ltm x x = false. Proof. destruct x; reflexivity. Qed.
Lemma ltm_trans x y z : ltm x y = true -> ltm y z = true -> ltm x z = true.
Proof. destruct x, y, z; cbn; congruence. Qed.
Lemma ltm_total x y : ltm x y = true \/ x = y \/ ltm y x = true.
Proof. destruct x, y; cbn; auto. Qed.
Lemma ltb_irrefl x : Nat.ltb x x = false. Proof. apply Nat.ltb_irrefl. Qed.
Lemma ltb_trans x y z : Nat.ltb x y = true -> Nat.ltb y z = true -> Nat.ltb x z = true.
Proof. rewrite !Nat.ltb_lt. lia. Qed.
Lemma ltb_total x y : Nat.ltb x y = true \/ x = y \/ Nat.ltb y x = true.
Proof. rewrite !Nat.ltb_lt. lia. Qed.

Lemma masks_from : forall n m, masks n m = from ltm n m.
Proof. reflexivity. Qed.

Section Mask.
  Context (mask : list bool) (first : StronglySorted (fun x y => ge ltm y x) mask).

  Lemma masks_spec n : (1 <= n)%nat ->
    (forall m, In m (masks n mask) -> Permutation mask m) /\ NoDup (masks n mask)
    /\ (1 <= length (masks n mask) <= n)%nat
    /\ (length (masks n mask) = n \/ forall m, Permutation mask m -> In m (masks n mask)).
  Proof.
    intros N. rewrite masks_from. destruct (from_spec ltm ltm_irrefl ltm_trans ltm_total n mask N) as (A & B & C & D).
    split; [intros m M; apply A, M|]. split; [exact B|]. split; [split; [destruct n; cbn; lia|exact C]|]. destruct D as [D|D]; [left; exact D|right].
    intros m M. apply D; [exact M|]. destruct (sorted_first ltm ltm_irrefl ltm_total mask first m M); auto.
  Qed.

  Lemma turns_spec : forall fuel n order, (1 <= n <= fuel)%nat ->
    (forall m o, In (m, o) (turns fuel n mask order) -> Permutation mask m /\ Permutation order o /\ (o = order \/ lex Nat.ltb order o))
    /\ NoDup (turns fuel n mask order) /\ (length (turns fuel n mask order) <= n)%nat
    /\ (length (turns fuel n mask order) = n
        \/ forall m o, Permutation mask m -> Permutation order o -> order = o \/ lex Nat.ltb order o -> In (m, o) (turns fuel n mask order)).
  Proof.
    induction fuel as [|fuel IH]; intros n order N; [lia|].
    destruct (masks_spec n ltac:(lia)) as (A & B & C & D). cbn [turns].
    set (ms := masks n mask) in *. set (here := map (fun m => (m, order)) ms).
    assert (H1 : forall m o, In (m, o) here -> In m ms /\ o = order).
    { intros m o H. apply in_map_iff in H. destruct H as (m' & E & H). injection E as <- <-. auto. }
    assert (H2 : NoDup here) by (apply FinFun.Injective_map_NoDup; [intros a b E; congruence|exact B]).
    assert (H3 : length here = length ms) by apply map_length.
    destruct (Nat.leb_spec n (length ms)) as [L|L].
    - rewrite app_nil_r. split; [|split; [exact H2|split; [lia|left; lia]]].
      intros m o H. apply H1 in H. destruct H as (H & ->). split; [apply A, H|]. split; [reflexivity|left; reflexivity].
    - destruct D as [D|D]; [lia|]. unfold next_order. destruct (next_by Nat.ltb order) as [order'|] eqn:E.
      + destruct (next_some _ _ _ E) as (P & X). destruct (IH (n - length ms)%nat order' ltac:(lia)) as (I1 & I2 & I3 & I4).
        assert (G : forall m o, In (m, o) (turns fuel (n - length ms) mask order') -> Permutation mask m /\ Permutation order o /\ lex Nat.ltb order o).
        { intros m o H. apply I1 in H. destruct H as (G1 & G2 & G3). split; [exact G1|]. split; [eapply Permutation_trans; eassumption|].
          destruct G3 as [->|G3]; [exact X|]. eapply lex_trans; [exact ltb_trans|exact X|exact G3]. }
        split; [|split; [|split]].
        * intros m o H. apply in_app_iff in H. destruct H as [H|H].
          -- apply H1 in H. destruct H as (H & ->). split; [apply A, H|]. split; [reflexivity|left; reflexivity].
          -- apply G in H. destruct H as (G1 & G2 & G3). auto.
        * clear - H1 H2 I2 G. revert H1 H2. generalize here. intros h H1 H2. induction H2 as [|[m o] h Q H2 IHh]; [exact I2|]. cbn. constructor.
          -- rewrite in_app_iff. intros [I|I]; [contradiction|]. apply G in I. destruct (H1 m o (or_introl eq_refl)) as (_ & ->).
             exact (lex_irrefl _ ltb_irrefl _ (proj2 (proj2 I))).
          -- apply IHh. intros. apply H1. right. assumption.
        * rewrite app_length. lia.
        * destruct I4 as [I4|I4]; [left; rewrite app_length; lia|right]. intros m o M O [<-|Q]; apply in_or_app.
          -- left. apply in_map_iff. exists m. split; [reflexivity|apply D, M].
          -- right. destruct (next_least Nat.ltb ltb_irrefl ltb_trans ltb_total order o O Q) as (o2 & E2 & Y). rewrite E in E2. injection E2 as <-.
             apply I4; [exact M|eapply Permutation_trans; [apply Permutation_sym, P|exact O]|]. destruct Y as [->|Y]; auto.
      + rewrite app_nil_r. split; [|split; [exact H2|split; [lia|]]].
        * intros m o H. apply H1 in H. destruct H as (H & ->). split; [apply A, H|]. split; [reflexivity|left; reflexivity].
        * right. intros m o M O [<-|Q]; [apply in_map_iff; exists m; split; [reflexivity|apply D, M]|]. exfalso.
          exact (sorted_last Nat.ltb ltb_irrefl order (next_none _ _ E) o O Q).
  Qed.
End Mask.

Lemma first_mask_eq n k : (k <= n)%nat -> first_mask n k = repeat true k ++ repeat false (n - k).
Proof.
  intros L. unfold first_mask. rewrite firstn_app, repeat_length, firstn_all2 by (rewrite repeat_length; lia). f_equal.
  replace n with ((n - k) + k)%nat at 2 by lia. rewrite repeat_app, firstn_app, repeat_length, Nat.sub_diag, firstn_O, app_nil_r, firstn_all2; [reflexivity|].
  rewrite repeat_length. lia.
Qed.
Lemma mask_sorted k j : StronglySorted (fun x y => ge ltm y x) (repeat true k ++ repeat false j).
Proof.
  apply sorted_app.
  - induction k; cbn; constructor; [assumption|]. apply Forall_forall. intros x X. apply repeat_spec in X. subst. reflexivity.
  - induction j; cbn; constructor; [assumption|]. apply Forall_forall. intros x X. apply repeat_spec in X. subst. reflexivity.
  - intros x y X Y. apply repeat_spec in X, Y. subst. reflexivity.
Qed.
Lemma seq_sorted : forall k a, StronglySorted (fun x y => ge Nat.ltb y x) (seq a k).
Proof.
  induction k as [|k IH]; intros a; cbn; constructor; [apply IH|]. apply Forall_forall. intros x X. apply in_seq in X. apply Nat.ltb_ge. lia.
Qed.

Lemma all_turns_spec n k : (k <= n)%nat ->
  let T := all_turns n k in
  (forall m o, In (m, o) T -> Permutation (repeat true k ++ repeat false (n - k)) m /\ Permutation (seq 0 k) o)
  /\ NoDup T /\ (length T <= limit)%nat
  /\ (length T = limit \/ forall m o, Permutation (repeat true k ++ repeat false (n - k)) m -> Permutation (seq 0 k) o -> In (m, o) T).
Proof.
  intros L. cbv zeta. unfold all_turns. rewrite (first_mask_eq n k L).
  destruct (turns_spec _ (mask_sorted k (n - k)) limit limit (seq 0 k) ltac:(unfold limit; lia)) as (A & B & C & D).
  split; [intros m o H; apply A in H; tauto|]. split; [exact B|]. split; [exact C|]. destruct D as [D|D]; [left; exact D|right].
  intros m o M O. apply D; [exact M|exact O|]. destruct (sorted_first Nat.ltb ltb_irrefl ltb_total _ (seq_sorted k 0) o O); auto.
Qed.

(** *** What a turn stands for *)

Section Select.
  Context {A : Type}.
  Fixpoint select (vs : list A) (mask : list bool) : list A :=
    match vs, mask with
    | v :: vs, true :: mask => v :: select vs mask
    | _ :: vs, false :: mask => select vs mask
    | _, _ => []
    end.
  Lemma select_in : forall vs mask v, In v (select vs mask) -> In v vs.
  Proof.
    induction vs as [|u vs IH]; intros [|[] m] v H; cbn in H; try destruct H; subst; [left; reflexivity|right; eauto|right; eauto].
  Qed.
  Lemma select_nodup : forall vs mask, NoDup vs -> NoDup (select vs mask).
  Proof.
    induction vs as [|u vs IH]; intros mask N; [constructor|]. inversion N; subst. destruct mask as [|[] m]; cbn; [constructor| |auto].
    constructor; [|auto]. intros I. apply select_in in I. contradiction.
  Qed.
  Lemma select_inj : forall vs m m', NoDup vs -> length m = length vs -> length m' = length vs ->
    (forall v, In v (select vs m) <-> In v (select vs m')) -> m = m'.
  Proof.
    induction vs as [|u vs IH]; intros [|b m] [|b' m'] N L L' H; try discriminate; [reflexivity|]. inversion N as [|? ? U N']; subst.
    cbn in L, L'. injection L as L. injection L' as L'.
    assert (NU : forall m, ~ In u (select vs m)) by (intros mm I; apply select_in in I; contradiction).
    destruct b, b'; cbn in H.
    - f_equal. apply IH; try assumption. intros v. split; intros I.
      + destruct (proj1 (H v) (or_intror I)) as [<-|J]; [exfalso; eapply NU, I|exact J].
      + destruct (proj2 (H v) (or_intror I)) as [<-|J]; [exfalso; eapply NU, I|exact J].
    - exfalso. apply (NU m'). apply (H u). left. reflexivity.
    - exfalso. apply (NU m). apply (H u). left. reflexivity.
    - f_equal. apply IH; assumption.
  Qed.
  Lemma select_filter (p : A -> bool) : forall vs, select vs (map p vs) = filter p vs.
  Proof. induction vs as [|v vs IH]; [reflexivity|]. cbn. destruct (p v); cbn; rewrite IH; reflexivity. Qed.
  Lemma select_length : forall vs mask, length mask = length vs -> length (select vs mask) = count_occ bool_dec mask true.
  Proof.
    induction vs as [|v vs IH]; intros [|[] m] L; try discriminate; [reflexivity| |]; cbn in L; injection L as L; cbn; rewrite IH by exact L; reflexivity.
  Qed.
End Select.

Lemma mask_perm (m : list bool) k : (k <= length m)%nat -> count_occ bool_dec m true = k -> Permutation (repeat true k ++ repeat false (length m - k)) m.
Proof.
  revert k. induction m as [|[] m IH]; intros k L C; cbn [count_occ length] in *.
  - subst k. constructor.
  - destruct (bool_dec true true) as [_|]; [|congruence]. subst k. cbn [repeat app Nat.sub]. constructor. apply IH; [cbn in L; lia|reflexivity].
  - destruct (bool_dec false true) as [|_]; [congruence|]. assert (k <= length m)%nat by (rewrite <- C; apply count_occ_bound).
    replace (S (length m) - k)%nat with (S (length m - k)) by lia. cbn [repeat]. apply Permutation_sym, Permutation_cons_app, Permutation_sym. apply IH; [assumption|exact C].
Qed.

Lemma perm_mask k j m : Permutation (repeat true k ++ repeat false j) m -> length m = (k + j)%nat /\ count_occ bool_dec m true = k.
Proof.
  intros P. split; [apply Permutation_length in P; rewrite app_length, !repeat_length in P; lia|].
  rewrite <- (proj1 (Permutation_count_occ bool_dec _ _) P true), count_occ_app.
  assert (E : forall n, count_occ bool_dec (repeat true n) true = n) by (induction n as [|n IHn]; [reflexivity|]; cbn [repeat count_occ]; destruct (bool_dec true true); [rewrite IHn; reflexivity|congruence]).
  assert (F : forall n, count_occ bool_dec (repeat false n) true = 0%nat) by (induction n as [|n IHn]; [reflexivity|]; cbn [repeat count_occ]; destruct (bool_dec false true); [congruence|exact IHn]).
  rewrite E, F. lia.
Qed.

(** The vehicles of a turn with the numbers of their places. *)
Definition way (vs : list Z) (t : list bool * list nat) : list (Z * nat) := combine (select vs (fst t)) (snd t).

Lemma combine_fst {A B} : forall (a : list A) (b : list B), length a = length b -> map fst (combine a b) = a.
Proof. induction a as [|x a IH]; intros [|y b] H; try discriminate; [reflexivity|]. cbn. rewrite IH by (cbn in H; lia). reflexivity. Qed.
Lemma combine_snd {A B} : forall (a : list A) (b : list B), length a = length b -> map snd (combine a b) = b.
Proof. induction a as [|x a IH]; intros [|y b] H; try discriminate; [reflexivity|]. cbn. rewrite IH by (cbn in H; lia). reflexivity. Qed.

Lemma pairs_fun : forall (w w' : list (Z * nat)), map fst w = map fst w' -> NoDup (map fst w) -> (forall p, In p w -> In p w') -> w = w'.
Proof.
  intros w w' E N H. assert (G : forall p q, In p w' -> In q w' -> fst p = fst q -> p = q).
  { rewrite E in N. clear - N. induction w' as [|x w' IH]; intros p q P Q F; [destruct P|]. cbn in N. inversion N as [|? ? X N']; subst.
    destruct P as [->|P]; destruct Q as [->|Q]; [reflexivity| | |auto].
    - exfalso. apply X. rewrite F. apply in_map, Q.
    - exfalso. apply X. rewrite <- F. apply in_map, P. }
  clear N. assert (K : forall a b, (forall p, In p a -> In p w') -> (forall p, In p b -> In p w') -> map fst a = map fst b -> a = b).
  { induction a as [|p a IH]; intros [|q b] A B M; try discriminate; [reflexivity|]. cbn in M. injection M as M1 M2. f_equal.
    - apply G; [apply A; left; reflexivity|apply B; left; reflexivity|exact M1].
    - apply IH; [intros x X; apply A; right; exact X|intros x X; apply B; right; exact X|exact M2]. }
  apply K; auto.
Qed.

Section Ways.
  Context (vs : list Z) (N : NoDup vs) (k : nat) (K : (k <= length vs)%nat).
  Definition turn (t : list bool * list nat) : Prop :=
    Permutation (repeat true k ++ repeat false (length vs - k)) (fst t) /\ Permutation (seq 0 k) (snd t).

  Lemma turn_lengths t : turn t -> length (fst t) = length vs /\ length (select vs (fst t)) = k /\ length (snd t) = k.
  Proof.
    intros (M & O). apply perm_mask in M. destruct M as (M1 & M2). apply Permutation_length in O. rewrite seq_length in O.
    assert (L : length (fst t) = length vs) by lia. split; [exact L|]. split; [rewrite select_length by exact L; exact M2|congruence].
  Qed.
  Lemma way_fst t : turn t -> map fst (way vs t) = select vs (fst t).
  Proof. intros T. apply turn_lengths in T. apply combine_fst. lia. Qed.
  Lemma way_snd t : turn t -> map snd (way vs t) = snd t.
  Proof. intros T. apply turn_lengths in T. apply combine_snd. lia. Qed.

  Lemma way_inj t t' : turn t -> turn t' -> Permutation (way vs t) (way vs t') -> t = t'.
  Proof.
    intros T T' P.
    assert (E : fst t = fst t').
    { apply (select_inj vs); [exact N|apply turn_lengths, T|apply turn_lengths, T'|]. rewrite <- (way_fst t T), <- (way_fst t' T').
      intros v. split; apply Permutation_in; [apply Permutation_map; exact P|apply Permutation_map, Permutation_sym; exact P]. }
    assert (W : way vs t = way vs t').
    { apply pairs_fun; [rewrite (way_fst t T), (way_fst t' T'), E; reflexivity|rewrite (way_fst t T); apply select_nodup, N|].
      intros p. apply Permutation_in. exact P. }
    destruct t as [m o], t' as [m' o']. cbn in E. subst m'. f_equal. pose proof (f_equal (map snd) W) as S. rewrite (way_snd _ T), (way_snd _ T') in S. exact S.
  Qed.

  Lemma way_exists w : NoDup (map fst w) -> Permutation (map snd w) (seq 0 k) -> (forall v, In v (map fst w) -> In v vs) ->
    exists t, turn t /\ Permutation w (way vs t).
  Proof.
    intros NW PW IW. set (p := fun v => if in_dec Z.eq_dec v (map fst w) then true else false).
    assert (PI : forall v, p v = true <-> In v (map fst w)) by (intros v; unfold p; destruct (in_dec Z.eq_dec v (map fst w)); split; congruence).
    assert (SP : Permutation (map fst w) (filter p vs)).
    { apply NoDup_Permutation; [exact NW|apply NoDup_filter, N|]. intros v. rewrite filter_In, PI. split; [intros I; split; [apply IW|]; exact I|tauto]. }
    assert (EW : exists w', Permutation w w' /\ map fst w' = filter p vs).
    { revert SP. generalize (filter p vs). intros f SP. apply Permutation_sym in SP. apply Permutation_map_inv in SP. destruct SP as (w' & E & P).
      exists w'. split; [exact P|symmetry; exact E]. }
    destruct EW as (w' & P & E). exists (map p vs, map snd w').
    assert (LW : length w' = k).
    { apply Permutation_length in P, PW. rewrite map_length, seq_length in PW. lia. }
    assert (T : turn (map p vs, map snd w')).
    { split; cbn [fst snd].
      - rewrite <- (map_length p vs) at 1. apply mask_perm; [rewrite map_length; exact K|]. rewrite <- (select_length vs) by apply map_length.
        rewrite select_filter, <- E, map_length. exact LW.
      - apply Permutation_trans with (map snd w); [apply Permutation_sym, PW|apply Permutation_map, P]. }
    split; [exact T|]. replace (way vs (map p vs, map snd w')) with w'; [exact P|].
    unfold way. cbn [fst snd]. rewrite select_filter, <- E. clear. induction w' as [|[v j] w IH]; [reflexivity|]. cbn. rewrite <- IH. reflexivity.
  Qed.
End Ways.

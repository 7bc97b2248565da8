(** Lemmas about the serial buffer. *)
From Coq Require Import String Ascii List Arith NArith ZArith Lia Bool.
From Verif Require Import Base Decimal10 MsgSpec MsgProofs SerialModel SerialSpec.
Import ListNotations.
Open Scope list_scope.

(** [p] occurs in [s] at index [i]. *)
Definition at_pos (p : str) (i : nat) (s : str) : Prop :=
  exists pre post, s = pre ++ p ++ post /\ length pre = i.

Lemma at_pos_prefix p i s : at_pos p i s <-> i <= length s /\ is_prefix p (skipn i s) = true.
Proof.
  split.
  - intros (pre & post & -> & <-). split; [rewrite app_length; lia|].
    rewrite skipn_app_exact. apply is_prefix_spec. eauto.
  - intros (L & P). apply is_prefix_spec in P. destruct P as (r & P).
    exists (firstn i s), r. split.
    + rewrite <- P. symmetry. apply firstn_skipn.
    + rewrite firstn_length. lia.
Qed.

Lemma at_pos_nth p i s k x :
  at_pos p i s -> i <= k < i + length p -> nth_error s k = Some x -> In x p.
Proof.
  intros (pre & post & -> & <-) L N.
  rewrite nth_error_app2 in N by lia. rewrite nth_error_app1 in N by lia.
  eapply nth_error_In; eauto.
Qed.

Lemma at_pos_len p i s : at_pos p i s -> i + length p <= length s.
Proof. intros (pre & post & -> & <-). rewrite !app_length. lia. Qed.

Lemma rfind_some p pos s i :
  p <> [] -> rfind p pos s = Some i ->
  at_pos p i s /\ i <= pos /\ forall j, i < j <= pos -> ~ at_pos p j s.
Proof.
  intros NE. revert i. induction pos as [|k IH]; intros i; cbn [rfind].
  - destruct (is_prefix p (skipn 0 s)) eqn:P; [|discriminate]. intros [= <-].
    repeat split; auto.
    + apply at_pos_prefix. split; auto. lia.
    + intros; lia.
  - destruct (is_prefix p (skipn (S k) s)) eqn:P.
    + intros [= <-]. repeat split; auto.
      * apply at_pos_prefix. split; auto.
        destruct (Nat.le_gt_cases (S k) (length s)); auto.
        rewrite skipn_all2 in P by lia. destruct p; [congruence|discriminate].
      * intros; lia.
    + intros E. destruct (IH _ E) as (A & L & N). repeat split; auto.
      intros j L'. destruct (Nat.eq_dec j (S k)) as [->|D].
      * intros A'. apply at_pos_prefix in A'. destruct A'. congruence.
      * apply N. lia.
Qed.

Lemma rfind_find p pos s i :
  p <> [] -> at_pos p i s -> i <= pos -> (forall j, i < j <= pos -> ~ at_pos p j s) ->
  rfind p pos s = Some i.
Proof.
  intros NE A. induction pos as [|k IH]; intros L N; cbn [rfind].
  - assert (i = 0) as -> by lia. apply at_pos_prefix in A. destruct A as (_ & ->). auto.
  - destruct (Nat.eq_dec i (S k)) as [->|D].
    + apply at_pos_prefix in A. destruct A as (_ & ->). auto.
    + destruct (is_prefix p (skipn (S k) s)) eqn:P.
      * exfalso. destruct (Nat.le_gt_cases (S k) (length s)) as [L'|L'].
        -- apply (N (S k)); [lia|]. apply at_pos_prefix. auto.
        -- rewrite skipn_all2 in P by lia. destruct p; [congruence|discriminate].
      * apply IH; [lia|]. intros j J. apply N. lia.
Qed.

(** Two occurrences of texts without a common character do not overlap. *)
Definition disjoint (p q : str) : Prop := forall x, In x p -> In x q -> False.

Lemma no_overlap p q i j s :
  q <> [] -> disjoint p q -> at_pos p i s -> at_pos q j s -> i <= j -> i + length p <= j.
Proof.
  intros NE D A B L. destruct (Nat.le_gt_cases (i + length p) j) as [|G]; auto. exfalso.
  destruct q as [|x q]; [congruence|].
  assert (N : nth_error s j = Some x).
  { destruct B as (pre & post & -> & <-). rewrite nth_error_app2 by lia.
    now rewrite Nat.sub_diag. }
  apply (D x); [|left; auto]. eapply at_pos_nth; [exact A| |exact N]. lia.
Qed.

(** An occurrence inside [a ++ x :: b] with [x] not in the pattern is on one side. *)
Lemma at_pos_sides p i a x b :
  p <> [] -> ~ In x p -> at_pos p i (a ++ x :: b) ->
  (i + length p <= length a /\ at_pos p i a) \/ (length a < i /\ at_pos p (i - S (length a)) b).
Proof.
  intros NE N A.
  assert (X : nth_error (a ++ x :: b) (length a) = Some x)
    by (rewrite nth_error_app2, Nat.sub_diag by lia; auto).
  destruct (Nat.le_gt_cases (i + length p) (length a)) as [L|L].
  - left. split; auto. destruct A as (pre & post & E & <-).
    exists pre. assert (H : pre ++ p = firstn (length pre + length p) a).
    { apply (f_equal (firstn (length pre + length p))) in E.
      rewrite firstn_app in E. replace (length pre + length p - length a) with 0 in E by lia.
      simpl in E. rewrite app_nil_r in E. rewrite E.
      rewrite app_assoc, <- app_length. symmetry. apply firstn_app_exact. }
    exists (skipn (length pre + length p) a). split; auto.
    rewrite app_assoc, H. symmetry. apply firstn_skipn.
  - destruct (Nat.le_gt_cases i (length a)) as [L2|L2].
    + exfalso. apply N. eapply at_pos_nth; [exact A| |exact X]. lia.
    + right. split; auto. destruct A as (pre & post & E & <-).
      exists (skipn (S (length a)) pre), post. split.
      * apply (f_equal (skipn (S (length a)))) in E.
        rewrite skipn_app in E. rewrite skipn_all2 in E by lia.
        replace (S (length a) - length a) with 1 in E by lia. simpl in E.
        rewrite E. change (match pre ++ p ++ post with [] => [] | _ :: l => skipn (length a) l end)
          with (skipn (S (length a)) (pre ++ p ++ post)).
        rewrite skipn_app. replace (S (length a) - length pre) with 0 by lia. reflexivity.
      * rewrite skipn_length. lia.
Qed.

Lemma at_pos_occurs p i s : at_pos p i s -> occurs p s.
Proof. intros (pre & post & -> & _). exists pre, post. auto. Qed.

Lemma not_at_pos_chars p i s : p <> [] -> (forall x, In x s -> ~ In x p) -> ~ at_pos p i s.
Proof.
  intros NE D (pre & post & -> & _). destruct p as [|x p]; [congruence|].
  apply (D x); [|left; auto]. apply in_or_app. right. left. auto.
Qed.

Lemma at_pos_skip p j a b : at_pos p j (a ++ b) -> length a <= j -> at_pos p (j - length a) b.
Proof.
  intros (pre & post & E & <-) L.
  exists (skipn (length a) pre), post. split.
  - apply (f_equal (skipn (length a))) in E. rewrite skipn_app_exact in E. rewrite E.
    rewrite skipn_app. replace (length a - length pre) with 0 by lia. reflexivity.
  - rewrite skipn_length. lia.
Qed.

Lemma at_pos_shift p j a b : at_pos p j b -> at_pos p (length a + j) (a ++ b).
Proof.
  intros (pre & post & -> & <-). exists (a ++ pre), post.
  rewrite app_length, !app_assoc. auto.
Qed.

Lemma decompose4 (p q r t s : str) i j k l :
  at_pos p i s -> at_pos q j s -> at_pos r k s -> at_pos t l s ->
  i + length p <= j -> j + length q <= k -> k + length r <= l ->
  exists a b c d e, s = a ++ p ++ b ++ q ++ c ++ r ++ d ++ t ++ e /\
    length a = i /\ length a + length p + length b = j /\
    length a + length p + length b + length q + length c = k /\
    length a + length p + length b + length q + length c + length r + length d = l.
Proof.
  intros (a & s1 & E1 & L1) B C D H1 H2 H3.
  rewrite E1 in B, C, D. rewrite app_assoc in B, C, D.
  apply at_pos_skip in B; [|rewrite app_length; lia].
  apply at_pos_skip in C; [|rewrite app_length; lia].
  apply at_pos_skip in D; [|rewrite app_length; lia].
  rewrite app_length in B, C, D.
  destruct B as (b & s2 & E2 & L2). subst s1.
  rewrite app_assoc in C, D.
  apply at_pos_skip in C; [|rewrite app_length; lia].
  apply at_pos_skip in D; [|rewrite app_length; lia].
  rewrite app_length in C, D.
  destruct C as (c & s3 & E3 & L3). subst s2.
  rewrite app_assoc in D.
  apply at_pos_skip in D; [|rewrite app_length; lia].
  rewrite app_length in D.
  destruct D as (d & e & E4 & L4). subst s3.
  exists a, b, c, d, e. split; auto. lia.
Qed.

(** What happens once the four pieces are located. *)
Definition judge (b : sbuf) (disr : nat) (post sz pl chk : str) : sbuf * sres :=
  let invalid := (mkSbuf post (sb_valid b) (S (sb_invalid b)) disr, Returned []) in
  let thrown := (mkSbuf post (sb_valid b) (sb_invalid b) disr, Thrown) in
  if forallb is_digit sz && forallb is_digit chk then
    match stoi sz with
    | None => thrown
    | Some n =>
        if (to_int (N.of_nat (length pl)) =? Z.of_N n)%Z then
          match stoi chk with
          | None => thrown
          | Some ck =>
              if (to_int (checksum pl) =? Z.of_N ck)%Z
              then (mkSbuf post (S (sb_valid b)) (sb_invalid b) disr, Returned pl)
              else invalid
          end
        else invalid
    end
  else invalid.

Lemma getNext_eval b ch pre sz pl chk post :
  sb_data b ++ ch =
    pre ++ beforeSize ++ sz ++ afterSize ++ pl ++ beforeChk ++ chk ++ afterChk ++ post ->
  find_sub afterChk (sb_data b ++ ch)
    = Some (length pre + 8 + length sz + 8 + length pl + 8 + length chk) ->
  rfind beforeChk (length pre + 8 + length sz + 8 + length pl + 8 + length chk) (sb_data b ++ ch)
    = Some (length pre + 8 + length sz + 8 + length pl) ->
  rfind afterSize (length pre + 8 + length sz + 8 + length pl) (sb_data b ++ ch)
    = Some (length pre + 8 + length sz) ->
  rfind beforeSize (length pre + 8 + length sz) (sb_data b ++ ch) = Some (length pre) ->
  getNextPayload b ch
  = judge b (if 0 <? length pre then S (sb_disregarded b) else sb_disregarded b) post sz pl chk.
Proof.
  intros E F R1 R2 R3. unfold getNextPayload. cbv zeta. rewrite F, R1, R2, R3. rewrite E.
  change (length afterChk) with 8. change (length beforeSize) with 8.
  change (length afterSize) with 8. change (length beforeChk) with 8.
  set (w := beforeSize ++ sz ++ afterSize ++ pl ++ beforeChk ++ chk ++ afterChk).
  assert (LW : length w = 8 + length sz + 8 + length pl + 8 + length chk + 8).
  { unfold w. rewrite !app_length. change (length afterChk) with 8.
    change (length beforeSize) with 8.
    change (length afterSize) with 8. change (length beforeChk) with 8. lia. }
  replace (pre ++ beforeSize ++ sz ++ afterSize ++ pl ++ beforeChk ++ chk ++ afterChk ++ post)
    with (pre ++ w ++ post) by (unfold w; rewrite <- !app_assoc; reflexivity).
  replace (length pre + 8 + length sz + 8 + length pl + 8 + length chk + 8 - length pre)
    with (length w) by lia.
  rewrite substr_mid.
  rewrite firstn_app_exact.
  replace (length pre + length w) with (length (pre ++ w)) by (rewrite app_length; auto).
  rewrite (app_assoc pre w post), skipn_app_exact, skipn_app_exact.
  replace (length pre + 8 + length sz - length pre - 8) with (length sz) by lia.
  replace (length pre + 8 + length sz + 8 + length pl - length pre + 8)
    with (length (beforeSize ++ sz ++ afterSize ++ pl ++ beforeChk))
    by (rewrite !app_length; change (length beforeSize) with 8;
        change (length afterSize) with 8; change (length beforeChk) with 8; lia).
  replace (length pre + 8 + length sz + 8 + length pl + 8 + length chk - length pre
           - (length pre + 8 + length sz + 8 + length pl - length pre) - 8)
    with (length chk) by lia.
  replace (length pre + 8 + length sz - length pre + 8)
    with (length (beforeSize ++ sz ++ afterSize))
    by (rewrite !app_length; change (length beforeSize) with 8;
        change (length afterSize) with 8; lia).
  replace (length pre + 8 + length sz + 8 + length pl - length pre
           - (length pre + 8 + length sz - length pre) - 8) with (length pl) by lia.
  replace (substr 8 (length sz) w) with sz
    by (symmetry; change 8 with (length beforeSize); unfold w; apply substr_mid).
  replace (substr (length (beforeSize ++ sz ++ afterSize ++ pl ++ beforeChk)) (length chk) w)
    with chk.
  2:{ symmetry. replace w with ((beforeSize ++ sz ++ afterSize ++ pl ++ beforeChk) ++ chk ++ afterChk)
        by (unfold w; rewrite <- !app_assoc; reflexivity). apply substr_mid. }
  replace (substr (length (beforeSize ++ sz ++ afterSize)) (length pl) w) with pl.
  2:{ symmetry. replace w with ((beforeSize ++ sz ++ afterSize) ++ pl ++ beforeChk ++ chk ++ afterChk)
        by (unfold w; rewrite <- !app_assoc; reflexivity). apply substr_mid. }
  reflexivity.
Qed.

Lemma app_inj_len {A} (a b c d : list A) :
  a ++ b = c ++ d -> length a = length c -> a = c /\ b = d.
Proof.
  revert c. induction a as [|x a IH]; intros [|y c] E L; try discriminate; auto.
  injection E as -> E. injection L as L. destruct (IH _ E L) as (-> & ->). auto.
Qed.

(** ** Characters *)

Lemma digit_cases c :
  is_digit c = true ->
  In c (lit "0123456789") /\ ~ In c (beforeSize ++ afterSize ++ beforeChk ++ afterChk).
Proof.
  destruct c as [[] [] [] [] [] [] [] []]; intros H; try discriminate H;
    (split; [cbn; intuition (auto; fail)|intros I; cbn in I; intuition discriminate]).
Qed.

Lemma digits_spec s : forallb is_digit s = true -> all_digits s.
Proof.
  intros H. apply Forall_forall. intros c I. rewrite forallb_forall in H.
  apply digit_cases, H, I.
Qed.

Lemma spec_digits s : all_digits s -> forallb is_digit s = true.
Proof.
  intros H. apply forallb_forall. intros c I. unfold all_digits in H.
  rewrite Forall_forall in H. specialize (H c I).
  cbn in H. repeat (destruct H as [<-|H]; [reflexivity|]). destruct H.
Qed.

Lemma digits_clean s p :
  forallb is_digit s = true -> incl p (beforeSize ++ afterSize ++ beforeChk ++ afterChk) ->
  forall x, In x s -> ~ In x p.
Proof.
  intros H I x X P. rewrite forallb_forall in H.
  apply (proj2 (digit_cases x (H x X))), I, P.
Qed.

Lemma checksum_spec s : checksum s = spec_checksum s.
Proof.
  unfold checksum, spec_checksum. change (2 ^ 32)%N with 4294967296%N.
  assert (G : forall s acc, (acc < 4294967296)%N ->
    fold_left (fun a c => ((a + N_of_ascii c) mod 4294967296)%N) s acc
    = ((acc + byte_sum s) mod 4294967296)%N).
  { clear s. induction s as [|c s IH]; intros acc L; cbn [fold_left byte_sum].
    - rewrite N.add_0_r, N.mod_small; auto.
    - rewrite IH by (apply N.mod_lt; discriminate).
      rewrite N.add_mod_idemp_l by discriminate. f_equal. lia. }
  rewrite G by reflexivity. reflexivity.
Qed.

(** ** Soundness of one call *)

Lemma to_int_pos n m : (to_int n =? Z.of_N m)%Z = true -> m = (n mod 2 ^ 32)%N.
Proof.
  change (2 ^ 32)%N with 4294967296%N. intros H. apply Z.eqb_eq in H. unfold to_int in H.
  set (k := (n mod 4294967296)%N) in *.
  assert (k < 4294967296)%N by (apply N.mod_lt; discriminate).
  cbv zeta in H. destruct (N.ltb_spec k 2147483648); lia.
Qed.

Lemma stoi_spec s n : stoi s = Some n -> s <> [] /\ dec_value s = n.
Proof.
  unfold stoi. destruct s; [discriminate|].
  destruct (dec_value (a :: s) <=? 2147483647)%N; [|discriminate].
  intros H. injection H as H. split; [discriminate|exact H].
Qed.

Lemma judge_sound b d post sz pl chk :
  sb_data (fst (judge b d post sz pl chk)) = post /\
  (snd (judge b d post sz pl chk) = Returned [] \/
   snd (judge b d post sz pl chk) = Thrown \/
   snd (judge b d post sz pl chk) = Returned pl /\ truthful sz pl chk).
Proof.
  unfold judge.
  destruct (forallb is_digit sz) eqn:D1; [|simpl; auto].
  destruct (forallb is_digit chk) eqn:D2; [|simpl; auto].
  cbn [andb].
  destruct (stoi sz) as [n|] eqn:S1; [|simpl; auto].
  destruct (to_int (N.of_nat (length pl)) =? Z.of_N n)%Z eqn:T1; [|simpl; auto].
  destruct (stoi chk) as [k|] eqn:S2; [|simpl; auto].
  destruct (to_int (checksum pl) =? Z.of_N k)%Z eqn:T2; [|simpl; auto].
  cbn [fst snd sb_data]. split; auto. right. right. split; auto.
  apply stoi_spec in S1, S2. destruct S1 as (N1 & V1), S2 as (N2 & V2).
  apply to_int_pos in T1, T2.
  repeat split; auto using digits_spec; try congruence.
  rewrite V2, T2, checksum_spec. unfold spec_checksum.
  apply N.mod_mod. discriminate.
Qed.

Definition at_pos_find p s i : find_sub p s = Some i -> at_pos p i s.
Proof.
  intros F. apply find_sub_some in F. destruct F as (pre & post & E & L & _).
  exists pre, post. auto.
Qed.

Ltac disj := let x := fresh in let A := fresh in let B := fresh in
  intros x A B; cbn in A, B; intuition (subst; discriminate).

Lemma getNext_cases b ch b' r :
  getNextPayload b ch = (b', r) ->
  (~ occurs afterChk (sb_data b ++ ch) /\ r = Returned [] /\ sb_data b' = sb_data b ++ ch) \/
  exists seg post, sb_data b ++ ch = seg ++ afterChk ++ post /\ sb_data b' = post /\
    first_occurrence afterChk seg post /\
    (r = Returned [] \/ r = Thrown \/
     exists junk sz pl chk, seg ++ afterChk = junk ++ frame sz pl chk /\ truthful sz pl chk /\
       r = Returned pl).
Proof.
  intros G.
  destruct (find_sub afterChk (sb_data b ++ ch)) as [aC|] eqn:F.
  2:{ left. split; [apply find_sub_none; auto|]. unfold getNextPayload in G. rewrite F in G.
      injection G as <- <-. auto. }
  right. pose proof F as F'. apply find_sub_some in F'.
  destruct F' as (seg & post & E & LS & FO).
  exists seg, post. split; auto.
  assert (ER : skipn (aC + length afterChk) (sb_data b ++ ch) = post).
  { rewrite E. rewrite <- LS, <- app_length, app_assoc. apply skipn_app_exact. }
  destruct (rfind beforeChk aC (sb_data b ++ ch)) as [bC|] eqn:R1.
  2:{ unfold getNextPayload in G. cbv zeta in G. rewrite F, R1 in G.
      injection G as <- <-. cbn [sb_data]. auto. }
  destruct (rfind afterSize bC (sb_data b ++ ch)) as [aP|] eqn:R2.
  2:{ unfold getNextPayload in G. cbv zeta in G. rewrite F, R1, R2 in G.
      injection G as <- <-. cbn [sb_data]. auto. }
  destruct (rfind beforeSize aP (sb_data b ++ ch)) as [bP|] eqn:R3.
  2:{ unfold getNextPayload in G. cbv zeta in G. rewrite F, R1, R2, R3 in G.
      injection G as <- <-. cbn [sb_data]. auto. }
  assert (A0 := at_pos_find _ _ _ F).
  assert (NE1 : beforeChk <> []) by discriminate.
  assert (NE2 : afterSize <> []) by discriminate.
  assert (NE3 : beforeSize <> []) by discriminate.
  assert (NE0 : afterChk <> []) by discriminate.
  destruct (rfind_some _ _ _ _ NE1 R1) as (A1 & L1 & _).
  destruct (rfind_some _ _ _ _ NE2 R2) as (A2 & L2 & _).
  destruct (rfind_some _ _ _ _ NE3 R3) as (A3 & L3 & _).
  assert (O1 : bC + length beforeChk <= aC) by (apply (no_overlap _ afterChk _ _ _ NE0) with (2 := A1); auto; disj).
  assert (O2 : aP + length afterSize <= bC) by (apply (no_overlap _ beforeChk _ _ _ NE1) with (2 := A2); auto; disj).
  assert (O3 : bP + length beforeSize <= aP) by (apply (no_overlap _ afterSize _ _ _ NE2) with (2 := A3); auto; disj).
  destruct (decompose4 _ _ _ _ _ _ _ _ _ A3 A2 A1 A0 O3 O2 O1)
    as (pre & sz & pl & chk & post' & E' & Q0 & Q1 & Q2 & Q3).
  change (length beforeSize) with 8 in *. change (length afterSize) with 8 in *.
  change (length beforeChk) with 8 in *. change (length afterChk) with 8 in *.
  assert (PP : seg ++ afterChk = pre ++ frame sz pl chk /\ post = post').
  { assert (H : (seg ++ afterChk) ++ post = (pre ++ frame sz pl chk) ++ post').
    { unfold frame. fold beforeSize afterSize beforeChk afterChk.
      rewrite <- !app_assoc. congruence. }
    apply app_inj_len in H; auto.
    unfold frame. fold beforeSize afterSize beforeChk afterChk. rewrite !app_length.
    change (length beforeSize) with 8 in *. change (length afterSize) with 8 in *.
    change (length beforeChk) with 8 in *. change (length afterChk) with 8 in *. lia. }
  destruct PP as (PP & <-).
  rewrite (getNext_eval b ch pre sz pl chk post) in G; auto; try congruence;
    try (rewrite ?F, ?R1, ?R2, ?R3; f_equal; lia).
  match type of G with judge b ?d _ _ _ _ = _ =>
    destruct (judge_sound b d post sz pl chk) as (J1 & J2) end.
  rewrite G in J1, J2. cbn [fst snd] in J1, J2.
  split; auto. split; auto.
  destruct J2 as [J|[J|(J & T)]]; auto.
  right. right. exists pre, sz, pl, chk. auto.
Qed.

(** ** A good frame behind garbage *)

Lemma at_pos_clean p j a b :
  p <> [] -> (forall x, In x a -> ~ In x p) -> at_pos p j (a ++ b) -> length a <= j.
Proof.
  intros NE C A. destruct (Nat.le_gt_cases (length a) j) as [|L]; auto. exfalso.
  destruct (nth_error a j) as [x|] eqn:X; [|apply nth_error_None in X; lia].
  apply (C x); [eapply nth_error_In; eauto|].
  apply (at_pos_nth p j (a ++ b) j); auto.
  - destruct p; [congruence|simpl; lia].
  - rewrite nth_error_app1; auto.
Qed.

Ltac notin := let H := fresh in intros H; cbn in H; intuition discriminate.

Lemma find_sub_at p s i :
  at_pos p i s -> (forall j, at_pos p j s -> i <= j) -> find_sub p s = Some i.
Proof.
  intros (pre & post & E & L) M. apply find_sub_some. exists pre, post. repeat split; auto.
  intros a c H. rewrite L. apply M. exists a, c. rewrite E. auto.
Qed.

Lemma clean_app (p a b : str) :
  (forall x, In x a -> ~ In x p) -> (forall x, In x b -> ~ In x p) ->
  forall x, In x (a ++ b) -> ~ In x p.
Proof. intros A B x I. apply in_app_or in I. destruct I; auto. Qed.

Lemma lit_clean (p a : str) :
  forallb (fun x => negb (existsb (Ascii.eqb x) p)) a = true ->
  forall x, In x a -> ~ In x p.
Proof.
  intros H x I P. rewrite forallb_forall in H. specialize (H x I).
  apply negb_true_iff in H. assert (existsb (Ascii.eqb x) p = true); [|congruence].
  apply existsb_exists. exists x. rewrite Ascii.eqb_refl. auto.
Qed.

Lemma incl_mid (a b c : str) : incl b (a ++ b ++ c).
Proof. intros x I. apply in_or_app. right. apply in_or_app. auto. Qed.

Ltac incl_sent := let x := fresh in let I := fresh in
  intros x I; cbn in I |- *; intuition (auto; fail).

Lemma frame_ac_first g sz pl chk post j :
  ~ occurs afterChk g -> ~ occurs afterChk pl ->
  forallb is_digit sz = true -> forallb is_digit chk = true ->
  at_pos afterChk j (g ++ beforeSize ++ sz ++ afterSize ++ pl ++ beforeChk ++ chk ++ afterChk ++ post) ->
  length g + 8 + length sz + 8 + length pl + 8 + length chk <= j.
Proof.
  intros NG NP DS DC A.
  assert (NE0 : afterChk <> []) by discriminate.
  change (g ++ beforeSize ++ sz ++ afterSize ++ pl ++ beforeChk ++ chk ++ afterChk ++ post)
    with (g ++ "+"%char :: (lit "=+=+=+=" ++ sz ++ afterSize ++ pl ++ beforeChk ++ chk ++ afterChk ++ post)) in A.
  apply at_pos_sides in A; [|auto|notin].
  destruct A as [(_ & A)|(L1 & A)]; [destruct NG; eapply at_pos_occurs; eauto|].
  replace (lit "=+=+=+=" ++ sz ++ afterSize ++ pl ++ beforeChk ++ chk ++ afterChk ++ post)
    with ((lit "=+=+=+=" ++ sz ++ afterSize) ++ (pl ++ beforeChk ++ chk ++ afterChk ++ post)) in A
    by (rewrite <- !app_assoc; reflexivity).
  assert (L2 := A). apply at_pos_clean in L2; auto.
  2:{ apply clean_app; [apply lit_clean; reflexivity|].
      apply clean_app; [|apply lit_clean; reflexivity].
      apply (digits_clean _ _ DS). incl_sent. }
  apply at_pos_skip in A; auto.
  rewrite !app_length in L2, A. change (length (lit "=+=+=+=")) with 7 in L2, A.
  change (length afterSize) with 8 in L2, A.
  change (pl ++ beforeChk ++ chk ++ afterChk ++ post)
    with (pl ++ "!"%char :: (lit "%!%!%!%" ++ chk ++ afterChk ++ post)) in A.
  apply at_pos_sides in A; [|auto|notin].
  destruct A as [(_ & A)|(L3 & A)]; [destruct NP; eapply at_pos_occurs; eauto|].
  rewrite app_assoc in A. assert (L4 := A). apply at_pos_clean in L4; auto.
  2:{ apply clean_app; [apply lit_clean; reflexivity|].
      apply (digits_clean _ _ DC). incl_sent. }
  rewrite !app_length in L4. change (length (lit "%!%!%!%")) with 7 in L4. lia.
Qed.

Lemma getNext_frame_judge b ch g p rest :
  sb_data b ++ ch = g ++ createSentinelized p ++ rest ->
  ~ occurs afterChk g -> ~ occurs afterChk p ->
  (forall u v, afterSize ++ p = u ++ afterSize ++ v -> u = []) ->
  getNextPayload b ch
  = judge b (if 0 <? length g then S (sb_disregarded b) else sb_disregarded b) rest
      (to_string (N.of_nat (length p))) p (to_string (checksum p)).
Proof.
  intros E NG NP NS.
  set (sz := to_string (N.of_nat (length p))) in *.
  set (chk := to_string (checksum p)) in *.
  assert (DS : forallb is_digit sz = true) by apply to_string_digits.
  assert (DC : forallb is_digit chk = true) by apply to_string_digits.
  assert (NZ : sz <> []) by apply to_string_nonempty.
  assert (NC : chk <> []) by apply to_string_nonempty.
  assert (E' : sb_data b ++ ch = g ++ beforeSize ++ sz ++ afterSize ++ p ++ beforeChk ++ chk ++ afterChk ++ rest).
  { rewrite E. unfold createSentinelized. fold sz chk. rewrite <- !app_assoc. reflexivity. }
  assert (NE0 : afterChk <> []) by discriminate.
  assert (NE1 : beforeChk <> []) by discriminate.
  assert (NE2 : afterSize <> []) by discriminate.
  assert (NE3 : beforeSize <> []) by discriminate.
  rewrite (getNext_eval b ch g sz p chk rest); auto.
  - rewrite E'. apply find_sub_at.
    + exists (g ++ beforeSize ++ sz ++ afterSize ++ p ++ beforeChk ++ chk), rest.
      rewrite <- !app_assoc. split; auto. rewrite !app_length.
      change (length beforeSize) with 8. change (length afterSize) with 8.
      change (length beforeChk) with 8. lia.
    + intros j A. eapply frame_ac_first; eauto.
  - rewrite E'. apply rfind_find; auto; [|lia|].
    + exists (g ++ beforeSize ++ sz ++ afterSize ++ p), (chk ++ afterChk ++ rest).
      rewrite <- !app_assoc. split; auto. rewrite !app_length.
      change (length beforeSize) with 8. change (length afterSize) with 8. lia.
    + intros j J A. destruct chk as [|c0 chk]; [congruence|].
      replace (g ++ beforeSize ++ sz ++ afterSize ++ p ++ beforeChk ++ (c0 :: chk) ++ afterChk ++ rest)
        with ((g ++ beforeSize ++ sz ++ afterSize ++ p ++ beforeChk) ++ c0 :: (chk ++ afterChk) ++ rest) in A
        by (rewrite <- !app_assoc; reflexivity).
      assert (CL : forall x, In x (c0 :: chk) -> ~ In x beforeChk)
        by (apply (digits_clean _ _ DC); incl_sent).
      assert (LL : length (g ++ beforeSize ++ sz ++ afterSize ++ p ++ beforeChk)
                   = length g + 8 + length sz + 8 + length p + 8).
      { rewrite !app_length.
        change (length beforeSize) with 8. change (length afterSize) with 8.
        change (length beforeChk) with 8. lia. }
      apply at_pos_sides in A; [|auto|apply CL; left; auto].
      rewrite LL in A. change (length beforeChk) with 8 in A.
      destruct A as [(L & _)|(L & A)]; [lia|].
      apply at_pos_clean in A; auto.
      * rewrite app_length in A. change (length afterChk) with 8 in A.
        cbn [length] in J. lia.
      * apply clean_app; [intros x I; apply CL; right; auto|apply lit_clean; reflexivity].
  - rewrite E'. apply rfind_find; auto; [|lia|].
    + exists (g ++ beforeSize ++ sz), (p ++ beforeChk ++ chk ++ afterChk ++ rest).
      rewrite <- !app_assoc. split; auto. rewrite !app_length.
      change (length beforeSize) with 8. lia.
    + intros j J A.
      replace (g ++ beforeSize ++ sz ++ afterSize ++ p ++ beforeChk ++ chk ++ afterChk ++ rest)
        with (((g ++ beforeSize ++ sz) ++ afterSize ++ p) ++ "!"%char :: (lit "%!%!%!%" ++ chk ++ afterChk ++ rest)) in A
        by (rewrite <- !app_assoc; reflexivity).
      assert (LL : length (g ++ beforeSize ++ sz) = length g + 8 + length sz).
      { rewrite !app_length. change (length beforeSize) with 8. lia. }
      apply at_pos_sides in A; [|auto|notin].
      destruct A as [(_ & A)|(L & _)].
      * apply at_pos_skip in A; [|lia]. destruct A as (u & v & H & LU).
        apply NS in H. subst u. cbn [length] in LU. lia.
      * rewrite app_length, LL, app_length in L. change (length afterSize) with 8 in L. lia.
  - rewrite E'. apply rfind_find; auto; [|lia|].
    + exists g, (sz ++ afterSize ++ p ++ beforeChk ++ chk ++ afterChk ++ rest). auto.
    + intros j J A. destruct sz as [|c0 sz]; [congruence|].
      replace (g ++ beforeSize ++ (c0 :: sz) ++ afterSize ++ p ++ beforeChk ++ chk ++ afterChk ++ rest)
        with ((g ++ beforeSize) ++ c0 :: (sz ++ afterSize) ++ (p ++ beforeChk ++ chk ++ afterChk ++ rest)) in A
        by (rewrite <- !app_assoc; reflexivity).
      assert (CL : forall x, In x (c0 :: sz) -> ~ In x beforeSize)
        by (apply (digits_clean _ _ DS); incl_sent).
      apply at_pos_sides in A; [|auto|apply CL; left; auto].
      rewrite app_length in A. change (length beforeSize) with 8 in A.
      destruct A as [(L & _)|(L & A)]; [lia|].
      apply at_pos_clean in A; auto.
      * rewrite app_length in A. change (length afterSize) with 8 in A.
        cbn [length] in J. lia.
      * apply clean_app; [intros x I; apply CL; right; auto|apply lit_clean; reflexivity].
Qed.

Lemma getNext_frame b ch g p rest :
  sb_data b ++ ch = g ++ createSentinelized p ++ rest ->
  ~ occurs afterChk g -> frameable p ->
  getNextPayload b ch
  = (mkSbuf rest (S (sb_valid b)) (sb_invalid b)
       (if 0 <? length g then S (sb_disregarded b) else sb_disregarded b), Returned p).
Proof.
  intros E NG (NE & NP & NS & LP & LC).
  change (2 ^ 31)%N with 2147483648%N in *.
  rewrite (getNext_frame_judge b ch g p rest); auto.
  assert (V1 : dec_value (to_string (N.of_nat (length p))) = N.of_nat (length p))
    by apply to_string_value.
  assert (V2 : dec_value (to_string (checksum p)) = checksum p) by apply to_string_value.
  unfold judge. rewrite !to_string_digits. cbn [andb].
  assert (SI : forall n, (n < 2147483648)%N -> stoi (to_string n) = Some n).
  { intros n L. unfold stoi. rewrite to_string_value.
    destruct (N.leb_spec n 2147483647); [|lia].
    pose proof (to_string_nonempty n). destruct (to_string n); congruence. }
  assert (TI : forall n, (n < 2147483648)%N -> (to_int n =? Z.of_N n)%Z = true).
  { intros n L. unfold to_int. rewrite N.mod_small by lia. cbv zeta.
    destruct (N.ltb_spec n 2147483648); [|lia]. apply Z.eqb_refl. }
  rewrite !SI, !TI by (rewrite ?checksum_spec; auto). reflexivity.
Qed.

(** A frame whose checksum needs the 32nd bit makes [std::stoi] throw. *)
Lemma getNext_large_checksum b ch g p rest :
  sb_data b ++ ch = g ++ createSentinelized p ++ rest ->
  ~ occurs afterChk g -> ~ occurs afterChk p ->
  (forall u v, afterSize ++ p = u ++ afterSize ++ v -> u = []) ->
  (N.of_nat (length p) < 2 ^ 31)%N -> (2 ^ 31 <= spec_checksum p)%N ->
  snd (getNextPayload b ch) = Thrown /\ sb_data (fst (getNextPayload b ch)) = rest.
Proof.
  intros E NG NP NS L C. change (2 ^ 31)%N with 2147483648%N in *.
  rewrite (getNext_frame_judge b ch g p rest); auto.
  unfold judge. rewrite !to_string_digits. cbn [andb].
  assert (SI : forall n, (n < 2147483648)%N -> stoi (to_string n) = Some n).
  { intros n L'. unfold stoi. rewrite to_string_value.
    destruct (N.leb_spec n 2147483647); [|lia].
    pose proof (to_string_nonempty n). destruct (to_string n); congruence. }
  assert (TI : forall n, (n < 2147483648)%N -> (to_int n =? Z.of_N n)%Z = true).
  { intros n L'. unfold to_int. rewrite N.mod_small by lia. cbv zeta.
    destruct (N.ltb_spec n 2147483648); [|lia]. apply Z.eqb_refl. }
  rewrite SI, TI by auto.
  assert (SN : stoi (to_string (checksum p)) = None).
  { unfold stoi. rewrite to_string_value, checksum_spec.
    destruct (N.leb_spec (spec_checksum p) 2147483647); [lia|].
    destruct (to_string (spec_checksum p)); auto. }
  rewrite SN. auto.
Qed.

Lemma byte_sum_repeat c n : byte_sum (repeat c n) = (N.of_nat n * N_of_ascii c)%N.
Proof.
  induction n as [|n IH]; [reflexivity|]. cbn [repeat byte_sum]. rewrite IH. lia.
Qed.

Lemma occurs_repeat p c n : occurs p (repeat c n) -> Forall (eq c) p.
Proof.
  intros (u & v & E). apply Forall_forall. intros x I.
  assert (X : In x (repeat c n)) by (rewrite E; apply in_or_app; right; apply in_or_app; auto).
  apply repeat_spec in X. auto.
Qed.

(** ** Sequences of calls *)

Lemma stream_extend ps s x : stream_of ps s -> stream_of ps (s ++ x).
Proof.
  intros [junk|ps' s' junk sz p chk tail S T]; [constructor|].
  rewrite <- !app_assoc. constructor; auto.
Qed.

Lemma getNext_stream b ch b' r ps s :
  getNextPayload b ch = (b', r) -> stream_of ps s ->
  exists consumed, sb_data b ++ ch = consumed ++ sb_data b' /\
    stream_of (ps ++ payloads [r]) (s ++ consumed).
Proof.
  intros G S. apply getNext_cases in G.
  destruct G as [(_ & -> & ->)|(seg & post & E & -> & _ & R)].
  - exists []. split; auto. cbn. rewrite app_nil_r. now apply stream_extend.
  - exists (seg ++ afterChk). rewrite <- app_assoc. split; auto.
    destruct R as [->|[->|(junk & sz & pl & chk & F & T & ->)]];
      try (cbn [payloads flat_map]; rewrite !app_nil_r; now apply stream_extend).
    destruct pl as [|c pl]; [cbn; rewrite app_nil_r; now apply stream_extend|].
    rewrite F. cbn [payloads flat_map app].
    rewrite <- (app_nil_r (frame sz (c :: pl) chk)). constructor; auto.
Qed.

Lemma calls_stream chunks : forall b b' rs ps s,
  calls b chunks = (b', rs) -> stream_of ps s ->
  exists consumed, sb_data b ++ concat chunks = consumed ++ sb_data b' /\
    stream_of (ps ++ payloads rs) (s ++ consumed).
Proof.
  induction chunks as [|c cs IH]; intros b b' rs ps s G S; cbn [calls] in G.
  - injection G as <- <-. exists []. cbn. rewrite !app_nil_r. auto.
  - destruct (getNextPayload b c) as (b1, r) eqn:G1.
    destruct (calls b1 cs) as (b2, rs') eqn:G2. injection G as <- <-.
    destruct (getNext_stream _ _ _ _ _ _ G1 S) as (c1 & E1 & S1).
    destruct (IH _ _ _ _ _ G2 S1) as (c2 & E2 & S2).
    exists (c1 ++ c2). cbn [concat]. split.
    + rewrite app_assoc, E1, <- app_assoc, E2, app_assoc. auto.
    + rewrite app_assoc. replace (payloads (r :: rs')) with (payloads [r] ++ payloads rs').
      * rewrite app_assoc. auto.
      * unfold payloads. cbn [flat_map]. rewrite app_nil_r. auto.
Qed.

Lemma drain_stream f : forall b c b' qs ps s,
  drain f b c = Some (b', qs) -> stream_of ps s ->
  exists consumed, sb_data b ++ c = consumed ++ sb_data b' /\
    stream_of (ps ++ qs) (s ++ consumed).
Proof.
  induction f as [|f IH]; intros b c b' qs ps s D S; cbn [drain] in D; [discriminate|].
  destruct (getNextPayload b c) as (b1, r) eqn:G.
  destruct (getNext_stream _ _ _ _ _ _ G S) as (c1 & E1 & S1).
  destruct r as [[|x p]|].
  - injection D as <- <-. exists c1. auto.
  - destruct (drain f b1 []) as [(b2, qs')|] eqn:D2; [|discriminate]. injection D as <- <-.
    destruct (IH _ _ _ _ _ _ D2 S1) as (c2 & E2 & S2).
    exists (c1 ++ c2). rewrite app_nil_r in E2. split.
    + rewrite E1, E2, app_assoc. auto.
    + rewrite app_assoc. cbn [payloads flat_map app] in S2. rewrite <- app_assoc in S2. auto.
  - injection D as <- <-. exists c1. auto.
Qed.

Lemma feed_stream cs : forall b b' qs ps s,
  feed b cs = Some (b', qs) -> stream_of ps s ->
  exists consumed, sb_data b ++ concat cs = consumed ++ sb_data b' /\
    stream_of (ps ++ qs) (s ++ consumed).
Proof.
  induction cs as [|c cs IH]; intros b b' qs ps s D S; cbn [feed] in D.
  - injection D as <- <-. exists []. cbn. rewrite !app_nil_r. auto.
  - destruct (drain _ b c) as [(b1, q1)|] eqn:D1; [|discriminate].
    destruct (feed b1 cs) as [(b2, q2)|] eqn:D2; [|discriminate]. injection D as <- <-.
    destruct (drain_stream _ _ _ _ _ _ _ D1 S) as (c1 & E1 & S1).
    destruct (IH _ _ _ _ _ D2 S1) as (c2 & E2 & S2).
    exists (c1 ++ c2). cbn [concat]. split.
    + rewrite app_assoc, E1, <- app_assoc, E2, app_assoc. auto.
    + rewrite !app_assoc. auto.
Qed.

(** Every call that does not stop the loop removes something, so the loop ends. *)
Lemma drain_total f : forall b c, length (sb_data b ++ c) < f -> drain f b c <> None.
Proof.
  induction f as [|f IH]; intros b c L; [lia|]. cbn [drain].
  destruct (getNextPayload b c) as (b1, r) eqn:G. apply getNext_cases in G.
  destruct G as [(_ & -> & _)|(seg & post & E & P & _ & _)]; [discriminate|].
  destruct r as [[|x p]|]; try discriminate.
  assert (H : drain f b1 [] <> None).
  { apply IH. rewrite app_nil_r, P. rewrite E in L. rewrite !app_length in L.
    change (length afterChk) with 8 in L. lia. }
  destruct (drain f b1 []) as [(?, ?)|]; congruence.
Qed.

Lemma feed_total cs : forall b, feed b cs <> None.
Proof.
  induction cs as [|c cs IH]; intros b; cbn [feed]; [discriminate|].
  destruct (drain (S (length (sb_data b ++ c))) b c) as [(b1, q)|] eqn:D.
  - specialize (IH b1). destruct (feed b1 cs) as [(?, ?)|]; congruence.
  - exfalso. eapply drain_total; [|exact D]. lia.
Qed.

(** ** Chunking *)

Lemma not_occurs_app_l p a b : ~ occurs p (a ++ b) -> ~ occurs p a.
Proof. intros N (u & v & ->). apply N. exists u, (v ++ b). rewrite <- !app_assoc. auto. Qed.

Lemma frame_prefix_no_end p d r :
  frameable p -> d ++ r = createSentinelized p -> r <> [] -> ~ occurs afterChk d.
Proof.
  intros (NE & NP & _) E NR (u & v & ->).
  assert (L : length (createSentinelized p) <= length u + 8).
  { unfold createSentinelized in *. rewrite !app_length.
    change (length beforeSize) with 8. change (length afterSize) with 8.
    change (length beforeChk) with 8. change (length afterChk) with 8.
    assert (H : at_pos afterChk (length u)
      ([] ++ beforeSize ++ to_string (N.of_nat (length p)) ++ afterSize ++ p ++ beforeChk
         ++ to_string (checksum p) ++ afterChk ++ [])).
    { exists u, (v ++ r). split; auto. cbn [app]. rewrite app_nil_r, <- E.
      rewrite <- !app_assoc. auto. }
    apply frame_ac_first in H; auto using to_string_digits.
    - cbn [length] in H. lia.
    - intros (x & y & H'). symmetry in H'. apply app_eq_nil in H'. destruct H' as (_ & H').
      discriminate. }
  rewrite <- E in L. rewrite !app_length in L. change (length afterChk) with 8 in L.
  destruct r; [congruence|]. cbn [length] in L. lia.
Qed.

(** Where a chunk boundary falls in a stream of frames. *)
Lemma cut_stream ps : forall d r,
  Forall frameable ps -> d ++ r = concat (map createSentinelized ps) ->
  exists ps1 ps2 part, ps = ps1 ++ ps2 /\ d = concat (map createSentinelized ps1) ++ part /\
    part ++ r = concat (map createSentinelized ps2) /\ ~ occurs afterChk part.
Proof.
  induction ps as [|p ps IH]; intros d r F E.
  - cbn in E. apply app_eq_nil in E. destruct E as (-> & ->).
    exists [], [], []. repeat split; auto. intros (u & v & H). symmetry in H.
    apply app_eq_nil in H. destruct H as (_ & H). discriminate.
  - inversion F as [|? ? Fp Fps]; subst. cbn [map concat] in E.
    destruct (Nat.le_gt_cases (length (createSentinelized p)) (length d)) as [L|L].
    + assert (X : exists d', d = createSentinelized p ++ d').
      { exists (skipn (length (createSentinelized p)) d).
        apply (f_equal (firstn (length (createSentinelized p)))) in E.
        rewrite firstn_app_exact, firstn_app in E.
        replace (length (createSentinelized p) - length d) with 0 in E by lia.
        rewrite firstn_O, app_nil_r in E. rewrite <- E at 1. symmetry. apply firstn_skipn. }
      destruct X as (d' & ->). rewrite <- app_assoc in E. apply app_inv_head in E.
      destruct (IH _ _ Fps E) as (ps1 & ps2 & part & -> & -> & P & N).
      exists (p :: ps1), ps2, part. cbn [map concat app]. rewrite <- app_assoc. auto.
    + exists [], (p :: ps), d. repeat split; auto.
      assert (X : exists r1, createSentinelized p = d ++ r1 /\ r1 <> []).
      { exists (skipn (length d) (createSentinelized p)). split.
        - apply (f_equal (firstn (length d))) in E.
          rewrite firstn_app_exact, firstn_app in E.
          replace (length d - length (createSentinelized p)) with 0 in E by lia.
          rewrite firstn_O, app_nil_r in E. rewrite E at 1. symmetry. apply firstn_skipn.
        - intros H. apply (f_equal (@length _)) in H. rewrite skipn_length in H.
          cbn [length] in H. lia. }
      destruct X as (r1 & X & NR). eapply frame_prefix_no_end; eauto.
Qed.

Lemma nil_no_end : ~ occurs afterChk [].
Proof.
  intros (u & v & H). symmetry in H. apply app_eq_nil in H. destruct H as (_ & H). discriminate.
Qed.

Lemma drain_frames ps : forall f b c part,
  Forall frameable ps -> sb_data b ++ c = concat (map createSentinelized ps) ++ part ->
  ~ occurs afterChk part -> length ps < f ->
  drain f b c = Some (mkSbuf part (length ps + sb_valid b) (sb_invalid b) (sb_disregarded b), ps).
Proof.
  induction ps as [|p ps IH]; intros f b c part F E N L; (destruct f as [|f]; [lia|]);
    cbn [drain].
  - cbn in E. unfold getNextPayload. cbv zeta. rewrite E. apply find_sub_none in N.
    rewrite N. reflexivity.
  - inversion F as [|? ? Fp Fps]; subst. cbn [map concat] in E. rewrite <- app_assoc in E.
    rewrite (getNext_frame b c [] p (concat (map createSentinelized ps) ++ part));
      auto using nil_no_end.
    destruct p as [|x p]; [destruct Fp; congruence|].
    rewrite (IH f _ [] part); auto; [|cbn [sb_data]; apply app_nil_r|cbn [length] in L; lia].
    cbn [sb_valid sb_invalid sb_disregarded length]. rewrite <- plus_n_Sm. reflexivity.
Qed.

Lemma frame_long p : 8 <= length (createSentinelized p).
Proof. unfold createSentinelized. rewrite app_length. change (length beforeSize) with 8. lia. Qed.

Lemma frames_long ps : length ps <= length (concat (map createSentinelized ps)).
Proof.
  induction ps as [|p ps IH]; cbn [map concat length]; auto.
  rewrite app_length. pose proof (frame_long p). lia.
Qed.

Lemma feed_frames cs : forall b ps,
  Forall frameable ps -> sb_data b ++ concat cs = concat (map createSentinelized ps) ->
  ~ occurs afterChk (sb_data b) ->
  feed b cs = Some (mkSbuf [] (length ps + sb_valid b) (sb_invalid b) (sb_disregarded b), ps).
Proof.
  induction cs as [|c cs IH]; intros b ps F E N; cbn [feed].
  - cbn in E. rewrite app_nil_r in E. destruct ps as [|p ps].
    + cbn in E. destruct b as [d v i g]. cbn in *. subst. reflexivity.
    + exfalso. apply N. rewrite E. cbn [map concat]. generalize (concat (map createSentinelized ps)).
      intros z. unfold createSentinelized.
      exists (beforeSize ++ to_string (N.of_nat (length p)) ++ afterSize ++ p ++ beforeChk
              ++ to_string (checksum p)), z.
      rewrite <- !app_assoc. reflexivity.
  - cbn [concat] in E. rewrite app_assoc in E.
    destruct (cut_stream _ _ _ F E) as (ps1 & ps2 & part & -> & D & P & NP).
    apply Forall_app in F. destruct F as (F1 & F2).
    rewrite (drain_frames ps1 _ _ _ part); auto.
    + rewrite (IH _ ps2); auto. cbn [sb_valid sb_invalid sb_disregarded].
      rewrite app_length. replace (length ps1 + length ps2 + sb_valid b)
        with (length ps2 + (length ps1 + sb_valid b)) by lia. reflexivity.
    + rewrite D, app_length. pose proof (frames_long ps1). lia.
Qed.

(** ** Resynchronisation *)

Lemma resync n : forall g b p rest,
  length g <= n -> sb_data b = g ++ createSentinelized p ++ rest -> frameable p ->
  exists k, 8 * k <= length g /\
    snd (getNextPayload (empty_calls k b) []) = Returned p /\
    sb_data (fst (getNextPayload (empty_calls k b) [])) = rest.
Proof.
  induction n as [|n IH]; intros g b p rest L E F.
  - destruct g; [|cbn [length] in L; lia]. exists 0. split; [lia|]. cbn [empty_calls].
    rewrite (getNext_frame b [] [] p rest); auto using nil_no_end. rewrite app_nil_r. auto.
  - destruct (find_sub afterChk g) as [i|] eqn:FS.
    2:{ apply find_sub_none in FS. exists 0. split; [lia|]. cbn [empty_calls].
        rewrite (getNext_frame b [] g p rest); auto. rewrite app_nil_r. auto. }
    destruct (getNextPayload b []) as (b1, r) eqn:G.
    pose proof (getNext_cases _ _ _ _ G) as C. rewrite app_nil_r in C.
    apply find_sub_some in FS. destruct FS as (gp & gs & EG & _ & _).
    destruct C as [(NO & _)|(seg & post & ED & EP & FO & _)].
    { exfalso. apply NO. rewrite E, EG. exists gp, (gs ++ createSentinelized p ++ rest).
      rewrite <- !app_assoc. auto. }
    (* the first end sentinel lies in the garbage *)
    assert (LG : length seg + 8 <= length g).
    { assert (length seg <= length gp).
      { eapply FO. rewrite <- ED, E, EG. rewrite <- !app_assoc. reflexivity. }
      rewrite EG, !app_length. change (length afterChk) with 8. lia. }
    assert (X : exists g', g = (seg ++ afterChk) ++ g').
    { exists (skipn (length (seg ++ afterChk)) g).
      rewrite ED in E. rewrite app_assoc in E.
      apply (f_equal (firstn (length (seg ++ afterChk)))) in E.
      rewrite firstn_app_exact, firstn_app in E.
      replace (length (seg ++ afterChk) - length g) with 0 in E
        by (rewrite app_length; change (length afterChk) with 8; lia).
      rewrite firstn_O, app_nil_r in E. rewrite E at 1. symmetry. apply firstn_skipn. }
    destruct X as (g' & ->).
    rewrite ED in E. rewrite app_assoc, <- app_assoc in E.
    rewrite <- !app_assoc in E. apply app_inv_head, app_inv_head in E. subst post.
    destruct (IH g' b1 p rest) as (k & K1 & K2 & K3); auto.
    { rewrite !app_length in L. change (length afterChk) with 8 in L. lia. }
    exists (S k). cbn [empty_calls]. rewrite G. cbn [fst]. split; auto.
    rewrite !app_length. change (length afterChk) with 8. lia.
Qed.

(** ** Payloads without the base strings of the sentinels *)

Lemma base_free_frameable p :
  p <> [] -> ~ occurs (lit "#@") p -> ~ occurs (lit "?^") p ->
  (N.of_nat (length p) < 2 ^ 31)%N -> (spec_checksum p < 2 ^ 31)%N -> frameable p.
Proof.
  intros NE A C L S. split; [auto|]. split; [|split; [|split; auto]].
  - intros (u & v & ->). apply C. exists u, (lit "?^?^?^" ++ v). reflexivity.
  - intros a b E. destruct a as [|x [|y a]]; auto.
    + exfalso. cbn in E. injection E as _ E. discriminate E.
    + exfalso. apply A.
      assert (H : at_pos (lit "#@") (length (x :: y :: a) + 6) (lit "#@#@#@#@" ++ p)).
      { rewrite E. apply at_pos_shift. exists (lit "#@#@#@"), b. auto. }
      apply at_pos_skip in H.
      * eapply at_pos_occurs; eauto.
      * cbn [length]. change (length (lit "#@#@#@#@")) with 8. lia.
Qed.

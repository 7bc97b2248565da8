(** Lemmas about the message model. *)
From Coq Require Import String Ascii List Arith Lia Bool.
From Verif Require Import Base MsgModel MsgSpec.
Import ListNotations.
Open Scope list_scope.

Lemma find_char_none c s : find_char c s = None <-> ~ In c s.
Proof.
  induction s as [|x s IH]; simpl.
  - split; auto.
  - destruct (Ascii.eqb_spec x c) as [->|N].
    + split; [discriminate|]. intros H; exfalso; auto.
    + destruct (find_char c s).
      * split; [discriminate|]. intros H. exfalso.
        assert (~ In c s) by tauto. apply IH in H0. discriminate.
      * split; auto. intros _ [E|I]; [congruence|]. apply (proj1 IH); auto.
Qed.

Lemma find_char_some c s n :
  find_char c s = Some n <->
  exists a b, s = a ++ c :: b /\ ~ In c a /\ length a = n.
Proof.
  revert n. induction s as [|x s IH]; simpl; intros n.
  - split; [discriminate|]. intros (a & b & E & _). destruct a; discriminate.
  - destruct (Ascii.eqb_spec x c) as [->|N].
    + split.
      * intros [= <-]. exists [], s. auto.
      * intros (a & b & E & I & L). destruct a as [|y a]; simpl in *.
        -- now subst.
        -- injection E as -> E. exfalso; auto.
    + split.
      * destruct (find_char c s) as [k|] eqn:F; [|discriminate].
        intros [= <-]. destruct (proj1 (IH k) eq_refl) as (a & b & -> & I & L).
        exists (x :: a), b. simpl. repeat split; auto.
        intros [E|J]; [congruence|auto].
      * intros (a & b & E & I & L). destruct a as [|y a]; simpl in *.
        -- injection E as -> E. congruence.
        -- injection E as -> E. subst n.
           assert (find_char c s = Some (length a)) as ->; auto.
           apply IH. exists a, b. repeat split; auto.
Qed.

Lemma find_char_app c a b : ~ In c a -> find_char c (a ++ c :: b) = Some (length a).
Proof. intros. apply find_char_some. exists a, b; auto. Qed.

Lemma skipn_app_exact {A} (a b : list A) : skipn (length a) (a ++ b) = b.
Proof. induction a; simpl; auto. Qed.

Lemma firstn_app_exact {A} (a b : list A) : firstn (length a) (a ++ b) = a.
Proof. induction a; simpl; f_equal; auto. Qed.

Lemma substr_mid (a b c : str) : substr (length a) (length b) (a ++ b ++ c) = b.
Proof. unfold substr. rewrite skipn_app_exact. apply firstn_app_exact. Qed.

Lemma substr_end (a b : str) n : n = length b -> substr (length a) n (a ++ b) = b.
Proof. intros ->. unfold substr. rewrite skipn_app_exact. apply firstn_all. Qed.

Lemma substr_0 (a b : str) : substr 0 (length a) (a ++ b) = a.
Proof. unfold substr. simpl. apply firstn_app_exact. Qed.

(** ** split *)

(** The list of pieces, without the getline quirk. *)
Fixpoint pieces (d : ascii) (acc s : str) : list str :=
  match s with
  | [] => [rev acc]
  | c :: s' => if Ascii.eqb c d then rev acc :: pieces d [] s' else pieces d (c :: acc) s'
  end.

Lemma rev_nil_inv {A} (l : list A) : rev l = [] -> l = [].
Proof. destruct l; auto. simpl. intros H. apply app_eq_nil in H. destruct H; discriminate. Qed.

Lemma pieces_getlines d s : forall acc,
  pieces d acc s =
  getlines d acc s ++ (if match s with [] => match acc with [] => true | _ => false end
                          | _ => ends_with_delim d s end
                       then [[]] else []).
Proof.
  induction s as [|c s IH]; intros acc.
  - simpl. destruct acc; auto.
  - assert (E: ends_with_delim d (c :: s) =
      match s with [] => Ascii.eqb c d | _ => ends_with_delim d s end).
    { unfold ends_with_delim. simpl. destruct (rev s) as [|x r] eqn:R.
      - apply rev_nil_inv in R. subst s. reflexivity.
      - destruct s; [discriminate|reflexivity]. }
    rewrite E. simpl.
    destruct (Ascii.eqb c d) eqn:C.
    + rewrite IH. destruct s; simpl; auto.
    + rewrite IH. destruct s; auto.
Qed.

Lemma pieces_getlines0 d s :
  pieces d [] s = getlines d [] s ++ (if ends_with_delim d s then [[]] else []).
Proof. rewrite pieces_getlines. destruct s; auto. Qed.

Lemma getlines_length d s : forall acc, length (getlines d acc s) <= S (length s).
Proof.
  induction s as [|c s IH]; intros acc; simpl.
  - destruct acc; simpl; lia.
  - destruct (Ascii.eqb c d); simpl.
    + specialize (IH []). lia.
    + specialize (IH (c :: acc)). lia.
Qed.

Lemma split_loop_fill items : forall tokens count max app,
  count + length items <= max ->
  split_loop items tokens count max app = Some (tokens ++ items, count + length items).
Proof.
  induction items as [|i items IH]; intros tokens count max app L.
  - simpl. rewrite app_nil_r, Nat.add_0_r. auto.
  - cbn [split_loop length] in *. destruct (Nat.ltb_spec count max) as [_|]; [|lia].
    destruct items as [|j items].
    + cbn [split_loop length]. rewrite Nat.add_1_r.
      destruct ((S count =? max) && negb app); reflexivity.
    + destruct (Nat.eqb_spec (S count) max); [simpl in L; lia|].
      rewrite andb_false_l, IH by (simpl in *; lia).
      rewrite <- app_assoc. simpl. f_equal. f_equal. lia.
Qed.

(** [split] with a large enough maximum returns the pieces. *)
Lemma split_pieces s d max app :
  S (length s) < max -> split s d max app = Some (pieces d [] s).
Proof.
  intros L. unfold split. pose proof (getlines_length d s []).
  rewrite split_loop_fill by (simpl; lia). rewrite app_nil_l, pieces_getlines0.
  simpl. destruct (Nat.ltb_spec (length (getlines d [] s)) max); [|lia].
  simpl. destruct (ends_with_delim d s); auto. now rewrite app_nil_r.
Qed.

Lemma pieces_nonempty d s : forall acc, pieces d acc s <> [].
Proof. induction s; simpl; intros; [discriminate|]. destruct (Ascii.eqb _ _); [discriminate|auto]. Qed.

Lemma pieces_join d s : forall acc, join d (pieces d acc s) = rev acc ++ s.
Proof.
  induction s as [|c s IH]; intros acc; simpl.
  - now rewrite app_nil_r.
  - destruct (Ascii.eqb_spec c d) as [->|N].
    + pose proof (pieces_nonempty d s []). specialize (IH []).
      simpl. destruct (pieces d [] s); [congruence|]. now rewrite IH.
    + rewrite IH. simpl. now rewrite <- app_assoc.
Qed.

Lemma pieces_free d s : forall acc, ~ In d acc -> Forall (free_of d) (pieces d acc s).
Proof.
  induction s as [|c s IH]; intros acc A; simpl.
  - constructor; auto. unfold free_of. now rewrite <- in_rev.
  - destruct (Ascii.eqb_spec c d) as [->|N].
    + constructor; [unfold free_of; now rewrite <- in_rev|]. apply IH. auto.
    + apply IH. intros [E|I]; [congruence|auto].
Qed.

Lemma pieces_count d s : forall acc,
  length (pieces d acc s) = S (count_occ ascii_dec s d).
Proof.
  induction s as [|c s IH]; intros acc; simpl; auto.
  destruct (Ascii.eqb_spec c d) as [->|N].
  - simpl. rewrite IH. destruct (ascii_dec d d); congruence.
  - rewrite IH. destruct (ascii_dec c d); congruence.
Qed.

Lemma join_cons_char d c x l : join d ((c :: x) :: l) = c :: join d (x :: l).
Proof. destruct l; reflexivity. Qed.

Lemma pieces_of_join d l : forall acc x,
  free_of d x -> Forall (free_of d) l ->
  pieces d acc (join d (x :: l)) = (rev acc ++ x) :: l.
Proof.
  induction l as [|y l IHl]; intros acc x F FL.
  - simpl. revert acc. induction x as [|c x IHx]; intros acc; simpl.
    + now rewrite app_nil_r.
    + destruct (Ascii.eqb_spec c d) as [->|N]; [exfalso; apply F; left; auto|].
      rewrite IHx; [|intros I; apply F; right; auto]. simpl. now rewrite <- app_assoc.
  - revert acc. induction x as [|c x IHx]; intros acc.
    + change (join d ([] :: y :: l)) with (d :: join d (y :: l)).
      simpl pieces. rewrite Ascii.eqb_refl. rewrite app_nil_r. f_equal.
      inversion FL; subst. exact (IHl [] y ltac:(assumption) ltac:(assumption)).
    + rewrite join_cons_char. simpl pieces.
      destruct (Ascii.eqb_spec c d) as [->|N]; [exfalso; apply F; left; auto|].
      rewrite IHx; [|intros I; apply F; right; auto]. simpl. now rewrite <- app_assoc.
Qed.

(** Truncation: without append mode a positive maximum keeps the first pieces. *)
Lemma split_loop_trunc items : forall tokens count max,
  count < max ->
  split_loop items tokens count max false =
  Some (tokens ++ firstn (max - count) items, Nat.min max (count + length items)).
Proof.
  induction items as [|i items IH]; intros tokens count max L.
  - cbn [split_loop length]. rewrite firstn_nil, app_nil_r.
    replace (Nat.min max (count + 0)) with count by lia. reflexivity.
  - cbn [split_loop length].
    destruct (Nat.ltb_spec count max) as [_|]; [|lia].
    destruct (Nat.eqb_spec (S count) max) as [E|E]; cbn [andb negb].
    + replace (max - count) with 1 by lia. cbn [firstn].
      replace (Nat.min max (count + S (length items))) with (S count) by lia. reflexivity.
    + rewrite IH by lia. replace (max - count) with (S (max - S count)) by lia.
      cbn [firstn]. rewrite <- app_assoc. cbn [app].
      replace (S count + length items) with (count + S (length items)) by lia. reflexivity.
Qed.

Lemma split_truncates s d max :
  0 < max -> split s d max false = Some (firstn max (pieces d [] s)).
Proof.
  intros L. unfold split. rewrite split_loop_trunc by lia.
  rewrite pieces_getlines0, Nat.sub_0_r. simpl app.
  set (g := getlines d [] s). simpl plus.
  destruct (Nat.ltb_spec (Nat.min max (length g)) max) as [M|M].
  - assert (length g < max) by lia.
    rewrite (firstn_all2 (n:=max) g) by lia.
    simpl. destruct (ends_with_delim d s).
    + rewrite firstn_all2; auto. rewrite app_length. simpl. lia.
    + rewrite app_nil_r. rewrite firstn_all2; auto. lia.
  - assert (max <= length g) by lia. simpl.
    rewrite firstn_app. replace (max - length g) with 0 by lia. simpl.
    now rewrite app_nil_r.
Qed.

(** Append mode: the surplus pieces are glued to the last one, without separators. *)
Lemma split_loop_glue items : forall before lst count max,
  max <= count ->
  split_loop items (before ++ [lst]) count max true =
  Some (before ++ [lst ++ concat items], count + length items).
Proof.
  induction items as [|i items IH]; intros before lst count max L.
  - simpl. rewrite app_nil_r, Nat.add_0_r. auto.
  - cbn [split_loop]. destruct (Nat.ltb_spec count max); [lia|].
    rewrite rev_app_distr. cbn [rev app].
    rewrite rev_involutive, andb_false_r, IH by lia.
    simpl. rewrite <- app_assoc. f_equal. f_equal. lia.
Qed.

Lemma split_loop_app a : forall b tokens count max,
  split_loop (a ++ b) tokens count max true =
  match split_loop a tokens count max true with
  | None => None
  | Some (t, c) => split_loop b t c max true
  end.
Proof.
  induction a as [|x a IH]; intros b tokens count max; simpl; auto.
  rewrite andb_false_r.
  destruct (if count <? max then _ else _); auto.
Qed.

Lemma split_append_glues s d max :
  0 < max -> max < length (pieces d [] s) ->
  split s d max true =
  Some (firstn (max - 1) (pieces d [] s) ++ [concat (skipn (max - 1) (pieces d [] s))]).
Proof.
  intros L0 L. unfold split. rewrite pieces_getlines0 in *.
  set (g := getlines d [] s) in *.
  assert (Lg : max <= length g).
  { rewrite app_length in L. destruct (ends_with_delim d s); simpl in L; lia. }
  assert (Eg : exists a x b, g = (a ++ [x]) ++ b /\ length a = max - 1).
  { assert (Ln : length (firstn max g) = max) by (rewrite firstn_length; lia).
    destruct (rev (firstn max g)) as [|x r] eqn:R.
    - apply rev_nil_inv in R. rewrite R in Ln. simpl in Ln. lia.
    - exists (rev r), x, (skipn max g). split.
      + rewrite <- (firstn_skipn max g) at 1. f_equal.
        apply (f_equal (@rev _)) in R. rewrite rev_involutive in R. exact R.
      + apply (f_equal (@length _)) in R. simpl in R. rewrite rev_length in *. lia. }
  destruct Eg as (a & x & b & -> & La).
  rewrite split_loop_app, split_loop_fill by (rewrite app_length; simpl; lia).
  simpl app at 1. rewrite split_loop_glue by (rewrite app_length; simpl; lia).
  replace (_ <? max) with false
    by (symmetry; apply Nat.ltb_ge; rewrite app_length; simpl; lia).
  simpl andb. cbv iota. rewrite <- La, <- !app_assoc, skipn_app_exact, firstn_app_exact.
  do 3 f_equal. simpl. rewrite concat_app.
  destruct (ends_with_delim d s); simpl; now rewrite ?app_nil_r.
Qed.

(** ** ReplaceAll *)

Lemma is_prefix_spec p s : is_prefix p s = true <-> exists r, s = p ++ r.
Proof.
  revert s. induction p as [|a p IH]; intros s; simpl.
  - split; eauto.
  - destruct s as [|b s].
    + split; [discriminate|]. intros (r & E). discriminate.
    + rewrite andb_true_iff, IH. split.
      * intros (E & r & ->). apply Ascii.eqb_eq in E. subst. eauto.
      * intros (r & [= -> ->]). split; [apply Ascii.eqb_refl|eauto].
Qed.

Lemma find_sub_none p s : find_sub p s = None <-> ~ occurs p s.
Proof.
  induction s as [|x s IH].
  - simpl. destruct (is_prefix p []) eqn:P.
    + split; [discriminate|]. intros N. exfalso. apply N.
      apply is_prefix_spec in P. destruct P as (r & P). exists [], r. auto.
    + split; auto. intros _ (a & b & E). symmetry in E. apply app_eq_nil in E.
      destruct E as (_ & E). apply app_eq_nil in E. destruct E; subst. discriminate.
  - cbn [find_sub]. destruct (is_prefix p (x :: s)) eqn:P.
    + split; [discriminate|]. intros N. exfalso. apply N.
      apply is_prefix_spec in P. destruct P as (r & P). exists [], r. auto.
    + destruct (find_sub p s) as [n|].
      * split; [discriminate|]. intros N. exfalso.
        assert (N' : ~ occurs p s).
        { intros (a & b & ->). apply N. exists (x :: a), b. auto. }
        apply IH in N'. discriminate.
      * split; auto. intros _ (a & b & E). destruct a as [|y a]; simpl in E.
        -- assert (is_prefix p (x :: s) = true) by (apply is_prefix_spec; eauto). congruence.
        -- injection E as -> E. apply (proj1 IH eq_refl). exists a, b. auto.
Qed.

Lemma find_sub_some p s n :
  find_sub p s = Some n <->
  exists pre post, s = pre ++ p ++ post /\ length pre = n /\ first_occurrence p pre post.
Proof.
  revert n. induction s as [|x s IH]; intros n.
  - simpl. destruct (is_prefix p []) eqn:P.
    + apply is_prefix_spec in P. destruct P as (r & P).
      split.
      * intros [= <-]. exists [], r. repeat split; auto. intros a b _. simpl. lia.
      * intros (pre & post & E & L & _). destruct pre; [|discriminate]. simpl in *. now subst.
    + split; [discriminate|]. intros (pre & post & E & _).
      destruct pre; [|discriminate]. simpl in E.
      assert (is_prefix p [] = true) by (apply is_prefix_spec; eauto). congruence.
  - cbn [find_sub]. destruct (is_prefix p (x :: s)) eqn:P.
    + apply is_prefix_spec in P. destruct P as (r & P). split.
      * intros [= <-]. exists [], r. repeat split; auto. intros a b _. simpl. lia.
      * intros (pre & post & E & L & F). subst n. f_equal.
        specialize (F [] r). rewrite <- E, P in F. simpl in F. specialize (F eq_refl). lia.
    + assert (NP : forall r, x :: s <> p ++ r).
      { intros r E. assert (is_prefix p (x :: s) = true) by (apply is_prefix_spec; eauto).
        congruence. }
      split.
      * destruct (find_sub p s) as [k|] eqn:F; [|discriminate]. intros [= <-].
        destruct (proj1 (IH k) eq_refl) as (pre & post & -> & L & FO).
        exists (x :: pre), post. repeat split; simpl; auto.
        intros a b E. destruct a as [|y a]; simpl in E.
        -- exfalso. exact (NP _ E).
        -- injection E as <- E. apply FO in E. simpl. lia.
      * intros (pre & post & E & L & FO). destruct pre as [|y pre]; simpl in E.
        -- exfalso. exact (NP _ E).
        -- injection E as <- E. simpl in L. subst n.
           assert (find_sub p s = Some (length pre)) as ->; auto.
           apply IH. exists pre, post. repeat split; auto.
           intros a b E'. specialize (FO (x :: a) b). simpl in FO.
           rewrite E' in FO. specialize (FO eq_refl). lia.
Qed.

(** The loop started at the end of [done] works on the remaining text. *)
Lemma replaceAll_loop_spec from to : from <> [] -> forall fuel done s,
  length s < fuel ->
  exists out, replaceAll_loop fuel from to (done ++ s) (length done) = Some (done ++ out)
              /\ replaced from to s out.
Proof.
  intros NE. induction fuel as [|f IH]; intros done s L; [lia|].
  cbn [replaceAll_loop]. unfold find_sub_from. rewrite skipn_app_exact.
  destruct (find_sub from s) as [n|] eqn:F.
  - apply find_sub_some in F. destruct F as (pre & post & -> & <- & FO).
    replace (firstn (length done + length pre) (done ++ pre ++ from ++ post))
      with (done ++ pre).
    2:{ rewrite <- app_length, app_assoc. symmetry. apply firstn_app_exact. }
    replace (skipn (length done + length pre + length from) (done ++ pre ++ from ++ post))
      with post.
    2:{ replace (length done + length pre + length from)
          with (length (done ++ pre ++ from)) by (rewrite !app_length; lia).
        replace (done ++ pre ++ from ++ post) with ((done ++ pre ++ from) ++ post)
          by (rewrite <- !app_assoc; auto). now rewrite skipn_app_exact. }
    replace (length done + length pre + length to) with (length ((done ++ pre) ++ to))
      by (rewrite !app_length; lia).
    destruct (IH ((done ++ pre) ++ to) post) as (out & E & R).
    { rewrite !app_length in L. destruct from; [congruence|simpl in L; lia]. }
    rewrite app_assoc. rewrite E. exists (pre ++ to ++ out). split.
    + rewrite <- !app_assoc. auto.
    + constructor; auto.
  - exists s. split; auto. constructor. now apply find_sub_none.
Qed.

Lemma replaceAll_correct s from to fuel :
  from <> [] -> length s < fuel ->
  exists out, replaceAll fuel s from to = Some out /\ replaced from to s out.
Proof. intros N L. exact (replaceAll_loop_spec from to N fuel [] s L). Qed.

Lemma first_occurrence_unique p pre post pre' post' :
  pre ++ p ++ post = pre' ++ p ++ post' ->
  first_occurrence p pre post -> first_occurrence p pre' post' ->
  pre = pre' /\ post = post'.
Proof.
  intros E F F'.
  assert (L : length pre = length pre').
  { apply Nat.le_antisymm; [eapply F; eauto | eapply F'; eauto]. }
  assert (pre = pre').
  { apply (f_equal (firstn (length pre))) in E. rewrite firstn_app_exact, L in E.
    rewrite firstn_app_exact in E. auto. }
  subst. apply app_inv_head in E. apply app_inv_head in E. auto.
Qed.

Lemma replaced_unique p q s o1 : replaced p q s o1 -> forall o2, replaced p q s o2 -> o1 = o2.
Proof.
  induction 1 as [s N|pre post out F R IH]; intros o2 R2.
  - inversion R2; subst; auto. exfalso. apply N. eexists; eauto.
  - inversion R2 as [? N|pre' post' out' F' R' E]; subst.
    + exfalso. apply N. eexists; eauto.
    + destruct (first_occurrence_unique _ _ _ _ _ E F' F) as (-> & ->).
      do 2 f_equal. auto.
Qed.

(** Structural version of the replacement, easier to reason about. *)
Lemma replaced_nil p q : p <> [] -> replaced p q [] [].
Proof.
  intros N. constructor. intros (a & b & E). symmetry in E. apply app_eq_nil in E.
  destruct E as (_ & E). apply app_eq_nil in E. tauto.
Qed.

Lemma replaced_hit p q s out : replaced p q s out -> replaced p q (p ++ s) (q ++ out).
Proof. intros R. apply (replaced_some p q [] s out); auto. intros a b _. simpl. lia. Qed.

Lemma replaced_miss p q c s out :
  (forall r, c :: s <> p ++ r) -> replaced p q s out -> replaced p q (c :: s) (c :: out).
Proof.
  intros NP R. inversion R as [? N E1 E2|pre post o F R' E1 E2]; subst.
  - constructor. intros (a & b & E). destruct a as [|y a]; simpl in E.
    + exact (NP _ E).
    + injection E as <- ->. apply N. exists a, b. auto.
  - apply (replaced_some p q (c :: pre) post o); auto.
    intros a b E. destruct a as [|y a].
    + exfalso. exact (NP _ E).
    + simpl in E. injection E as <- E. apply F in E. simpl. lia.
Qed.

(** Escaping one character is a character-wise substitution. *)
Definition esc1 (c : ascii) (img : str) (s : str) : str :=
  flat_map (fun x => if Ascii.eqb x c then img else [x]) s.

Lemma replaced_char c img s : replaced [c] img s (esc1 c img s).
Proof.
  induction s as [|x s IH]; simpl.
  - apply replaced_nil. discriminate.
  - destruct (Ascii.eqb_spec x c) as [->|N].
    + apply (replaced_hit [c] img s _ IH).
    + apply replaced_miss; auto. intros r [= E _]. congruence.
Qed.

Definition escText (s : str) : str := esc1 ">"%char (lit "&gt;") (esc1 "<"%char (lit "&lt;") s).

(** One pass over the text that escapes both characters. *)
Definition esc_char (x : ascii) : str :=
  if Ascii.eqb x "<" then lit "&lt;" else if Ascii.eqb x ">" then lit "&gt;" else [x].

Lemma escText_flat s : escText s = flat_map esc_char s.
Proof.
  unfold escText, esc1. induction s as [|x s IH]; auto.
  cbn [flat_map]. rewrite flat_map_app, IH. f_equal. unfold esc_char.
  destruct (Ascii.eqb x "<"); auto.
  cbn [flat_map]. rewrite app_nil_r. destruct (Ascii.eqb x ">"); auto.
Qed.

Lemma escapeXml_text s fuel :
  4 * length s < fuel -> escapeXml fuel s = Some (flat_map esc_char s).
Proof.
  intros L. unfold escapeXml.
  destruct (replaceAll_correct s (lit "<") (lit "&lt;") fuel) as (o & -> & R);
    [discriminate|lia|].
  pose proof (replaced_unique _ _ _ _ R _ (replaced_char _ _ _)) as ->.
  assert (Lo : length (esc1 "<"%char (lit "&lt;") s) <= 4 * length s).
  { clear. unfold esc1. induction s as [|x s IH]; [simpl; lia|cbn [flat_map]].
    rewrite app_length. cbn [length]. destruct (Ascii.eqb x "<");
      [change (length (lit "&lt;")) with 4|cbn [length]]; lia. }
  destruct (replaceAll_correct (esc1 "<"%char (lit "&lt;") s) (lit ">") (lit "&gt;") fuel)
    as (o & -> & R2); [discriminate|lia|].
  pose proof (replaced_unique _ _ _ _ R2 _ (replaced_char _ _ _)) as ->.
  rewrite <- escText_flat. reflexivity.
Qed.

(** *** Round trip of the XML escaping *)

Lemma replaced_length_le p q s o :
  length q <= length p -> replaced p q s o -> length o <= length s.
Proof.
  intros L R. induction R; auto. rewrite !app_length. lia.
Qed.

(** What the first unescaping pass makes of escaped text: [mid x] is the image of one
    source character after it. *)
Definition mid_char (x : ascii) : str :=
  if Ascii.eqb x ">" then lit "&gt;" else [x].

Lemma esc_char_head x r : exists y t, esc_char x ++ r = y :: t.
Proof.
  unfold esc_char. destruct (Ascii.eqb x "<"); [simpl; eauto|].
  destruct (Ascii.eqb x ">"); simpl; eauto.
Qed.

(** If escaped text starts with plain characters, so does its source. *)
Lemma flat_head f (y : ascii) s t :
  (forall x, f x = [x] \/ exists u, f x = "&"%char :: u) ->
  y <> "&"%char -> flat_map f s = y :: t ->
  exists s', s = y :: s' /\ flat_map f s' = t.
Proof.
  intros H N E. destruct s as [|x s]; [discriminate|]. simpl in E.
  destruct (H x) as [Hx|(u & Hx)]; rewrite Hx in E; simpl in E; injection E as E1 E2.
  - subst x. exists s. auto.
  - congruence.
Qed.

Lemma esc_char_shape x : esc_char x = [x] \/ exists u, esc_char x = "&"%char :: u.
Proof.
  unfold esc_char. destruct (Ascii.eqb x "<"); [right; simpl; eauto|].
  destruct (Ascii.eqb x ">"); [right; simpl; eauto|auto].
Qed.
Lemma mid_char_shape x : mid_char x = [x] \/ exists u, mid_char x = "&"%char :: u.
Proof.
  unfold mid_char. destruct (Ascii.eqb x ">"); [right; simpl; eauto|auto].
Qed.

Lemma esc_plain_occ s r :
  "&"%char :: flat_map esc_char s = lit "&lt;" ++ r ->
  exists s', s = lit "lt;" ++ s' /\ flat_map esc_char s' = r.
Proof.
  intros E. simpl in E. injection E as E.
  apply flat_head in E; [|apply esc_char_shape|discriminate]. destruct E as (s1 & -> & E).
  apply flat_head in E; [|apply esc_char_shape|discriminate]. destruct E as (s2 & -> & E).
  apply flat_head in E; [|apply esc_char_shape|discriminate]. destruct E as (s3 & -> & E).
  exists s3. auto.
Qed.

Lemma mid_plain_occ s r :
  "&"%char :: flat_map mid_char s = lit "&gt;" ++ r ->
  exists s', s = lit "gt;" ++ s' /\ flat_map mid_char s' = r.
Proof.
  intros E. simpl in E. injection E as E.
  apply flat_head in E; [|apply mid_char_shape|discriminate]. destruct E as (s1 & -> & E).
  apply flat_head in E; [|apply mid_char_shape|discriminate]. destruct E as (s2 & -> & E).
  apply flat_head in E; [|apply mid_char_shape|discriminate]. destruct E as (s3 & -> & E).
  exists s3. auto.
Qed.

Lemma occurs_cons p x s : occurs p s -> occurs p (x :: s).
Proof. intros (a & b & ->). exists (x :: a), b. auto. Qed.

Lemma unesc1_ok s :
  ~ occurs (lit "&lt;") s ->
  replaced (lit "&lt;") (lit "<") (flat_map esc_char s) (flat_map mid_char s).
Proof.
  induction s as [|x s IH]; intros N.
  - apply replaced_nil. discriminate.
  - assert (N' : ~ occurs (lit "&lt;") s) by (intros O; apply N, occurs_cons, O).
    specialize (IH N'). cbn [flat_map]. unfold esc_char at 1, mid_char at 1.
    destruct (Ascii.eqb_spec x "<") as [->|NL].
    { apply (replaced_hit (lit "&lt;") (lit "<") _ _ IH). }
    destruct (Ascii.eqb_spec x ">") as [->|NG].
    { change (lit "&gt;" ++ flat_map esc_char s)
        with ("&"%char :: "g"%char :: "t"%char :: ";"%char :: flat_map esc_char s).
      repeat apply replaced_miss; auto; intros r E; simpl in E; discriminate. }
    simpl. apply replaced_miss; auto. intros r E.
    pose proof E as E0. simpl in E0. injection E0 as -> _.
    apply esc_plain_occ in E. destruct E as (s' & -> & _).
    apply N. exists [], s'. auto.
Qed.

Lemma unesc2_ok s :
  ~ occurs (lit "&gt;") s ->
  replaced (lit "&gt;") (lit ">") (flat_map mid_char s) s.
Proof.
  induction s as [|x s IH]; intros N.
  - apply replaced_nil. discriminate.
  - assert (N' : ~ occurs (lit "&gt;") s) by (intros O; apply N, occurs_cons, O).
    specialize (IH N'). cbn [flat_map]. unfold mid_char at 1.
    destruct (Ascii.eqb_spec x ">") as [->|NG].
    { apply (replaced_hit (lit "&gt;") (lit ">") _ _ IH). }
    simpl. apply replaced_miss; auto. intros r E.
    pose proof E as E0. simpl in E0. injection E0 as -> _.
    apply mid_plain_occ in E. destruct E as (s' & -> & _).
    apply N. exists [], s'. auto.
Qed.

Lemma occurs_around_char r c (a b x y : str) :
  ~ In c r -> a ++ r ++ b = x ++ c :: y ->
  (exists b', x = a ++ r ++ b') \/ occurs r y.
Proof.
  intros N. revert x. induction a as [|z a IH]; intros x E; simpl in E.
  - destruct x as [|w x].
    + simpl in E. destruct r as [|d r].
      * right. exists [], y. auto.
      * simpl in E. injection E as -> _. exfalso. apply N. left; auto.
    + left. revert r N E. generalize (w :: x). clear. intros x. induction x as [|w x IH]; intros r N E.
      * simpl in E. destruct r as [|d r]; [exists []; auto|].
        simpl in E. injection E as -> _. exfalso. apply N. left; auto.
      * destruct r as [|d r]; [exists (w :: x); auto|].
        simpl in E. injection E as -> E. destruct (IH r) as (b' & ->); auto.
        { intros I. apply N. right; auto. }
        exists b'. auto.
  - destruct x as [|w x]; simpl in E; injection E as <- E.
    + right. exists a, b. auto.
    + destruct (IH x E) as [(b' & ->)|O]; [left; exists b'; auto|right; auto].
Qed.

Lemma replaced_no_new p c r s o :
  replaced p [c] s o -> ~ In c r -> occurs r o -> occurs r s.
Proof.
  intros R N. induction R as [s N0|pre post out F R IH]; auto.
  intros (a & b & E). simpl in E. symmetry in E.
  destruct (occurs_around_char r c a b pre out N E) as [(b' & ->)|O].
  - exists a, (b' ++ p ++ post). now rewrite <- !app_assoc.
  - destruct (IH O) as (a' & b' & ->). exists (pre ++ p ++ a'), b'. now rewrite <- !app_assoc.
Qed.

Lemma replaced_removes p c s o :
  p <> [] -> replaced p [c] s o -> ~ In c p -> ~ occurs p o.
Proof.
  intros NE R N. induction R as [s N0|pre post out F R IH]; auto.
  intros (a & b & E). simpl in E. symmetry in E.
  destruct (occurs_around_char p c a b pre out N E) as [(b' & ->)|O]; auto.
  specialize (F a (b' ++ p ++ post)). rewrite <- !app_assoc in F. specialize (F eq_refl).
  rewrite !app_length in F. destruct p; [congruence|simpl in F; lia].
Qed.

Lemma unescapeXml_total s fuel :
  length s < fuel ->
  exists o1 o2, unescapeXml fuel s = Some o2 /\
    replaced (lit "&lt;") (lit "<") s o1 /\ replaced (lit "&gt;") (lit ">") o1 o2.
Proof.
  intros L. unfold unescapeXml.
  destruct (replaceAll_correct s (lit "&lt;") (lit "<") fuel) as (o1 & -> & R1);
    [discriminate|lia|].
  assert (length o1 <= length s) by (eapply replaced_length_le; [|exact R1]; simpl; lia).
  destruct (replaceAll_correct o1 (lit "&gt;") (lit ">") fuel) as (o2 & -> & R2);
    [discriminate|lia|].
  exists o1, o2. auto.
Qed.

Lemma flat_esc_length s : length (flat_map esc_char s) <= 4 * length s.
Proof.
  induction s as [|x s IH]; [simpl; lia|cbn [flat_map]].
  rewrite app_length. unfold esc_char at 1. cbn [length].
  destruct (Ascii.eqb x "<"); [change (length (lit "&lt;")) with 4; lia|].
  destruct (Ascii.eqb x ">"); [change (length (lit "&gt;")) with 4|cbn [length]]; lia.
Qed.

Lemma xml_roundtrip_iff s fuel :
  4 * length s < fuel ->
  exists e u, escapeXml fuel s = Some e /\ unescapeXml fuel e = Some u /\
    ~ In "<"%char e /\ ~ In ">"%char e /\
    (u = s <-> ~ occurs (lit "&lt;") s /\ ~ occurs (lit "&gt;") s).
Proof.
  intros L. exists (flat_map esc_char s).
  pose proof (flat_esc_length s).
  destruct (unescapeXml_total (flat_map esc_char s) fuel) as (o1 & o2 & E & R1 & R2); [lia|].
  exists o2. rewrite escapeXml_text by auto. repeat split; auto.
  - intros I. apply in_flat_map in I. destruct I as (x & _ & I). unfold esc_char in I.
    destruct (Ascii.eqb_spec x "<"); [simpl in I; intuition discriminate|].
    destruct (Ascii.eqb_spec x ">"); [simpl in I; intuition discriminate|].
    simpl in I. intuition congruence.
  - intros I. apply in_flat_map in I. destruct I as (x & _ & I). unfold esc_char in I.
    destruct (Ascii.eqb_spec x "<"); [simpl in I; intuition discriminate|].
    destruct (Ascii.eqb_spec x ">"); [simpl in I; intuition discriminate|].
    simpl in I. intuition congruence.
  - subst o2. intros O.
    apply (replaced_no_new _ _ (lit "&lt;") _ _ R2) in O; [|simpl; intuition discriminate].
    revert O. eapply replaced_removes; [|exact R1|]; [discriminate|simpl; intuition discriminate].
  - subst o2. eapply replaced_removes; [|exact R2|]; [discriminate|simpl; intuition discriminate].
  - intros (N1 & N2).
    pose proof (replaced_unique _ _ _ _ R1 _ (unesc1_ok s N1)) as ->.
    exact (replaced_unique _ _ _ _ R2 _ (unesc2_ok s N2)).
Qed.

(** With an empty pattern the loop never ends. *)
Lemma replaceAll_empty_diverges to : forall fuel s p, replaceAll_loop fuel [] to s p = None.
Proof.
  induction fuel as [|f IH]; intros s p; simpl; auto.
  unfold find_sub_from. destruct (skipn p s); simpl; apply IH.
Qed.

(** ** Addressed messages *)

Lemma isValidAddress_spec a : isValidAddress a = true <-> a <> [] /\ free_of "$" a.
Proof.
  unfold isValidAddress. pose proof (find_char_none "$" a) as H.
  change addrDelim with "$"%char.
  destruct a as [|x a].
  - simpl. split; [discriminate|]. intros (N & _). congruence.
  - replace (length (x :: a) <? 1) with false by reflexivity.
    destruct (find_char "$" (x :: a)) as [n|].
    + split; [discriminate|]. intros (_ & N). apply H in N. discriminate.
    + split; auto. intros _. split; [discriminate|]. apply H. auto.
Qed.

Lemma setAddressAndPayload_spec m a p m' :
  setAddressAndPayload m a p = (m', true) <->
  (a <> [] /\ free_of "$" a /\ p <> []) /\ m' = mkAddressed true (join "$" [a; p]) a p.
Proof.
  unfold setAddressAndPayload. destruct (isValidAddress a) eqn:V; simpl.
  - apply isValidAddress_spec in V. destruct p as [|c p]; simpl.
    + split; [discriminate|]. tauto.
    + split.
      * intros [= <-]. repeat split; try tauto. discriminate.
      * intros (_ & ->). reflexivity.
  - split; [discriminate|]. intros ((A & B & _) & _).
    assert (isValidAddress a = true) by (apply isValidAddress_spec; auto). congruence.
Qed.

Lemma addressed_roundtrip m0 m1 m2 a p :
  setAddressAndPayload m0 a p = (m1, true) -> 2 <= length p ->
  setAddressAndPayloadFromDelimitedString m2 (am_string m1)
  = (mkAddressed true (am_string m1) a p, true).
Proof.
  intros S L. apply setAddressAndPayload_spec in S. destruct S as ((NA & F & NP) & ->).
  simpl am_string. unfold setAddressAndPayloadFromDelimitedString, parseAddressed.
  assert (La : 1 <= length a) by (destruct a; [congruence|simpl; lia]).
  assert (Ls : length (a ++ "$"%char :: p) = length a + S (length p))
    by (rewrite app_length; auto).
  rewrite Ls. unfold minAddressedLength.
  destruct (Nat.leb_spec 3 (length a + S (length p))); [|lia].
  change addrDelim with "$"%char. rewrite find_char_app by exact F.
  destruct (Nat.leb_spec (length a) (length a + S (length p) - 3)); [|lia].
  rewrite substr_0.
  replace (substr (length a + 1) (length a + S (length p) - (length a + 1)) (a ++ "$"%char :: p))
    with p.
  2:{ replace (a ++ "$"%char :: p) with ((a ++ ["$"%char]) ++ p) by (now rewrite <- app_assoc).
      replace (length a + 1) with (length (a ++ ["$"%char])) by (rewrite app_length; auto).
      symmetry. apply substr_end. rewrite app_length. simpl. lia. }
  apply setAddressAndPayload_spec. auto.
Qed.

Lemma addressed_parse_sound m m' s :
  setAddressAndPayloadFromDelimitedString m s = (m', true) <->
  exists a p, s = join "$" [a; p] /\ a <> [] /\ free_of "$" a /\ 2 <= length p /\
    m' = mkAddressed true s a p.
Proof.
  split.
  - unfold setAddressAndPayloadFromDelimitedString, parseAddressed, minAddressedLength.
    destruct (Nat.leb_spec 3 (length s)) as [L|]; [|discriminate].
    destruct (find_char addrDelim s) as [e|] eqn:F; [|discriminate].
    apply find_char_some in F. destruct F as (a & p & -> & N & <-).
    rewrite app_length in *. simpl length in *.
    destruct (Nat.leb_spec (length a) (length a + S (length p) - 3)) as [L2|]; [|discriminate].
    rewrite substr_0.
    replace (substr _ _ _) with p.
    2:{ replace (a ++ addrDelim :: p) with ((a ++ [addrDelim]) ++ p) by (now rewrite <- app_assoc).
        replace (length a + 1) with (length (a ++ [addrDelim])) by (rewrite app_length; auto).
        symmetry. apply substr_end. rewrite app_length. simpl. lia. }
    intros S. apply setAddressAndPayload_spec in S. destruct S as ((NA & F & NP) & ->).
    exists a, p. repeat split; auto.
    destruct a; [congruence|]. simpl in *. lia.
  - intros (a & p & -> & NA & F & L & ->).
    assert (NP : p <> []) by (intros ->; simpl in L; lia).
    pose proof (proj2 (setAddressAndPayload_spec new_addressed a p _)
      (conj (conj NA (conj F NP)) eq_refl)) as S.
    exact (addressed_roundtrip _ _ m a p S L).
Qed.

(** ** Attributes *)

Lemma setAttributes_spec m c d g e s m' :
  setAttributes m c d g e s = (m', true) <->
  (c <> [] /\ d <> [] /\ e <> [] /\ s <> []) /\
  m' = mkAttrs true (join "|" [c; d; g; e; s]) c d g e s.
Proof.
  unfold setAttributes, at_invalidate.
  destruct c; simpl; [split; [discriminate|tauto]|].
  destruct d; simpl; [split; [discriminate|tauto]|].
  destruct e; simpl; [split; [discriminate|tauto]|].
  destruct s; simpl; [split; [discriminate|tauto]|].
  split.
  - intros [= <-]. repeat split; discriminate.
  - intros (_ & ->). reflexivity.
Qed.

Lemma join5_length c d g e s :
  length (join "|" [c; d; g; e; s])
  = length c + length d + length g + length e + length s + 4.
Proof. simpl. repeat (rewrite app_length; simpl). lia. Qed.

Lemma parseAttrs_spec m s m' :
  setAttributesFromDelimitedString m s = (m', true) <->
  exists c d g e v, s = join "|" [c; d; g; e; v] /\
    (free_of "|" c /\ free_of "|" d /\ free_of "|" g /\ free_of "|" e /\ free_of "|" v) /\
    (c <> [] /\ d <> [] /\ e <> [] /\ v <> []) /\
    m' = mkAttrs true s c d g e v.
Proof.
  unfold setAttributesFromDelimitedString, parseAttrs, minAttrsLength. split.
  - destruct (Nat.leb_spec 8 (length s)) as [L|]; [|discriminate].
    rewrite split_pieces by lia.
    pose proof (pieces_join fieldDelim s []) as J. simpl rev in J. simpl app in J.
    pose proof (pieces_free fieldDelim s [] (fun x => x)) as F.
    destruct (pieces fieldDelim [] s) as [|c [|d [|g [|e [|v [|? ?]]]]]]; try discriminate.
    intros S. apply setAttributes_spec in S. destruct S as (NE & ->).
    inversion F as [|? ? F1 F']; subst. inversion F' as [|? ? F2 F'']; subst.
    inversion F'' as [|? ? F3 F3']; subst. inversion F3' as [|? ? F4 F4']; subst.
    inversion F4' as [|? ? F5 ?]; subst.
    exists c, d, g, e, v. repeat split; try tauto; auto.
  - intros (c & d & g & e & v & -> & (F1 & F2 & F3 & F4 & F5) & NE & ->).
    destruct (Nat.leb_spec 8 (length (join "|" [c; d; g; e; v]))) as [L|L].
    2:{ rewrite join5_length in L.
        destruct c, d, e, v; try (exfalso; tauto); simpl in L; lia. }
    rewrite split_pieces by lia. change fieldDelim with "|"%char.
    rewrite pieces_of_join; auto.
    simpl rev. simpl app at 1. apply setAttributes_spec. auto.
Qed.

(** ** Addressed attributed messages *)

Lemma setAam_spec m a c d g e s p m' :
  setAam m a c d g e s p = (m', true) <->
  (a <> [] /\ free_of "$" a /\ p <> [] /\ c <> [] /\ d <> [] /\ e <> [] /\ s <> []) /\
  m' = mkAam true (wire_text a c d g e s p) a p
         (Some (mkAttrs true (join "|" [c; d; g; e; s]) c d g e s)).
Proof.
  unfold setAam, aam_invalidate. destruct (isValidAddress a) eqn:V; simpl negb; cbv iota.
  - apply isValidAddress_spec in V. destruct p as [|x p]; simpl (length _ <? 1); cbv iota.
    + split; [discriminate|tauto].
    + destruct (setAttributes new_attrs c d g e s) as (at', ok) eqn:SA. destruct ok.
      * apply setAttributes_spec in SA. destruct SA as (NE & ->). split.
        -- intros [= <-]. repeat split; try tauto. discriminate.
        -- intros (_ & ->). reflexivity.
      * split; [discriminate|]. intros ((_ & _ & _ & NE) & _).
        pose proof (proj2 (setAttributes_spec new_attrs c d g e s _) (conj NE eq_refl)).
        congruence.
  - split; [discriminate|]. intros ((A & B & _) & _).
    assert (isValidAddress a = true) by (apply isValidAddress_spec; auto). congruence.
Qed.

Lemma free_join5 x c d g e s :
  x <> "|"%char ->
  (free_of x (join "|" [c; d; g; e; s]) <->
   free_of x c /\ free_of x d /\ free_of x g /\ free_of x e /\ free_of x s).
Proof.
  intros N. unfold free_of. simpl.
  repeat (rewrite in_app_iff; simpl). intuition congruence.
Qed.

Lemma parseAam_spec m s m' :
  setAamFromDelimitedString m s = (m', true) <->
  exists a c d g e v p,
    s = wire_text a c d g e v p /\
    free_of "$" a /\ clean c /\ clean d /\ clean g /\ clean e /\ clean v /\
    c <> [] /\ d <> [] /\ e <> [] /\ v <> [] /\ p <> [] /\
    m' = mkAam true s a p (Some (mkAttrs true (join "|" [c; d; g; e; v]) c d g e v)).
Proof.
  unfold setAamFromDelimitedString, parseAam, minAamLength. split.
  - destruct (Nat.leb_spec 11 (length s)) as [L|]; [|discriminate].
    destruct (find_char addrDelim s) as [e1|] eqn:F1; [|discriminate].
    destruct (Nat.ltb_spec (length s - 11) e1) as [|L1]; [discriminate|].
    destruct (find_char_from addrDelim (e1 + 1) s) as [e2|] eqn:F2; [|discriminate].
    destruct (Nat.eqb_spec e2 (length s - 1)) as [|NE2]; [discriminate|].
    apply find_char_some in F1. destruct F1 as (a & r & -> & Fa & <-).
    unfold find_char_from in F2.
    replace (a ++ addrDelim :: r) with ((a ++ [addrDelim]) ++ r) in * by (now rewrite <- app_assoc).
    replace (length a + 1) with (length (a ++ [addrDelim])) in * by (rewrite app_length; auto).
    rewrite skipn_app_exact in F2.
    destruct (find_char addrDelim r) as [k|] eqn:F3; [|discriminate].
    injection F2 as <-. apply find_char_some in F3. destruct F3 as (t & p & -> & Ft & <-).
    replace (length (a ++ [addrDelim]) + length t - length (a ++ [addrDelim]))
      with (length t) by lia.
    rewrite substr_mid.
    destruct (setAttributesFromDelimitedString new_attrs t) as (at', ok) eqn:SA.
    destruct ok; [|discriminate].
    apply parseAttrs_spec in SA.
    destruct SA as (c & d & g & e & v & Ht & (G1 & G2 & G3 & G4 & G5) & (N1 & N2 & N3 & N4) & ->).
    change addrDelim with "$"%char in *.
    assert (Ft' := Ft). rewrite Ht in Ft'. apply free_join5 in Ft'; [|discriminate].
    intros [= <-]. exists a, c, d, g, e, v, p.
    assert (Es : (a ++ ["$"%char]) ++ t ++ "$"%char :: p
                 = wire_text a c d g e v p).
    { unfold wire_text. rewrite <- app_assoc, Ht. reflexivity. }
    assert (NP : p <> []).
    { intros ->. apply NE2. rewrite !app_length. simpl length. lia. }
    rewrite Es at 1. unfold clean. repeat split; auto; try tauto.
    f_equal.
    + rewrite <- app_assoc. apply substr_0.
    + replace ((a ++ ["$"%char]) ++ t ++ "$"%char :: p)
        with (((a ++ ["$"%char]) ++ t ++ ["$"%char]) ++ p) by (rewrite <- !app_assoc; auto).
      replace (length (a ++ ["$"%char]) + length t + 1)
        with (length ((a ++ ["$"%char]) ++ t ++ ["$"%char])) by (rewrite !app_length; simpl; lia).
      apply substr_end. rewrite (app_length _ p). lia.
    + rewrite <- Ht. reflexivity.
  - intros (a & c & d & g & e & v & p & -> & Fa & Cc & Cd & Cg & Ce & Cv & N1 & N2 & N3 & N4 & NP & ->).
    unfold clean in *.
    set (t := join "|" [c; d; g; e; v]).
    assert (Lt : 8 <= length t).
    { unfold t. rewrite join5_length. destruct c, d, e, v; try congruence; simpl; lia. }
    assert (Lp : 1 <= length p) by (destruct p; [congruence|simpl; lia]).
    assert (Es : wire_text a c d g e v p = a ++ "$"%char :: t ++ "$"%char :: p) by reflexivity.
    rewrite Es.
    assert (Ls : length (a ++ "$"%char :: t ++ "$"%char :: p)
                 = length a + length t + length p + 2).
    { rewrite app_length. simpl. rewrite app_length. simpl. lia. }
    rewrite Ls. destruct (Nat.leb_spec 11 (length a + length t + length p + 2)); [|lia].
    change addrDelim with "$"%char. rewrite find_char_app by exact Fa.
    destruct (Nat.ltb_spec (length a + length t + length p + 2 - 11) (length a)); [lia|].
    unfold find_char_from.
    replace (a ++ "$"%char :: t ++ "$"%char :: p)
      with ((a ++ ["$"%char]) ++ t ++ "$"%char :: p) by (now rewrite <- app_assoc).
    replace (length a + 1) with (length (a ++ ["$"%char])) by (rewrite app_length; auto).
    rewrite skipn_app_exact.
    assert (Ft : free_of "$" t) by (apply free_join5; [discriminate|tauto]).
    rewrite find_char_app by exact Ft.
    assert (La : length (a ++ ["$"%char]) = length a + 1) by (rewrite app_length; auto).
    destruct (Nat.eqb_spec (length (a ++ ["$"%char]) + length t)
                (length a + length t + length p + 2 - 1)); [lia|].
    replace (length (a ++ ["$"%char]) + length t - length (a ++ ["$"%char]))
      with (length t) by lia.
    rewrite substr_mid.
    assert (SA : setAttributesFromDelimitedString new_attrs t
                 = (mkAttrs true t c d g e v, true)).
    { apply parseAttrs_spec. exists c, d, g, e, v. repeat split; tauto. }
    rewrite SA. f_equal. f_equal.
    + rewrite <- app_assoc. apply substr_0.
    + replace ((a ++ ["$"%char]) ++ t ++ "$"%char :: p)
        with (((a ++ ["$"%char]) ++ t ++ ["$"%char]) ++ p) by (rewrite <- !app_assoc; auto).
      replace (length (a ++ ["$"%char]) + length t + 1)
        with (length ((a ++ ["$"%char]) ++ t ++ ["$"%char])) by (rewrite !app_length; simpl; lia).
      apply substr_end. rewrite !app_length. simpl. lia.
Qed.

(** ** Object histories *)

Definition consistent (m : aamsg) : Prop :=
  match aam_attrs m with
  | None => True
  | Some t =>
      aam_valid m = true ->
      at_valid t = true /\
      at_string t = join "|" [at_contentType t; at_descriptor t; at_group t; at_entity t; at_service t] /\
      at_contentType t <> [] /\ at_descriptor t <> [] /\ at_entity t <> [] /\ at_service t <> [] /\
      aam_payload m <> [] /\
      aam_string m = wire_text (aam_address m) (at_contentType t) (at_descriptor t)
                       (at_group t) (at_entity t) (at_service t) (aam_payload m)
  end.

Lemma setAam_false m a c d g e s p m' :
  setAam m a c d g e s p = (m', false) -> aam_valid m' = false.
Proof.
  unfold setAam, aam_invalidate. destruct (negb _); [intros [= <-]; auto|].
  destruct (length p <? 1); [intros [= <-]; auto|].
  destruct (setAttributes _ _ _ _ _ _) as (at', ok). destruct ok; [discriminate|].
  intros [= <-]; auto.
Qed.

Lemma parse_false m t m' :
  setAamFromDelimitedString m t = (m', false) -> aam_valid m' = false.
Proof.
  unfold setAamFromDelimitedString, parseAam, aam_invalidate.
  destruct (_ <=? _); [|intros [= <-]; auto].
  destruct (find_char _ _); [|intros [= <-]; auto].
  destruct (_ <? _); [intros [= <-]; auto|].
  destruct (find_char_from _ _ _); [|intros [= <-]; auto].
  destruct (_ =? _); [intros [= <-]; auto|].
  destruct (setAttributesFromDelimitedString _ _) as (at', ok). destruct ok; [discriminate|].
  intros [= <-]; auto.
Qed.

Lemma consistent_invalid m : aam_valid m = false -> consistent m.
Proof. unfold consistent. destruct (aam_attrs m); auto. congruence. Qed.

Lemma consistent_step m o m' : consistent m -> mop_step m o = Some m' -> consistent m'.
Proof.
  intros C. destruct o as [a c d g e s p|t|g e s|a|]; simpl.
  - destruct (setAam m a c d g e s p) as (m1, ok) eqn:E. intros [= <-]. simpl. destruct ok.
    + apply setAam_spec in E. destruct E as (H & ->). simpl. intros _.
      repeat split; tauto.
    + apply consistent_invalid. eapply setAam_false; eauto.
  - destruct (setAamFromDelimitedString m t) as (m1, ok) eqn:E. intros [= <-]. simpl. destruct ok.
    + apply parseAam_spec in E.
      destruct E as (a & c & d & g & e & v & p & E & _ & _ & _ & _ & _ & _ & N1 & N2 & N3 & N4 & N5 & ->).
      simpl. intros _. repeat split; auto.
    + apply consistent_invalid. eapply parse_false; eauto.
  - unfold aam_updateSource. unfold consistent in C.
    destruct (aam_attrs m) as [t|]; [|discriminate].
    unfold at_updateSource, at_invalidate. cbv zeta.
    destruct e as [|e0 e]; simpl.
    { intros [= <-]. apply consistent_invalid. simpl. apply andb_false_r. }
    destruct s as [|s0 s]; simpl.
    { intros [= <-]. apply consistent_invalid. simpl. apply andb_false_r. }
    intros [= <-]. simpl. intros V. apply andb_true_iff in V. destruct V as (V1 & V2).
    destruct (C V1) as (_ & _ & N1 & N2 & _ & _ & NP & _).
    repeat split; auto; discriminate.
  - unfold aam_updateAddress. unfold consistent in C.
    destruct (aam_attrs m) as [t|]; [|discriminate].
    intros [= <-]. simpl. intros V. destruct (C V) as (A & B & N1 & N2 & N3 & N4 & NP & S).
    repeat split; auto. rewrite B. reflexivity.
  - intros [= <-]. simpl. exact I.
Qed.

Lemma run_consistent l : forall m, mop_run l = Some m -> consistent m.
Proof.
  unfold mop_run. induction l as [|o l IH] using rev_ind; intros m; simpl.
  - intros [= <-]. exact I.
  - rewrite fold_left_app. simpl.
    destruct (fold_left _ l _) as [m0|]; [|discriminate].
    intros E. eapply consistent_step; eauto.
Qed.

(** Lemmas about the notation of task relationships. *)
From Coq Require Import String Ascii List Arith ZArith NArith Bool Lia.
From Verif Require Import Base Decimal10 MsgSpec MsgProofs AlgebraModel AlgebraSpec AlgebraProofs
  SerialModel SerialSpec SerialProofs FormulaModel FormulaSpec.
Import ListNotations.
Open Scope list_scope.

Scheme writes_mut := Minimality for writes Sort Prop
  with writes_list_mut := Minimality for writes_list Sort Prop.
Combined Scheme writes_both from writes_mut, writes_list_mut.

(** ** Digits *)

Lemma digit_not (c x : ascii) : is_digit c = true -> is_digit x = false -> Ascii.eqb c x = false.
Proof.
  intros D N. destruct (Ascii.eqb_spec c x) as [->|]; auto. congruence.
Qed.

Lemma digits_cons c d : all_digits (c :: d) -> is_digit c = true /\ all_digits d.
Proof.
  intros H. pose proof (spec_digits _ H) as F. cbn in F. apply andb_prop in F.
  inversion H; subst. tauto.
Qed.

Lemma digit_prefix_app d t :
  all_digits d -> (match t with [] => True | c :: _ => is_digit c = false end) ->
  digit_prefix (d ++ t) = d.
Proof.
  induction d as [|c d IH]; intros D T; cbn [app digit_prefix].
  - destruct t as [|c t]; auto. cbn. rewrite T. auto.
  - apply digits_cons in D. destruct D as (-> & D). f_equal. auto.
Qed.

Lemma digit_not_space c : is_digit c = true -> is_space c = false /\
  Ascii.eqb c "-" = false /\ Ascii.eqb c "+" = false.
Proof.
  intros D. split; [|split; apply digit_not; auto].
  destruct c as [[] [] [] [] [] [] [] []]; try discriminate D; reflexivity.
Qed.

Lemma leading_number_app d t :
  d <> [] -> all_digits d -> (match t with [] => True | c :: _ => is_digit c = false end) ->
  leading_number (d ++ t) = Some (Z.of_N (dec_value d)).
Proof.
  intros N D T. destruct d as [|c d]; [congruence|].
  pose proof (digits_cons _ _ D) as (Dc & _).
  destruct (digit_not_space c Dc) as (S & M & P).
  unfold leading_number. cbn [app skip_space]. rewrite S. rewrite M, P.
  change (c :: d ++ t) with ((c :: d) ++ t). rewrite digit_prefix_app by auto. reflexivity.
Qed.

Lemma atoll_app d t :
  d <> [] -> all_digits d -> (dec_value d < 2 ^ 63)%N ->
  (match t with [] => True | c :: _ => is_digit c = false end) ->
  atoll (d ++ t) = Z.of_N (dec_value d).
Proof.
  intros N D L T. unfold atoll. rewrite leading_number_app by auto.
  change (2 ^ 63)%N with 9223372036854775808%N in L. unfold int64_min, int64_max. lia.
Qed.

Lemma stoll_app d t :
  d <> [] -> all_digits d -> (dec_value d < 2 ^ 63)%N ->
  (match t with [] => True | c :: _ => is_digit c = false end) ->
  stoll (d ++ t) = Some (Z.of_N (dec_value d)).
Proof.
  intros N D L T. unfold stoll. rewrite leading_number_app by auto.
  change (2 ^ 63)%N with 9223372036854775808%N in L. unfold int64_min, int64_max.
  destruct (Z.leb_spec (-9223372036854775808) (Z.of_N (dec_value d))); [|lia].
  destruct (Z.leb_spec (Z.of_N (dec_value d)) 9223372036854775807); [|lia]. reflexivity.
Qed.

(** ** Texts inside parentheses *)

Definition skips (s : str) : Prop :=
  forall n t, (1 <= n)%Z ->
    take_balanced n (s ++ t) = s ++ take_balanced n t /\ operands n (s ++ t) = operands n t.

Lemma skips_nil : skips [].
Proof. intros n t L. auto. Qed.

Lemma skips_app a b : skips a -> skips b -> skips (a ++ b).
Proof.
  intros A B n t L. rewrite <- app_assoc. destruct (A n (b ++ t) L) as (-> & ->).
  destruct (B n t L) as (-> & ->). rewrite app_assoc. auto.
Qed.

Lemma skips_char c :
  Ascii.eqb c "(" = false -> Ascii.eqb c ")" = false -> skips [c].
Proof.
  intros E1 E2 n t L. cbn [app take_balanced operands]. rewrite E1, E2.
  destruct (Z.eqb_spec n 0); [lia|]. split; auto.
  destruct (Ascii.eqb c "+" || Ascii.eqb c "." || Ascii.eqb c "|"); auto.
  destruct (Ascii.eqb c "p"); auto.
Qed.

Lemma skips_digits d : all_digits d -> skips d.
Proof.
  induction d as [|c d IH]; intros D; [apply skips_nil|].
  apply digits_cons in D. destruct D as (Dc & D).
  change (c :: d) with ([c] ++ d). apply skips_app; auto.
  apply skips_char; apply digit_not; auto.
Qed.

Lemma skips_parens s : skips s -> skips ("("%char :: s ++ [")"%char]).
Proof.
  intros S n t L. cbn [app take_balanced operands].
  change (Ascii.eqb "(" "(") with true. change (Ascii.eqb "(" ")") with false.
  change (Ascii.eqb "(" "+" || Ascii.eqb "(" "." || Ascii.eqb "(" "|") with false.
  change (Ascii.eqb "(" "p") with false. cbv iota.
  destruct (Z.eqb_spec (n + 1) 0); [lia|]. rewrite <- app_assoc.
  destruct (S (n + 1)%Z ([")"%char] ++ t)) as (-> & ->); [lia|].
  cbn [app take_balanced operands].
  change (Ascii.eqb ")" "(") with false. change (Ascii.eqb ")" ")") with true.
  change (Ascii.eqb ")" "+" || Ascii.eqb ")" "." || Ascii.eqb ")" "|") with false.
  change (Ascii.eqb ")" "p") with false. cbv iota.
  replace (n + 1 - 1)%Z with n by lia.
  destruct (Z.eqb_spec n 0); [lia|]. rewrite <- app_assoc. auto.
Qed.

Lemma op_char_cases o :
  Ascii.eqb (op_char o) "(" = false /\ Ascii.eqb (op_char o) ")" = false /\
  Ascii.eqb (op_char o) "p" = false /\
  Ascii.eqb (op_char o) "+" || Ascii.eqb (op_char o) "." || Ascii.eqb (op_char o) "|" = true /\
  find_head 0 [op_char o] = Some (0, Some o).
Proof. destruct o; repeat split. Qed.

Lemma writes_skips :
  (forall e s, writes e s -> skips s) /\ (forall cs s, writes_list cs s -> skips s).
Proof.
  apply writes_both.
  - intros d _ D _. change ("p"%char :: d) with (["p"%char] ++ d).
    apply skips_app; [apply skips_char; reflexivity|apply skips_digits; auto].
  - intros o cs body _ S.
    change (op_char o :: "("%char :: body ++ [")"%char])
      with ([op_char o] ++ ("("%char :: body ++ [")"%char])).
    destruct (op_char_cases o) as (E1 & E2 & _).
    apply skips_app; [apply skips_char; auto|apply skips_parens; auto].
  - apply skips_nil.
  - auto.
  - intros cs body _ S. change (" "%char :: body) with ([" "%char] ++ body).
    apply skips_app; auto. apply skips_char; reflexivity.
  - intros c s cs body _ S1 _ S2. apply skips_app; auto.
    change (" "%char :: body) with ([" "%char] ++ body).
    apply skips_app; auto. apply skips_char; reflexivity.
  - intros c s cs body _ _ S1 _ S2. apply skips_app; auto.
Qed.

(** ** Operands *)

(** The text found for an operand: its own text, or with a space behind an action. *)
Definition operand_text (e : expr) (x : str) : Prop :=
  exists s, writes e s /\ (x = s \/ (x = s ++ [" "%char] /\ ~ is_operator e)).

Lemma take_action_digits d t :
  all_digits d -> (t = [] \/ exists t', t = " "%char :: t') ->
  take_action (d ++ t) = d ++ firstn 1 t.
Proof.
  induction d as [|c d IH]; intros D T; cbn [app take_action].
  - destruct T as [->|(t' & ->)]; reflexivity.
  - apply digits_cons in D. destruct D as (Dc & D).
    rewrite (digit_not c ")"), (digit_not c " ") by auto. cbn [orb]. f_equal. auto.
Qed.

Lemma operands_digits d t : all_digits d -> operands 0 (d ++ t) = operands 0 t.
Proof.
  induction d as [|c d IH]; intros D; cbn [app operands]; auto.
  apply digits_cons in D. destruct D as (Dc & D).
  rewrite (digit_not c "+"), (digit_not c "."), (digit_not c "|"), (digit_not c "p"),
    (digit_not c "("), (digit_not c ")") by auto. cbn [orb]. auto.
Qed.

Lemma operand_one e s t :
  writes e s -> (is_operator e \/ t = [] \/ exists t', t = " "%char :: t') ->
  exists x, operand_text e x /\ operands 0 (s ++ t) = x :: operands 0 t.
Proof.
  intros W T. pose proof W as W0. destruct W as [d N D L|o cs body B].
  - exists ("p"%char :: take_action (d ++ t)). split.
    + exists ("p"%char :: d). split; auto.
      destruct T as [[]|T]. rewrite take_action_digits by auto.
      destruct T as [->|(t' & ->)]; cbn [firstn].
      * rewrite app_nil_r. auto.
      * right. split; auto.
    + cbn [app operands].
      change (Ascii.eqb "p" "+" || Ascii.eqb "p" "." || Ascii.eqb "p" "|") with false.
      change (Ascii.eqb "p" "p") with true. cbv iota. cbn [Z.eqb].
      rewrite operands_digits by auto. auto.
  - exists (op_char o :: "("%char :: body ++ [")"%char]). split.
    + eexists. split; eauto.
    + destruct (op_char_cases o) as (E1 & E2 & E3 & E4 & _).
      pose proof (proj2 writes_skips _ _ B) as S.
      cbn [app operands]. rewrite E4. cbn [Z.eqb]. cbv iota. f_equal.
      * f_equal. cbn [take_balanced].
        change (Ascii.eqb "(" "(") with true. change (Ascii.eqb "(" ")") with false. cbv iota.
        change ((0 + 1 =? 0)%Z) with false. cbv iota. f_equal.
        rewrite <- app_assoc. destruct (S (0 + 1)%Z ([")"%char] ++ t)) as (-> & _); [lia|].
        reflexivity.
      * cbn [operands].
        change (Ascii.eqb "(" "+" || Ascii.eqb "(" "." || Ascii.eqb "(" "|") with false.
        change (Ascii.eqb "(" "p") with false. change (Ascii.eqb "(" "(") with true. cbv iota.
        rewrite <- app_assoc. destruct (S (0 + 1)%Z ([")"%char] ++ t)) as (_ & ->); [lia|].
        reflexivity.
Qed.

Lemma operands_list cs s : writes_list cs s -> Forall2 operand_text cs (operands 0 s).
Proof.
  induction 1 as [|c s W|cs body _ IH|c s cs body W _ IH|c s cs body O W _ IH].
  - constructor.
  - destruct (operand_one c s [] W) as (x & X & E); auto. rewrite app_nil_r in E.
    rewrite E. repeat constructor. auto.
  - exact IH.
  - destruct (operand_one c s (" "%char :: body) W) as (x & X & ->); [eauto|].
    constructor; auto.
  - destruct (operand_one c s body W) as (x & X & ->); auto.
Qed.

(** ** Parsing *)

Lemma rfind_close_none s : forallb (fun c => negb (Ascii.eqb c ")")) s = true -> rfind_close s = None.
Proof.
  induction s as [|c s IH]; cbn; auto. intros H. apply andb_prop in H. destruct H as (H1 & H2).
  rewrite IH by auto. apply negb_true_iff in H1. rewrite H1. auto.
Qed.

Lemma rfind_close_last s : rfind_close (s ++ [")"%char]) = Some (length s).
Proof. induction s as [|c s IH]; auto. cbn [app rfind_close length]. rewrite IH. auto. Qed.

Lemma digits_no_close d : all_digits d -> forallb (fun c => negb (Ascii.eqb c ")")) d = true.
Proof.
  induction d as [|c d IH]; intros D; auto. apply digits_cons in D. destruct D as (Dc & D).
  cbn. rewrite (digit_not c ")"), IH by auto. auto.
Qed.

Lemma parse_operand e : forall x f known,
  operand_text e x -> depth e <= f -> incl (actions e) known ->
  parseFormula f known x = Some (PTree e).
Proof.
  induction e as [a|o cs IH] using expr_ind'; intros x f known (s & W & X) L I.
  - destruct f as [|f]; [cbn in L; lia|].
    inversion W as [d N D B E1 E2|]; subst.
    assert (A : exists sp, x = ("p"%char :: d ++ sp) /\ (sp = [] \/ sp = [" "%char])).
    { destruct X as [->|(-> & _)]; [exists []|exists [" "%char]]; rewrite ?app_nil_r; auto. }
    destruct A as (sp & -> & SP). clear X.
    cbn [parseFormula find_head].
    change (Ascii.eqb "p" ".") with false. change (Ascii.eqb "p" "+") with false.
    change (Ascii.eqb "p" "|") with false. change (Ascii.eqb "p" "p") with true. cbv iota.
    unfold strip. cbn [length Nat.add Nat.ltb Nat.leb].
    assert (R : rfind_close ("p"%char :: d ++ sp) = None).
    { apply rfind_close_none. cbn [forallb]. rewrite forallb_app, digits_no_close by auto.
      destruct SP as [->| ->]; auto. }
    rewrite R. cbn [skipn].
    rewrite atoll_app by (auto; destruct SP as [->| ->]; auto).
    assert (K : existsb (Z.eqb (Z.of_N (dec_value d))) known = true).
    { apply existsb_in, I. cbn. auto. }
    rewrite K. auto.
  - destruct X as [->|(_ & NO)]; [|exfalso; apply NO; exact Logic.I].
    inversion W as [|? ? body B E1 E2]; subst. cbn [depth] in L.
    destruct f as [|f]; [lia|]. cbn [parseFormula].
    assert (FH : find_head 0 (op_char o :: "("%char :: body ++ [")"%char]) = Some (0, Some o))
      by (destruct o; reflexivity).
    rewrite FH. unfold strip.
    assert (RC : rfind_close (op_char o :: "("%char :: body ++ [")"%char])
                 = Some (2 + length body)).
    { change (op_char o :: "("%char :: body ++ [")"%char])
        with ((op_char o :: "("%char :: body) ++ [")"%char]).
      rewrite rfind_close_last. reflexivity. }
    rewrite RC.
    replace (length (op_char o :: "("%char :: body ++ [")"%char]) <? 0 + 2) with false
      by (symmetry; apply Nat.ltb_ge; cbn [length]; lia).
    replace (0 + 2 <=? 2 + length body) with true by (symmetry; apply Nat.leb_le; lia).
    replace (2 + length body - 0 - 2) with (length body) by lia.
    replace (substr (0 + 2) (length body) (op_char o :: "("%char :: body ++ [")"%char])) with body.
    2:{ symmetry. change (op_char o :: "("%char :: body ++ [")"%char])
          with ([op_char o; "("%char] ++ body ++ [")"%char]).
        change (0 + 2) with (length [op_char o; "("%char]). apply substr_mid. }
    pose proof (operands_list _ _ B) as OL.
    match goal with |- context [match ?g (operands 0 body) with _ => _ end] => set (go := g) end.
    assert (G : go (operands 0 body) = Some (map PTree cs)).
    { assert (LL : fold_right (fun c m => Nat.max (depth c) m) 0 cs <= f) by lia.
      assert (II : forall c, In c cs -> incl (actions c) known).
      { intros c C y Y. apply I. cbn [actions]. apply in_flat_map. eauto. }
      clear - IH OL LL II. induction OL as [|c x cs xs X OL IHo]; [reflexivity|].
      inversion IH as [|? ? I1 I2]; subst. cbn [fold_right] in LL.
      cbn. fold go.
      rewrite (I1 x f known X); [|lia|apply II; left; auto].
      rewrite IHo; auto; [lia|]. intros c' C'. apply II. right; auto. }
    rewrite G.
    assert (C : collect (map PTree cs) = inl (Some cs)).
    { clear. induction cs as [|c cs IH]; auto. cbn [map collect]. rewrite IH. auto. }
    rewrite C. auto.
Qed.

Lemma depth_length :
  (forall e s, writes e s -> depth e <= length s) /\
  (forall cs s, writes_list cs s ->
     fold_right (fun c m => Nat.max (depth c) m) 0 cs <= length s).
Proof.
  apply writes_both; intros; cbn [depth fold_right length] in *; rewrite ?app_length in *;
    cbn [length] in *; try lia.
Qed.

Lemma parse_written e s known :
  writes e s -> incl (actions e) known -> initAlgebraString known s = Some (PTree e).
Proof.
  intros W I. unfold initAlgebraString. apply parse_operand; auto.
  - exists s. auto.
  - pose proof (proj1 depth_length _ _ W). lia.
Qed.

(** ** Rewriting of ids *)

(** A text cut into plain characters and ids. *)
Inductive tok := Plain (c : ascii) | Id (d : str).

Definition show (t : tok) : str := match t with Plain c => [c] | Id d => "p"%char :: d end.

Definition id_of (d : str) : Z := Z.of_N (dec_value d).

Definition is_delim (c : ascii) : Prop := c = " "%char \/ c = ")"%char.

(** Plain characters are no 'p', ids are numbers and are followed by a delimiter; the last
    one may lack it when [last_ok]. *)
Fixpoint wd (last_ok : bool) (l : list tok) : Prop :=
  match l with
  | [] => True
  | Plain c :: r => c <> "p"%char /\ wd last_ok r
  | Id d :: r =>
      (d <> [] /\ all_digits d /\ (dec_value d < 2 ^ 63)%N) /\
      match r with [] => last_ok = true | Plain c :: _ => is_delim c | Id _ :: _ => False end /\
      wd last_ok r
  end.

Definition show_new (keep : bool) (f : Z -> str) (t : tok) : str :=
  match t with Plain c => [c] | Id d => (if keep then ["p"%char] else @nil ascii) ++ f (id_of d) end.

Lemma wd_app b l r c :
  wd true l -> is_delim c -> wd b (Plain c :: r) -> wd b (l ++ Plain c :: r).
Proof.
  intros W D R. induction l as [|[c'|d] l IH]; cbn [app]; auto.
  - destruct W as (N & W). split; auto.
  - destruct W as (G & M & W). split; auto. split; auto.
    destruct l as [|[c'|d'] l]; auto.
Qed.

Lemma wd_app_closed b l r : wd false l -> wd b r -> wd b (l ++ r).
Proof.
  intros W R. induction l as [|[c'|d] l IH]; cbn [app]; auto.
  - destruct W as (N & W). split; auto.
  - destruct W as (G & M & W). split; auto. split; auto.
    destruct l as [|[c'|d'] l]; auto. discriminate.
Qed.

Lemma wd_weaken l : wd false l -> wd true l.
Proof.
  induction l as [|[c'|d] l IH]; cbn [wd]; auto.
  - tauto.
  - intros (G & M & W). split; auto. split; auto. destruct l as [|[]]; auto.
Qed.

Lemma after_id_digits d c t :
  all_digits d -> is_delim c -> after_id (d ++ c :: t) = Some (length d).
Proof.
  intros D C. unfold after_id.
  assert (NS : ~ In " "%char d).
  { intros I. apply (proj1 (Forall_forall _ _) D) in I. cbn in I. intuition discriminate. }
  assert (NP : ~ In ")"%char d).
  { intros I. apply (proj1 (Forall_forall _ _) D) in I. cbn in I. intuition discriminate. }
  assert (P : forall x n, find_char x (d ++ c :: t) = Some n -> ~ In x d -> length d <= n).
  { intros x n F N. apply find_char_some in F. destruct F as (a & b & E & Na & <-).
    destruct (Nat.le_gt_cases (length d) (length a)) as [|L]; auto. exfalso. apply N.
    assert (Q : nth_error (d ++ c :: t) (length a) = Some x).
    { rewrite E, nth_error_app2, Nat.sub_diag by lia. auto. }
    rewrite nth_error_app1 in Q by auto. eapply nth_error_In; eauto. }
  destruct C as [->| ->].
  - rewrite (find_char_app " ") by auto.
    destruct (find_char ")" (d ++ " "%char :: t)) as [n|] eqn:F; auto.
    pose proof (P _ _ F NP). destruct (Nat.ltb_spec (length d) n); auto. f_equal. lia.
  - rewrite (find_char_app ")") by auto.
    destruct (find_char " " (d ++ ")"%char :: t)) as [n|] eqn:F; auto.
    pose proof (P _ _ F NS). destruct (Nat.ltb_spec n (length d)); auto. f_equal. lia.
Qed.

Lemma delim_not_digit c : is_delim c -> is_digit c = false.
Proof. intros [->| ->]; reflexivity. Qed.

Lemma firstn_beyond d c (t : str) m :
  length d <= m -> exists t', firstn m (d ++ c :: t) = d ++ t' /\ (t' = [] \/ exists t'', t' = c :: t'').
Proof.
  intros L. exists (firstn (m - length d) (c :: t)). split.
  - rewrite firstn_app. rewrite (firstn_all2 d) by auto. auto.
  - destruct (m - length d); cbn [firstn]; eauto.
Qed.

Lemma plain_prefix l :
  exists u r, l = map Plain u ++ r /\ (r = [] \/ exists d r', r = Id d :: r').
Proof.
  induction l as [|[c|d] l IH].
  - exists [], []. auto.
  - destruct IH as (u & r & -> & R). exists (c :: u), r. auto.
  - exists [], (Id d :: l). split; eauto.
Qed.

Lemma show_plain u : concat (map show (map Plain u)) = u.
Proof. induction u; cbn; congruence. Qed.

Lemma show_new_plain k f u : concat (map (show_new k f) (map Plain u)) = u.
Proof. induction u; cbn; congruence. Qed.

Lemma wd_plain b u r : wd b (map Plain u ++ r) -> ~ In "p"%char u /\ wd b r.
Proof.
  induction u as [|c u IH]; cbn [map app wd]; [auto|]. intros (N & W).
  apply IH in W. destruct W as (I & W). split; auto. intros [->|]; auto.
Qed.

Lemma rewrite_tokens k f g : forall n l fuel acc,
  length l <= n -> n < fuel -> wd false l ->
  (forall d, In (Id d) l -> f (id_of d) = Some (g (id_of d))) ->
  rewrite_ids fuel k f (concat (map show l)) acc
  = Some (RText (acc ++ concat (map (show_new k g) l))).
Proof.
  induction n as [|n IH]; intros l fuel acc L F W G.
  { destruct l; [|cbn in L; lia]. destruct fuel; [lia|]. cbn. rewrite app_nil_r. auto. }
  destruct fuel as [|fuel]; [lia|].
  destruct (plain_prefix l) as (u & r & -> & R).
  apply wd_plain in W. destruct W as (NP & W).
  rewrite !map_app, !concat_app, show_plain, show_new_plain.
  destruct R as [->|(d & r' & ->)].
  - cbn [map concat]. rewrite !app_nil_r. destruct u as [|c u]; [cbn; rewrite app_nil_r; auto|].
    cbn [rewrite_ids]. rewrite (proj2 (find_char_none _ _) NP). auto.
  - cbn [map concat show]. destruct W as ((N & D & B) & M & W).
    destruct r' as [|[c|d'] r']; [discriminate| |contradiction].
    set (t := concat (map show r')).
    change (concat (map show (Plain c :: r'))) with (c :: t).
    assert (E : u ++ ("p"%char :: d) ++ c :: t = u ++ "p"%char :: (d ++ c :: t)) by reflexivity.
    rewrite E. cbn [rewrite_ids].
    destruct (u ++ "p"%char :: d ++ c :: t) as [|x xs] eqn:EX.
    { destruct u; discriminate. }
    rewrite <- EX. rewrite find_char_app by auto.
    replace (skipn (S (length u)) (u ++ "p"%char :: d ++ c :: t)) with (d ++ c :: t).
    2:{ rewrite skipn_app, skipn_all2 by lia. replace (S (length u) - length u) with 1 by lia. auto. }
    rewrite after_id_digits by auto.
    destruct (firstn_beyond d c t (S (length u) + length d)) as (t' & -> & T'); [lia|].
    rewrite stoll_app; auto.
    2:{ destruct T' as [->|(t'' & ->)]; auto. apply delim_not_digit; auto. }
    fold (id_of d). rewrite (G d) by (apply in_or_app; right; left; auto).
    replace (skipn (length d) (d ++ c :: t)) with (c :: t).
    2:{ rewrite skipn_app, skipn_all, Nat.sub_diag. auto. }
    replace (firstn (if k then S (length u) else length u) (u ++ "p"%char :: d ++ c :: t))
      with (u ++ (if k then ["p"%char] else [])).
    2:{ destruct k.
        - rewrite firstn_app, firstn_all2 by lia.
          replace (S (length u) - length u) with 1 by lia. auto.
        - rewrite firstn_app, firstn_all, Nat.sub_diag. cbn. auto. }
    change (c :: t) with (concat (map show (Plain c :: r'))).
    rewrite app_length, map_length in L. cbn [length] in L.
    rewrite IH; auto.
    + f_equal. f_equal. cbn [map concat show_new]. rewrite <- !app_assoc. f_equal.
    + cbn [length]. lia.
    + lia.
    + intros d' I. apply G. apply in_or_app. right. right. auto.
Qed.

(** The tokens of a written expression, and what they say after rewriting. *)
Lemma writes_tokens (keep : bool) (f : Z -> str) (h : Z -> expr) :
  (forall e s, writes e s -> 
     (forall a, In a (actions e) -> writes (h a) ((if keep then ["p"%char] else @nil ascii) ++ f a)) ->
     exists l, s = concat (map show l) /\ wd (match e with Act _ => true | _ => false end) l /\
               (forall d, In (Id d) l -> In (id_of d) (actions e)) /\
               writes (bind h e) (concat (map (show_new keep f) l))) /\
  (forall cs s, writes_list cs s ->
     (forall a, In a (flat_map actions cs) ->
                writes (h a) ((if keep then ["p"%char] else @nil ascii) ++ f a)) ->
     exists l, s = concat (map show l) /\ wd true l /\
               (forall d, In (Id d) l -> In (id_of d) (flat_map actions cs)) /\
               writes_list (map (bind h) cs) (concat (map (show_new keep f) l))).
Proof.
  apply writes_both.
  - intros d N D B H. exists [Id d]. cbn [map concat show show_new bind actions].
    rewrite !app_nil_r. split; auto. split; [cbn; auto|]. split.
    + intros d' [E|[]]. injection E as ->. left. auto.
    + apply H. left. auto.
  - intros o cs body _ IH H. destruct IH as (l & -> & W & I & R); [exact H|].
    exists (Plain (op_char o) :: Plain "("%char :: l ++ [Plain ")"%char]).
    cbn [map concat show show_new app]. rewrite !map_app, !concat_app.
    cbn [map concat show show_new app bind]. split; auto.
    split.
    { split; [destruct o; discriminate|]. split; [discriminate|].
      apply wd_app; [auto|right; auto|]. split; [discriminate|exact Logic.I]. }
    split.
    { intros d [E|[E|E]]; try discriminate. apply in_app_or in E.
      destruct E as [E|[E|[]]]; [|discriminate]. apply I, E. }
    constructor. auto.
  - intros _. exists []. cbn. repeat split; auto. constructor.
  - intros c s W IH H. destruct IH as (l & -> & Wd & I & R).
    { intros a A. apply H. cbn. rewrite app_nil_r. auto. }
    exists l. split; auto. split; [destruct c; auto; apply wd_weaken; auto|]. split.
    + intros d D. cbn. rewrite app_nil_r. auto.
    + constructor. auto.
  - intros cs body _ IH H. destruct IH as (l & -> & W & I & R); [exact H|].
    exists (Plain " "%char :: l). split; auto. split; [split; [discriminate|auto]|].
    split; [intros d [E|E]; [discriminate|auto]|]. cbn [map concat show_new app].
    constructor. auto.
  - intros c s cs body W IH1 WL IH2 H.
    destruct IH1 as (l1 & -> & W1 & I1 & R1).
    { intros a A. apply H. cbn. apply in_or_app. auto. }
    destruct IH2 as (l2 & -> & W2 & I2 & R2).
    { intros a A. apply H. cbn. apply in_or_app. auto. }
    exists (l1 ++ Plain " "%char :: l2). rewrite !map_app, !concat_app.
    split; auto. split.
    { apply wd_app; [destruct c; auto; apply wd_weaken; auto|left; auto|split; [discriminate|auto]]. }
    split.
    { intros d D. cbn [flat_map]. apply in_or_app. apply in_app_or in D.
      destruct D as [D|[D|D]]; [auto|discriminate|auto]. }
    cbn [map concat show_new app]. constructor; auto.
  - intros c s cs body O W IH1 WL IH2 H.
    destruct IH1 as (l1 & -> & W1 & I1 & R1).
    { intros a A. apply H. cbn. apply in_or_app. auto. }
    destruct IH2 as (l2 & -> & W2 & I2 & R2).
    { intros a A. apply H. cbn. apply in_or_app. auto. }
    exists (l1 ++ l2). rewrite !map_app, !concat_app.
    destruct c as [a|o cs']; [contradiction|].
    split; auto. split; [apply wd_app_closed; auto|]. split.
    { intros d D. cbn [flat_map]. apply in_or_app. apply in_app_or in D.
      destruct D as [D|D]; auto. }
    cbn [map]. apply wl_cons_op; auto.
Qed.

Lemma show_length l : length l <= length (concat (map show l)).
Proof.
  induction l as [|[]]; cbn [map concat show length]; auto; rewrite ?app_length; cbn [length]; lia.
Qed.

Lemma rewrite_written (keep : bool) fo f h e s :
  writes e s -> is_operator e ->
  (forall a, In a (actions e) -> fo a = Some (f a) /\
                                 writes (h a) ((if keep then ["p"%char] else @nil ascii) ++ f a)) ->
  exists s', rewrite_ids (S (length s)) keep fo s [] = Some (RText s') /\ writes (bind h e) s'.
Proof.
  intros W O H.
  destruct (proj1 (writes_tokens keep f h) e s W) as (l & -> & Wd & I & R).
  { intros a A. apply H. auto. }
  destruct e as [a|o cs]; [contradiction|].
  exists (concat (map (show_new keep f) l)). split; auto.
  rewrite (rewrite_tokens keep fo f (length l)); auto.
  - pose proof (show_length l). lia.
  - intros d D. apply H. auto.
Qed.

Lemma writes_number n : (0 <= n < 2 ^ 63)%Z -> writes (Act n) ("p"%char :: to_string_Z n).
Proof.
  intros R. unfold to_string_Z. destruct (Z.ltb_spec n 0); [lia|].
  replace n with (Z.of_N (dec_value (to_string (Z.to_N n)))) at 1.
  2:{ rewrite to_string_value. lia. }
  constructor.
  - apply to_string_nonempty.
  - apply digits_spec, to_string_digits.
  - rewrite to_string_value. change (2 ^ 63)%N with 9223372036854775808%N.
    change (2 ^ 63)%Z with 9223372036854775808%Z in R. lia.
Qed.

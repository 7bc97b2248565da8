(** C104: undoing the escaping of a text for XML. *)
From Coq Require Import List String Ascii Bool Arith Lia.
From Verif Require Import Base DbLogModel LogManagerModel LogManagerSpec LogManagerProofs UnescapeModel UnescapeSpec.
Import ListNotations.
Open Scope list_scope.

Lemma prefix_app p : forall t, is_prefix p t = true <-> exists b, t = p ++ b.
Proof.
  intros t. split; [apply prefix_split|]. intros (b & ->). induction p as [|c p IH]; [reflexivity|]. cbn. rewrite Ascii.eqb_refl. exact IH.
Qed.
Lemma contains_cons p c t : contains p (c :: t) <-> is_prefix p (c :: t) = true \/ contains p t.
Proof.
  rewrite prefix_app. unfold contains. split.
  - intros ([|d a] & b & E); [left; exists b; exact E|]. cbn in E. injection E as -> E. right. exists a, b. exact E.
  - intros [(b & E)|(a & b & ->)]; [exists [], b; exact E|exists (c :: a), b; reflexivity].
Qed.
Lemma not_contains_nil p : p <> [] -> ~ contains p [].
Proof. intros NP (a & b & E). symmetry in E. apply app_eq_nil in E. destruct E as (_ & E). apply app_eq_nil in E. tauto. Qed.

Lemma last_none p new t : p <> [] -> (replace_last_text p new t = None <-> ~ contains p t).
Proof.
  intros NP. induction t as [|c t IH]; [split; [intros _; apply not_contains_nil; exact NP|reflexivity]|].
  rewrite contains_cons. cbn [replace_last_text]. destruct (replace_last_text p new t) as [r|].
  - split; [discriminate|]. intros G. exfalso. assert (N : ~ contains p t) by tauto. apply IH in N. discriminate.
  - assert (N : ~ contains p t) by (apply IH; reflexivity). destruct (is_prefix p (c :: t)); split; auto; try discriminate; intros G; [tauto|]. intros [E|E]; [discriminate|contradiction].
Qed.
Lemma last_some p new t t' : replace_last_text p new t = Some t' -> exists a b, t = a ++ p ++ b /\ t' = a ++ new ++ b.
Proof.
  revert t'. induction t as [|c t IH]; intros t'; [discriminate|]. cbn [replace_last_text]. destruct (replace_last_text p new t) as [r|].
  - intros E. injection E as <-. destruct (IH r eq_refl) as (a & b & -> & ->). exists (c :: a), b. split; reflexivity.
  - destruct (is_prefix p (c :: t)) eqn:P; [|discriminate]. intros E. apply prefix_app in P. destruct P as (b & P). rewrite P in E. rewrite skipn_app, skipn_all, Nat.sub_diag in E. cbn in E.
    injection E as <-. exists [], b. split; [exact P|reflexivity].
Qed.

(** The loop ends with [r]. *)
Definition ends (p new t r : str) : Prop := exists n, undo_loop n p new t = Some r.
Lemma loop_more p new n : forall t r k, undo_loop n p new t = Some r -> undo_loop (n + k) p new t = Some r.
Proof.
  induction n as [|n IH]; intros t r k E; [discriminate|]. cbn [undo_loop plus] in *. destruct (replace_last_text p new t); [apply IH; exact E|exact E].
Qed.
Lemma ends_unique p new t r1 r2 : ends p new t r1 -> ends p new t r2 -> r1 = r2.
Proof.
  intros (n & E1) (m & E2). apply (loop_more _ _ _ _ _ m) in E1. apply (loop_more _ _ _ _ _ n) in E2. rewrite Nat.add_comm in E2. congruence.
Qed.
Lemma undo_ends p new t r : List.length new < List.length p -> (undo p new t = Some r <-> ends p new t r).
Proof.
  intros LT. assert (G : forall n t, List.length t < n -> exists r, undo_loop n p new t = Some r).
  { induction n as [|n IH]; intros s L; [lia|]. cbn [undo_loop]. destruct (replace_last_text p new s) as [s'|] eqn:E; [|exists s; reflexivity].
    apply IH. apply last_some in E. destruct E as (a & b & -> & ->). rewrite !app_length in *. lia. }
  split; [intros E; exists (S (List.length t)); exact E|]. intros EN. unfold undo. destruct (G (S (List.length t)) t ltac:(lia)) as (r' & E). rewrite E. f_equal.
  apply ends_unique with p new t; [exists (S (List.length t)); exact E|exact EN].
Qed.
Lemma undo_total p new t : List.length new < List.length p -> exists r, undo p new t = Some r.
Proof.
  intros LT. assert (G : forall n t, List.length t < n -> exists r, undo_loop n p new t = Some r).
  { induction n as [|n IH]; intros s L; [lia|]. cbn [undo_loop]. destruct (replace_last_text p new s) as [s'|] eqn:E; [|exists s; reflexivity].
    apply IH. apply last_some in E. destruct E as (a & b & -> & ->). rewrite !app_length in *. lia. }
  apply G. lia.
Qed.
Lemma ends_clean p new t r : p <> [] -> ends p new t r -> ~ contains p r.
Proof.
  intros NP (n & E). revert t E. induction n as [|n IH]; intros t E; [discriminate|]. cbn [undo_loop] in E.
  destruct (replace_last_text p new t) as [t'|] eqn:L; [exact (IH t' E)|]. injection E as <-. apply last_none in L; assumption.
Qed.
Lemma ends_self p new t : p <> [] -> ~ contains p t -> ends p new t t.
Proof. intros NP NC. exists 1. cbn. rewrite (proj2 (last_none p new t NP) NC). reflexivity. Qed.
Lemma ends_cons p new c t r q : ends p new t r -> ends p new (c :: r) q -> ends p new (c :: t) q.
Proof.
  intros (n & E). revert t E. induction n as [|n IH]; intros t E Q; [discriminate|]. cbn [undo_loop] in E. destruct (replace_last_text p new t) as [t'|] eqn:L.
  - specialize (IH t' E Q). destruct IH as (m & IH). exists (S m). cbn [undo_loop replace_last_text]. rewrite L. exact IH.
  - injection E as <-. exact Q.
Qed.
Lemma ends_skip p new c t r : p <> [] -> ends p new t r -> is_prefix p (c :: r) = false -> ends p new (c :: t) (c :: r).
Proof.
  intros NP E F. apply ends_cons with r; [exact E|]. apply ends_self; [exact NP|]. rewrite contains_cons. intros [G|G]; [congruence|]. exact (ends_clean p new t r NP E G).
Qed.
Lemma ends_hit p new c u t r q : p = c :: u -> ends p new t (u ++ r) -> ends p new (new ++ r) q -> ends p new (c :: t) q.
Proof.
  intros -> E Q. apply ends_cons with (u ++ r); [exact E|]. destruct Q as (n & Q). exists (S n). cbn [undo_loop replace_last_text].
  rewrite (proj2 (last_none (c :: u) new (u ++ r) ltac:(discriminate)) (ends_clean (c :: u) new t (u ++ r) ltac:(discriminate) E)).
  assert (P : is_prefix (c :: u) (c :: u ++ r) = true) by (apply prefix_app; exists r; reflexivity). rewrite P.
  cbn [List.length skipn]. rewrite skipn_app, skipn_all, Nat.sub_diag. exact Q.
Qed.

(** The entity [c :: u] before a text that is done: [u] does not begin the entity anywhere. *)
Lemma ends_token p new c u d t r : p = c :: u -> new = [d] -> ~ In c u -> c <> d -> ends p new t r -> ends p new (p ++ t) (d :: r).
Proof.
  intros -> -> NI NE E. assert (G : forall v, ~ In c v -> ends (c :: u) [d] (v ++ t) (v ++ r)).
  { induction v as [|x v IH]; intros NV; [exact E|]. cbn [app]. apply ends_skip; [discriminate|apply IH; intros P; apply NV; right; exact P|]. cbn [is_prefix].
    destruct (Ascii.eqb_spec c x) as [->|]; [exfalso; apply NV; left; reflexivity|reflexivity]. }
  cbn [app]. apply ends_hit with u r; [reflexivity|apply G; exact NI|]. cbn [app]. apply ends_self; [discriminate|]. rewrite contains_cons. intros [P|P].
  - cbn [is_prefix] in P. destruct (Ascii.eqb_spec c d); [contradiction|discriminate].
  - exact (ends_clean (c :: u) [d] t r ltac:(discriminate) E P).
Qed.
(** Another text before it. *)
Fixpoint clear_of (p v r : str) : bool := match v with [] => true | x :: v' => negb (is_prefix p (x :: v' ++ r)) && clear_of p v' r end.
Lemma ends_other p new v t r : p <> [] -> clear_of p v r = true -> ends p new t r -> ends p new (v ++ t) (v ++ r).
Proof.
  intros NP F E. induction v as [|x v IH]; [exact E|]. cbn [app]. cbn [clear_of] in F. apply andb_true_iff in F. destruct F as (F1 & F2). apply negb_true_iff in F1.
  apply ends_skip; [exact NP|apply IH; exact F2|exact F1].
Qed.
Ltac other := reflexivity.

(** Texts where some of the five characters are still written as entities. *)
Definition partly (which : ascii -> bool) (t : str) : str := flat_map (fun c => if which c then entity_of c else [c]) t.

Lemma ends_plain p new c u t r : p = "&"%char :: u -> c <> "&"%char -> ends p new t r -> ends p new (c :: t) (c :: r).
Proof.
  intros -> NC E. apply ends_skip; [discriminate|exact E|]. cbn [is_prefix]. destruct (Ascii.eqb_spec "&" c) as [<-|]; [contradiction|reflexivity].
Qed.
Lemma entity_plain c : c <> "&"%char -> c <> "<"%char -> c <> ">"%char -> c <> quote -> c <> apos -> entity_of c = [c].
Proof. intros. unfold entity_of. repeat (destruct (ascii_dec _ _); [contradiction|]). reflexivity. Qed.

Lemma stage c0 which t : In c0 ["<"%char; ">"%char; quote; apos] -> which "&"%char = true -> which c0 = true ->
  ends (entity_of c0) [c0] (partly which t) (partly (fun c => which c && negb (Ascii.eqb c c0)) t).
Proof.
  intros I0 WA W0. assert (P0 : exists u, entity_of c0 = "&"%char :: u /\ ~ In "&"%char u).
  { cbn in I0. destruct I0 as [<-|[<-|[<-|[<-|[]]]]]; eexists; (split; [reflexivity|]); cbn; intuition discriminate. }
  assert (NA : c0 <> "&"%char) by (cbn in I0; destruct I0 as [<-|[<-|[<-|[<-|[]]]]]; discriminate).
  destruct P0 as (u & P0 & NU). induction t as [|c t IH].
  - apply ends_self; [rewrite P0; discriminate|]. apply not_contains_nil. rewrite P0. discriminate.
  - unfold partly in *. cbn [flat_map]. destruct (Ascii.eqb_spec c c0) as [->|NC].
    + rewrite W0. cbn [andb negb]. apply ends_token with "&"%char u; auto.
    + cbn [negb]. rewrite andb_true_r. destruct (which c) eqn:WC.
      * apply ends_other; [rewrite P0; discriminate| |exact IH]. clear IH. set (r := flat_map _ t). clearbody r. unfold entity_of at 2.
        destruct (ascii_dec c "&") as [->|N1]; [destruct I0 as [<-|[<-|[<-|[<-|[]]]]]; reflexivity|].
        destruct (ascii_dec c "<") as [->|N2]; [destruct I0 as [<-|[<-|[<-|[<-|[]]]]]; first [contradiction|reflexivity]|].
        destruct (ascii_dec c ">") as [->|N3]; [destruct I0 as [<-|[<-|[<-|[<-|[]]]]]; first [contradiction|reflexivity]|].
        destruct (ascii_dec c quote) as [->|N4]; [destruct I0 as [<-|[<-|[<-|[<-|[]]]]]; first [contradiction|reflexivity]|].
        destruct (ascii_dec c apos) as [->|N5]; [destruct I0 as [<-|[<-|[<-|[<-|[]]]]]; first [contradiction|reflexivity]|].
        rewrite P0. cbn [clear_of is_prefix app]. destruct (Ascii.eqb_spec "&" c) as [G|]; [symmetry in G; contradiction|reflexivity].
      * cbn [app]. apply ends_plain with u; [exact P0| |exact IH]. intros ->. congruence.
Qed.

Lemma partly_ext f g t : (forall c, f c = true -> g c = true) -> (forall c, g c = true -> f c = true \/ entity_of c = [c]) -> partly f t = partly g t.
Proof.
  intros FG GF. unfold partly. apply flat_map_ext. intros c. destruct (f c) eqn:F; [rewrite (FG c F); reflexivity|].
  destruct (g c) eqn:G; [|reflexivity]. destruct (GF c G) as [X|X]; [congruence|symmetry; exact X].
Qed.
Lemma amp_stage t : ~ contains (lit "&amp;") t -> ends (lit "&amp;") ["&"%char] (partly (fun c => Ascii.eqb c "&") t) t.
Proof.
  induction t as [|c t IH]; intros NC.
  - apply ends_self; [discriminate|apply not_contains_nil; discriminate].
  - pose proof NC as NC'. rewrite contains_cons in NC'. assert (NT : ~ contains (lit "&amp;") t) by tauto. specialize (IH NT).
    unfold partly in *. cbn [flat_map]. destruct (Ascii.eqb_spec c "&") as [->|NE].
    + change (entity_of "&") with ("&"%char :: lit "amp;"). cbn [app]. apply ends_hit with (lit "amp;") t; [reflexivity| |].
      * apply (ends_other (lit "&amp;") ["&"%char] (lit "amp;") _ t); [discriminate|other|exact IH].
      * cbn [app]. apply ends_self; [discriminate|exact NC].
    + cbn [app]. apply ends_plain with (lit "amp;"); [reflexivity|exact NE|exact IH].
Qed.

(** Undoing ends for every text, and an ampersand written as an entity is never left over. *)
Theorem C104_ends t : (exists r, unescapeXmlQuoteApostropheChars t = Some r) /\
  exists r, unescapeXmlChars t = Some r /\ ~ contains (chars "&amp;") r.
Proof.
  unfold unescapeXmlChars, unescapeXmlQuoteApostropheChars, unescapeXmlAmpersandLessThanGreaterThanChars.
  destruct (undo_total (lit "&quot;") [dquote] t) as (t1 & E1); [cbn; lia|]. rewrite E1. cbn [bind].
  destruct (undo_total (lit "&apos;") [apostrophe] t1) as (t2 & E2); [cbn; lia|]. rewrite E2. cbn [bind]. split; [exists t2; reflexivity|].
  destruct (undo_total (lit "&lt;") ["<"%char] t2) as (t3 & E3); [cbn; lia|]. rewrite E3. cbn [bind].
  destruct (undo_total (lit "&gt;") [">"%char] t3) as (t4 & E4); [cbn; lia|]. rewrite E4. cbn [bind].
  destruct (undo_total (lit "&amp;") ["&"%char] t4) as (t5 & E5); [cbn; lia|]. exists t5. split; [exact E5|].
  apply undo_ends in E5; [|cbn; lia]. apply ends_clean in E5; [exact E5|discriminate].
Qed.

(** A text that is escaped as XML has it comes back, unless an ampersand in it is already written as an entity. *)
Theorem C104_back t : unescapeXmlChars (escaped t) = Some t <-> ~ contains (chars "&amp;") t.
Proof.
  split.
  - intros E. destruct (C104_ends (escaped t)) as (_ & r & E2 & NC). rewrite E in E2. injection E2 as <-. exact NC.
  - intros NC. unfold unescapeXmlChars, unescapeXmlQuoteApostropheChars, unescapeXmlAmpersandLessThanGreaterThanChars.
    assert (P0 : escaped t = partly (fun _ => true) t) by reflexivity.
    pose proof (stage quote (fun _ => true) t ltac:(cbn; tauto) eq_refl eq_refl) as S1.
    pose proof (stage apos _ t ltac:(cbn; tauto) (eq_refl : (fun c => true && negb (Ascii.eqb c quote)) "&"%char = true) eq_refl) as S2.
    pose proof (stage "<"%char _ t ltac:(cbn; tauto) (eq_refl : (fun c => (true && negb (Ascii.eqb c quote)) && negb (Ascii.eqb c apos)) "&"%char = true) eq_refl) as S3.
    pose proof (stage ">"%char _ t ltac:(cbn; tauto) (eq_refl : (fun c => ((true && negb (Ascii.eqb c quote)) && negb (Ascii.eqb c apos)) && negb (Ascii.eqb c "<")) "&"%char = true) eq_refl) as S4.
    cbv beta in S1, S2, S3, S4. rewrite P0.
    apply (undo_ends (lit "&quot;") [dquote]) in S1; [|cbn; lia]. rewrite S1. cbn [bind].
    apply (undo_ends (lit "&apos;") [apostrophe]) in S2; [|cbn; lia]. rewrite S2. cbn [bind].
    apply (undo_ends (lit "&lt;") ["<"%char]) in S3; [|cbn; lia]. rewrite S3. cbn [bind].
    apply (undo_ends (lit "&gt;") [">"%char]) in S4; [|cbn; lia]. rewrite S4. cbn [bind].
    apply undo_ends; [cbn; lia|]. rewrite <- (partly_ext (fun c => Ascii.eqb c "&")); [apply amp_stage; exact NC| |].
    + intros c E. apply Ascii.eqb_eq in E. rewrite E. reflexivity.
    + intros c E. rewrite !andb_true_iff, !negb_true_iff in E. destruct E as ((((_ & Q1) & Q2) & Q3) & Q4). apply Ascii.eqb_neq in Q1, Q2, Q3, Q4.
      destruct (Ascii.eqb_spec c "&"); [left; reflexivity|right; apply entity_plain; assumption].
Qed.

(** Quotes and apostrophes alone: those of a text without these entities come back. *)
Lemma quotes_prefix u t : ~ In "&"%char u -> ~ In quote u -> is_prefix u (flat_map (fun c => if ascii_dec c apos then chars "&apos;" else [c]) t) = true -> is_prefix u t = true.
Proof.
  revert t. induction u as [|x u IH]; intros t NA NQ P; [reflexivity|]. destruct t as [|c t]; [exact P|]. cbn [flat_map] in P. destruct (ascii_dec c apos).
  - exfalso. change (chars "&apos;") with ("&"%char :: chars "apos;") in P. cbn [app is_prefix] in P. apply andb_true_iff in P. destruct P as (P & _). apply Ascii.eqb_eq in P. apply NA. left. exact P.
  - cbn [app is_prefix] in P |- *. apply andb_true_iff in P. destruct P as (P & Q). rewrite P. apply IH; [intros X; apply NA; right; exact X|intros X; apply NQ; right; exact X|exact Q].
Qed.
Lemma before_char (q : ascii) p : forall u b y, ~ In q p -> u ++ q :: b = p ++ y -> exists y', u = p ++ y'.
Proof.
  induction p as [|x p IH]; intros u b y NI E; [exists u; reflexivity|]. destruct u as [|z u].
  - cbn in E. injection E as -> _. exfalso. apply NI. left. reflexivity.
  - cbn in E. injection E as -> E. destruct (IH u b y) as (y' & ->); [intros P; apply NI; right; exact P|exact E|]. exists y'. reflexivity.
Qed.
Theorem C104_quotes t : unescapeXmlQuoteApostropheChars (escaped_quotes t) = Some t <-> ~ contains (chars "&quot;") t /\ ~ contains (chars "&apos;") t.
Proof.
  unfold unescapeXmlQuoteApostropheChars. split.
  - destruct (undo_total (lit "&quot;") [dquote] (escaped_quotes t)) as (t1 & E1); [cbn; lia|]. rewrite E1. cbn [bind]. intros E2.
    apply undo_ends in E1; [|cbn; lia]. apply ends_clean in E1; [|discriminate].
    apply undo_ends in E2; [|cbn; lia]. pose proof E2 as E3. apply ends_clean in E3; [|discriminate]. split; [|exact E3].
    destruct E2 as (n & E2). clear -E1 E2. revert t1 E1 E2. induction n as [|n IH]; intros t1 E1 E2; [discriminate|]. cbn [undo_loop] in E2.
    destruct (replace_last_text _ _ t1) as [t2|] eqn:L; [|injection E2 as <-; exact E1]. apply (IH t2); [|exact E2]. clear IH E2.
    apply last_some in L. destruct L as (a & b & -> & ->). intros (x & y & E). apply E1.
    change ([apostrophe] ++ b) with (apostrophe :: b) in E.
    (* the place of the apostrophe is before or behind the entity *)
    assert (G : (exists y', a = x ++ chars "&quot;" ++ y') \/ exists x', b = x' ++ chars "&quot;" ++ y).
    { clear E1. revert x E. induction a as [|c a IH]; intros x E.
      - destruct x as [|d x]; [discriminate|]. cbn in E. injection E as _ E. right. exists x. exact E.
      - destruct x as [|d x].
        + left. apply (before_char apostrophe (chars "&quot;") (c :: a) b y); [cbn; intuition discriminate|exact E].
        + cbn in E. injection E as -> E. destruct (IH x E) as [(y' & ->)|(x' & ->)]; [left; exists y'; reflexivity|right; exists x'; reflexivity]. }
    destruct G as [(y' & ->)|(x' & ->)].
    + exists x, (y' ++ lit "&apos;" ++ b). rewrite <- !app_assoc. reflexivity.
    + exists (a ++ lit "&apos;" ++ x'), y. rewrite <- !app_assoc. reflexivity.
  - intros (N1 & N2). set (mid := flat_map (fun c => if ascii_dec c apos then chars "&apos;" else [c]) t).
    assert (S1 : ends (lit "&quot;") [dquote] (escaped_quotes t) mid).
    { unfold mid, escaped_quotes. clear N2 mid. induction t as [|c t IH].
      - apply ends_self; [discriminate|apply not_contains_nil; discriminate].
      - rewrite contains_cons in N1. specialize (IH ltac:(tauto)). cbn [flat_map]. destruct (ascii_dec c quote) as [->|NQ].
        + destruct (ascii_dec quote apos) as [X|_]; [discriminate|]. apply ends_token with "&"%char (lit "quot;"); [reflexivity|reflexivity|cbn; intuition discriminate|discriminate|exact IH].
        + destruct (ascii_dec c apos) as [->|NP].
          * apply ends_other; [discriminate|other|exact IH].
          * cbn [app]. apply ends_skip; [discriminate|exact IH|]. apply not_true_is_false. intros P. apply N1. left.
            change (lit "&quot;") with ("&"%char :: lit "quot;") in P. change (chars "&quot;") with ("&"%char :: lit "quot;").
            cbn [is_prefix] in P |- *. apply andb_true_iff in P. destruct P as (P & Q). rewrite P. apply quotes_prefix; [cbn; intuition discriminate|cbn; intuition discriminate|exact Q]. }
    apply undo_ends in S1; [|cbn; lia]. rewrite S1. cbn [bind]. apply undo_ends; [cbn; lia|]. unfold mid. clear N1 S1 mid. induction t as [|c t IH].
    + apply ends_self; [discriminate|apply not_contains_nil; discriminate].
    + pose proof N2 as NC. rewrite contains_cons in N2. specialize (IH ltac:(tauto)). cbn [flat_map]. destruct (ascii_dec c apos) as [->|NP].
      * apply ends_token with "&"%char (lit "apos;"); [reflexivity|reflexivity|cbn; intuition discriminate|discriminate|exact IH].
      * cbn [app]. apply ends_skip; [discriminate|exact IH|]. apply not_true_is_false. intros P. apply N2. left. exact P.
Qed.

(** WANTED: whatever is escaped comes back.  FAILS: no text at all is undone to one in which an ampersand is written as an entity. *)
Theorem C104_amp_refuted t r : contains (chars "&amp;") r -> unescapeXmlChars t <> Some r.
Proof. intros C E. destruct (C104_ends t) as (_ & r' & E' & NC). rewrite E in E'. injection E' as <-. exact (NC C). Qed.

(** The quotes and apostrophes that the program itself escapes come back under the same condition; other characters it does not escape (see C98). *)
Theorem C104_own t : exists e, escapeXmlQuoteApostropheChars t = Some e /\
  (unescapeXmlQuoteApostropheChars e = Some t <-> ~ contains (chars "&quot;") t /\ ~ contains (chars "&apos;") t).
Proof.
  exists (escaped_quotes t). split; [|apply C104_quotes]. rewrite escape_quoted. f_equal. unfold quoted, escaped_quotes. apply flat_map_ext. intros c.
  change """"%char with quote. change "'"%char with apos. destruct (Ascii.eqb_spec c quote), (ascii_dec c quote); try contradiction; [reflexivity|].
  destruct (Ascii.eqb_spec c apos), (ascii_dec c apos); try contradiction; reflexivity.
Qed.

Print Assumptions C104_ends.
Print Assumptions C104_back.
Print Assumptions C104_quotes.
Print Assumptions C104_amp_refuted.
Print Assumptions C104_own.

Example C104_case : unescapeXmlChars (chars "a &lt; b &amp;&amp; c &gt; &quot;d&quot;") = Some (chars "a < b && c > ""d""") /\
  escaped (chars "a < b && c > ""d""") = chars "a &lt; b &amp;&amp; c &gt; &quot;d&quot;".
Proof. split; vm_compute; reflexivity. Qed.
Example C104_twice : unescapeXmlChars (escaped (chars "&amp;lt;")) = Some (chars "&lt;").
Proof. vm_compute. reflexivity. Qed.

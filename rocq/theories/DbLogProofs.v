From Coq Require Import String Ascii List Bool NArith Lia.
From Verif Require Import Base Decimal10 Run DbLogModel DbLogSpec.
Import ListNotations.
Open Scope list_scope.

Lemma is_true c d : is c d = true -> c = d.
Proof. apply Ascii.eqb_eq. Qed.

Lemma is_not c d : c <> d -> is c d = false.
Proof. intros N. apply Ascii.eqb_neq. exact N. Qed.

Lemma is_refl c : is c c = true.
Proof. apply Ascii.eqb_refl. Qed.

Lemma c_string_app a b : ~ In nul a -> c_string (a ++ b) = a ++ c_string b.
Proof.
  induction a as [|c a IH]; intros N; [reflexivity|]. cbn.
  rewrite is_not by (intros ->; apply N; now left). rewrite IH; auto. intros H. apply N. now right.
Qed.

Lemma c_string_clean a : ~ In nul a -> c_string a = a.
Proof.
  intros N. rewrite <- (app_nil_r a) at 1. rewrite c_string_app by auto. cbn. apply app_nil_r.
Qed.

Lemma lex_text t r : ~ In apostrophe t -> lex InQuote (t ++ r) = lex InQuote r.
Proof.
  induction t as [|c t IH]; intros N; [reflexivity|]. cbn.
  rewrite is_not by (intros ->; apply N; now left). apply IH. intros H. apply N. now right.
Qed.

Lemma read_text t : forall s row rows, ~ In apostrophe t ->
  fold_left read_char t (InText s row rows) = InText (s ++ t) row rows.
Proof.
  induction t as [|c t IH]; intros s row rows N.
  - cbn. now rewrite app_nil_r.
  - cbn. rewrite is_not by (intros ->; apply N; now left).
    rewrite IH by (intros H; apply N; now right). now rewrite <- app_assoc.
Qed.

Lemma lex_field t r : ~ In apostrophe t -> lex InQuote (t ++ lit "','" ++ r) = lex InQuote r.
Proof. intros N. rewrite lex_text by auto. reflexivity. Qed.

Lemma read_field t r row rows : ~ In apostrophe t ->
  fold_left read_char (t ++ lit "','" ++ r) (InText [] row rows) =
  fold_left read_char r (InText [] (row ++ [Text t]) rows).
Proof. intros N. rewrite fold_left_app, read_text by auto. reflexivity. Qed.

Lemma digit_clean c : is_digit c = true -> c <> apostrophe /\ c <> nul.
Proof.
  unfold is_digit. intros H. split; intros ->; revert H; vm_compute; discriminate.
Qed.

Lemma to_string_clean n : clean (to_string n).
Proof.
  assert (H : forall c, In c (to_string n) -> c <> apostrophe /\ c <> nul).
  { intros c I. apply digit_clean. pose proof (to_string_digits n) as D.
    rewrite forallb_forall in D. auto. }
  split; intros I; destruct (H _ I) as (A & B); [now apply A|now apply B].
Qed.

(** The text of a row, from the first value on, ended by the bracket. *)
Definition tail_text (now : N) (m : message) (x : str) : str :=
  lit "NULL,'" ++ to_string now ++ lit "','" ++ descriptor m ++ lit "','" ++ group m ++
  lit "','" ++ entity m ++ lit "','" ++ service m ++ lit "','" ++ x.

Lemma row_text_tail now m : row_text now m ++ [")"%char] = tail_text now m (xml m ++ lit "')").
Proof.
  unfold row_text, tail_text. repeat rewrite <- app_assoc. reflexivity.
Qed.

Lemma lex_tail now m x : clean_envelope m -> lex Out (tail_text now m x) = lex InQuote x.
Proof.
  intros (D & G & E & V). unfold tail_text.
  change (lex InQuote (to_string now ++ lit "','" ++ descriptor m ++ lit "','" ++ group m ++
    lit "','" ++ entity m ++ lit "','" ++ service m ++ lit "','" ++ x) = lex InQuote x).
  rewrite lex_field by apply to_string_clean. rewrite lex_field by apply D.
  rewrite lex_field by apply G. rewrite lex_field by apply E. rewrite lex_field by apply V.
  reflexivity.
Qed.

Lemma read_tail now m x : clean_envelope m ->
  fold_left read_char (tail_text now m x) (WantValue [] []) =
  fold_left read_char x
    (InText [] [Null; Text (to_string now); Text (descriptor m); Text (group m);
                Text (entity m); Text (service m)] []).
Proof.
  intros (D & G & E & V). unfold tail_text.
  change (fold_left read_char (to_string now ++ lit "','" ++ descriptor m ++ lit "','" ++ group m ++
    lit "','" ++ entity m ++ lit "','" ++ service m ++ lit "','" ++ x) (InText [] [Null] []) =
   fold_left read_char x
    (InText [] [Null; Text (to_string now); Text (descriptor m); Text (group m);
                Text (entity m); Text (service m)] [])).
  rewrite read_field by apply to_string_clean. rewrite read_field by apply D.
  rewrite read_field by apply G. rewrite read_field by apply E. rewrite read_field by apply V.
  reflexivity.
Qed.

Lemma c_string_tail now m x : clean_envelope m ->
  c_string (tail_text now m x) = tail_text now m (c_string x).
Proof.
  intros (D & G & E & V). unfold tail_text.
  assert (K : forall t r, clean t -> c_string (t ++ lit "','" ++ r) = t ++ lit "','" ++ c_string r).
  { intros t r (_ & N). rewrite c_string_app by exact N. reflexivity. }
  rewrite c_string_app by (intros H; cbn in H; intuition discriminate).
  rewrite K by apply to_string_clean. rewrite !K by assumption. reflexivity.
Qed.

Section Log.
  Context (other : str -> option (list (list str) -> list (list str))).

  Lemma execute_clean now m : clean_envelope m -> clean (xml m) ->
    execute other msg_columns (row_text now m) = Some (fun t => t ++ [row_of now m]).
  Proof.
    intros EV (NA & NN). unfold execute. rewrite row_text_tail, c_string_tail by auto.
    rewrite c_string_app by exact NN. change (c_string (lit "')")) with (lit "')").
    rewrite lex_tail by auto. rewrite lex_text by exact NA.
    change (lex InQuote (lit "')")) with Plain. cbv iota.
    unfold read_tuples. rewrite read_tail by auto. rewrite fold_left_app, read_text by exact NA.
    reflexivity.
  Qed.

  Lemma lex_harmless b : harmless b -> forall r, next_is "*" r = false -> next_is "-" r = false ->
    lex Out (b ++ r) = lex Out r.
  Proof.
    intros HB r R1 R2. induction b as [|c b IH]; [reflexivity|].
    assert (HC := HB c (or_introl eq_refl)).
    assert (NE : forall d, In d [nul; apostrophe; dquote; ";"%char; "["%char; "`"%char; "-"%char;
                                 "*"%char] -> is c d = false).
    { intros d I. apply is_not. intros ->. apply HC. exact I. }
    cbn [app lex].
    rewrite (NE apostrophe) by (cbn; tauto). rewrite (NE dquote) by (cbn; tauto).
    rewrite (NE ";"%char) by (cbn; tauto). rewrite (NE "["%char) by (cbn; tauto).
    rewrite (NE "`"%char) by (cbn; tauto). rewrite (NE "-"%char) by (cbn; tauto).
    cbn [orb andb].
    assert (S2 : next_is "*" (b ++ r) = false).
    { destruct b as [|e b]; [exact R1|]. cbn. apply is_not. intros ->.
      apply (HB "*"%char); [right; now left|cbn; tauto]. }
    rewrite S2, andb_false_r. apply IH. intros d I. apply HB. now right.
  Qed.

  Lemma execute_spoilt now m : clean_envelope m -> spoilt (xml m) ->
    execute other msg_columns (row_text now m) = None.
  Proof.
    intros EV S. unfold execute. rewrite row_text_tail, c_string_tail by auto.
    rewrite lex_tail by auto.
    assert (L : lex InQuote (c_string (xml m ++ lit "')")) = Illegal).
    { destruct S as [(a & b & -> & (AA & AN) & HB)|(a & b & -> & (AA & AN))].
      - rewrite <- app_assoc. rewrite c_string_app by exact AN.
        rewrite lex_text by exact AA.
        change (("'"%char :: b) ++ lit "')") with (["'"%char] ++ b ++ lit "')").
        rewrite c_string_app by (cbn; intuition discriminate).
        rewrite c_string_app.
        2:{ intros I. apply (HB _ I). now left. }
        change (lex Out (b ++ c_string (lit "')")) = Illegal).
        rewrite lex_harmless by (auto; reflexivity). reflexivity.
      - rewrite <- app_assoc. rewrite c_string_app by exact AN.
        rewrite lex_text by exact AA. reflexivity. }
    rewrite L. reflexivity.
  Qed.

  Lemma path_eqb_refl p : path_eqb p p = true.
  Proof.
    destruct p as (n, [t|]); unfold path_eqb; cbn [fst snd]; rewrite ?N.eqb_refl; reflexivity.
  Qed.

  (** A disk on which file [p] is the last one and the only one of its name. *)
  Lemma on_file_last p f d x :
    on_file p f (others p d ++ [(p, x)]) = others p d ++ [(p, f x)].
  Proof.
    unfold on_file. rewrite map_app. cbn [map fst snd]. rewrite path_eqb_refl. f_equal.
    induction d as [|y d IH]; [reflexivity|]. unfold others in *. cbn [filter].
    destruct (path_eqb (fst y) p) eqn:V; cbn [negb]; [exact IH|].
    cbn [map]. rewrite V. f_equal. exact IH.
  Qed.

  (** The service after initialization: only the count of the database changes. *)
  Definition started (n fl : N) (stamp : bool) (p : path) : logger :=
    {| isDatabaseLogger := true; isFileLogger := false; db_limit := (2 ^ 32 - 1)%N;
       file_limit := fl; file := None;
       database := Some {| limit := (2 ^ 32 - 1)%N; stamped := stamp; cols := msg_columns;
                           file_count := 1; count := n; opened := true; db := Some p |} |}.

  Definition first_path (now : N) (stamp : bool) : path :=
    (1%N, if stamp then Some now else None).

  Lemma configure_fresh attr :
    exists fl, configure attr fresh =
      {| isDatabaseLogger := true; isFileLogger := false; db_limit := (2 ^ 32 - 1)%N;
         file_limit := fl; database := None; file := None |}.
  Proof.
    unfold configure. destruct attr as [n|]; [destruct (_ && _)|]; eexists; reflexivity.
  Qed.

  Lemma initialize_opens attr now stamp :
    exists fl, initialize now stamp Opens (configure attr fresh) =
      (started 1 fl stamp (first_path now stamp),
       [Remove (first_path now stamp); Create (first_path now stamp);
        MakeTable (first_path now stamp)], true).
  Proof.
    destruct (configure_fresh attr) as (fl & ->). exists fl. reflexivity.
  Qed.

  Lemma process_started now k m n fl stamp p :
    (n < 2 ^ 32)%N ->
    process other now k m (started n fl stamp p) =
      match (if writes k then execute other msg_columns (row_text now m) else None) with
      | Some f => (Some (started ((n + 1) mod 2 ^ 32) fl stamp p), [Commit p f])
      | None => (Some (started n fl stamp p), [])
      end.
  Proof.
    intros L. unfold process, started, insert. cbn [database opened db cols count negb file].
    destruct (if writes k then _ else _) as [f|]; [|reflexivity].
    unfold closeAndOpenStream, with_count. cbn [limit count].
    assert (E : ((2 ^ 32 - 1 <? (n + 1) mod 2 ^ 32) = false)%N).
    { apply N.ltb_ge. pose proof (N.mod_lt (n + 1) (2 ^ 32)). lia. }
    rewrite E. reflexivity.
  Qed.

  (** The effects of a history after initialization. *)
  Definition effects (s : logger) (evs : list event) : list effect :=
    flat_map snd (snd (run (step other) (Some s) evs)).

  Lemma effects_snoc s evs e :
    effects s (evs ++ [e]) =
    effects s evs ++ snd (step other (fst (run (step other) (Some s) evs)) e).
  Proof.
    unfold effects. rewrite run_snoc. cbn [snd]. rewrite flat_map_app. cbn [flat_map snd].
    now rewrite app_nil_r.
  Qed.

  Lemma disk_after_app d a b : disk_after d (a ++ b) = disk_after (disk_after d a) b.
  Proof. apply fold_left_app. Qed.

  Lemma run_started fl stamp p d evs rows :
    Logged evs rows ->
    (exists n, (n < 2 ^ 32)%N /\
       fst (run (step other) (Some (started 1 fl stamp p)) evs) = Some (started n fl stamp p)) /\
    disk_after (others p d ++ [(p, Some [])]) (effects (started 1 fl stamp p) evs) =
      others p d ++ [(p, Some rows)].
  Proof.
    induction 1 as [|evs rows e L IH W EV X|evs rows e L IH EV X|evs rows e L IH W].
    - split; [|reflexivity]. exists 1%N. split; [reflexivity|reflexivity].
    - destruct IH as ((n & NL & R) & D). rewrite effects_snoc, run_snoc, R. cbn [fst step].
      rewrite process_started by exact NL. rewrite W, execute_clean by auto. cbn [fst snd].
      split.
      + eexists. split; [|reflexivity]. apply N.mod_lt. lia.
      + rewrite disk_after_app, D. cbn. rewrite on_file_last. reflexivity.
    - destruct IH as ((n & NL & R) & D). rewrite effects_snoc, run_snoc, R. cbn [fst step].
      rewrite process_started by exact NL. rewrite execute_spoilt by auto.
      replace (if writes (with_ e) then None else None)
        with (@None (list (list str) -> list (list str))) by (destruct (writes (with_ e)); auto).
      cbn [fst snd]. split; [eauto|]. rewrite app_nil_r. exact D.
    - destruct IH as ((n & NL & R) & D). rewrite effects_snoc, run_snoc, R. cbn [fst step].
      rewrite process_started by exact NL. rewrite W. cbn [fst snd].
      split; [eauto|]. rewrite app_nil_r. exact D.
  Qed.

  Lemma initial_disk d p :
    disk_after d [Remove p; Create p; MakeTable p] = others p d ++ [(p, Some [])].
  Proof.
    unfold disk_after. cbn [fold_left apply].
    change (filter (fun x => negb (path_eqb (fst x) p)) d) with (others p d).
    rewrite on_file_last. reflexivity.
  Qed.
End Log.

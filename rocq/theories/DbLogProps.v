(** C97: the message log holds each message received once, in order, at any crash point; and what
    it does not hold. *)
From Coq Require Import String Ascii List Bool NArith Lia.
From Verif Require Import Base Decimal10 Run DbLogModel DbLogSpec DbLogProofs.
Import ListNotations.
Open Scope list_scope.

Section Log.
  Context (other : str -> option (list (list str) -> list (list str))).

  (** The log service, set up with any LogFileMessageCountLimit [attr] and started at time [now]
      on a disk [d], goes on after every message whose texts are clean or spoilt.  The file it
      began at its start is on the disk, and its rows are the messages received with clean texts,
      one row each, in the order they came, with their time, type, sender and XML.  No other file
      is touched. *)
  Theorem C97_rows attr now stamp d s es ok evs rows :
    initialize now stamp Opens (configure attr fresh) = (s, es, ok) ->
    Logged evs rows ->
    ok = true /\
    fst (run (step other) (Some s) evs) <> None /\
    disk_after d (es ++ flat_map snd (snd (run (step other) (Some s) evs))) =
      others (1%N, if stamp then Some now else None) d ++
      [((1%N, if stamp then Some now else None), Some rows)].
  Proof.
    intros I L. destruct (initialize_opens attr now stamp) as (fl & E). rewrite E in I.
    injection I as <- <- <-.
    destruct (run_started other fl stamp (first_path now stamp) d evs rows L)
      as ((n & _ & R) & D).
    split; [reflexivity|]. split; [rewrite R; discriminate|].
    rewrite disk_after_app, initial_disk. exact D.
  Qed.

  (** A crash between any two steps of writing to the disk, while a message is handled, leaves
      every row of the messages before it, and either no row of this message or all of it. *)
  Theorem C97_crash attr now stamp d s es ok evs rows e rows' done rest :
    initialize now stamp Opens (configure attr fresh) = (s, es, ok) ->
    Logged evs rows -> Logged (evs ++ [e]) rows' ->
    snd (step other (fst (run (step other) (Some s) evs)) e) = done ++ rest ->
    let left := disk_after d (es ++ flat_map snd (snd (run (step other) (Some s) evs)) ++ done) in
    let p := (1%N, if stamp then Some now else None) in
    left = others p d ++ [(p, Some rows)] \/ left = others p d ++ [(p, Some rows')].
  Proof.
    intros I L L' S left p.
    destruct (C97_rows _ _ _ d _ _ _ _ _ I L) as (_ & _ & D).
    destruct (C97_rows _ _ _ d _ _ _ _ _ I L') as (_ & _ & D').
    pose proof (effects_snoc other s evs e) as F. unfold effects in F. rewrite F in D'.
    destruct (initialize_opens attr now stamp) as (fl & E). rewrite E in I.
    injection I as <- <- <-.
    destruct (run_started other fl stamp (first_path now stamp) d evs rows L)
      as ((n & NL & R) & _).
    rewrite R in S, D'. cbn [step] in S, D'.
    rewrite process_started in S, D' by exact NL. fold p in D, D'.
    assert (Z : done = [] \/ rest = []).
    { destruct (if writes (with_ e) then _ else _) as [f|]; cbn [snd] in S.
      - destruct done as [|x done]; [now left|]. injection S as _ S. right.
        symmetry in S. apply app_eq_nil in S. tauto.
      - symmetry in S. apply app_eq_nil in S. tauto. }
    unfold left. destruct Z as [-> | ->].
    - left. rewrite app_nil_r. exact D.
    - right. rewrite app_nil_r in S. rewrite <- S. exact D'.
  Qed.

  (** A crash while the log is started leaves every other file as it is. *)
  Theorem C97_crash_at_start attr now stamp d s es ok done rest :
    initialize now stamp Opens (configure attr fresh) = (s, es, ok) -> es = done ++ rest ->
    let p := (1%N, if stamp then Some now else None) in
    others p (disk_after d done) = others p d.
  Proof.
    intros I S p. destruct (initialize_opens attr now stamp) as (fl & E). rewrite E in I.
    injection I as _ <- _. fold (first_path now stamp) in p. fold p in S.
    assert (O : forall x, others p (others p d ++ [(p, x)]) = others p d).
    { intros x. unfold others. rewrite filter_app. cbn [filter fst]. rewrite path_eqb_refl.
      cbn [negb]. rewrite app_nil_r. induction d as [|y d' IH]; [reflexivity|]. cbn [filter].
      destruct (negb (path_eqb (fst y) p)) eqn:V; [|exact IH]. cbn [filter]. rewrite V.
      f_equal. exact IH. }
    destruct done as [|x1 done]; [reflexivity|]. injection S as <- S.
    destruct done as [|x2 done].
    { unfold disk_after. cbn. specialize (O None). unfold others in O. rewrite filter_app in O.
      cbn [filter fst] in O. rewrite path_eqb_refl in O. cbn [negb] in O.
      rewrite app_nil_r in O. exact O. }
    injection S as <- S.
    destruct done as [|x3 done]. { apply O. }
    injection S as <- S. symmetry in S. apply app_eq_nil in S. destruct S as (-> & ->).
    rewrite initial_disk. apply O.
  Qed.

  (** A message with an apostrophe in its XML, as in the name of a task, is lost: the disk is the
      same as if it had never come. *)
  Theorem C97_apostrophe_refuted attr now stamp d s es ok evs rows e :
    initialize now stamp Opens (configure attr fresh) = (s, es, ok) ->
    Logged evs rows -> clean_envelope (msg e) -> spoilt (xml (msg e)) ->
    disk_after d (es ++ flat_map snd (snd (run (step other) (Some s) (evs ++ [e])))) =
    disk_after d (es ++ flat_map snd (snd (run (step other) (Some s) evs))).
  Proof.
    intros I L EV X.
    destruct (C97_rows _ _ _ d _ _ _ _ _ I L) as (_ & _ & ->).
    destruct (C97_rows _ _ _ d _ _ _ _ _ I (LSpoilt _ _ e L EV X)) as (_ & _ & ->).
    reflexivity.
  Qed.

  (** A message may log a second row of its own making: one that says that another service sent
      another message at another time. *)
  Theorem C97_forged_refuted attr now stamp d s es ok evs rows e a t de g en se b :
    initialize now stamp Opens (configure attr fresh) = (s, es, ok) ->
    Logged evs rows -> writes (with_ e) = true -> clean_envelope (msg e) ->
    clean a -> clean t -> clean de -> clean g -> clean en -> clean se -> clean b ->
    xml (msg e) = a ++ lit "'),(NULL,'" ++ t ++ lit "','" ++ de ++ lit "','" ++ g ++ lit "','" ++
                  en ++ lit "','" ++ se ++ lit "','" ++ b ->
    let p := (1%N, if stamp then Some now else None) in
    disk_after d (es ++ flat_map snd (snd (run (step other) (Some s) (evs ++ [e])))) =
    others p d ++
    [(p, Some (rows ++ [[to_string (at_ e); descriptor (msg e); group (msg e); entity (msg e);
                         service (msg e); a];
                        [t; de; g; en; se; b]]))].
  Proof.
    intros I L W EV (A1 & A2) (T1 & T2) (D1 & D2) (G1 & G2) (E1 & E2) (S1 & S2) (B1 & B2) X p.
    assert (EX : execute other msg_columns (row_text (at_ e) (msg e)) =
      Some (fun tb => tb ++ [[to_string (at_ e); descriptor (msg e); group (msg e);
                              entity (msg e); service (msg e); a]; [t; de; g; en; se; b]])).
    { unfold execute. rewrite row_text_tail, c_string_tail by auto. rewrite X.
      rewrite c_string_clean.
      2:{ repeat rewrite in_app_iff. cbn. intuition discriminate. }
      rewrite lex_tail by auto. repeat rewrite <- app_assoc.
      rewrite lex_text by exact A1.
      assert (V : forall r, lex InQuote (lit "'),(NULL,'" ++ r) = lex InQuote r) by reflexivity.
      rewrite V. rewrite !lex_field by assumption. rewrite lex_text by exact B1.
      change (lex InQuote (lit "')")) with Plain. cbv iota.
      unfold read_tuples. rewrite read_tail by auto.
      rewrite fold_left_app, read_text by exact A1. rewrite fold_left_app.
      match goal with |- context [fold_left read_char (lit "'),(NULL,'") (InText ?x ?r [])] =>
        change (fold_left read_char (lit "'),(NULL,'") (InText x r []))
          with (InText [] [Null] [r ++ [Text x]]) end.
      rewrite !read_field by assumption. rewrite fold_left_app, read_text by exact B1.
      reflexivity. }
    pose proof (effects_snoc other s evs e) as F. unfold effects in F. rewrite F.
    destruct (C97_rows _ _ _ d _ _ _ _ _ I L) as (_ & _ & D).
    rewrite app_assoc, disk_after_app, D.
    destruct (initialize_opens attr now stamp) as (fl & E). rewrite E in I.
    injection I as <- <- <-.
    destruct (run_started other fl stamp (first_path now stamp) d evs rows L)
      as ((n & NL & R) & _).
    rewrite R. cbn [step]. rewrite process_started by exact NL. rewrite W, EX. cbn [snd].
    unfold disk_after. cbn [fold_left apply]. fold p. change (first_path now stamp) with p.
    rewrite on_file_last. reflexivity.
  Qed.

  (** The text log that LogFileMessageCountLimit is to turn on is never written, whatever the
      limit and whatever happens. *)
  Theorem C97_no_text_refuted attr now stamp o s es ok evs :
    initialize now stamp o (configure attr fresh) = (s, es, ok) ->
    forall n l, ~ In (Line n l) (es ++ flat_map snd (snd (run (step other) (Some s) evs))).
  Proof.
    intros I n l.
    assert (O : forall now o h h' es ok, openStream now o h = (h', es, ok) ->
                ~ In (Line n l) es).
    { intros w o' h h' es' ok' H. destruct o'; cbn in H; injection H as _ <- _; cbn;
        intuition discriminate. }
    destruct (configure_fresh attr) as (fl & EQ). rewrite EQ in I. unfold initialize in I.
    cbn [isDatabaseLogger isFileLogger file db_limit file_limit] in I.
    destruct (openStream now o _) as ((h & es0) & ok0) eqn:OP. injection I as <- <- <-.
    rewrite in_app_iff. intros [X|X]; [exact (O _ _ _ _ _ _ OP X)|].
    match type of X with context [run (step other) ?i evs] => set (s0 := i) in X end.
    assert (K : forall x, In x (flat_map snd (snd (run (step other) s0 evs))) -> x <> Line n l).
    { apply (run_inv (step other) s0
        (fun _ st tr => (forall q, st = Some q -> file q = None) /\
                        (forall x, In x (flat_map snd tr) -> x <> Line n l))).
      - split; [|intros x []]. intros q H. injection H as <-. reflexivity.
      - intros evs' e st tr st' os (IH1 & IH2) ST _.
        assert (N : (forall q, st' = Some q -> file q = None) /\ ~ In (Line n l) os).
        { destruct st as [q|].
          2:{ cbn in ST. injection ST as <- <-. split; [discriminate|intros []]. }
          cbn [step] in ST. unfold process in ST. rewrite (IH1 q eq_refl) in ST.
          assert (INS : forall w k v h0 h1 es1, insert other w k v h0 = (h1, es1) ->
                        ~ In (Line n l) es1).
          { intros w k v h0 h1 es1 H. unfold insert in H.
            destruct (if opened h0 then _ else _) as ((h2 & es2) & ok2) eqn:FO.
            assert (N2 : ~ In (Line n l) es2).
            { destruct (opened h0); [injection FO as _ <- _; intros []|exact (O _ _ _ _ _ _ FO)]. }
            destruct (negb ok2); [injection H as _ <-; exact N2|].
            destruct (db h2); [|injection H as _ <-; exact N2].
            destruct (if writes k then _ else _); [|injection H as _ <-; exact N2].
            destruct (closeAndOpenStream w (next k) _) as (h3 & es3) eqn:CO.
            injection H as _ <-. rewrite in_app_iff. cbn. intros [Y|[Y|Y]];
              [exact (N2 Y)|discriminate|].
            unfold closeAndOpenStream in CO. destruct (_ <? _)%N.
            - destruct (openStream w (next k) _) as ((h4 & es4) & ok4) eqn:O4.
              injection CO as _ <-. exact (O _ _ _ _ _ _ O4 Y).
            - injection CO as _ <-. destruct Y. }
          destruct (database q) as [h0|].
          - destruct (insert other _ _ _ h0) as (h1 & es1) eqn:IN.
            apply INS in IN. destruct h1 as [h1|]; cbn in ST; injection ST as <- <-.
            + rewrite app_nil_r. split; [|exact IN]. intros q' H. injection H as <-. reflexivity.
            + split; [discriminate|exact IN].
          - cbn in ST. injection ST as <- <-. split; [|intros []].
            intros q' H. injection H as <-. reflexivity. }
        split; [apply N|]. intros x. rewrite flat_map_app, in_app_iff. cbn [flat_map snd].
        rewrite app_nil_r. intros [Y|Y]; [auto|]. intros ->. apply N. exact Y. }
    exact (K _ X eq_refl).
  Qed.

  (** With no times in the names of the files, starting the log removes the log of the run
      before. *)
  Theorem C97_run_before_refuted attr now d s es ok rows :
    initialize now false Opens (configure attr fresh) = (s, es, ok) ->
    In ((1%N, None), Some rows) d -> rows <> [] ->
    ~ In ((1%N, None), Some rows) (disk_after d es).
  Proof.
    intros I _ NE. destruct (initialize_opens attr now false) as (fl & E). rewrite E in I.
    injection I as _ <- _. rewrite initial_disk. rewrite in_app_iff. intros [X|[X|[]]].
    - unfold others in X. apply filter_In in X. destruct X as (_ & X). cbn in X. discriminate.
    - injection X as X. apply NE. now symmetry.
  Qed.
End Log.

(** Not vacuous: a log with data of an earlier run beside it gets a message, one with a name like
    Earl's in it, and one more: the second is lost. *)
Definition fine : luck := {| writes := true; first := Opens; next := Opens |}.
Definition sample (now : N) (x : string) : event :=
  {| at_ := now; with_ := fine;
     msg := {| descriptor := lit "afrl.cmasi.KeyValuePair"; group := lit ""; entity := lit "100";
               service := lit "5"; attributes := []; xml := lit x |} |}.
Definition history := [sample 7 "<a N=""1""/>"; sample 8 "<Label>Earl's</Label>"; sample 9 "<b/>"].

Lemma clean_by (t : str) :
  forallb (fun c => negb (Ascii.eqb c "'") && negb (Ascii.eqb c Ascii.zero)) t = true -> clean t.
Proof.
  intros H. rewrite forallb_forall in H.
  split; intros I; specialize (H _ I); vm_compute in H; discriminate.
Qed.

Example C97_case other :
  let '(s, es, ok) := initialize 3 true Opens (configure (Some 50%N) fresh) in
  Logged history [row_of 7 (msg (sample 7 "<a N=""1""/>")); row_of 9 (msg (sample 9 "<b/>"))] /\
  disk_after [((1%N, Some 2%N), Some [[lit "old"]])]
    (es ++ flat_map snd (snd (run (step other) (Some s) history))) =
  [((1%N, Some 2%N), Some [[lit "old"]]);
   ((1%N, Some 3%N),
    Some [[lit "7"; lit "afrl.cmasi.KeyValuePair"; []; lit "100"; lit "5"; lit "<a N=""1""/>"];
          [lit "9"; lit "afrl.cmasi.KeyValuePair"; []; lit "100"; lit "5"; lit "<b/>"]])].
Proof.
  destruct (initialize 3 true Opens (configure (Some 50%N) fresh)) as ((s, es), ok) eqn:I.
  assert (L : Logged history
    ([row_of 7 (msg (sample 7 "<a N=""1""/>"))] ++ [row_of 9 (msg (sample 9 "<b/>"))])).
  { assert (EV : forall n x, clean_envelope (msg (sample n x))).
    { intros n x. repeat split; apply clean_by; reflexivity. }
    apply (LRow [sample 7 "<a N=""1""/>"; sample 8 "<Label>Earl's</Label>"] _
             (sample 9 "<b/>")); auto; [|apply clean_by; reflexivity].
    apply (LSpoilt [sample 7 "<a N=""1""/>"] _ (sample 8 "<Label>Earl's</Label>")); auto.
    - apply (LRow [] [] (sample 7 "<a N=""1""/>")); auto; [constructor|].
      apply clean_by; reflexivity.
    - left. exists (lit "<Label>Earl"), (lit "s</Label>").
      split; [reflexivity|]. split; [apply clean_by; reflexivity|].
      intros c H. cbn in H. repeat destruct H as [<-|H]; try contradiction;
        cbn; intuition discriminate. }
  split; [exact L|].
  destruct (C97_rows other _ _ _ [((1%N, Some 2%N), Some [[lit "old"]])] _ _ _ _ _ I L)
    as (_ & _ & ->).
  reflexivity.
Qed.

(** Not vacuous: a forged row. *)
Example C97_forged_case other :
  let '(s, es, ok) := initialize 3 false Opens (configure None fresh) in
  disk_after [((1%N, None), Some [[lit "run before"]])]
    (es ++ flat_map snd (snd (run (step other) (Some s)
       [sample 7 "x'),(NULL,'6','afrl.cmasi.MissionCommand','','200','9','y"]))) =
  [((1%N, None),
    Some [[lit "7"; lit "afrl.cmasi.KeyValuePair"; []; lit "100"; lit "5"; lit "x"];
          [lit "6"; lit "afrl.cmasi.MissionCommand"; []; lit "200"; lit "9"; lit "y"]])].
Proof. reflexivity. Qed.

Print Assumptions C97_rows.
Print Assumptions C97_crash.
Print Assumptions C97_crash_at_start.
Print Assumptions C97_apostrophe_refuted.
Print Assumptions C97_forged_refuted.
Print Assumptions C97_no_text_refuted.
Print Assumptions C97_run_before_refuted.

From Coq Require Import String Ascii List Bool NArith Lia Arith.
From Verif Require Import Base Decimal10 Run DbLogModel DbLogSpec DbLogProofs LogManagerModel
  LogManagerSpec LogManagerProofs.
Import ListNotations.
Open Scope list_scope.

Lemma path_eqb_eq p q : path_eqb p q = true <-> p = q.
Proof.
  destruct p as (a, x), q as (b, y). unfold path_eqb. cbn [fst snd]. rewrite andb_true_iff, N.eqb_eq.
  destruct x as [x|], y as [y|]; rewrite ?N.eqb_eq; split; intros H;
    try (destruct H as (-> & H)); try discriminate; try congruence;
    try (injection H as -> ->; auto); try (injection H as ->; auto); try discriminate.
Qed.

Lemma path_eqb_neq p q : p <> q -> path_eqb p q = false.
Proof. intros N. destruct (path_eqb p q) eqn:V; auto. apply path_eqb_eq in V. contradiction. Qed.

Lemma among_in ps f : among ps f = true <-> In (fst f) ps.
Proof.
  unfold among. rewrite existsb_exists. split.
  - intros (x & I & E). apply path_eqb_eq in E. now subst x.
  - intros I. exists (fst f). split; auto. apply path_eqb_refl.
Qed.

Lemma on_file_absent p f d : (forall x, In x d -> fst x <> p) -> on_file p f d = d.
Proof.
  unfold on_file. induction d as [|y d IH]; intros N; [reflexivity|]. cbn [map].
  rewrite path_eqb_neq by (apply N; now left). f_equal. apply IH. intros x I. apply N. now right.
Qed.

Lemma remove_absent p d : (forall x, In x d -> fst x <> p) ->
  filter (fun x : path * option (list (list str)) => negb (path_eqb (fst x) p)) d = d.
Proof.
  induction d as [|y d IH]; intros N; [reflexivity|]. cbn [filter].
  rewrite path_eqb_neq by (apply N; now left). cbn [negb]. f_equal. apply IH. intros x I.
  apply N. now right.
Qed.

Lemma outside_in ps d x : In x (outside ps d) -> ~ In (fst x) ps.
Proof.
  unfold outside. intros I A. apply filter_In in I. destruct I as (_ & I).
  apply among_in in A. rewrite A in I. discriminate.
Qed.

Lemma outside_snoc ps p d :
  filter (fun x => negb (path_eqb (fst x) p)) (outside ps d) = outside (ps ++ [p]) d.
Proof.
  unfold outside. induction d as [|y d IH]; [reflexivity|]. cbn [filter].
  assert (E : among (ps ++ [p]) y = among ps y || path_eqb (fst y) p).
  { unfold among. rewrite existsb_app. cbn [existsb]. now rewrite orb_false_r. }
  rewrite E. destruct (among ps y); cbn [negb orb]; [exact IH|]. cbn [filter].
  destruct (path_eqb (fst y) p); cbn [negb]; [exact IH|]. now rewrite IH.
Qed.

Ltac nolit I := repeat (destruct I as [I|I]; [discriminate I|]); destruct I.

Section Log.
  Context (other : str -> option (list (list str) -> list (list str))).

  Lemma level_text_clean l : clean (level_text l).
  Proof. destruct l; apply conj; vm_compute; intuition discriminate. Qed.

  Lemma head_text_execute threads r values :
    clean (thread r) -> ~ In Ascii.zero (text (record_of r)) ->
    head_text threads r = Some values ->
    execute other (log_columns threads) values = Some (fun t => t ++ [log_row threads r]).
  Proof.
    intros TC NZ H. unfold head_text in H. rewrite escape_quoted in H.
    apply (f_equal (fun o => match o with Some x => x | None => [] end)) in H.
    cbv beta iota in H. subst values.
    pose proof (quoted_clean _ NZ) as QC. set (q := quoted (text (record_of r))) in *.
    pose proof (to_string_clean (time r)) as NC.
    pose proof (level_text_clean (severity (record_of r))) as LC.
    assert (ROW : log_row threads r = to_string (time r) ::
              (if threads then [thread r] else []) ++ [level_text (severity (record_of r)); q]).
    { unfold log_row. fold q. destruct (severity (record_of r)); reflexivity. }
    rewrite ROW. clear ROW. set (sv := level_text (severity (record_of r))) in *.
    set (tm := to_string (time r)) in *.
    unfold execute.
    assert (CL : forall t : str, clean t -> ~ In nul t) by (intros t X; apply X).
    assert (CA : forall t : str, clean t -> ~ In apostrophe t) by (intros t X; apply X).
    assert (FD : forall t t' : str, clean t -> ~ In nul t' -> ~ In nul (t ++ lit "','" ++ t')).
    { intros t t' X Y. rewrite !in_app_iff. intros [I|[I|I]]; [now apply (CL t)| |now apply Y].
      vm_compute in I. nolit I. }
    destruct threads.
    - repeat rewrite <- app_assoc. rewrite c_string_clean.
      2:{ rewrite in_app_iff. intros [I|I]; [vm_compute in I; nolit I|]. revert I.
          apply FD; [exact NC|]. apply FD; [exact TC|]. apply FD; [exact LC|].
          rewrite in_app_iff. intros [I|I]; [now apply (CL q)|vm_compute in I; nolit I]. }
      match goal with |- context [lex Out (lit "'" ++ ?x)] =>
        change (lex Out (lit "'" ++ x)) with (lex InQuote x) end.
      rewrite lex_field by auto. rewrite lex_field by auto. rewrite lex_field by auto.
      rewrite lex_text by auto. change (lex InQuote (lit "'" ++ [")"%char])) with Plain.
      cbv iota. unfold read_tuples.
      match goal with |- context [fold_left read_char (lit "'" ++ ?x) ?p] =>
        change (fold_left read_char (lit "'" ++ x) p) with (fold_left read_char x (InText [] [] []))
      end.
      rewrite read_field by auto. rewrite read_field by auto. rewrite read_field by auto.
      rewrite fold_left_app, read_text by auto. reflexivity.
    - cbn [app]. repeat rewrite <- app_assoc. rewrite c_string_clean.
      2:{ rewrite in_app_iff. intros [I|I]; [vm_compute in I; nolit I|]. revert I.
          apply FD; [exact NC|]. apply FD; [exact LC|].
          rewrite in_app_iff. intros [I|I]; [now apply (CL q)|vm_compute in I; nolit I]. }
      match goal with |- context [lex Out (lit "'" ++ ?x)] =>
        change (lex Out (lit "'" ++ x)) with (lex InQuote x) end.
      rewrite lex_field by auto. rewrite lex_field by auto.
      rewrite lex_text by auto. change (lex InQuote (lit "'" ++ [")"%char])) with Plain.
      cbv iota. unfold read_tuples.
      match goal with |- context [fold_left read_char (lit "'" ++ ?x) ?p] =>
        change (fold_left read_char (lit "'" ++ x) p) with (fold_left read_char x (InText [] [] []))
      end.
      rewrite read_field by auto. rewrite read_field by auto.
      rewrite fold_left_app, read_text by auto. reflexivity.
  Qed.

  (** The state of a database log with [n] files, [c] rows in the last one, named [p]. *)
  Definition going (l : N) (stamp threads : bool) (n c : nat) (p : path) : helper :=
    {| limit := l; stamped := stamp; cols := log_columns threads; file_count := N.of_nat n;
       count := N.of_nat (S c); opened := true; db := Some p |}.

  (** The files of a run on the disk. *)
  Definition layout (d : disk) (ns : list path) (p : path) (full : list (list (list str)))
             (x : option (list (list str))) : disk :=
    outside (ns ++ [p]) d ++ combine ns (map Some full) ++ [(p, x)].

  Definition numbered (ns : list path) : Prop :=
    map (fun q : path => fst q) ns = map N.of_nat (seq 1 (length ns)).

  Lemma numbered_snoc ns p : numbered ns -> fst p = N.of_nat (S (length ns)) ->
    numbered (ns ++ [p]).
  Proof.
    unfold numbered. intros N E. rewrite map_app, N, app_length. cbn [map length].
    rewrite Nat.add_1_r, seq_S, map_app. cbn [map]. rewrite E. do 3 f_equal.
  Qed.

  Lemma numbered_fresh ns p : numbered ns -> (N.of_nat (length ns) < fst p)%N -> ~ In p ns.
  Proof.
    intros N L I. apply (in_map (fun q : path => fst q)) in I. unfold numbered in N. rewrite N in I. apply in_map_iff in I.
    destruct I as (k & E & I). apply in_seq in I. lia.
  Qed.

  Lemma numbered_last ns p : numbered (ns ++ [p]) ->
    numbered ns /\ fst p = N.of_nat (S (length ns)).
  Proof.
    unfold numbered. rewrite map_app, app_length. cbn [map length].
    rewrite Nat.add_1_r, seq_S, map_app. cbn [map]. intros H. apply app_inj_tail in H.
    destruct H as (A & B). split; [exact A|]. rewrite B. f_equal.
  Qed.

  Lemma combine_names (ns : list path) (full : list (list (list str)))
        (x : path * option (list (list str))) :
    In x (combine ns (map Some full)) -> In (fst x) ns.
  Proof. destruct x as (a, b). intros I. apply in_combine_l in I. exact I. Qed.

  Lemma layout_commit d ns p full x f : ~ In p ns ->
    on_file p f (layout d ns p full x) = layout d ns p full (f x).
  Proof.
    intros N. unfold layout, on_file. rewrite !map_app.
    fold (on_file p f (outside (ns ++ [p]) d)). fold (on_file p f (combine ns (map Some full))).
    rewrite on_file_absent.
    2:{ intros y I E. apply (outside_in _ _ _ I). rewrite E, in_app_iff. right. now left. }
    rewrite on_file_absent.
    2:{ intros y I E. apply N. rewrite <- E. exact (combine_names _ _ _ I). }
    cbn [map fst snd]. rewrite path_eqb_refl. reflexivity.
  Qed.

  Lemma layout_remove d ns p full rest q : length ns = length full -> ~ In q (ns ++ [p]) ->
    apply (layout d ns p full (Some rest)) (Remove q) =
    outside (ns ++ [p] ++ [q]) d ++ combine (ns ++ [p]) (map Some (full ++ [rest])).
  Proof.
    intros LN N. unfold layout. cbn [apply]. rewrite !filter_app. rewrite outside_snoc.
    rewrite <- app_assoc. f_equal.
    rewrite remove_absent.
    2:{ intros y I E. apply N. rewrite in_app_iff. left. rewrite <- E.
        exact (combine_names _ _ _ I). }
    cbn [filter fst]. rewrite path_eqb_neq by (intros ->; apply N; rewrite in_app_iff; right; now left).
    cbn [negb]. rewrite map_app. cbn [map].
    assert (C : forall (a : list path) (b : list (option (list (list str)))), length a = length b ->
              combine (a ++ [p]) (b ++ [Some rest]) = combine a b ++ [(p, Some rest)]).
    { clear. induction a as [|x a IH]; intros [|y b] E; try discriminate; [reflexivity|].
      cbn [app combine]. rewrite IH; auto. }
    symmetry. apply C. now rewrite map_length.
  Qed.

  (** One record put in. *)
  Lemma put_going l stamp threads n c p e :
    (N.of_nat (S (S c)) < 2 ^ 32)%N -> ordinary e ->
    put other threads (Some (going l stamp threads n c p)) e =
      if (l <? N.of_nat (S (S c)))%N then
        let '(h, es, _) := openStream (time (head e)) (next (luck_of e))
              (closeStream (going l stamp threads n (S c) p)) in
        (Some (with_count 1 h), Commit p (fun t => t ++ [log_row threads (head e)]) :: es)
      else (Some (going l stamp threads n (S c) p),
            [Commit p (fun t => t ++ [log_row threads (head e)])]).
  Proof.
    intros B (TC & NZ & W). unfold put.
    destruct (head_text threads (head e)) as [v|] eqn:V.
    2:{ unfold head_text in V. rewrite escape_quoted in V. discriminate. }
    unfold insert, going. cbn [opened negb db cols count]. rewrite W.
    rewrite (head_text_execute _ _ _ TC NZ V).
    replace ((N.of_nat (S c) + 1) mod 2 ^ 32)%N with (N.of_nat (S (S c))).
    2:{ rewrite N.mod_small; lia. }
    unfold closeAndOpenStream, with_count. cbn [limit count stamped cols file_count opened db].
    destruct (l <? N.of_nat (S (S c)))%N; [|reflexivity].
    unfold closeStream. cbn [limit count stamped cols file_count opened db].
    destruct (openStream _ _ _) as ((h & es) & ok). reflexivity.
  Qed.

  Definition opened_log (l : nat) (stamp threads : bool) (now : N) : helper * list effect * bool :=
    openStream now Opens (configured (N.of_nat l) stamp (log_columns threads)).

  Definition effects (threads : bool) (h : helper) (evs : list entry) : list effect :=
    flat_map snd (snd (run (put other threads) (Some h) evs)).

  Lemma effects_snoc threads h evs e :
    effects threads h (evs ++ [e]) =
    effects threads h evs ++
    snd (put other threads (fst (run (put other threads) (Some h) evs)) e).
  Proof.
    unfold effects. rewrite run_snoc. cbn [snd]. rewrite flat_map_app. cbn [flat_map snd].
    now rewrite app_nil_r.
  Qed.

  (** The state of the log and the disk after a history in which every file can be opened. *)
  Lemma log_inv l stamp threads now d h es ok evs :
    0 < l -> (N.of_nat (S l) < 2 ^ 32)%N ->
    opened_log l stamp threads now = (h, es, ok) ->
    Forall ordinary evs -> Forall (fun e => next (luck_of e) = Opens) evs ->
    exists ns p full rest,
      fst (run (put other threads) (Some h) evs) =
        Some (going (N.of_nat l) stamp threads (S (length ns)) (length rest) p) /\
      disk_after d (es ++ effects threads h evs) = layout d ns p full (Some rest) /\
      numbered (ns ++ [p]) /\ length ns = length full /\
      concat full ++ rest = map (fun e => log_row threads (head e)) evs /\
      Forall (fun f => length f = l) full /\ length rest < l.
  Proof.
    intros L1 L2 OP. induction evs as [|e evs IH] using rev_ind; intros OR NX.
    - cbn in OP. injection OP as <- <- <-.
      exists [], (1%N, if stamp then Some now else None), [], [].
      split; [reflexivity|]. split; [|repeat split; auto].
      unfold effects. cbn [run fold_left snd flat_map]. rewrite app_nil_r. rewrite initial_disk.
      unfold layout, others, outside. cbn [app combine map]. f_equal. apply filter_ext.
      intros x. unfold among. cbn [existsb]. now rewrite orb_false_r.
    - apply Forall_app in OR. destruct OR as (OR & OE). apply Forall_app in NX.
      destruct NX as (NX & NE). apply Forall_inv in OE. apply Forall_inv in NE.
      destruct (IH OR NX) as (ns & p & full & rest & R & D & NU & LN & CC & FL & LR).
      rewrite run_snoc, effects_snoc, R. cbn [fst].
      rewrite put_going by (auto; lia).
      destruct (numbered_last _ _ NU) as (NU' & FP).
      assert (NP : ~ In p ns) by (apply numbered_fresh; auto; lia).
      rewrite app_assoc, disk_after_app, D.
      destruct (N.ltb_spec (N.of_nat l) (N.of_nat (S (S (length rest))))) as [G|G].
      + assert (LL : S (length rest) = l) by lia.
        rewrite NE. unfold openStream, closeStream, going.
        cbn [limit count stamped cols file_count opened db fst snd].
        set (q := ((N.of_nat (S (length ns)) + 1)%N, if stamp then Some (time (head e)) else None)).
        exists (ns ++ [p]), q, (full ++ [rest ++ [log_row threads (head e)]]), [].
        assert (NQ : ~ In q (ns ++ [p])).
        { apply numbered_fresh; auto. rewrite app_length. cbn [length q fst]. lia. }
        split; [|split; [|split; [|split; [|split; [|split]]]]].
        * unfold going, with_count. cbn [limit count stamped cols file_count opened db length].
          f_equal. f_equal; auto. rewrite app_length. cbn [length]. lia.
        * unfold disk_after. cbn [fold_left].
          change (apply (layout d ns p full (Some rest))
                   (Commit p (fun t => t ++ [log_row threads (head e)])))
            with (on_file p (option_map (fun t => t ++ [log_row threads (head e)]))
                   (layout d ns p full (Some rest))).
          rewrite layout_commit by exact NP. cbn [option_map].
          rewrite layout_remove by auto. cbn [apply].
          assert (E : forall x, (outside (ns ++ [p] ++ [q]) d ++
             combine (ns ++ [p]) (map Some (full ++ [rest ++ [log_row threads (head e)]]))) ++ [(q, x)]
             = layout d (ns ++ [p]) q (full ++ [rest ++ [log_row threads (head e)]]) x).
          { intros x. unfold layout. rewrite <- !app_assoc. reflexivity. }
          rewrite E. rewrite layout_commit by exact NQ. reflexivity.
        * apply numbered_snoc; auto. rewrite app_length. cbn [length q fst]. lia.
        * rewrite !app_length, LN. reflexivity.
        * rewrite map_app, <- CC. rewrite concat_app. cbn [concat map].
          rewrite !app_nil_r, app_assoc. reflexivity.
        * apply Forall_app. split; [exact FL|]. constructor; [|constructor].
          rewrite app_length. cbn [length]. lia.
        * cbn. lia.
      + exists ns, p, full, (rest ++ [log_row threads (head e)]).
        cbn [fst snd]. split; [|split; [|split; [|split; [|split; [|split]]]]]; auto.
        * rewrite app_length. cbn [length]. unfold going. do 3 f_equal. lia.
        * unfold disk_after. cbn [fold_left].
          change (apply (layout d ns p full (Some rest))
                   (Commit p (fun t => t ++ [log_row threads (head e)])))
            with (on_file p (option_map (fun t => t ++ [log_row threads (head e)]))
                   (layout d ns p full (Some rest))).
          rewrite layout_commit by exact NP. reflexivity.
        * rewrite map_app, <- CC, app_assoc. reflexivity.
        * rewrite app_length. cbn [length]. lia.
  Qed.

  (** The rows of the files of a run. *)
  Lemma rows_of_combine ns : forall full, length ns = length full ->
    rows_of (combine ns (map Some full)) = concat full.
  Proof.
    induction ns as [|p ns IH]; intros [|f full] E; try discriminate; [reflexivity|].
    cbn [map combine]. unfold rows_of in *. cbn [flat_map snd concat]. rewrite IH; auto.
  Qed.

  Lemma inside_layout d ns p full x : length ns = length full ->
    inside (ns ++ [p]) (layout d ns p full x) = combine ns (map Some full) ++ [(p, x)].
  Proof.
    intros LN. unfold layout, inside. rewrite !filter_app.
    assert (A : filter (among (ns ++ [p])) (outside (ns ++ [p]) d) = []).
    { pose proof (outside_in (ns ++ [p]) d) as O.
      induction (outside (ns ++ [p]) d) as [|y l IH]; [reflexivity|]. cbn [filter].
      destruct (among (ns ++ [p]) y) eqn:V.
      - apply among_in in V. exfalso. apply (O y); [now left|exact V].
      - apply IH. intros z I. apply O. now right. }
    rewrite A. cbn [app]. f_equal.
    - assert (B : forall y, In y (combine ns (map Some full)) -> among (ns ++ [p]) y = true).
      { intros y I. apply among_in. rewrite in_app_iff. left. exact (combine_names _ _ _ I). }
      induction (combine ns (map Some full)) as [|y l IH]; [reflexivity|]. cbn [filter].
      rewrite B by now left. f_equal. apply IH. intros z I. apply B. now right.
    - cbn [filter]. replace (among (ns ++ [p]) (p, x)) with true; [reflexivity|].
      symmetry. apply among_in. cbn [fst]. rewrite in_app_iff. right. now left.
  Qed.

  Lemma outside_outside ps qs d : (forall p, In p ps -> In p qs) ->
    outside qs (outside ps d) = outside qs d.
  Proof.
    intros S. unfold outside. induction d as [|y d IH]; [reflexivity|]. cbn [filter].
    destruct (among ps y) eqn:V; cbn [negb].
    - assert (W : among qs y = true) by (apply among_in, S, among_in, V).
      rewrite W. cbn [negb]. exact IH.
    - cbn [filter]. destruct (among qs y); cbn [negb]; [exact IH|]. now rewrite IH.
  Qed.

  Lemma outside_none ps d : (forall x, In x d -> In (fst x) ps) -> outside ps d = [].
  Proof.
    intros S. unfold outside. induction d as [|y d IH]; [reflexivity|]. cbn [filter].
    replace (among ps y) with true by (symmetry; apply among_in, S; now left). cbn [negb].
    apply IH. intros x I. apply S. now right.
  Qed.
End Log.

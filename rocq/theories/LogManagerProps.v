(** C98: every logger gets the records it asked for, and a database log keeps each of them. *)
From Coq Require Import String Ascii List Bool NArith Lia Arith.
From Verif Require Import Base Decimal10 Run DbLogModel DbLogSpec DbLogProofs LogManagerModel
  LogManagerSpec LogManagerProofs LogManagerRows.
Import ListNotations.
Open Scope list_scope.

(** Whatever loggers are added, removed and set before and after, a logger that is added gets
    exactly the records at or above its threshold that are logged from then on, until it is
    removed, in the order they are logged. *)
Theorem C98_delivery before_ n k t notice after :
  let ops := before_ ++ Add n k t true notice :: after in
  map snd (filter (fun x => Nat.eqb (fst x) (adds before_))
                  (flat_map snd (snd (run step no_loggers ops)))) =
  (if wants t Info then [{| severity := Info; text := notice |}] else []) ++ gets k n t after.
Proof.
  intros ops. destruct (run_outs no_loggers ops) as (_ & ->).
  change (to (adds before_) (outs no_loggers ops) =
    (if wants t Info then [{| severity := Info; text := notice |}] else []) ++ gets k n t after).
  set (me := adds before_). unfold ops. rewrite outs_app, to_app.
  destruct (before me before_ no_loggers) as (B1 & B2); [intros s []|cbn; lia|].
  rewrite B1. cbn [app]. set (m := state no_loggers before_) in *.
  assert (AD : added m = me) by (unfold m; rewrite added_adds; reflexivity).
  change (outs m (Add n k t true notice :: after)) with
    (snd (step m (Add n k t true notice)) ++ outs (fst (step m (Add n k t true notice))) after).
  rewrite to_app. cbn [step fst snd]. rewrite AD.
  set (new := {| kind := k; name := n; threshold := t; number := me |}).
  assert (A1 : absent me (sinks m)) by (intros s I; specialize (B2 s I); lia).
  f_equal.
  - rewrite (output_app _ _ _ _ 0 0), to_app, output_absent by exact A1. cbn [app].
    unfold output, to. cbn [sinks filter threshold new]. rewrite wants_rank. cbn [severity].
    destruct (wants t Info); [|reflexivity]. cbn [map filter fst number new].
    rewrite Nat.eqb_refl. reflexivity.
  - apply (gets_present me k n after _ t (sinks m) []); [reflexivity|exact A1|intros s []|].
    cbn [added]. lia.
Qed.

(** Nobody else gets anything: whoever gets a record was added before. *)
Theorem C98_nobody_else ops me r :
  In (me, r) (flat_map snd (snd (run step no_loggers ops))) -> me < adds ops.
Proof.
  destruct (run_outs no_loggers ops) as (_ & ->). intros I.
  destruct (Nat.lt_ge_cases me (adds ops)) as [L|L]; [exact L|exfalso].
  destruct (before me ops no_loggers) as (B & _); [intros s []|cbn; lia|].
  assert (X : In r (to me (outs no_loggers ops))).
  { unfold to. apply (in_map snd (filter _ _) (me, r)). apply filter_In. split; [exact I|].
    apply Nat.eqb_refl. }
  rewrite B in X. destruct X.
Qed.

Section Log.
  Context (other : str -> option (list (list str) -> list (list str))).

  (** A database log of [l] rows a file keeps every record with any text without a zero byte: the
      files are numbered from one, every file but the last has exactly [l] rows, the rows of one
      file after the other are the records in order, and files of other names are as they were. *)
  Theorem C98_rows l stamp threads now d h es ok evs :
    0 < l -> (N.of_nat (S l) < 2 ^ 32)%N ->
    openStream now Opens (configured (N.of_nat l) stamp (log_columns threads)) = (h, es, ok) ->
    Forall ordinary evs -> Forall (fun e => next (luck_of e) = Opens) evs ->
    exists names files,
      fst (run (put other threads) (Some h) evs) <> None /\
      map (fun q : path => fst q) names = map N.of_nat (seq 1 (length files)) /\
      disk_after d (es ++ flat_map snd (snd (run (put other threads) (Some h) evs))) =
        outside names d ++ combine names (map Some files) /\
      divided l (map (fun e => log_row threads (head e)) evs) files.
  Proof.
    intros L1 L2 OP OR NX.
    destruct (log_inv other l stamp threads now d h es ok evs L1 L2 OP OR NX)
      as (ns & p & full & rest & R & D & NU & LN & CC & FL & LR).
    exists (ns ++ [p]), (full ++ [rest]).
    assert (LL : length (full ++ [rest]) = length (ns ++ [p])).
    { rewrite !app_length, LN. reflexivity. }
    split; [rewrite R; discriminate|]. split; [rewrite LL; exact NU|]. split.
    - unfold effects in D. rewrite D. unfold layout. f_equal. rewrite map_app. cbn [map].
      assert (C : forall (a : list path) (b : list (option (list (list str)))),
                length a = length b ->
                combine (a ++ [p]) (b ++ [Some rest]) = combine a b ++ [(p, Some rest)]).
      { clear. induction a as [|x a IH]; intros [|y b] E; try discriminate; [reflexivity|].
        cbn [app combine]. rewrite IH; auto. }
      symmetry. apply C. now rewrite map_length.
    - exists full, rest. split; [reflexivity|]. split; [|auto].
      rewrite concat_app. cbn [concat]. rewrite app_nil_r. exact CC.
  Qed.

  (** A crash at any point while a record is put in, also while the next file is begun: the rows
      of the files of this run are those of the records before, and nothing or all of this one;
      files of other names are as they were. *)
  Theorem C98_crash l stamp threads now d h es ok evs e done rest_ :
    0 < l -> (N.of_nat (S l) < 2 ^ 32)%N ->
    openStream now Opens (configured (N.of_nat l) stamp (log_columns threads)) = (h, es, ok) ->
    Forall ordinary (evs ++ [e]) -> Forall (fun e => next (luck_of e) = Opens) (evs ++ [e]) ->
    snd (put other threads (fst (run (put other threads) (Some h) evs)) e) = done ++ rest_ ->
    let left := disk_after d (es ++ flat_map snd (snd (run (put other threads) (Some h) evs)) ++
                              done) in
    let records evs := map (fun e => log_row threads (head e)) evs in
    exists names new,
      (rows_of (inside names left) = records evs \/
       rows_of (inside names left) = records (evs ++ [e])) /\
      map (fun q : path => fst q) names = map N.of_nat (seq 1 (length names)) /\
      outside (names ++ new) left = outside (names ++ new) d /\ length new <= 1.
  Proof.
    intros L1 L2 OP OR NX S left records.
    apply Forall_app in OR. destruct OR as (OR & OE). apply Forall_inv in OE.
    apply Forall_app in NX. destruct NX as (NX & NE). apply Forall_inv in NE.
    destruct (log_inv other l stamp threads now d h es ok evs L1 L2 OP OR NX)
      as (ns & p & full & rest & R & D & NU & LN & CC & FL & LR).
    rewrite R in S. rewrite put_going in S by (auto; lia).
    destruct (numbered_last _ _ NU) as (NU' & FP).
    assert (NP : ~ In p ns) by (apply numbered_fresh; auto; lia).
    set (row := log_row threads (head e)) in *.
    assert (RW : forall x, rows_of (inside (ns ++ [p]) (layout d ns p full (Some x))) =
                           concat full ++ x).
    { intros x. rewrite inside_layout by exact LN. unfold rows_of at 1. rewrite flat_map_app.
      fold (rows_of (combine ns (map Some full))). rewrite rows_of_combine by exact LN.
      cbn [flat_map snd]. now rewrite app_nil_r. }
    assert (LO : forall qs x, (forall q, In q (ns ++ [p]) -> In q qs) ->
                 outside qs (layout d ns p full x) = outside qs d).
    { intros qs x SUB. unfold layout. unfold outside at 1. rewrite filter_app.
      fold (outside qs (outside (ns ++ [p]) d)). rewrite outside_outside by exact SUB.
      rewrite <- (app_nil_r (outside qs d)) at 2. f_equal. apply outside_none.
      intros y I. apply SUB. apply in_app_iff in I. destruct I as [I|[<-|[]]].
      - rewrite in_app_iff. left. exact (combine_names _ _ _ I).
      - rewrite in_app_iff. right. now left. }
    assert (LEFT : left = disk_after (layout d ns p full (Some rest)) done).
    { unfold left. rewrite app_assoc, disk_after_app. unfold effects in D. now rewrite D. }
    assert (CM : apply (layout d ns p full (Some rest)) (Commit p (fun t => t ++ [row])) =
                 layout d ns p full (Some (rest ++ [row]))).
    { change (on_file p (option_map (fun t => t ++ [row])) (layout d ns p full (Some rest)) =
              layout d ns p full (Some (rest ++ [row]))). apply layout_commit. exact NP. }
    assert (C0 : done = [] -> exists names new,
      (rows_of (inside names left) = records evs \/
       rows_of (inside names left) = records (evs ++ [e])) /\
      map (fun q : path => fst q) names = map N.of_nat (seq 1 (length names)) /\
      outside (names ++ new) left = outside (names ++ new) d /\ length new <= 1).
    { intros ->. cbn [disk_after fold_left] in LEFT. exists (ns ++ [p]), [].
      rewrite LEFT, RW, CC, app_nil_r. split; [now left|]. split; [exact NU|].
      split; [apply LO; auto|cbn; lia]. }
    assert (RE : concat full ++ rest ++ [row] = records (evs ++ [e])).
    { unfold records. rewrite map_app, app_assoc, CC. reflexivity. }
    assert (C1 : done = [Commit p (fun t => t ++ [row])] -> exists names new,
      (rows_of (inside names left) = records evs \/
       rows_of (inside names left) = records (evs ++ [e])) /\
      map (fun q : path => fst q) names = map N.of_nat (seq 1 (length names)) /\
      outside (names ++ new) left = outside (names ++ new) d /\ length new <= 1).
    { intros ->. unfold disk_after in LEFT. cbn [fold_left] in LEFT. rewrite CM in LEFT.
      exists (ns ++ [p]), [].
      rewrite LEFT, RW, RE, app_nil_r. split; [now right|]. split; [exact NU|].
      split; [apply LO; auto|cbn; lia]. }
    destruct (N.ltb_spec (N.of_nat l) (N.of_nat (Datatypes.S (Datatypes.S (length rest)))))
      as [G|G].
    2:{ cbn [snd] in S. destruct done as [|x done]; [now apply C0|].
        injection S as <- S. symmetry in S. apply app_eq_nil in S. destruct S as (-> & _).
        now apply C1. }
    rewrite NE in S. unfold openStream, closeStream, going in S.
    cbn [limit count stamped cols file_count opened db fst snd] in S.
    set (q := ((N.of_nat (Datatypes.S (length ns)) + 1)%N,
               if stamp then Some (time (head e)) else None)) in *.
    assert (NQ : ~ In q (ns ++ [p])).
    { apply numbered_fresh; auto. rewrite app_length. cbn [length q fst]. lia. }
    destruct done as [|x1 done]; [now apply C0|]. injection S as <- S.
    destruct done as [|x2 done]; [now apply C1|]. injection S as <- S.
    assert (RM := layout_remove d ns p full (rest ++ [row]) q LN NQ).
    set (own := combine (ns ++ [p]) (map Some (full ++ [rest ++ [row]]))) in *.
    assert (LL : length (ns ++ [p]) = length (full ++ [rest ++ [row]])).
    { rewrite !app_length, LN. reflexivity. }
    assert (OWN : forall y, In y own -> In (fst y) (ns ++ [p])).
    { intros y I. exact (combine_names _ _ _ I). }
    assert (ROWN : rows_of own = records (evs ++ [e])).
    { unfold own. rewrite rows_of_combine by exact LL. rewrite concat_app. cbn [concat].
      rewrite app_nil_r. exact RE. }
    assert (INALL : forall qs (dd : disk), (forall y, In y dd -> In (fst y) qs) -> inside qs dd = dd).
    { intros qs dd H. unfold inside. induction dd as [|y dd IH]; [reflexivity|]. cbn [filter].
      replace (among qs y) with true by (symmetry; apply among_in, H; now left).
      f_equal. apply IH. intros z I. apply H. now right. }
    assert (INOUT : forall ps qs (dd : disk), (forall z, In z ps -> In z qs) ->
              inside ps (outside qs dd) = []).
    { intros ps qs dd SUB. unfold inside. pose proof (outside_in qs dd) as O.
      induction (outside qs dd) as [|y ll IH]; [reflexivity|]. cbn [filter].
      destruct (among ps y) eqn:V.
      - apply among_in in V. exfalso. apply (O y); [now left|apply SUB; exact V].
      - apply IH. intros z I. apply O. now right. }
    assert (SPLIT : forall qs (a b : disk), inside qs (a ++ b) = inside qs a ++ inside qs b)
      by (intros; apply filter_app).
    assert (SPLIT' : forall qs (a b : disk), outside qs (a ++ b) = outside qs a ++ outside qs b)
      by (intros; apply filter_app).
    destruct done as [|x3 done].
    { (* the old file of the next name is gone, the next one not yet there *)
      unfold disk_after in LEFT. cbn [fold_left] in LEFT. rewrite CM, RM in LEFT.
      exists (ns ++ [p]), [q]. rewrite LEFT. split; [|split; [exact NU|split]].
      - right. rewrite SPLIT, INOUT by (intros z I; rewrite app_assoc, in_app_iff; now left).
        rewrite INALL by exact OWN. exact ROWN.
      - rewrite SPLIT'. rewrite <- app_assoc. rewrite outside_outside by auto.
        rewrite (outside_none _ own).
        2:{ intros y I. rewrite app_assoc, in_app_iff. left. exact (OWN y I). }
        now rewrite app_nil_r.
      - cbn. lia. }
    injection S as <- S.
    assert (REST : forall x, (x = None \/ x = Some []) ->
      left = (outside (ns ++ [p] ++ [q]) d ++ own) ++ [(q, x)] -> exists names new,
      (rows_of (inside names left) = records evs \/
       rows_of (inside names left) = records (evs ++ [e])) /\
      map (fun q : path => fst q) names = map N.of_nat (seq 1 (length names)) /\
      outside (names ++ new) left = outside (names ++ new) d /\ length new <= 1).
    { intros x X E. exists (ns ++ [p] ++ [q]), []. rewrite E, app_nil_r.
      split; [|split; [|split]].
      - right. rewrite <- app_assoc. rewrite SPLIT, INOUT by auto. cbn [app].
        rewrite INALL.
        2:{ intros y I. apply in_app_iff in I. destruct I as [I|[<-|[]]].
            - apply OWN in I. apply in_app_iff in I. rewrite in_app_iff. cbn in I |- *. tauto.
            - rewrite in_app_iff. cbn. tauto. }
        unfold rows_of. rewrite flat_map_app. fold (rows_of own). rewrite ROWN.
        destruct X as [-> | ->]; cbn [flat_map snd]; now rewrite app_nil_r.
      - rewrite app_assoc. apply (numbered_snoc (ns ++ [p]) q); auto.
        rewrite app_length. cbn [length q fst]. lia.
      - rewrite <- app_assoc, SPLIT'. rewrite outside_outside by auto.
        rewrite (outside_none _ (own ++ [(q, x)])).
        2:{ intros y I. apply in_app_iff in I. destruct I as [I|[<-|[]]].
            - apply OWN in I. apply in_app_iff in I. rewrite in_app_iff. cbn in I |- *. tauto.
            - rewrite in_app_iff. cbn. tauto. }
        now rewrite app_nil_r.
      - cbn. lia. }
    destruct done as [|x4 done].
    { apply (REST None); [now left|]. rewrite LEFT. unfold disk_after. cbn [fold_left].
      rewrite CM, RM. reflexivity. }
    injection S as <- S. symmetry in S. apply app_eq_nil in S. destruct S as (-> & ->).
    apply (REST (Some [])); [now right|]. rewrite LEFT. unfold disk_after. cbn [fold_left].
    rewrite CM, RM.
    change (on_file q (fun _ => Some []) ((outside (ns ++ [p] ++ [q]) d ++ own) ++ [(q, None)]) =
            (outside (ns ++ [p] ++ [q]) d ++ own) ++ [(q, Some [])]).
    unfold on_file. rewrite !map_app. cbn [map fst snd]. rewrite path_eqb_refl. f_equal. f_equal.
    - apply (on_file_absent q (fun _ => Some [])). intros y I E. apply (outside_in _ _ _ I). rewrite E.
      rewrite in_app_iff. cbn. tauto.
    - apply (on_file_absent q (fun _ => Some [])). intros y I E. apply NQ. rewrite <- E. exact (OWN y I).
  Qed.

  (** If the next file cannot be opened when the last one is full, the next record ends the
      process: it is put into a database that is not there. *)
  Theorem C98_next_file_refuted l stamp threads now h es ok evs e e' :
    0 < l -> (N.of_nat (S l) < 2 ^ 32)%N ->
    openStream now Opens (configured (N.of_nat l) stamp (log_columns threads)) = (h, es, ok) ->
    Forall ordinary evs -> Forall (fun e => next (luck_of e) = Opens) evs ->
    length evs mod l = l - 1 -> ordinary e -> next (luck_of e) = NoFile ->
    fst (run (put other threads) (Some h) (evs ++ [e])) <> None /\
    fst (run (put other threads) (Some h) ((evs ++ [e]) ++ [e'])) = None.
  Proof.
    intros L1 L2 OP OR NX M OE NE.
    destruct (log_inv other l stamp threads now [] h es ok evs L1 L2 OP OR NX)
      as (ns & p & full & rest & R & D & NU & LN & CC & FL & LR).
    assert (LE : length rest = l - 1).
    { apply (f_equal (@length _)) in CC. rewrite map_length, app_length in CC.
      assert (F : length (concat full) = length full * l).
      { clear -FL. induction FL as [|f fs E FL IH]; [reflexivity|]. cbn [concat length].
        rewrite app_length, IH, E. cbn. lia. }
      rewrite F in CC. rewrite <- CC in M. rewrite Nat.add_comm, Nat.mod_add in M by lia.
      rewrite Nat.mod_small in M by lia. exact M. }
    assert (RE : fst (run (put other threads) (Some h) (evs ++ [e])) =
       Some (with_count 1 (fst (fst (openStream (time (head e)) NoFile
         (closeStream (going (N.of_nat l) stamp threads (S (length ns)) (S (length rest)) p))))))).
    { rewrite run_snoc, R. cbn [fst]. rewrite put_going by (auto; lia).
      replace (N.of_nat l <? N.of_nat (S (S (length rest))))%N with true
        by (symmetry; apply N.ltb_lt; lia).
      rewrite NE. reflexivity. }
    split; [rewrite RE; discriminate|]. rewrite run_snoc, RE. cbn [fst].
    unfold put. destruct (head_text threads (head e')); reflexivity.
  Qed.
End Log.

(** The text of a record can be read back from its row, if it holds no entity of its own. *)
Theorem C98_readable t : no_entity t -> unquoted 0 (quoted t) = t.
Proof. exact (unquoted_quoted t). Qed.

(** With an entity in it, it cannot: two texts have the same row. *)
Theorem C98_entity_refuted a b : quoted (a ++ lit "&apos;" ++ b) = quoted (a ++ lit "'" ++ b).
Proof. unfold quoted. rewrite !flat_map_app. reflexivity. Qed.

(** Escaping the other signs of XML never ends for a text with an ampersand. *)
Theorem C98_ampersand_refuted fuel t : In "&"%char t ->
  escapeXmlAmpersandLessThanGreaterThanChars fuel t = None.
Proof.
  intros I. unfold escapeXmlAmpersandLessThanGreaterThanChars.
  rewrite replace_loop_never; auto. now left.
Qed.

(** Not vacuous: three records, two of them wanted. *)
Example C98_case :
  let ops := [Add (lit "c") (lit "ConsoleLogger") Warning true (lit "hi"); Log Info (lit "x");
              Add (lit "d") (lit "FileLogger") Info true (lit "ho"); Log Warning (lit "y");
              SetByType (lit "FileLogger") Error; Log Warning (lit "z"); Log Error (lit "u");
              RemoveByName (lit "d"); Log Error (lit "v")] in
  map snd (filter (fun x => Nat.eqb (fst x) 1) (flat_map snd (snd (run step no_loggers ops)))) =
  [{| severity := Info; text := lit "ho" |}; {| severity := Warning; text := lit "y" |};
   {| severity := Error; text := lit "u" |}].
Proof. reflexivity. Qed.

(** Not vacuous: three records in files of two rows, over a file of an earlier run. *)
Definition say (t : N) (x : string) : entry :=
  {| head := {| time := t; thread := []; record_of := {| severity := Info; text := lit x |} |};
     luck_of := {| writes := true; first := Opens; next := Opens |} |}.

Example C98_rows_case other :
  let '(h, es, _) := openStream 5 Opens (configured 2 false (log_columns false)) in
  let evs := [say 6 "it's"; say 7 "b"; say 8 "c"] in
  Forall ordinary evs /\
  disk_after [((2%N, None), Some [[lit "old"]]); ((3%N, None), Some [[lit "kept"]])]
    (es ++ flat_map snd (snd (run (put other false) (Some h) evs))) =
  [((3%N, None), Some [[lit "kept"]]);
   ((1%N, None), Some [[lit "6"; lit " INFO:  "; lit "it&apos;s"]; [lit "7"; lit " INFO:  "; lit "b"]]);
   ((2%N, None), Some [[lit "8"; lit " INFO:  "; lit "c"]])].
Proof.
  cbn [openStream configured]. split; [|reflexivity].
  repeat constructor; cbn; intuition discriminate.
Qed.

(** Not vacuous: the second record fills the first file, the next file cannot be opened. *)
Example C98_next_file_case other :
  let '(h, es, _) := openStream 5 Opens (configured 2 false (log_columns false)) in
  let bad := {| head := head (say 7 "b");
                luck_of := {| writes := true; first := Opens; next := NoFile |} |} in
  ordinary bad /\ 1 mod 2 = 2 - 1 /\
  fst (run (put other false) (Some h) [say 6 "a"; bad; say 8 "c"]) = None.
Proof. cbn [openStream configured]. repeat split; cbn; intuition discriminate. Qed.

Print Assumptions C98_delivery.
Print Assumptions C98_nobody_else.
Print Assumptions C98_rows.
Print Assumptions C98_crash.
Print Assumptions C98_next_file_refuted.
Print Assumptions C98_readable.
Print Assumptions C98_entity_refuted.
Print Assumptions C98_ampersand_refuted.

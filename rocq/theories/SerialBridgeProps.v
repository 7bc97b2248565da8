(** Properties of the serial bridge (C106). *)
From Coq Require Import String Ascii List Arith NArith Bool Lia.
From Verif Require Import Base Decimal10 MsgSpec MsgModel MsgProofs SerialModel SerialSpec SerialProofs TcpLinkModel TcpLinkSpec TcpLinkProps SerialBridgeModel SerialBridgeSpec.
Import ListNotations.
Open Scope list_scope.

Lemma text_letter su l : su_entity su <> [] -> su_network su <> [] -> well_formed l ->
  exists o, serial_text su (text l) = Some o /\
  exists outs, read_in su l outs /\ Forall2 carries (match o with Some m => [m] | None => [] end) outs.
Proof.
  intros NE NN W. unfold serial_text. rewrite (parse_letter _ l W). change (aam_address (msg_of l)) with (address l).
  destruct (existsb (str_eqb (address l)) (su_block su)) eqn:BL.
  { apply in_block in BL. exists None. split; [reflexivity|]. exists []. split; [apply read_blocked; exact BL|constructor]. }
  assert (NB : ~ In (address l) (su_block su)) by (rewrite <- in_block, BL; discriminate).
  destruct (su_entity su) as [|e0 e] eqn:EE; [congruence|]. destruct (su_network su) as [|n0 n] eqn:EN; [congruence|].
  destruct (su_self su) eqn:SELF.
  - cbn [option_map fst aam_updateSource aam_attrs msg_of at_updateSource length Nat.ltb Nat.leb aam_valid at_valid andb].
    eexists. split; [reflexivity|]. eexists. split; [apply (read_comes su l NB)|]. rewrite SELF, EE, EN. constructor; [|constructor].
    repeat split. eexists. split; [reflexivity|]. repeat split.
  - eexists. split; [reflexivity|]. eexists. split; [apply (read_comes su l NB)|]. rewrite SELF. cbn [aam_valid msg_of]. constructor; [|constructor].
    repeat split. eexists. split; [reflexivity|]. repeat split.
Qed.

Lemma texts_letters su ls : su_entity su <> [] -> su_network su <> [] -> Forall well_formed ls ->
  exists ms outs, serial_texts su (map text ls) = Some ms /\ Forall2 (read_in su) ls outs /\ Forall2 carries ms (concat outs).
Proof.
  intros NE NN W. induction W as [|l ls Wl W (ms & outs & E & A & B)]; [exists [], []; repeat split; constructor|].
  destruct (text_letter su l NE NN Wl) as (o & EO & os & C & D). cbn [map serial_texts]. rewrite EO, E.
  exists (match o with Some m => m :: ms | None => ms end), (os :: outs). split; [reflexivity|]. split; [constructor; assumption|].
  cbn [concat]. replace (match o with Some m => m :: ms | None => ms end) with ((match o with Some m => [m] | None => [] end) ++ ms) by (destruct o; reflexivity).
  apply Forall2_app; assumption.
Qed.

Lemma texts_app su a b : serial_texts su (a ++ b) =
  match serial_texts su a, serial_texts su b with Some x, Some y => Some (x ++ y) | _, _ => None end.
Proof.
  induction a as [|t a IH]; cbn [app serial_texts]; [destruct (serial_texts su b); reflexivity|].
  rewrite IH. destruct (serial_text su t) as [o|]; [|reflexivity]. destruct (serial_texts su a) as [x|]; [|reflexivity].
  destruct (serial_texts su b) as [y|]; [|reflexivity]. destruct o; reflexivity.
Qed.

(** However messages are cut, their texts are found; what follows is read with an empty buffer. *)
Lemma run_frames su reads : forall b ts rest, Forall frameable ts -> sb_data b ++ concat reads = concat (map createSentinelized ts) ->
  ~ occurs afterChk (sb_data b) -> exists b', sb_data b' = [] /\
  serial_run su b (reads ++ rest) = match serial_texts su ts, serial_run su b' rest with Some ms, Some (b'', ms') => Some (b'', ms ++ ms') | _, _ => None end.
Proof.
  induction reads as [|c reads IH]; intros b ts rest FR E NO.
  - cbn [concat] in E. rewrite app_nil_r in E. destruct ts as [|t ts].
    + exists b. split; [exact E|]. cbn [app serial_texts]. destruct (serial_run su b rest) as [[b'' ms']|]; reflexivity.
    + exfalso. apply NO. rewrite E. cbn [map concat]. generalize (concat (map createSentinelized ts)). intros z. unfold createSentinelized.
      exists (beforeSize ++ to_string (N.of_nat (length t)) ++ afterSize ++ t ++ beforeChk ++ to_string (checksum t)), z. rewrite <- !app_assoc. reflexivity.
  - destruct c as [|x c].
    + cbn [concat app] in E. destruct (IH b ts rest FR E NO) as (b' & BD & EI). exists b'. split; [exact BD|].
      cbn [app serial_run serial_texts]. rewrite EI. destruct (serial_texts su ts) as [ms|]; [|reflexivity]. destruct (serial_run su b' rest) as [[b'' ms']|]; reflexivity.
    + cbn [concat] in E. rewrite app_assoc in E. destruct (cut_stream _ _ _ FR E) as (ps1 & ps2 & part & -> & D & P & NP).
      apply Forall_app in FR. destruct FR as (F1 & F2).
      destruct (pump_frames _ _ _ _ _ F1 D NP (fuel_enough _ _ _ _ D)) as (b1 & PE & BD1).
      destruct (IH b1 ps2 rest F2) as (b' & BD & EI); [rewrite BD1; exact P|rewrite BD1; exact NP|].
      exists b'. split; [exact BD|]. cbn [app serial_run]. rewrite PE, EI, texts_app.
      destruct (serial_texts su ps1) as [m1|]; [|reflexivity]. destruct (serial_texts su ps2) as [m2|]; [|reflexivity].
      destruct (serial_run su b' rest) as [[b'' ms']|]; [|reflexivity]. rewrite app_assoc. reflexivity.
Qed.

(** *** C106 *)

(** However the data of messages are cut into reads: each message comes in once, in order. *)
Theorem C106_delivered su reads ls : su_entity su <> [] -> su_network su <> [] -> Forall well_formed ls -> Forall frameable (map text ls) ->
  concat reads = concat (map createSentinelized (map text ls)) ->
  exists b ms outs, serial_run su new_sbuf reads = Some (b, ms) /\ Forall2 (read_in su) ls outs /\ Forall2 carries ms (concat outs).
Proof.
  intros NE NN W FR E. destruct (run_frames su reads new_sbuf (map text ls) [] FR E nil_no_end) as (b' & _ & EI). rewrite app_nil_r in EI.
  destruct (texts_letters su ls NE NN W) as (ms & outs & ET & A & B). exists b', ms, outs. rewrite EI, ET. cbn [serial_run]. rewrite app_nil_r. repeat split; assumption.
Qed.

(** The same when the messages are not all read yet: those not found are still to come. *)
Lemma run_some su reads : forall b ts r rest, Forall frameable ts -> sb_data b ++ concat reads ++ r = concat (map createSentinelized ts) ->
  ~ occurs afterChk (sb_data b) -> exists ts1 ts2 b', ts = ts1 ++ ts2 /\ sb_data b' ++ r = concat (map createSentinelized ts2) /\ ~ occurs afterChk (sb_data b') /\
  serial_run su b (reads ++ rest) = match serial_texts su ts1, serial_run su b' rest with Some ms, Some (b'', ms') => Some (b'', ms ++ ms') | _, _ => None end.
Proof.
  induction reads as [|c reads IH]; intros b ts r rest FR E NO.
  - exists [], ts, b. cbn [concat app] in *. repeat split; try assumption. cbn [serial_texts]. destruct (serial_run su b rest) as [[b'' ms']|]; reflexivity.
  - destruct c as [|x c].
    + cbn [concat app] in E. destruct (IH b ts r rest FR E NO) as (t1 & t2 & b' & ET & P & NP & EI). exists t1, t2, b'. repeat split; try assumption.
      cbn [app serial_run serial_texts]. rewrite EI. destruct (serial_texts su t1) as [ms|]; [|reflexivity]. destruct (serial_run su b' rest) as [[b'' ms']|]; reflexivity.
    + cbn [concat] in E. rewrite <- app_assoc, app_assoc in E. destruct (cut_stream _ _ _ FR E) as (ps1 & ps2 & part & -> & D & P & NP).
      apply Forall_app in FR. destruct FR as (F1 & F2).
      destruct (pump_frames _ _ _ _ _ F1 D NP (fuel_enough _ _ _ _ D)) as (b1 & PE & BD1).
      destruct (IH b1 ps2 r rest F2) as (t1 & t2 & b' & -> & P' & NP' & EI); [rewrite BD1; exact P|rewrite BD1; exact NP|].
      exists (ps1 ++ t1), t2, b'. rewrite app_assoc. repeat split; try assumption. cbn [app serial_run]. rewrite PE, EI, texts_app.
      destruct (serial_texts su ps1) as [m1|]; [|reflexivity]. destruct (serial_texts su t1) as [m2|]; [|reflexivity].
      destruct (serial_run su b' rest) as [[b'' ms']|]; [|reflexivity]. rewrite app_assoc. reflexivity.
Qed.

Definition poison : str := lit "+=+=+=+=#@#@#@#@!%!%!%!%?^?^?^?^".

Lemma pump_poison ps : forall f b c, Forall frameable ps -> sb_data b ++ c = concat (map createSentinelized ps) ++ poison -> length ps < f ->
  exists b', pump f b c = (b', ps, true) /\ sb_data b' = [].
Proof.
  induction ps as [|p ps IH]; intros f b c F E L; (destruct f as [|f]; [lia|]); cbn [pump].
  - cbn [map concat app] in E. unfold getNextPayload. rewrite E. eexists. split; [reflexivity|]. reflexivity.
  - inversion F as [|? ? Fp Fps]; subst. cbn [map concat] in E. rewrite <- app_assoc in E.
    rewrite (getNext_frame b c [] p (concat (map createSentinelized ps) ++ poison)); auto using nil_no_end.
    destruct p as [|x p]; [destruct Fp; congruence|].
    destruct (IH f (mkSbuf (concat (map createSentinelized ps) ++ poison) (S (sb_valid b)) (sb_invalid b) (sb_disregarded b)) []) as (b' & E1 & E2); auto;
      [cbn [sb_data]; apply app_nil_r|cbn [length] in L; lia|].
    cbn [length Nat.ltb Nat.leb]. rewrite E1. exists b'. split; [reflexivity|exact E2].
Qed.

(** Sentinels without numbers, at the end of a read, do no harm to the messages in front of them nor to those of later reads. *)
Theorem C106_survives su reads1 c reads2 ls1 ls2 : su_entity su <> [] -> su_network su <> [] ->
  Forall well_formed (ls1 ++ ls2) -> Forall frameable (map text (ls1 ++ ls2)) ->
  concat reads1 ++ c = concat (map createSentinelized (map text ls1)) -> concat reads2 = concat (map createSentinelized (map text ls2)) ->
  exists b ms outs, serial_run su new_sbuf (reads1 ++ (c ++ lit "+=+=+=+=#@#@#@#@!%!%!%!%?^?^?^?^") :: reads2) = Some (b, ms) /\
    Forall2 (read_in su) (ls1 ++ ls2) outs /\ Forall2 carries ms (concat outs).
Proof.
  intros NE NN W FR E1 E2. rewrite map_app in FR. apply Forall_app in FR. destruct FR as (F1 & F2). apply Forall_app in W. destruct W as (W1 & W2).
  fold poison. destruct (run_some su reads1 new_sbuf (map text ls1) c ((c ++ poison) :: reads2) F1 E1 nil_no_end) as (t1 & t2 & b1 & ET & P1 & _ & EI1).
  rewrite ET in F1. apply Forall_app in F1. destruct F1 as (_ & F1).
  assert (TH : exists b2, pump (S (length (sb_data b1 ++ c ++ poison))) b1 (c ++ poison) = (b2, t2, true) /\ sb_data b2 = []).
  { apply pump_poison; [exact F1|rewrite app_assoc, P1; reflexivity|]. rewrite app_assoc, P1, app_length. pose proof (frames_long t2). lia. }
  destruct TH as (b2 & TH & BD2).
  destruct (run_frames su reads2 b2 (map text ls2) [] F2) as (b3 & BD3 & EI2); [rewrite BD2; exact E2|rewrite BD2; exact nil_no_end|]. rewrite app_nil_r in EI2.
  destruct (texts_letters su ls1 NE NN W1) as (m1 & o1 & ET1 & A1 & B1). destruct (texts_letters su ls2 NE NN W2) as (m2 & o2 & ET2 & A2 & B2).
  exists b3, (m1 ++ m2), (o1 ++ o2). split; [|split; [apply Forall2_app; assumption|rewrite concat_app; apply Forall2_app; assumption]].
  rewrite ET, texts_app in ET1. destruct (serial_texts su t1) as [x1|]; [|discriminate]. destruct (serial_texts su t2) as [x2|] eqn:X2; [|discriminate]. injection ET1 as <-.
  assert (ST : serial_run su b1 ((c ++ poison) :: reads2) =
    match pump (S (length (sb_data b1 ++ c ++ poison))) b1 (c ++ poison) with
     | (b', ts, _) => match serial_texts su ts, serial_run su b' reads2 with Some ms, Some (b'', ms') => Some (b'', ms ++ ms') | _, _ => None end end).
  { cbn [serial_run]. destruct (c ++ poison) eqn:CP; [apply app_eq_nil in CP; destruct CP as (_ & CP); discriminate CP|reflexivity]. }
  rewrite EI1, ST, TH, X2, EI2, ET2. cbn [serial_run]. rewrite app_nil_r, app_assoc. reflexivity.
Qed.

(** What is written to the line: the messages of the own entity that are not blocked, each framed, in order. *)
Theorem C106_written su ms ls : Forall2 carries ms ls ->
  exists outs, Forall2 (written_out su) ls outs /\ serial_written su ms = Some (concat (map createSentinelized (map text (concat outs)))).
Proof.
  intros F. induction F as [|m l ms ls C F (outs & A & B)]; [exists []; split; [constructor|reflexivity]|].
  destruct C as (_ & TX & AD & _ & t & AT & _ & _ & _ & EN & _). cbn [serial_written]. rewrite B. unfold serial_write. rewrite AT, EN, AD, TX.
  destruct (str_eqb_spec (su_entity su) (entity l)) as [EE|EE].
  - destruct (existsb (str_eqb (address l)) (su_block su)) eqn:BL.
    + exists ([] :: outs). split; [constructor; [apply blocked_not; apply in_block; exact BL|exact A]|reflexivity].
    + exists ([l] :: outs). split; [constructor; [apply own_written; [congruence|rewrite <- in_block, BL; discriminate]|exact A]|].
      cbn [concat map app]. reflexivity.
  - exists ([] :: outs). split; [constructor; [apply other_not; congruence|exact A]|reflexivity].
Qed.

(** Two bridges at the ends of a line: what the first is given comes in at the second, however the line cuts it. *)
Theorem C106_line su su' ms ls reads w : su_entity su' <> [] -> su_network su' <> [] ->
  Forall2 carries ms ls -> Forall well_formed ls -> Forall frameable (map text ls) ->
  serial_written su ms = Some w -> concat reads = w ->
  exists b ms' mid outs, serial_run su' new_sbuf reads = Some (b, ms') /\
    Forall2 (written_out su) ls mid /\ Forall2 (read_in su') (concat mid) outs /\ Forall2 carries ms' (concat outs).
Proof.
  intros NE NN CA W FR EW ER. destruct (C106_written su ms ls CA) as (mid & A & B). rewrite EW in B. injection B as ->.
  assert (INC : incl (concat mid) ls).
  { clear -A. induction A as [|l o ls mid H A IH]; [intros x []|]. cbn [concat]. intros x IN. apply in_app_or in IN. destruct IN as [IN|IN]; [|right; exact (IH x IN)].
    destruct H as [| |]; [destruct IN as [<-|[]]; left; reflexivity|destruct IN|destruct IN]. }
  assert (W' : Forall well_formed (concat mid)) by (rewrite Forall_forall in *; auto).
  assert (FR' : Forall frameable (map text (concat mid))).
  { rewrite Forall_forall in *. intros x IN. apply in_map_iff in IN. destruct IN as (l & <- & IN). apply FR. apply in_map. exact (INC _ IN). }
  destruct (C106_delivered su' reads (concat mid) NE NN W' FR' ER) as (b & ms' & outs & X & Y & Z). exists b, ms', mid, outs. repeat split; assumption.
Qed.

(** But a message that is read together with such sentinels in front of it waits in the buffer until more is read. *)
Theorem C106_late_refuted su l : su_entity su <> [] -> su_network su <> [] -> well_formed l -> frameable (text l) ->
  (exists b, serial_run su new_sbuf [lit "+=+=+=+=#@#@#@#@!%!%!%!%?^?^?^?^" ++ createSentinelized (text l)] = Some (b, []) /\
    sb_data b = createSentinelized (text l)).
Proof.
  intros NE NN W FR. fold poison. set (f := createSentinelized (text l)).
  assert (PE : exists b, sb_data b = f /\ snd (fst (pump (S (length (sb_data new_sbuf ++ poison ++ f))) new_sbuf (poison ++ f))) = [] /\
                fst (fst (pump (S (length (sb_data new_sbuf ++ poison ++ f))) new_sbuf (poison ++ f))) = b).
  { cbn [pump]. clearbody f. eexists. split; [|split; reflexivity]. reflexivity. }
  destruct PE as (b & BD & P1 & P2). exists b. split; [|exact BD].
  change (serial_run su new_sbuf [poison ++ f]) with
    (match pump (S (length (sb_data new_sbuf ++ poison ++ f))) new_sbuf (poison ++ f) with
     | (b', ts, _) => match serial_texts su ts, Some (b', @nil aamsg) with Some ms, Some (b'', ms') => Some (b'', ms ++ ms') | _, _ => None end end).
  destruct (pump _ new_sbuf (poison ++ f)) as [[b1 ts] t]. cbn [fst snd] in P1, P2. subst. reflexivity.
Qed.

(** Three messages of which the second is of another entity and the third is blocked; the line gives single bytes; sentinels in between. *)
Definition own_letter : letter := mkLetter (lit "a.Told") (lit "lmcp") (lit "a.Told") [] (lit "1") (lit "12") (lit "one$").
Definition line_setup (self : bool) (e : str) : setup := mkSetup [lit "eid1.sid9"] self e (lit "9") [].

Example C106_case :
  serial_written (line_setup false (lit "1")) (map msg_of [own_letter; letter2; letter3]) = Some (createSentinelized (text own_letter)) /\
  option_map (fun r => map (fun m => string_of_list_ascii (aam_getString m)) (snd r))
    (serial_run (line_setup true (lit "7")) new_sbuf (map (fun c => [c]) (createSentinelized (text own_letter))))
  = Some ["a.Told$lmcp|a.Told|SerialBridge|7|9$one$"]%string /\
  option_map (fun r => map (fun m => string_of_list_ascii (aam_getString m)) (snd r))
    (serial_run (line_setup false (lit "7")) new_sbuf
      [createSentinelized (text letter1); []; createSentinelized (text letter2) ++ lit "+=+=+=+=#@#@#@#@!%!%!%!%?^?^?^?^"; createSentinelized (text letter3) ++ createSentinelized (text letter2)])
  = Some ["a.Told$lmcp|a.Told||400|12$one$"; "x.State$lmcp|x.State|group|500|13$two"; "x.State$lmcp|x.State|group|500|13$two"]%string.
Proof. repeat split; vm_compute; reflexivity. Qed.

Example C106_late_case :
  option_map (fun r => map (fun m => string_of_list_ascii (aam_getString m)) (snd r))
    (serial_run (line_setup false (lit "7")) new_sbuf [lit "+=+=+=+=#@#@#@#@!%!%!%!%?^?^?^?^" ++ createSentinelized (text letter1)]) = Some [] /\
  option_map (fun r => map (fun m => string_of_list_ascii (aam_getString m)) (snd r))
    (serial_run (line_setup false (lit "7")) new_sbuf [lit "+=+=+=+=#@#@#@#@!%!%!%!%?^?^?^?^" ++ createSentinelized (text letter1); lit "x"])
  = Some ["a.Told$lmcp|a.Told||400|12$one$"]%string.
Proof. split; vm_compute; reflexivity. Qed.

Print Assumptions C106_delivered.
Print Assumptions C106_survives.
Print Assumptions C106_written.
Print Assumptions C106_line.
Print Assumptions C106_late_refuted.

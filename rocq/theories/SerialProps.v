(** Properties of the framing of payloads on byte streams (C07, C08, C09). *)
From Coq Require Import String Ascii List Arith NArith ZArith Lia Bool.
From Verif Require Import Base Decimal10 MsgSpec MsgProofs SerialModel SerialSpec SerialProofs.
Import ListNotations.
Open Scope list_scope.

(** *** C07 *)

(** The framed form of a payload is a truthful frame around it. *)
Theorem C07_framed_form : forall p,
  (N.of_nat (length p) < 2 ^ 32)%N ->
  exists sz chk, createSentinelized p = frame sz p chk /\ truthful sz p chk.
Proof.
  intros p L. exists (to_string (N.of_nat (length p))), (to_string (checksum p)).
  split; [reflexivity|].
  repeat split; auto using digits_spec, to_string_digits, to_string_nonempty.
  - rewrite to_string_value, N.mod_small; auto.
  - rewrite to_string_value. apply checksum_spec.
Qed.
Print Assumptions C07_framed_form.

(** However the framed forms of any payloads are cut into chunks, draining the buffer after
    every chunk yields exactly those payloads in order; nothing is left in the buffer and
    the statistics count every frame as valid. *)
Theorem C07_chunking : forall ps chunks,
  Forall frameable ps ->
  concat chunks = concat (map createSentinelized ps) ->
  exists b, feed new_sbuf chunks = Some (b, ps) /\ sb_data b = [] /\
    sb_valid b = length ps /\ sb_invalid b = 0 /\ sb_disregarded b = 0.
Proof.
  intros ps chunks F E. eexists. split.
  - apply feed_frames; eauto. apply nil_no_end.
  - cbn [sb_data sb_valid sb_invalid sb_disregarded new_sbuf]. auto.
Qed.
Print Assumptions C07_chunking.

(** Payloads without the two base strings the documentation asks senders to avoid are
    fine, if short enough. *)
Theorem C07_base_free : forall p,
  p <> [] -> ~ occurs (lit "#@") p -> ~ occurs (lit "?^") p ->
  (N.of_nat (length p) < 2 ^ 31)%N -> (spec_checksum p < 2 ^ 31)%N -> frameable p.
Proof. exact base_free_frameable. Qed.
Print Assumptions C07_base_free.

Example C07_case :
  frameable (lit "hello") /\ frameable (lit "wo?rld") /\
  concat [lit "+=+="; lit "+=+=5#@#@#@#@hello!%!%!%!%532?^?^?^?"; lit "^+=+=+=+=6#@#@#@#@wo?rld!%!%!%!%615?^?^?^?^"]
  = concat (map createSentinelized [lit "hello"; lit "wo?rld"]) /\
  option_map snd (feed new_sbuf
    [lit "+=+="; lit "+=+=5#@#@#@#@hello!%!%!%!%532?^?^?^?"; lit "^+=+=+=+=6#@#@#@#@wo?rld!%!%!%!%615?^?^?^?^"])
  = Some [lit "hello"; lit "wo?rld"].
Proof.
  split; [|split; [|split; vm_compute; reflexivity]];
    (apply C07_base_free; [discriminate|apply find_sub_none; reflexivity|
                           apply find_sub_none; reflexivity|reflexivity|reflexivity]).
Qed.

(** Finding: a payload whose checksum does not fit in 31 bits is framed by the sender but
    every receiver loses it: the text of the checksum makes the conversion throw.  So the
    bound on the checksum cannot be dropped. *)
Theorem C07_large_checksum_lost : forall p rest b,
  sb_data b = createSentinelized p ++ rest ->
  ~ occurs (lit "?^?^?^?^") p ->
  (forall u v, lit "#@#@#@#@" ++ p = u ++ lit "#@#@#@#@" ++ v -> u = []) ->
  (N.of_nat (length p) < 2 ^ 31)%N -> (2 ^ 31 <= spec_checksum p)%N ->
  snd (getNextPayload b []) = Thrown /\ sb_data (fst (getNextPayload b [])) = rest.
Proof.
  intros p rest b E A B L C. apply (getNext_large_checksum b [] [] p rest); auto.
  - rewrite app_nil_r. auto.
  - apply nil_no_end.
Qed.
Print Assumptions C07_large_checksum_lost.

Theorem C07_chunking_without_checksum_bound_refuted :
  exists p, p <> [] /\ (forall x, In x p -> ~ In x (lit "+=#@!%?^")) /\
    (N.of_nat (length p) < 2 ^ 31)%N /\
    exists b, feed new_sbuf [createSentinelized p] = Some (b, []) /\ sb_data b = [].
Proof.
  assert (X : exists n, N.of_nat n = 9000000%N) by (eexists; apply N2Nat.id).
  destruct X as (n & LN).
  exists (repeat (ascii_of_nat 255) n).
  assert (CL : forall x, In x (repeat (ascii_of_nat 255) n) -> ~ In x (lit "+=#@!%?^")).
  { intros x I. apply repeat_spec in I. subst x. intros I. cbn in I. intuition discriminate. }
  assert (LB : (N.of_nat (length (repeat (ascii_of_nat 255) n)) < 2 ^ 31)%N)
    by (rewrite repeat_length, LN; reflexivity).
  split; [|split; [exact CL|split; [exact LB|]]].
  { intros H. apply (f_equal (@length _)) in H. rewrite repeat_length in H. change (length []) with 0 in H. lia. }
  assert (OC : forall q, occurs q (repeat (ascii_of_nat 255) n) -> Forall (eq (ascii_of_nat 255)) q)
    by (intros q; apply occurs_repeat).
  assert (BS : (2 ^ 31 <= spec_checksum (repeat (ascii_of_nat 255) n))%N)
    by (unfold spec_checksum; rewrite byte_sum_repeat, LN; discriminate).
  set (p := repeat (ascii_of_nat 255) n) in *. clearbody p.
  assert (T : snd (getNextPayload new_sbuf (createSentinelized p)) = Thrown /\
              sb_data (fst (getNextPayload new_sbuf (createSentinelized p))) = []).
  { apply (getNext_large_checksum _ _ [] p []); auto.
    - rewrite app_nil_r. reflexivity.
    - apply nil_no_end.
    - intros H. apply OC in H. inversion H; subst. discriminate.
    - intros u v E. destruct u as [|x [|y u]]; auto.
      + exfalso. cbn in E. injection E as _ E. discriminate E.
      + exfalso. assert (H : at_pos (lit "#@") (length (x :: y :: u) + 6) (lit "#@#@#@#@" ++ p)).
        { change (lit "#@#@#@#@" ++ p) with (afterSize ++ p). rewrite E.
          apply at_pos_shift. exists (lit "#@#@#@"), v. auto. }
        apply at_pos_skip in H; [|cbn [length]; change (length (lit "#@#@#@#@")) with 8; lia].
        apply at_pos_occurs, OC in H. inversion H; subst. discriminate. }
  destruct T as (T1 & T2). cbn [feed]. cbn [drain].
  destruct (getNextPayload new_sbuf (createSentinelized p)) as (b, r). cbn [fst snd] in T1, T2.
  subst r. exists b. auto.
Qed.
Print Assumptions C07_chunking_without_checksum_bound_refuted.

(** *** C08 *)

(** Whatever bytes arrive in whatever chunks and however often the buffer is asked: the
    bytes received are some consumed bytes followed by what is still in the buffer, and the
    non-empty payloads returned are, in order, payloads of truthful frames that lie one
    after the other in the consumed bytes. *)
Theorem C08_sound_calls : forall chunks b rs,
  calls new_sbuf chunks = (b, rs) ->
  exists consumed, concat chunks = consumed ++ sb_data b /\ stream_of (payloads rs) consumed.
Proof.
  intros chunks b rs C.
  destruct (calls_stream chunks new_sbuf b rs [] [] C (stream_nil [])) as (c & E & H).
  exists c. split; [exact E|exact H].
Qed.
Print Assumptions C08_sound_calls.

(** The same for the receive loops. *)
Theorem C08_sound_receive_loop : forall chunks,
  exists b ps consumed, feed new_sbuf chunks = Some (b, ps) /\
    concat chunks = consumed ++ sb_data b /\ stream_of ps consumed.
Proof.
  intros chunks. destruct (feed new_sbuf chunks) as [(b, ps)|] eqn:F.
  - destruct (feed_stream chunks new_sbuf b ps [] [] F (stream_nil [])) as (c & E & H).
    exists b, ps, c. split; [reflexivity|]. split; [exact E|exact H].
  - exfalso. eapply feed_total; eauto.
Qed.
Print Assumptions C08_sound_receive_loop.

(** Corrupted bytes: a wrong length, a wrong checksum and a good frame. *)
Example C08_case :
  snd (calls new_sbuf
    [lit "xx+=+=+=+=4#@#@#@#@hello!%!%!%!%532?^?^?^?^+=+=+=+=5#@#@#@#@hello!%!%!%!%533?^?^?^?^+=+=+=+=2#@#@#@#@hi!%!%!%!%209?^?^?^?^"; []; []; []])
  = [Returned []; Returned []; Returned (lit "hi"); Returned []].
Proof. vm_compute. reflexivity. Qed.

(** Finding: an empty number field passes the digit test and makes the call throw. *)
Theorem C08_no_exception_refuted :
  exists bytes, snd (getNextPayload new_sbuf bytes) = Thrown.
Proof. exists (lit "+=+=+=+=#@#@#@#@hi!%!%!%!%209?^?^?^?^"). vm_compute. reflexivity. Qed.
Print Assumptions C08_no_exception_refuted.

(** *** C09 *)

(** Behind garbage without an end sentinel the next frame is returned by the first call
    that has seen all of it. *)
Theorem C09_resync_first_call : forall b chunk g p rest,
  sb_data b ++ chunk = g ++ createSentinelized p ++ rest ->
  ~ occurs (lit "?^?^?^?^") g -> frameable p ->
  snd (getNextPayload b chunk) = Returned p /\
  sb_data (fst (getNextPayload b chunk)) = rest.
Proof.
  intros b chunk g p rest E N F. rewrite (getNext_frame b chunk g p rest); auto.
Qed.
Print Assumptions C09_resync_first_call.

(** Behind any garbage at all the frame is returned intact after at most one call for
    every eight bytes of garbage. *)
Theorem C09_resync_any_garbage : forall g b p rest,
  sb_data b = g ++ createSentinelized p ++ rest -> frameable p ->
  exists k, 8 * k <= length g /\
    snd (getNextPayload (empty_calls k b) []) = Returned p /\
    sb_data (fst (getNextPayload (empty_calls k b) [])) = rest.
Proof. intros g b p rest E F. apply (resync (length g) g b p rest); auto. Qed.
Print Assumptions C09_resync_any_garbage.

Example C09_case :
  let b := mkSbuf (lit "a?^?^?^?^+=+=+=+=9#@#@#@#@" ++ createSentinelized (lit "hello") ++ lit "z") 0 0 0 in
  snd (getNextPayload b []) = Returned [] /\
  snd (getNextPayload (empty_calls 1 b) []) = Returned (lit "hello").
Proof. vm_compute. auto. Qed.

(** Finding: the receive loops stop at the first empty result, so a damaged frame keeps
    the good frames behind it in the same chunk from being delivered until more bytes
    arrive. *)
Theorem C09_receive_loop_delivers_refuted :
  exists chunk b, frameable (lit "hi") /\ occurs (createSentinelized (lit "hi")) chunk /\
    feed new_sbuf [chunk] = Some (b, []) /\ sb_data b = createSentinelized (lit "hi").
Proof.
  exists (lit "?^?^?^?^" ++ createSentinelized (lit "hi")). eexists. repeat split.
  - discriminate.
  - apply find_sub_none. reflexivity.
  - apply base_free_frameable; try discriminate; try reflexivity;
      apply find_sub_none; reflexivity.
  - exists (lit "?^?^?^?^"), []. rewrite app_nil_r. reflexivity.
Qed.
Print Assumptions C09_receive_loop_delivers_refuted.

(** Property theorems about message texts: C01 - C06, C43. *)
From Coq Require Import String Ascii List Arith Lia Bool.
From Verif Require Import Base MsgModel MsgSpec MsgProofs.
Import ListNotations.
Open Scope list_scope.

(** *** C01 *)

(** The setter accepts exactly the non-empty addresses without '$' and non-empty payloads. *)
Theorem C01_setter_domain : forall m a p,
  snd (setAddressAndPayload m a p) = true <-> a <> [] /\ ~ In "$"%char a /\ p <> [].
Proof.
  intros. destruct (setAddressAndPayload m a p) as (m', ok) eqn:E. simpl. split.
  - intros ->. apply setAddressAndPayload_spec in E. exact (proj1 E).
  - intros H. pose proof (proj2 (setAddressAndPayload_spec m a p _) (conj H eq_refl)). congruence.
Qed.
Print Assumptions C01_setter_domain.

(** Round trip, for payloads of at least two bytes; [m0] and [m2] are arbitrary previous
    contents of the sending and of the receiving object. *)
Theorem C01_roundtrip : forall m0 m1 m2 a p,
  setAddressAndPayload m0 a p = (m1, true) -> 2 <= length p ->
  setAddressAndPayloadFromDelimitedString m2 (am_string m1)
  = (mkAddressed true (am_string m1) a p, true).
Proof. exact addressed_roundtrip. Qed.
Print Assumptions C01_roundtrip.

Example C01_case :
  let m1 := fst (setAddressAndPayload new_addressed (lit "eid1.sid2") (lit "pay$load|$")) in
  setAddressAndPayloadFromDelimitedString new_addressed (am_string m1) = (m1, true)
  /\ am_payload m1 = lit "pay$load|$".
Proof. vm_compute. split; reflexivity. Qed.

(** Finding: a one-byte payload is accepted by the setter but its text is rejected,
    so the round trip without the length condition is false. *)
Theorem C01_roundtrip_any_payload_refuted :
  exists a p m1, setAddressAndPayload new_addressed a p = (m1, true) /\
    snd (setAddressAndPayloadFromDelimitedString new_addressed (am_string m1)) = false.
Proof.
  exists (lit "a"), (lit "p"), (fst (setAddressAndPayload new_addressed (lit "a") (lit "p"))).
  vm_compute. split; reflexivity.
Qed.
Print Assumptions C01_roundtrip_any_payload_refuted.

(** The accepted texts, exactly. *)
Theorem C01_parser_domain : forall m m' s,
  setAddressAndPayloadFromDelimitedString m s = (m', true) <->
  exists a p, s = join "$" [a; p] /\ a <> [] /\ ~ In "$"%char a /\ 2 <= length p /\
    m' = mkAddressed true s a p.
Proof. exact addressed_parse_sound. Qed.
Print Assumptions C01_parser_domain.

(** *** C02 *)

Theorem C02_roundtrip : forall m0 m1 m2 a c d g e s p,
  setAam m0 a c d g e s p = (m1, true) ->
  clean c -> clean d -> clean g -> clean e -> clean s ->
  exists m3, setAamFromDelimitedString m2 (aam_getString m1) = (m3, true) /\
    aam_address m3 = a /\ aam_payload m3 = p /\ aam_getString m3 = aam_getString m1 /\
    exists t, aam_attrs m3 = Some t /\
      at_contentType t = c /\ at_descriptor t = d /\ at_group t = g /\
      at_entity t = e /\ at_service t = s.
Proof.
  intros m0 m1 m2 a c d g e s p S Cc Cd Cg Ce Cs.
  apply setAam_spec in S. destruct S as ((NA & FA & NP & N1 & N2 & N3 & N4) & ->).
  eexists. split.
  - apply parseAam_spec. exists a, c, d, g, e, s, p. repeat (split; [try reflexivity; auto|]).
    reflexivity.
  - simpl. repeat split. eexists. split; [reflexivity|]. simpl. auto.
Qed.
Print Assumptions C02_roundtrip.

Theorem C02_setter_domain : forall m a c d g e s p,
  snd (setAam m a c d g e s p) = true <->
  a <> [] /\ ~ In "$"%char a /\ p <> [] /\ c <> [] /\ d <> [] /\ e <> [] /\ s <> [].
Proof.
  intros. destruct (setAam m a c d g e s p) as (m', ok) eqn:E. simpl. split.
  - intros ->. apply setAam_spec in E. exact (proj1 E).
  - intros H. pose proof (proj2 (setAam_spec m a c d g e s p _) (conj H eq_refl)). congruence.
Qed.
Print Assumptions C02_setter_domain.

Example C02_case :
  let m1 := fst (setAam new_aam (lit "afrl.cmasi.AirVehicleState") (lit "lmcp")
     (lit "afrl.cmasi.AirVehicleState") [] (lit "100") (lit "64") (lit "$|binary$")) in
  setAamFromDelimitedString new_aam (aam_getString m1) = (m1, true) /\ aam_valid m1 = true
  /\ aam_getString m1 = lit "afrl.cmasi.AirVehicleState$lmcp|afrl.cmasi.AirVehicleState||100|64$$|binary$".
Proof. vm_compute. repeat split; reflexivity. Qed.

(** *** C03 *)

(** The accepted texts and what they are parsed into, exactly. *)
Theorem C03_parser_domain : forall m s m',
  setAamFromDelimitedString m s = (m', true) <->
  exists a c d g e v p,
    s = wire_text a c d g e v p /\
    free_of "$" a /\ clean c /\ clean d /\ clean g /\ clean e /\ clean v /\
    c <> [] /\ d <> [] /\ e <> [] /\ v <> [] /\ p <> [] /\
    m' = mkAam true s a p (Some (mkAttrs true (join "|" [c; d; g; e; v]) c d g e v)).
Proof. exact parseAam_spec. Qed.
Print Assumptions C03_parser_domain.

(** Two texts parsed into the same address, attribute fields and payload are equal. *)
Theorem C03_parser_injective : forall m1 m2 s1 s2 r1 r2 t1 t2,
  setAamFromDelimitedString m1 s1 = (r1, true) ->
  setAamFromDelimitedString m2 s2 = (r2, true) ->
  aam_address r1 = aam_address r2 -> aam_payload r1 = aam_payload r2 ->
  aam_attrs r1 = Some t1 -> aam_attrs r2 = Some t2 ->
  at_contentType t1 = at_contentType t2 -> at_descriptor t1 = at_descriptor t2 ->
  at_group t1 = at_group t2 -> at_entity t1 = at_entity t2 -> at_service t1 = at_service t2 ->
  s1 = s2.
Proof.
  intros m1 m2 s1 s2 r1 r2 t1 t2 P1 P2 A P T1 T2.
  apply parseAam_spec in P1. apply parseAam_spec in P2.
  destruct P1 as (a & c & d & g & e & v & p & -> & _ & _ & _ & _ & _ & _ & _ & _ & _ & _ & _ & ->).
  destruct P2 as (a' & c' & d' & g' & e' & v' & p' & -> & _ & _ & _ & _ & _ & _ & _ & _ & _ & _ & _ & ->).
  simpl in *. injection T1 as <-. injection T2 as <-. simpl. congruence.
Qed.
Print Assumptions C03_parser_injective.

Example C03_case_accepts : snd (setAamFromDelimitedString new_aam (lit "a$b|c||d|e$f")) = true.
Proof. reflexivity. Qed.
Example C03_case_rejects :
  snd (setAamFromDelimitedString new_aam (lit "a$b|c|d|e$fffff")) = false /\
  snd (setAamFromDelimitedString new_aam (lit "aaa$b|c||d|e$")) = false.
Proof. split; reflexivity. Qed.

(** Finding: the parser accepts a text with an empty address, which the setter rejects. *)
Theorem C03_parsed_address_nonempty_refuted :
  exists s m, setAamFromDelimitedString new_aam s = (m, true) /\ aam_address m = [].
Proof.
  exists (lit "$b|c||d|e$ff"), (fst (setAamFromDelimitedString new_aam (lit "$b|c||d|e$ff"))).
  vm_compute. split; reflexivity.
Qed.
Print Assumptions C03_parsed_address_nonempty_refuted.

(** *** C04 *)

(** If some attribute field is not clean, whatever the receiver accepts differs from the
    fields that were set. *)
Theorem C04_no_smuggling : forall m0 m1 m2 m3 a c d g e s p t,
  setAam m0 a c d g e s p = (m1, true) ->
  ~ (clean c /\ clean d /\ clean g /\ clean e /\ clean s) ->
  setAamFromDelimitedString m2 (aam_getString m1) = (m3, true) ->
  aam_attrs m3 = Some t ->
  ~ (at_contentType t = c /\ at_descriptor t = d /\ at_group t = g /\
     at_entity t = e /\ at_service t = s).
Proof.
  intros m0 m1 m2 m3 a c d g e s p t _ NC P T (<- & <- & <- & <- & <-). apply NC.
  apply parseAam_spec in P.
  destruct P as (a' & c & d & g & e & v & p' & _ & _ & C1 & C2 & C3 & C4 & C5 & _ & _ & _ & _ & _ & ->).
  simpl in T. injection T as <-. simpl. auto.
Qed.
Print Assumptions C04_no_smuggling.

(** Such a text may still be accepted as a different message, because the setter does not
    check the attribute fields. *)
Theorem C04_setter_rejects_delimiters_refuted :
  exists a c d g e s p m1 m3 t,
    setAam new_aam a c d g e s p = (m1, true) /\ ~ free_of "$" s /\
    setAamFromDelimitedString new_aam (aam_getString m1) = (m3, true) /\
    aam_attrs m3 = Some t /\ aam_payload m3 <> p /\ at_service t <> s.
Proof.
  exists (lit "a"), (lit "lmcp"), (lit "d"), [], (lit "1"), (lit "2$x"), (lit "p").
  do 3 eexists. repeat split; try (vm_compute; reflexivity).
  - intros N. apply N. vm_compute. tauto.
  - vm_compute. discriminate.
  - vm_compute. discriminate.
Qed.
Print Assumptions C04_setter_rejects_delimiters_refuted.

(** *** C05 *)

(** With the default arguments (a maximum that is not reached). *)
Theorem C05_split : forall s d max app,
  S (length s) < max ->
  exists l, split s d max app = Some l /\ join d l = s /\
    length l = S (count_occ ascii_dec s d) /\ Forall (fun x => ~ In d x) l.
Proof.
  intros. exists (pieces d [] s). rewrite split_pieces by auto. repeat split.
  - apply (pieces_join d s []).
  - apply pieces_count.
  - apply pieces_free. auto.
Qed.
Print Assumptions C05_split.

(** With a positive maximum and without append mode, the first [max] pieces. *)
Theorem C05_split_max : forall s d max,
  0 < max ->
  exists l, join d l = s /\ Forall (fun x => ~ In d x) l /\
    split s d max false = Some (firstn max l).
Proof.
  intros. exists (pieces d [] s). rewrite split_truncates by auto. repeat split.
  - apply (pieces_join d s []).
  - apply pieces_free. auto.
Qed.
Print Assumptions C05_split_max.

(** In append mode the surplus pieces are glued to the last kept piece. *)
Theorem C05_split_append : forall s d max,
  0 < max ->
  exists l, join d l = s /\ Forall (fun x => ~ In d x) l /\
    (max < length l -> split s d max true = Some (firstn (max - 1) l ++ [concat (skipn (max - 1) l)])).
Proof.
  intros. exists (pieces d [] s). repeat split.
  - apply (pieces_join d s []).
  - apply pieces_free. auto.
  - intros. apply split_append_glues; auto.
Qed.
Print Assumptions C05_split_append.

(** Finding: hence append mode loses delimiters; joining the result does not restore the text. *)
Theorem C05_append_restores_refuted :
  exists s max l, 0 < max /\ split s "|" max true = Some l /\ join "|" l <> s.
Proof.
  exists (lit "a|b|c"), 2, [lit "a"; lit "bc"]. repeat split; [lia|]. vm_compute. discriminate.
Qed.
Print Assumptions C05_append_restores_refuted.

Example C05_case : split (lit "|a||b|") "|" 100 false = Some [[]; lit "a"; []; lit "b"; []]
  /\ split (lit "a|b|c") "|" 2 false = Some [lit "a"; lit "b"]
  /\ split [] "|" 100 false = Some [[]].
Proof. vm_compute. repeat split. Qed.

(** *** C06 *)

Theorem C06_replaceAll : forall s from to fuel,
  from <> [] -> length s < fuel ->
  exists out, replaceAll fuel s from to = Some out /\ replaced from to s out /\
    forall out', replaced from to s out' -> out' = out.
Proof.
  intros s from to fuel N L. destruct (replaceAll_correct s from to fuel N L) as (out & E & R).
  exists out. repeat split; auto. intros. eapply replaced_unique; eauto.
Qed.
Print Assumptions C06_replaceAll.

(** Finding: with an empty pattern the loop never ends. *)
Theorem C06_empty_pattern_diverges : forall fuel s to, replaceAll fuel s [] to = None.
Proof. intros. apply replaceAll_empty_diverges. Qed.
Print Assumptions C06_empty_pattern_diverges.

(** Escaping leaves no '<' or '>', and unescaping restores the text exactly when the
    text contained neither "&lt;" nor "&gt;". *)
Theorem C06_xml_escape_roundtrip : forall s fuel,
  4 * length s < fuel ->
  exists e u, escapeXml fuel s = Some e /\ unescapeXml fuel e = Some u /\
    ~ In "<"%char e /\ ~ In ">"%char e /\
    (u = s <-> ~ occurs (lit "&lt;") s /\ ~ occurs (lit "&gt;") s).
Proof. exact xml_roundtrip_iff. Qed.
Print Assumptions C06_xml_escape_roundtrip.

Example C06_case :
  escapeXml 100 (lit "<A x='1'/>") = Some (lit "&lt;A x='1'/&gt;") /\
  unescapeXml 100 (lit "&lt;A x='1'/&gt;") = Some (lit "<A x='1'/>").
Proof. vm_compute. split; reflexivity. Qed.

Theorem C06_roundtrip_refuted :
  exists s e, escapeXml 100 s = Some e /\ unescapeXml 100 e <> Some s.
Proof.
  exists (lit "a='&lt;'"), (lit "a='&lt;'"). split; [reflexivity|]. vm_compute. discriminate.
Qed.
Print Assumptions C06_roundtrip_refuted.

(** *** C43 *)

(** After any history of operations on a message object, if it is valid and its attributes
    have not been detached, its text is the wire text of what its getters report, and the
    mandatory fields are non-empty. *)
Theorem C43_object_consistent : forall l m t,
  mop_run l = Some m -> aam_valid m = true -> aam_attrs m = Some t ->
  aam_getString m = wire_text (aam_address m) (at_contentType t) (at_descriptor t)
                      (at_group t) (at_entity t) (at_service t) (aam_payload m) /\
  at_contentType t <> [] /\ at_descriptor t <> [] /\ at_entity t <> [] /\
  at_service t <> [] /\ aam_payload m <> [].
Proof.
  intros l m t R V T. apply run_consistent in R. unfold consistent in R. rewrite T in R.
  unfold aam_getString. rewrite T. specialize (R V). tauto.
Qed.
Print Assumptions C43_object_consistent.

Example C43_case :
  exists m, mop_run [OpSet (lit "a") (lit "l") (lit "d") [] (lit "1") (lit "2") (lit "p");
                     OpSet (lit "a$") (lit "l") (lit "d") [] (lit "1") (lit "2") (lit "p");
                     OpParse (lit "b$l|d|g|3|4$q"); OpUpdateSource [] (lit "5") (lit "6")] = Some m
  /\ aam_valid m = true /\ aam_getString m = lit "b$l|d||5|6$q".
Proof. eexists. vm_compute. repeat split; reflexivity. Qed.

(** Finding: [updateAddress] does not validate the address, so a valid object can print a
    text that parses back to another address. *)
Theorem C43_valid_object_reparses_refuted :
  exists l m m', mop_run l = Some m /\ aam_valid m = true /\
    setAamFromDelimitedString new_aam (aam_getString m) = (m', false).
Proof.
  exists [OpSet (lit "a") (lit "l") (lit "d") [] (lit "1") (lit "2") (lit "p"); OpUpdateAddress (lit "x$y")].
  do 2 eexists. repeat split; vm_compute; reflexivity.
Qed.
Print Assumptions C43_valid_object_reparses_refuted.

(** Finding: updating the source of a message without attributes is a null dereference. *)
Theorem C43_update_fresh_refuted : forall g e s, mop_run [OpUpdateSource g e s] = None.
Proof. reflexivity. Qed.
Print Assumptions C43_update_fresh_refuted.

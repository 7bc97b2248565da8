(** C109: messages through the other TCP transport. *)
From Coq Require Import String Ascii List Arith NArith Bool Lia.
From Verif Require Import Base Decimal10 MsgSpec MsgModel MsgProofs SerialModel SerialSpec SerialProofs TcpLinkModel TcpLinkSpec TcpLinkProps TcpPipeModel TcpPipeSpec.
Import ListNotations.
Open Scope list_scope.

Lemma parse_junk t : (forall l, well_formed l -> t <> text l) -> snd (setAamFromDelimitedString new_aam t) = false.
Proof.
  intros J. destruct (setAamFromDelimitedString new_aam t) as (m, [|]) eqn:E; [|reflexivity]. exfalso. apply parseAam_spec in E.
  destruct E as (a & c & d & g & e & v & p & E & W1 & W2 & W3 & W4 & W5 & W6 & W7 & W8 & W9 & W10 & W11 & _).
  apply (J (mkLetter a c d g e v p)); [repeat split; cbn; first [apply W1|apply W2|apply W3|apply W4|apply W5|apply W6|assumption]|exact E].
Qed.

Lemma parse_items is : Forall proper is -> parse_all (map raw is) = map msg_of (letters is).
Proof.
  induction 1 as [|x is P F IH]; [reflexivity|]. destruct x as [l|t]; cbn [map raw parse_all].
  - rewrite (parse_letter _ l P), IH. reflexivity.
  - pose proof (parse_junk t P) as J. destruct (setAamFromDelimitedString new_aam t) as (m, ok). cbn [snd] in J. subst ok. exact IH.
Qed.
Lemma letters_app a b : letters (a ++ b) = letters a ++ letters b.
Proof. apply flat_map_app. Qed.

Lemma carries_msg_of l : carries (msg_of l) l.
Proof. repeat split. eexists. split; [reflexivity|]. repeat split. Qed.

(** What is in the pipe and at the socket: messages found, and frames of what is to come. *)
Definition holds (p : pipe) (pend : list packet) (lq : list letter) (is : list item) : Prop :=
  Forall proper is /\ Forall frameable (map raw is) /\ p_queue p = map msg_of lq /\
  sb_data (p_buffer p) ++ concat (map data_of pend) = concat (map createSentinelized (map raw is)) /\ ~ occurs afterChk (sb_data (p_buffer p)).

Lemma no_frames d ts : ~ occurs afterChk d -> d = concat (map createSentinelized ts) -> ts = [].
Proof.
  intros NO E. destruct ts as [|t ts]; [reflexivity|]. exfalso. apply NO. rewrite E. cbn [map concat]. generalize (concat (map createSentinelized ts)). intros z. unfold createSentinelized.
  exists (beforeSize ++ to_string (N.of_nat (length t)) ++ afterSize ++ t ++ beforeChk ++ to_string (checksum t)), z. rewrite <- !app_assoc. reflexivity.
Qed.

Lemma get_holds p pend lq is : holds p pend lq is -> let '(p', pend', o) := get p pend in exists lq' is', holds p' pend' lq' is' /\
  ((o = None /\ lq' ++ letters is' = lq ++ letters is) \/ (exists l, o = Some (msg_of l) /\ lq ++ letters is = l :: lq' ++ letters is')) /\
  (length pend' + length (lq' ++ letters is') < length pend + length (lq ++ letters is) \/ (pend = [] /\ lq ++ letters is = [])).
Proof.
  intros (W & F & Q & E & NO). unfold get. destruct lq as [|l lq]; cbn [map] in Q; rewrite Q.
  2:{ exists lq, is. split; [repeat split; assumption|]. split; [right; exists l; split; reflexivity|]. left. cbn [app length]. lia. }
  destruct pend as [|[id d|m0] pend].
  - exists [], is. pose proof E as E0. cbn [map concat] in E0. rewrite app_nil_r in E0. pose proof (no_frames _ _ NO E0) as NR. apply map_eq_nil in NR. subst is.
    split; [repeat split; assumption|]. split; [left; split; reflexivity|]. right. split; reflexivity.
  - destruct d as [|x d].
    + exists [], is. split; [repeat split; assumption|]. split; [left; split; reflexivity|]. left. cbn [length]. lia.
    + cbn [map concat data_of] in E. rewrite app_assoc in E. destruct (cut_stream _ _ _ F E) as (ps1 & ps2 & part & SP & D & P & NP).
      apply map_eq_app in SP. destruct SP as (l1 & l2 & -> & <- & <-). rewrite map_app in F. apply Forall_app in F. destruct F as (F1 & F2). apply Forall_app in W. destruct W as (W1 & W2).
      destruct (pump_frames _ _ _ _ _ F1 D NP (fuel_enough _ _ _ _ D)) as (b1 & PE & BD1). rewrite PE. rewrite (parse_items l1 W1). rewrite letters_app.
      destruct (letters l1) as [|l lq]; cbn [map first_out].
      * exists [], l2. split; [repeat split; cbn [p_queue p_buffer]; try assumption; rewrite BD1; assumption|]. split; [left; split; reflexivity|]. left. cbn [length app]. lia.
      * exists lq, l2. split; [repeat split; cbn [p_queue p_buffer]; try assumption; rewrite BD1; assumption|]. split; [right; exists l; split; reflexivity|]. left. cbn [length app]. rewrite !app_length. lia.
  - exists [], is. split; [repeat split; assumption|]. split; [left; split; reflexivity|]. left. cbn [length]. lia.
Qed.

Lemma calls_holds n : forall p pend lq is, holds p pend lq is -> let '(p', pend', os) := calls n p pend in
  exists ls1 ls2, lq ++ letters is = ls1 ++ ls2 /\ given os = map msg_of ls1 /\ (length pend + length (lq ++ letters is) <= n -> ls2 = []).
Proof.
  induction n as [|n IH]; intros p pend lq is HO; cbn [calls].
  - exists [], (lq ++ letters is). split; [reflexivity|]. split; [reflexivity|]. intros X. destruct (lq ++ letters is); [reflexivity|cbn [length] in X; lia].
  - pose proof (get_holds p pend lq is HO) as G. destruct (get p pend) as ((p1, pend1), o). destruct G as (lq' & is' & HO' & R & M).
    specialize (IH p1 pend1 lq' is' HO'). destruct (calls n p1 pend1) as ((p2, pend2), os). destruct IH as (ls1 & ls2 & E & G & L).
    destruct R as [(-> & RE)|(l & -> & RE)].
    + exists ls1, ls2. split; [rewrite <- RE; exact E|]. split; [exact G|]. intros X. destruct M as [M|(-> & M)]; [apply L; lia|]. rewrite M in RE. rewrite RE in E. symmetry in E. apply app_eq_nil in E. apply E.
    + exists (l :: ls1), ls2. split; [rewrite RE, E; reflexivity|]. split; [cbn [given flat_map app map]; f_equal; exact G|]. intros X. destruct M as [M|(_ & M)]; [apply L; lia|]. rewrite M in RE. discriminate RE.
Qed.

(** However the data of frames are cut into packets, with texts in between that are no messages: at any time the calls have given the messages up to some one, in order and each once, and after enough calls all. *)
Theorem C109_delivered pend is n : Forall proper is -> Forall frameable (map raw is) -> concat (map data_of pend) = concat (map createSentinelized (map raw is)) ->
  exists ls1 ls2, letters is = ls1 ++ ls2 /\ Forall2 carries (given (snd (calls n new_pipe pend))) ls1 /\ (length pend + length (letters is) <= n -> ls2 = []).
Proof.
  intros W F E. assert (HO : holds new_pipe pend [] is) by (repeat split; try assumption; exact nil_no_end).
  pose proof (calls_holds n new_pipe pend [] is HO) as C. destruct (calls n new_pipe pend) as ((p', pend'), os). destruct C as (ls1 & ls2 & E1 & G & L).
  exists ls1, ls2. split; [exact E1|]. split; [|exact L]. cbn [snd]. rewrite G. clear. induction ls1 as [|l ls1 IH]; constructor; [apply carries_msg_of|exact IH].
Qed.

Lemma has_client_in cs c : has_client cs c = true <-> In c cs.
Proof.
  unfold has_client. rewrite existsb_exists. split.
  - intros (x & I & E). unfold str_eqb in E. destruct (list_eq_dec ascii_dec c x); [subst; exact I|discriminate].
  - intros I. exists c. split; [exact I|]. unfold str_eqb. destruct (list_eq_dec ascii_dec c c); [reflexivity|congruence].
Qed.

Lemma known_in cs c x : In x (known cs c) <-> In x cs \/ x = c.
Proof.
  unfold known. destruct (has_client cs c) eqn:E; [apply has_client_in in E; split; [tauto|intros [X|X]; subst; assumption]|].
  rewrite in_app_iff. cbn [In]. split; [intros [X|[X|[]]]; auto|intros [X|X]; auto].
Qed.
Lemma known_nodup cs c : NoDup cs -> NoDup (known cs c).
Proof.
  intros N. unfold known. destruct (has_client cs c) eqn:E; [exact N|]. assert (NI : ~ In c cs) by (rewrite <- has_client_in, E; discriminate).
  rewrite <- (rev_involutive (cs ++ [c])). apply NoDup_rev. rewrite rev_app_distr. cbn [rev app]. constructor; [rewrite <- in_rev; exact NI|apply NoDup_rev, N].
Qed.

Lemma get_clients p pend : NoDup (p_clients p) -> let '(p', pend', _) := get p pend in exists xs, pend = xs ++ pend' /\ NoDup (p_clients p') /\ forall c, In c (p_clients p') <-> In c (p_clients p) \/ heard c xs.
Proof.
  intros N. unfold get. destruct (p_queue p) as [|m q]; [destruct pend as [|[id d|m] pend]|].
  - exists []. split; [reflexivity|]. split; [exact N|]. intros c. split; [tauto|]. intros [X|(d & [])]. exact X.
  - assert (K : NoDup (known (p_clients p) id) /\ forall c, In c (known (p_clients p) id) <-> In c (p_clients p) \/ heard c [Pair id d]).
    { split; [apply known_nodup, N|]. intros c. rewrite known_in. split; intros [X|X]; auto; [right; subst; exists d; left; reflexivity|]. destruct X as (e & [X|[]]). injection X as -> ->. auto. }
    destruct d as [|x d]; [exists [Pair id []]; split; [reflexivity|exact K]|].
    destruct (pump _ (p_buffer p) (x :: d)) as ((b', ts), th). unfold first_out. destruct (parse_all ts); exists [Pair id (x :: d)]; (split; [reflexivity|exact K]).
  - exists [Lone m]. split; [reflexivity|]. split; [exact N|]. intros c. split; [tauto|]. intros [X|(d & [X|[]])]; [exact X|discriminate X].
  - exists []. split; [reflexivity|]. split; [exact N|]. intros c. split; [tauto|]. intros [X|(d & [])]. exact X.
Qed.

Lemma calls_clients n : forall p pend, NoDup (p_clients p) -> let '(p', pend', _) := calls n p pend in exists xs, pend = xs ++ pend' /\ NoDup (p_clients p') /\ forall c, In c (p_clients p') <-> In c (p_clients p) \/ heard c xs.
Proof.
  induction n as [|n IH]; intros p pend N; cbn [calls].
  - exists []. split; [reflexivity|]. split; [exact N|]. intros c. split; [tauto|]. intros [X|(d & [])]. exact X.
  - pose proof (get_clients p pend N) as G. destruct (get p pend) as ((p1, pend1), o). destruct G as (xs & -> & N1 & K1).
    specialize (IH p1 pend1 N1). destruct (calls n p1 pend1) as ((p2, pend2), os). destruct IH as (ys & -> & N2 & K2). exists (xs ++ ys). split; [apply app_assoc|]. split; [exact N2|].
    intros c. rewrite K2, K1. unfold heard. split.
    + intros [[X|(d & X)]|(d & X)]; [auto|right; exists d; apply in_app_iff; auto|right; exists d; apply in_app_iff; auto].
    + intros [X|(d & X)]; [auto|]. apply in_app_iff in X. destruct X as [X|X]; [left; right; exists d; exact X|right; exists d; exact X].
Qed.

(** A server sends a message once to each client that it has read anything from, a client to the server. *)
Theorem C109_sent n pend sid m : let '(p, pend', _) := calls n new_pipe pend in
  exists xs, pend = xs ++ pend' /\ NoDup (map fst (send true sid p m)) /\
    (forall c x, In (c, x) (send true sid p m) <-> heard c xs /\ x = createSentinelized (aam_getString m)) /\ send false sid p m = [(sid, createSentinelized (aam_getString m))].
Proof.
  pose proof (calls_clients n new_pipe pend (NoDup_nil _)) as C. destruct (calls n new_pipe pend) as ((p, pend'), os). destruct C as (xs & E & N & K).
  exists xs. split; [exact E|]. unfold send. split; [rewrite map_map; cbn [fst]; rewrite map_id; exact N|]. split; [|reflexivity].
  intros c x. rewrite in_map_iff. split.
  - intros (y & Y & I). injection Y as -> <-. apply K in I. destruct I as [[]|I]. split; [exact I|reflexivity].
  - intros (I & ->). exists c. split; [reflexivity|]. apply K. right. exact I.
Qed.

(** A client that has left is still sent to. *)
Theorem C109_gone_refuted n pend sid m c : let '(p, pend', _) := calls n new_pipe pend in
  forall xs, pend = xs ++ pend' -> 0 < blanks c xs -> Nat.Even (blanks c xs) -> In (c, createSentinelized (aam_getString m)) (send true sid p m).
Proof.
  pose proof (C109_sent n pend sid m) as S0. destruct (calls n new_pipe pend) as ((p, pend'), os). destruct S0 as (ys & E & _ & K & _). intros xs EX B _.
  rewrite EX in E. apply app_inv_tail in E. subst ys. apply K. split; [|reflexivity]. unfold blanks in B.
  destruct (filter _ xs) as [|x l] eqn:FE; [cbn in B; lia|]. assert (I : In x (x :: l)) by (left; reflexivity). rewrite <- FE in I. apply filter_In in I. destruct I as (I & X).
  destruct x as [id [|y d]|z]; try discriminate X. destruct (list_eq_dec ascii_dec id c) as [->|]; [|discriminate X]. exists []. exact I.
Qed.

(** A concrete case: three messages and a text that is none, in packets of two clients, one of which leaves. *)
Definition items3 : list item := [Msg letter1; Junk (lit "nothing"); Msg letter2; Msg letter3].
Definition stream3 : str := concat (map createSentinelized (map raw items3)).
Definition packets3 : list packet := [Pair (lit "x") []; Pair (lit "x") (firstn 30 stream3); Lone (lit "?"); Pair (lit "x") []; Pair (lit "x") (skipn 30 stream3); Pair (lit "y") []].

Lemma items_ok : Forall proper items3 /\ Forall frameable (map raw items3).
Proof.
  destruct letters_ok as (A & B). inversion A as [|? ? A1 A']; subst. inversion A' as [|? ? A2 A'']; subst. inversion A'' as [|? ? A3 _]; subst.
  cbn [map] in B. inversion B as [|? ? B1 B']; subst. inversion B' as [|? ? B2 B'']; subst. inversion B'' as [|? ? B3 _]; subst.
  split.
  - constructor; [exact A1|]. constructor; [|constructor; [exact A2|constructor; [exact A3|constructor]]].
    intros l (W1 & W) E. assert (I : In "$"%char (lit "nothing")) by (rewrite E; unfold text, wire_text; apply in_or_app; right; cbn; left; reflexivity). cbn in I. intuition discriminate.
  - cbn [map raw items3]. constructor; [exact B1|]. constructor; [|constructor; [exact B2|constructor; [exact B3|constructor]]].
    apply base_free_frameable; [discriminate|apply find_sub_none; reflexivity|apply find_sub_none; reflexivity|reflexivity|reflexivity].
Qed.

Example C109_case : Forall proper items3 /\ Forall frameable (map raw items3) /\ concat (map data_of packets3) = concat (map createSentinelized (map raw items3)) /\
  map (option_map (fun m => string_of_list_ascii (aam_payload m))) (snd (calls 8 new_pipe packets3)) = [None; None; None; None; Some "one$"; Some "two"; Some "two"; None]%string /\
  p_clients (fst (fst (calls 8 new_pipe packets3))) = [lit "x"; lit "y"] /\ blanks (lit "x") packets3 = 2 /\ snd (fst (calls 8 new_pipe packets3)) = [].
Proof. destruct items_ok as (A & B). split; [exact A|]. split; [exact B|]. repeat split; vm_compute; reflexivity. Qed.

Print Assumptions C109_delivered.
Print Assumptions C109_sent.
Print Assumptions C109_gone_refuted.

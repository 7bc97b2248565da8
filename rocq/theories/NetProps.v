(** Properties C10, C11 and C12: the message bus. *)
From Coq Require Import String Ascii List Arith NArith Bool Lia.
From Verif Require Import Base MsgModel MsgSpec MsgProofs MsgProps Decimal10 Run NetModel NetSpec NetProofs.
Import ListNotations.
Open Scope list_scope.

Lemma receive_spec e s t : (exists x, receive e s t = [x] /\ accepted e s t x) \/
  (receive e s t = [] /\ forall x, ~ accepted e s t x).
Proof.
  unfold receive, accepted. destruct (setAamFromDelimitedString new_aam t) as [m ok]. destruct ok.
  - destruct (aam_attrs m) as [a|] eqn:A.
    + destruct (str_eqb e (at_entity a)) eqn:E1; [destruct (str_eqb s (at_service a)) eqn:E2|]; cbn.
      * right. split; [reflexivity|]. intros x ([= <-] & a' & A' & N). rewrite A in A'. injection A' as <-.
        apply N. apply str_eqb_eq in E1. apply str_eqb_eq in E2. auto.
      * left. exists m. split; [reflexivity|]. split; [reflexivity|]. exists a. split; [exact A|].
        intros (_ & <-). rewrite str_eqb_refl in E2. discriminate.
      * left. exists m. split; [reflexivity|]. split; [reflexivity|]. exists a. split; [exact A|].
        intros (<- & _). rewrite str_eqb_refl in E1. discriminate.
    + right. split; [reflexivity|]. intros x ([= <-] & a' & A' & _). congruence.
  - right. split; [reflexivity|]. intros x ([=] & _).
Qed.

Lemma handed_receive e s l : handed e s l (flat_map (receive e s) l).
Proof.
  induction l as [|t l IH]; [constructor|]. cbn [flat_map].
  destruct (receive_spec e s t) as [(x & -> & A)|(-> & N)]; [apply handed_yes|apply handed_no]; assumption.
Qed.

Lemma run_from {A E O} (stp : A -> E -> A * list O) s a b :
  run stp s (a ++ b) = (fst (run stp (fst (run stp s a)) b), snd (run stp s a) ++ snd (run stp (fst (run stp s a)) b)).
Proof.
  induction b as [|e b IH] using rev_ind.
  - rewrite app_nil_r. destruct (run stp s a) as (s', t). cbn. rewrite app_nil_r. reflexivity.
  - rewrite app_assoc, !run_snoc, IH. cbn [fst snd]. rewrite app_assoc. reflexivity.
Qed.

Lemma all_got e s evs n : no_late_clear false false evs -> length evs <= n ->
  exists l, arrived evs l /\ got e s (evs ++ repeat Get n) = flat_map (receive e s) l.
Proof.
  intros H N. pose proof (inv_run e s evs H) as I. destruct (i_arrived _ _ _ _ _ I) as (l & A & E).
  exists l. split; [exact A|]. unfold got. rewrite run_from. cbn [snd]. rewrite sent_app, received_app.
  set (c := fst (run step (init e s) evs)) in I, E |- *.
  rewrite <- E. f_equal.
  destruct (created c) eqn:C.
  - pose proof (gets_empty n c C (i_hung _ _ _ _ _ I) (i_recvd _ _ _ _ _ I)) as G.
    rewrite (i_entity _ _ _ _ _ I), (i_service _ _ _ _ _ I) in G.
    rewrite skipn_all2 in G by (pose proof (i_len _ _ _ _ _ I); fold c; lia).
    cbn [flat_map] in G. rewrite app_nil_r in G. exact G.
  - (* not initialised: nothing arrived *)
    assert (Q : flat_map (receive e s) (queue c) = []).
    { assert (L : forall evs l, arrived evs l -> fst (flags false false evs) = false -> l = []).
      { intros ev0 l0 X. induction X as [|ev0 l0 x X IH Y|ev0 l0 t X IH Y|ev0 l0 t X IH Y]; intros F; [reflexivity| | |].
        - rewrite flags_app in F. apply IH. destruct x; cbn in F; try exact F; try discriminate.
        - exfalso. destruct Y as (p & Y & _). apply in_force_live in Y. rewrite flags_app in F. cbn in F.
          destruct Y as (Y & _). rewrite Y in F. discriminate.
        - rewrite flags_app in F. cbn in F. apply IH, F. }
      assert (l = []) as ->.
      { apply (L evs l A). rewrite <- (i_created _ _ _ _ _ I). exact C. }
      cbn in E. apply app_eq_nil in E. apply E. }
    rewrite Q. assert (G : forall n c, created c = false -> received (sent (snd (run step c (repeat Get n)))) = []).
    { clear. induction n as [|n IH]; intros c C; [reflexivity|].
      change (repeat Get (S n)) with ([Get] ++ repeat Get n). rewrite run_from. cbn [snd]. rewrite sent_app, received_app.
      assert (St : step c Get = (c, [])) by (unfold step; rewrite C; destruct (hung c); reflexivity).
      unfold run at 1 3. cbn [fold_left fst snd]. rewrite St. cbn. apply IH, C. }
    apply G, C.
Qed.

Lemma arrived_inv evs x l : arrived (evs ++ [x]) l ->
  (arrived evs l /\ forall t, x <> Bus t) \/
  (exists t l0, x = Bus t /\ l = l0 ++ [t] /\ arrived evs l0 /\ exists p, in_force evs p /\ begins_with p t) \/
  (exists t, x = Bus t /\ arrived evs l /\ ~ exists p, in_force evs p /\ begins_with p t).
Proof.
  intros H. remember (evs ++ [x]) as E eqn:EE. destruct H as [|evs' l0 x' A Y|evs' l0 t A Y|evs' l0 t A Y].
  - destruct evs; discriminate.
  - apply app_inj_tail in EE. destruct EE as (-> & ->). left. auto.
  - apply app_inj_tail in EE. destruct EE as (-> & <-). right. left. exists t, l0. auto.
  - apply app_inj_tail in EE. destruct EE as (-> & <-). right. right. exists t. auto.
Qed.

Lemma arrived_fun evs : forall l l', arrived evs l -> arrived evs l' -> l = l'.
Proof.
  induction evs as [|x evs IH] using rev_ind; intros l l' A A'.
  - assert (K : forall l, arrived [] l -> l = []).
    { intros l0 H. remember (@nil event) as E eqn:EE. destruct H; [reflexivity| | |]; destruct evs; discriminate. }
    rewrite (K l A), (K l' A'). reflexivity.
  - apply arrived_inv in A. apply arrived_inv in A'.
    destruct A as [(A & Y)|[(t & l0 & -> & -> & A & Y)|(t & -> & A & Y)]];
    destruct A' as [(A' & Y')|[(t' & l0' & E & -> & A' & Y')|(t' & E & A' & Y')]];
    try (subst; exfalso; eapply Y; reflexivity); try (exfalso; eapply Y'; reflexivity).
    + apply IH; assumption.
    + injection E as ->. f_equal. apply IH; assumption.
    + injection E as ->. contradiction.
    + injection E as ->. contradiction.
    + apply IH; assumption.
Qed.

(** C11: what a client is handed is exactly the well formed messages of other clients among the texts
    published while one of its subscriptions was a prefix of them, in order, each once: up to now a
    part of the beginning, and all of them after as many calls as there were events. *)
Theorem C11_received : forall e s evs, no_late_clear false false evs ->
  exists l lx, arrived evs l /\ handed e s l lx /\
    (exists rest, lx = got e s evs ++ rest) /\
    (forall n, length evs <= n -> got e s (evs ++ repeat Get n) = lx).
Proof.
  intros e s evs H. pose proof (inv_run e s evs H) as I. destruct (i_arrived _ _ _ _ _ I) as (l & A & E).
  exists l, (flat_map (receive e s) l). split; [exact A|]. split; [apply handed_receive|]. split.
  - eexists. symmetry. exact E.
  - intros n N. destruct (all_got e s evs n H N) as (l' & A' & ->). f_equal.
    apply (arrived_fun evs); assumption.
Qed.
Print Assumptions C11_received.

Lemma own_step e s c ev :
  entity c = e -> service c = s -> recvd c = [] ->
  (entity (fst (step c ev)) = e /\ service (fst (step c ev)) = s /\ recvd (fst (step c ev)) = []) /\
  forall x, In (Got x) (snd (step c ev)) -> exists t, accepted e s t x.
Proof.
  intros E S R. unfold step. destruct (hung c); [cbn; tauto|].
  destruct ev as [a|a| | | |t|]; cbn [fst snd]; (try (split; [|intros x []])).
  - unfold addSubscriptionAddress, receiver_add. destruct (started c); [destruct (mem a (addresses c))|destruct (mem a (staged c))]; auto.
  - unfold removeSubscriptionAddress, receiver_remove. destruct (started c); [destruct (mem a (addresses c))|]; auto.
  - unfold removeAllSubscriptionAddresses. destruct (started c); [destruct (addresses c)|]; auto.
  - destruct (created c); [auto|]. unfold initializeNetworkClient.
    assert (K : forall l c, entity (fold_left receiver_add l c) = entity c /\ service (fold_left receiver_add l c) = service c /\
                 recvd (fold_left receiver_add l c) = recvd c).
    { clear. induction l as [|a l IH]; intros c; [auto|]. cbn [fold_left]. destruct (IH (receiver_add c a)) as (-> & -> & ->).
      unfold receiver_add. destruct (mem a (addresses c)); auto. }
    destruct (K (staged c) (set_flags c true (started c) (hung c))) as (-> & -> & ->). auto.
  - destruct (created c); auto.
  - destruct (created c && _); auto.
  - destruct (created c); [|cbn; tauto]. unfold getNextMessage. rewrite R.
    destruct (queue c) as [|t q]; [cbn; split; [auto|]; intros x [C|[]]; discriminate|].
    rewrite E, S. destruct (receive_spec e s t) as [(x & -> & A)|(-> & N)]; cbn; (split; [auto|]).
    + intros y [[= <-]|[]]. exists t. exact A.
    + intros y [C|[]]; discriminate.
Qed.

(** C11: no message of the client itself is ever handed back, and no malformed one, whatever the history. *)
Theorem C11_own : forall e s evs x, In x (got e s evs) ->
  exists t a, setAamFromDelimitedString new_aam t = (x, true) /\ aam_attrs x = Some a /\
    ~ (at_entity a = e /\ at_service a = s).
Proof.
  intros e s evs x. unfold got.
  assert (K : let r := run step (init e s) evs in
    (entity (fst r) = e /\ service (fst r) = s /\ recvd (fst r) = []) /\
    (In x (received (sent (snd r))) -> exists t, accepted e s t x)).
  { induction evs as [|ev evs IH] using rev_ind; [cbn; tauto|].
    cbn zeta in *. rewrite run_snoc. cbn [fst snd]. destruct IH as ((I1 & I2 & I3) & IH).
    destruct (own_step e s (fst (run step (init e s) evs)) ev I1 I2 I3) as (J & K). split; [exact J|].
    rewrite sent_snoc, received_app. intros H. apply in_app_or in H. destruct H as [H|H]; [apply IH, H|]. apply K. clear - H.
    induction (snd (step (fst (run step (init e s) evs)) ev)) as [|[m|] l IH]; cbn in *; [tauto| |auto].
    destruct H as [->|H]; auto. }
  intros H. destruct (proj2 K H) as (t & P & a & A & N). exists t, a. auto.
Qed.
Print Assumptions C11_own.

Lemma begins_wire p m : free_of "$" p -> begins_with p (wire m) <-> begins_with p (address m).
Proof.
  intros F. unfold begins_with, wire, wire_text.
  assert (K : forall p0 a rest, free_of "$" p0 -> (exists r, a ++ "$"%char :: rest = p0 ++ r) <-> (exists r, a = p0 ++ r)).
  2:{ apply K, F. }
  clear. intros p a rest F. revert a F. induction p as [|x p IH]; intros a F.
  - split; intros _; eexists; reflexivity.
  - destruct a as [|y a]; cbn.
    + split.
      * intros (r & H). injection H as <- _. exfalso. apply F. left. reflexivity.
      * intros (r & H). discriminate.
    + assert (F' : free_of "$" p) by (intros C; apply F; right; exact C). specialize (IH a F').
      split; intros (r & H).
      * injection H as -> H. destruct (proj1 IH) as (r' & ->); [exists r; exact H|]. exists r'. reflexivity.
      * injection H as -> H. destruct (proj2 IH) as (r' & E); [exists r; exact H|]. exists r'. rewrite E. reflexivity.
Qed.

Lemma parse_wire m : good m -> exists x, setAamFromDelimitedString new_aam (wire m) = (x, true) /\ carries x m.
Proof.
  intros (G1 & G2 & G3 & G4 & G5 & G6 & G7 & G8 & G9 & G10 & G11).
  eexists. split.
  - apply C03_parser_domain. exists (address m), (contentType m), (descriptor m), (group m), (sourceEntity m), (sourceService m), (payload m).
    split; [reflexivity|]. do 11 (split; [assumption|]). reflexivity.
  - unfold carries. cbn. split; [reflexivity|]. split; [reflexivity|]. split; [reflexivity|].
    eexists. split; [reflexivity|]. cbn. repeat split.
Qed.

Lemma receive_wire e s m : good m ->
  (~ (sourceEntity m = e /\ sourceService m = s) -> exists x, receive e s (wire m) = [x] /\ carries x m /\ aam_getString x = wire m) /\
  ((sourceEntity m = e /\ sourceService m = s) -> receive e s (wire m) = []).
Proof.
  intros G. destruct (parse_wire m G) as (x & P & C). destruct C as (C0 & C1 & C2 & t & T & C3 & C4 & C5 & C6 & C7).
  destruct (receive_spec e s (wire m)) as [(y & R & (P' & a & A & N))|(R & N)].
  - rewrite P in P'. injection P' as <-. rewrite T in A. injection A as <-. rewrite C6, C7 in N. split; [|tauto].
    intros _. exists x. split; [exact R|]. split.
    + repeat split; try assumption. exists t. tauto.
    + unfold aam_getString. rewrite T. apply C03_parser_domain in P. destruct P as (a & c & d & g & e0 & v & p & Q & _ & _ & _ & _ & _ & _ & _ & _ & _ & _ & _ & ->).
      reflexivity.
  - split; [|intros _; exact R]. intros X. exfalso. apply (N x). split; [exact P|]. exists t. rewrite C6, C7. auto.
Qed.

Lemma due_arrived e s evs l : arrived evs l ->
  (forall t, In (Bus t) evs -> exists m, good m /\ t = wire m) ->
  (forall a, In (Add a) evs -> free_of "$" a) ->
  exists lm, due e s evs lm /\ Forall2 carries (flat_map (receive e s) l) lm.
Proof.
  assert (FREE : forall evs p, (forall a, In (Add a) evs -> free_of "$" a) -> in_force evs p -> free_of "$" p).
  { intros ev0 p F (_ & x & y & E & _). apply F.
    assert (K : forall ev0 i s0 z, In z (effective i s0 ev0) -> In z ev0).
    { clear. induction ev0 as [|z0 ev0 IH]; intros i s0 z H; [exact H|].
      destruct z0; cbn in H; repeat match goal with H : In _ ((if ?b then _ else _) ++ _) |- _ => destruct b end; cbn in H;
        try (destruct H as [H|H]; [left; exact H|]); right; eapply IH; exact H. }
    apply (K ev0 false false). rewrite E. apply in_or_app. right. left. reflexivity. }
  assert (MATCH : forall evs m, (forall a, In (Add a) evs -> free_of "$" a) ->
    (exists p, in_force evs p /\ begins_with p (wire m)) <-> (exists p, in_force evs p /\ begins_with p (address m))).
  { intros ev0 m F. split; intros (p & I & B); exists p; (split; [exact I|]); apply (begins_wire p m (FREE ev0 p F I)); exact B. }
  intros A. induction A as [|evs l x A IH Y|evs l t A IH Y|evs l t A IH Y]; intros W F.
  - exists []. split; constructor.
  - destruct IH as (lm & D & C); [intros; apply W, in_or_app; auto|intros; apply F, in_or_app; auto|].
    exists lm. split; [apply due_other; assumption|exact C].
  - destruct IH as (lm & D & C); [intros; apply W, in_or_app; auto|intros; apply F, in_or_app; auto|].
    assert (F' : forall a, In (Add a) evs -> free_of "$" a) by (intros; apply F, in_or_app; auto).
    destruct (W t) as (m & G & ->); [apply in_or_app; right; left; reflexivity|].
    rewrite flat_map_app. cbn [flat_map]. rewrite app_nil_r. apply MATCH in Y; [|exact F'].
    destruct (receive_wire e s m G) as (R1 & R2).
    destruct (list_eq_dec ascii_dec (sourceEntity m) e) as [E1|E1]; [destruct (list_eq_dec ascii_dec (sourceService m) s) as [E2|E2]|].
    + rewrite R2 by auto. rewrite app_nil_r. exists lm. split; [|exact C]. apply due_no; [exact D|]. tauto.
    + destruct R1 as (x & -> & X & _); [tauto|]. exists (lm ++ [m]). split; [apply due_yes; [exact D|exact Y|tauto]|].
      apply Forall2_app; [exact C|]. constructor; [exact X|constructor].
    + destruct R1 as (x & -> & X & _); [tauto|]. exists (lm ++ [m]). split; [apply due_yes; [exact D|exact Y|tauto]|].
      apply Forall2_app; [exact C|]. constructor; [exact X|constructor].
  - destruct IH as (lm & D & C); [intros; apply W, in_or_app; auto|intros; apply F, in_or_app; auto|].
    assert (F' : forall a, In (Add a) evs -> free_of "$" a) by (intros; apply F, in_or_app; auto).
    destruct (W t) as (m & G & ->); [apply in_or_app; right; left; reflexivity|].
    exists lm. split; [|exact C]. apply due_no; [exact D|]. intros (X & _). apply Y, MATCH; assumption.
Qed.

Lemma Forall2_prefix {A B} (P : A -> B -> Prop) a b l : Forall2 P (a ++ b) l ->
  exists l1 l2, l = l1 ++ l2 /\ Forall2 P a l1.
Proof.
  revert l; induction a as [|x a IH]; intros l H; [exists [], l; split; [reflexivity|constructor]|].
  inversion H as [|? y ? l' P1 P2]; subst. destruct (IH l' P2) as (l1 & l2 & -> & Q). exists (y :: l1), l2. split; [reflexivity|].
  constructor; assumption.
Qed.

(** C10: a client receives exactly the messages that are due to it, in order, each once. *)
Theorem C10_delivery : forall e s evs, no_late_clear false false evs ->
  (forall t, In (Bus t) evs -> exists m, good m /\ t = wire m) ->
  (forall a, In (Add a) evs -> free_of "$" a) ->
  exists lm, due e s evs lm /\
    (exists l1 l2, lm = l1 ++ l2 /\ Forall2 carries (got e s evs) l1) /\
    (forall n, length evs <= n -> Forall2 carries (got e s (evs ++ repeat Get n)) lm).
Proof.
  intros e s evs H W F. destruct (C11_received e s evs H) as (l & lx & A & HD & (rest & E) & G).
  destruct (all_got e s evs (length evs) H (le_n _)) as (l' & A' & E').
  destruct (due_arrived e s evs l' A' W F) as (lm & D & C).
  exists lm. split; [exact D|].
  assert (Q : lx = flat_map (receive e s) l') by (rewrite <- E', (G _ (le_n _)); reflexivity).
  split.
  - apply (Forall2_prefix carries _ rest). rewrite <- E, Q. exact C.
  - intros n N. rewrite (G n N), Q. exact C.
Qed.
Print Assumptions C10_delivery.

(** C10: the hub passes every message on unchanged, unless it claims to come from the hub. *)
Theorem C10_hub : forall e m, good m ->
  hub e (wire m) = if str_eqb (sourceEntity m) e && str_eqb (sourceService m) (lit "1") then [] else [wire m].
Proof.
  intros e m G. unfold hub. change (to_string 1) with (lit "1").
  destruct (receive_wire e (lit "1") m G) as (R1 & R2).
  destruct (str_eqb (sourceEntity m) e) eqn:E1; [destruct (str_eqb (sourceService m) (lit "1")) eqn:E2|]; cbn [andb].
  - apply str_eqb_eq in E1. apply str_eqb_eq in E2. rewrite R2 by auto. reflexivity.
  - destruct R1 as (x & -> & _ & X); [intros (_ & Q); rewrite Q, str_eqb_refl in E2; discriminate|]. cbn. rewrite X. reflexivity.
  - destruct R1 as (x & -> & _ & X); [intros (Q & _); rewrite Q, str_eqb_refl in E1; discriminate|]. cbn. rewrite X. reflexivity.
Qed.
Print Assumptions C10_hub.

(** A history that meets the conditions. *)
Definition msg (a src : string) : message :=
  {| address := lit a; contentType := lit "lmcp"; descriptor := lit a; group := []; sourceEntity := lit "100";
     sourceService := lit src; payload := lit "data" |}.

Lemma msg_good a src : free_of "$" (lit a) -> clean (lit a) -> clean (lit src) -> lit a <> [] -> lit src <> [] -> good (msg a src).
Proof.
  intros. unfold good, msg. cbn -[lit]. repeat split; try assumption; try discriminate;
    try (intros C; vm_compute in C; repeat (destruct C as [C|C]; [discriminate|]); exact C); apply H0 || apply H1.
Qed.

Definition case_history : list event :=
  [ Add (lit "afrl.Air"); Init; Start; Bus (wire (msg "afrl.AirState" "12")); Bus (wire (msg "afrl.Ground" "12"));
    Bus (wire (msg "afrl.AirConfig" "11")); Remove (lit "afrl.Air"); Bus (wire (msg "afrl.AirState" "12"));
    Add (lit "afrl"); Bus (wire (msg "afrl.AirState" "11")); Bus (wire (msg "afrl.Ground" "13")) ].

Example case_delivery :
  no_late_clear false false case_history /\
  (forall a, In (Add a) case_history -> free_of "$" a) /\
  map aam_address (got (lit "100") (lit "11") (case_history ++ repeat Get 11)) = [lit "afrl.AirState"; lit "afrl.Ground"].
Proof.
  split; [cbn; tauto|]. split; [|vm_compute; reflexivity].
  intros a H. cbn in H. repeat (destruct H as [H|H]; [try discriminate; injection H as <-; intros C; vm_compute in C;
    repeat (destruct C as [C|C]; [discriminate|]); exact C|]). destruct H.
Qed.

(** C10: a subscription made between the creation of the socket and the start of the thread, as
    LmcpObjectNetworkSubscribePushBridge::initialize does, has no effect. *)
Theorem C10_initialize_refuted :
  ~ (forall e s evs1 evs2 a m, good m -> begins_with a (address m) -> ~ (sourceEntity m = e /\ sourceService m = s) ->
       no_late_clear false false (evs1 ++ Add a :: evs2) ->
       ~ In (Remove a) evs2 -> ~ In RemoveAll evs2 -> In Start evs2 ->
       exists x n, In x (got e s ((evs1 ++ Add a :: evs2) ++ [Bus (wire m)] ++ repeat Get n)) /\ carries x m).
Proof.
  intros H.
  destruct (H (lit "100") (lit "11") [Init] [Start] (lit "afrl") (msg "afrl.AirState" "12")) as (x & n & I & _).
  - apply msg_good; try discriminate; try (split; intros C; vm_compute in C; repeat (destruct C as [C|C]; [discriminate|]); exact C);
      intros C; vm_compute in C; repeat (destruct C as [C|C]; [discriminate|]); exact C.
  - exists (lit ".AirState"). reflexivity.
  - intros (_ & C). discriminate.
  - cbn. tauto.
  - intros [C|[]]; discriminate.
  - intros [C|[]]; discriminate.
  - left. reflexivity.
  - unfold got in I. rewrite app_assoc, run_from in I. cbn [snd] in I. rewrite sent_app, received_app in I.
    apply in_app_or in I. destruct I as [I|I]; [vm_compute in I; exact I|].
    set (c := fst (run step _ _)) in I.
    assert (C : created c = true /\ hung c = false /\ recvd c = [] /\ queue c = []) by (vm_compute; auto).
    clearbody c. destruct C as (C1 & C2 & C3 & C4).
    pose proof (gets_empty n c C1 C2 C3) as G. rewrite C4 in G. cbn in G. apply app_eq_nil in G. destruct G as (G & _).
    rewrite G in I. destruct I.
Qed.
Print Assumptions C10_initialize_refuted.

(** C10: clearing all subscriptions of a started client never returns, if there are any. *)
Theorem C10_clear_refuted : exists evs,
  no_late_clear false false evs /\ hung (fst (run step (init (lit "100") (lit "11")) (evs ++ [RemoveAll]))) = true.
Proof. exists [Add (lit "a"); Init; Start]. split; [cbn; tauto|]. vm_compute. reflexivity. Qed.
Print Assumptions C10_clear_refuted.

(** C12 *)

Lemma digit_not_dot n c : In c (to_string n) -> is_digit c = true.
Proof. intros H. pose proof (to_string_digits n) as D. rewrite forallb_forall in D. apply D, H. Qed.

Lemma prefix_sep d a b x y : ~ In d a -> ~ In d b -> begins_with (a ++ d :: x) (b ++ d :: y) <-> a = b /\ begins_with x y.
Proof.
  revert b; induction a as [|z a IH]; intros b A B.
  - destruct b as [|w b]; cbn.
    + split; [|intros (_ & r & ->); exists r; reflexivity]. intros (r & H). injection H as ->. split; [reflexivity|]. exists r. reflexivity.
    + split; [|intros (C & _); discriminate]. intros (r & H). injection H as -> _. exfalso. apply B. left. reflexivity.
  - destruct b as [|w b]; cbn.
    + split; [|intros (C & _); discriminate]. intros (r & H). injection H as -> _. exfalso. apply A. left. reflexivity.
    + assert (K := IH b (fun C => A (or_intror C)) (fun C => B (or_intror C))). split.
      * intros (r & H). injection H as -> H. destruct (proj1 K) as (-> & Q); [exists r; exact H|]. auto.
      * intros (E & Q). injection E as -> ->. destruct (proj2 K) as (r & R); [auto|]. exists r. rewrite R. reflexivity.
Qed.

Lemma no_dot e : ~ In "."%char (to_string e).
Proof. intros H. apply digit_not_dot in H. vm_compute in H. discriminate. Qed.

Lemma prefix_lit (l a b : str) : begins_with (l ++ a) (l ++ b) <-> begins_with a b.
Proof.
  split; intros (r & H); exists r.
  - rewrite <- app_assoc in H. apply app_inv_head in H. exact H.
  - rewrite H, app_assoc. reflexivity.
Qed.

(** C12: the subscription of service m of entity e to its own address matches a message to service n
    of entity e' exactly when the entities are the same and the number m is a prefix of the number n. *)
Theorem C12_unicast : forall e e' m n,
  begins_with (getNetworkClientUnicastAddress e m) (getNetworkClientUnicastAddress e' n) <->
  e = e' /\ begins_with (to_string m) (to_string n).
Proof.
  intros e e' m n. unfold getNetworkClientUnicastAddress, getEntityCastAddress. rewrite <- !app_assoc, prefix_lit.
  change (lit ".sid" ++ to_string m) with ("."%char :: lit "sid" ++ to_string m).
  change (lit ".sid" ++ to_string n) with ("."%char :: lit "sid" ++ to_string n).
  rewrite (prefix_sep "."%char) by apply no_dot. rewrite prefix_lit. split; intros (E & Q); (split; [|exact Q]).
  - apply to_string_inj, E.
  - rewrite E. reflexivity.
Qed.
Print Assumptions C12_unicast.

(** C12: of the subscriptions every client makes, only the one to its own address can match a
    message to one service, and with numbers of the same length only the addressed one matches. *)
Theorem C12_only : forall e e' m n,
  (exists p, In p (own_subscriptions e m) /\ begins_with p (getNetworkClientUnicastAddress e' n)) ->
  e = e' /\ begins_with (to_string m) (to_string n) /\
  (length (to_string m) = length (to_string n) -> m = n).
Proof.
  intros e e' m n (p & [<-|[<-|[<-|[]]]] & B).
  - apply C12_unicast in B. destruct B as (-> & Q). split; [reflexivity|]. split; [exact Q|]. intros L. destruct Q as (r & R).
    rewrite R, app_length in L. destruct r; [|cbn in L; lia]. rewrite app_nil_r in R. apply to_string_inj. auto.
  - exfalso. unfold getEntityServicesCastAllAddress, getNetworkClientUnicastAddress, getEntityCastAddress in B.
    rewrite <- !app_assoc, prefix_lit in B.
    change (lit ".sidall") with ("."%char :: lit "sid" ++ lit "all") in B.
    change (lit ".sid" ++ to_string n) with ("."%char :: lit "sid" ++ to_string n) in B.
    rewrite (prefix_sep "."%char) in B by apply no_dot. destruct B as (_ & B). rewrite prefix_lit in B. destruct B as (r & B).
    assert (D : is_digit "a"%char = true) by (apply (digit_not_dot n); rewrite B; left; reflexivity).
    vm_compute in D. discriminate.
  - exfalso. destruct B as (r & B). unfold getNetworkClientUnicastAddress, getEntityCastAddress in B. discriminate.
Qed.
Print Assumptions C12_only.

(** C12: the first service of an entity, 10, also receives the messages to service 100. *)
Theorem C12_unicast_refuted :
  ~ (forall e m n, begins_with (getNetworkClientUnicastAddress e m) (getNetworkClientUnicastAddress e n) -> m = n).
Proof.
  intros H. assert (C : 10%N = 100%N); [|discriminate]. apply (H 1%N). exists (lit "0"). vm_compute. reflexivity.
Qed.
Print Assumptions C12_unicast_refuted.

(** C12: a message to all services of an entity matches a subscription of every one of its services,
    and of the services of no other entity. *)
Theorem C12_all : forall e e' m,
  (exists p, In p (own_subscriptions e m) /\ begins_with p (getEntityServicesCastAllAddress e')) <-> e = e'.
Proof.
  intros e e' m. split.
  - intros (p & [<-|[<-|[<-|[]]]] & B).
    + exfalso. unfold getEntityServicesCastAllAddress, getNetworkClientUnicastAddress, getEntityCastAddress in B.
      rewrite <- !app_assoc, prefix_lit in B.
      change (lit ".sidall") with ("."%char :: lit "sid" ++ lit "all") in B.
      change (lit ".sid" ++ to_string m) with ("."%char :: lit "sid" ++ to_string m) in B.
      rewrite (prefix_sep "."%char) in B by apply no_dot. destruct B as (_ & B). rewrite prefix_lit in B. destruct B as (r & B).
      destruct (to_string m) as [|c t] eqn:T; [exact (to_string_nonempty m T)|]. cbn in B. injection B as <- _.
      assert (D : is_digit "a"%char = true) by (apply (digit_not_dot m); rewrite T; left; reflexivity).
      vm_compute in D. discriminate.
    + unfold getEntityServicesCastAllAddress, getEntityCastAddress in B. rewrite <- !app_assoc, prefix_lit in B.
      change (lit ".sidall") with ("."%char :: lit "sidall") in B.
      rewrite (prefix_sep "."%char) in B by apply no_dot. destruct B as (B & _). apply to_string_inj, B.
    + exfalso. destruct B as (r & B). unfold getEntityServicesCastAllAddress, getEntityCastAddress in B. discriminate.
  - intros <-. exists (getEntityServicesCastAllAddress e). split; [right; left; reflexivity|]. exists []. rewrite app_nil_r. reflexivity.
Qed.
Print Assumptions C12_all.

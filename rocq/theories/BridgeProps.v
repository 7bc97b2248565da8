(** Property C14: messages through bridges. *)
From Coq Require Import List ZArith Bool Lia.
From Verif Require Import BridgeModel BridgeSpec.
Import ListNotations.
Open Scope list_scope.
Open Scope Z_scope.

Lemma run_snoc evs ev : run (evs ++ [ev]) = step (run evs) ev.
Proof. unfold run. rewrite fold_left_app. reflexivity. Qed.

Lemma addr_eqb_refl a : addr_eqb a a = true.
Proof. destruct a; cbn; rewrite ?Z.eqb_refl; reflexivity. Qed.

Lemma checking_export b m m' : checking b -> export b m = Some m' -> entity m = b_entity b /\ m' = m.
Proof.
  intros (_ & K1 & K2) H. unfold export in H. destruct (own_message b m); [discriminate|].
  destruct (b_kind b); try contradiction; destruct (entity m =? b_entity b) eqn:E; try discriminate;
    destruct (own_address b (to m)); try discriminate; injection H as <-; apply Z.eqb_eq in E; auto.
Qed.

Lemma checking_accept b m m' : checking b -> accept b m = Some m' -> m' = m /\ (b_kind b = Zyre -> entity m <> b_entity b).
Proof.
  intros (K & K1 & K2) H. unfold accept in H. rewrite K in H.
  destruct (b_kind b); try contradiction.
  - destruct (own_message b m || _); [discriminate|]. injection H as <-. split; [reflexivity|discriminate].
  - destruct (own_message b m || _); [discriminate|]. injection H as <-. split; [reflexivity|discriminate].
  - destruct (own_address b (to m)); [discriminate|]. injection H as <-. split; [reflexivity|discriminate].
  - destruct (entity m =? b_entity b) eqn:E; [discriminate|]. destruct (own_address b (to m)); [discriminate|].
    injection H as <-. split; [reflexivity|]. intros _. apply Z.eqb_neq, E.
Qed.

(** With bridges that check the source and do not relabel, a message that came in through a bridge
    keeps the source it had, has come through only one bridge, and no bridge of the entity exports it. *)
Theorem C14_once : forall evs c, history checking not_forged evs -> In c (run evs) ->
  (length (via c) <= 1)%nat /\
  (via c <> [] -> forall b, checking b -> b_entity b = on c -> export b (what c) = None).
Proof.
  assert (K : forall evs, history checking not_forged evs -> forall c, In c (run evs) ->
    (via c = [] /\ entity (what c) = on c) \/ (length (via c) = 1%nat /\ entity (what c) <> on c)).
  { intros evs H. induction H as [|evs e m H IH E|evs b m H IH B F|evs c0 b b' H IH I B B' D]; intros c; [intros []| | |];
      rewrite run_snoc; cbn [step].
    - intros [<-|X]; [left; cbn; auto|apply IH, X].
    - destruct (accept b m) as [m'|] eqn:A; [|apply IH]. intros [<-|X]; [|apply IH, X].
      right. cbn. split; [reflexivity|]. destruct (checking_accept b m m' B A) as (-> & Z).
      destruct F as [F|F]; [apply Z, F|exact F].
    - destruct (on c0 =? b_entity b) eqn:O; [|apply IH].
      destruct (export b (what c0)) as [m|] eqn:E; [|apply IH].
      destruct (accept b' m) as [m'|] eqn:A; [|apply IH]. intros [<-|X]; [|apply IH, X].
      apply Z.eqb_eq in O. destruct (checking_export b _ _ B E) as (E1 & ->).
      destruct (checking_accept b' _ _ B' A) as (-> & _).
      destruct (IH c0 I) as [(V & _)|(_ & N)]; [|congruence].
      right. cbn. rewrite V. split; [reflexivity|]. congruence. }
  intros evs c H I. destruct (K evs H c I) as [(V & E)|(V & N)]; (split; [rewrite V; cbn; auto|]).
  - intros C. contradiction.
  - intros _ b B O. destruct (export b (what c)) as [m|] eqn:X; [|reflexivity].
    destruct (checking_export b _ _ B X) as (E & _). congruence.
Qed.
Print Assumptions C14_once.

(** Whatever came through a checking bridge is the message as it was sent: same source, address and content. *)
Theorem C14_unchanged : forall evs c, history checking not_forged evs -> In c (run evs) ->
  exists ev, In ev evs /\
    match ev with Publish _ m => m = what c | Inject _ m => m = what c | Cross _ _ _ => False end.
Proof.
  intros evs c H. revert c. induction H as [|evs e m H IH E|evs b m H IH B F|evs c0 b b' H IH I B B' D]; intros c; [intros []| | |];
    rewrite run_snoc; cbn [step];
    (assert (W : forall evs' c, (exists ev, In ev evs /\ match ev with Publish _ m => m = what c | Inject _ m => m = what c | Cross _ _ _ => False end) ->
      exists ev, In ev (evs ++ evs') /\ match ev with Publish _ m => m = what c | Inject _ m => m = what c | Cross _ _ _ => False end)
      by (intros evs' c1 (ev & I1 & I2); exists ev; split; [apply in_or_app; auto|exact I2])).
  - intros [<-|X]; [|apply W, IH, X]. exists (Publish e m). split; [apply in_or_app; right; left; reflexivity|reflexivity].
  - destruct (accept b m) as [m'|] eqn:A; [|intros; apply W, IH; assumption]. intros [<-|X]; [|apply W, IH, X].
    destruct (checking_accept b m m' B A) as (-> & _). exists (Inject b m). split; [apply in_or_app; right; left; reflexivity|reflexivity].
  - destruct (on c0 =? b_entity b) eqn:O; [|intros; apply W, IH; assumption].
    destruct (export b (what c0)) as [m|] eqn:E; [|intros; apply W, IH; assumption].
    destruct (accept b' m) as [m'|] eqn:A; [|intros; apply W, IH; assumption]. intros [<-|X]; [|apply W, IH, X].
    destruct (checking_export b _ _ B E) as (_ & ->). destruct (checking_accept b' _ _ B' A) as (-> & _). apply W. cbn [what].
    apply (IH c0 I).
Qed.
Print Assumptions C14_unchanged.

(** A message does get across: a client's message that is not for the bridge itself is exported by every
    bridge of the entity, but the one it claims to come from, and a bridge of another entity takes it. *)
Theorem C14_crosses : forall b b' m, checking b -> checking b' -> b_entity b <> b_entity b' ->
  entity m = b_entity b -> service m <> b_id b ->
  to m <> Unicast (b_entity b) (b_id b) -> to m <> Unicast (b_entity b') (b_id b') ->
  export b m = Some m /\ accept b' m = Some m.
Proof.
  intros b b' m (K & K1 & K2) (K' & K1' & K2') D E S N N'.
  assert (O1 : own_message b m = false) by (unfold own_message; apply andb_false_iff; right; apply Z.eqb_neq; exact S).
  assert (OA : forall b0, to m <> Unicast (b_entity b0) (b_id b0) -> own_address b0 (to m) = false).
  { intros b0 X. unfold own_address. destruct (to m) as [e s|k]; cbn; [|reflexivity].
    destruct (e =? b_entity b0) eqn:E1; [destruct (s =? b_id b0) eqn:E2|]; cbn; try reflexivity.
    apply Z.eqb_eq in E1. apply Z.eqb_eq in E2. subst. contradiction. }
  assert (O2 : own_message b' m = false) by (unfold own_message; apply andb_false_iff; left; apply Z.eqb_neq; congruence).
  assert (E' : (entity m =? b_entity b') = false) by (apply Z.eqb_neq; congruence).
  split.
  - unfold export. rewrite O1, (OA b N), E, Z.eqb_refl. destruct (b_kind b); try contradiction; reflexivity.
  - unfold accept. rewrite K', O2, (OA b' N'), E'. destruct (b_kind b'); try contradiction; reflexivity.
Qed.
Print Assumptions C14_crosses.

(** A TCP bridge delivers a message for an address that has an alias to the alias, and every other message to the
    address it has; the content stays.  Bridges of the other kinds, but Impact, never change the address. *)
Theorem C14_alias : forall b m, b_kind b <> Impact ->
  (forall m', accept b m = Some m' -> b_kind b <> Tcp -> to m' = to m /\ body m' = body m) /\
  (b_kind b = Tcp -> to m <> Unicast (b_entity b) (b_id b) -> NoDup (map fst (b_alias b)) ->
   exists m', accept b m = Some m' /\ body m' = body m /\
     (b_self b = false -> entity m' = entity m /\ service m' = service m) /\
     (forall a, In (to m, a) (b_alias b) -> to m' = a) /\
     ((forall a, ~ In (to m, a) (b_alias b)) -> to m' = to m)).
Proof.
  intros b m NI. split.
  - intros m' A K. unfold accept in A.
    destruct (b_kind b); try congruence;
      repeat match type of A with context [if ?c then _ else _] => destruct c; try discriminate end;
      injection A as <-; split; reflexivity.
  - intros K N U.
    assert (Q : forall x y, addr_eqb x y = true -> x = y).
    { intros [e s|k] [e' s'|k']; cbn; try discriminate.
      - intros H. apply andb_prop in H. destruct H as (H1 & H2). apply Z.eqb_eq in H1, H2. congruence.
      - intros H. apply Z.eqb_eq in H. congruence. }
    assert (O : own_address b (to m) = false).
    { unfold own_address. destruct (addr_eqb (to m) (Unicast (b_entity b) (b_id b))) eqn:E; [|reflexivity].
      apply Q in E. contradiction. }
    assert (L : (forall a, In (to m, a) (b_alias b) -> alias b (to m) = a) /\
                ((forall a, ~ In (to m, a) (b_alias b)) -> alias b (to m) = to m)).
    { unfold alias. induction (b_alias b) as [|(x, y) l IH]; [split; [intros a []|reflexivity]|].
      cbn [map fst] in U. inversion U as [|? ? NX U']; subst. destruct (IH U') as (IH1 & IH2). cbn [find fst].
      destruct (addr_eqb x (to m)) eqn:E.
      - apply Q in E. subst x. cbn [snd]. split.
        + intros a [H|H]; [congruence|]. exfalso. apply NX. apply (in_map fst) in H. exact H.
        + intros H. exfalso. apply (H y). left. reflexivity.
      - split.
        + intros a [H|H]; [|apply IH1, H]. injection H as -> ->. rewrite addr_eqb_refl in E. discriminate.
        + intros H. apply IH2. intros a I. apply (H a). right. exact I. }
    unfold accept. rewrite K, O. eexists. split; [reflexivity|]. cbn [to entity service body].
    destruct (b_self b); cbn [resource to entity service body]; (split; [reflexivity|]); (split; [|exact L]);
      intros S; [discriminate|split; reflexivity].
Qed.
Print Assumptions C14_alias.

(** The address 7 has the alias 8, the address 9 has none. *)
Example case_alias :
  let b := {| b_entity := 1; b_id := 10; b_kind := Tcp; b_self := false; b_alias := [(Topic 7, Topic 8)]; b_external := 1 |} in
  let m k := {| to := Topic k; entity := 2; service := 3; body := 42 |} in
  option_map to (accept b (m 7)) = Some (Topic 8) /\ option_map to (accept b (m 9)) = Some (Topic 9).
Proof. split; reflexivity. Qed.

Definition mk (e i : Z) (k : kind) (s : bool) : bridge :=
  {| b_entity := e; b_id := i; b_kind := k; b_self := s; b_alias := []; b_external := e |}.
Definition hello (e s : Z) : msg := {| to := Topic 7; entity := e; service := s; body := 42 |}.

(** Entities 1, 2 and 3 in a ring: what entity 1 sends reaches both others once. *)
Definition ring : list event :=
  let c := {| on := 1; what := hello 1 20; via := [] |} in
  let c2 := {| on := 2; what := hello 1 20; via := [mk 2 10 PublishPull false] |} in
  [ Publish 1 (hello 1 20); Cross c (mk 1 10 SubscribePush false) (mk 2 10 PublishPull false);
    Cross c (mk 1 11 Zyre false) (mk 3 10 Zyre false);
    Cross c2 (mk 2 11 SubscribePush false) (mk 3 11 PublishPull false) ].

Ltac hist := repeat first
  [ exact (h_nil _ _)
  | apply (h_cross _ _ [_; _; _]) | apply (h_cross _ _ [_; _]) | apply (h_cross _ _ [_])
  | apply (h_inject _ _ []) | apply (h_publish _ _ []) ].

Example case_once : history checking not_forged ring /\ map (fun c => (on c, length (via c))) (run ring) = [(3, 1%nat); (2, 1%nat); (1, 0%nat)].
Proof.
  split; [|vm_compute; reflexivity].
  unfold ring. hist; try reflexivity; try (repeat split; discriminate); try discriminate; vm_compute; auto.
Qed.

(** With bridges that relabel what comes in, each entity having only one bridge, nothing comes through
    more than one bridge, whatever systems outside send. *)
Definition relabelling (b : bridge) : Prop := b_self b = true.
Theorem C14_single_bridge : forall ids evs c,
  history (fun b => relabelling b /\ b_id b = ids (b_entity b)) anything evs -> In c (run evs) ->
  (length (via c) <= 1)%nat /\
  (via c <> [] -> forall b, b_id b = ids (b_entity b) -> b_entity b = on c -> export b (what c) = None).
Proof.
  intros ids.
  assert (EX : forall b m, own_message b m = true -> export b m = None) by (intros b m H; unfold export; rewrite H; reflexivity).
  assert (AC : forall b m m', relabelling b -> accept b m = Some m' -> entity m' = b_entity b /\ service m' = b_id b).
  { intros b m m' R H. unfold accept in H. rewrite R in H. unfold resource in H.
    destruct (b_kind b).
    - destruct (own_message b m || _); [discriminate|]. injection H as <-. auto.
    - destruct (own_message b m || _); [discriminate|]. injection H as <-. auto.
    - destruct (own_address b (to m)); [discriminate|]. injection H as <-. auto.
    - destruct (own_address b (to m)); [discriminate|]. injection H as <-. auto.
    - destruct (entity m =? b_entity b); [discriminate|]. destruct (own_address b (to m)); [discriminate|]. injection H as <-. auto.
    - injection H as <-. auto. }
  assert (K : forall evs, history (fun b => relabelling b /\ b_id b = ids (b_entity b)) anything evs -> forall c, In c (run evs) ->
    via c = [] \/ (length (via c) = 1%nat /\ entity (what c) = on c /\ service (what c) = ids (on c))).
  { intros evs H. induction H as [|evs e m H IH E|evs b m H IH B F|evs c0 b b' H IH I B B' D]; intros c; [intros []| | |];
      rewrite run_snoc; cbn [step].
    - intros [<-|X]; [left; reflexivity|apply IH, X].
    - destruct (accept b m) as [m'|] eqn:A; [|apply IH]. intros [<-|X]; [|apply IH, X].
      right. cbn. split; [reflexivity|]. destruct B as (B1 & B2). destruct (AC b m m' B1 A) as (A1 & A2). split; congruence.
    - destruct (on c0 =? b_entity b) eqn:O; [|apply IH].
      destruct (export b (what c0)) as [m|] eqn:E; [|apply IH].
      destruct (accept b' m) as [m'|] eqn:A; [|apply IH]. intros [<-|X]; [|apply IH, X].
      apply Z.eqb_eq in O. destruct B as (B1 & B2). destruct B' as (B1' & B2'). destruct (AC b' m m' B1' A) as (A1 & A2).
      right. cbn. destruct (IH c0 I) as [->|(_ & N1 & N2)]; [split; [reflexivity|split; congruence]|].
      rewrite EX in E; [discriminate|]. unfold own_message. rewrite N1, N2, O, B2, !Z.eqb_refl. reflexivity. }
  intros evs c H I. destruct (K evs H c I) as [V|(V & N1 & N2)]; (split; [rewrite V; cbn; auto|]).
  - intros C. contradiction.
  - intros _ b B O. apply EX. unfold own_message. rewrite N1, N2, B, O, !Z.eqb_refl. reflexivity.
Qed.
Print Assumptions C14_single_bridge.

(** Two entities joined by TCP bridges as set up by default. *)
Example case_single :
  let c := {| on := 1; what := hello 1 20; via := [] |} in
  let evs := [Publish 1 (hello 1 20); Cross c (mk 1 10 Tcp true) (mk 2 11 Tcp true); Inject (mk 2 11 Tcp true) (hello 1 10)] in
  history (fun b => relabelling b /\ b_id b = (if b_entity b =? 1 then 10 else 11)) anything evs /\
  map (fun c => (on c, service (what c), length (via c))) (run evs) = [(2, 11, 1%nat); (2, 11, 1%nat); (1, 20, 0%nat)].
Proof.
  cbn zeta. split; [|vm_compute; reflexivity].
  apply (h_inject _ _ [_; _]); [|split; reflexivity|exact I].
  hist; try reflexivity; try (split; reflexivity); try discriminate; vm_compute; auto.
Qed.

(** A bridge that relabels never sends back what it took, in any network and whatever the other bridges do. *)
Theorem C14_no_echo : forall B F evs c b rest, history B F evs -> In c (run evs) ->
  via c = b :: rest -> relabelling b -> export b (what c) = None.
Proof.
  intros B F evs c b rest H. revert c. induction H as [|evs e m H IH E|evs b0 m H IH B0 F0|evs c0 b0 b' H IH I B0 B' D]; intros c; [intros []| | |];
    rewrite run_snoc; cbn [step].
  - intros [<-|X]; [discriminate|apply IH, X].
  - destruct (accept b0 m) as [m'|] eqn:A; [|apply IH]. intros [<-|X]; [|apply IH, X]. cbn [via what]. intros [= -> <-] R.
    unfold export. replace (own_message b m') with true; [reflexivity|]. symmetry. unfold own_message.
    unfold accept in A. rewrite R in A. unfold resource in A.
    destruct (b_kind b); repeat match type of A with (if ?x then _ else _) = _ => destruct x; try discriminate end;
      injection A as <-; cbn; rewrite !Z.eqb_refl; reflexivity.
  - destruct (on c0 =? b_entity b0) eqn:O; [|apply IH].
    destruct (export b0 (what c0)) as [m|] eqn:E; [|apply IH].
    destruct (accept b' m) as [m'|] eqn:A; [|apply IH]. intros [<-|X]; [|apply IH, X]. cbn [via what]. intros [= -> <-] R.
    unfold export. replace (own_message b m') with true; [reflexivity|]. symmetry. unfold own_message.
    unfold accept in A. rewrite R in A. unfold resource in A.
    destruct (b_kind b); repeat match type of A with (if ?x then _ else _) = _ => destruct x; try discriminate end;
      injection A as <-; cbn; rewrite !Z.eqb_refl; reflexivity.
Qed.
Print Assumptions C14_no_echo.

(** ** What fails *)

(** A message goes back and forth for ever: two entities joined by two serial links, set up as by default. *)
Fixpoint rounds (n : nat) : list bridge :=
  match n with
  | O => [mk 2 10 Serial true]
  | S n => mk 2 10 Serial true :: mk 1 11 Serial true :: rounds n
  end.
Theorem C14_default_refuted : forall n, exists evs c,
  history as_default not_forged evs /\ In c (run evs) /\ (n <= length (via c))%nat.
Proof.
  assert (K : forall n, exists evs, history as_default not_forged evs /\
     In {| on := 2; what := {| to := Topic 7; entity := 2; service := 10; body := 42 |}; via := rounds n |} (run evs)).
  { induction n as [|n (evs & H & I)].
    - exists ([Publish 1 (hello 1 20)] ++ [Cross {| on := 1; what := hello 1 20; via := [] |} (mk 1 10 Serial true) (mk 2 10 Serial true)]).
      split; [|left; reflexivity]. apply h_cross; try reflexivity; try discriminate; [|left; reflexivity].
      apply (h_publish _ _ []); [constructor|reflexivity].
    - set (c := {| on := 2; what := _; via := rounds n |}) in I.
      set (d := {| on := 1; what := {| to := Topic 7; entity := 1; service := 11; body := 42 |}; via := mk 1 11 Serial true :: rounds n |}).
      exists ((evs ++ [Cross c (mk 2 11 Serial true) (mk 1 11 Serial true)]) ++ [Cross d (mk 1 10 Serial true) (mk 2 10 Serial true)]).
      assert (J : In d (run (evs ++ [Cross c (mk 2 11 Serial true) (mk 1 11 Serial true)]))) by (rewrite run_snoc; left; reflexivity).
      split.
      + apply h_cross; try reflexivity; try discriminate; [|exact J]. apply h_cross; try reflexivity; try discriminate; assumption.
      + rewrite run_snoc. left. reflexivity. }
  intros n. destruct (K n) as (evs & H & I). eexists evs, _. split; [exact H|]. split; [exact I|].
  cbn [via]. clear. induction n as [|n IH]; cbn; lia.
Qed.
Print Assumptions C14_default_refuted.

(** TCP bridges that do not relabel send a message back and forth for ever on one link. *)
Fixpoint pingpong (n : nat) : list bridge :=
  match n with O => [] | S n => mk 1 10 Tcp false :: mk 2 10 Tcp false :: pingpong n end.
Theorem C14_tcp_refuted : forall n, exists evs c,
  history (fun b => b_kind b = Tcp /\ b_self b = false /\ b_id b = 10) not_forged evs /\ In c (run evs) /\ (n <= length (via c))%nat.
Proof.
  assert (K : forall n, exists evs, history (fun b => b_kind b = Tcp /\ b_self b = false /\ b_id b = 10) not_forged evs /\
     In {| on := 1; what := hello 1 20; via := pingpong n |} (run evs)).
  { induction n as [|n (evs & H & I)].
    - exists ([] ++ [Publish 1 (hello 1 20)]). split; [apply h_publish; [constructor|reflexivity]|left; reflexivity].
    - set (c := {| on := 1; what := _; via := pingpong n |}) in I.
      set (d := {| on := 2; what := hello 1 20; via := mk 2 10 Tcp false :: pingpong n |}).
      exists ((evs ++ [Cross c (mk 1 10 Tcp false) (mk 2 10 Tcp false)]) ++ [Cross d (mk 2 10 Tcp false) (mk 1 10 Tcp false)]).
      assert (J : In d (run (evs ++ [Cross c (mk 1 10 Tcp false) (mk 2 10 Tcp false)]))) by (rewrite run_snoc; left; reflexivity).
      split.
      + apply h_cross; try discriminate; try (repeat split; reflexivity); [|exact J]. apply h_cross; try discriminate; try (repeat split; reflexivity); assumption.
      + rewrite run_snoc. left. reflexivity. }
  intros n. destruct (K n) as (evs & H & I). eexists evs, _. split; [exact H|]. split; [exact I|].
  cbn [via]. clear. induction n as [|n IH]; cbn; lia.
Qed.
Print Assumptions C14_tcp_refuted.

(** A system outside that claims to be the entity gets its message exported again. *)
Theorem C14_forged_refuted : exists evs c,
  history checking anything evs /\ In c (run evs) /\ length (via c) = 2%nat.
Proof.
  set (c := {| on := 1; what := hello 1 20; via := [mk 1 10 Serial false] |}).
  exists ([Inject (mk 1 10 Serial false) (hello 1 20)] ++ [Cross c (mk 1 11 Serial false) (mk 2 10 Serial false)]).
  eexists. split; [|split; [left; reflexivity|reflexivity]].
  apply h_cross; try discriminate; try (repeat split; discriminate); [|left; reflexivity].
  apply (h_inject _ _ []); [constructor|repeat split; discriminate|exact I].
Qed.
Print Assumptions C14_forged_refuted.

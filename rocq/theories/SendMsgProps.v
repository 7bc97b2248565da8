(** Property C40: scheduled messages. *)
From Coq Require Import List ZArith Bool Lia.
From Verif Require Import SendMsgModel SendMsgSpec.
Import ListNotations.
Open Scope list_scope.
Open Scope Z_scope.

(** What a turn does with one message. *)
Definition one (t : Z) (m : message) : option message * bool :=
  if sendTime m <? t then
    if isUseSendTime m then (None, true)
    else if toSend (advance m) <=? timesSent (advance m) then (None, true) else (Some (advance m), true)
  else (Some m, false).

Definition stays (t : Z) (ms : list message) : list message :=
  flat_map (fun m => match fst (one t m) with Some m' => [m'] | None => [] end) ms.

Definition goes (t : Z) (ms : list message) : list nat :=
  flat_map (fun m => if snd (one t m) then [key m] else []) ms.

Lemma pass_spec t : forall rest kept,
  pass t kept rest =
  (kept ++ stays t rest, goes t rest,
   match rest with [] => false | _ => match kept ++ stays t rest with [] => true | _ => false end end).
Proof.
  induction rest as [|m rest IH]; intros kept; cbn [pass stays goes flat_map]; [rewrite app_nil_r; reflexivity|].
  assert (E : (if isUseSendTime m
     then if sendTime m <? t then (kept, [key m]) else (kept ++ [m], [])
     else if sendTime m <? t
      then (if toSend (advance m) <=? timesSent (advance m) then kept else kept ++ [advance m], [key m])
      else (kept ++ [m], [])) =
    (kept ++ match fst (one t m) with Some m' => [m'] | None => [] end,
     if snd (one t m) then [key m] else [])).
  { unfold one. destruct (isUseSendTime m), (sendTime m <? t); [..|
      destruct (toSend (advance m) <=? timesSent (advance m))|]; cbn [fst snd]; rewrite ?app_nil_r; reflexivity. }
  cbv zeta. rewrite E. clear E.
  set (x := match fst (one t m) with Some m' => [m'] | None => [] end).
  fold (stays t rest). fold (goes t rest).
  destruct ((kept ++ x) ++ rest) as [|y l] eqn:L.
  - apply app_eq_nil in L. destruct L as [L1 ->]. apply app_eq_nil in L1. destruct L1 as [-> L2].
    rewrite L2. cbn. rewrite app_nil_r. reflexivity.
  - rewrite IH. rewrite <- !app_assoc in *. f_equal.
    destruct rest; [|reflexivity].
    cbn. rewrite app_nil_r. destruct (kept ++ x) eqn:K; [|reflexivity].
    rewrite app_assoc, K in L. discriminate.
Qed.

(** One message on its own. *)
Fixpoint solo (times : list Z) (m : message) : option message * list Z :=
  match times with
  | [] => (Some m, [])
  | t :: times' =>
      match one t m with
      | (None, s) => (None, if s then [t] else [])
      | (Some m', s) => let (r, l) := solo times' m' in (r, (if s then [t] else []) ++ l)
      end
  end.

Lemma one_key t m m' : fst (one t m) = Some m' -> key m' = key m.
Proof.
  unfold one. destruct (sendTime m <? t); [|cbn; intros [= <-]; reflexivity].
  destruct (isUseSendTime m); [discriminate|].
  destruct (toSend (advance m) <=? timesSent (advance m)); [discriminate|]. cbn. intros [= <-]. reflexivity.
Qed.

Definition solos (times : list Z) (ms : list message) : list message :=
  flat_map (fun m => match fst (solo times m) with Some m' => [m'] | None => [] end) ms.

Lemma stays_solos t times ms : solos times (stays t ms) = solos (t :: times) ms.
Proof.
  induction ms as [|m ms IH]; [reflexivity|]. unfold solos, stays in *. cbn [flat_map].
  rewrite flat_map_app, IH. f_equal. cbn [solo]. destruct (one t m) as [[m'|] s]; cbn; [|reflexivity].
  rewrite app_nil_r. destruct (solo times m'). reflexivity.
Qed.

(** What is left and sent by a list of messages with different keys is what each does alone. *)
Definition alone (times : list Z) (ms : list message) (i : nat) : list Z :=
  flat_map (fun m => if Nat.eqb (key m) i then snd (solo times m) else []) ms.

Lemma sends_app i a b : sends_of i (a ++ b) = sends_of i a ++ sends_of i b.
Proof. unfold sends_of. rewrite filter_app, map_app. reflexivity. Qed.

Lemma sends_turn t ks i : sends_of i (map (fun k => (t, k)) ks) = map (fun _ => t) (filter (fun k => Nat.eqb k i) ks).
Proof.
  induction ks as [|k ks IH]; [reflexivity|]. unfold sends_of in *. cbn.
  destruct (Nat.eqb k i); cbn; rewrite ?IH; reflexivity.
Qed.

Lemma filter_goes_none t i ms : (forall m, In m ms -> key m <> i) -> filter (fun k => Nat.eqb k i) (goes t ms) = [].
Proof.
  induction ms as [|m ms IH]; intros H; [reflexivity|]. unfold goes. cbn [flat_map]. rewrite filter_app. fold (goes t ms).
  rewrite (IH (fun x Hx => H x (or_intror Hx))), app_nil_r. destruct (snd (one t m)); [|reflexivity]. cbn.
  destruct (Nat.eqb_spec (key m) i) as [E|]; [|reflexivity]. exfalso. apply (H m); [left; reflexivity|exact E].
Qed.

Lemma alone_none times i ms : (forall m, In m ms -> key m <> i) -> alone times ms i = [].
Proof.
  induction ms as [|m ms IH]; intros H; [reflexivity|]. unfold alone. cbn [flat_map]. fold (alone times ms i).
  rewrite (IH (fun x Hx => H x (or_intror Hx))), app_nil_r.
  destruct (Nat.eqb_spec (key m) i) as [E|]; [|reflexivity]. exfalso. apply (H m); [left; reflexivity|exact E].
Qed.

Lemma stays_keys t ms k : In k (map key (stays t ms)) -> In k (map key ms).
Proof.
  rewrite !in_map_iff. intros (m' & <- & H). unfold stays in H. apply in_flat_map in H.
  destruct H as (m & Hm & H). destruct (fst (one t m)) as [x|] eqn:E; [|destruct H].
  destruct H as [<-|[]]. exists m. split; [symmetry; apply (one_key _ _ _ E)|exact Hm].
Qed.

Lemma stays_NoDup t ms : NoDup (map key ms) -> NoDup (map key (stays t ms)).
Proof.
  induction ms as [|m ms IH]; intros H; [exact H|]. cbn in H. inversion H as [|? ? N ND]; subst.
  unfold stays. cbn [flat_map]. destruct (fst (one t m)) as [m'|] eqn:E; cbn; [|apply IH, ND].
  constructor; [|apply IH, ND]. rewrite (one_key _ _ _ E). intros C. apply N, (stays_keys t), C.
Qed.

Lemma alone_step t times ms i : NoDup (map key ms) ->
  map (fun _ => t) (filter (fun k => Nat.eqb k i) (goes t ms)) ++ alone times (stays t ms) i =
  alone (t :: times) ms i.
Proof.
  induction ms as [|m ms IH]; intros H; [reflexivity|]. cbn in H. inversion H as [|? ? N ND]; subst.
  destruct (Nat.eq_dec (key m) i) as [E|NE].
  - assert (O : forall x, In x ms -> key x <> i).
    { intros x Hx C. apply N. rewrite E, <- C. apply in_map, Hx. }
    assert (O' : forall x, In x (stays t ms) -> key x <> i).
    { intros x Hx C. apply N. rewrite E, <- C. apply (stays_keys t), in_map, Hx. }
    unfold goes, alone, stays. cbn [flat_map]. fold (goes t ms). fold (stays t ms).
    rewrite filter_app, (filter_goes_none t i ms O), app_nil_r, flat_map_app.
    change (flat_map (fun m => if Nat.eqb (key m) i then snd (solo times m) else []) (stays t ms))
      with (alone times (stays t ms) i).
    change (flat_map (fun m => if Nat.eqb (key m) i then snd (solo (t :: times) m) else []) ms)
      with (alone (t :: times) ms i).
    rewrite (alone_none times i _ O'), (alone_none (t :: times) i ms O), !app_nil_r.
    rewrite E, Nat.eqb_refl. cbn [solo]. pose proof (one_key t m) as K.
    destruct (one t m) as [[m'|] s]; cbn [fst snd flat_map] in *.
    + rewrite app_nil_r, (K m' eq_refl), E, Nat.eqb_refl. destruct (solo times m') as [r l]. cbn [snd].
      destruct s; cbn; rewrite ?Nat.eqb_refl; reflexivity.
    + destruct s; cbn; rewrite ?Nat.eqb_refl; reflexivity.
  - unfold goes, alone, stays. cbn [flat_map]. fold (goes t ms). fold (stays t ms).
    rewrite filter_app, map_app, flat_map_app.
    apply Nat.eqb_neq in NE. rewrite NE. cbn [app].
    rewrite <- (IH ND) at 1. unfold alone.
    pose proof (one_key t m) as K. destruct (one t m) as [[m'|] s]; cbn [fst snd flat_map] in *.
    + rewrite (K m' eq_refl), NE. destruct s; cbn; rewrite ?NE; reflexivity.
    + destruct s; cbn; rewrite ?NE; reflexivity.
Qed.

Lemma loop_spec : forall times ms, NoDup (map key ms) ->
  let '(ms', o, fin) := sendMessages times ms in
  ms' = solos times ms /\ (forall i, sends_of i o = alone times ms i) /\
  (fin = true <-> ms <> [] /\ solos times ms = []).
Proof.
  induction times as [|t times IH]; intros ms ND; cbn [sendMessages].
  - split; [|split].
    + unfold solos. induction ms as [|m ms IHm]; [reflexivity|]. cbn in *. f_equal. apply IHm. inversion ND. assumption.
    + intros i. unfold alone, sends_of. cbn. induction ms as [|m ms IHm]; [reflexivity|]. cbn in *.
      rewrite <- IHm by (inversion ND; assumption). destruct (Nat.eqb (key m) i); reflexivity.
    + split; [discriminate|]. intros (N & E). destruct ms; [contradiction|discriminate].
  - rewrite pass_spec. cbn [app].
    destruct ms as [|m ms]; [specialize (IH [] ND)|].
    + cbn [stays goes flat_map] in *. destruct (sendMessages times []) as [[ms' o] fin].
      destruct IH as (-> & IO & IF). split; [reflexivity|]. split; [exact IO|]. exact IF.
    + destruct (stays t (m :: ms)) as [|y l] eqn:St.
      * split; [rewrite <- (stays_solos t times), St; reflexivity|]. split.
        -- intros i. rewrite sends_turn, <- alone_step by exact ND. rewrite St. cbn. rewrite app_nil_r. reflexivity.
        -- split; [|reflexivity]. intros _. split; [discriminate|]. rewrite <- (stays_solos t times), St. reflexivity.
      * specialize (IH (y :: l)). rewrite <- St in *. specialize (IH (stays_NoDup t _ ND)).
        destruct (sendMessages times (stays t (m :: ms))) as [[ms' o] fin].
        destruct IH as (-> & IO & IF). rewrite stays_solos in *. split; [reflexivity|]. split.
        -- intros i. rewrite sends_app, sends_turn, IO. apply alone_step, ND.
        -- rewrite IF. rewrite St. split; intros (_ & E); (split; [discriminate|exact E]).
Qed.

(** The history of one message. *)
Definition stop_count (m : message) : Z := if isUseSendTime m then 1 else Z.max (timesSent m + 1) (toSend m) - timesSent m.

Lemma solo_count times : forall m,
  (isUseSendTime m = false -> 0 <= timesSent m < 4294967295 /\ is_u32 (toSend m)) ->
  let (r, l) := solo times m in
  Z.of_nat (length l) <= stop_count m /\ (r = None -> Z.of_nat (length l) = stop_count m).
Proof.
  induction times as [|t times IH]; intros m G; cbn [solo].
  - split; [|discriminate]. unfold stop_count. destruct (isUseSendTime m); cbn; lia.
  - unfold one. destruct (sendTime m <? t).
    + destruct (isUseSendTime m) eqn:U; [unfold stop_count; rewrite U; cbn; lia|].
      specialize (G eq_refl). destruct G as (G1 & G2). unfold is_u32 in G2.
      assert (Ts : timesSent (advance m) = timesSent m + 1) by (cbn; unfold u32; rewrite Z.mod_small; lia).
      assert (To : toSend (advance m) = toSend m) by reflexivity.
      rewrite Ts, To. destruct (Z.leb_spec (toSend m) (timesSent m + 1)) as [L|L].
      * cbn [length]. unfold stop_count. rewrite U. lia.
      * specialize (IH (advance m)). destruct (solo times (advance m)) as [r l].
        destruct IH as (I1 & I2).
        { intros _. rewrite Ts, To. unfold is_u32. lia. }
        unfold stop_count in *. cbn [advance isUseSendTime] in *. rewrite U in *.
        rewrite Ts in *. change (toSend (advance m)) with (toSend m) in *.
        cbn [length app]. split; [lia|]. intros R. specialize (I2 R). lia.
    + specialize (IH m G). destruct (solo times m) as [r l]. exact IH.
Qed.

(** Never early: [m] was already sent j times. *)
Lemma solo_time times : forall m i t,
  0 <= sendTime m ->
  nth_error (snd (solo times m)) i = Some t ->
  (isUseSendTime m = false -> 0 <= period m /\ sendTime m + Z.of_nat i * period m < 4294967296) ->
  (if isUseSendTime m then sendTime m else sendTime m + Z.of_nat i * period m) < t.
Proof.
  induction times as [|t0 times IH]; intros m i t S H W; cbn [solo] in H; [destruct i; discriminate|].
  unfold one in H. destruct (Z.ltb_spec (sendTime m) t0) as [L|L].
  - destruct (isUseSendTime m) eqn:U.
    + cbn in H. destruct i as [|[|i]]; [injection H as <-; exact L|discriminate|discriminate].
    + specialize (W eq_refl). destruct (toSend (advance m) <=? timesSent (advance m)).
      * cbn in H. destruct i as [|[|i]]; [injection H as <-; cbn; lia|discriminate|discriminate].
      * destruct (solo times (advance m)) as [r l] eqn:E. cbn in H.
        destruct i as [|i]; [injection H as <-; cbn; lia|].
        assert (St : sendTime (advance m) = sendTime m + period m).
        { cbn. unfold u32. rewrite Z.mod_small; nia. }
        specialize (IH (advance m) i t). rewrite E in IH. cbn [snd] in IH. rewrite St in IH.
        cbn [advance isUseSendTime period] in IH. rewrite U in IH.
        specialize (IH ltac:(lia) H ltac:(intros _; nia)). lia.
  - destruct (solo times m) as [r l] eqn:E. specialize (IH m i t). rewrite E in IH. apply IH; assumption.
Qed.

Lemma configure_In es : forall k m, In m (configure k es) ->
  exists i e, nth_error es i = Some e /\ m = configured (k + i)%nat e.
Proof.
  induction es as [|e es IH]; intros k m H; [destruct H|]. destruct H as [<-|H].
  - exists O, e. rewrite Nat.add_0_r. auto.
  - destruct (IH (S k) m H) as (i & e' & E & ->). exists (S i), e'. split; [exact E|]. f_equal. lia.
Qed.

Lemma configured_key k e : key (configured k e) = k.
Proof. unfold configured. destruct (a_time e); reflexivity. Qed.

Lemma configure_keys es : forall k, map key (configure k es) = seq k (length es).
Proof. induction es as [|e es IH]; intros k; [reflexivity|]. cbn. rewrite configured_key, IH. reflexivity. Qed.

Lemma configure_nth es : forall k i e, nth_error es i = Some e -> nth_error (configure k es) i = Some (configured (k + i) e).
Proof.
  induction es as [|e es IH]; intros k [|i] x H; try discriminate.
  - injection H as ->. cbn. rewrite Nat.add_0_r. reflexivity.
  - cbn. rewrite (IH (S k) i x H). do 2 f_equal. lia.
Qed.

Lemma alone_one times ms i m : NoDup (map key ms) -> In m ms -> key m = i ->
  alone times ms i = snd (solo times m).
Proof.
  induction ms as [|x ms IH]; intros ND H E; [destruct H|]. cbn in ND. inversion ND as [|? ? N ND']; subst.
  cbn. destruct H as [->|H].
  - rewrite Nat.eqb_refl. fold (alone times ms (key m)). rewrite alone_none; [apply app_nil_r|].
    intros y Hy C. apply N. rewrite <- C. apply in_map, Hy.
  - destruct (Nat.eqb_spec (key x) (key m)) as [C|]; [exfalso; apply N; rewrite C; apply in_map, H|].
    cbn. apply IH; auto.
Qed.

Lemma service_spec es times i e : nth_error es i = Some e ->
  sends_of i (fst (service es times)) = snd (solo times (configured i e)).
Proof.
  intros H. unfold service. pose proof (loop_spec times (configure 0 es)) as L.
  destruct (sendMessages times (configure 0 es)) as [[ms o] fin]. cbn [fst].
  assert (ND : NoDup (map key (configure 0 es))) by (rewrite configure_keys; apply seq_NoDup).
  destruct (L ND) as (_ & S & _). rewrite S. apply alone_one; [exact ND| |apply configured_key].
  apply (nth_error_In _ i). exact (configure_nth es 0 i e H).
Qed.

Lemma service_end es times : snd (service es times) = true <->
  es <> [] /\ forall i e, nth_error es i = Some e -> fst (solo times (configured i e)) = None.
Proof.
  unfold service. pose proof (loop_spec times (configure 0 es)) as L.
  destruct (sendMessages times (configure 0 es)) as [[ms o] fin]. cbn [snd].
  assert (ND : NoDup (map key (configure 0 es))) by (rewrite configure_keys; apply seq_NoDup).
  destruct (L ND) as (_ & _ & F). rewrite F. split.
  - intros (N & S). split; [intros ->; apply N; reflexivity|]. intros i e H.
    pose proof (nth_error_In _ i (configure_nth es 0 i e H)) as I. cbn in I.
    destruct (fst (solo times (configured i e))) as [m'|] eqn:E; [|reflexivity]. exfalso.
    assert (X : In m' (solos times (configure 0 es))).
    { unfold solos. apply in_flat_map. exists (configured i e). split; [exact I|]. rewrite E. left. reflexivity. }
    rewrite S in X. destruct X.
  - intros (N & S). split; [destruct es; [contradiction|discriminate]|].
    unfold solos. destruct (flat_map _ (configure 0 es)) as [|x l] eqn:E; [reflexivity|]. exfalso.
    assert (X : In x (x :: l)) by (left; reflexivity). rewrite <- E in X. apply in_flat_map in X.
    destruct X as (m & Hm & X). destruct (configure_In es 0 m Hm) as (i & e & H & ->).
    cbn [Nat.add] in X. rewrite (S i e H) in X. destruct X.
Qed.

Lemma stop_expected i e : good e -> stop_count (configured i e) = expected e.
Proof.
  intros (_ & _ & G). unfold stop_count, expected, configured, UINT32_MAX.
  destruct (a_time e); [reflexivity|]. cbn. destruct (a_period e); [|reflexivity]. cbn.
  destruct (a_times e); lia.
Qed.

Lemma good_m i e : good e -> isUseSendTime (configured i e) = false ->
  0 <= timesSent (configured i e) < 4294967295 /\ is_u32 (toSend (configured i e)).
Proof.
  intros (_ & _ & G). unfold configured, is_u32, UINT32_MAX in *. destruct (a_time e); [discriminate|]. cbn. intros _.
  split; [lia|]. destruct (a_times e) as [n|]; [apply (G n eq_refl)|lia].
Qed.

(** C40: no message is ever sent more often than configured, and when the loop has ended each was
    sent exactly as often as configured. *)
Theorem C40_count : forall es times i e, Forall good es -> nth_error es i = Some e ->
  Z.of_nat (length (sends_of i (fst (service es times)))) <= expected e /\
  (snd (service es times) = true -> Z.of_nat (length (sends_of i (fst (service es times)))) = expected e).
Proof.
  intros es times i e G H. rewrite (service_spec es times i e H).
  assert (Ge : good e) by (rewrite Forall_forall in G; apply G, (nth_error_In _ _ H)).
  pose proof (solo_count times (configured i e) (good_m i e Ge)) as C.
  rewrite (stop_expected i e Ge) in C.
  pose proof (service_end es times) as E.
  destruct (solo times (configured i e)) as [r l] eqn:S. destruct C as (C1 & C2). split; [exact C1|].
  intros F. apply C2. apply E in F. destruct F as (_ & F). specialize (F i e H). rewrite S in F. exact F.
Qed.
Print Assumptions C40_count.

(** C40: nothing else is sent. *)
Theorem C40_only : forall es times t k, In (t, k) (fst (service es times)) -> (k < length es)%nat /\ In t times.
Proof.
  intros es. unfold service.
  assert (G : forall times ms t k, In (t, k) (snd (fst (sendMessages times ms))) -> In k (map key ms) /\ In t times).
  { induction times as [|t0 ts IH]; intros ms t k H; cbn [sendMessages] in H; [destruct H|].
    rewrite pass_spec in H.
    assert (GO : forall k, In k (goes t0 ms) -> In k (map key ms)).
    { intros k' Hk. unfold goes in Hk. apply in_flat_map in Hk. destruct Hk as (m & Hm & Hk).
      destruct (snd (one t0 m)); [|destruct Hk]. destruct Hk as [<-|[]]. apply in_map, Hm. }
    assert (T : In (t, k) (map (fun k => (t0, k)) (goes t0 ms)) -> In k (map key ms) /\ In t (t0 :: ts)).
    { intros X. apply in_map_iff in X. destruct X as (k' & [= <- <-] & X). split; [apply GO, X|left; reflexivity]. }
    destruct (match ms with [] => false | _ => match [] ++ stays t0 ms with [] => true | _ => false end end).
    - apply T, H.
    - specialize (IH (stays t0 ms) t k). cbn [app] in H.
      destruct (sendMessages ts (stays t0 ms)) as [[ms'' o'] fin']. cbn [fst snd] in *.
      apply in_app_or in H. destruct H as [H|H]; [apply T, H|]. destruct (IH H) as (K & TT).
      split; [apply (stays_keys t0), K|right; exact TT]. }
  intros times t k H. specialize (G times (configure 0 es) t k).
  destruct (sendMessages times (configure 0 es)) as [[ms o] fin]. cbn [fst snd] in *.
  destruct (G H) as (K & T). split; [|exact T]. rewrite configure_keys in K. apply in_seq in K. lia.
Qed.
Print Assumptions C40_only.

(** C40: a message is not sent before its time, as long as its time can be represented. *)
Theorem C40_time : forall es times i e j t, Forall good es -> nth_error es i = Some e ->
  nth_error (sends_of i (fst (service es times))) j = Some t ->
  due e (Z.of_nat j) < 4294967296 -> due e (Z.of_nat j) < t.
Proof.
  intros es times i e j t G H. rewrite (service_spec es times i e H). intros N D.
  assert (Ge : good e) by (rewrite Forall_forall in G; apply G, (nth_error_In _ _ H)).
  destruct Ge as (G1 & G2 & G3). unfold is_u32 in *.
  pose proof (solo_time times (configured i e) j t) as S.
  unfold due, configured in *. destruct (a_time e) as [x|].
  - cbn in S. apply S; [apply (G1 x eq_refl)|exact N|discriminate].
  - destruct (a_period e) as [p|]; cbn [isUseSendTime sendTime period] in S.
    + apply S; [lia|exact N|]. intros _. specialize (G2 p eq_refl). lia.
    + apply S; [lia|exact N|discriminate].
Qed.
Print Assumptions C40_time.

(** The loop ends for one message. *)
Lemma solo_end late : forall m,
  (isUseSendTime m = false -> 0 <= timesSent m < 4294967295 /\ is_u32 (toSend m) /\ 0 <= period m) ->
  0 <= sendTime m -> stop_count m <= Z.of_nat (length late) ->
  (isUseSendTime m = false -> forall j, 0 <= j < stop_count m -> sendTime m + j * period m < 4294967296) ->
  (forall t, In t late -> forall j, 0 <= j < stop_count m ->
     (if isUseSendTime m then sendTime m else sendTime m + j * period m) < t) ->
  fst (solo late m) = None.
Proof.
  induction late as [|t late IH]; intros m G S0 C W L.
  - exfalso. unfold stop_count in C. destruct (isUseSendTime m) eqn:U; cbn in C; lia.
  - cbn [solo]. unfold one.
    assert (P : 0 < stop_count m) by (unfold stop_count; destruct (isUseSendTime m); lia).
    pose proof (L t (or_introl eq_refl) 0 ltac:(lia)) as L0.
    destruct (Z.ltb_spec (sendTime m) t) as [B|B].
    2:{ destruct (isUseSendTime m); lia. }
    destruct (isUseSendTime m) eqn:U; [reflexivity|].
    destruct (G eq_refl) as (G1 & G2 & G3). unfold is_u32 in G2.
    assert (Ts : timesSent (advance m) = timesSent m + 1) by (cbn; unfold u32; rewrite Z.mod_small; lia).
    change (toSend (advance m)) with (toSend m). rewrite Ts.
    destruct (Z.leb_spec (toSend m) (timesSent m + 1)) as [Q|Q]; [reflexivity|].
    assert (SC : stop_count m = toSend m - timesSent m) by (unfold stop_count; rewrite U; lia).
    assert (SC' : stop_count (advance m) = stop_count m - 1).
    { unfold stop_count. cbn [advance isUseSendTime]. rewrite U.
      change (timesSent (advance m)) with (timesSent (advance m)). 
      replace (timesSent (advance m)) with (timesSent m + 1) by (symmetry; exact Ts).
      change (toSend (advance m)) with (toSend m). lia. }
    assert (St : sendTime (advance m) = sendTime m + period m).
    { cbn. unfold u32. specialize (W eq_refl 1 ltac:(lia)). rewrite Z.mod_small; lia. }
    specialize (IH (advance m)).
    destruct (solo late (advance m)) as [r l]. cbn [fst] in *. apply IH.
    + intros _. rewrite Ts. cbn. unfold is_u32. lia.
    + lia.
    + rewrite SC'. cbn [length] in C. lia.
    + intros _ j J. rewrite St. cbn [advance period]. specialize (W eq_refl (j + 1) ltac:(lia)). lia.
    + intros t' I j J. rewrite St. cbn [advance isUseSendTime period]. rewrite U.
      specialize (L t' (or_intror I) (j + 1) ltac:(lia)). lia.
Qed.

Lemma solo_app a b m : fst (solo (a ++ b) m) = match fst (solo a m) with Some m' => fst (solo b m') | None => None end.
Proof.
  revert m; induction a as [|t a IH]; intros m; [reflexivity|]. cbn [solo app].
  destruct (one t m) as [[m'|] s]; [|reflexivity]. specialize (IH m').
  destruct (solo (a ++ b) m'), (solo a m'). exact IH.
Qed.

(** C40: the loop ends: once the clock is past every due time and the loop has made as many turns
    since as the largest number of times a message is to be sent. *)
Theorem C40_ends : forall es late, Forall good es -> es <> [] ->
  (forall e, In e es -> expected e <= Z.of_nat (length late)) ->
  (forall e j, In e es -> 0 <= j < expected e -> due e j < 4294967296 /\ forall t, In t late -> due e j < t) ->
  snd (service es late) = true.
Proof.
  intros es late G N C D. apply service_end. split; [exact N|]. intros i e H.
  pose proof (nth_error_In _ _ H) as I.
  assert (Ge : good e) by (rewrite Forall_forall in G; apply G, I).
  pose proof (good_m i e Ge) as GM. pose proof (stop_expected i e Ge) as SE.
  destruct Ge as (G1 & G2 & G3). unfold is_u32 in G1, G2.
  assert (DU : forall j, (if isUseSendTime (configured i e) then sendTime (configured i e)
                          else sendTime (configured i e) + j * period (configured i e)) = due e j).
  { intros j. unfold configured, due. destruct (a_time e); [reflexivity|]. cbn. destruct (a_period e); lia. }
  assert (SP : 0 <= sendTime (configured i e) /\ 0 <= period (configured i e)).
  { unfold configured. destruct (a_time e) as [x|]; cbn; [specialize (G1 x eq_refl); lia|].
    destruct (a_period e) as [p|]; [specialize (G2 p eq_refl); lia|lia]. }
  apply solo_end.
  - intros U. destruct (GM U). tauto.
  - tauto.
  - rewrite SE. apply C, I.
  - intros U j J. specialize (DU j). rewrite U in DU. rewrite DU. exact (proj1 (D e j I ltac:(lia))).
  - intros t T j J. rewrite DU. exact (proj2 (D e j I ltac:(lia)) t T).
Qed.
Print Assumptions C40_ends.

Definition entries : list entry :=
  [ {| a_time := Some 50; a_period := None; a_times := None |};
    {| a_time := None; a_period := Some 20; a_times := Some 3 |};
    {| a_time := None; a_period := None; a_times := Some 5 |};
    {| a_time := None; a_period := Some 100; a_times := Some 0 |} ].

Example entries_good : Forall good entries.
Proof.
  unfold entries. repeat (apply Forall_cons); [..|apply Forall_nil];
    (split; [|split]); cbn; intros x [= <-]; unfold is_u32; lia.
Qed.

Example entries_sent : service entries [0; 10; 20; 30; 40; 50; 60] =
  ([(10, 1%nat); (10, 2%nat); (10, 3%nat); (30, 1%nat); (50, 1%nat); (60, 0%nat)], true).
Proof. vm_compute. reflexivity. Qed.

Example entries_late :
  (forall e, In e entries -> expected e <= Z.of_nat (length [60; 70; 80])) /\
  (forall e j, In e entries -> 0 <= j < expected e ->
     due e j < 4294967296 /\ forall t, In t [60; 70; 80] -> due e j < t).
Proof.
  split.
  - intros e [<-|[<-|[<-|[<-|[]]]]]; cbn; lia.
  - intros e j [<-|[<-|[<-|[<-|[]]]]]; cbn; intros J; (split; [lia|]); intros t T; cbn in T; lia.
Qed.

(** C40: with no message to send the loop never ends. *)
Theorem C40_empty_refuted : forall times, service [] times = ([], false).
Proof.
  intros times. unfold service. cbn [configure]. induction times as [|t times IH]; [reflexivity|]. cbn.
  destruct (sendMessages times []) as [[ms o] fin]. injection IH as -> ->. reflexivity.
Qed.
Print Assumptions C40_empty_refuted.

(** C40: the next time is a 32 bit number that wraps around: a message can be sent long before it
    is due. *)
Theorem C40_time_refuted :
  ~ (forall es times i e j t, Forall good es -> nth_error es i = Some e ->
       nth_error (sends_of i (fst (service es times))) j = Some t -> due e (Z.of_nat j) < t).
Proof.
  intros H. set (e := {| a_time := None; a_period := Some 2147483648; a_times := Some 3 |}).
  assert (G : Forall good [e]).
  { apply Forall_cons; [|apply Forall_nil]; (split; [|split]); cbn; intros x [= <-]; unfold is_u32; lia. }
  specialize (H [e] [10; 2147483658; 2147483668] O e 2%nat 2147483668 G eq_refl).
  assert (X : 4294967296 < 2147483668); [|lia]. apply H. vm_compute. reflexivity.
Qed.
Print Assumptions C40_time_refuted.

(** Properties of the way of messages through the TCP bridge (C105). *)
From Coq Require Import String Ascii List Arith NArith Bool Lia.
From Verif Require Import Base Decimal10 MsgSpec MsgModel MsgProofs SerialModel SerialSpec SerialProofs TcpLinkModel TcpLinkSpec.
Import ListNotations.
Open Scope list_scope.

Lemma str_eqb_spec a b : reflect (a = b) (str_eqb a b).
Proof. unfold str_eqb. destruct (list_eq_dec ascii_dec a b); constructor; auto. Qed.

Lemma has_client_in cs c : has_client cs c = true <-> In c cs.
Proof.
  unfold has_client. rewrite existsb_exists. split.
  - intros (x & IN & E). destruct (str_eqb_spec c x); [subst; exact IN|discriminate].
  - intros IN. exists c. split; [exact IN|]. destruct (str_eqb_spec c c); congruence.
Qed.

Definition inv (es : list event) (x : proxy) : Prop :=
  NoDup (px_clients x) /\ (forall c, In c (px_clients x) <-> connected c es) /\ px_passed x = arrived es.

Lemma list_sum_snoc l n : list_sum (l ++ [n]) = list_sum l + n.
Proof. rewrite list_sum_app. cbn. lia. Qed.
Lemma odd_S n : Nat.Odd (n + 1) <-> ~ Nat.Odd n.
Proof.
  rewrite Nat.add_1_r, Nat.Odd_succ. split.
  - intros EV OD. exact (Nat.Even_Odd_False n EV OD).
  - intros NO. destruct (Nat.Even_or_Odd n); [assumption|contradiction].
Qed.

Lemma step_inv server peer es x e : inv es x -> inv (es ++ [e]) (proxy_step server peer x e).
Proof.
  intros (ND & CL & PA). unfold inv, connected in *.
  assert (EB : forall c, list_sum (map (blank_from c) (es ++ [e])) = list_sum (map (blank_from c) es) + blank_from c e).
  { intros c. rewrite map_app. apply list_sum_snoc. }
  assert (EA : arrived (es ++ [e]) = arrived es ++ arrived [e]) by apply flat_map_app.
  rewrite EA, <- PA. unfold arrived at 1. destruct e as [m|[id data|m]].
  - cbn [proxy_step px_clients px_passed flat_map app]. rewrite app_nil_r. split; [exact ND|]. split; [|reflexivity].
    intros c. rewrite EB. cbn [blank_from]. rewrite Nat.add_0_r. apply CL.
  - destruct data as [|y data].
    + cbn [proxy_step tcp_receive px_clients px_passed flat_map app]. rewrite app_nil_r.
      destruct (has_client (px_clients x) id) eqn:HC; cbn [px_clients px_passed].
      * apply has_client_in in HC. unfold removeClient. cbn [fst]. split; [apply NoDup_filter; exact ND|]. split; [|reflexivity].
        intros c. rewrite EB. cbn [blank_from]. rewrite filter_In. destruct (list_eq_dec ascii_dec id c) as [->|NE].
        -- rewrite odd_S, <- CL. destruct (str_eqb_spec c c); [|congruence]. cbn. split; [intros [_ F]; discriminate F|intros NI; contradiction].
        -- rewrite Nat.add_0_r, <- CL. destruct (str_eqb_spec c id); [congruence|]. cbn. tauto.
      * unfold addClient. rewrite HC. cbn [fst].
        assert (NI : ~ In id (px_clients x)) by (rewrite <- has_client_in, HC; discriminate).
        split; [|split; [|reflexivity]].
        -- apply NoDup_Add with (a := id) (l := px_clients x); [rewrite <- (app_nil_r (px_clients x)) at 1; apply Add_app|split; assumption].
        -- intros c. rewrite EB. cbn [blank_from]. rewrite in_app_iff. destruct (list_eq_dec ascii_dec id c) as [->|NE].
           ++ rewrite odd_S, <- CL. cbn. split; [intros _; exact NI|intros _; right; left; reflexivity].
           ++ rewrite Nat.add_0_r, <- CL. cbn. split; [intros [H'|[H'|[]]]; [exact H'|contradiction]|intros H'; left; exact H'].
    + cbn [proxy_step tcp_receive px_clients px_passed flat_map app]. split; [exact ND|]. split; [|reflexivity].
      intros c. rewrite EB. cbn [blank_from]. rewrite Nat.add_0_r. apply CL.
  - cbn [proxy_step tcp_receive px_clients px_passed flat_map app]. rewrite app_nil_r. split; [exact ND|]. split; [|reflexivity].
    intros c. rewrite EB. cbn [blank_from]. rewrite Nat.add_0_r. apply CL.
Qed.

Lemma run_snoc server peer es e : proxy_run server peer (es ++ [e]) = proxy_step server peer (proxy_run server peer es) e.
Proof. unfold proxy_run. rewrite fold_left_app. reflexivity. Qed.

Lemma run_inv server peer es : inv es (proxy_run server peer es).
Proof.
  induction es as [|e es IH] using rev_ind.
  - split; [constructor|]. split; [|reflexivity]. intros c. cbn. split; [intros []|]. intros (k & K). cbn in K. lia.
  - rewrite run_snoc. apply step_inv. exact IH.
Qed.

(** *** C105 *)

(** After every history the clients are those that are connected, each once. *)
Theorem C105_clients server peer es : NoDup (px_clients (proxy_run server peer es)) /\
  forall c, In c (px_clients (proxy_run server peer es)) <-> connected c es.
Proof. destruct (run_inv server peer es) as (A & B & _). split; assumption. Qed.

(** A message of the bridge of a server goes to each peer that is connected, once, and to no other; that of a client to its server. *)
Theorem C105_sent server peer es m : exists new,
  px_sent (proxy_run server peer (es ++ [bridge_send m])) = px_sent (proxy_run server peer es) ++ new /\ NoDup (map fst new) /\
  forall c d, In (c, d) new <-> d = createSentinelized (aam_getString m) /\ if server then connected c es else c = peer.
Proof.
  destruct (C105_clients server peer es) as (ND & CL). rewrite run_snoc. unfold bridge_send. cbn [proxy_step px_sent]. eexists. split; [reflexivity|].
  unfold tcp_send. destruct server.
  - rewrite map_map. cbn [fst]. rewrite map_id. split; [exact ND|]. intros c d. rewrite in_map_iff. rewrite <- CL. split.
    + intros (x & E & IN). injection E as <- <-. split; [reflexivity|exact IN].
    + intros (-> & IN). exists c. split; [reflexivity|exact IN].
  - split; [constructor; [intros []|constructor]|]. intros c d. cbn [In]. split.
    + intros [E|[]]. injection E as <- <-. split; reflexivity.
    + intros (-> & ->). left. reflexivity.
Qed.

(** Nothing is sent to the outside but the messages of the bridge. *)
Theorem C105_quiet server peer es p : px_sent (proxy_run server peer (es ++ [FromOutside p])) = px_sent (proxy_run server peer es).
Proof. rewrite run_snoc. cbn [proxy_step]. destruct (tcp_receive _ p). reflexivity. Qed.

(** *** Taking the messages out of the data *)

Lemma pump_frames ps : forall f b c part,
  Forall frameable ps -> sb_data b ++ c = concat (map createSentinelized ps) ++ part ->
  ~ occurs afterChk part -> length ps < f ->
  exists b', pump f b c = (b', ps, false) /\ sb_data b' = part.
Proof.
  induction ps as [|p ps IH]; intros f b c part F E N L; (destruct f as [|f]; [lia|]); cbn [pump].
  - cbn in E. unfold getNextPayload. cbv zeta. rewrite E. apply find_sub_none in N. rewrite N. eexists. split; reflexivity.
  - inversion F as [|? ? Fp Fps]; subst. cbn [map concat] in E. rewrite <- app_assoc in E.
    rewrite (getNext_frame b c [] p (concat (map createSentinelized ps) ++ part)); auto using nil_no_end.
    destruct p as [|x p]; [destruct Fp; congruence|].
    destruct (IH f (mkSbuf (concat (map createSentinelized ps) ++ part) (S (sb_valid b)) (sb_invalid b) (sb_disregarded b)) [] part) as (b' & E1 & E2); auto;
      [cbn [sb_data]; apply app_nil_r|cbn [length] in L; lia|].
    cbn [length Nat.ltb Nat.leb]. rewrite E1. exists b'. split; [reflexivity|exact E2].
Qed.

Definition msg_of (l : letter) : aamsg :=
  mkAam true (text l) (address l) (payload l)
    (Some (mkAttrs true (join "|" [content l; descriptor l; group l; entity l; service l]) (content l) (descriptor l) (group l) (entity l) (service l))).
Definition res (su : setup) (l : letter) : list aamsg := match let_in su (msg_of l) with Some (Some m) => [m] | _ => [] end.

Lemma parse_letter m l : well_formed l -> setAamFromDelimitedString m (text l) = (msg_of l, true).
Proof.
  intros (W1 & W2 & W3 & W4 & W5 & W6 & W7 & W8 & W9 & W10 & W11). apply parseAam_spec.
  exists (address l), (content l), (descriptor l), (group l), (entity l), (service l), (payload l). unfold msg_of, text. repeat (split; [auto|]). reflexivity.
Qed.

Lemma in_block a bl : existsb (str_eqb a) bl = true <-> In a bl.
Proof. exact (has_client_in bl a). Qed.

Lemma find_in al a u v : find (fun p : str * str => str_eqb (fst p) a) al = Some (u, v) -> In a (map fst al).
Proof.
  intros E. apply find_some in E. destruct E as (IN & E). cbn [fst] in E. destruct (str_eqb_spec u a) as [->|]; [|discriminate].
  apply in_map_iff. exists (a, v). split; [reflexivity|exact IN].
Qed.

Lemma alias_cases al a :
  match find (fun p : str * str => str_eqb (fst p) a) al with
  | Some p => renamed al a (snd p)
  | None => ~ In a (map fst al)
  end.
Proof.
  induction al as [|[x y] al IH]; cbn [find]; [intros []|]. cbn [fst]. destruct (str_eqb_spec x a) as [->|NE].
  - cbn [snd]. apply (to_alias _ a [] y al); [reflexivity|intros []].
  - destruct (find _ al) as [[u v]|] eqn:FE.
    + cbn [snd] in *. inversion IH as [al1 a' al2 E NI E'|NI E']; subst.
      * apply (to_alias _ a ((x, y) :: al1) v al2); [reflexivity|]. cbn. intros [E|I']; [congruence|contradiction].
      * exfalso. apply NI. exact (find_in _ _ _ _ FE).
    + cbn. intros [E|I']; [congruence|contradiction].
Qed.

Lemma let_in_letter su l : configured su -> exists o, let_in su (msg_of l) = Some o /\
  exists outs, comes_in su l outs /\ Forall2 carries (match o with Some m => [m] | None => [] end) outs.
Proof.
  intros (NE & NN & _). unfold let_in. change (aam_address (msg_of l)) with (address l).
  destruct (existsb (str_eqb (address l)) (su_block su)) eqn:BL.
  { apply in_block in BL. exists None. split; [reflexivity|]. exists []. split; [apply kept_out; exact BL|constructor]. }
  assert (NB : ~ In (address l) (su_block su)) by (rewrite <- in_block, BL; discriminate).
  destruct (su_entity su) as [|e0 e] eqn:EE; [congruence|]. destruct (su_network su) as [|n0 n] eqn:EN; [congruence|].
  pose proof (alias_cases (su_alias su) (address l)) as AL. unfold alias_of.
  destruct (su_self su) eqn:SELF.
  - cbn [option_map fst aam_updateSource aam_attrs msg_of at_updateSource length Nat.ltb Nat.leb aam_valid at_valid andb aam_address].
    destruct (find _ (su_alias su)) as [[u v]|]; cbn [option_map snd fst aam_updateAddress aam_attrs aam_valid] in *.
    + eexists. split; [reflexivity|]. eexists. split; [apply (comes su l v NB AL)|]. rewrite SELF, EE, EN. constructor; [|constructor].
      repeat split. eexists. split; [reflexivity|]. repeat split.
    + eexists. split; [reflexivity|]. eexists. split; [apply (comes su l (address l) NB (no_alias _ _ AL))|]. rewrite SELF, EE, EN. constructor; [|constructor].
      repeat split. eexists. split; [reflexivity|]. repeat split.
  - change (aam_address (msg_of l)) with (address l).
    destruct (find _ (su_alias su)) as [[u v]|]; cbn [option_map snd fst aam_updateAddress aam_attrs aam_valid msg_of] in *.
    + eexists. split; [reflexivity|]. eexists. split; [apply (comes su l v NB AL)|]. rewrite SELF. constructor; [|constructor].
      repeat split. eexists. split; [reflexivity|]. repeat split.
    + eexists. split; [reflexivity|]. eexists. split; [apply (comes su l (address l) NB (no_alias _ _ AL))|]. rewrite SELF. constructor; [|constructor].
      repeat split. eexists. split; [reflexivity|]. repeat split.
Qed.

Lemma res_ok su ls : configured su -> exists outs, Forall2 (comes_in su) ls outs /\ Forall2 carries (flat_map (res su) ls) (concat outs).
Proof.
  intros CF. induction ls as [|l ls (outs & A & B)]; [exists []; split; constructor|].
  destruct (let_in_letter su l CF) as (o & E & os & C & D). exists (os :: outs). split; [constructor; assumption|].
  cbn [flat_map concat]. unfold res at 1. rewrite E. apply Forall2_app; [|exact B]. destruct o; exact D.
Qed.

Lemma receive_first q b inbox l : well_formed l -> receive new_aam (text l :: q) b inbox = ((q, b, inbox), Gets (msg_of l)).
Proof. intros W. destruct inbox; cbn [receive first_valid]; rewrite (parse_letter _ l W); reflexivity. Qed.

(** The texts in the queue are taken one after the other. *)
Lemma loop_queue su ls : configured su -> Forall well_formed ls -> forall f b inbox,
  bridge_loop (length ls + f) su (map text ls) b inbox
  = (flat_map (res su) ls ++ fst (bridge_loop f su [] b inbox), snd (bridge_loop f su [] b inbox)).
Proof.
  intros CF W. induction W as [|l ls Wl W IH]; intros f b inbox.
  - cbn [length Nat.add map flat_map app]. destruct (bridge_loop f su [] b inbox); reflexivity.
  - cbn [length Nat.add map bridge_loop flat_map]. rewrite (receive_first _ _ _ _ Wl). unfold res at 1.
    destruct (let_in_letter su l CF) as (o & E & _). rewrite E. destruct o as [m|]; rewrite IH; reflexivity.
Qed.

Lemma let_in_none su : configured su -> su_self su = false -> let_in su new_aam = Some None.
Proof.
  intros (_ & _ & AL) SELF. unfold let_in. cbn [aam_address new_aam]. destruct (existsb _ (su_block su)); [reflexivity|]. rewrite SELF.
  unfold alias_of. cbn [aam_address new_aam]. destruct (find _ (su_alias su)) as [[u v]|] eqn:FE; [|reflexivity].
  exfalso. apply find_some in FE. destruct FE as (IN & E). cbn [fst] in E. destruct (str_eqb_spec u []) as [->|]; [|discriminate].
  rewrite Forall_forall in AL. exact (AL _ IN eq_refl).
Qed.

Lemma cut_letters ls a b : map text ls = a ++ b -> exists l1 l2, ls = l1 ++ l2 /\ a = map text l1 /\ b = map text l2.
Proof. intros E. apply map_eq_app in E. destruct E as (l1 & l2 & -> & <- & <-). exists l1, l2. auto. Qed.

Lemma fuel_enough ps b c part : sb_data b ++ c = concat (map createSentinelized ps) ++ part -> length ps < S (length (sb_data b ++ c)).
Proof. intros E. rewrite E, app_length. pose proof (frames_long ps). lia. Qed.

Lemma receive_packet m b c inbox : receive m [] b (c :: inbox) =
  match pump (S (length (sb_data b ++ c))) b c with
  | (b', ps, true) => ((ps, b', inbox), Throws)
  | (b', [], false) => (([], b', inbox), Gets m)
  | (b', ps, false) => receive m ps b' inbox
  end.
Proof. reflexivity. Qed.

(** One packet whose texts are known. *)
Lemma loop_packet su ls f b c inbox part : configured su -> Forall well_formed ls -> Forall frameable (map text ls) ->
  sb_data b ++ c = concat (map createSentinelized (map text ls)) ++ part -> ~ occurs afterChk part -> ls <> [] ->
  exists b', sb_data b' = part /\
  bridge_loop (length ls + f) su [] b (c :: inbox)
  = (flat_map (res su) ls ++ fst (bridge_loop f su [] b' inbox), snd (bridge_loop f su [] b' inbox)).
Proof.
  intros CF W FR E NP NE. destruct (pump_frames _ _ _ _ _ FR E NP (fuel_enough _ _ _ _ E)) as (b' & PE & BD).
  exists b'. split; [exact BD|]. rewrite <- loop_queue by assumption.
  destruct ls as [|l ls]; [congruence|]. cbn [length Nat.add bridge_loop].
  rewrite receive_packet, PE. reflexivity.
Qed.

Lemma loop_partial su f b c inbox : configured su -> su_self su = false -> ~ occurs afterChk (sb_data b ++ c) ->
  exists b', sb_data b' = sb_data b ++ c /\ bridge_loop (S f) su [] b (c :: inbox) = bridge_loop f su [] b' inbox.
Proof.
  intros CF SELF NO. destruct (pump_frames [] (S (length (sb_data b ++ c))) b c (sb_data b ++ c)) as (b' & PE & BD); [constructor|reflexivity|exact NO|cbn [length]; lia|].
  exists b'. split; [exact BD|]. cbn [bridge_loop]. rewrite receive_packet, PE. rewrite let_in_none by assumption. reflexivity.
Qed.

Lemma loop_all su : configured su -> su_self su = false -> forall inbox f b ls, Forall well_formed ls -> Forall frameable (map text ls) ->
  sb_data b ++ concat inbox = concat (map createSentinelized (map text ls)) -> ~ occurs afterChk (sb_data b) ->
  length inbox + length ls < f -> bridge_loop f su [] b inbox = (flat_map (res su) ls, Waiting).
Proof.
  intros CF SELF inbox. induction inbox as [|c inbox IH]; intros f b ls W FR E NO L; (destruct f as [|f]; [lia|]).
  - cbn [concat] in E. rewrite app_nil_r in E. destruct ls as [|l ls]; [reflexivity|]. exfalso. apply NO. rewrite E. cbn [map concat].
    generalize (concat (map createSentinelized (map text ls))). intros z. unfold createSentinelized.
    exists (beforeSize ++ to_string (N.of_nat (length (text l))) ++ afterSize ++ text l ++ beforeChk ++ to_string (checksum (text l))), z.
    rewrite <- !app_assoc. reflexivity.
  - cbn [concat] in E. rewrite app_assoc in E. destruct (cut_stream _ _ _ FR E) as (ps1 & ps2 & part & SP & D & P & NP).
    apply cut_letters in SP. destruct SP as (l1 & l2 & -> & -> & ->). rewrite map_app in FR. apply Forall_app in FR. destruct FR as (F1 & F2).
    apply Forall_app in W. destruct W as (W1 & W2). rewrite app_length in L. cbn [length] in L.
    destruct l1 as [|l l1].
    + cbn [map concat app] in D. rewrite <- D in NP. destruct (loop_partial su f b c inbox CF SELF NP) as (b' & BD & ->).
      cbn [app]. apply IH; try assumption; [rewrite BD, D; exact P|rewrite BD; exact NP|cbn [length] in L; lia].
    + destruct (loop_packet su (l :: l1) (S f - length (l :: l1)) b c inbox part CF W1 F1 D NP) as (b' & BD & EL); [discriminate|].
      replace (length (l :: l1) + (S f - length (l :: l1))) with (S f) in EL by (cbn [length] in *; lia). rewrite EL.
      rewrite (IH _ b' l2); try assumption; [|rewrite BD; exact P|rewrite BD; exact NP|cbn [length] in *; lia].
      cbn [fst snd]. rewrite flat_map_app. reflexivity.
Qed.

Lemma loop_whole su : configured su -> forall gs f b, Forall (Forall well_formed) gs -> Forall (Forall frameable) (map (map text) gs) ->
  Forall (fun g => g <> []) gs -> sb_data b = [] -> length (concat gs) < f ->
  bridge_loop f su [] b (map (fun g => concat (map createSentinelized (map text g))) gs) = (flat_map (res su) (concat gs), Waiting).
Proof.
  intros CF gs. induction gs as [|g gs IH]; intros f b W FR NE BD L; [destruct f as [|f]; [lia|reflexivity]|].
  cbn [concat] in L. rewrite app_length in L. cbn [map] in *. inversion W as [|? ? Wg Ws]; subst. inversion FR as [|? ? Fg Fs]; subst. inversion NE as [|? ? Ng Ns]; subst.
  destruct (loop_packet su g (f - length g) b (concat (map createSentinelized (map text g)))
    (map (fun g => concat (map createSentinelized (map text g))) gs) [] CF Wg Fg) as (b' & BD' & EL); auto using nil_no_end.
  { rewrite BD, app_nil_r. reflexivity. }
  replace (length g + (f - length g)) with f in EL by lia. rewrite EL, IH; try assumption; [|lia].
  cbn [fst snd concat]. rewrite flat_map_app. reflexivity.
Qed.

(** *** C105, receiving *)

(** If messages are not to look like those of the entity itself: however the data of messages are cut into packets, and whatever
    else happens in between, each message comes in once, in order. *)
Theorem C105_delivered server peer su es ls : configured su -> su_self su = false ->
  Forall well_formed ls -> Forall frameable (map text ls) ->
  concat (arrived es) = concat (map createSentinelized (map text ls)) ->
  exists ms outs, bridge_run su (px_passed (proxy_run server peer es)) = (ms, Waiting) /\
    Forall2 (comes_in su) ls outs /\ Forall2 carries ms (concat outs).
Proof.
  intros CF SELF W FR E. destruct (run_inv server peer es) as (_ & _ & ->). destruct (res_ok su ls CF) as (outs & A & B).
  exists (flat_map (res su) ls), outs. split; [|split; assumption]. unfold bridge_run. apply loop_all; try assumption.
  - exact nil_no_end.
  - assert (G : length ls <= length (concat (arrived es))) by (rewrite E; rewrite <- (map_length text ls); apply frames_long).
    apply le_n_S. rewrite Nat.add_comm. apply Nat.add_le_mono_r. exact G.
Qed.

(** For every setup: if each packet holds one or more whole messages, each message comes in once, in order. *)
Theorem C105_whole server peer su es gs : configured su ->
  Forall (Forall well_formed) gs -> Forall (Forall frameable) (map (map text) gs) -> Forall (fun g => g <> []) gs ->
  arrived es = map (fun g => concat (map createSentinelized (map text g))) gs ->
  exists ms outs, bridge_run su (px_passed (proxy_run server peer es)) = (ms, Waiting) /\
    Forall2 (comes_in su) (concat gs) outs /\ Forall2 carries ms (concat outs).
Proof.
  intros CF W FR NE E. destruct (run_inv server peer es) as (_ & _ & ->). destruct (res_ok su (concat gs) CF) as (outs & A & B).
  exists (flat_map (res su) (concat gs)), outs. split; [|split; assumption]. unfold bridge_run. rewrite E. apply loop_whole; try assumption; [reflexivity|].
  assert (G : length (concat gs) <= length (concat (map (fun g => concat (map createSentinelized (map text g))) gs))).
  { clear. induction gs as [|g gs IH]; [cbn; lia|]. cbn [map concat]. rewrite !app_length. apply Nat.add_le_mono; [|exact IH].
    rewrite <- (map_length text g). apply frames_long. }
  apply le_n_S. eapply Nat.le_trans; [exact G|apply Nat.le_add_r].
Qed.

Lemma loop_S f su q b inbox : bridge_loop (S f) su q b inbox =
  match receive new_aam q b inbox with
  | (_, Waits) => ([], Waiting)
  | (_, Throws) => ([], Ended)
  | ((q', b', inbox'), Gets m) =>
      match let_in su m with
      | None => ([], Crashed)
      | Some None => bridge_loop f su q' b' inbox'
      | Some (Some m') => let (ms, s) := bridge_loop f su q' b' inbox' in (m' :: ms, s)
      end
  end.
Proof. reflexivity. Qed.

(** *** What goes wrong *)

Lemma crash_first su d later : su_self su = true -> ~ In [] (su_block su) -> ~ occurs afterChk d -> bridge_run su (d :: later) = ([], Crashed).
Proof.
  intros SELF NB NO. unfold bridge_run. cbn [bridge_loop]. rewrite receive_packet.
  destruct (pump_frames [] (S (length (sb_data new_sbuf ++ d))) new_sbuf d d) as (b' & PE & _); [constructor|reflexivity|exact NO|cbn [length]; lia|].
  rewrite PE. unfold let_in. cbn [aam_address new_aam]. destruct (existsb (str_eqb []) (su_block su)) eqn:BL; [apply in_block in BL; contradiction|].
  rewrite SELF. reflexivity.
Qed.

(** As the bridge is set up if nothing else is said ([m_isConsideredSelfGenerated]), a null pointer is dereferenced as soon as a
    message comes in two packets, wherever it is cut. *)
Theorem C105_cut_refuted server peer su es l a1 a2 later : su_self su = true -> ~ In [] (su_block su) -> frameable (text l) ->
  createSentinelized (text l) = a1 ++ a2 -> a2 <> [] -> arrived es = a1 :: later ->
  bridge_run su (px_passed (proxy_run server peer es)) = ([], Crashed).
Proof.
  intros SELF NB FR E NE AE. destruct (run_inv server peer es) as (_ & _ & ->). rewrite AE. apply crash_first; try assumption.
  exact (frame_prefix_no_end _ _ _ FR (eq_sym E) NE).
Qed.

Section Torn.
  Context (p : str) (FR : frameable p).
  Notation sz := (to_string (N.of_nat (length p))).
  Notation chk := (to_string (checksum p)).

  Lemma size_pos j : at_pos afterSize j (createSentinelized p) -> j = 8 + length sz.
  Proof.
    destruct FR as (_ & _ & NS & _). intros A. assert (NE2 : afterSize <> []) by discriminate.
    assert (LL : length (beforeSize ++ sz) = 8 + length sz) by (rewrite app_length; reflexivity).
    assert (L1 : 8 + length sz <= j).
    { unfold createSentinelized in A. rewrite app_assoc in A. apply at_pos_clean in A; [rewrite LL in A; exact A|exact NE2|].
      apply clean_app; [apply lit_clean; reflexivity|]. apply (digits_clean _ _ (to_string_digits _)). incl_sent. }
    replace (createSentinelized p) with (((beforeSize ++ sz) ++ afterSize ++ p) ++ "!"%char :: (lit "%!%!%!%" ++ chk ++ afterChk)) in A
      by (unfold createSentinelized; rewrite <- !app_assoc; reflexivity).
    apply at_pos_sides in A; [|exact NE2|notin]. destruct A as [(_ & A)|(_ & A)].
    - apply at_pos_skip in A; [|rewrite LL; exact L1]. rewrite LL in A. destruct A as (u & v & H' & LU). apply NS in H'. subst u. cbn [length] in LU. lia.
    - exfalso. revert A. apply not_at_pos_chars; [exact NE2|]. apply clean_app; [apply lit_clean; reflexivity|].
      apply clean_app; [apply (digits_clean _ _ (to_string_digits _)); incl_sent|apply lit_clean; reflexivity].
  Qed.

  Lemma before_pos i : at_pos beforeSize i (createSentinelized p) -> i <= 8 + length sz -> i = 0.
  Proof.
    intros A L. destruct sz as [|c0 s] eqn:ES; [destruct (to_string_nonempty _ ES)|].
    assert (DS : forallb is_digit (c0 :: s) = true) by (rewrite <- ES; apply to_string_digits).
    assert (CL : forall x, In x (c0 :: s) -> ~ In x beforeSize) by (apply (digits_clean _ _ DS); incl_sent).
    assert (NE3 : beforeSize <> []) by discriminate.
    replace (createSentinelized p) with (beforeSize ++ c0 :: (s ++ afterSize) ++ (p ++ beforeChk ++ chk ++ afterChk)) in A
      by (unfold createSentinelized; rewrite ES, <- !app_assoc; reflexivity).
    apply at_pos_sides in A; [|exact NE3|apply CL; left; reflexivity]. change (length beforeSize) with 8 in A.
    destruct A as [(L' & _)|(L' & A)]; [lia|]. exfalso. apply at_pos_clean in A; [|exact NE3|].
    - rewrite app_length in A. change (length afterSize) with 8 in A. cbn [length] in L. lia.
    - apply clean_app; [intros x I'; apply CL; right; exact I'|apply lit_clean; reflexivity].
  Qed.

  (** The second part of a message that was torn apart is thrown away. *)
  Lemma torn b a1 a2 : createSentinelized p = a1 ++ a2 -> a1 <> [] -> sb_data b = [] -> exists b', getNextPayload b a2 = (b', Returned []).
  Proof.
    intros E NE BD. unfold getNextPayload. rewrite BD. cbn [app].
    destruct (find_sub afterChk a2) as [aC|]; [|eexists; reflexivity].
    destruct (rfind beforeChk aC a2) as [bC|]; [|eexists; reflexivity].
    destruct (rfind afterSize bC a2) as [aP|] eqn:R2; [|eexists; reflexivity].
    destruct (rfind beforeSize aP a2) as [bP|] eqn:R3; [|eexists; reflexivity].
    exfalso. apply rfind_some in R2; [|discriminate]. apply rfind_some in R3; [|discriminate].
    destruct R2 as (A2 & _). destruct R3 as (A3 & L3 & _).
    apply (at_pos_shift _ _ a1) in A2. apply (at_pos_shift _ _ a1) in A3. rewrite <- E in A2, A3.
    apply size_pos in A2. apply before_pos in A3; [|lia]. destruct a1; [congruence|]. cbn [length] in A3. lia.
  Qed.
End Torn.

(** The data of all peers go into one buffer: if a message of one peer arrives between the two parts of a message of another, the
    other is lost. *)
Theorem C105_peers_refuted server peer su es l1 l2 a1 a2 : configured su -> su_self su = false ->
  frameable (text l1) -> well_formed l2 -> frameable (text l2) ->
  createSentinelized (text l1) = a1 ++ a2 -> a1 <> [] -> a2 <> [] ->
  arrived es = [a1; createSentinelized (text l2); a2] ->
  exists ms outs, bridge_run su (px_passed (proxy_run server peer es)) = (ms, Waiting) /\ comes_in su l2 outs /\ Forall2 carries ms outs.
Proof.
  intros CF SELF F1 W2 F2 E NE1 NE2 AE. destruct (run_inv server peer es) as (_ & _ & ->). rewrite AE.
  destruct (let_in_letter su l2 CF) as (o & LE & outs & CI & CA). exists (match o with Some m => [m] | None => [] end), outs.
  split; [|split; assumption]. unfold bridge_run. set (k := length (List.concat [a1; createSentinelized (text l2); a2])). clearbody k.
  change (length [a1; createSentinelized (text l2); a2]) with 3. replace (S (k + 3)) with (S (S (S (S k)))) by lia.
  pose proof (frame_prefix_no_end _ _ _ F1 (eq_sym E) NE2) as NO.
  destruct (loop_partial su (S (S (S k))) new_sbuf a1 [createSentinelized (text l2); a2] CF SELF NO) as (b1 & BD1 & ->). cbn [sb_data new_sbuf app] in BD1.
  assert (P2 : exists b2, pump (S (length (sb_data b1 ++ createSentinelized (text l2)))) b1 (createSentinelized (text l2)) = (b2, [text l2], false) /\ sb_data b2 = []).
  { cbn [pump]. rewrite (getNext_frame b1 _ a1 (text l2) []); [|rewrite BD1, app_nil_r; reflexivity|exact NO|exact F2].
    assert (NT : text l2 <> []) by (destruct F2; assumption).
    assert (LN : exists n, length (sb_data b1 ++ createSentinelized (text l2)) = S n).
    { rewrite app_length. pose proof (frame_long (text l2)). destruct (length (createSentinelized (text l2))) as [|n]; [lia|]. exists (length (sb_data b1) + n). lia. }
    destruct LN as (n & ->). destruct (text l2) as [|y t]; [congruence|].
    match goal with |- context [pump (S n) ?bb []] => set (b2 := bb) end.
    destruct (pump_frames [] (S n) b2 [] []) as (b3 & PE & BD3); [constructor|reflexivity|exact nil_no_end|cbn [length]; lia|].
    rewrite PE. exists b3. split; [reflexivity|exact BD3]. }
  destruct P2 as (b2 & P2 & BD2). rewrite loop_S, receive_packet, P2, (receive_first _ _ _ _ W2), LE.
  destruct (torn (text l1) F1 b2 a1 a2 E NE1 BD2) as (b3 & T).
  assert (LAST : bridge_loop (S (S k)) su [] b2 [a2] = ([], Waiting)).
  { rewrite loop_S, receive_packet. cbn [pump]. rewrite T. rewrite let_in_none by assumption. reflexivity. }
  destruct o as [m|]; rewrite LAST; reflexivity.
Qed.

(** A packet of sentinels with no numbers between them, from any peer, ends the receiving of the bridge for good; so does a message
    that the bridge sends itself if the sum of its bytes is too large. *)
Theorem C105_ended_refuted server peer su es later :
  arrived es = lit "+=+=+=+=#@#@#@#@!%!%!%!%?^?^?^?^" :: later \/
  (exists p, ~ occurs afterChk p /\ (forall u v, afterSize ++ p = u ++ afterSize ++ v -> u = []) /\
     (N.of_nat (length p) < 2 ^ 31)%N /\ (2 ^ 31 <= spec_checksum p)%N /\ arrived es = createSentinelized p :: later) ->
  bridge_run su (px_passed (proxy_run server peer es)) = ([], Ended).
Proof.
  destruct (run_inv server peer es) as (_ & _ & ->).
  assert (G : forall c, snd (getNextPayload new_sbuf c) = Thrown -> bridge_run su (c :: later) = ([], Ended)).
  { intros c T. unfold bridge_run. cbn [bridge_loop]. rewrite receive_packet. cbn [pump]. destruct (getNextPayload new_sbuf c) as [b' r]. cbn [snd] in T. subst r. reflexivity. }
  intros [AE|(p & NP & NS & L & C & AE)]; rewrite AE; apply G.
  - vm_compute. reflexivity.
  - refine (proj1 (getNext_large_checksum new_sbuf (createSentinelized p) [] p [] _ nil_no_end NP NS L C)). cbn. rewrite app_nil_r. reflexivity.
Qed.

Definition the_setup (self : bool) : setup := mkSetup [lit "eid1.sid9"] self (lit "1") (lit "9") [(lit "a.Told", lit "b.Told")].
Definition letter1 : letter := mkLetter (lit "a.Told") (lit "lmcp") (lit "a.Told") [] (lit "400") (lit "12") (lit "one$").
Definition letter2 : letter := mkLetter (lit "x.State") (lit "lmcp") (lit "x.State") (lit "group") (lit "500") (lit "13") (lit "two").
Definition letter3 : letter := mkLetter (lit "eid1.sid9") (lit "lmcp") (lit "x.State") [] (lit "500") (lit "13") (lit "two").

Lemma letters_ok : Forall well_formed [letter1; letter2; letter3] /\ Forall frameable (map text [letter1; letter2; letter3]).
Proof.
  split; repeat (constructor; [|]); try constructor;
    try (unfold well_formed, clean, free_of; cbn; repeat split; solve [discriminate|intros F; intuition discriminate]);
    (apply base_free_frameable; [discriminate|apply find_sub_none; reflexivity|apply find_sub_none; reflexivity|reflexivity|reflexivity]).
Qed.

(** Peer A connects and sends in two packets, peer B connects and goes; a message of the bridge then goes to A only. *)
Definition history (cut : nat) : list event :=
  [FromOutside (Pair (lit "A") []); FromOutside (Pair (lit "B") []); FromOutside (Lone (lit "?"));
   FromOutside (Pair (lit "A") (firstn cut (createSentinelized (text letter1) ++ createSentinelized (text letter2) ++ createSentinelized (text letter3))));
   FromOutside (Pair (lit "B") []);
   FromOutside (Pair (lit "A") (skipn cut (createSentinelized (text letter1) ++ createSentinelized (text letter2) ++ createSentinelized (text letter3))));
   bridge_send (msg_of letter2)].

Example C105_case : configured (the_setup false) /\
  concat (arrived (history 70)) = concat (map createSentinelized (map text [letter1; letter2; letter3])) /\
  map (fun m => string_of_list_ascii (aam_getString m)) (fst (bridge_run (the_setup false) (px_passed (proxy_run true [] (history 70)))))
  = ["b.Told$lmcp|a.Told||400|12$one$"; "x.State$lmcp|x.State|group|500|13$two"]%string /\
  px_sent (proxy_run true [] (history 70)) = [(lit "A", createSentinelized (text letter2))].
Proof.
  split; [repeat split; try discriminate; constructor; [discriminate|constructor]|]. split; [vm_compute; reflexivity|]. split; vm_compute; reflexivity.
Qed.

(** Whole packets, with the bridge as the sender; a cut message; two peers; the end. *)
Example C105_whole_case :
  map (fun m => string_of_list_ascii (aam_getString m)) (fst (bridge_run (the_setup true)
    [createSentinelized (text letter1) ++ createSentinelized (text letter3); createSentinelized (text letter2)]))
  = ["b.Told$lmcp|a.Told|TcpBridge|1|9$one$"; "x.State$lmcp|x.State|TcpBridge|1|9$two"]%string /\
  bridge_run (the_setup true) (px_passed (proxy_run true [] (history 30))) = ([], Crashed).
Proof. split; vm_compute; reflexivity. Qed.

Example C105_peers_case :
  map (fun m => string_of_list_ascii (aam_getString m)) (fst (bridge_run (the_setup false)
    [firstn 30 (createSentinelized (text letter1)); createSentinelized (text letter2); skipn 30 (createSentinelized (text letter1))]))
  = ["x.State$lmcp|x.State|group|500|13$two"]%string /\
  bridge_run (the_setup false) [lit "+=+=+=+=#@#@#@#@!%!%!%!%?^?^?^?^"; createSentinelized (text letter2)] = ([], Ended).
Proof. split; vm_compute; reflexivity. Qed.

Print Assumptions C105_clients.
Print Assumptions C105_sent.
Print Assumptions C105_quiet.
Print Assumptions C105_delivered.
Print Assumptions C105_whole.
Print Assumptions C105_cut_refuted.
Print Assumptions C105_peers_refuted.
Print Assumptions C105_ended_refuted.

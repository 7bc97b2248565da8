(** C107: the command line of the program and the steps of its start. *)
From Coq Require Import String Ascii ZArith NArith Bool Lia List.
From Verif Require Import Base Decimal10 MainModel MainSpec.
Import ListNotations.
Open Scope list_scope.

Lemma eqb_iff a b : str_eqb a b = true <-> a = b.
Proof. unfold str_eqb. destruct (list_eq_dec ascii_dec a b); split; congruence. Qed.

Lemma eqb_not a b : a <> b -> str_eqb a b = false.
Proof. intro X. destruct (str_eqb a b) eqn:E; [apply eqb_iff in E; congruence|reflexivity]. Qed.

Lemma digit_facts d : (0 <= d <= 9)%Z -> let c := ascii_of_N (Z.to_N (48 + d)) in
  is_digit c = true /\ (Z.of_N (N_of_ascii c) - 48 = d)%Z /\ is_space c = false /\ c <> "-"%char /\ c <> "+"%char.
Proof.
  intros D. assert (X : (d = 0 \/ d = 1 \/ d = 2 \/ d = 3 \/ d = 4 \/ d = 5 \/ d = 6 \/ d = 7 \/ d = 8 \/ d = 9)%Z) by lia.
  repeat (destruct X as [->|X]; [cbn; repeat split; discriminate|]). subst d. cbn. repeat split; discriminate.
Qed.

Definition all_digits (s : str) : Prop := forall c, In c s -> is_digit c = true /\ is_space c = false /\ c <> "-"%char /\ c <> "+"%char.

Lemma value_app s : forall acc t, all_digits s -> digits_value acc (s ++ t) = digits_value (digits_value acc s) t.
Proof.
  induction s as [|c s IH]; intros acc t D; [reflexivity|]. cbn [app digits_value]. destruct (D c) as (E & _); [left; reflexivity|].
  rewrite E. apply IH. intros x X. apply D. right. exact X.
Qed.

Lemma numeral_facts s n : numeral s n -> all_digits s /\ s <> [] /\ digits_value 0 s = n /\ (0 <= n)%Z.
Proof.
  induction 1 as [d D|s n d NU (A & NE & V & P) D]; destruct (digit_facts d D) as (X1 & X2 & X3 & X4 & X5); cbv zeta in *.
  - repeat split; try discriminate; try lia; try (destruct H as [<-|[]]; assumption). cbn [digits_value]. rewrite X1, X2. lia.
  - split; [|split; [|split]].
    + intros c I. apply in_app_iff in I. destruct I as [I|[<-|[]]]; [apply A; exact I|repeat split; assumption].
    + destruct s; discriminate.
    + rewrite value_app by exact A. rewrite V. cbn [digits_value]. rewrite X1, X2. reflexivity.
    + lia.
Qed.

Lemma atoi_plain c s : is_space c = false -> c <> "-"%char -> c <> "+"%char ->
  atoi (c :: s) = let v := digits_value 0 (c :: s) in if ((-2147483648 <=? v) && (v <=? 2147483647))%Z then Some v else None.
Proof.
  intros X Y Z0. unfold atoi. cbn [skip_space]. rewrite X. destruct c as [[] [] [] [] [] [] [] []]; try reflexivity; [exfalso; apply Z0; reflexivity|exfalso; apply Y; reflexivity].
Qed.

Lemma atoi_numeral s n : numeral s n -> (n <= 2147483647)%Z -> atoi s = Some n.
Proof.
  intros NU LE. destruct (numeral_facts s n NU) as (A & NE & V & P). destruct s as [|c s]; [congruence|].
  destruct (A c) as (_ & X & Y & Z0); [left; reflexivity|]. rewrite atoi_plain by assumption. cbv zeta. rewrite V.
  destruct (Z.leb_spec (-2147483648) n); [|lia]. destruct (Z.leb_spec n 2147483647); [reflexivity|lia].
Qed.

Lemma atoi_minus s n : numeral s n -> (n <= 2147483648)%Z -> atoi ("-"%char :: s) = Some (- n)%Z.
Proof.
  intros NU LE. destruct (numeral_facts s n NU) as (A & NE & V & P). unfold atoi. cbn [skip_space is_space]. cbn -[digits_value Z.leb]. rewrite V.
  destruct (Z.leb_spec (-2147483648) (- n)); [|lia]. destruct (Z.leb_spec (- n) 2147483647); [reflexivity|lia].
Qed.

(** What the words leave behind. *)
Fixpoint cfg_after (cs : list choice) (p : str) : str := match cs with [] => p | Config q :: r => cfg_after r q | _ :: r => cfg_after r p end.
Fixpoint until_after (cs : list choice) (u : Z) : Z :=
  match cs with [] => u | Until t :: r => until_after r (match atoi t with Some z => to_u32 z | None => u end) | _ :: r => until_after r u end.
Fixpoint shown (cs : list choice) : list act := match cs with [] => [] | ShowVersion :: r => Version :: shown r | _ :: r => shown r end.

Lemma arguments_line cs : forall rest p u, Forall in_range cs ->
  arguments (line cs ++ rest) p u = let (a, r) := arguments rest (cfg_after cs p) (until_after cs u) in (shown cs ++ a, r).
Proof.
  induction cs as [|c cs IH]; intros rest p u F.
  - cbn. destruct (arguments rest p u); reflexivity.
  - inversion F as [|? ? F1 F2]; subst. destruct c as [q|t|]; unfold line in *; cbn [flat_map words app].
    + cbn [arguments]. change (str_eqb (lit "-cfgPath") arg_cfg) with true. cbn match. rewrite IH by exact F2. reflexivity.
    + cbn [arguments]. change (str_eqb (lit "-runUntil") arg_cfg) with false. change (str_eqb (lit "-runUntil") arg_until) with true. cbn match.
      destruct F1 as (n & NU & LE). cbn [until_after cfg_after shown]. rewrite (atoi_numeral t n NU LE). rewrite IH by exact F2. reflexivity.
    + cbn [arguments]. change (str_eqb (lit "-version") arg_cfg) with false. change (str_eqb (lit "-version") arg_until) with false.
      change (str_eqb (lit "-version") arg_version) with true. cbn match. rewrite IH by exact F2. cbn [until_after cfg_after shown].
      destruct (arguments rest (cfg_after cs p) (until_after cs u)); reflexivity.
Qed.

Lemma shown_versions cs : versions cs (shown cs).
Proof. unfold versions. induction cs as [|[q|t|] cs (L & F)]; cbn [shown filter length]; auto. Qed.

Lemma cfg_last cs : forall p, (exists q l1 l2, cs = l1 ++ Config q :: l2 /\ (forall r, ~ In (Config r) l2) /\ cfg_after cs p = q) \/ ((forall q, ~ In (Config q) cs) /\ cfg_after cs p = p).
Proof.
  induction cs as [|c cs IH]; intro p; [right; split; [intros q []|reflexivity]|].
  destruct c as [q|t|]; cbn [cfg_after].
  - left. destruct (IH q) as [(r & l1 & l2 & -> & NI & E)|(NI & E)]; [exists r, (Config q :: l1), l2|exists q, [], cs]; auto.
  - destruct (IH p) as [(r & l1 & l2 & -> & NI & E)|(NI & E)]; [left; exists r, (Until t :: l1), l2; auto|right]. split; [intros q [X|X]; [discriminate|exact (NI q X)]|exact E].
  - destruct (IH p) as [(r & l1 & l2 & -> & NI & E)|(NI & E)]; [left; exists r, (ShowVersion :: l1), l2; auto|right]. split; [intros q [X|X]; [discriminate|exact (NI q X)]|exact E].
Qed.

Lemma cfg_is_chosen cs : path_chosen cs (cfg_after cs default_cfg).
Proof. destruct (cfg_last cs default_cfg) as [(q & l1 & l2 & E & NI & ->)|(NI & ->)]; [left; exists l1, l2; auto|right; auto]. Qed.

Lemma until_last cs : Forall in_range cs -> forall u, (exists t l1 l2, cs = l1 ++ Until t :: l2 /\ (forall r, ~ In (Until r) l2) /\ numeral t (until_after cs u)) \/ ((forall q, ~ In (Until q) cs) /\ until_after cs u = u).
Proof.
  induction cs as [|c cs IH]; intros F u; [right; split; [intros q []|reflexivity]|]. inversion F as [|? ? F1 F2]; subst.
  destruct c as [q|t|]; cbn [until_after].
  - destruct (IH F2 u) as [(r & l1 & l2 & -> & NI & E)|(NI & E)]; [left; exists r, (Config q :: l1), l2; auto|right]. split; [intros x [X|X]; [discriminate|exact (NI x X)]|exact E].
  - left. destruct F1 as (n & NU & LE). rewrite (atoi_numeral t n NU LE).
    destruct (IH F2 (to_u32 n)) as [(r & l1 & l2 & -> & NI & E)|(NI & E)]; [exists r, (Until t :: l1), l2; auto|exists t, [], cs].
    split; [reflexivity|split; [exact NI|]]. rewrite E. unfold to_u32. destruct (numeral_facts t n NU) as (_ & _ & _ & P). rewrite Z.mod_small by lia. exact NU.
  - destruct (IH F2 u) as [(r & l1 & l2 & -> & NI & E)|(NI & E)]; [left; exists r, (ShowVersion :: l1), l2; auto|right]. split; [intros x [X|X]; [discriminate|exact (NI x X)]|exact E].
Qed.

Lemma until_is_chosen cs : Forall in_range cs -> time_chosen cs (until_after cs 0).
Proof. intro F. destruct (until_last cs F 0) as [(t & l1 & l2 & E & NI & NU)|(NI & ->)]; [left; exists l1, t, l2; auto|right; auto]. Qed.

Lemma steps_started w p n : let (a, e) := steps w p n in started w p n a e.
Proof.
  unfold steps. destruct (w_load w p) as [d|] eqn:L.
  2:{ apply (started_fails w p n [] (LoadConfig p) 100%Z _ eq_refl); [constructor|]. intros (x & X). congruence. }
  assert (FL : fine w (LoadConfig p)) by (exists d; exact L).
  destruct (w_server_configured w) eqn:E1; cbn [negb].
  2:{ apply (started_fails w p n [(LoadConfig p, 100%Z)] ConfigureServer 210%Z _ eq_refl); [repeat constructor; assumption|cbn; congruence]. }
  destruct (w_server_started w) eqn:E2; cbn [negb].
  2:{ apply (started_fails w p n [(LoadConfig p, 100%Z); (ConfigureServer, 210%Z)] StartServer 220%Z _ eq_refl); [repeat constructor; assumption|cbn; congruence]. }
  destruct (w_services_configured w) eqn:E3; cbn [negb].
  2:{ apply (started_fails w p n [(LoadConfig p, 100%Z); (ConfigureServer, 210%Z); (StartServer, 220%Z)] ConfigureServices 400%Z _ eq_refl); [repeat constructor; assumption|cbn; congruence]. }
  destruct (w_services_started w) eqn:E4; cbn [negb].
  2:{ apply (started_fails w p n [(LoadConfig p, 100%Z); (ConfigureServer, 210%Z); (StartServer, 220%Z); (ConfigureServices, 400%Z)] StartServices 410%Z _ eq_refl); [repeat constructor; assumption|cbn; congruence]. }
  destruct (w_bridges w) eqn:E5; cbn [negb].
  2:{ apply (started_fails w p n [(LoadConfig p, 100%Z); (ConfigureServer, 210%Z); (StartServer, 220%Z); (ConfigureServices, 400%Z); (StartServices, 410%Z)] StartBridges 300%Z _ eq_refl); [repeat constructor; assumption|cbn; congruence]. }
  apply (started_well w p n d); [repeat constructor; assumption|exact L| |]; intro X; destruct (Z.eqb_spec n 0); congruence.
Qed.

(** The path and the duration chosen last are those the program is started with. *)
Theorem C107_chosen w cs : Forall in_range cs ->
  exists vs acts e p n, main w (line cs) = (vs ++ acts, e) /\ versions cs vs /\ path_chosen cs p /\ time_chosen cs n /\ started w p n acts e.
Proof.
  intros F. pose proof (steps_started w (cfg_after cs default_cfg) (until_after cs 0)) as ST.
  destruct (steps w (cfg_after cs default_cfg) (until_after cs 0)) as (a, e) eqn:SE.
  exists (shown cs), a, e, (cfg_after cs default_cfg), (until_after cs 0). split; [|auto using shown_versions, cfg_is_chosen, until_is_chosen].
  unfold main. rewrite <- (app_nil_r (line cs)), arguments_line by exact F. cbn [arguments]. rewrite SE, app_nil_r. reflexivity.
Qed.

(** A word that is no option ends the program before anything is loaded or started. *)
Theorem C107_refused w cs bad rest : Forall in_range cs -> ~ is_option bad ->
  exists vs, main w (line cs ++ bad :: rest) = (vs ++ [Refused bad], Returns (-1)) /\ versions cs vs.
Proof.
  intros F NO. exists (shown cs). split; [|apply shown_versions]. unfold main. rewrite arguments_line by exact F. cbn [arguments]. unfold is_option in NO.
  rewrite (eqb_not bad arg_cfg), (eqb_not bad arg_until), (eqb_not bad arg_version); [reflexivity| | |]; intros ->; apply NO; auto.
Qed.

Lemma arguments_ends l : forall p u a e, arguments l p u = (a, Stop e) -> forall c, e = Returns c -> c = (-1)%Z /\ exists x b, a = x ++ [Refused b].
Proof.
  enough (G : forall n l, length l < n -> forall p u a e, arguments l p u = (a, Stop e) -> forall c, e = Returns c -> c = (-1)%Z /\ exists x b, a = x ++ [Refused b])
    by (intros p u a e X; exact (G _ l (Nat.lt_succ_diag_r _) p u a e X)).
  induction n as [|n IH]; intros [|w0 l'] LT p u a e X c ->; try (cbn [length] in LT; lia); [discriminate X|]. cbn [arguments] in X. cbn [length] in LT.
  destruct (str_eqb w0 arg_cfg).
  { destruct l' as [|v l'']; [discriminate X|]. cbn [length] in LT. apply (IH l'' ltac:(lia) _ _ _ _ X c eq_refl). }
  destruct (str_eqb w0 arg_until).
  { destruct l' as [|v l'']; [discriminate X|]. destruct (atoi v); [|discriminate X]. cbn [length] in LT. apply (IH l'' ltac:(lia) _ _ _ _ X c eq_refl). }
  destruct (str_eqb w0 arg_version).
  { destruct (arguments l' p u) as (a1, p1) eqn:E. injection X as <- ->. destruct (IH l' ltac:(lia) _ _ _ _ E c eq_refl) as (-> & x & b & ->).
    split; [reflexivity|]. exists (Version :: x), b. reflexivity. }
  injection X as <- <-. split; [reflexivity|]. exists [], w0. reflexivity.
Qed.

Lemma main_ends w l a c : main w l = (a, Returns c) -> exists x y, a = x ++ [y] /\
  ((c = -1 /\ exists b, y = Refused b) \/ (c = 100 /\ exists q, y = LoadConfig q) \/ (c = 210 /\ y = ConfigureServer) \/ (c = 220 /\ y = StartServer) \/
   (c = 400 /\ y = ConfigureServices) \/ (c = 410 /\ y = StartServices) \/ (c = 300 /\ y = StartBridges) \/ (c = 0 /\ y = EndServer))%Z.
Proof.
  unfold main. destruct (arguments l default_cfg 0) as (a0, [e|p n]) eqn:A.
  - intros X. injection X as -> ->. destruct (arguments_ends _ _ _ _ _ A c eq_refl) as (-> & x & b & ->). exists x, (Refused b). split; [reflexivity|]. left. eauto.
  - unfold steps. intro X.
    assert (K : forall s y, a0 ++ s ++ [y] = (a0 ++ s) ++ [y]) by (intros; apply app_assoc).
    destruct (w_load w p); [|injection X as <- <-; exists a0, (LoadConfig p); split; [reflexivity|right; left; eauto]].
    destruct (w_server_configured w); cbn [negb] in X; [|injection X as <- <-; exists (a0 ++ [LoadConfig p]), ConfigureServer; split; [apply (K [_])|tauto]].
    destruct (w_server_started w); cbn [negb] in X; [|injection X as <- <-; eexists (a0 ++ [_; _]), StartServer; split; [apply (K [_; _])|tauto]].
    destruct (w_services_configured w); cbn [negb] in X; [|injection X as <- <-; eexists (a0 ++ [_; _; _]), ConfigureServices; split; [apply (K [_; _; _])|tauto]].
    destruct (w_services_started w); cbn [negb] in X; [|injection X as <- <-; eexists (a0 ++ [_; _; _; _]), StartServices; split; [apply (K [_; _; _; _])|tauto]].
    destruct (w_bridges w); cbn [negb] in X; [|injection X as <- <-; eexists (a0 ++ [_; _; _; _; _]), StartBridges; split; [apply (K [_; _; _; _; _])|tauto]].
    injection X as <- <-. eexists (a0 ++ [_; _; _; _; _; _; _; _]), EndServer. split; [apply (K [_; _; _; _; _; _; _; _])|tauto].
Qed.

(** The lowest eight bits of the code, which are all that a caller sees, tell where the program ended; they are 0 only after a full run. *)
Theorem C107_status w1 w2 l1 l2 a1 a2 c1 c2 : main w1 l1 = (a1, Returns c1) -> main w2 l2 = (a2, Returns c2) -> (c1 mod 256 = c2 mod 256)%Z ->
  exists x1 x2 y1 y2, a1 = x1 ++ [y1] /\ a2 = x2 ++ [y2] /\ same_step y1 y2 /\ ((c1 mod 256 = 0)%Z <-> y1 = EndServer).
Proof.
  intros M1 M2 E. destruct (main_ends _ _ _ _ M1) as (x1 & y1 & -> & D1). destruct (main_ends _ _ _ _ M2) as (x2 & y2 & -> & D2).
  exists x1, x2, y1, y2. split; [reflexivity|]. split; [reflexivity|].
  destruct D1 as [(-> & b1 & ->)|[(-> & b1 & ->)|[(-> & ->)|[(-> & ->)|[(-> & ->)|[(-> & ->)|[(-> & ->)|(-> & ->)]]]]]]];
  destruct D2 as [(-> & b2 & ->)|[(-> & b2 & ->)|[(-> & ->)|[(-> & ->)|[(-> & ->)|[(-> & ->)|[(-> & ->)|(-> & ->)]]]]]]];
    cbn in E; try discriminate E; (split; [exact Logic.I|split; intro Q; try reflexivity; try discriminate Q; cbn in Q; discriminate Q]).
Qed.

(** An option that is the last word reads behind the words. *)
Theorem C107_missing_refuted w cs o : Forall in_range cs -> o = lit "-cfgPath" \/ o = lit "-runUntil" -> snd (main w (line cs ++ [o])) = Undefined.
Proof.
  intros F O. unfold main. rewrite arguments_line by exact F. destruct O as [-> | ->]; reflexivity.
Qed.

(** A duration below 0 makes the program run for more than 68 years; one that is not a number goes unnoticed. *)
Theorem C107_negative_refuted w cs t n d : Forall in_range cs -> numeral t n -> (0 < n <= 2147483648)%Z -> (forall a, fine w a \/ exists p, a = LoadConfig p) ->
  (forall p, w_load w p = Some d) -> In (RunServices (4294967296 - n)) (fst (main w (line cs ++ [lit "-runUntil"; "-"%char :: t]))).
Proof.
  intros F NU LE OK LD. unfold main. rewrite arguments_line by exact F. cbn [arguments].
  change (str_eqb (lit "-runUntil") arg_cfg) with false. change (str_eqb (lit "-runUntil") arg_until) with true. cbn match. rewrite (atoi_minus t n NU) by lia.
  unfold steps. rewrite LD.
  destruct (OK ConfigureServer) as [X1|(? & X)]; [|discriminate X]. destruct (OK StartServer) as [X2|(? & X)]; [|discriminate X].
  destruct (OK ConfigureServices) as [X3|(? & X)]; [|discriminate X]. destruct (OK StartServices) as [X4|(? & X)]; [|discriminate X].
  destruct (OK StartBridges) as [X5|(? & X)]; [|discriminate X]. cbn [fine] in *. rewrite X1, X2, X3, X4, X5. cbn [negb fst].
  assert (U : to_u32 (- n) = (4294967296 - n)%Z) by (unfold to_u32; symmetry; apply (Zmod_unique _ _ (-1)); lia). rewrite U.
  destruct (Z.eqb_spec (4294967296 - n) 0); [lia|]. apply in_app_iff. right. do 6 apply in_cons. left. reflexivity.
Qed.

Theorem C107_unread_refuted w cs c t : Forall in_range cs -> is_digit c = false -> is_space c = false -> c <> "-"%char -> c <> "+"%char -> (forall q, ~ In (Until q) cs) ->
  main w (line cs ++ [lit "-runUntil"; c :: t]) = main w (line cs).
Proof.
  intros F D SP M P NU. unfold main. rewrite <- (app_nil_r (line cs)) at 2. rewrite !arguments_line by exact F. cbn [arguments].
  change (str_eqb (lit "-runUntil") arg_cfg) with false. change (str_eqb (lit "-runUntil") arg_until) with true. cbn match.
  rewrite atoi_plain by assumption. cbn [digits_value]. rewrite D. cbn [arguments].
  destruct (until_last cs F 0) as [(x & l1 & l2 & E & _)|(_ & E)]; [|rewrite E; reflexivity]. exfalso. apply (NU x). rewrite E. apply in_app_iff. right. left. reflexivity.
Qed.

(** If the bridges cannot be started, the services and the server, already running, are not ended. *)
Theorem C107_abandoned_refuted w cs : Forall in_range cs -> (forall p, w_load w p <> None) -> w_server_configured w = true -> w_server_started w = true ->
  w_services_configured w = true -> w_services_started w = true -> w_bridges w = false ->
  exists a, main w (line cs) = (a, Returns 300) /\ In StartServer a /\ In StartServices a /\ ~ In EndServices a /\ ~ In EndServer a.
Proof.
  intros F LD X1 X2 X3 X4 X5. unfold main. rewrite <- (app_nil_r (line cs)), arguments_line by exact F. cbn [arguments]. rewrite app_nil_r.
  unfold steps. specialize (LD (cfg_after cs default_cfg)). destruct (w_load w (cfg_after cs default_cfg)); [|congruence]. rewrite X1, X2, X3, X4, X5. cbn [negb].
  eexists. split; [reflexivity|]. destruct (shown_versions cs) as (_ & SV). rewrite Forall_forall in SV.
  rewrite !in_app_iff. repeat split; try (right; cbn; tauto);
    (intros [Q|Q]; [apply SV in Q; discriminate Q|cbn in Q; repeat (destruct Q as [Q|Q]; [discriminate Q|]); exact Q]).
Qed.

(** Concrete cases. *)
Definition there : surroundings := {| w_load := fun p => if str_eqb p (lit "b.xml") then Some 60%Z else None; w_server_configured := true; w_server_started := true;
  w_services_configured := true; w_services_started := true; w_bridges := true |}.
Definition here : surroundings := {| w_load := fun _ => Some 60%Z; w_server_configured := true; w_server_started := true;
  w_services_configured := true; w_services_started := true; w_bridges := false |}.
Definition cs1 : list choice := [Config (lit "a.xml"); ShowVersion; Until (lit "7"); Config (lit "b.xml"); Until (lit "12")].

Lemma seven : numeral (lit "7") 7. Proof. apply (numeral_digit 7). lia. Qed.
Lemma twelve : numeral (lit "12") 12. Proof. apply (numeral_more (lit "1") 1 2); [apply (numeral_digit 1); lia|lia]. Qed.

Example C107_case : Forall in_range cs1 /\
  main there (line cs1) = ([Version; LoadConfig (lit "b.xml"); ConfigureServer; StartServer; ConfigureServices; StartServices; StartBridges; RunServices 12; EndServices; EndServer], Returns 0) /\
  main there (line [ShowVersion]) = ([Version; LoadConfig (lit "cfg.xml")], Returns 100) /\
  main there (line cs1 ++ [lit "-h"; lit "x"]) = ([Version; Refused (lit "-h")], Returns (-1)) /\ ~ is_option (lit "-h").
Proof.
  repeat split; try reflexivity.
  - repeat constructor; [exists 7%Z|exists 12%Z]; split; try exact seven; try exact twelve; lia.
  - intros [X|[X|X]]; discriminate X.
Qed.

Definition everything : surroundings := {| w_load := fun _ => Some 60%Z; w_server_configured := true; w_server_started := true;
  w_services_configured := true; w_services_started := true; w_bridges := true |}.

Example C107_negative_case : (forall a, fine everything a \/ exists p, a = LoadConfig p) /\ (forall p, w_load everything p = Some 60%Z) /\ numeral (lit "12") 12 /\
  In (RunServices 4294967284) (fst (main everything [lit "-runUntil"; lit "-12"])) /\
  In (RunServices 60) (fst (main everything [lit "-runUntil"; lit "two"])).
Proof.
  split; [intros []; try (left; reflexivity); try (left; exact Logic.I); right; eauto|]. split; [reflexivity|]. split; [exact twelve|]. split; cbn; tauto.
Qed.

Example C107_abandoned_case : (forall p, w_load here p <> None) /\
  main here [] = ([LoadConfig (lit "cfg.xml"); ConfigureServer; StartServer; ConfigureServices; StartServices; StartBridges], Returns 300).
Proof. split; [discriminate|reflexivity]. Qed.

Print Assumptions C107_chosen.
Print Assumptions C107_refused.
Print Assumptions C107_status.
Print Assumptions C107_missing_refuted.
Print Assumptions C107_negative_refuted.
Print Assumptions C107_unread_refuted.
Print Assumptions C107_abandoned_refuted.

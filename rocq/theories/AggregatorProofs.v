(** Lemmas about the route aggregator. *)
From Coq Require Import List ZArith Bool Permutation Lia.
From Verif Require Import ZMap Run AggregatorModel AggregatorSpec.
Import ListNotations.
Open Scope list_scope.
Open Scope Z_scope.

(** *** What building matrix requests changes *)

(** Consecutive ids. *)
Fixpoint zseq (a : Z) (n : nat) : list Z :=
  match n with O => [] | S n' => a :: zseq (a + 1) n' end.

Lemma zseq_length a n : length (zseq a n) = n.
Proof. revert a. induction n; cbn; intros; auto. Qed.

Lemma In_zseq a n x : In x (zseq a n) <-> a <= x < a + Z.of_nat n.
Proof.
  revert a. induction n as [|n IH]; intros a; cbn [zseq In]; [lia|].
  rewrite IH. lia.
Qed.

Lemma NoDup_zseq a n : NoDup (zseq a n).
Proof.
  revert a. induction n as [|n IH]; intros a; cbn; constructor; auto.
  rewrite In_zseq. lia.
Qed.

Lemma zseq_app a n m : zseq a (n + m) = zseq a n ++ zseq (a + Z.of_nat n) m.
Proof.
  revert a. induction n as [|n IH]; intros a; cbn [zseq plus app].
  - rewrite Z.add_0_r. auto.
  - rewrite IH. do 3 f_equal. lia.
Qed.

Definition pend_of (s : rstate) (k : Z) : list Z :=
  match zget (a_pendAuto s) k with Some l => l | None => [] end.

(** The members that building a matrix request leaves alone. *)
Definition same_rest (s s' : rstate) : Prop :=
  a_states s' = a_states s /\ a_ground s' = a_ground s /\ a_next s' = a_next s /\
  a_opts s' = a_opts s /\ a_plans s' = a_plans s /\ a_rrId s' = a_rrId s /\
  a_resps s' = a_resps s /\ a_pendRoute s' = a_pendRoute s.

Lemma same_rest_refl s : same_rest s s.
Proof. unfold same_rest. auto 10. Qed.

Lemma same_rest_trans a b c : same_rest a b -> same_rest b c -> same_rest a c.
Proof.
  unfold same_rest. intros (A1&A2&A3&A4&A5&A6&A7&A8) (B1&B2&B3&B4&B5&B6&B7&B8).
  repeat split; congruence.
Qed.

(** A numbered leg, its route and its entries. *)
Definition route_of (x : leg * Z) : route :=
  {| rt_id := snd x; rt_from := fst (snd (fst x)); rt_to := snd (snd (fst x)) |}.

Definition numbered (a : Z) (ls : list leg) : list (leg * Z) :=
  combine ls (zseq a (length ls)).

Lemma numbered_fst a ls : map fst (numbered a ls) = ls.
Proof.
  unfold numbered. revert a. induction ls as [|l ls IH]; intros a; cbn; auto. f_equal. apply IH.
Qed.

Lemma numbered_snd a ls : map snd (numbered a ls) = zseq a (length ls).
Proof.
  unfold numbered. revert a. induction ls as [|l ls IH]; intros a; cbn; auto. f_equal. apply IH.
Qed.

Lemma numbered_app a l1 l2 :
  numbered a (l1 ++ l2) = numbered a l1 ++ numbered (a + Z.of_nat (length l1)) l2.
Proof.
  unfold numbered. revert a. induction l1 as [|x l1 IH]; intros a.
  - cbn. rewrite Z.add_0_r. auto.
  - cbn [length app zseq combine]. f_equal. rewrite IH. do 2 f_equal.
    replace (a + 1 + Z.of_nat (length l1)) with (a + Z.of_nat (S (length l1))) by lia. auto.
Qed.

Record built (k : Z) (s s' : rstate) (rr : list (leg * Z)) : Prop := {
  bu_rest : same_rest s s';
  bu_reqs : a_reqs s' = a_reqs s;
  bu_next : a_routeId s' = a_routeId s + Z.of_nat (length rr);
  bu_ids : map snd rr = zseq (a_routeId s) (length rr);
  bu_pend : pend_of s' k = pend_of s k ++ map snd rr;
  bu_has : zget (a_pendAuto s) k <> None -> zget (a_pendAuto s') k <> None;
  bu_other : forall j, j <> k -> zget (a_pendAuto s') j = zget (a_pendAuto s) j;
  bu_keys : NoDup (map fst (a_pendAuto s)) -> NoDup (map fst (a_pendAuto s'));
  bu_pairs : forall id, id < a_routeId s -> zget (a_pairs s') id = zget (a_pairs s) id;
  bu_pair : forall l id, In (l, id) rr -> zget (a_pairs s') id = Some (fst l)
}.

Lemma built_nil k s : built k s s [].
Proof.
  constructor; cbn; auto using same_rest_refl.
  - lia.
  - rewrite app_nil_r. auto.
  - intros l id [].
Qed.

Lemma built_app k s s1 s2 r1 r2 :
  built k s s1 r1 -> built k s1 s2 r2 -> built k s s2 (r1 ++ r2).
Proof.
  intros [A1 A2 A3 A4 A5 A6 A7 A8 A9 A10] [B1 B2 B3 B4 B5 B6 B7 B8 B9 B10].
  constructor; auto.
  - eapply same_rest_trans; eauto.
  - congruence.
  - rewrite app_length. lia.
  - rewrite map_app, A4, B4, app_length, A3, zseq_app. auto.
  - rewrite B5, A5, map_app, app_assoc. auto.
  - intros j N. rewrite B7, A7; auto.
  - intros id I. rewrite B9, A9; auto. lia.
  - intros l id I. apply in_app_or in I. destruct I as [I|I]; [|eauto].
    rewrite B9; eauto. assert (J : In id (map snd r1)) by (apply in_map_iff; exists (l, id); auto).
    rewrite A4, In_zseq in J. lia.
Qed.

Lemma numberLegs_spec k ls : forall s s' rs,
  numberLegs k s ls = (s', rs) ->
  built k s s' (numbered (a_routeId s) ls) /\ rs = map route_of (numbered (a_routeId s) ls).
Proof.
  induction ls as [|(p, (a, b)) ls IH]; intros s s' rs.
  - cbn. intros [= <- <-]. split; auto using built_nil.
  - cbn [numberLegs]. set (s1 := set_auto _ _ _ _ _).
    destruct (numberLegs k s1 ls) as (s2, rs2) eqn:N. intros [= <- <-].
    apply IH in N. destruct N as (B & R).
    change (numbered (a_routeId s) ((p, (a, b)) :: ls))
      with ([((p, (a, b)), a_routeId s)] ++ numbered (a_routeId s + 1) ls).
    change (a_routeId s1) with (a_routeId s + 1) in B, R. split.
    + eapply built_app; [|exact B].
      constructor; cbn -[zget zset]; auto.
      * unfold same_rest. cbn. auto 10.
      * unfold pend_of. cbn -[zget zset]. rewrite zget_set_same. auto.
      * intros _. rewrite zget_set_same. discriminate.
      * intros j N. apply zget_set_other. auto.
      * apply NoDup_keys_zset.
      * intros id I. apply zget_set_other. lia.
      * intros l id [X|[]]. injection X as <- <-. rewrite zget_set_same. auto.
    + rewrite R. reflexivity.
Qed.

(** The legs of the vehicles. *)
Definition legs (s : rstate) (q : areq) (v : Z) : list leg :=
  match startOf s q v with
  | None => []
  | Some start => initialLegs v start (eligible s q v) ++ betweenLegs v (eligible s q v)
  end.

Lemma legs_same s s' q v : same_rest s s' -> legs s' q v = legs s q v.
Proof.
  intros (A1&A2&A3&A4&_). unfold legs, startOf, eligible. rewrite A1, A4. auto.
Qed.

Lemma flat_map_ext' {A B} (f g : A -> list B) l :
  (forall x, f x = g x) -> flat_map f l = flat_map g l.
Proof. intros E. induction l; cbn; auto. rewrite E, IHl. auto. Qed.

Lemma vehicleRequests_spec k q vs : forall s s' ps,
  vehicleRequests k q s vs = (s', ps) ->
  let rr := numbered (a_routeId s) (flat_map (legs s q) vs) in
  built k s s' rr /\
  (forall x, In x rr -> exists p, In p ps /\ pr_vehicle p = p_vehicle (fst (fst x)) /\
                                   In (route_of x) (pr_routes p)) /\
  (forall p, In p ps -> pr_id p = 0 /\ forall r, In r (pr_routes p) -> In (rt_id r) (map snd rr)).
Proof.
  induction vs as [|v vs IH]; intros s s' ps; cbn [vehicleRequests].
  - intros [= <- <-]. cbn. split; [apply built_nil|]. split; intros ? [].
  - cbn [flat_map]. unfold legs at 1 3 5.
    destruct (startOf s q v) as [start|] eqn:SO; [|cbn [app]; apply IH].
    destruct (numberLegs k s _) as (s1, rs) eqn:N. apply numberLegs_spec in N.
    destruct N as (B & R).
    set (l1 := initialLegs v start (eligible s q v) ++ betweenLegs v (eligible s q v)) in *.
    destruct (vehicleRequests k q s1 vs) as (s2, ps2) eqn:V. intros [= <- <-].
    apply IH in V. cbn zeta in V.
    assert (E : flat_map (legs s1 q) vs = flat_map (legs s q) vs).
    { apply flat_map_ext'. intros x. apply legs_same. apply B. }
    rewrite E in V. rewrite (bu_next _ _ _ _ B) in V.
    assert (L : length (numbered (a_routeId s) l1) = length l1).
    { rewrite <- (map_length fst), numbered_fst. auto. }
    rewrite L in V. destruct V as (B2 & P1 & P2).
    cbn zeta. rewrite numbered_app. split; [eapply built_app; eauto|]. split.
    + intros x I. apply in_app_or in I. destruct I as [I|I].
      * eexists. split; [left; reflexivity|]. cbn. split; [|rewrite R; apply in_map; auto].
        assert (J : In (fst x) l1).
        { rewrite <- (numbered_fst (a_routeId s) l1). apply in_map. auto. }
        unfold l1, initialLegs, betweenLegs in J. apply in_app_or in J. destruct J as [J|J].
        -- apply in_map_iff in J. destruct J as (o & J & _). rewrite <- J. auto.
        -- apply in_flat_map in J. destruct J as (a & _ & J). apply in_flat_map in J.
           destruct J as (b & _ & J). destruct (Nat.eqb (fst a) (fst b)); [destruct J|].
           destruct J as [J|[]]. rewrite <- J. auto.
      * destruct (P1 x I) as (p & I1 & I2). exists p. split; [right; auto|auto].
    + intros p [<-|I].
      * cbn. split; auto. intros r J. rewrite R in J. rewrite map_app. apply in_or_app. left.
        apply in_map_iff in J. destruct J as (x & <- & J). cbn. apply in_map. auto.
      * destruct (P2 p I) as (I1 & I2). split; auto. intros r J. rewrite map_app.
        apply in_or_app. right. auto.
Qed.

Section Order.
Context (ord : list Z -> list Z) (ord_perm : forall l, Permutation (ord l) l).

Lemma ord_In l x : In x (ord l) <-> In x l.
Proof. split; apply Permutation_in; [|symmetry]; apply ord_perm. Qed.

Lemma ord_NoDup l : NoDup l -> NoDup (ord l).
Proof. apply Permutation_NoDup. symmetry. apply ord_perm. Qed.

(** *** Building the requests for one matrix *)

Definition filled (s : rstate) (q : areq) : areq :=
  {| q_id := q_id q;
     q_entities := match q_entities q with [] => ord (map fst (a_states s)) | l => l end;
     q_tasks := q_tasks q; q_planning := q_planning q; q_region := q_region q;
     q_relation := q_relation q |}.

Record builds (k : Z) (q : areq) (s s' : rstate) (o : list out) (rr : list (leg * Z)) : Prop := {
  bs_rest : same_rest s s';
  bs_reqs : a_reqs s' = zset (a_reqs s) k (filled s q);
  bs_legs : map fst rr = flat_map (legs s q) (q_entities (filled s q));
  bs_next : a_routeId s' = a_routeId s + Z.of_nat (length rr);
  bs_ids : map snd rr = zseq (a_routeId s) (length rr);
  bs_pend : zget (a_pendAuto s') k = Some (map snd rr);
  bs_other : forall j, j <> k -> zget (a_pendAuto s') j = zget (a_pendAuto s) j;
  bs_keys : NoDup (map fst (a_pendAuto s)) -> NoDup (map fst (a_pendAuto s'));
  bs_pairs : forall id, id < a_routeId s -> zget (a_pairs s') id = zget (a_pairs s) id;
  bs_pair : forall l id, In (l, id) rr -> zget (a_pairs s') id = Some (fst l);
  bs_sent : forall x, In x rr -> exists p, In (OutPlanReq p) o /\
              pr_vehicle p = p_vehicle (fst (fst x)) /\ In (route_of x) (pr_routes p);
  bs_out : forall y, In y o -> exists p, y = OutPlanReq p /\ pr_id p = 0 /\
             forall r, In r (pr_routes p) -> In (rt_id r) (map snd rr)
}.

Lemma legs_filled s q q' v :
  q_planning q' = q_planning q -> q_tasks q' = q_tasks q -> legs s q' v = legs s q v.
Proof. intros E1 E2. unfold legs, startOf, eligible. rewrite E1, E2. auto. Qed.

Lemma buildMatrix_spec k q s s' o :
  buildMatrix ord k q s = (s', o) -> exists rr, builds k q s s' o rr.
Proof.
  unfold buildMatrix. change ({| q_id := q_id q; q_entities := _; q_tasks := _; q_planning := _;
    q_region := _; q_relation := _ |}) with (filled s q).
  change (match q_entities q with [] => ord (map fst (a_states s)) | z :: l => z :: l end)
    with (q_entities (filled s q)).
  set (s1 := set_auto _ _ _ _ _).
  destruct (vehicleRequests k (filled s q) s1 (q_entities (filled s q))) as (s2, ps) eqn:V.
  intros [= <- <-]. apply vehicleRequests_spec in V. cbn zeta in V.
  change (a_routeId s1) with (a_routeId s) in V.
  assert (E : flat_map (legs s1 (filled s q)) (q_entities (filled s q)) =
              flat_map (legs s q) (q_entities (filled s q))).
  { apply flat_map_ext'. intros v. rewrite (legs_filled s1 q (filled s q)); auto. }
  rewrite E in V. clear E.
  set (rr := numbered (a_routeId s) (flat_map (legs s q) (q_entities (filled s q)))) in *.
  destruct V as ([B1 B2 B3 B4 B5 B6 B7 B8 B9 B10] & P1 & P2). exists rr.
  assert (IO : forall y, In y (map OutPlanReq (filter (fun p => negb (pr_ground p)) ps
                                         ++ filter pr_ground ps)) <->
               exists p, In p ps /\ y = OutPlanReq p).
  { intros y. rewrite in_map_iff. setoid_rewrite in_app_iff. setoid_rewrite filter_In. split.
    - intros (p & <- & I). exists p. tauto.
    - intros (p & I & ->). exists p. split; auto. destruct (pr_ground p); cbn; auto. }
  constructor; auto.
  - unfold rr. apply numbered_fst.
  - assert (PE : pend_of s1 k = []).
    { unfold pend_of. change (a_pendAuto s1) with (zset (a_pendAuto s) k ([] : list Z)).
      rewrite zget_set_same. auto. }
    rewrite PE in B5. cbn [app] in B5. unfold pend_of in B5.
    assert (H : zget (a_pendAuto s2) k <> None).
    { apply B6. cbn -[zget zset]. rewrite zget_set_same. discriminate. }
    clear B6. destruct (zget (a_pendAuto s2) k); [congruence|destruct H; auto].
  - intros j N. rewrite B7; auto. cbn -[zget zset]. apply zget_set_other. auto.
  - intros N. apply B8. cbn -[zget zset]. apply NoDup_keys_zset. auto.
  - intros x I. destruct (P1 x I) as (p & I1 & I2 & I3). exists p. split; auto.
    apply IO. exists p. auto.
  - intros y I. apply IO in I. destruct I as (p & I & ->). exists p. destruct (P2 p I). auto.
Qed.

(** *** Loops *)

(** Any property kept by the body of the option loop is kept by the loop. *)
Lemma checkOptions_ind (P : rstate -> list out -> Prop) s s' o :
  (forall s1 o1 k q s2 o2 rr, P s1 o1 -> zget (a_reqs s1) k = Some q ->
     forallb (fun t => zhas (a_opts s1) t) (q_tasks q) = true ->
     builds k q s1 s2 o2 rr -> P s2 (o1 ++ o2)) ->
  P s [] -> checkOptions ord s = (s', o) -> P s' o.
Proof.
  intros HS H0. unfold checkOptions.
  assert (G : forall ks s1 o1, P s1 o1 ->
    forall s' o, fold_left (fun st k =>
      match zget (a_reqs (fst st)) k with
      | None => st
      | Some q =>
          if forallb (fun t => zhas (a_opts (fst st)) t) (q_tasks q)
          then let (s', o) := buildMatrix ord k q (fst st) in (s', snd st ++ o)
          else st
      end) ks (s1, o1) = (s', o) -> P s' o).
  { induction ks as [|k ks IH]; intros s1 o1 H s2 o2; cbn [fold_left].
    - intros [= <- <-]. auto.
    - cbn [fst snd]. destruct (zget (a_reqs s1) k) as [q|] eqn:Q; [|apply IH; auto].
      destruct (forallb _ _) eqn:F; [|apply IH; auto].
      destruct (buildMatrix ord k q s1) as (s3, o3) eqn:B. apply IH.
      destruct (buildMatrix_spec _ _ _ _ _ B) as (rr & BS). eapply HS; eauto. }
  intros E. eapply G; eauto.
Qed.

(** What remains to be done at the end of a loop over keys. *)
Lemma loop_exit {S K} (body : S -> K -> S) (bad : S -> K -> Prop) :
  (forall s k, ~ bad (body s k) k) ->
  (forall s k j, bad (body s k) j -> bad s j) ->
  forall ks s k, bad (fold_left body ks s) k -> bad s k /\ ~ In k ks.
Proof.
  intros H1 H2. induction ks as [|k ks IH]; intros s j B; cbn in *; [auto|].
  apply IH in B. destruct B as (B & N). split; [eauto|]. intros [->|I]; [|auto].
  apply (H1 s j). auto.
Qed.

(** *** Answering a route request *)

Record responds (k : Z) (ids : list Z) (s s' : rstate) (o : list out) : Prop := {
  re_states : a_states s' = a_states s;
  re_next : a_next s' = a_next s;
  re_reqs : a_reqs s' = a_reqs s;
  re_opts : a_opts s' = a_opts s;
  re_routeId : a_routeId s' = a_routeId s;
  re_pendAuto : a_pendAuto s' = a_pendAuto s;
  re_pairs : a_pairs s' = a_pairs s;
  re_rrId : a_rrId s' = a_rrId s;
  re_pendRoute : a_pendRoute s' = a_pendRoute s;
  re_resps : forall r, zget (a_resps s') r = if zin r ids then None else zget (a_resps s) r;
  re_plans : forall id, zget (a_plans s') id = zget (a_plans s) id \/
      exists r ps c, In r ids /\ zget (a_resps s) r = Some ps /\ In (id, c) ps;
  re_plans_sub : forall id x, zget (a_plans s') id = Some x -> zget (a_plans s) id = Some x;
  re_out : exists rs, o = [OutRouteResp k rs] /\
      (forall r ps, In (r, ps) rs -> In r ids /\ zget (a_resps s) r = Some ps) /\
      (forallb (fun r => zhas (a_resps s) r) ids = true -> Permutation (map fst rs) ids)
}.

Lemma fold_zdel_get {A B} (ps : list (Z * B)) : forall (m : zmap A) id,
  zget (fold_left (fun m p => zdel m (fst p)) ps m) id = zget m id \/
  exists c, In (id, c) ps.
Proof.
  induction ps as [|(i, c) ps IH]; intros m id; cbn; auto.
  destruct (IH (zdel m i) id) as [->|(c' & I)]; [|right; eauto].
  rewrite zget_del. destruct (Z.eqb_spec id i); [subst; right; eauto|auto].
Qed.

Lemma fold_zdel_sub {A B} (ps : list (Z * B)) : forall (m : zmap A) id x,
  zget (fold_left (fun m p => zdel m (fst p)) ps m) id = Some x -> zget m id = Some x.
Proof.
  induction ps as [|(i, c) ps IH]; intros m id x H; cbn in *; auto.
  apply IH in H. rewrite zget_del in H. destruct (id =? i); [discriminate|auto].
Qed.

Lemma zhas_Some {A} (m : zmap A) k : zhas m k = true <-> exists x, zget m k = Some x.
Proof.
  unfold zhas. destruct (zget m k) as [x|]; split; intros H; eauto; try discriminate.
  destruct H; discriminate.
Qed.

Lemma sendRouteResponse_spec k ids s s' o :
  NoDup ids -> sendRouteResponse ord k ids s = (s', o) -> responds k ids s s' o.
Proof.
  intros ND. unfold sendRouteResponse.
  set (body := fun (st : rstate * list (Z * list (Z * Z))) (r : Z) => _).
  assert (G : forall l s0 acc s1 acc1, NoDup l -> fold_left body l (s0, acc) = (s1, acc1) ->
     a_states s1 = a_states s0 /\ a_next s1 = a_next s0 /\ a_reqs s1 = a_reqs s0 /\
     a_opts s1 = a_opts s0 /\ a_routeId s1 = a_routeId s0 /\ a_pendAuto s1 = a_pendAuto s0 /\
     a_pairs s1 = a_pairs s0 /\ a_rrId s1 = a_rrId s0 /\ a_pendRoute s1 = a_pendRoute s0 /\
     (forall r, zget (a_resps s1) r = if zin r l then None else zget (a_resps s0) r) /\
     (forall id, zget (a_plans s1) id = zget (a_plans s0) id \/
        exists r ps c, In r l /\ zget (a_resps s0) r = Some ps /\ In (id, c) ps) /\
     (forall id x, zget (a_plans s1) id = Some x -> zget (a_plans s0) id = Some x) /\
     (exists rs, acc1 = acc ++ rs /\
        (forall r ps, In (r, ps) rs -> In r l /\ zget (a_resps s0) r = Some ps) /\
        (forallb (fun r => zhas (a_resps s0) r) l = true -> map fst rs = l))).
  { induction l as [|r l IH]; intros s0 acc s1 acc1 N E.
    - cbn in E. injection E as <- <-. repeat split; auto.
      exists []. rewrite app_nil_r. repeat split; auto; destruct H.
    - apply NoDup_cons_iff in N. destruct N as (N1 & N2).
      cbn [fold_left] in E. unfold body in E at 2. cbn [fst snd] in E.
      destruct (zget (a_resps s0) r) as [ps|] eqn:G.
      + destruct (IH _ _ _ _ N2 E) as (F1&F2&F3&F4&F5&F6&F7&F8&F9&RS&PL&PS&(rs&F10&F11&F12)).
        cbn -[zget zdel zin forallb] in *.
        repeat split; auto.
        * intros x. rewrite RS. unfold zin. cbn. rewrite zget_del.
          destruct (Z.eqb_spec x r); subst; cbn; [destruct (existsb _ l); auto|].
          auto.
        * intros id. destruct (PL id) as [->|(r' & ps' & c & I1 & I2 & I3)].
          -- destruct (fold_zdel_get ps (a_plans s0) id) as [->|(c & I)]; auto.
             right. exists r, ps, c. cbn. auto.
          -- right. exists r', ps', c. rewrite zget_del in I2.
             destruct (Z.eqb_spec r' r); [discriminate|]. cbn. auto.
        * intros id x X. apply PS in X. eapply fold_zdel_sub; eauto.
        * exists ((r, ps) :: rs). rewrite F10, <- app_assoc. split; auto. split.
          -- intros x px [X|X]; [injection X as <- <-; cbn; auto|].
             destruct (F11 x px X) as (X1 & X2). cbn. split; auto.
             rewrite zget_del in X2. destruct (Z.eqb_spec x r); [discriminate|auto].
          -- cbn [forallb map fst]. intros H. apply andb_prop in H. destruct H as (_ & H).
             f_equal. apply F12. rewrite forallb_forall in *. intros x X. specialize (H x X).
             apply zhas_Some in H. apply zhas_Some. destruct H as (y & H). exists y.
             rewrite zget_del. destruct (Z.eqb_spec x r); [subst; tauto|auto].
      + destruct (IH _ _ _ _ N2 E) as (F1&F2&F3&F4&F5&F6&F7&F8&F9&RS&PL&PS&(rs&F10&F11&F12)).
        repeat split; auto.
        * intros x. rewrite RS. unfold zin. cbn.
          destruct (Z.eqb_spec x r); subst; cbn; [|auto]. destruct (existsb _ l); auto.
        * intros id. destruct (PL id) as [->|(r' & ps' & c & I1 & I2 & I3)]; auto.
          right. exists r', ps', c. cbn. auto.
        * exists rs. split; auto. split.
          -- intros x px X. destruct (F11 x px X). cbn. auto.
          -- cbn [forallb]. unfold zhas at 1. rewrite G. discriminate. }
  destruct (fold_left body (ord ids) (s, [])) as (s1, rs1) eqn:F. intros [= <- <-].
  destruct (G _ _ _ _ _ (ord_NoDup _ ND) F)
    as (F1&F2&F3&F4&F5&F6&F7&F8&F9&RS&PL&PS&(rs&F10&F11&F12)).
  constructor; auto.
  - intros r. rewrite RS. destruct (zin r (ord ids)) eqn:Z1, (zin r ids) eqn:Z2; auto.
    + apply zin_In in Z1. apply zin_false in Z2. rewrite ord_In in Z1. tauto.
    + apply zin_In in Z2. apply zin_false in Z1. rewrite ord_In in Z1. tauto.
  - intros id. destruct (PL id) as [->|(r' & ps' & c & I1 & I2 & I3)]; auto.
    right. exists r', ps', c. rewrite ord_In in I1. auto.
  - exists rs. cbn in F10. subst rs1. split; auto. split.
    + intros r ps I. destruct (F11 r ps I) as (I1 & I2). rewrite ord_In in I1. auto.
    + intros H. rewrite F12; auto. rewrite forallb_forall in *. intros x X. apply H.
      apply ord_In. auto.
Qed.

(** *** Sending a matrix *)

Record mails (k : Z) (q : areq) (ids : list Z) (s s' : rstate) (o : list out) : Prop := {
  ma_states : a_states s' = a_states s;
  ma_next : a_next s' = a_next s;
  ma_reqs : a_reqs s' = a_reqs s;
  ma_opts : a_opts s' = [];
  ma_routeId : a_routeId s' = a_routeId s;
  ma_pendAuto : a_pendAuto s' = a_pendAuto s;
  ma_rrId : a_rrId s' = a_rrId s;
  ma_pendRoute : a_pendRoute s' = a_pendRoute s;
  ma_plans : forall id, zget (a_plans s') id = if zin id ids then None else zget (a_plans s) id;
  ma_pairs : forall id, ~ In id ids -> zget (a_pairs s') id = zget (a_pairs s) id;
  ma_resps : forall r, zget (a_resps s') r = zget (a_resps s) r \/
      exists id c, In id ids /\ zget (a_plans s) id = Some (r, c);
  ma_out : exists entries,
      o = [OutMatrix (q_id q) (q_region q) (q_relation q) (q_tasks q) entries;
           OutStatus (map fst (filter (fun e => snd e <? 0) entries))] /\
      entries = flat_map (fun id => match zget (a_pairs s) id, zget (a_plans s) id with
                                    | Some p, Some (_, c) => [(p, c)]
                                    | _, _ => []
                                    end) (ord ids)
}.

Lemma flat_map_ext_in' {A B} (f g : A -> list B) l :
  (forall x, In x l -> f x = g x) -> flat_map f l = flat_map g l.
Proof.
  intros E. induction l as [|x l IH]; cbn; auto. rewrite E, IH; cbn; auto.
  intros y I. apply E. right. auto.
Qed.

Lemma sendMatrix_spec k q ids s s' o :
  NoDup ids -> zget (a_reqs s) k = Some q -> sendMatrix ord k ids s = (s', o) ->
  mails k q ids s s' o.
Proof.
  intros ND RQ. unfold sendMatrix.
  set (body := fun (st : rstate * list (pairing * Z)) (id : Z) => _).
  assert (G : forall l s0 acc s1 acc1, NoDup l -> fold_left body l (s0, acc) = (s1, acc1) ->
     a_states s1 = a_states s0 /\ a_next s1 = a_next s0 /\ a_reqs s1 = a_reqs s0 /\
     a_opts s1 = a_opts s0 /\ a_routeId s1 = a_routeId s0 /\ a_pendAuto s1 = a_pendAuto s0 /\
     a_rrId s1 = a_rrId s0 /\ a_pendRoute s1 = a_pendRoute s0 /\
     (forall id, zget (a_plans s1) id = if zin id l then None else zget (a_plans s0) id) /\
     (forall id, ~ In id l -> zget (a_pairs s1) id = zget (a_pairs s0) id) /\
     (forall r, zget (a_resps s1) r = zget (a_resps s0) r \/
        exists id c, In id l /\ zget (a_plans s0) id = Some (r, c)) /\
     acc1 = acc ++ flat_map (fun id => match zget (a_pairs s0) id, zget (a_plans s0) id with
                                    | Some p, Some (_, c) => [(p, c)]
                                    | _, _ => []
                                    end) l).
  { induction l as [|id l IH]; intros s0 acc s1 acc1 N E.
    - cbn in E. injection E as <- <-. repeat split; auto. cbn. rewrite app_nil_r. auto.
    - apply NoDup_cons_iff in N. destruct N as (N1 & N2).
      cbn [fold_left] in E. unfold body in E at 2. cbn [fst snd] in E.
      destruct (zget (a_plans s0) id) as [(r, c)|] eqn:G.
      + set (pr := match zget (a_pairs s0) id with
                   | Some p => (zdel (a_pairs s0) id, acc ++ [(p, c)])
                   | None => (a_pairs s0, acc) end) in E.
        assert (PR : (forall x, x <> id -> zget (fst pr) x = zget (a_pairs s0) x) /\
                     snd pr = acc ++ match zget (a_pairs s0) id with
                                     | Some p => [(p, c)] | None => [] end).
        { subst pr. destruct (zget (a_pairs s0) id); cbn; split; auto.
          - intros x X. apply zget_del_other. auto.
          - rewrite app_nil_r. auto. }
        destruct pr as (pairs, acc0). cbn [fst snd] in PR. destruct PR as (PR1 & ->).
        destruct (IH _ _ _ _ N2 E) as (F1&F2&F3&F4&F5&F6&F7&F8&PL&PA&RS&EN).
        cbn -[zget zdel zin] in *.
        repeat split; auto.
        * intros x. rewrite PL. unfold zin. cbn. rewrite zget_del.
          destruct (Z.eqb_spec x id); subst; cbn; [destruct (existsb _ l); auto|auto].
        * intros x X. rewrite PA; auto.
        * intros x. destruct (RS x) as [->|(i & c' & I1 & I2)].
          -- rewrite zget_del. destruct (Z.eqb_spec x r); auto. subst. right. exists id, c. auto.
          -- right. exists i, c'. rewrite zget_del in I2.
             destruct (Z.eqb_spec i id); [discriminate|auto].
        * rewrite EN, G, <- app_assoc. f_equal.
          assert (FE : flat_map (fun id0 => match zget pairs id0 with
                         | Some p => match zget (zdel (a_plans s0) id) id0 with
                                     | Some (_, c0) => [(p, c0)] | None => [] end
                         | None => [] end) l =
                   flat_map (fun id0 => match zget (a_pairs s0) id0 with
                         | Some p => match zget (a_plans s0) id0 with
                                     | Some (_, c0) => [(p, c0)] | None => [] end
                         | None => [] end) l).
          { apply flat_map_ext_in'. intros x X.
            assert (x <> id) by (intros ->; tauto). rewrite PR1, zget_del_other; auto. }
          rewrite FE. destruct (zget (a_pairs s0) id); auto.
      + destruct (IH _ _ _ _ N2 E) as (F1&F2&F3&F4&F5&F6&F7&F8&PL&PA&RS&EN).
        repeat split; auto.
        * intros x. rewrite PL. unfold zin. cbn.
          destruct (Z.eqb_spec x id); subst; cbn; [|auto]. destruct (existsb _ l); auto.
        * intros x X. apply PA. intros Y. apply X. cbn. auto.
        * intros x. destruct (RS x) as [->|(i & c' & I1 & I2)]; auto.
          right. exists i, c'. cbn. auto.
        * rewrite EN. cbn [flat_map]. rewrite G. destruct (zget (a_pairs s0) id); auto. }
  destruct (fold_left body (ord ids) (s, [])) as (s1, en) eqn:F. rewrite RQ. intros [= <- <-].
  destruct (G _ _ _ _ _ (ord_NoDup _ ND) F)
    as (F1&F2&F3&F4&F5&F6&F7&F8&PL&PA&RS&EN).
  constructor; auto.
  - intros r. cbn. rewrite PL. destruct (zin r (ord ids)) eqn:Z1, (zin r ids) eqn:Z2; auto.
    + apply zin_In in Z1. apply zin_false in Z2. rewrite ord_In in Z1. tauto.
    + apply zin_In in Z2. apply zin_false in Z1. rewrite ord_In in Z1. tauto.
  - intros id I. cbn. apply PA. rewrite ord_In. auto.
  - intros r. cbn. destruct (RS r) as [->|(i & c' & I1 & I2)]; auto.
    right. exists i, c'. rewrite ord_In in I1. auto.
  - exists en. auto.
Qed.

(** *** The loops over pending requests *)

Definition without_route (s : rstate) (k : Z) : rstate :=
  set_route s (a_rrId s) (a_resps s) (zdel (a_pendRoute s) k).

Lemma checkRoutes_ind (P : rstate -> list out -> Prop) s s' o :
  (forall s1 o1 k ids s2 o2, P s1 o1 -> zget (a_pendRoute s1) k = Some ids ->
     forallb (fun r => zhas (a_resps s1) r) ids = true ->
     sendRouteResponse ord k ids s1 = (s2, o2) -> P (without_route s2 k) (o1 ++ o2)) ->
  P s [] -> checkRoutes ord s = (s', o) -> P s' o.
Proof.
  intros HS H0. unfold checkRoutes. set (body := fun (st : rstate * list out) (k : Z) => _).
  assert (G : forall ks s1 o1, P s1 o1 -> forall s' o, fold_left body ks (s1, o1) = (s', o) -> P s' o).
  { induction ks as [|k ks IH]; intros s1 o1 H s2 o2; cbn [fold_left].
    - intros [= <- <-]. auto.
    - unfold body at 2. cbn [fst snd].
      destruct (zget (a_pendRoute s1) k) as [ids|] eqn:Q; [|apply IH; auto].
      destruct (forallb _ _) eqn:F; [|apply IH; auto].
      destruct (sendRouteResponse ord k ids s1) as (s3, o3) eqn:B. apply IH.
      apply (HS _ _ _ _ _ _ H Q F B). }
  intros E. eapply G; eauto.
Qed.

Definition route_due (s : rstate) (k : Z) : Prop :=
  exists ids, zget (a_pendRoute s) k = Some ids /\
              forallb (fun r => zhas (a_resps s) r) ids = true.

Lemma sendRouteResponse_frame k ids s s' o :
  sendRouteResponse ord k ids s = (s', o) ->
  a_pendRoute s' = a_pendRoute s /\
  forall r, zhas (a_resps s') r = true -> zhas (a_resps s) r = true.
Proof.
  unfold sendRouteResponse.
  set (body := fun (st : rstate * list (Z * list (Z * Z))) (r : Z) => _).
  assert (G : forall l s0 acc s1 acc1, fold_left body l (s0, acc) = (s1, acc1) ->
     a_pendRoute s1 = a_pendRoute s0 /\
     forall r, zhas (a_resps s1) r = true -> zhas (a_resps s0) r = true).
  { induction l as [|r l IH]; intros s0 acc s1 acc1 E.
    - cbn in E. injection E as <- <-. auto.
    - cbn [fold_left] in E. unfold body in E at 2. cbn [fst snd] in E.
      destruct (zget (a_resps s0) r) as [ps|] eqn:G; [|eauto].
      apply IH in E. cbn -[zget zdel] in E. destruct E as (E1 & E2). split; auto.
      intros x X. apply E2 in X. revert X. unfold zhas. rewrite zget_del.
      destruct (x =? r); [discriminate|auto]. }
  destruct (fold_left body (ord ids) (s, [])) as (s1, rs1) eqn:F. intros [= <- <-].
  apply (G _ _ _ _ _ F).
Qed.

Lemma checkRoutes_done s s' o k : checkRoutes ord s = (s', o) -> ~ route_due s' k.
Proof.
  unfold checkRoutes. set (body := fun (st : rstate * list out) (k : Z) => _). intros E D.
  assert (H1 : forall st j, ~ route_due (fst (body st j)) j).
  { intros st j (ids & D1 & D2). unfold body in D1, D2.
    destruct (zget (a_pendRoute (fst st)) j) as [ids1|] eqn:Q; [|congruence].
    destruct (forallb _ ids1) eqn:F; [|congruence].
    destruct (sendRouteResponse ord j ids1 (fst st)) as (s3, o3).
    cbn -[zget zdel] in D1. rewrite zget_del_same in D1. discriminate. }
  assert (H2 : forall st i j, route_due (fst (body st i)) j -> route_due (fst st) j).
  { intros st i j (ids & D1 & D2). unfold body in D1, D2.
    destruct (zget (a_pendRoute (fst st)) i) as [ids1|] eqn:Q; [|exists ids; auto].
    destruct (forallb _ ids1) eqn:F; [|exists ids; auto].
    destruct (sendRouteResponse ord i ids1 (fst st)) as (s3, o3) eqn:B.
    apply sendRouteResponse_frame in B. destruct B as (B1 & B2).
    cbn -[zget zdel zhas] in D1, D2. rewrite B1, zget_del in D1.
    destruct (j =? i); [discriminate|]. exists ids. split; auto.
    rewrite forallb_forall in *. auto. }
  pose proof (loop_exit body (fun st j => route_due (fst st) j) H1 H2
                (ord (map fst (a_pendRoute s))) (s, []) k) as L.
  rewrite E in L. destruct (L D) as ((ids & L1 & _) & L2). apply L2. apply ord_In.
  apply In_zget in L1. apply (in_map fst) in L1. auto.
Qed.

Definition without_auto (s : rstate) (k : Z) : rstate :=
  let s2 := set_reqs s (a_next s) (zdel (a_reqs s) k) in
  set_auto s2 (a_routeId s2) (a_plans s2) (zdel (a_pendAuto s2) k) (a_pairs s2).

Lemma checkMatrices_ind (P : rstate -> list out -> Prop) s s' o :
  (forall s1 o1 k ids s2 o2, P s1 o1 -> zget (a_pendAuto s1) k = Some ids ->
     forallb (fun r => zhas (a_plans s1) r) ids = true ->
     sendMatrix ord k ids s1 = (s2, o2) -> P (without_auto s2 k) (o1 ++ o2)) ->
  P s [] -> checkMatrices ord s = (s', o) -> P s' o.
Proof.
  intros HS H0. unfold checkMatrices. set (body := fun (st : rstate * list out) (k : Z) => _).
  assert (G : forall ks s1 o1, P s1 o1 -> forall s' o, fold_left body ks (s1, o1) = (s', o) -> P s' o).
  { induction ks as [|k ks IH]; intros s1 o1 H s2 o2; cbn [fold_left].
    - intros [= <- <-]. auto.
    - unfold body at 2. cbn [fst snd].
      destruct (zget (a_pendAuto s1) k) as [ids|] eqn:Q; [|apply IH; auto].
      destruct (forallb _ _) eqn:F; [|apply IH; auto].
      destruct (sendMatrix ord k ids s1) as (s3, o3) eqn:B. apply IH.
      apply (HS _ _ _ _ _ _ H Q F B). }
  intros E. eapply G; eauto.
Qed.

Definition matrix_due (s : rstate) (k : Z) : Prop :=
  exists ids, zget (a_pendAuto s) k = Some ids /\
              forallb (fun r => zhas (a_plans s) r) ids = true.

Lemma sendMatrix_frame k ids s s' o :
  sendMatrix ord k ids s = (s', o) ->
  a_pendAuto s' = a_pendAuto s /\
  forall r, zhas (a_plans s') r = true -> zhas (a_plans s) r = true.
Proof.
  unfold sendMatrix.
  set (body := fun (st : rstate * list (pairing * Z)) (id : Z) => _).
  assert (G : forall l s0 acc s1 acc1, fold_left body l (s0, acc) = (s1, acc1) ->
     a_pendAuto s1 = a_pendAuto s0 /\
     forall r, zhas (a_plans s1) r = true -> zhas (a_plans s0) r = true).
  { induction l as [|id l IH]; intros s0 acc s1 acc1 E.
    - cbn in E. injection E as <- <-. auto.
    - cbn [fold_left] in E. unfold body in E at 2. cbn [fst snd] in E.
      destruct (zget (a_plans s0) id) as [(r, c)|] eqn:G; [|eauto].
      destruct (match zget (a_pairs s0) id with Some p => _ | None => _ end) as (pr, ac).
      apply IH in E. cbn -[zget zdel] in E. destruct E as (E1 & E2). split; auto.
      intros x X. apply E2 in X. revert X. unfold zhas. rewrite zget_del.
      destruct (x =? id); [discriminate|auto]. }
  destruct (fold_left body (ord ids) (s, [])) as (s1, rs1) eqn:F.
  apply G in F. destruct (zget (a_reqs s) k); intros [= <- <-]; auto.
Qed.

Lemma checkMatrices_done s s' o k : checkMatrices ord s = (s', o) -> ~ matrix_due s' k.
Proof.
  unfold checkMatrices. set (body := fun (st : rstate * list out) (k : Z) => _). intros E D.
  assert (H1 : forall st j, ~ matrix_due (fst (body st j)) j).
  { intros st j (ids & D1 & D2). unfold body in D1, D2.
    destruct (zget (a_pendAuto (fst st)) j) as [ids1|] eqn:Q; [|congruence].
    destruct (forallb _ ids1) eqn:F; [|congruence].
    destruct (sendMatrix ord j ids1 (fst st)) as (s3, o3).
    cbn -[zget zdel] in D1. rewrite zget_del_same in D1. discriminate. }
  assert (H2 : forall st i j, matrix_due (fst (body st i)) j -> matrix_due (fst st) j).
  { intros st i j (ids & D1 & D2). unfold body in D1, D2.
    destruct (zget (a_pendAuto (fst st)) i) as [ids1|] eqn:Q; [|exists ids; auto].
    destruct (forallb _ ids1) eqn:F; [|exists ids; auto].
    destruct (sendMatrix ord i ids1 (fst st)) as (s3, o3) eqn:B.
    apply sendMatrix_frame in B. destruct B as (B1 & B2).
    cbn -[zget zdel zhas] in D1, D2. rewrite B1, zget_del in D1.
    destruct (j =? i); [discriminate|]. exists ids. split; auto.
    rewrite forallb_forall in *. auto. }
  pose proof (loop_exit body (fun st j => matrix_due (fst st) j) H1 H2
                (ord (map fst (a_pendAuto s))) (s, []) k) as L.
  rewrite E in L. destruct (L D) as ((ids & L1 & _) & L2). apply L2. apply ord_In.
  apply In_zget in L1. apply (in_map fst) in L1. auto.
Qed.
End Order.

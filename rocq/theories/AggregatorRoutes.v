(** The invariant behind the answers to route requests. *)
From Coq Require Import List ZArith Bool Permutation Lia.
From Verif Require Import ZMap Run AggregatorModel AggregatorSpec AggregatorProofs.
Import ListNotations.
Open Scope list_scope.
Open Scope Z_scope.

Section Order.
Context (ord : list Z -> list Z) (ord_perm : forall l, Permutation (ord l) l).

Notation arun := (run (rstep ord) rinit).

Lemma NoDup_app_l {A} (a b : list A) : NoDup (a ++ b) -> NoDup a.
Proof.
  induction a as [|x a IH]; cbn; intros N; [constructor|].
  apply NoDup_cons_iff in N. destruct N as (N1 & N2). constructor; auto.
  intros I. apply N1. apply in_or_app. auto.
Qed.

Lemma NoDup_app_disjoint {A} (a b : list A) x : NoDup (a ++ b) -> In x a -> In x b -> False.
Proof.
  induction a as [|y a IH]; cbn; intros N; [intros []|].
  apply NoDup_cons_iff in N. destruct N as (N1 & N2). intros [->|I] J; [|auto].
  apply N1. apply in_or_app. auto.
Qed.

(** *** Ranges of ids *)

Record ranges (s : rstate) (l : list out) : Prop := {
  g_route : 1000000 <= a_routeId s;
  g_rr : 1 <= a_rrId s;
  g_pend : forall k ids id, zget (a_pendAuto s) k = Some ids -> In id ids ->
           1000000 <= id < a_routeId s;
  g_pendNoDup : forall k ids, zget (a_pendAuto s) k = Some ids -> NoDup ids;
  g_reqs : forall k ids, zget (a_pendAuto s) k = Some ids -> exists q, zget (a_reqs s) k = Some q;
  g_rpend : forall k ids id, zget (a_pendRoute s) k = Some ids -> In id ids -> 1 <= id < a_rrId s;
  g_rNoDup : forall k ids, zget (a_pendRoute s) k = Some ids -> NoDup ids;
  g_sent : forall p, In (OutPlanReq p) l ->
           (pr_id p = 0 /\ forall r, In r (pr_routes p) -> 1000000 <= rt_id r < a_routeId s) \/
           (1 <= pr_id p < a_rrId s /\ forall r, In r (pr_routes p) -> rt_id r < 1000000);
  g_plans : forall id r c, zget (a_plans s) id = Some (r, c) -> 1000000 <= id -> r = 0;
  g_resps : forall r ps x, zget (a_resps s) r = Some ps -> r <> 0 -> In x ps -> fst x < 1000000
}.

Lemma orderly_prefix evs e t o :
  orderly (evs ++ [e]) (t ++ [(e, o)]) -> orderly evs t.
Proof.
  intros [D L E]. constructor.
  - unfold route_ids in *. rewrite flat_map_app in D. apply NoDup_app_l in D. auto.
  - intros r x I. apply (L r x). apply in_or_app. auto.
  - intros t1 i ps o1 t2 ->. apply (E t1 i ps o1 (t2 ++ [(e, o)])).
    rewrite <- app_assoc. auto.
Qed.

Lemma fold_zset_get {A} (i : A) (ps : list (Z * Z)) : forall (m : zmap (A * Z)) id r c,
  zget (fold_left (fun m p => zset m (fst p) (i, snd p)) ps m) id = Some (r, c) ->
  zget m id = Some (r, c) \/ r = i /\ In (id, c) ps.
Proof.
  induction ps as [|(j, d) ps IH]; intros m id r c H; cbn in *; auto.
  apply IH in H. destruct H as [H|(-> & H)]; auto. rewrite zget_set in H.
  destruct (Z.eqb_spec id j); [|auto]. injection H as <- <-. subst. auto.
Qed.

(** The loops keep the ranges. *)
Lemma build_ranges s1 l k q s2 o2 rr :
  ranges s1 l -> zget (a_reqs s1) k = Some q -> builds ord k q s1 s2 o2 rr ->
  ranges s2 (l ++ o2).
Proof.
  intros [A B PD PN PR RP RN SD PL RS] KQ BS.
  destruct (bs_rest _ _ _ _ _ _ _ BS) as (_&_&_&_&E1&E2&E3&E4).
  assert (NX := bs_next _ _ _ _ _ _ _ BS).
  assert (IDS : forall id, In id (map snd rr) -> a_routeId s1 <= id < a_routeId s2).
  { intros id I. rewrite (bs_ids _ _ _ _ _ _ _ BS), In_zseq in I. lia. }
  constructor; rewrite ?E1, ?E2, ?E3, ?E4; auto.
  - lia.
  - intros j ids id J I. destruct (Z.eq_dec j k) as [->|N].
    + rewrite (bs_pend _ _ _ _ _ _ _ BS) in J. injection J as <-. apply IDS in I. lia.
    + rewrite (bs_other _ _ _ _ _ _ _ BS _ N) in J. specialize (PD _ _ _ J I). lia.
  - intros j ids J. destruct (Z.eq_dec j k) as [->|N].
    + rewrite (bs_pend _ _ _ _ _ _ _ BS) in J. injection J as <-.
      rewrite (bs_ids _ _ _ _ _ _ _ BS). apply NoDup_zseq.
    + rewrite (bs_other _ _ _ _ _ _ _ BS _ N) in J. eauto.
  - intros j ids J. rewrite (bs_reqs _ _ _ _ _ _ _ BS), zget_set.
    destruct (Z.eqb_spec j k); [eauto|].
    rewrite (bs_other _ _ _ _ _ _ _ BS) in J; eauto.
  - intros p I. apply in_app_or in I. destruct I as [I|I].
    + destruct (SD p I) as [(X & Y)|(X & Y)]; [left|right]; split; auto.
      intros r J. specialize (Y r J). lia.
    + destruct (bs_out _ _ _ _ _ _ _ BS _ I) as (p' & X & Y & W). injection X as <-.
      left. split; auto. intros r J. apply W, IDS in J. lia.
Qed.

Lemma checkOptions_ranges s s' o l :
  checkOptions ord s = (s', o) -> ranges s l -> ranges s' (l ++ o).
Proof.
  intros C G. eapply (checkOptions_ind ord (fun s1 o1 => ranges s1 (l ++ o1))); [| |exact C].
  - intros s1 o1 k q s2 o2 rr G1 Q _ BS. rewrite app_assoc. eapply build_ranges; eauto.
  - rewrite app_nil_r. auto.
Qed.

Lemma respond_ranges s1 l k ids s2 o2 :
  ranges s1 l -> zget (a_pendRoute s1) k = Some ids -> responds k ids s1 s2 o2 ->
  ranges (without_route s2 k) (l ++ o2).
Proof.
  intros [A B PD PN PR RP RN SD PL RS] P SR. destruct SR.
  constructor; cbn -[zget zdel]; rewrite ?re_routeId, ?re_rrId, ?re_pendAuto, ?re_reqs, ?re_pendRoute;
    auto.
  - intros j ids' id J. rewrite zget_del in J. destruct (j =? k); [discriminate|]. eauto.
  - intros j ids' J. rewrite zget_del in J. destruct (j =? k); [discriminate|]. eauto.
  - intros p I. apply SD. apply in_app_or in I. destruct I as [I|I]; auto.
    destruct re_out as (rs & -> & _). destruct I as [I|[]]. discriminate.
  - intros id r c Z1. apply re_plans_sub in Z1. eauto.
  - intros r ps x Z1. rewrite re_resps in Z1. destruct (zin r ids); [discriminate|]. eauto.
Qed.

Lemma checkRoutes_ranges s s' o l :
  checkRoutes ord s = (s', o) -> ranges s l -> ranges s' (l ++ o).
Proof.
  intros C G. eapply (checkRoutes_ind ord (fun s1 o1 => ranges s1 (l ++ o1))); [| |exact C].
  - intros s1 o1 k ids s2 o2 G1 P F SR. rewrite app_assoc.
    apply (sendRouteResponse_spec ord ord_perm) in SR; [|eapply g_rNoDup; eauto].
    eapply respond_ranges; eauto.
  - rewrite app_nil_r. auto.
Qed.

Lemma mail_ranges s1 l k q ids s2 o2 :
  ranges s1 l -> zget (a_pendAuto s1) k = Some ids -> mails ord k q ids s1 s2 o2 ->
  ranges (without_auto s2 k) (l ++ o2).
Proof.
  intros [A B PD PN PR RP RN SD PL RS] P SM. destruct SM.
  constructor; cbn -[zget zdel]; rewrite ?ma_routeId, ?ma_rrId, ?ma_pendAuto, ?ma_reqs, ?ma_pendRoute;
    auto.
  - intros j ids' id J. rewrite zget_del in J. destruct (j =? k); [discriminate|]. eauto.
  - intros j ids' J. rewrite zget_del in J. destruct (j =? k); [discriminate|]. eauto.
  - intros j ids' J. rewrite zget_del in J. rewrite zget_del.
    destruct (j =? k); [discriminate|]. eauto.
  - intros p I. apply SD. apply in_app_or in I. destruct I as [I|I]; auto.
    destruct ma_out as (en & -> & _). destruct I as [I|[I|[]]]; discriminate.
  - intros id r c Z1. rewrite ma_plans in Z1. destruct (zin id ids); [discriminate|]. eauto.
  - intros r ps x Z1 N I. destruct (ma_resps r) as [E|(id & c & I1 & I2)].
    + rewrite E in Z1. eauto.
    + specialize (PD _ _ _ P I1). destruct N. eapply PL; eauto. lia.
Qed.

Lemma mail_reqs s1 l k ids : ranges s1 l -> zget (a_pendAuto s1) k = Some ids ->
  forall s2 o2, sendMatrix ord k ids s1 = (s2, o2) ->
  exists q, zget (a_reqs s1) k = Some q /\ mails ord k q ids s1 s2 o2.
Proof.
  intros G P s2 o2 SM. destruct (g_reqs _ _ G _ _ P) as (q & Q). exists q. split; auto.
  eapply (sendMatrix_spec ord ord_perm); eauto. eapply g_pendNoDup; eauto.
Qed.

Lemma checkMatrices_ranges s s' o l :
  checkMatrices ord s = (s', o) -> ranges s l -> ranges s' (l ++ o).
Proof.
  intros C G. eapply (checkMatrices_ind ord (fun s1 o1 => ranges s1 (l ++ o1))); [| |exact C].
  - intros s1 o1 k ids s2 o2 G1 P F SM. rewrite app_assoc.
    destruct (mail_reqs _ _ _ _ G1 P _ _ SM) as (q & _ & M). eapply mail_ranges; eauto.
  - rewrite app_nil_r. auto.
Qed.

(** Registering a plan response keeps the ranges. *)
Lemma resp_ranges s l i ps p :
  ranges s l -> In (OutPlanReq p) l -> pr_id p = i ->
  (forall x, In x ps -> In (fst x) (map rt_id (pr_routes p))) ->
  let s1 := set_route s (a_rrId s) (zset (a_resps s) i ps) (a_pendRoute s) in
  ranges (set_auto s1 (a_routeId s1)
            (fold_left (fun m p => zset m (fst p) (i, snd p)) ps (a_plans s1))
            (a_pendAuto s1) (a_pairs s1)) l.
Proof.
  intros [A B PD PN PR RP RN SD PL RS] I E X. cbn zeta.
  assert (Y : forall x, In x ps -> (i = 0 /\ 1000000 <= fst x) \/ (i <> 0 /\ fst x < 1000000)).
  { intros x J. apply X in J. apply in_map_iff in J. destruct J as (r & J1 & J2).
    destruct (SD p I) as [(S1 & S2)|(S1 & S2)]; specialize (S2 r J2); [left|right]; lia. }
  constructor; cbn -[zget zset]; auto.
  - intros id r c Z1 L. apply fold_zset_get in Z1. destruct Z1 as [Z1|(-> & Z1)]; [eauto|].
    destruct (Y _ Z1); cbn in *; lia.
  - intros r qs x Z1 N J. rewrite zget_set in Z1. destruct (Z.eqb_spec r i); [|eauto].
    injection Z1 as <-. destruct (Y _ J); lia.
Qed.

(** Handling a route request. *)
Record takes (r : rreq) (vs : list Z) (s s' : rstate) (o : list out) : Prop := {
  tk_same : a_states s' = a_states s /\ a_next s' = a_next s /\ a_reqs s' = a_reqs s /\
            a_opts s' = a_opts s /\ a_routeId s' = a_routeId s /\ a_plans s' = a_plans s /\
            a_pendAuto s' = a_pendAuto s /\ a_pairs s' = a_pairs s /\ a_resps s' = a_resps s;
  tk_rr : a_rrId s' = a_rrId s + Z.of_nat (length vs);
  tk_other : forall j, j <> rq_id r -> zget (a_pendRoute s') j = zget (a_pendRoute s) j;
  tk_pend : zget (a_pendRoute s') (rq_id r) =
            match vs with
            | [] => zget (a_pendRoute s) (rq_id r)
            | _ => Some (match zget (a_pendRoute s) (rq_id r) with Some l => l | None => [] end
                         ++ zseq (a_rrId s) (length vs))
            end;
  tk_out : exists ps, o = map OutPlanReq ps /\ map pr_id ps = zseq (a_rrId s) (length vs) /\
             map pr_vehicle ps = vs /\ forall p, In p ps -> pr_routes p = rq_routes r
}.

Lemma routeVehicles_spec r vs : forall s s' o,
  routeVehicles r s vs = (s', o) -> takes r vs s s' o.
Proof.
  induction vs as [|v vs IH]; intros s s' o; cbn [routeVehicles].
  - intros [= <- <-]. constructor; cbn; auto 10; [lia|]. exists []. cbn. auto.
    repeat split; auto. intros p [].
  - set (s1 := set_route _ _ _ _). destruct (routeVehicles r s1 vs) as (s2, o2) eqn:V.
    intros [= <- <-]. apply IH in V. destruct V as [T1 T2 T3 T4 (ps & T5 & T6 & T7 & T8)].
    constructor.
    + destruct T1 as (?&?&?&?&?&?&?&?&?). cbn in *. auto 10.
    + cbn [a_rrId s1 set_route] in T2. cbn [length]. cbn in T2. lia.
    + intros j N. rewrite T3; auto. cbn -[zget zset]. apply zget_set_other. auto.
    + rewrite T4. cbn -[zget zset zseq]. rewrite !zget_set_same.
      destruct vs; cbn [length zseq]; auto. rewrite <- app_assoc. auto.
    + eexists (_ :: ps). split; [rewrite T5; reflexivity|].
      cbn -[zseq] in *. rewrite T6, T7. repeat split; auto.
      intros p [<-|I]; auto.
Qed.

Lemma takes_ranges r vs s s' o l :
  ranges s l -> (forall x, In x (rq_routes r) -> rt_id x < 1000000) ->
  takes r vs s s' o -> ranges s' (l ++ o).
Proof.
  intros [A B PD PN PR RP RN SD PL RS] LOW [T1 T2 T3 T4 (ps & T5 & T6 & T7 & T8)].
  destruct T1 as (E1&E2&E3&E4&E5&E6&E7&E8&E9).
  constructor; rewrite ?E3, ?E5, ?E6, ?E7, ?E9; auto.
  - lia.
  - intros k ids id J I. destruct (Z.eq_dec k (rq_id r)) as [->|N].
    + rewrite T4 in J. destruct vs as [|v vs].
      * specialize (RP _ _ _ J I). lia.
      * injection J as <-. apply in_app_or in I. destruct I as [I|I].
        -- destruct (zget (a_pendRoute s) (rq_id r)) as [l0|] eqn:Q; [|destruct I].
           specialize (RP _ _ _ Q I). lia.
        -- change (In id (zseq (a_rrId s) (length (v :: vs)))) in I. rewrite In_zseq in I. lia.
    + rewrite T3 in J by auto. specialize (RP _ _ _ J I). lia.
  - intros k ids J. destruct (Z.eq_dec k (rq_id r)) as [->|N].
    + rewrite T4 in J. destruct vs as [|v vs]; [eauto|].
      assert (ids = match zget (a_pendRoute s) (rq_id r) with Some l => l | None => [] end
                         ++ zseq (a_rrId s) (length (v :: vs))) as -> by congruence. clear J.
      assert (NL : NoDup (match zget (a_pendRoute s) (rq_id r) with Some l => l | None => [] end)).
      { destruct (zget (a_pendRoute s) (rq_id r)) eqn:Q; [eauto|constructor]. }
      assert (NI : forall x, In x (match zget (a_pendRoute s) (rq_id r) with Some l => l | None => [] end) ->
                     x < a_rrId s).
      { intros x X. destruct (zget (a_pendRoute s) (rq_id r)) eqn:Q; [|destruct X].
        specialize (RP _ _ _ Q X). lia. }
      revert NL NI. generalize (match zget (a_pendRoute s) (rq_id r) with Some l => l | None => [] end).
      intros pl. induction pl as [|x pl IH]; intros NL NI; [apply NoDup_zseq|].
      apply NoDup_cons_iff in NL. destruct NL as (N1 & N2). cbn [app]. constructor.
      * intros X. apply in_app_or in X. destruct X as [X|X]; [tauto|].
        rewrite In_zseq in X. specialize (NI x (or_introl eq_refl)). lia.
      * apply IH; auto. intros y Y. apply NI. right. auto.
    + rewrite T3 in J by auto. eauto.
  - intros p I. apply in_app_or in I. destruct I as [I|I].
    + destruct (SD p I) as [(X & Y)|(X & Y)]; [left|right]; split; auto. lia.
    + right. subst o. apply in_map_iff in I. destruct I as (p' & X & I). injection X as ->.
      split.
      * assert (J : In (pr_id p) (map pr_id ps)) by (apply in_map; auto).
        rewrite T6, In_zseq in J. lia.
      * rewrite (T8 p I). auto.
Qed.

Lemma ranges_run evs : orderly evs (snd (arun evs)) -> ranges (fst (arun evs)) (sent (snd (arun evs))).
Proof.
  revert evs. apply (run_inv (rstep ord) rinit (fun evs s t => orderly evs t -> ranges s (sent t))).
  - intros _. constructor; cbn; try lia; try discriminate; intros; tauto.
  - intros evs e s t s' o IH V R OR. pose proof (orderly_prefix _ _ _ _ OR) as OR1.
    specialize (IH OR1). rewrite sent_snoc.
    destruct e as [v p g|v g|q|tk os|r|i ps]; cbn [rstep] in V.
    + injection V as <- <-. rewrite app_nil_r. destruct IH. constructor; auto.
    + injection V as <- <-. rewrite app_nil_r. destruct IH. constructor; auto.
    + eapply checkOptions_ranges; [exact V|]. destruct IH. constructor; auto.
      intros k ids J. cbn -[zget zset]. rewrite zget_set. destruct (k =? a_next s); eauto.
    + eapply checkOptions_ranges; [exact V|]. destruct IH. constructor; auto.
    + unfold handleRouteRequest in V. apply routeVehicles_spec in V.
      eapply takes_ranges; eauto. intros x X. apply (or_low _ _ OR r x); auto.
      apply in_or_app. right. left. auto.
    + destruct (or_echo _ _ OR t i ps o []) as (p & P1 & P2 & P3); [auto|].
      pose proof (resp_ranges _ _ _ _ _ IH P1 P2 P3) as G. cbn zeta in G.
      unfold checkPlans in V. cbn zeta in V.
      destruct (checkRoutes ord _) as (s1, o1) eqn:C1.
      destruct (checkMatrices ord s1) as (s2, o2) eqn:C2. injection V as <- <-.
      apply (checkRoutes_ranges _ _ _ (sent t)) in C1; [|exact G].
      apply (checkMatrices_ranges _ _ _ (sent t ++ o1)) in C2; auto.
      rewrite app_assoc. auto.
Qed.

(** *** The answers to route requests *)

Lemma answer_snoc h e r :
  answer (h ++ [e]) r = match e with
                        | EvPlanResp i ps => if i =? r then Some ps else answer h r
                        | _ => answer h r
                        end.
Proof. unfold answer. rewrite fold_left_app. cbn. destruct e; auto. Qed.

Lemma asked_snoc t e o q :
  asked (t ++ [(e, o)]) q =
  asked t q ++ match e with
               | EvRouteReq r =>
                   if rq_id r =? q
                   then flat_map (fun o => match o with OutPlanReq p => [pr_id p] | _ => [] end) o
                   else []
               | _ => []
               end.
Proof. unfold asked. rewrite flat_map_app. cbn. rewrite app_nil_r. auto. Qed.

Lemma route_replies_app a b q : route_replies (a ++ b) q = route_replies a q ++ route_replies b q.
Proof. apply flat_map_app. Qed.

Record loopA (s0 s1 : rstate) (o1 : list out) : Prop := {
  la_some : forall q ids, zget (a_pendRoute s1) q = Some ids ->
     zget (a_pendRoute s0) q = Some ids /\ route_replies o1 q = [] /\
     forall r, In r ids -> zget (a_resps s1) r = zget (a_resps s0) r;
  la_none : forall q, zget (a_pendRoute s1) q = None ->
     (zget (a_pendRoute s0) q = None /\ route_replies o1 q = []) \/
     (exists ids rs, zget (a_pendRoute s0) q = Some ids /\ route_replies o1 q = [rs] /\
        Permutation (map fst rs) ids /\
        forall r ps, In (r, ps) rs -> zget (a_resps s0) r = Some ps)
}.

Lemma checkRoutes_loop s s' o l :
  ranges s l ->
  (forall q q' a b r, zget (a_pendRoute s) q = Some a -> zget (a_pendRoute s) q' = Some b ->
     In r a -> In r b -> q = q') ->
  checkRoutes ord s = (s', o) -> loopA s s' o.
Proof.
  intros G DJ C. eapply (checkRoutes_ind ord (fun s1 o1 => loopA s s1 o1 )); [| |exact C].
  - intros s1 o1 k ids s2 o2 [LS LN] P F SR.
    destruct (LS _ _ P) as (P0 & RR & EQ).
    apply (sendRouteResponse_spec ord ord_perm) in SR; [|eapply g_rNoDup; eauto].
    destruct SR. destruct re_out as (rs & -> & RI & RP).
    assert (RC : forall j, route_replies [OutRouteResp k rs] j = if k =? j then [rs] else []).
    { intros j. cbn. destruct (k =? j); auto. }
    constructor; cbn -[zget zdel route_replies]; rewrite re_pendRoute.
    + intros j jds J. rewrite zget_del in J. destruct (Z.eqb_spec j k); [discriminate|].
      destruct (LS _ _ J) as (J1 & J2 & J3). split; auto. rewrite route_replies_app, RC, J2.
      destruct (Z.eqb_spec k j); [congruence|]. split; auto.
      intros r I. rewrite re_resps. destruct (zin r ids) eqn:Zr; [|auto].
      apply zin_In in Zr. destruct n. eauto.
    + intros j J. rewrite route_replies_app, RC. rewrite zget_del in J.
      destruct (Z.eqb_spec j k) as [E|N].
      * subst j. right. exists ids, rs. rewrite Z.eqb_refl, RR. repeat split; auto.
        intros r ps I. destruct (RI _ _ I) as (I1 & I2). rewrite <- I2. symmetry. auto.
      * destruct (Z.eqb_spec k j); [congruence|]. rewrite app_nil_r. auto.
  - constructor; auto.
Qed.

Lemma checkMatrices_routes s s' o l :
  checkMatrices ord s = (s', o) -> ranges s l ->
  a_pendRoute s' = a_pendRoute s /\
  (forall r, r <> 0 -> zget (a_resps s') r = zget (a_resps s) r) /\
  forall q, route_replies o q = [].
Proof.
  intros C G.
  assert (H : ranges s' (l ++ o) /\ a_pendRoute s' = a_pendRoute s /\
    (forall r, r <> 0 -> zget (a_resps s') r = zget (a_resps s) r) /\
    forall q, route_replies o q = []).
  { eapply (checkMatrices_ind ord (fun s1 o1 => ranges s1 (l ++ o1) /\
      a_pendRoute s1 = a_pendRoute s /\
      (forall r, r <> 0 -> zget (a_resps s1) r = zget (a_resps s) r) /\
      forall q, route_replies o1 q = [])); [| |exact C].
    - intros s1 o1 k ids s2 o2 (G1 & A & B & D) P F SM.
      destruct (mail_reqs _ _ _ _ G1 P _ _ SM) as (q & _ & M). split.
      { rewrite app_assoc. eapply mail_ranges; eauto. }
      destruct M. cbn -[zget zdel]. rewrite ma_pendRoute. split; auto. split.
      + intros r N. rewrite <- B by auto. destruct (ma_resps r) as [E|(id & c & I1 & I2)]; auto.
        destruct N. eapply (g_plans _ _ G1); eauto. apply (g_pend _ _ G1 _ _ _ P I1).
      + intros j. rewrite route_replies_app, D. destruct ma_out as (en & -> & _). reflexivity.
    - rewrite app_nil_r. auto. }
  tauto.
Qed.

Lemma checkOptions_routes s s' o :
  checkOptions ord s = (s', o) ->
  a_pendRoute s' = a_pendRoute s /\ a_resps s' = a_resps s /\ a_rrId s' = a_rrId s /\
  forall q, route_replies o q = [].
Proof.
  intros C. eapply (checkOptions_ind ord (fun s1 o1 =>
    a_pendRoute s1 = a_pendRoute s /\ a_resps s1 = a_resps s /\ a_rrId s1 = a_rrId s /\
    forall q, route_replies o1 q = [])); [| |exact C].
  - intros s1 o1 k q s2 o2 rr (A & B & D & E) _ _ BS.
    destruct (bs_rest _ _ _ _ _ _ _ BS) as (_&_&_&_&_&E2&E3&E4).
    rewrite E2, E3, E4. repeat split; auto. intros j. rewrite route_replies_app, E. cbn.
    assert (H := bs_out _ _ _ _ _ _ _ BS). clear - H. induction o2 as [|x o2 IH]; auto.
    cbn. destruct (H x (or_introl eq_refl)) as (p & -> & _). cbn. apply IH.
    intros y Y. apply H. right. auto.
  - auto.
Qed.

Lemma plans_replies ps q : route_replies (map OutPlanReq ps) q = [].
Proof. induction ps; cbn; auto. Qed.

Lemma plans_asked ps :
  flat_map (fun o => match o with OutPlanReq p => [pr_id p] | _ => [] end) (map OutPlanReq ps)
  = map pr_id ps.
Proof. induction ps; cbn; auto. f_equal. auto. Qed.

(** What a response carries, for the history [t] before the step and the step itself. *)
Definition fitting (t : trace) (e : event) (q : Z) (rs : list (Z * list (Z * Z))) : Prop :=
  (exists i ps, e = EvPlanResp i ps) /\
  Permutation (map fst rs) (asked t q) /\
  forall r ps, In (r, ps) rs -> answer (map fst t ++ [e]) r = Some ps.

Record invA (evs : list event) (s : rstate) (t : trace) : Prop := {
  ia_pend : forall q ids, zget (a_pendRoute s) q = Some ids -> ids = asked t q /\
              route_replies (sent t) q = [] /\
              (forall r, In r ids -> zget (a_resps s) r = answer evs r) /\
              exists r, In r ids /\ answer evs r = None;
  ia_done : forall q, zget (a_pendRoute s) q = None ->
              (asked t q = [] /\ route_replies (sent t) q = []) \/
              (asked t q <> [] /\ (exists rs, route_replies (sent t) q = [rs]) /\
               forall r, In r (asked t q) -> answer evs r <> None);
  ia_fresh : forall q, ~ In q (route_ids evs) -> asked t q = [] /\ zget (a_pendRoute s) q = None;
  ia_disj : forall q q' r, In r (asked t q) -> In r (asked t q') -> q = q';
  ia_low : forall q r, In r (asked t q) -> 1 <= r < a_rrId s;
  ia_resp : forall r, answer evs r <> None -> r < a_rrId s;
  ia_none : forall r, a_rrId s <= r -> zget (a_resps s) r = None;
  ia_fits : forall t1 e o t2 q rs, t = t1 ++ (e, o) :: t2 -> In (OutRouteResp q rs) o ->
              fitting t1 e q rs
}.

Lemma route_replies_In l q rs : In (OutRouteResp q rs) l <-> In rs (route_replies l q).
Proof.
  unfold route_replies. rewrite in_flat_map. split.
  - intros I. exists (OutRouteResp q rs). rewrite Z.eqb_refl. cbn. auto.
  - intros (x & I & J). destruct x; try destruct J.
    destruct (Z.eqb_spec id q); [|destruct J]. destruct J as [<-|[]]. subst. auto.
Qed.

Lemma snoc_split {A} (t t1 t2 : list A) x y :
  t ++ [x] = t1 ++ y :: t2 -> (t2 = [] /\ t = t1 /\ x = y) \/ exists t3, t = t1 ++ y :: t3.
Proof.
  destruct t2 as [|z t2] using rev_ind.
  - intros H. apply app_inj_tail in H. destruct H. auto.
  - rewrite app_comm_cons, app_assoc. intros H. apply app_inj_tail in H. destruct H. eauto.
Qed.

(** Steps that do not concern route requests. *)
Lemma invA_same evs s t e s' o :
  (forall i ps, e <> EvPlanResp i ps) -> (forall r, e <> EvRouteReq r) ->
  a_pendRoute s' = a_pendRoute s -> a_resps s' = a_resps s -> a_rrId s' = a_rrId s ->
  (forall q, route_replies o q = []) -> invA evs s t -> invA (evs ++ [e]) s' (t ++ [(e, o)]).
Proof.
  intros N1 N2 E1 E2 E3 E4 [P D F J L R NO T].
  assert (AN : forall r, answer (evs ++ [e]) r = answer evs r).
  { intros r. rewrite answer_snoc. destruct e; auto. destruct (N1 id plans). auto. }
  assert (AS : forall q, asked (t ++ [(e, o)]) q = asked t q).
  { intros q. rewrite asked_snoc. destruct e; auto using app_nil_r. destruct (N2 r). auto. }
  assert (RR : forall q, route_replies (sent (t ++ [(e, o)])) q = route_replies (sent t) q).
  { intros q. rewrite sent_snoc, route_replies_app, E4, app_nil_r. auto. }
  constructor; rewrite ?E1, ?E3.
  - intros q ids H. rewrite AS, RR, E2. setoid_rewrite AN. auto.
  - intros q H. rewrite AS, RR. setoid_rewrite AN. auto.
  - intros q H. rewrite AS. apply F. intros I. apply H. unfold route_ids.
    rewrite flat_map_app. apply in_or_app. auto.
  - intros q q' r. rewrite !AS. apply J.
  - intros q r. rewrite AS. apply L.
  - intros r. rewrite AN. apply R.
  - intros r. rewrite E2. apply NO.
  - intros t1 e1 o1 t2 q rs E I. apply snoc_split in E. destruct E as [(-> & <- & X)|(t3 & ->)].
    + injection X as <- <-. apply route_replies_In in I. rewrite E4 in I. destruct I.
    + eapply T; eauto.
Qed.

Lemma invA_run evs : orderly evs (snd (arun evs)) -> invA evs (fst (arun evs)) (snd (arun evs)).
Proof.
  revert evs. apply (run_inv (rstep ord) rinit (fun evs s t => orderly evs t -> invA evs s t)).
  - intros _. constructor; cbn; try discriminate; auto; try tauto.
    intros t1 e o t2 q rs E. destruct t1; discriminate.
  - intros evs e s t s' o IH V R OR. pose proof (orderly_prefix _ _ _ _ OR) as OR1.
    specialize (IH OR1).
    assert (EV : map fst t = evs).
    { pose proof (run_events (rstep ord) rinit evs) as X. rewrite R in X. auto. }
    assert (G : ranges s (sent t)).
    { pose proof (ranges_run evs) as X. rewrite R in X. auto. }
    destruct e as [v p g|v g|q|tk os|r|i ps]; cbn [rstep] in V.
    + injection V as <- <-. apply (invA_same _ s); auto; discriminate.
    + injection V as <- <-. apply (invA_same _ s); auto; discriminate.
    + apply checkOptions_routes in V. destruct V as (A & B & C & D).
      apply (invA_same _ s); auto; discriminate.
    + apply checkOptions_routes in V. destruct V as (A & B & C & D).
      apply (invA_same _ s); auto; discriminate.
    + unfold handleRouteRequest in V. apply routeVehicles_spec in V.
      revert V. generalize (match rq_vehicles r with [] => ord (map fst (a_states s)) | l => l end).
      intros vs [T1 T2 T3 T4 (ps & T5 & T6 & T7 & T8)].
      destruct T1 as (_&_&_&_&_&_&_&_&ER).
      destruct IH as [P D F J L RS NO T].
      assert (NI : ~ In (rq_id r) (route_ids evs)).
      { pose proof (or_distinct _ _ OR) as X. unfold route_ids in X. rewrite flat_map_app in X.
        intros I. eapply NoDup_app_disjoint; eauto. cbn. auto. }
      destruct (F _ NI) as (F1 & F2).
      assert (AN : forall x, answer (evs ++ [EvRouteReq r]) x = answer evs x).
      { intros x. rewrite answer_snoc. auto. }
      assert (AS : forall q, asked (t ++ [(EvRouteReq r, o)]) q =
                asked t q ++ if rq_id r =? q then zseq (a_rrId s) (length vs) else []).
      { intros q. rewrite asked_snoc, T5, plans_asked, T6. auto. }
      assert (RR : forall q, route_replies (sent (t ++ [(EvRouteReq r, o)])) q =
                             route_replies (sent t) q).
      { intros q. rewrite sent_snoc, route_replies_app, T5, plans_replies, app_nil_r. auto. }
      assert (SP : forall q x, In x (asked (t ++ [(EvRouteReq r, o)]) q) ->
                (In x (asked t q) /\ x < a_rrId s) \/
                (q = rq_id r /\ a_rrId s <= x < a_rrId s')).
      { intros q x. rewrite AS. intros I. apply in_app_or in I. destruct I as [I|I].
        - left. split; auto. apply (L q x I).
        - destruct (Z.eqb_spec (rq_id r) q); [|destruct I]. rewrite In_zseq in I. right. lia. }
      constructor.
      * intros q ids Q. rewrite AS, RR, ER. setoid_rewrite AN.
        destruct (Z.eqb_spec (rq_id r) q) as [<-|N].
        -- rewrite T4, F2 in Q. rewrite F1. cbn [app]. destruct vs as [|v vs]; [discriminate|].
           injection Q as <-. split; auto.
           destruct (D _ F2) as [(_ & D1)|(D1 & _)]; [|congruence]. split; auto.
           assert (FR : forall x, In x (zseq (a_rrId s) (length (v :: vs))) -> answer evs x = None).
           { intros x X. apply In_zseq in X. destruct (answer evs x) eqn:Q; auto.
             assert (x < a_rrId s) by (apply RS; congruence). lia. }
           split.
           ++ intros x X. rewrite (FR x X). apply NO. apply (In_zseq _ (length (v :: vs))) in X. lia.
           ++ exists (a_rrId s). split; [left; auto|]. apply FR. left. auto.
        -- rewrite T3 in Q by auto. rewrite app_nil_r. auto.
      * intros q Q. rewrite AS, RR. setoid_rewrite AN.
        destruct (Z.eqb_spec (rq_id r) q) as [<-|N].
        -- rewrite T4, F2 in Q. destruct vs; [|discriminate]. rewrite F1. left. split; auto.
           destruct (D _ F2) as [(_ & D1)|(D1 & _)]; [auto|congruence].
        -- rewrite T3 in Q by auto. rewrite app_nil_r. auto.
      * intros q NQ. unfold route_ids in NQ. rewrite flat_map_app in NQ. cbn in NQ.
        assert (N1 : ~ In q (route_ids evs)) by (intros X; apply NQ; apply in_or_app; auto).
        assert (N2 : q <> rq_id r) by (intros ->; apply NQ; apply in_or_app; cbn; auto).
        destruct (F q N1). rewrite AS, T3 by auto.
        destruct (Z.eqb_spec (rq_id r) q); [congruence|]. rewrite app_nil_r. auto.
      * intros q q' x I1 I2. apply SP in I1, I2.
        destruct I1 as [(I1 & B1)|(I1 & B1)], I2 as [(I2 & B2)|(I2 & B2)]; try lia. eauto.
      * intros q x I. apply SP in I. destruct I as [(I & _)|(_ & I)].
        -- specialize (L _ _ I). lia.
        -- pose proof (g_rr _ _ G). lia.
      * intros x. rewrite AN. intros X. apply RS in X. lia.
      * intros x X. rewrite ER. apply NO. lia.
      * intros t1 e1 o1 t2 q rs E I. apply snoc_split in E.
        destruct E as [(-> & <- & X)|(t3 & ->)].
        -- injection X as <- <-. apply route_replies_In in I. rewrite T5, plans_replies in I.
           destruct I.
        -- eapply T; eauto.
    + destruct (or_echo _ _ OR t i ps o []) as (p & P1 & P2 & P3); [auto|].
      pose proof (resp_ranges _ _ _ _ _ G P1 P2 P3) as G1. cbn zeta in G1.
      unfold checkPlans in V. cbn zeta in V.
      set (s1 := set_auto _ _ _ _ _) in V. change (ranges s1 (sent t)) in G1.
      destruct (checkRoutes ord s1) as (s2, o1) eqn:C1.
      destruct (checkMatrices ord s2) as (s3, o2) eqn:C2. injection V as <- <-.
      pose proof (checkRoutes_ranges _ _ _ _ C1 G1) as G2.
      destruct (checkMatrices_routes _ _ _ _ C2 G2) as (M1 & M2 & M3).
      destruct IH as [P D F J L RS NO T].
      assert (RE : forall x, zget (a_resps s1) x = if x =? i then Some ps else zget (a_resps s) x).
      { intros x. cbn -[zget zset]. apply zget_set. }
      assert (PE : a_pendRoute s1 = a_pendRoute s) by reflexivity.
      assert (AN : forall x, answer (evs ++ [EvPlanResp i ps]) x =
                if x =? i then Some ps else answer evs x).
      { intros x. rewrite answer_snoc. rewrite (Z.eqb_sym x i). auto. }
      assert (R1 : forall q ids x, zget (a_pendRoute s) q = Some ids -> In x ids ->
                zget (a_resps s1) x = answer (evs ++ [EvPlanResp i ps]) x).
      { intros q ids x Q I. rewrite RE, AN. destruct (x =? i); auto.
        destruct (P _ _ Q) as (_ & _ & X & _). auto. }
      assert (LA : loopA s1 s2 o1).
      { eapply checkRoutes_loop; eauto. rewrite PE. intros q q' a b x Q1 Q2 I1 I2.
        destruct (P _ _ Q1) as (-> & _). destruct (P _ _ Q2) as (-> & _). eauto. }
      assert (RR1 : a_rrId s3 = a_rrId s).
      { transitivity (a_rrId s2).
        - eapply (checkMatrices_ind ord (fun x o => a_rrId x = a_rrId s2 /\ ranges x ((sent t ++ o1) ++ o)));
            [| |exact C2].
          + intros y oy k ids y2 o2' (Y1 & Y2) Q _ SM.
            destruct (mail_reqs _ _ _ _ Y2 Q _ _ SM) as (q & _ & M). split.
            * destruct M. cbn. congruence.
            * rewrite app_assoc. eapply mail_ranges; eauto.
          + rewrite app_nil_r. auto.
        - eapply (checkRoutes_ind ord (fun x o => a_rrId x = a_rrId s /\ ranges x (sent t ++ o)));
            [| |exact C1].
          + intros y oy k ids y2 o2' (Y1 & Y2) Q _ SM.
            apply (sendRouteResponse_spec ord ord_perm) in SM; [|eapply g_rNoDup; eauto]. split.
            * destruct SM. cbn. congruence.
            * rewrite app_assoc. eapply respond_ranges; eauto.
          + rewrite app_nil_r. auto. }
      destruct LA as [LS LN]. rewrite PE in LS, LN.
      assert (RO : forall q, route_replies (sent (t ++ [(EvPlanResp i ps, o1 ++ o2)])) q =
                             route_replies (sent t) q ++ route_replies o1 q).
      { intros q. rewrite sent_snoc, !route_replies_app, M3, app_nil_r. auto. }
      assert (AS : forall q, asked (t ++ [(EvPlanResp i ps, o1 ++ o2)]) q = asked t q).
      { intros q. rewrite asked_snoc, app_nil_r. auto. }
      constructor.
      * intros q ids Q. rewrite M1 in Q. destruct (LS _ _ Q) as (Q0 & Q1 & Q2).
        destruct (P _ _ Q0) as (P4 & P5 & _ & _). rewrite AS, RO, P5, Q1.
        assert (RA : forall x, In x ids -> zget (a_resps s2) x =
                  answer (evs ++ [EvPlanResp i ps]) x).
        { intros x X. rewrite Q2 by auto. eauto. }
        split; auto. split; auto. split.
        -- intros x X. rewrite M2; auto. subst ids. specialize (L _ _ X). lia.
        -- pose proof (checkRoutes_done ord ord_perm _ _ _ q C1) as ND.
           destruct (forallb (fun r => zhas (a_resps s2) r) ids) eqn:FB.
           ++ destruct ND. exists ids. auto.
           ++ assert (H : exists x, In x ids /\ zhas (a_resps s2) x = false).
              { clear - FB. induction ids as [|y ids IH]; [discriminate|]. cbn in FB.
                destruct (zhas (a_resps s2) y) eqn:Y; [|exists y; cbn; auto].
                destruct (IH FB) as (x & X & X'). exists x. cbn. auto. }
              destruct H as (x & X1 & X2). exists x. split; auto. rewrite <- RA by auto.
              unfold zhas in X2. destruct (zget (a_resps s2) x); [discriminate|auto].
      * intros q Q. rewrite M1 in Q. rewrite AS, RO.
        destruct (LN _ Q) as [(Q0 & Q1)|(ids & rs & Q0 & Q1 & Q2 & Q3)].
        -- rewrite Q1, app_nil_r. destruct (D _ Q0) as [(D1 & D2)|(D1 & D2 & D3)]; auto.
           right. split; auto. split; auto. intros x X. rewrite AN.
           destruct (x =? i); [discriminate|auto].
        -- destruct (P _ _ Q0) as (P4 & P5 & P6 & (x & P7 & _)). rewrite P5, Q1. right. subst ids.
           split; [intros X; rewrite X in P7; destruct P7|]. split; [exists rs; auto|].
           intros y Y. apply (Permutation_in y (Permutation_sym Q2)) in Y.
           apply in_map_iff in Y. destruct Y as ((y', py) & <- & Y). cbn [fst].
           pose proof (Q3 _ _ Y) as H. rewrite (R1 _ _ _ Q0) in H; [congruence|].
           apply (Permutation_in _ Q2). apply (in_map fst) in Y. auto.
      * intros q NQ. rewrite AS, M1. unfold route_ids in NQ. rewrite flat_map_app, app_nil_r in NQ.
        destruct (F q NQ) as (F1 & F2). split; auto.
        destruct (zget (a_pendRoute s2) q) eqn:Q; auto. apply LS in Q. destruct Q. congruence.
      * intros q q' x. rewrite !AS. apply J.
      * intros q x. rewrite AS, RR1. apply L.
      * intros x. rewrite AN, RR1. destruct (Z.eqb_spec x i); [|apply RS]. intros _. subst.
        destruct (g_sent _ _ G p P1) as [(S1 & _)|(S1 & _)]; pose proof (g_rr _ _ G); lia.
      * rewrite RR1. intros x X.
        assert (XI : x <> i).
        { destruct (g_sent _ _ G p P1) as [(S1 & _)|(S1 & _)]; pose proof (g_rr _ _ G); lia. }
        assert (X1 : zget (a_resps s1) x = None).
        { rewrite RE. destruct (Z.eqb_spec x i); [congruence|]. auto. }
        rewrite M2; [|pose proof (g_rr _ _ G); lia].
        assert (H : ranges s2 (sent t ++ o1) /\ zget (a_resps s2) x = None); [|tauto].
        eapply (checkRoutes_ind ord (fun y o => ranges y (sent t ++ o) /\ zget (a_resps y) x = None));
          [| |exact C1].
        -- intros y oy k ids y2 o2' (Y1 & Y2) Q _ SM.
           apply (sendRouteResponse_spec ord ord_perm) in SM; [|eapply g_rNoDup; eauto]. split.
           ++ rewrite app_assoc. eapply respond_ranges; eauto.
           ++ destruct SM. cbn -[zget]. rewrite re_resps. destruct (zin x ids); auto.
        -- rewrite app_nil_r. auto.
      * intros t1 e1 o1' t2 q rs E I. apply snoc_split in E.
        destruct E as [(-> & <- & X)|(t3 & ->)]; [|eapply T; eauto].
        injection X as <- <-. apply route_replies_In in I. rewrite route_replies_app, M3, app_nil_r in I.
        unfold fitting. split; [eauto|].
        destruct (zget (a_pendRoute s2) q) as [ids|] eqn:Q.
        -- destruct (LS _ _ Q) as (_ & Q1 & _). rewrite Q1 in I. destruct I.
        -- destruct (LN _ Q) as [(Q0 & Q1)|(ids & rs' & Q0 & Q1 & Q2 & Q3)]; rewrite Q1 in I;
             [destruct I|].
           destruct I as [<-|[]]. destruct (P _ _ Q0) as (P4 & _). subst ids. split; auto.
           intros x px X. rewrite EV, <- (R1 q (asked t q)); auto.
           apply (Permutation_in _ Q2). apply (in_map fst) in X. auto.
Qed.
End Order.

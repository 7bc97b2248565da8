(** The invariant behind the cost matrices. *)
From Coq Require Import List ZArith Bool Permutation Lia.
From Verif Require Import ZMap Run AggregatorModel AggregatorSpec AggregatorProofs AggregatorRoutes.
Import ListNotations.
Open Scope list_scope.
Open Scope Z_scope.

(** *** The legs are those of the specification *)

Lemma flat_map_filter_prod {A B C} (f : A * B -> list C) p (l : list A) (l' : list B) :
  flat_map f (filter p (list_prod l l')) =
  flat_map (fun i => flat_map (fun j => if p (i, j) then f (i, j) else []) l') l.
Proof.
  induction l as [|i l IH]; cbn; auto. rewrite filter_app, flat_map_app, IH. f_equal.
  clear IH. induction l' as [|j l' IH]; cbn; auto. destruct (p (i, j)); cbn; rewrite IH; auto.
Qed.

Lemma flat_map_indexed {A B} (g : nat * A -> list B) (l : list A) : forall k,
  flat_map g (combine (seq k (length l)) l) =
  flat_map (fun i => match nth_error l (i - k) with Some a => g (i, a) | None => [] end)
           (seq k (length l)).
Proof.
  induction l as [|x l IH]; intros k; cbn [length seq combine flat_map]; auto.
  rewrite Nat.sub_diag. cbn [nth_error]. f_equal. rewrite IH. apply flat_map_ext_in'.
  intros i I. apply in_seq in I. replace (i - k)%nat with (S (i - S k)) by lia. auto.
Qed.

Lemma betweenLegs_spec v os :
  betweenLegs v os =
  flat_map (fun ij => match nth_error os (fst ij), nth_error os (snd ij) with
                      | Some a, Some b => [next_leg v a b]
                      | _, _ => []
                      end)
    (filter (fun ij => negb (Nat.eqb (fst ij) (snd ij)))
            (list_prod (seq 0 (length os)) (seq 0 (length os)))).
Proof.
  rewrite flat_map_filter_prod. unfold betweenLegs, indexed.
  rewrite flat_map_indexed. apply flat_map_ext_in'. intros i _. rewrite Nat.sub_0_r.
  destruct (nth_error os i) as [a|] eqn:E.
  - rewrite flat_map_indexed. apply flat_map_ext_in'. intros j _. rewrite Nat.sub_0_r.
    cbn [fst snd]. rewrite E. destruct (nth_error os j) as [b|].
    + destruct (Nat.eqb i j); reflexivity.
    + destruct (Nat.eqb i j); reflexivity.
  - symmetry. cbn [fst snd]. rewrite E. clear. induction (seq 0 (length os)) as [|j l IH]; cbn; auto.
    rewrite IH. destruct (negb _); auto.
Qed.

Lemma legs_needed s t q v :
  (forall k, zget (a_opts s) k = options t k) ->
  (forall w, zget (a_states s) w = last_state (map fst t) w) ->
  legs s q v = needed t q v.
Proof.
  intros O S. unfold legs, needed, startOf, starts. rewrite S.
  assert (E : eligible s q v = choices t q v).
  { unfold eligible, choices. apply flat_map_ext'. intros k. rewrite O.
    destruct (options t k) as [os|]; auto. apply filter_ext. intros o. unfold may_do.
    destruct (o_elig o) as [|x l]; auto.
    assert (G : forall l, existsb (fun x => x =? v) l = existsb (Z.eqb v) l).
    { induction l0 as [|y l0 IH]; cbn; auto. rewrite IH, Z.eqb_sym. auto. }
    apply G. }
  destruct (find _ _) as [p|]; [|destruct (last_state _ v)]; auto;
    rewrite E, betweenLegs_spec; reflexivity.
Qed.

(** *** Maps *)

Lemma zget_perm {A} (m : zmap A) k x :
  NoDup (map fst m) -> zget m k = Some x -> Permutation m ((k, x) :: zdel m k).
Proof.
  induction m as [|(j, y) m IH]; cbn [zget map fst]; intros N G; [discriminate|].
  apply NoDup_cons_iff in N. destruct N as (N1 & N2). unfold zdel. cbn [filter fst].
  destruct (Z.eqb_spec j k) as [->|NE]; cbn [negb].
  - injection G as ->. constructor. change (filter _ m) with (zdel m k).
    assert (E : zdel m k = m).
    { unfold zdel. clear - N1. induction m as [|(i, z) m IH]; cbn in *; auto.
      destruct (Z.eqb_spec i k) as [E|E]; cbn; [subst; tauto|]. rewrite IH; auto. }
    rewrite E. auto.
  - rewrite (IH N2 G) at 1. apply perm_swap.
Qed.

Definition ids_of (m : zmap areq) : list Z := map (fun p => q_id (snd p)) m.

Lemma ids_of_set m k q q' :
  NoDup (map fst m) -> zget m k = Some q -> q_id q' = q_id q ->
  Permutation (ids_of (zset m k q')) (ids_of m).
Proof.
  intros N G E. unfold ids_of, zset. rewrite (zget_perm _ _ _ N G) at 2. cbn [map snd].
  rewrite E. auto.
Qed.

Lemma ids_of_del m k q :
  NoDup (map fst m) -> zget m k = Some q ->
  Permutation (q_id q :: ids_of (zdel m k)) (ids_of m).
Proof.
  intros N G. unfold ids_of. rewrite (zget_perm _ _ _ N G) at 2. auto.
Qed.

Lemma fold_zset_cost (i : Z) (ps : list (Z * Z)) : forall (m : zmap (Z * Z)) id,
  option_map snd (zget (fold_left (fun m p => zset m (fst p) (i, snd p)) ps m) id) =
  cost_in ps (option_map snd (zget m id)) id.
Proof.
  induction ps as [|(j, d) ps IH]; intros m id; cbn [fold_left cost_in]; auto.
  rewrite IH. unfold cost_in. cbn [fold_left fst snd]. rewrite zget_set, (Z.eqb_sym j id).
  destruct (id =? j); auto.
Qed.

Lemma matrices_app a b : matrices (a ++ b) = matrices a ++ matrices b.
Proof. apply flat_map_app. Qed.

Lemma options_snoc t e o k :
  options (t ++ [(e, o)]) k =
  if existsb (fun o => match o with OutMatrix _ _ _ _ _ => true | _ => false end) o then None
  else match e with
       | EvOptions i os => if i =? k then Some os else options t k
       | _ => options t k
       end.
Proof. unfold options. rewrite fold_left_app. cbn. destruct (existsb _ o); auto. Qed.

Lemma last_state_snoc h e v :
  last_state (h ++ [e]) v = match e with
                            | EvState i p _ => if i =? v then Some p else last_state h v
                            | _ => last_state h v
                            end.
Proof. unfold last_state. rewrite fold_left_app. cbn. destruct e; auto. Qed.

Lemma cost_of_snoc h e id :
  cost_of (h ++ [e]) id = match e with
                          | EvPlanResp _ ps => cost_in ps (cost_of h id) id
                          | _ => cost_of h id
                          end.
Proof. unfold cost_of. rewrite fold_left_app. cbn. destruct e; auto. Qed.

Lemma cost_in_out ps a id : ~ In id (map fst ps) -> cost_in ps a id = a.
Proof.
  unfold cost_in. revert a. induction ps as [|(j, d) ps IH]; intros a N; cbn in *; auto.
  destruct (Z.eqb_spec j id); [subst; tauto|]. apply IH. tauto.
Qed.

Section Order.
Context (ord : list Z -> list Z) (ord_perm : forall l, Permutation (ord l) l).

Notation arun := (run (rstep ord) rinit).

Definition is_matrix (o : out) : bool :=
  match o with OutMatrix _ _ _ _ _ => true | _ => false end.

(** *** The loop over the requests whose options are known *)

Record fresh (s0 s1 : rstate) (o1 : list out) (k : Z) (q0 : areq) (rr : list (leg * Z)) : Prop := {
  fr_known : forallb (fun t => zhas (a_opts s0) t) (q_tasks q0) = true;
  fr_before : zget (a_reqs s0) k = Some q0;
  fr_after : zget (a_reqs s1) k = Some (filled ord s0 q0);
  fr_pend : zget (a_pendAuto s1) k = Some (map snd rr);
  fr_legs : map fst rr = flat_map (legs s0 (filled ord s0 q0)) (q_entities (filled ord s0 q0));
  fr_ids : forall id, In id (map snd rr) -> a_routeId s0 <= id < a_routeId s1;
  fr_pair : forall l id, In (l, id) rr -> zget (a_pairs s1) id = Some (fst l);
  fr_sent : forall x, In x rr -> exists p, In (OutPlanReq p) o1 /\
              pr_vehicle p = p_vehicle (fst (fst x)) /\ In (route_of x) (pr_routes p)
}.

Record loopB (s0 s1 : rstate) (o1 : list out) : Prop := {
  lb_rest : same_rest s0 s1;
  lb_le : a_routeId s0 <= a_routeId s1;
  lb_pairs : forall id, id < a_routeId s0 -> zget (a_pairs s1) id = zget (a_pairs s0) id;
  lb_k : forall k, (zget (a_pendAuto s1) k = zget (a_pendAuto s0) k /\
                    zget (a_reqs s1) k = zget (a_reqs s0) k) \/
                   exists q0 rr, fresh s0 s1 o1 k q0 rr;
  lb_disj : forall k k' a b id, zget (a_pendAuto s1) k = Some a ->
              zget (a_pendAuto s1) k' = Some b -> In id a -> In id b -> k = k';
  lb_high : forall k a id, zget (a_pendAuto s1) k = Some a -> In id a -> id < a_routeId s1;
  lb_keys : NoDup (map fst (a_reqs s1));
  lb_ids : Permutation (ids_of (a_reqs s1)) (ids_of (a_reqs s0));
  lb_out : existsb is_matrix o1 = false /\ matrices o1 = []
}.

Lemma filled_again s s' q :
  a_states s' = a_states s -> filled ord s' (filled ord s q) = filled ord s q.
Proof.
  intros E. unfold filled. cbn. rewrite E. f_equal.
  destruct (q_entities q); auto. destruct (ord (map fst (a_states s))); auto.
Qed.

Lemma plan_outs l : (forall y, In y l -> exists p, y = OutPlanReq p) ->
  existsb is_matrix l = false /\ matrices l = [].
Proof.
  induction l as [|y l IH]; intros H; auto. destruct (H y (or_introl eq_refl)) as (p & ->).
  cbn. apply IH. intros z Z. apply H. right. auto.
Qed.

Lemma checkOptions_loop s s' o :
  NoDup (map fst (a_reqs s)) ->
  (forall k k' a b id, zget (a_pendAuto s) k = Some a ->
     zget (a_pendAuto s) k' = Some b -> In id a -> In id b -> k = k') ->
  (forall k a id, zget (a_pendAuto s) k = Some a -> In id a -> id < a_routeId s) ->
  checkOptions ord s = (s', o) -> loopB s s' o.
Proof.
  intros N DJ HI C. eapply (checkOptions_ind ord (loopB s)); [| |exact C].
  - intros s1 o1 k q s2 o2 rr [R LE PR K D H KE ID (OM & MM)] RQ FK BS.
    assert (R2 : same_rest s s2) by (eapply same_rest_trans; [exact R|apply BS]).
    assert (NX := bs_next _ _ _ _ _ _ _ BS).
    assert (IDS : forall id, In id (map snd rr) -> a_routeId s1 <= id < a_routeId s2).
    { intros id I. rewrite (bs_ids _ _ _ _ _ _ _ BS), In_zseq in I. lia. }
    assert (Q0 : exists q0, zget (a_reqs s) k = Some q0 /\ filled ord s1 q = filled ord s q0).
    { destruct R as (R1 & _).
      destruct (K k) as [(_ & E)|(q0 & rr0 & F)].
      - exists q. rewrite <- E. split; auto. unfold filled. rewrite R1. auto.
      - exists q0. rewrite (fr_after _ _ _ _ _ _ F) in RQ. injection RQ as <-.
        split; [apply F|]. apply filled_again. auto. }
    destruct Q0 as (q0 & Q0 & FQ).
    constructor; auto.
    + lia.
    + intros id I. rewrite <- PR by auto. apply BS. lia.
    + intros j. destruct (Z.eq_dec j k) as [->|NE].
      * right. exists q0, rr. constructor; auto.
        -- destruct R as (_&_&_&R4&_). rewrite <- R4.
           replace (q_tasks q0) with (q_tasks q); auto.
           change (q_tasks (filled ord s1 q) = q_tasks q0). rewrite FQ. auto.
        -- rewrite (bs_reqs _ _ _ _ _ _ _ BS), zget_set_same. congruence.
        -- apply BS.
        -- rewrite (bs_legs _ _ _ _ _ _ _ BS), FQ. apply flat_map_ext'. intros v.
           rewrite (legs_same _ _ _ _ R), <- FQ. symmetry. apply legs_filled; auto.
        -- intros id I. apply IDS in I. lia.
        -- intros l id I. eapply BS; eauto.
        -- intros x X. destruct (bs_sent _ _ _ _ _ _ _ BS x X) as (p & P & P').
           exists p. split; auto. apply in_or_app. auto.
      * rewrite (bs_other _ _ _ _ _ _ _ BS _ NE), (bs_reqs _ _ _ _ _ _ _ BS), zget_set_other by auto.
        destruct (K j) as [E|(q1 & r1 & F)]; auto. right. exists q1, r1.
        constructor; try apply F.
        -- rewrite (bs_reqs _ _ _ _ _ _ _ BS), zget_set_other by auto. apply F.
        -- rewrite (bs_other _ _ _ _ _ _ _ BS _ NE). apply F.
        -- intros id I. apply (fr_ids _ _ _ _ _ _ F) in I. lia.
        -- intros l id I. rewrite (bs_pairs _ _ _ _ _ _ _ BS); [eapply F; eauto|].
           apply (fr_ids _ _ _ _ _ _ F). apply (in_map snd) in I. auto.
        -- intros x X. destruct (fr_sent _ _ _ _ _ _ F x X) as (p & P & P').
           exists p. split; auto. apply in_or_app. auto.
    + intros j j' a b id J J' I I'.
      destruct (Z.eq_dec j k) as [->|NE], (Z.eq_dec j' k) as [->|NE']; auto.
      * rewrite (bs_pend _ _ _ _ _ _ _ BS) in J. injection J as <-.
        rewrite (bs_other _ _ _ _ _ _ _ BS _ NE') in J'.
        apply IDS in I. specialize (H _ _ _ J' I'). lia.
      * rewrite (bs_pend _ _ _ _ _ _ _ BS) in J'. injection J' as <-.
        rewrite (bs_other _ _ _ _ _ _ _ BS _ NE) in J.
        apply IDS in I'. specialize (H _ _ _ J I). lia.
      * rewrite (bs_other _ _ _ _ _ _ _ BS) in J, J' by auto. eauto.
    + intros j a id J I. destruct (Z.eq_dec j k) as [->|NE].
      * rewrite (bs_pend _ _ _ _ _ _ _ BS) in J. injection J as <-. apply IDS in I. lia.
      * rewrite (bs_other _ _ _ _ _ _ _ BS) in J by auto. specialize (H _ _ _ J I). lia.
    + rewrite (bs_reqs _ _ _ _ _ _ _ BS). apply NoDup_keys_zset. auto.
    + rewrite (bs_reqs _ _ _ _ _ _ _ BS). rewrite <- ID. eapply ids_of_set; eauto.
    + destruct (plan_outs o2) as (P1 & P2).
      { intros y Y. destruct (bs_out _ _ _ _ _ _ _ BS y Y) as (p & -> & _). eauto. }
      rewrite existsb_app, OM, P1, matrices_app, MM, P2. auto.
  - constructor; auto using same_rest_refl. lia.
Qed.

Definition ready_unbuilt (s : rstate) (k : Z) : Prop :=
  exists q, zget (a_reqs s) k = Some q /\
            forallb (fun t => zhas (a_opts s) t) (q_tasks q) = true /\
            zget (a_pendAuto s) k = None.

Lemma checkOptions_done s s' o k : checkOptions ord s = (s', o) -> ~ ready_unbuilt s' k.
Proof.
  unfold checkOptions. set (body := fun (st : rstate * list out) (k : Z) => _). intros E D.
  assert (H1 : forall st j, ~ ready_unbuilt (fst (body st j)) j).
  { intros st j (q & D1 & D2 & D3). unfold body in D1, D2, D3.
    destruct (zget (a_reqs (fst st)) j) as [q1|] eqn:Q; [|congruence].
    destruct (forallb _ (q_tasks q1)) eqn:F; [|congruence].
    destruct (buildMatrix ord j q1 (fst st)) as (s3, o3) eqn:B.
    apply (buildMatrix_spec ord) in B. destruct B as (rr & B). cbn [fst] in D3.
    rewrite (bs_pend _ _ _ _ _ _ _ B) in D3. discriminate. }
  assert (H2 : forall st i j, ready_unbuilt (fst (body st i)) j -> ready_unbuilt (fst st) j).
  { intros st i j X. destruct (Z.eq_dec j i) as [->|N]; [destruct (H1 st i); auto|].
    destruct X as (q & D1 & D2 & D3). unfold body in D1, D2, D3.
    destruct (zget (a_reqs (fst st)) i) as [q1|] eqn:Q; [|exists q; auto].
    destruct (forallb _ (q_tasks q1)) eqn:F; [|exists q; auto].
    destruct (buildMatrix ord i q1 (fst st)) as (s3, o3) eqn:B.
    apply (buildMatrix_spec ord) in B. destruct B as (rr & B). cbn [fst] in *.
    rewrite (bs_other _ _ _ _ _ _ _ B) in D3 by auto.
    rewrite (bs_reqs _ _ _ _ _ _ _ B), zget_set_other in D1 by auto.
    destruct (bs_rest _ _ _ _ _ _ _ B) as (_&_&_&E1&_). rewrite E1 in D2. exists q. auto. }
  pose proof (loop_exit body (fun st j => ready_unbuilt (fst st) j) H1 H2
                (ord (map fst (a_reqs s))) (s, []) k) as L.
  rewrite E in L. destruct (L D) as ((q & L1 & _) & L2). apply L2.
  apply (ord_In ord ord_perm). apply In_zget in L1. apply (in_map fst) in L1. auto.
Qed.

(** *** The loop over the requests whose plans have arrived *)

Record loopM (s0 s1 : rstate) (o1 : list out) : Prop := {
  lm_states : a_states s1 = a_states s0;
  lm_next : a_next s1 = a_next s0;
  lm_routeId : a_routeId s1 = a_routeId s0;
  lm_opts : a_opts s1 = if existsb is_matrix o1 then [] else a_opts s0;
  lm_keys : NoDup (map fst (a_reqs s1));
  lm_ids : Permutation (matrices o1 ++ ids_of (a_reqs s1)) (ids_of (a_reqs s0));
  lm_reqs : forall k q, zget (a_reqs s1) k = Some q ->
              zget (a_reqs s0) k = Some q /\ zget (a_pendAuto s1) k = zget (a_pendAuto s0) k;
  lm_pend : forall k a, zget (a_pendAuto s1) k = Some a ->
              zget (a_pendAuto s0) k = Some a /\ zget (a_reqs s1) k = zget (a_reqs s0) k /\
              forall id, In id a -> zget (a_plans s1) id = zget (a_plans s0) id /\
                                    zget (a_pairs s1) id = zget (a_pairs s0) id;
  lm_none : forall id, zget (a_plans s0) id = None -> zget (a_plans s1) id = None;
  lm_out : forall i rg rl ts en, In (OutMatrix i rg rl ts en) o1 ->
             exists k q a, zget (a_pendAuto s0) k = Some a /\ zget (a_reqs s0) k = Some q /\
               i = q_id q /\ rg = q_region q /\ rl = q_relation q /\ ts = q_tasks q /\
               (forall id, In id a -> zget (a_plans s0) id <> None) /\
               en = flat_map (fun id => match zget (a_pairs s0) id, zget (a_plans s0) id with
                                        | Some p, Some (_, c) => [(p, c)]
                                        | _, _ => []
                                        end) (ord a)
}.

Lemma checkMatrices_loop s s' o l :
  ranges s l -> NoDup (map fst (a_reqs s)) ->
  (forall k k' a b id, zget (a_pendAuto s) k = Some a ->
     zget (a_pendAuto s) k' = Some b -> In id a -> In id b -> k = k') ->
  checkMatrices ord s = (s', o) -> loopM s s' o.
Proof.
  intros G N DJ C.
  assert (H : loopM s s' o /\ ranges s' (l ++ o)); [|tauto].
  eapply (checkMatrices_ind ord (fun s1 o1 => loopM s s1 o1 /\ ranges s1 (l ++ o1))); [| |exact C].
  - intros s1 o1 k ids s2 o2 ([M1 M2 M3 M4 M5 M6 M7 M8 M9 M10] & G1) P F SM.
    destruct (mail_reqs ord ord_perm _ _ _ _ G1 P _ _ SM) as (q & RQ & MA). split.
    2: { rewrite app_assoc. eapply (mail_ranges ord); eauto. }
    destruct MA. destruct ma_out as (en & EO & EN).
    destruct (M8 _ _ P) as (P0 & P1 & P2).
    constructor; cbn -[zget zdel existsb is_matrix matrices]; auto; try congruence.
    + rewrite ma_opts, existsb_app, EO. cbn. rewrite orb_true_r. auto.
    + rewrite ma_reqs. apply NoDup_keys_zdel. auto.
    + rewrite ma_reqs, matrices_app, EO. cbn [matrices flat_map app].
      rewrite <- M6, <- (ids_of_del _ _ _ M5 RQ), <- app_assoc. auto.
    + intros j qj J. rewrite ma_reqs, zget_del in J. rewrite ma_pendAuto, zget_del.
      destruct (j =? k); [discriminate|auto].
    + intros j a J. rewrite ma_pendAuto, zget_del in J. rewrite ma_reqs, zget_del.
      destruct (Z.eqb_spec j k) as [E|NE]; [discriminate|].
      destruct (M8 _ _ J) as (J0 & J1 & J2). split; auto. split; auto.
      intros id I. destruct (J2 id I) as (J3 & J4).
      assert (NI : ~ In id ids) by (intros X; apply NE; eauto).
      rewrite ma_plans. apply zin_false in NI as NI'. rewrite NI', ma_pairs; auto.
    + intros id I. rewrite ma_plans. destruct (zin id ids); auto.
    + intros i rg rl ts e I. apply in_app_or in I. destruct I as [I|I]; [eauto|].
      rewrite EO in I. destruct I as [I|[I|[]]]; [|discriminate]. injection I as <- <- <- <- <-.
      exists k, q, ids. rewrite <- P1, EN. repeat split; auto.
      * intros id I. destruct (P2 id I) as (P3 & _). rewrite <- P3.
        rewrite forallb_forall in F. apply F, zhas_Some in I. destruct I as (x & ->). discriminate.
      * apply flat_map_ext_in'. intros id I. rewrite (ord_In ord ord_perm) in I.
        destruct (P2 id I) as (-> & ->). auto.
  - rewrite app_nil_r. split; auto. constructor; auto. intros i rg rl ts e [].
Qed.

(** *** The invariant *)

(** The request [q'] in the table comes from the received request [q]; its vehicles were
    determined after the history [h]. *)
Definition origin (h : list event) (q q' : areq) : Prop :=
  In (EvUnique q) h /\ vehicles_of h q (q_entities q') /\
  q_id q' = q_id q /\ q_tasks q' = q_tasks q /\ q_planning q' = q_planning q /\
  q_region q' = q_region q /\ q_relation q' = q_relation q.

Lemma prefix_refl {A} (a : list A) : prefix a a.
Proof. exists []. rewrite app_nil_r. auto. Qed.

Lemma prefix_snoc {A} (a b : list A) x : prefix a b -> prefix a (b ++ [x]).
Proof. intros (c & ->). exists (c ++ [x]). rewrite app_assoc. auto. Qed.

Lemma prefix_trans {A} (a b c : list A) : prefix a b -> prefix b c -> prefix a c.
Proof. intros (x & ->) (y & ->). exists (x ++ y). rewrite app_assoc. auto. Qed.

Lemma prefix_map {A B} (f : A -> B) a b : prefix a b -> prefix (map f a) (map f b).
Proof. intros (x & ->). exists (map f x). apply map_app. Qed.

Record planned (t : trace) (s : rstate) (k : Z) (a : list Z) (t0 h : trace) (q q' : areq)
  (rr : list (leg * Z)) : Prop := {
  pl_req : zget (a_reqs s) k = Some q';
  pl_h : prefix h t0;
  pl_t0 : prefix t0 t;
  pl_origin : origin (map fst h) q q';
  pl_known : forall x, In x (q_tasks q) -> options t0 x <> None;
  pl_legs : map fst rr = flat_map (needed t0 q) (q_entities q');
  pl_ids : map snd rr = a;
  pl_pair : forall l id, In (l, id) rr -> zget (a_pairs s) id = Some (fst l);
  pl_sent : forall x, In x rr -> exists p, In (OutPlanReq p) (sent t0) /\
              pr_vehicle p = p_vehicle (fst (fst x)) /\ In (route_of x) (pr_routes p)
}.

Record invB (evs : list event) (s : rstate) (t : trace) : Prop := {
  ib_opts : forall k, zget (a_opts s) k = options t k;
  ib_states : forall v, zget (a_states s) v = last_state evs v;
  ib_skeys : NoDup (map fst (a_states s));
  ib_keys : NoDup (map fst (a_reqs s));
  ib_next : forall k q, zget (a_reqs s) k = Some q -> k < a_next s;
  ib_ids : Permutation (matrices (sent t) ++ ids_of (a_reqs s)) (auto_ids evs);
  ib_reqs : forall k q', zget (a_reqs s) k = Some q' ->
              In (EvUnique q') evs \/
              exists h q, prefix h t /\ origin (map fst h) q q';
  ib_pend : forall k a, zget (a_pendAuto s) k = Some a ->
              exists t0 h q q' rr, planned t s k a t0 h q q' rr;
  ib_disj : forall k k' a b id, zget (a_pendAuto s) k = Some a ->
              zget (a_pendAuto s) k' = Some b -> In id a -> In id b -> k = k';
  ib_cost : forall k a id, zget (a_pendAuto s) k = Some a -> In id a ->
              option_map snd (zget (a_plans s) id) = cost_of evs id;
  ib_fresh : forall id, a_routeId s <= id -> zget (a_plans s) id = None /\ cost_of evs id = None;
  ib_built : forall k q' t0, zget (a_reqs s) k = Some q' -> NoDup (auto_ids evs) ->
              prefix t0 t -> In (q_id q') (auto_ids (map fst t0)) ->
              (forall x, In x (q_tasks q') -> options t0 x <> None) ->
              zget (a_pendAuto s) k <> None
}.

Lemma vehicles_filled h s q :
  (forall v, zget (a_states s) v = last_state h v) -> NoDup (map fst (a_states s)) ->
  vehicles_of h q (q_entities (filled ord s q)).
Proof.
  intros S N. unfold vehicles_of, filled. cbn. destruct (q_entities q); auto.
  split; [apply (ord_NoDup ord ord_perm); auto|]. intros v. rewrite (ord_In ord ord_perm), <- S.
  destruct (zget (a_states s) v) eqn:E.
  - split; [discriminate|]. intros _. apply In_zget in E. apply (in_map fst) in E. auto.
  - apply zget_none in E. tauto.
Qed.

Lemma filled_origin s (t : trace) q0 :
  (forall v, zget (a_states s) v = last_state (map fst t) v) -> NoDup (map fst (a_states s)) ->
  (In (EvUnique q0) (map fst t) \/ exists h q, prefix h t /\ origin (map fst h) q q0) ->
  exists h q, prefix h t /\ origin (map fst h) q (filled ord s q0).
Proof.
  intros S N [I|(h & q & P & O)].
  - exists t, q0. split; [apply prefix_refl|]. unfold origin. repeat split; auto.
    apply vehicles_filled; auto.
  - destruct O as (O1 & O2 & O3 & O4 & O5 & O6 & O7).
    destruct (q_entities q0) as [|v l] eqn:E.
    + exists t, q. split; [apply prefix_refl|]. unfold origin. cbn. repeat split; auto.
      * destruct P as (c & ->). rewrite map_app. apply in_or_app. auto.
      * assert (Q : q_entities q = []).
        { unfold vehicles_of in O2. destruct (q_entities q); [auto|discriminate]. }
        pose proof (vehicles_filled (map fst t) s q S N) as V.
        unfold filled in V |- *. cbn in V |- *. rewrite Q in V. rewrite E. auto.
    + exists h, q. split; auto. unfold origin. cbn. rewrite E. auto 10.
Qed.

Lemma needed_same t q q' v :
  q_tasks q' = q_tasks q -> q_planning q' = q_planning q -> needed t q' v = needed t q v.
Proof. intros E1 E2. unfold needed, starts, choices. rewrite E1, E2. auto. Qed.

Lemma planned_mono t s k a t0 h q q' rr t' s' :
  planned t s k a t0 h q q' rr -> prefix t t' -> zget (a_reqs s') k = zget (a_reqs s) k ->
  (forall id, In id a -> zget (a_pairs s') id = zget (a_pairs s) id) ->
  planned t' s' k a t0 h q q' rr.
Proof.
  intros [A B C D K E F G H] P R Q. constructor; auto.
  - congruence.
  - eapply prefix_trans; eauto.
  - intros l id I. rewrite Q; eauto. rewrite <- F. apply (in_map snd) in I. auto.
Qed.

Lemma prefix_inv {A} (a b : list A) x : prefix a (b ++ [x]) -> prefix a b \/ a = b ++ [x].
Proof.
  intros (c & E). destruct c as [|y c] using rev_ind.
  - right. rewrite app_nil_r in E. auto.
  - left. rewrite app_assoc in E. apply app_inj_tail in E. destruct E as (-> & _).
    exists c. auto.
Qed.

Lemma auto_ids_app a b : auto_ids (a ++ b) = auto_ids a ++ auto_ids b.
Proof. apply flat_map_app. Qed.

(** Steps that do not concern matrices. *)
Lemma invB_same evs s t e s' o :
  (forall i ps, e <> EvPlanResp i ps) -> (forall q, e <> EvUnique q) ->
  (forall k os, e <> EvOptions k os) ->
  (forall v, zget (a_states s') v = last_state (evs ++ [e]) v) ->
  NoDup (map fst (a_states s')) ->
  a_next s' = a_next s -> a_reqs s' = a_reqs s -> a_opts s' = a_opts s ->
  a_routeId s' = a_routeId s -> a_plans s' = a_plans s -> a_pendAuto s' = a_pendAuto s ->
  a_pairs s' = a_pairs s ->
  existsb is_matrix o = false -> matrices o = [] ->
  invB evs s t -> invB (evs ++ [e]) s' (t ++ [(e, o)]).
Proof.
  intros N1 N2 N3 ST SK E1 E2 E3 E4 E5 E6 E7 OM MM [A B C D F G H I J K L M].
  assert (OP : forall k, options (t ++ [(e, o)]) k = options t k).
  { intros k. rewrite options_snoc. change (existsb _ o) with (existsb is_matrix o). rewrite OM.
    destruct e; auto. destruct (N3 task os). auto. }
  assert (CO : forall id, cost_of (evs ++ [e]) id = cost_of evs id).
  { intros id. rewrite cost_of_snoc. destruct e; auto. destruct (N1 id0 plans). auto. }
  assert (AI : auto_ids (evs ++ [e]) = auto_ids evs).
  { rewrite auto_ids_app. destruct e as [| | q' | | |]; try apply app_nil_r.
    destruct (N2 q'). auto. }
  constructor; rewrite ?E1, ?E2, ?E3, ?E4, ?E5, ?E6, ?E7; auto.
  - intros k. rewrite OP. auto.
  - rewrite sent_snoc, matrices_app, MM, app_nil_r, AI. auto.
  - intros k q' Q. destruct (H _ _ Q) as [X|(h & q & X & Y)].
    + left. apply in_or_app. auto.
    + right. exists h, q. split; auto using prefix_snoc.
  - intros k a P. destruct (I _ _ P) as (t0 & h & q & q' & rr & PL). exists t0, h, q, q', rr.
    eapply planned_mono; eauto using prefix_snoc, prefix_refl; try congruence.
  - intros k a id. rewrite CO. eauto.
  - intros id. rewrite CO. eauto.
  - intros k q' t0 Q ND P X Y. rewrite AI in ND. apply prefix_inv in P. destruct P as [P| ->]; [eauto|].
    apply (M k q' t); auto using prefix_refl.
    + rewrite map_app, auto_ids_app in X. cbn in X. destruct e as [| | qq | | |]; rewrite ?app_nil_r in X; auto.
      destruct (N2 qq). auto.
    + intros x Z. rewrite <- OP. auto.
Qed.

(** Steps at which matrices are requested. *)
Lemma invB_options evs s1 s' t e o :
  (forall i ps, e <> EvPlanResp i ps) -> (forall v p g, e <> EvState v p g) ->
  (forall k, zget (a_opts s1) k = match e with
                                  | EvOptions i os => if i =? k then Some os else options t k
                                  | _ => options t k
                                  end) ->
  (forall v, zget (a_states s1) v = last_state evs v) -> NoDup (map fst (a_states s1)) ->
  NoDup (map fst (a_reqs s1)) -> (forall k q, zget (a_reqs s1) k = Some q -> k < a_next s1) ->
  Permutation (matrices (sent t) ++ ids_of (a_reqs s1)) (auto_ids (evs ++ [e])) ->
  (forall k q', zget (a_reqs s1) k = Some q' ->
     In (EvUnique q') (evs ++ [e]) \/ exists h q, prefix h t /\ origin (map fst h) q q') ->
  (forall k a, zget (a_pendAuto s1) k = Some a -> exists t0 h q q' rr, planned t s1 k a t0 h q q' rr) ->
  (forall k k' a b id, zget (a_pendAuto s1) k = Some a ->
     zget (a_pendAuto s1) k' = Some b -> In id a -> In id b -> k = k') ->
  (forall k a id, zget (a_pendAuto s1) k = Some a -> In id a -> id < a_routeId s1) ->
  (forall k a id, zget (a_pendAuto s1) k = Some a -> In id a ->
     option_map snd (zget (a_plans s1) id) = cost_of evs id) ->
  (forall id, a_routeId s1 <= id -> zget (a_plans s1) id = None /\ cost_of evs id = None) ->
  (forall k q' t0, zget (a_reqs s1) k = Some q' -> NoDup (auto_ids (evs ++ [e])) ->
     prefix t0 t -> In (q_id q') (auto_ids (map fst t0)) ->
     (forall x, In x (q_tasks q') -> options t0 x <> None) ->
     zget (a_pendAuto s1) k <> None) ->
  map fst t = evs ->
  checkOptions ord s1 = (s', o) -> invB (evs ++ [e]) s' (t ++ [(e, o)]).
Proof.
  intros N1 N2 A B C D F G H I J HI K L M EV CH.
  pose proof (checkOptions_loop _ _ _ D J HI CH) as [R LE PR LK LD LH KE ID (OM & MM)].
  assert (CO : forall id, cost_of (evs ++ [e]) id = cost_of evs id).
  { intros id. rewrite cost_of_snoc. destruct e; auto. destruct (N1 id0 plans). auto. }
  set (t' := t ++ [(e, o)]).
  assert (EV' : map fst t' = evs ++ [e]) by (unfold t'; rewrite map_app, EV; auto).
  assert (ST : forall v, zget (a_states s1) v = last_state (map fst t') v).
  { intros v. rewrite EV', last_state_snoc. destruct e; auto. destruct (N2 v0 p ground). auto. }
  assert (OP : forall k, zget (a_opts s1) k = options t' k).
  { intros k. unfold t'. rewrite options_snoc.
    change (existsb _ o) with (existsb is_matrix o). rewrite OM. auto. }
  assert (PT : prefix t t') by (apply prefix_snoc, prefix_refl).
  assert (OR : forall k q0, zget (a_reqs s1) k = Some q0 ->
     In (EvUnique q0) (map fst t') \/ exists h q, prefix h t' /\ origin (map fst h) q q0).
  { intros k q0 Q. rewrite EV'. destruct (H _ _ Q) as [X|(h & q & X & Y)]; auto.
    right. exists h, q. split; auto. eapply prefix_trans; eauto. }
  destruct R as (R1&R2&R3&R4&R5&R6&R7&R8).
  constructor; rewrite ?R1, ?R3, ?R4, ?R5; auto.
  - intros v. rewrite <- EV'. auto.
  - intros k q Q. destruct (LK k) as [(_ & E)|(q0 & rr & FR)].
    + rewrite E in Q. eauto.
    + eapply F. apply FR.
  - unfold t'. rewrite sent_snoc, matrices_app, MM, app_nil_r, ID. auto.
  - intros k q' Q. destruct (LK k) as [(_ & E)|(q0 & rr & FR)].
    + rewrite E in Q. rewrite <- EV'. apply (OR k). auto.
    + right. rewrite (fr_after _ _ _ _ _ _ FR) in Q. injection Q as <-.
      eapply filled_origin; eauto. eapply OR. apply FR.
  - intros k a P. destruct (LK k) as [(E & E2)|(q0 & rr & FR)].
    + rewrite E in P. destruct (I _ _ P) as (t0 & h & q & q' & rr & PL).
      exists t0, h, q, q', rr. eapply planned_mono; eauto.
    + destruct (filled_origin s1 t' q0) as (h & q & HP & HO); eauto.
      { eapply OR. apply FR. }
      exists t', h, q, (filled ord s1 q0), rr.
      rewrite (fr_pend _ _ _ _ _ _ FR) in P. injection P as <-.
      constructor; auto using prefix_refl; try apply FR.
      * intros x X. rewrite <- OP. destruct HO as (_ & _ & _ & HT & _). cbn in HT.
        rewrite <- HT in X.
        pose proof (fr_known _ _ _ _ _ _ FR) as FK. rewrite forallb_forall in FK.
        apply FK, zhas_Some in X. destruct X as (y & ->). discriminate.
      * rewrite (fr_legs _ _ _ _ _ _ FR). apply flat_map_ext'. intros v.
        rewrite (legs_needed s1 t'); auto. destruct HO as (_ & _ & _ & H4 & H5 & _).
        apply needed_same; auto.
      * intros x X. destruct (fr_sent _ _ _ _ _ _ FR x X) as (p & P1 & P2). exists p. split; auto.
        unfold t'. rewrite sent_snoc. apply in_or_app. auto.
  - intros k a id P X. rewrite CO. destruct (LK k) as [(E & _)|(q0 & rr & FR)].
    + rewrite E in P. eauto.
    + rewrite (fr_pend _ _ _ _ _ _ FR) in P. injection P as <-.
      destruct (L id) as (L1 & L2); [apply (fr_ids _ _ _ _ _ _ FR); auto|].
      rewrite L1, L2. auto.
  - intros id X. rewrite CO. apply L. lia.
  - intros k q' t0 Q ND P X Y.
    destruct (LK k) as [(E & E2)|(q0 & rr & FR)].
    2: { rewrite (fr_pend _ _ _ _ _ _ FR). discriminate. }
    apply prefix_inv in P. destruct P as [P| ->].
    + rewrite E. rewrite E2 in Q. eapply M; eauto.
    + intros Z. apply (checkOptions_done _ _ _ k CH). exists q'. repeat split; auto.
      apply forallb_forall. intros x Hx. rewrite R4. unfold zhas. rewrite OP.
      specialize (Y x Hx). fold t' in Y. destruct (options t' x); auto.
Qed.

Lemma checkRoutes_auto s s' o l :
  ranges s l -> checkRoutes ord s = (s', o) ->
  a_states s' = a_states s /\ a_next s' = a_next s /\ a_reqs s' = a_reqs s /\
  a_opts s' = a_opts s /\ a_routeId s' = a_routeId s /\ a_pendAuto s' = a_pendAuto s /\
  a_pairs s' = a_pairs s /\
  (forall id, 1000000 <= id -> zget (a_plans s') id = zget (a_plans s) id) /\
  existsb is_matrix o = false /\ matrices o = [].
Proof.
  intros G C.
  assert (H : ranges s' (l ++ o) /\ (a_states s' = a_states s /\ a_next s' = a_next s /\ a_reqs s' = a_reqs s /\
  a_opts s' = a_opts s /\ a_routeId s' = a_routeId s /\ a_pendAuto s' = a_pendAuto s /\
  a_pairs s' = a_pairs s /\
  (forall id, 1000000 <= id -> zget (a_plans s') id = zget (a_plans s) id) /\
  existsb is_matrix o = false /\ matrices o = [])); [|tauto].
  eapply (checkRoutes_ind ord (fun s' o => ranges s' (l ++ o) /\ (a_states s' = a_states s /\ a_next s' = a_next s /\ a_reqs s' = a_reqs s /\
  a_opts s' = a_opts s /\ a_routeId s' = a_routeId s /\ a_pendAuto s' = a_pendAuto s /\
  a_pairs s' = a_pairs s /\
  (forall id, 1000000 <= id -> zget (a_plans s') id = zget (a_plans s) id) /\
  existsb is_matrix o = false /\ matrices o = []))); [| |exact C].
  - intros s1 o1 k ids s2 o2 (G1 & A1&A2&A3&A4&A5&A6&A7&A8&A9&A10) P F SR.
    apply (sendRouteResponse_spec ord ord_perm) in SR; [|eapply g_rNoDup; eauto].
    split; [rewrite app_assoc; eapply respond_ranges; eauto|].
    destruct SR. cbn -[zget existsb is_matrix].
    destruct re_out as (rs & -> & _). rewrite existsb_app, matrices_app, A9, A10. cbn.
    repeat split; try congruence.
    intros id L. rewrite <- A8 by auto. destruct (re_plans id) as [E|(r & ps & c & I1 & I2 & I3)]; auto.
    pose proof (g_rpend _ _ G1 _ _ _ P I1).
    pose proof (g_resps _ _ G1 r ps (id, c) I2) as X. cbn in X.
    assert (id < 1000000) by (apply X; [lia|auto]). lia.
  - rewrite app_nil_r. auto 15.
Qed.

Lemma matrix_entries s (rr : list (leg * Z)) (cost : Z -> Z) :
  (forall l id, In (l, id) rr -> zget (a_pairs s) id = Some (fst l)) ->
  (forall id, In id (map snd rr) -> option_map snd (zget (a_plans s) id) = Some (cost id)) ->
  Permutation (flat_map (fun id => match zget (a_pairs s) id, zget (a_plans s) id with
                                   | Some p, Some (_, c) => [(p, c)]
                                   | _, _ => []
                                   end) (ord (map snd rr)))
              (map (fun x => (fst (fst x), cost (snd x))) rr).
Proof.
  intros P C. rewrite (Permutation_flat_map _ (ord_perm (map snd rr))).
  induction rr as [|(l, id) rr IH]; cbn [map flat_map snd fst]; auto.
  rewrite (P l id) by (left; auto). specialize (C id) as C'. cbn in C'.
  destruct (zget (a_plans s) id) as [(r, c)|]; cbn in C'; [|discriminate C'; auto].
  - assert (c = cost id) as -> by (assert (X : Some c = Some (cost id)) by auto; congruence).
    cbn [app]. constructor. apply IH.
    + intros l' id' I. apply P. right. auto.
    + intros id' I. apply C. right. auto.
Qed.

Lemma invB_run evs : orderly evs (snd (arun evs)) ->
  invB evs (fst (arun evs)) (snd (arun evs)) /\
  forall t1 e o t2 i rg rl ts en, snd (arun evs) = t1 ++ (e, o) :: t2 ->
    In (OutMatrix i rg rl ts en) o -> right_matrix t1 e i rg rl ts en.
Proof.
  revert evs. apply (run_inv (rstep ord) rinit (fun evs s t => orderly evs t ->
    invB evs s t /\ forall t1 e o t2 i rg rl ts en, t = t1 ++ (e, o) :: t2 ->
    In (OutMatrix i rg rl ts en) o -> right_matrix t1 e i rg rl ts en)).
  - intros _. split; [|intros t1 e o t2 i rg rl ts en E; destruct t1; discriminate].
    constructor; cbn; try discriminate; auto; constructor.
  - intros evs e s t s' o IH V R OR. pose proof (orderly_prefix _ _ _ _ OR) as OR1.
    specialize (IH OR1). destruct IH as (IB & IM).
    assert (EV : map fst t = evs).
    { pose proof (run_events (rstep ord) rinit evs) as X. rewrite R in X. auto. }
    assert (G : ranges s (sent t)).
    { pose proof (ranges_run ord ord_perm evs) as X. rewrite R in X. auto. }
    assert (NOM : existsb is_matrix o = false ->
      forall t1 e' o' t2 i rg rl ts en, t ++ [(e, o)] = t1 ++ (e', o') :: t2 ->
      In (OutMatrix i rg rl ts en) o' -> right_matrix t1 e' i rg rl ts en).
    { intros NM t1 e' o' t2 i rg rl ts en E I. apply snoc_split in E.
      destruct E as [(-> & <- & X)|(t3 & ->)]; [|eapply IM; eauto].
      injection X as <- <-. assert (Y : existsb is_matrix o = true).
      { apply existsb_exists. eexists. split; [exact I|]. auto. }
      congruence. }
    destruct e as [v p g|v g|q|tk os|r|i ps]; cbn [rstep] in V.
    + injection V as <- <-. split; [|apply NOM; auto].
      apply (invB_same _ s); auto; try discriminate; destruct IB.
      * intros w. cbn -[zget zset]. rewrite zget_set, last_state_snoc, (Z.eqb_sym v w).
        destruct (w =? v); auto.
      * cbn -[zset]. apply NoDup_keys_zset. auto.
    + injection V as <- <-. split; [|apply NOM; auto].
      apply (invB_same _ s); auto; try discriminate; destruct IB; auto.
      intros w. rewrite last_state_snoc. auto.
    + destruct IB as [A B C D F GI H I J K L M].
      assert (FN : zget (a_reqs s) (a_next s) = None).
      { destruct (zget (a_reqs s) (a_next s)) eqn:X; auto. apply F in X. lia. }
      assert (PN : forall k a, zget (a_pendAuto s) k = Some a -> k <> a_next s).
      { intros k a P ->. destruct (g_reqs _ _ G _ _ P). congruence. }
      assert (CH := V).
      apply (invB_options evs _ s' t (EvUnique q) o) in V; auto; try discriminate;
        cbn -[zget zset].
      * split; auto. apply NOM. apply (checkOptions_loop) in CH; try apply CH; auto.
        -- cbn -[zset]. apply NoDup_keys_zset. auto.
        -- cbn. intros k a id P X. apply (g_pend _ _ G _ _ _ P X).
      * apply NoDup_keys_zset. auto.
      * intros k q0. rewrite zget_set. destruct (Z.eqb_spec k (a_next s)); [lia|].
        intros X. apply F in X. lia.
      * rewrite auto_ids_app. cbn. unfold zset, ids_of. cbn [map snd].
        assert (E : zdel (a_reqs s) (a_next s) = a_reqs s).
        { apply zget_none in FN. clear - FN. unfold zdel.
          induction (a_reqs s) as [|(j, y) m IHm]; cbn in *; auto.
          destruct (Z.eqb_spec j (a_next s)) as [E|E]; cbn; [subst; tauto|]. rewrite IHm; auto. }
        rewrite E. rewrite <- Permutation_middle, <- Permutation_cons_append.
        constructor. auto.
      * intros k q'. rewrite zget_set. destruct (k =? a_next s).
        -- intros [= <-]. left. apply in_or_app. cbn. auto.
        -- intros X. destruct (H _ _ X) as [Y|Y]; auto. left. apply in_or_app. auto.
      * intros k a P. destruct (I _ _ P) as (t0 & h & q1 & q' & rr & PL).
        exists t0, h, q1, q', rr. eapply planned_mono; eauto using prefix_refl.
        cbn -[zget zset]. apply zget_set_other. eauto.
      * intros k a id P X. apply (g_pend _ _ G _ _ _ P X).
      * intros k q' t0. rewrite zget_set. destruct (Z.eqb_spec k (a_next s)) as [E|E].
        -- intros [= <-] ND (c & PF) X. exfalso. rewrite auto_ids_app in ND.
           apply (NoDup_app_disjoint _ _ (q_id q) ND); [|cbn; auto].
           rewrite <- EV, PF, map_app, auto_ids_app. apply in_or_app. auto.
        -- intros X ND P Y Z1. eapply M; eauto. rewrite auto_ids_app in ND.
           apply NoDup_app_l in ND. auto.
    + destruct IB as [A B C D F GI H I J K L M].
      assert (CH := V).
      apply (invB_options evs _ s' t (EvOptions tk os) o) in V; auto; try discriminate;
        cbn -[zget zset].
      * split; auto. apply NOM. apply (checkOptions_loop) in CH; try apply CH; auto.
        cbn. intros k a id P X. apply (g_pend _ _ G _ _ _ P X).
      * intros k. rewrite zget_set, (Z.eqb_sym tk k). destruct (k =? tk); auto.
      * rewrite auto_ids_app, app_nil_r. auto.
      * intros k q' X. destruct (H _ _ X) as [Y|Y]; auto. left. apply in_or_app. auto.
      * intros k a P. destruct (I _ _ P) as (t0 & h & q1 & q' & rr & PL).
        exists t0, h, q1, q', rr. eapply planned_mono; eauto using prefix_refl.
      * intros k a id P X. apply (g_pend _ _ G _ _ _ P X).
      * intros k q' t0 X ND. rewrite auto_ids_app, app_nil_r in ND. eauto.
    + unfold handleRouteRequest in V. apply routeVehicles_spec in V.
      destruct V as [(E1&E2&E3&E4&E5&E6&E7&E8&E9) _ _ _ (ps & -> & _)].
      destruct (plan_outs (map OutPlanReq ps)) as (O1 & O2).
      { intros y Y. apply in_map_iff in Y. destruct Y as (p & <- & _). eauto. }
      split; [|apply NOM; auto].
      apply (invB_same _ s); auto; try discriminate; rewrite E1; destruct IB; auto.
      intros w. rewrite last_state_snoc. auto.
    + destruct (or_echo _ _ OR t i ps o []) as (p & P1 & P2 & P3); [auto|].
      pose proof (resp_ranges _ _ _ _ _ G P1 P2 P3) as G1. cbn zeta in G1.
      unfold checkPlans in V. cbn zeta in V.
      set (s1 := set_auto _ _ _ _ _) in V. change (ranges s1 (sent t)) in G1.
      destruct (checkRoutes ord s1) as (s2, o1) eqn:C1.
      destruct (checkMatrices ord s2) as (s3, o2) eqn:C2. injection V as <- <-.
      pose proof (checkRoutes_ranges ord ord_perm _ _ _ _ C1 G1) as G2.
      destruct (checkRoutes_auto _ _ _ _ G1 C1) as (X1&X2&X3&X4&X5&X6&X7&X8&X9&X10).
      change (a_states s1) with (a_states s) in X1. change (a_next s1) with (a_next s) in X2.
      change (a_reqs s1) with (a_reqs s) in X3. change (a_opts s1) with (a_opts s) in X4.
      change (a_routeId s1) with (a_routeId s) in X5.
      change (a_pendAuto s1) with (a_pendAuto s) in X6.
      change (a_pairs s1) with (a_pairs s) in X7.
      destruct IB as [A B C D F GI H I J K L M].
      assert (LM : loopM s2 s3 o2).
      { eapply checkMatrices_loop; eauto; rewrite ?X3, ?X6; auto. }
      destruct LM as [M1 M2 M3 M4 M5 M6 M7 M8 M9 M10].
      assert (IDL : forall k a id, zget (a_pendAuto s) k = Some a -> In id a -> 1000000 <= id).
      { intros k a id P X. apply (g_pend _ _ G _ _ _ P X). }
      assert (COST : forall k a id, zget (a_pendAuto s) k = Some a -> In id a ->
                option_map snd (zget (a_plans s2) id) = cost_of (evs ++ [EvPlanResp i ps]) id).
      { intros k a id P X. rewrite X8 by eauto. rewrite cost_of_snoc, <- (K _ _ _ P X).
        apply fold_zset_cost. }
      assert (AI : auto_ids (evs ++ [EvPlanResp i ps]) = auto_ids evs).
      { rewrite auto_ids_app, app_nil_r. auto. }
      assert (OP : forall k, options (t ++ [(EvPlanResp i ps, o1 ++ o2)]) k =
                if existsb is_matrix o2 then None else options t k).
      { intros k. rewrite options_snoc. change (existsb _ (o1 ++ o2)) with (existsb is_matrix (o1 ++ o2)).
        rewrite existsb_app, X9. auto. }
      split.
      * constructor.
        -- intros k. rewrite OP, M4. destruct (existsb is_matrix o2); auto. rewrite X4. auto.
        -- intros v. rewrite M1, X1, last_state_snoc. auto.
        -- rewrite M1, X1. auto.
        -- auto.
        -- intros k q Q. rewrite M2, X2. apply M7 in Q. destruct Q as (Q & _).
           rewrite X3 in Q. eauto.
        -- rewrite AI, sent_snoc, !matrices_app, X10. cbn [app]. rewrite <- app_assoc, M6, X3. auto.
        -- intros k q' Q. apply M7 in Q. destruct Q as (Q & _). rewrite X3 in Q.
           destruct (H _ _ Q) as [Y|(h & q & Y & Z1)].
           ++ left. apply in_or_app. auto.
           ++ right. exists h, q. split; auto using prefix_snoc.
        -- intros k a P. destruct (M8 _ _ P) as (P4 & P5 & P6). rewrite X6 in P4.
           destruct (I _ _ P4) as (t0 & h & q & q' & rr & PL). exists t0, h, q, q', rr.
           eapply planned_mono; eauto using prefix_snoc, prefix_refl; [congruence|].
           intros id Y. destruct (P6 id Y) as (_ & ->). congruence.
        -- intros k k' a b id P P'. destruct (M8 _ _ P) as (P4 & _). destruct (M8 _ _ P') as (P5 & _).
           rewrite X6 in P4, P5. eauto.
        -- intros k a id P Y. destruct (M8 _ _ P) as (P4 & _ & P6). rewrite X6 in P4.
           destruct (P6 id Y) as (-> & _). eauto.
        -- intros id. rewrite M3, X5. intros Y. destruct (L id Y) as (L1 & L2).
           assert (NI : ~ In id (map fst ps)).
           { intros Z1. apply in_map_iff in Z1. destruct Z1 as (x & Z1 & Z2). apply P3 in Z2.
             apply in_map_iff in Z2. destruct Z2 as (r & Z2 & Z3). pose proof (g_route _ _ G).
             destruct (g_sent _ _ G p P1) as [(_ & S2)|(_ & S2)]; specialize (S2 r Z3); lia. }
           split; [|rewrite cost_of_snoc, cost_in_out; auto].
           apply M9. pose proof (g_route _ _ G). rewrite X8 by lia.
           pose proof (fold_zset_cost i ps (a_plans s) id) as Q.
           rewrite L1, cost_in_out in Q; auto. cbn [option_map] in Q.
           change (a_plans s1) with (fold_left (fun (m : zmap (Z * Z)) (p : Z * Z) => zset m (fst p) (i, snd p)) ps (a_plans s)).
           match goal with |- ?z = None => destruct z end; [discriminate|auto].
        -- intros k q' t0 Q ND P Y Z1. apply M7 in Q. destruct Q as (Q & E). rewrite E, X6.
           rewrite X3 in Q. rewrite AI in ND. apply prefix_inv in P. destruct P as [P| ->]; [eauto|].
           apply (M k q' t); auto using prefix_refl.
           ++ rewrite map_app, auto_ids_app in Y. cbn in Y. rewrite app_nil_r in Y. auto.
           ++ intros x Hx. specialize (Z1 x Hx). rewrite OP in Z1.
              destruct (existsb is_matrix o2); [congruence|auto].
      * intros t1 e' o' t2 j rg rl ts en E IN. apply snoc_split in E.
        destruct E as [(-> & <- & X)|(t3 & ->)]; [|eapply IM; eauto].
        injection X as <- <-. apply in_app_or in IN. destruct IN as [IN|IN].
        { assert (Y : existsb is_matrix o1 = true).
          { apply existsb_exists. eexists. split; [exact IN|]. auto. }
          congruence. }
        destruct (M10 _ _ _ _ _ IN) as (k & q' & a & K1 & K2 & -> & -> & -> & -> & K3 & ->).
        rewrite X6 in K1. rewrite X3 in K2.
        destruct (I _ _ K1) as (t0 & h & q & q2 & rr & [PA PB PC PD PK PE PF PG PH]).
        rewrite K2 in PA. injection PA as <-.
        destruct PD as (D1 & D2 & D3 & D4 & D5 & D6 & D7).
        set (cost := fun id => match cost_of (evs ++ [EvPlanResp i ps]) id with
                               | Some c => c | None => 0 end).
        assert (CS : forall id, In id a -> cost_of (evs ++ [EvPlanResp i ps]) id = Some (cost id)).
        { intros id Y. unfold cost. rewrite <- (COST _ _ _ K1 Y). specialize (K3 id Y).
          destruct (zget (a_plans s2) id); [auto|congruence]. }
        split; [eauto|]. exists q, h, t0, (q_entities q'), rr, cost.
        rewrite EV. rewrite <- PF. repeat split; auto.
        -- rewrite D4. auto.
        -- rewrite PF. exact (g_pendNoDup _ _ G _ _ K1).
        -- apply CS. rewrite <- PF. apply (in_map snd) in H0. auto.
        -- destruct (PH _ H0) as (p' & Q1 & Q2 & Q3). exists p'. auto.
        -- apply matrix_entries.
           ++ rewrite X7. auto.
           ++ rewrite PF. intros id Y. rewrite (COST _ _ _ K1 Y). auto.
Qed.
End Order.

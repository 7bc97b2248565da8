(** The invariant of the plan builder over its histories. *)
From Coq Require Import List ZArith Bool Permutation Lia.
From Verif Require Import ZMap Run BuilderModel BuilderSpec BuilderProofs.
Import ListNotations.
Open Scope list_scope.
Open Scope Z_scope.

Definition all_impl (o : out) : list ireq := match o with OutImpl i => [i] | _ => [] end.

Section Inv.
  Context (ord : list Z -> list Z) (ord_perm : forall l, Permutation (ord l) l)
          (lead : pose -> pose).

  (** * What a step sends *)

  Lemma sendNext_cases q s :
    sendNext q s = (s, []) \/
    exists i, snd (sendNext q s) = [OutImpl i] /\ i_corr i = q /\ i_id i = b_impl s /\
      b_reqs (fst (sendNext q s)) = b_reqs s /\ b_prog (fst (sendNext q s)) = b_prog s /\
      b_proj (fst (sendNext q s)) = b_proj s /\ b_states (fst (sendNext q s)) = b_states s /\
      b_cmd (fst (sendNext q s)) = b_cmd s /\
      (exists r, b_rest (fst (sendNext q s)) = zset (b_rest s) q r) /\
      b_expect (fst (sendNext q s)) = zset (b_expect s) (b_impl s) q /\
      b_impl (fst (sendNext q s)) = b_impl s + 1.
  Proof.
    unfold sendNext. destruct (zget (b_reqs s) q) as [u|]; [|auto].
    destruct (zget (b_rest s) q) as [[|a r]|]; auto.
    destruct (zget (b_proj s) q) as [js|]; [|auto].
    destruct (find _ js) as [j|]; [|auto]. right. eexists.
    cbn -[zset]. do 8 (split; [reflexivity|]). split; [eauto|]. auto.
  Qed.

  (** The part of the state a step leaves alone, and the implementation request it sends. *)
  Record effect (s s' : bstate) (o : list out) : Prop := {
    ef_impl : (flat_map all_impl o = [] /\ b_expect s' = b_expect s /\ b_impl s' = b_impl s) \/
              (exists i, flat_map all_impl o = [i] /\ i_id i = b_impl s /\
                 b_expect s' = zset (b_expect s) (b_impl s) (i_corr i) /\
                 b_impl s' = b_impl s + 1)
  }.

  Lemma sendNext_effect q s : effect s (fst (sendNext q s)) (snd (sendNext q s)).
  Proof.
    constructor. destruct (sendNext_cases q s) as [->|(i & -> & C & I & _ & _ & _ & _ & _ & _ & X & Y)].
    - left. auto.
    - right. exists i. cbn [flat_map all_impl app]. rewrite C. auto.
  Qed.

  Lemma checkNext_effect q s : effect s (fst (checkNext q s)) (snd (checkNext q s)).
  Proof.
    unfold checkNext. destruct (zget (b_rest s) q) as [[|a r]|].
    - constructor. left. auto.
    - apply sendNext_effect.
    - constructor. left. auto.
  Qed.

  Lemma step_effect s e : effect s (fst (bstep ord lead s e)) (snd (bstep ord lead s e)).
  Proof.
    destruct e as [v p tm|u|q ts|x]; cbn [bstep fst snd].
    - constructor. left. auto.
    - constructor. left. auto.
    - unfold processSummary. destruct (zget (b_reqs s) q) as [u|]; [|constructor; left; auto].
      destruct ts as [|a ts]; [constructor; left; auto|].
      destruct (forallb _ _); [|constructor; left; auto].
      match goal with |- effect _ (fst (sendNext _ ?s0)) _ =>
        destruct (sendNext_effect q s0) as [E] end.
      constructor. exact E.
    - unfold processImpl. destruct (zget (b_expect s) (x_id x)) as [q|]; [|constructor; left; auto].
      destruct (zget (b_prog s) q) as [[ms|]|]; try (constructor; left; auto; fail).
      destruct (x_wps x) as [|w ws].
      + destruct (checkNext_effect q s) as [E]. destruct (checkNext q s) as (s1, o1).
        constructor. exact E.
      + destruct (extend _ _ _ _) as [ms'|];
        (match goal with |- effect _ (fst (checkNext _ ?s0)) _ =>
          destruct (checkNext_effect q s0) as [E] end; constructor; exact E).
  Qed.

  (** * Request ids *)

  Record ids (t : trace) (s : bstate) : Prop := {
    id_exp : forall k q, zget (b_expect s) k = Some q <->
               exists i, In (OutImpl i) (sent t) /\ i_id i = k /\ i_corr i = q;
    id_lt : forall i, In (OutImpl i) (sent t) -> i_id i < b_impl s;
    id_nd : NoDup (map i_id (flat_map all_impl (sent t)))
  }.

  Lemma in_all_impl i l : In i (flat_map all_impl l) <-> In (OutImpl i) l.
  Proof.
    rewrite in_flat_map. split.
    - intros (o & I & J). destruct o; cbn in J; try easy. destruct J as [->|[]]. exact I.
    - intros I. exists (OutImpl i). cbn. auto.
  Qed.

  Lemma ids_step t s e :
    ids t s -> ids (t ++ [(e, snd (bstep ord lead s e))]) (fst (bstep ord lead s e)).
  Proof.
    intros [E L N]. destruct (step_effect s e) as [[(O & X & Y)|(i & O & I & X & Y)]];
      set (s' := fst (bstep ord lead s e)) in *; set (o := snd (bstep ord lead s e)) in *.
    - assert (NI : forall i, ~ In (OutImpl i) o).
      { intros i J. apply in_all_impl in J. rewrite O in J. easy. }
      constructor.
      + intros k q. rewrite X, E, sent_snoc. split; intros (i & A & B);
          exists i; split; auto; [apply in_or_app; auto|].
        apply in_app_or in A. destruct A as [A|A]; [auto|destruct (NI _ A)].
      + intros i. rewrite sent_snoc, in_app_iff, Y. intros [A|A]; [auto|destruct (NI _ A)].
      + rewrite sent_snoc, flat_map_app, O, app_nil_r. exact N.
    - assert (NI : forall j, In (OutImpl j) o <-> j = i).
      { intros j. rewrite <- in_all_impl, O. cbn. intuition. }
      constructor.
      + intros k q. rewrite X, zget_set, sent_snoc.
        destruct (Z.eqb_spec k (b_impl s)) as [Q|Q].
        * subst k. split.
          -- intros Z. injection Z as Z. exists i. rewrite in_app_iff, NI. auto.
          -- intros (j & A & B & C). apply in_app_or in A. destruct A as [A|A].
             ++ apply L in A. lia.
             ++ apply NI in A. subst j. now rewrite C.
        * rewrite E. split; intros (j & A & B & C); exists j; split; auto.
          -- apply in_or_app; auto.
          -- apply in_app_or in A. destruct A as [A|A]; [auto|]. apply NI in A. subst j. lia.
      + intros j. rewrite sent_snoc, in_app_iff, NI, Y. intros [A| ->]; [apply L in A|]; lia.
      + rewrite sent_snoc, flat_map_app, O, map_app. cbn. apply NoDup_snoc; [exact N|].
        intros A. apply in_map_iff in A. destruct A as (j & B & A). apply in_all_impl in A.
        apply L in A. lia.
  Qed.

  (** * Received requests and states *)

  Lemma sendNext_frame q s :
    b_reqs (fst (sendNext q s)) = b_reqs s /\ b_states (fst (sendNext q s)) = b_states s /\
    b_prog (fst (sendNext q s)) = b_prog s /\ b_cmd (fst (sendNext q s)) = b_cmd s /\
    b_proj (fst (sendNext q s)) = b_proj s /\
    (forall p, p <> q -> zget (b_rest (fst (sendNext q s))) p = zget (b_rest s) p).
  Proof.
    destruct (sendNext_cases q s) as [->|(i & _ & _ & _ & A & B & C & D & F & (r & G) & _)].
    - cbn. repeat (split; [reflexivity|]). auto.
    - rewrite A, B, C, D, F, G. do 5 (split; [reflexivity|]). intros p N.
      now apply zget_set_other.
  Qed.

  Lemma checkNext_frame q s :
    b_reqs (fst (checkNext q s)) = b_reqs s /\ b_states (fst (checkNext q s)) = b_states s /\
    b_cmd (fst (checkNext q s)) = b_cmd s /\
    (forall p, p <> q -> zget (b_prog (fst (checkNext q s))) p = zget (b_prog s) p /\
       zget (b_proj (fst (checkNext q s))) p = zget (b_proj s) p /\
       zget (b_rest (fst (checkNext q s))) p = zget (b_rest s) p).
  Proof.
    unfold checkNext. destruct (zget (b_rest s) q) as [[|a r]|].
    - cbn -[zdel]. do 3 (split; [reflexivity|]). intros p N. split; [|auto].
      now apply zget_del_other.
    - destruct (sendNext_frame q s) as (A & B & C & D & F & G).
      rewrite A, B, C, D, F. repeat (split; [reflexivity|]). auto.
    - cbn. repeat (split; [reflexivity|]). auto.
  Qed.

  Record frame (s s' : bstate) (e : event) (o : list out) : Prop := {
    fr_reqs : b_reqs s' = match e with EvUnique u => zset (b_reqs s) (u_id u) u | _ => b_reqs s end;
    fr_states : b_states s' = match e with
                              | EvState v p tm => zset (b_states s) v (p, tm)
                              | _ => b_states s
                              end
  }.

  Lemma step_frame s e :
    frame s (fst (bstep ord lead s e)) e (snd (bstep ord lead s e)).
  Proof.
    destruct e as [v p tm|u|q ts|x]; cbn [bstep fst snd].
    - now constructor.
    - now constructor.
    - unfold processSummary. destruct (zget (b_reqs s) q) as [u|]; [|now constructor].
      destruct ts as [|a ts]; [now constructor|].
      destruct (forallb _ _); [|now constructor].
      match goal with |- frame _ (fst (sendNext _ ?s0)) _ _ =>
        destruct (sendNext_frame q s0) as (A & B & _) end.
      constructor; [rewrite A|rewrite B]; reflexivity.
    - unfold processImpl. destruct (zget (b_expect s) (x_id x)) as [q|]; [|now constructor].
      destruct (zget (b_prog s) q) as [[ms|]|]; try now constructor.
      destruct (x_wps x) as [|w ws].
      + destruct (checkNext_frame q s) as (A & B & _). destruct (checkNext q s) as (s1, o1).
        constructor; assumption.
      + destruct (extend _ _ _ _) as [ms'|];
        (match goal with |- frame _ (fst (checkNext _ ?s0)) _ _ =>
          destruct (checkNext_frame q s0) as (A & B & _) end;
         constructor; [rewrite A|rewrite B]; reflexivity).
  Qed.

  Record known (t : trace) (s : bstate) : Prop := {
    kn_state : forall v, zget (b_states s) v = lastState v t;
    kn_req : forall q, match zget (b_reqs s) q with
                       | None => ~ In q (requestIds t)
                       | Some u => In (EvUnique u) (map fst t) /\ u_id u = q
                       end
  }.

  Lemma lastState_snoc v t e o :
    lastState v (t ++ [(e, o)]) =
    match e with EvState v' p tm => if v' =? v then Some (p, tm) else lastState v t
               | _ => lastState v t end.
  Proof. unfold lastState. rewrite fold_left_app. reflexivity. Qed.

  Lemma requestIds_snoc t e o :
    requestIds (t ++ [(e, o)]) =
    requestIds t ++ match e with EvUnique u => [u_id u] | _ => [] end.
  Proof. unfold requestIds. rewrite flat_map_app. cbn. now rewrite app_nil_r. Qed.

  Lemma summaryIds_snoc t e o :
    summaryIds (t ++ [(e, o)]) =
    summaryIds t ++ match e with EvSummary q _ => [q] | _ => [] end.
  Proof. unfold summaryIds. rewrite flat_map_app. cbn. now rewrite app_nil_r. Qed.

  Lemma replies_snoc t e o :
    replies (t ++ [(e, o)]) = replies t ++ match e with EvImpl x => [x] | _ => [] end.
  Proof. unfold replies. rewrite flat_map_app. cbn. now rewrite app_nil_r. Qed.

  Lemma known_step t s e :
    known t s -> known (t ++ [(e, snd (bstep ord lead s e))]) (fst (bstep ord lead s e)).
  Proof.
    intros [A B]. destruct (step_frame s e) as [F G]. constructor.
    - intros v. rewrite G, lastState_snoc. destruct e; auto.
      rewrite zget_set, A. now rewrite Z.eqb_sym.
    - intros q. rewrite F, map_app, requestIds_snoc. specialize (B q).
      assert (OLD : match zget (b_reqs s) q with
        | Some u => In (EvUnique u) (map fst t ++ [e]) /\ u_id u = q
        | None => ~ In q (requestIds t)
        end).
      { destruct (zget (b_reqs s) q); [|exact B]. rewrite in_app_iff. tauto. }
      destruct e as [v p tm|u|q' ts|x]; cbn [map fst]; rewrite ?app_nil_r; auto.
      rewrite zget_set. destruct (Z.eqb_spec q (u_id u)) as [->|N].
      + split; [|reflexivity]. apply in_or_app. right. left. reflexivity.
      + destruct (zget (b_reqs s) q); [exact OLD|]. rewrite in_app_iff. cbn.
        intros [H|[H|[]]]; [auto|congruence].
  Qed.

  (** * The phases of a request *)

  Record core (q : Z) (u : ureq) (ta : trace) (ts : list asg) (is : list ireq) (xs : list iresp)
      (r : list asg) (js : list proj) (ms : list mission) : Prop := {
    co_order : map asked is ++ r = ts;
    co_plan : is_plan xs ms;
    co_proj : projOK lead u ta xs js;
    co_start : forall a i b, is = a ++ i :: b ->
                 carries_on lead u ta (firstn (length a) xs) i
  }.

  Definition stalled (u : ureq) (ta : trace) (r : list asg) : Prop :=
    exists a r', r = a :: r' /\ ~ participates u ta (g_vehicle a).

  Inductive phase (q : Z) (t : trace) (s : bstate) (is : list ireq) (xs : list iresp)
      (rs : list (list mission * list (Z * pose))) : Prop :=
  | P_idle :
      is = [] -> rs = [] -> (forall ms, zget (b_prog s) q <> Some (Some ms)) ->
      (forall ta ts o tb u, t = ta ++ (EvSummary q ts, o) :: tb -> ~ acceptable ta q ts u) ->
      phase q t s is xs rs
  | P_busy u ta ts o0 tb r js ms :
      t = ta ++ (EvSummary q ts, o0) :: tb -> acceptable ta q ts u ->
      zget (b_reqs s) q = Some u -> zget (b_prog s) q = Some (Some ms) ->
      zget (b_rest s) q = Some r -> zget (b_proj s) q = Some js ->
      core q u ta ts is xs r js ms -> rs = [] ->
      (exists is0 i, is = is0 ++ [i] /\ Forall2 answered is0 xs) \/
        (Forall2 answered is xs /\ stalled u ta r) ->
      phase q t s is xs rs
  | P_done u ta ts o0 tb js ms :
      t = ta ++ (EvSummary q ts, o0) :: tb -> acceptable ta q ts u ->
      zget (b_reqs s) q = Some u -> zget (b_prog s) q = None ->
      core q u ta ts is xs [] js ms ->
      rs = [(ms, map (fun j => (j_vehicle j, j_pose j)) js)] ->
      Forall2 answered is xs ->
      phase q t s is xs rs.

  Lemma snoc_cases {A} (l a b : list A) x y :
    l ++ [x] = a ++ y :: b ->
    (b = [] /\ l = a /\ x = y) \/ (exists b', b = b' ++ [x] /\ l = a ++ y :: b').
  Proof.
    destruct b as [|z b _] using rev_ind; intros E.
    - apply app_inj_tail in E. tauto.
    - rewrite app_comm_cons, app_assoc in E. apply app_inj_tail in E.
      destruct E as (-> & ->). eauto.
  Qed.

  Lemma Forall2_len {A B} (P : A -> B -> Prop) a b : Forall2 P a b -> length a = length b.
  Proof. induction 1; cbn; congruence. Qed.

  Lemma send_ok q t s u ta ts o0 tb is xs r js ms :
    t = ta ++ (EvSummary q ts, o0) :: tb -> acceptable ta q ts u ->
    zget (b_reqs s) q = Some u -> zget (b_prog s) q = Some (Some ms) ->
    zget (b_rest s) q = Some r -> zget (b_proj s) q = Some js ->
    core q u ta ts is xs r js ms -> Forall2 answered is xs -> r <> [] ->
    phase q t (fst (sendNext q s)) (is ++ flat_map (impl_of q) (snd (sendNext q s))) xs
      (flat_map (resp_of q) (snd (sendNext q s))).
  Proof.
    intros T A U P R J [C1 C2 C3 C4] F N. unfold sendNext. rewrite U, R, J.
    destruct r as [|a r]; [easy|].
    pose proof (C3 (g_vehicle a)) as V.
    destruct (find (fun j => j_vehicle j =? g_vehicle a) js) as [j|] eqn:X.
    - destruct V as (V1 & V2). pose proof (find_some _ _ X) as (_ & Y). apply Z.eqb_eq in Y.
      cbn [fst snd flat_map impl_of resp_of i_corr app]. rewrite Z.eqb_refl. cbn [app].
      match goal with |- context [is ++ [?i0]] => set (i := i0) end.
      eapply P_busy with (r := r); cbn [b_reqs b_prog b_rest b_proj]; eauto.
      + apply zget_set_same.
      + constructor; auto.
        * rewrite map_app, <- app_assoc. cbn [map app]. rewrite <- C1. f_equal. f_equal.
          unfold asked, i. cbn. now destruct a.
        * intros l i0 b E. apply snoc_cases in E. destruct E as [(-> & <- & <-)|(b' & -> & E)].
          -- rewrite (Forall2_len _ _ _ F), firstn_all. unfold carries_on, i.
             cbn [i_vehicle i_start i_pose i_time i_region i_neighbours].
             split; [exact V2|]. split; [reflexivity|].
             rewrite Y. apply poses_neighbours, C3.
          -- eapply C4; eauto.
    - cbn [fst snd flat_map]. rewrite app_nil_r.
      eapply P_busy; eauto; [constructor; auto|]. right. split; [auto|]. exists a, r. auto.
  Qed.

  Lemma check_ok q t s u ta ts o0 tb is xs r js ms :
    t = ta ++ (EvSummary q ts, o0) :: tb -> acceptable ta q ts u ->
    zget (b_reqs s) q = Some u -> zget (b_prog s) q = Some (Some ms) ->
    zget (b_rest s) q = Some r -> zget (b_proj s) q = Some js ->
    core q u ta ts is xs r js ms -> Forall2 answered is xs ->
    phase q t (fst (checkNext q s)) (is ++ flat_map (impl_of q) (snd (checkNext q s))) xs
      (flat_map (resp_of q) (snd (checkNext q s))).
  Proof.
    intros T A U P R J C F. unfold checkNext. rewrite R. destruct r as [|a r].
    - rewrite P, J. cbn [fst snd flat_map impl_of resp_of app]. rewrite Z.eqb_refl, app_nil_r.
      cbn [app]. eapply P_done; eauto. cbn [b_prog]. apply zget_del_same.
    - eapply send_ok; eauto. discriminate.
  Qed.

  (** Nothing about other requests. *)
  Lemma send_other p q s : p <> q ->
    flat_map (impl_of p) (snd (sendNext q s)) = [] /\
    flat_map (resp_of p) (snd (sendNext q s)) = [].
  Proof.
    intros N. destruct (sendNext_cases q s) as [->|(i & -> & C & _)]; [auto|].
    cbn. rewrite C. destruct (Z.eqb_spec q p); [congruence|auto].
  Qed.

  Lemma check_other p q s : p <> q ->
    flat_map (impl_of p) (snd (checkNext q s)) = [] /\
    flat_map (resp_of p) (snd (checkNext q s)) = [].
  Proof.
    intros N. unfold checkNext. destruct (zget (b_rest s) q) as [[|a r]|].
    - cbn. destruct (Z.eqb_spec q p); [congruence|auto].
    - now apply send_other.
    - auto.
  Qed.

  Lemma phase_frame q t s is xs rs e o s' :
    phase q t s is xs rs ->
    zget (b_reqs s') q = zget (b_reqs s) q -> zget (b_prog s') q = zget (b_prog s) q ->
    zget (b_rest s') q = zget (b_rest s) q -> zget (b_proj s') q = zget (b_proj s) q ->
    (forall ts, e <> EvSummary q ts) ->
    phase q (t ++ [(e, o)]) s' is xs rs.
  Proof.
    intros H A B C D N.
    destruct H as [I R P S|u ta ts o0 tb r js ms T X1 X2 X3 X4 X5 X6 X7 X8
                  |u ta ts o0 tb js ms T X1 X2 X3 X4 X5 X6].
    - apply P_idle; auto.
      + intros ms. rewrite B. apply P.
      + intros ta ts o' tb u E. apply snoc_cases in E. destruct E as [(_ & _ & E)|(b' & _ & E)].
        * injection E as E. destruct (N _ E).
        * eapply S; eauto.
    - eapply P_busy with (u := u) (ta := ta) (tb := tb ++ [(e, o)]); eauto; try congruence.
      rewrite T, <- app_assoc. reflexivity.
    - eapply P_done with (u := u) (ta := ta) (tb := tb ++ [(e, o)]); eauto; try congruence.
      rewrite T, <- app_assoc. reflexivity.
  Qed.

  (** * Answers *)

  Lemma impls_snoc q t e o : impls q (t ++ [(e, o)]) = impls q t ++ flat_map (impl_of q) o.
  Proof. unfold impls. now rewrite sent_snoc, flat_map_app. Qed.

  Lemma resps_snoc q t e o : resps q (t ++ [(e, o)]) = resps q t ++ flat_map (resp_of q) o.
  Proof. unfold resps. now rewrite sent_snoc, flat_map_app. Qed.

  Lemma in_impl_of i q l : In i (flat_map (impl_of q) l) <-> In (OutImpl i) l /\ i_corr i = q.
  Proof.
    rewrite in_flat_map. split.
    - intros (o & I & J). destruct o; cbn in J; try easy.
      destruct (Z.eqb_spec (i_corr i0) q); [|easy]. destruct J as [->|[]]. auto.
    - intros (I & C). exists (OutImpl i). cbn. rewrite C, Z.eqb_refl. cbn. auto.
  Qed.

  Lemma in_impls i q t : In i (impls q t) <-> In (OutImpl i) (sent t) /\ i_corr i = q.
  Proof. apply in_impl_of. Qed.

  Lemma NoDup_prefix {A} (a b : list A) : NoDup (a ++ b) -> NoDup a.
  Proof.
    induction a as [|x a IH]; cbn; [constructor|]. intros N. inversion N; subst.
    constructor; [|auto]. rewrite in_app_iff in *. tauto.
  Qed.

  Lemma orderly_prefix t e o : orderly (t ++ [(e, o)]) -> orderly t.
  Proof.
    intros [A B C D]. rewrite requestIds_snoc in A. rewrite summaryIds_snoc in B.
    rewrite replies_snoc, map_app in C. constructor; try (eapply NoDup_prefix; eassumption).
    intros t1 x o1 t2 E. apply (D t1 x o1 (t2 ++ [(e, o)])). now rewrite E, <- app_assoc.
  Qed.

  Lemma reply_lt t s x : orderly t -> ids t s -> In x (replies t) -> x_id x < b_impl s.
  Proof.
    intros O I X. unfold replies in X. apply in_flat_map in X. destruct X as ((e, o) & X & Y).
    destruct e; cbn in Y; try easy. destruct Y as [->|[]].
    apply in_split in X. destruct X as (t1 & t2 & E).
    destruct (or_echo _ O _ _ _ _ E) as (i & J & K & _). rewrite <- K. apply (id_lt _ _ I).
    rewrite E, sent_app. apply in_or_app. auto.
  Qed.

  Lemma existsb_false {A} (f : A -> bool) l : (forall x, In x l -> f x = false) -> existsb f l = false.
  Proof.
    intros H. induction l as [|x l IH]; [reflexivity|]. cbn. rewrite H by (left; auto).
    apply IH. intros y I. apply H. right. auto.
  Qed.

  Lemma answers_snoc q t s e :
    let o := snd (bstep ord lead s e) in
    ids t s -> orderly (t ++ [(e, o)]) ->
    answers q (t ++ [(e, o)]) =
    answers q t ++ match e with
                   | EvImpl x => if existsb (fun i => i_id i =? x_id x) (impls q t) then [x] else []
                   | _ => []
                   end.
  Proof.
    intros o I O. unfold answers. rewrite replies_snoc, filter_app.
    assert (NEW : forall x, x_id x < b_impl s ->
       existsb (fun i => i_id i =? x_id x) (impls q (t ++ [(e, o)])) =
       existsb (fun i => i_id i =? x_id x) (impls q t)).
    { intros x L. rewrite impls_snoc, existsb_app.
      rewrite (existsb_false _ (flat_map (impl_of q) o)); [apply orb_false_r|].
      intros i J. apply in_impl_of in J. destruct J as (J & _). apply in_all_impl in J.
      destruct (step_effect s e) as [[(Q & _)|(i0 & Q & R & _)]]; fold o in Q;
        rewrite Q in J; [easy|]. destruct J as [<-|[]]. apply Z.eqb_neq. lia. }
    assert (OT : orderly t) by (eapply orderly_prefix; eauto).
    f_equal.
    - apply filter_ext_in. intros x X. apply NEW. eapply reply_lt; eauto.
    - destruct e as [v p tm|u|q' ts|x]; try reflexivity. cbn [filter].
      rewrite NEW; [destruct (existsb _ _); reflexivity|].
      destruct (or_echo _ O t x o [] eq_refl) as (i & J & K & _). rewrite <- K.
      now apply (id_lt _ _ I).
  Qed.

  (** * The invariant *)

  Record inv (t : trace) (s : bstate) : Prop := {
    in_ids : ids t s;
    in_known : known t s;
    in_phase : forall q, phase q t s (impls q t) (answers q t) (resps q t)
  }.

  Lemma in_requestIds u t : In (EvUnique u) (map fst t) -> In (u_id u) (requestIds t).
  Proof.
    intros I. apply in_map_iff in I. destruct I as ((e, o) & E & I). cbn in E. subst e.
    unfold requestIds. apply in_flat_map. exists (EvUnique u, o). cbn. auto.
  Qed.

  Lemma requestIds_in q t : In q (requestIds t) -> exists u, In (EvUnique u) (map fst t) /\ u_id u = q.
  Proof.
    unfold requestIds. intros I. apply in_flat_map in I. destruct I as ((e, o) & I & J).
    destruct e; cbn in J; try easy. destruct J as [<-|[]]. exists u. split; [|auto].
    apply in_map_iff. exists (EvUnique u, o). auto.
  Qed.

  Lemma NoDup_snoc_not {A} (l : list A) x : NoDup (l ++ [x]) -> ~ In x l.
  Proof.
    intros N. apply NoDup_remove_2 in N. now rewrite app_nil_r in N.
  Qed.

  Lemma unique_request t u u' :
    NoDup (requestIds t) -> In (EvUnique u) (map fst t) -> In (EvUnique u') (map fst t) ->
    u_id u = u_id u' -> u = u'.
  Proof.
    induction t as [|(e, o) t IH] using rev_ind; [easy|].
    rewrite requestIds_snoc, map_app. cbn [map fst]. intros N I J E.
    apply in_app_or in I. apply in_app_or in J.
    destruct I as [I|[->|[]]], J as [J|[J|[]]].
    - apply IH; auto. eapply NoDup_prefix; eauto.
    - subst e. exfalso. apply NoDup_snoc_not in N. apply N. rewrite <- E. now apply in_requestIds.
    - exfalso. apply NoDup_snoc_not in N. apply N. rewrite E. now apply in_requestIds.
    - congruence.
  Qed.

  Lemma in_summaryIds q ts o ta tb : In q (summaryIds (ta ++ (EvSummary q ts, o) :: tb)).
  Proof.
    unfold summaryIds. rewrite flat_map_app. apply in_or_app. right. left. reflexivity.
  Qed.

  Lemma phase_idle_ids q t s is xs rs :
    phase q t s is xs rs ->
    (~ In q (requestIds t) \/ ~ In q (summaryIds t)) ->
    is = [] /\ rs = [] /\ (forall ms, zget (b_prog s) q <> Some (Some ms)) /\
    (forall ta ts o tb u, t = ta ++ (EvSummary q ts, o) :: tb -> ~ acceptable ta q ts u).
  Proof.
    intros H N.
    destruct H as [I R P S|u ta ts o0 tb r js ms T X1 X2 X3 X4 X5 X6 X7 X8
                  |u ta ts o0 tb js ms T X1 X2 X3 X4 X5 X6]; [auto| |];
      (exfalso; destruct N as [N|N]; apply N; rewrite T;
       [|apply in_summaryIds]; destruct X1 as (_ & X & <- & _);
       unfold requestIds; rewrite flat_map_app; apply in_or_app; left; now apply in_requestIds).
  Qed.

  Lemma summary_phase q ts t s :
    let s' := fst (processSummary ord lead q ts s) in
    let o := snd (processSummary ord lead q ts s) in
    known t s -> NoDup (requestIds t) -> ~ In q (summaryIds t) ->
    phase q t s [] [] [] ->
    phase q (t ++ [(EvSummary q ts, o)]) s' (flat_map (impl_of q) o) [] (flat_map (resp_of q) o).
  Proof.
    intros s' o [KS KR] NU NS PH.
    destruct (phase_idle_ids _ _ _ _ _ _ PH (or_intror NS)) as (_ & _ & P & S).
    assert (REJ : (forall u, ~ acceptable t q ts u) -> s' = s -> o = [OutError] ->
       phase q (t ++ [(EvSummary q ts, o)]) s' (flat_map (impl_of q) o) [] (flat_map (resp_of q) o)).
    { intros A -> ->. apply P_idle; auto.
      intros ta ts' o' tb u E. apply snoc_cases in E. destruct E as [(_ & <- & E)|(b' & _ & E)].
      - injection E as <- _. apply A.
      - eapply S; eauto. }
    specialize (KR q). subst s' o. unfold processSummary in *.
    destruct (zget (b_reqs s) q) as [u|] eqn:U.
    - destruct KR as (KU & KI).
      destruct ts as [|a ts].
      { apply REJ; auto. intros u' (A & _). easy. }
      destruct (forallb _ _) eqn:FA.
      + assert (AC : acceptable t q (a :: ts) u).
        { split; [easy|]. split; [auto|]. split; [auto|]. intros v I.
          rewrite forallb_forall in FA. specialize (FA v I). rewrite <- KS.
          unfold zhas in FA. destruct (zget (b_states s) v); easy. }
        match goal with |- context [sendNext q ?s0] => set (s1 := s0) end.
        eapply (send_ok q _ s1 u t (a :: ts) _ [] [] [] (a :: ts) _ []); eauto; subst s1;
          cbn [b_reqs b_prog b_rest b_proj]; try apply zget_set_same.
        * constructor.
          -- reflexivity.
          -- split; [constructor|]. split; [|easy]. intros v. cbn. split; [easy|]. intros H. now apply H.
          -- destruct AC as (_ & _ & _ & AC). now apply projOK_start.
          -- intros l i b E. destruct l; discriminate.
        * discriminate.
      + apply REJ; auto. intros u' (A1 & A2 & A3 & A4).
        assert (u' = u) by (eapply unique_request; eauto; congruence). subst u'.
        assert (forallb (fun v => zhas (b_states s) v) (u_entities u) = true); [|congruence].
        apply forallb_forall. intros v I. specialize (A4 v I). rewrite <- KS in A4.
        unfold zhas. destruct (zget (b_states s) v); easy.
    - apply REJ; auto. intros u (A1 & A2 & A3 & _). apply KR. rewrite <- A3. now apply in_requestIds.
  Qed.

  Lemma summary_other p q ts s : p <> q ->
    let s' := fst (processSummary ord lead q ts s) in
    let o := snd (processSummary ord lead q ts s) in
    zget (b_reqs s') p = zget (b_reqs s) p /\ zget (b_prog s') p = zget (b_prog s) p /\
    zget (b_rest s') p = zget (b_rest s) p /\ zget (b_proj s') p = zget (b_proj s) p /\
    flat_map (impl_of p) o = [] /\ flat_map (resp_of p) o = [].
  Proof.
    intros N. unfold processSummary.
    destruct (zget (b_reqs s) q) as [u|]; [|cbn; auto 10].
    destruct ts as [|a ts]; [cbn; auto 10|].
    destruct (forallb _ _); [|cbn; auto 10].
    match goal with |- context [sendNext q ?s0] => set (s1 := s0) end.
    destruct (sendNext_frame q s1) as (A & _ & B & _ & C & D).
    destruct (send_other p q s1 N) as (E & F).
    cbn zeta. rewrite A, B, C, (D p N), E, F. subst s1. cbn [b_reqs b_prog b_rest b_proj].
    rewrite !zget_set_other by auto. auto 10.
  Qed.

  Lemma impl_other p q x s : p <> q -> zget (b_expect s) (x_id x) = Some q ->
    let s' := fst (processImpl x s) in
    let o := snd (processImpl x s) in
    zget (b_reqs s') p = zget (b_reqs s) p /\ zget (b_prog s') p = zget (b_prog s) p /\
    zget (b_rest s') p = zget (b_rest s) p /\ zget (b_proj s') p = zget (b_proj s) p /\
    flat_map (impl_of p) o = [] /\ flat_map (resp_of p) o = [].
  Proof.
    intros N X. unfold processImpl. rewrite X.
    destruct (zget (b_prog s) q) as [[ms|]|]; [|cbn; auto 10|cbn; auto 10].
    destruct (x_wps x) as [|w ws].
    - destruct (checkNext_frame q s) as (A & _ & _ & D). destruct (D p N) as (B & C & D').
      destruct (check_other p q s N) as (E & F).
      destruct (checkNext q s) as (s1, o1). cbn [fst snd] in *. cbn [flat_map impl_of resp_of app].
      rewrite A, B, C, D', E, F. auto 10.
    - destruct (extend _ _ _ _) as [ms'|];
      (match goal with |- context [checkNext q ?s0] => set (s1 := s0) end;
       destruct (checkNext_frame q s1) as (A & _ & _ & D); destruct (D p N) as (B & C & D');
       destruct (check_other p q s1 N) as (E & F);
       cbn zeta; rewrite A, B, C, D', E, F; subst s1; cbn [b_reqs b_prog b_rest b_proj];
       rewrite zget_set_other by auto; destruct (zget (b_proj s) q);
       rewrite ?zget_set_other by auto; auto 10).
  Qed.

  Lemma Forall2_snoc {A B} (P : A -> B -> Prop) a b x y :
    Forall2 P a b -> P x y -> Forall2 P (a ++ [x]) (b ++ [y]).
  Proof. intros F H. apply Forall2_app; auto. Qed.

  Lemma Forall2_In_l {A B} (P : A -> B -> Prop) a b x :
    Forall2 P a b -> In x a -> exists y, In y b /\ P x y.
  Proof.
    induction 1 as [|a0 b0 a b H F IH]; [easy|]. intros [->|I].
    - exists b0. cbn. auto.
    - destruct (IH I) as (y & J & K). exists y. cbn. auto.
  Qed.

  Lemma impl_phase q x t s :
    let s' := fst (processImpl x s) in
    let o := snd (processImpl x s) in
    ids t s -> ~ In (x_id x) (map x_id (replies t)) ->
    (exists i, In (OutImpl i) (sent t) /\ i_id i = x_id x /\ i_vehicle i = x_vehicle x /\ i_corr i = q) ->
    phase q t s (impls q t) (answers q t) (resps q t) ->
    phase q (t ++ [(EvImpl x, o)]) s' (impls q t ++ flat_map (impl_of q) o) (answers q t ++ [x])
      (resps q t ++ flat_map (resp_of q) o).
  Proof.
    intros s' o [IE IL IN] FR (i & J1 & J2 & J3 & J4) PH.
    assert (EX : zget (b_expect s) (x_id x) = Some q) by (apply IE; eauto).
    assert (II : In i (impls q t)) by (apply in_impls; auto).
    assert (NA : forall is0, Forall2 answered is0 (answers q t) -> ~ In i is0).
    { intros is0 F I. destruct (Forall2_In_l _ _ _ _ F I) as (y & Y & (E & _)).
      apply FR. rewrite <- J2, E. apply in_map. unfold answers in Y. apply filter_In in Y. tauto. }
    destruct PH as [I R P S|u ta ts o0 tb r js ms T X1 X2 X3 X4 X5 X6 X7 X8
                  |u ta ts o0 tb js ms T X1 X2 X3 X4 X5 X6].
    - rewrite I in II. easy.
    - destruct X8 as [(is0 & i' & X8 & F)|(F & _)]; [|destruct (NA _ F II)].
      assert (i' = i).
      { rewrite X8 in II. apply in_app_or in II. destruct II as [II|[II|[]]]; [|auto].
        destruct (NA _ F II). }
      subst i'.
      assert (FF : Forall2 answered (impls q t) (answers q t ++ [x])).
      { rewrite X8. apply Forall2_snoc; [exact F|]. split; auto. }
      assert (TT : forall o', t ++ [(EvImpl x, o')] =
                 ta ++ (EvSummary q ts, o0) :: (tb ++ [(EvImpl x, o')])).
      { intros o'. now rewrite T, <- app_assoc. }
      assert (ST : forall js' ms', is_plan (answers q t ++ [x]) ms' ->
                projOK lead u ta (answers q t ++ [x]) js' ->
                core q u ta ts (impls q t) (answers q t ++ [x]) r js' ms').
      { intros js' ms' H1 H2. destruct X6 as [C1 C2 C3 C4]. constructor; auto.
        intros a i1 b E. specialize (C4 a i1 b E).
        assert (LE : (length a <= length (answers q t))%nat).
        { rewrite <- (Forall2_len _ _ _ F). rewrite X8 in E. apply (f_equal (@length _)) in E.
          rewrite !app_length in E. cbn in E. lia. }
        rewrite firstn_app. replace (length a - length (answers q t))%nat with 0%nat by lia.
        cbn [firstn]. rewrite app_nil_r. exact C4. }
      destruct X6 as [C1 C2 C3 C4].
      subst s' o. unfold processImpl. rewrite EX, X3.
      destruct (x_wps x) as [|w ws] eqn:W.
      + assert (HR : has_route x = false) by (unfold has_route; now rewrite W).
        pose proof (fun o' => check_ok q _ s u ta ts o0 _ (impls q t) (answers q t ++ [x]) r js ms
          (TT o') X1 X2 X3 X4 X5 (ST js ms (is_plan_skip _ _ _ HR C2) (projOK_skip _ _ _ _ _ _ HR C3)) FF)
          as H.
        destruct (checkNext q s) as (s1, o1). cbn [fst snd] in *. cbn [flat_map impl_of resp_of app].
        rewrite X7. apply H.
      + destruct (extend ms (x_vehicle x) (w :: ws) (w_num w)) as [ms'|] eqn:V;
        rewrite <- W in V; rewrite X5, X7.
        * destruct (is_plan_extend _ _ _ _ _ _ W C2 V) as (PL & _).
          rewrite <- W.
          match goal with |- context [checkNext q ?s0] => set (s1 := s0) end.
          eapply (check_ok q _ s1 u ta ts o0 _ (impls q t) (answers q t ++ [x])); eauto;
            subst s1; cbn [b_reqs b_prog b_rest b_proj]; try apply zget_set_same; auto.
          apply ST; [exact PL|]. eapply projOK_advance; eauto.
        * pose proof (is_plan_new _ _ _ _ _ (b_cmd s) W C2 V) as PL.
          rewrite <- W.
          match goal with |- context [checkNext q ?s0] => set (s1 := s0) end.
          eapply (check_ok q _ s1 u ta ts o0 _ (impls q t) (answers q t ++ [x])); eauto;
            subst s1; cbn [b_reqs b_prog b_rest b_proj]; try apply zget_set_same; auto.
          apply ST; [exact PL|]. eapply projOK_advance; eauto.
    - destruct (NA _ X6 II).
  Qed.

  Lemma NoDup_map_eq {A B} (f : A -> B) l a b :
    NoDup (map f l) -> In a l -> In b l -> f a = f b -> a = b.
  Proof.
    induction l as [|x l IH]; [easy|]. cbn. intros N [->|I] [->|J] E; auto; inversion N; subst.
    - exfalso. apply H1. rewrite E. now apply in_map.
    - exfalso. apply H1. rewrite <- E. now apply in_map.
    - apply IH; auto.
  Qed.

  Theorem inv_run evs :
    orderly (snd (run (bstep ord lead) binit evs)) ->
    inv (snd (run (bstep ord lead) binit evs)) (fst (run (bstep ord lead) binit evs)).
  Proof.
    revert evs. apply (run_inv (bstep ord lead) binit (fun _ s t => orderly t -> inv t s)).
    - intros _. constructor.
      + constructor; cbn; try easy; [|constructor]. intros k q. split; [easy|].
        intros (i & [] & _).
      + constructor; cbn; auto.
      + intros q. apply P_idle; cbn; auto; try easy. intros ta ts o tb u E. destruct ta; discriminate.
    - intros evs e s t s' o IH V _ OR.
      pose proof (orderly_prefix _ _ _ OR) as OR1. specialize (IH OR1).
      destruct IH as [II IK IP].
      assert (Es : s' = fst (bstep ord lead s e)) by now rewrite V.
      assert (Eo : o = snd (bstep ord lead s e)) by now rewrite V.
      constructor.
      + subst. now apply ids_step.
      + subst. now apply known_step.
      + intros q. specialize (IP q). rewrite impls_snoc, resps_snoc.
        assert (AS := answers_snoc q t s e II). cbn zeta in AS. rewrite <- Eo in AS.
        specialize (AS OR). rewrite AS. clear AS.
        destruct e as [v p tm|u|q' ts|x].
        * cbn in V. injection V as <- <-. cbn [flat_map]. rewrite !app_nil_r.
          eapply phase_frame; eauto. easy.
        * cbn -[zset] in V. injection V as <- <-. cbn [flat_map]. rewrite !app_nil_r.
          destruct (Z.eq_dec (u_id u) q) as [<-|N].
          -- pose proof (or_unique _ OR) as NU. rewrite requestIds_snoc in NU.
             apply NoDup_snoc_not in NU.
             destruct (phase_idle_ids _ _ _ _ _ _ IP (or_introl NU)) as (I & R & P & S).
             apply P_idle; auto.
             ++ cbn [b_prog]. intros ms. rewrite zget_set_same. discriminate.
             ++ intros ta ts o tb u' E. apply snoc_cases in E.
                destruct E as [(_ & _ & E)|(b' & _ & E)]; [discriminate|]. eapply S; eauto.
          -- eapply phase_frame; eauto; cbn [b_reqs b_prog b_rest b_proj];
               try (apply zget_set_other; auto); easy.
        * cbn [bstep] in *. rewrite app_nil_r. destruct (Z.eq_dec q' q) as [->|N].
          -- pose proof (or_summary _ OR) as NU. rewrite summaryIds_snoc in NU.
             apply NoDup_snoc_not in NU.
             destruct (phase_idle_ids _ _ _ _ _ _ IP (or_intror NU)) as (I & R & _).
             assert (A0 : answers q t = []).
             { unfold answers. rewrite I. cbn. clear. now induction (replies t). }
             rewrite I, R, A0 in *. cbn [app].
             subst s' o. apply summary_phase; auto. apply (or_unique _ OR1).
          -- destruct (summary_other q q' ts s) as (A & B & C & D & E & F); [auto|].
             rewrite <- Eo in E, F. rewrite <- Es in A, B, C, D. rewrite E, F, !app_nil_r.
             eapply phase_frame; eauto. intros ts' X. injection X. congruence.
        * cbn [bstep] in *.
          destruct (or_echo _ OR t x o [] eq_refl) as (i & J1 & J2 & J3).
          pose proof (or_once _ OR) as NU. rewrite replies_snoc, map_app in NU.
          apply NoDup_snoc_not in NU.
          destruct (Z.eq_dec (i_corr i) q) as [C|N].
          -- assert (existsb (fun i0 => i_id i0 =? x_id x) (impls q t) = true) as ->.
             { apply existsb_exists. exists i. split; [now apply in_impls|]. now apply Z.eqb_eq. }
             subst s' o. apply impl_phase; eauto 10.
          -- rewrite existsb_false.
             ++ destruct (impl_other q (i_corr i) x s) as (A & B & C & D & E & F); [auto| |].
                { apply (id_exp _ _ II). exists i. auto. }
                rewrite <- Eo in E, F. rewrite <- Es in A, B, C, D. rewrite E, F, !app_nil_r.
                eapply phase_frame; eauto. easy.
             ++ intros i' I'. apply in_impls in I'. destruct I' as (I1 & I2).
                apply Z.eqb_neq. intros Q. apply N. rewrite <- I2. f_equal.
                eapply NoDup_map_eq; [apply (id_nd _ _ II)| | |congruence]; now apply in_all_impl.
  Qed.

  (** * Command ids *)

  Definition pmiss (p : option (list mission)) : list mission :=
    match p with Some ms => ms | None => [] end.
  Definition pall (m : zmap (option (list mission))) : list mission :=
    flat_map (fun kv => pmiss (snd kv)) m.
  Definition pat (m : zmap (option (list mission))) (q : Z) : list mission :=
    match zget m q with Some p => pmiss p | None => [] end.

  Lemma pall_zdel m q : NoDup (map fst m) -> Permutation (pall m) (pat m q ++ pall (zdel m q)).
  Proof.
    unfold pat. induction m as [|(k, p) m IH]; intros N; [constructor|].
    cbn [map fst] in N. inversion N as [|? ? N1 N2]; subst.
    unfold zdel. cbn [zget filter fst]. destruct (Z.eqb_spec k q) as [->|E].
    - cbn [negb]. fold (zdel m q). cbn [pall flat_map snd]. apply Permutation_app_head.
      rewrite (IH N2). apply zget_none in N1. rewrite N1. reflexivity.
    - cbn [negb]. fold (zdel m q). cbn [pall flat_map snd].
      fold (pall m) (pall (zdel m q)). rewrite (IH N2) at 1.
      rewrite !app_assoc. apply Permutation_app_tail, Permutation_app_comm.
  Qed.

  Record cmds (t : trace) (s : bstate) : Prop := {
    cm_keys : NoDup (map fst (b_prog s));
    cm_nd : NoDup (map m_cmd (missions t ++ pall (b_prog s)));
    cm_lt : forall m, In m (missions t ++ pall (b_prog s)) -> m_cmd m < b_cmd s
  }.

  Lemma missions_snoc t e o :
    missions (t ++ [(e, o)]) =
    missions t ++ flat_map (fun o => match o with OutResp _ ms _ => ms | _ => [] end) o.
  Proof. unfold missions. now rewrite sent_snoc, flat_map_app. Qed.

  Lemma cmds_perm t t' s s' extra :
    cmds t s -> NoDup (map fst (b_prog s')) -> b_cmd s <= b_cmd s' ->
    Permutation (missions t ++ pall (b_prog s)) ((missions t' ++ pall (b_prog s')) ++ extra) ->
    cmds t' s'.
  Proof.
    intros [A B C] K L P. constructor; auto.
    - rewrite (Permutation_map m_cmd P), map_app in B. eapply NoDup_prefix; eauto.
    - intros m I. specialize (C m). enough (m_cmd m < b_cmd s) by lia. apply C.
      eapply Permutation_in; [symmetry; exact P|]. apply in_or_app. auto.
  Qed.

  Lemma sendNext_missions q s :
    flat_map (fun o => match o with OutResp _ ms _ => ms | _ => [] end) (snd (sendNext q s)) = [].
  Proof. destruct (sendNext_cases q s) as [->|(i & -> & _)]; reflexivity. Qed.

  Lemma checkNext_cmds q t s e pre :
    (forall p, In p pre -> p = OutError) ->
    cmds t s ->
    cmds (t ++ [(e, pre ++ snd (checkNext q s))]) (fst (checkNext q s)).
  Proof.
    intros PR C.
    assert (PM : flat_map (fun o => match o with OutResp _ ms _ => ms | _ => [] end) pre = []).
    { clear - PR. induction pre as [|p pre IH]; [reflexivity|]. cbn.
      rewrite (PR p) by (left; auto). apply IH. intros p' I. apply PR. now right. }
    unfold checkNext. destruct (zget (b_rest s) q) as [[|a r]|].
    - eapply (cmds_perm _ _ _ _ [] C); cbn [fst snd b_prog b_cmd]; [|lia|].
      + apply NoDup_keys_zdel, (cm_keys _ _ C).
      + rewrite app_nil_r, missions_snoc, flat_map_app, PM. cbn [app flat_map].
        rewrite app_nil_r, <- app_assoc. apply Permutation_app_head.
        rewrite (pall_zdel _ q (cm_keys _ _ C)) at 1. apply Permutation_app_tail.
        unfold pat. destruct (zget (b_prog s) q) as [[ms|]|]; reflexivity.
    - destruct (sendNext_frame q s) as (_ & _ & A & B & _).
      eapply (cmds_perm _ _ _ _ [] C).
      + rewrite A. apply (cm_keys _ _ C).
      + lia.
      + rewrite app_nil_r, missions_snoc, flat_map_app, PM, sendNext_missions, A.
        cbn [app]. now rewrite app_nil_r.
    - cbn [fst snd]. eapply (cmds_perm _ _ _ _ [] C); [apply (cm_keys _ _ C)|lia|].
      rewrite app_nil_r, missions_snoc, flat_map_app, PM. cbn [app flat_map].
      now rewrite app_nil_r.
  Qed.

  Lemma pall_zset m q ms : pall (zset m q (Some ms)) = ms ++ pall (zdel m q).
  Proof. reflexivity. Qed.

  Lemma cmds_step t s e :
    cmds t s -> cmds (t ++ [(e, snd (bstep ord lead s e))]) (fst (bstep ord lead s e)).
  Proof.
    intros C. pose proof C as [K N L].
    assert (SAME : forall o, (forall p, In p o -> p = OutError) -> cmds (t ++ [(e, o)]) s).
    { intros o H. eapply (cmds_perm _ _ _ _ [] C); [exact K|lia|].
      rewrite app_nil_r, missions_snoc.
      replace (flat_map _ o) with (@nil mission); [now rewrite app_nil_r|].
      clear - H. induction o as [|p o IH]; [reflexivity|]. cbn.
      rewrite (H p) by (left; auto). apply IH. intros p' I. apply H. now right. }
    destruct e as [v p tm|u|q ts|x]; cbn [bstep].
    - eapply (cmds_perm _ _ _ _ [] C); [exact K|cbn; lia|].
      rewrite app_nil_r, missions_snoc. cbn [snd fst flat_map b_prog]. now rewrite app_nil_r.
    - eapply (cmds_perm _ _ _ _ (pat (b_prog s) (u_id u)) C); cbn [fst snd b_prog b_cmd].
      + apply NoDup_keys_zset, K.
      + lia.
      + rewrite missions_snoc. cbn [flat_map]. rewrite app_nil_r, <- app_assoc.
        apply Permutation_app_head. rewrite (pall_zdel _ (u_id u) K) at 1.
        apply Permutation_app_comm.
    - unfold processSummary. destruct (zget (b_reqs s) q) as [u|].
      2:{ apply SAME. intros p [<-|[]]. reflexivity. }
      destruct ts as [|a ts]; [apply SAME; intros p [<-|[]]; reflexivity|].
      destruct (forallb _ _); [|apply SAME; intros p [<-|[]]; reflexivity].
      match goal with |- context [sendNext q ?s0] => set (s1 := s0) end.
      destruct (sendNext_frame q s1) as (_ & _ & A & B & _).
      eapply (cmds_perm _ _ _ _ (pat (b_prog s) q) C).
      + rewrite A. subst s1. cbn [b_prog]. apply NoDup_keys_zset, K.
      + rewrite B. subst s1. cbn [b_cmd]. lia.
      + rewrite missions_snoc, sendNext_missions, A, app_nil_r, <- app_assoc.
        apply Permutation_app_head. subst s1. cbn [b_prog]. rewrite pall_zset.
        rewrite (pall_zdel _ q K) at 1. apply Permutation_app_comm.
    - unfold processImpl. destruct (zget (b_expect s) (x_id x)) as [q|].
      2:{ apply SAME. easy. }
      destruct (zget (b_prog s) q) as [[ms|]|] eqn:P; try (apply SAME; easy).
      destruct (x_wps x) as [|w ws].
      + pose proof (checkNext_cmds q t s (EvImpl x) [OutError]) as H.
        destruct (checkNext q s) as (s1, o1). apply H; auto. intros p [<-|[]]. reflexivity.
      + assert (PA : pat (b_prog s) q = ms) by (unfold pat; now rewrite P).
        pose proof (pall_zdel _ q K) as PZ. rewrite PA in PZ.
        pose proof (extend_spec ms (x_vehicle x) (w :: ws) (w_num w)) as SP.
        destruct (extend _ _ _ _) as [ms'|];
          match goal with |- context [checkNext q ?s0] => set (s1 := s0) end;
          apply (checkNext_cmds q t s1 (EvImpl x) []); try easy.
        * destruct SP as (a & m & b & E & _ & E'). constructor; subst s1; cbn [b_prog b_cmd].
          -- apply NoDup_keys_zset, K.
          -- rewrite pall_zset.
             assert (Q : Permutation (map m_cmd (missions t ++ pall (b_prog s)))
                                     (map m_cmd (missions t ++ ms' ++ pall (zdel (b_prog s) q)))).
             { rewrite PZ. rewrite E, E'. rewrite !map_app. reflexivity. }
             now rewrite <- Q.
          -- intros m1. rewrite pall_zset, E'. rewrite !in_app_iff. cbn [In].
             assert (L' : forall m0, In m0 (missions t) \/ In m0 ms \/ In m0 (pall (zdel (b_prog s) q)) ->
                          m_cmd m0 < b_cmd s).
             { intros m0 I. apply L. apply in_app_iff. destruct I as [I|I]; [auto|]. right.
               eapply Permutation_in; [symmetry; exact PZ|]. apply in_app_iff. exact I. }
             rewrite E in L'.
             intros [I|[[I|[<-|I]]|I]]; try (apply L'; rewrite ?in_app_iff; cbn; tauto).
             cbn [m_cmd]. apply L'. rewrite in_app_iff. cbn. tauto.
        * constructor; subst s1; cbn [b_prog b_cmd].
          -- apply NoDup_keys_zset, K.
          -- rewrite pall_zset.
             match goal with |- NoDup (map _ (_ ++ (_ ++ [?m]) ++ _)) => set (m0 := m) end.
             assert (Q : Permutation (m0 :: missions t ++ pall (b_prog s))
                                     (missions t ++ (ms ++ [m0]) ++ pall (zdel (b_prog s) q))).
             { rewrite PZ. rewrite <- (app_assoc ms). cbn [app].
               rewrite (app_assoc (missions t) ms), (app_assoc (missions t) ms (m0 :: _)).
               apply Permutation_middle. }
             rewrite <- Q. cbn [map]. constructor; [|exact N].
             intros I. apply in_map_iff in I. destruct I as (m1 & E & I). apply L in I.
             subst m0. cbn in E. lia.
          -- intros m1. rewrite pall_zset. rewrite !in_app_iff. cbn [In].
             assert (L' : forall m0, In m0 (missions t) \/ In m0 ms \/ In m0 (pall (zdel (b_prog s) q)) ->
                          m_cmd m0 < b_cmd s + 1).
             { intros m0 I. enough (m_cmd m0 < b_cmd s) by lia.
               apply L. apply in_app_iff. destruct I as [I|I]; [auto|]. right.
               eapply Permutation_in; [symmetry; exact PZ|]. apply in_app_iff. exact I. }
             intros [I|[[I|[<-|[]]]|I]]; try (apply L'; tauto). cbn [m_cmd]. lia.
  Qed.

  Theorem cmds_run evs :
    cmds (snd (run (bstep ord lead) binit evs)) (fst (run (bstep ord lead) binit evs)).
  Proof.
    revert evs. apply (run_inv (bstep ord lead) binit (fun _ s t => cmds t s)).
    - constructor; cbn; try constructor. easy.
    - intros evs e s t s' o IH V _. pose proof (cmds_step t s e IH) as H. rewrite V in H. exact H.
  Qed.
End Inv.

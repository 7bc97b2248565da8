(** Planning of the options of a task that asks for routes first. *)
From Coq Require Import List ZArith Bool Lia Sorted.
From Verif Require Import ZMap Run TaskBaseModel TaskBaseSpec TaskBaseNotice TaskBaseInv TaskBaseStep
  TaskBaseWps TaskBaseImpl TaskBaseOpt.
Import ListNotations.
Open Scope list_scope.
Open Scope Z_scope.

Lemma answers_snoc task ids evs e :
  answers task ids (evs ++ [e]) = answers task ids evs ++
  match e with
  | Routes id t _ rs =>
      if (t =? task) && zin id ids && negb (zin id (map fst (answers task ids evs)))
      then [(id, rs)] else []
  | _ => []
  end.
Proof.
  unfold answers. rewrite fold_left_app. cbn [fold_left].
  destruct e; rewrite ?app_nil_r; auto. unfold zin.
  destruct (_ && _ && _); rewrite ?app_nil_r; reflexivity.
Qed.

Lemma numbered_fst_in {A} (l : list A) : forall n x, In x (map fst (numbered n l)) -> n <= x < n + Z.of_nat (length l).
Proof.
  induction l as [|y l IH]; intros n x; cbn [numbered map In length]; [tauto|].
  intros [<-|Q]; cbn [fst]; [lia|]. apply IH in Q. lia.
Qed.
Lemma numbered_NoDup {A} (l : list A) : forall n, NoDup (map fst (numbered n l)).
Proof.
  induction l as [|y l IH]; intros n; cbn [numbered map]; constructor; auto. cbn [fst].
  intros Q. apply numbered_fst_in in Q. lia.
Qed.
Lemma numbered_nth {A} (l : list A) : forall n j,
  nth_error (numbered n l) j = option_map (fun x => (n + Z.of_nat j, x)) (nth_error l j).
Proof.
  induction l as [|y l IH]; intros n j; destruct j; cbn [numbered nth_error option_map]; auto.
  - rewrite Z.add_0_r. reflexivity.
  - rewrite IH. destruct (nth_error l j); cbn; [|reflexivity]. do 2 f_equal. lia.
Qed.
Lemma numbered_snd {A} (l : list A) : forall n, map snd (numbered n l) = l.
Proof. induction l as [|y l IH]; intros n; cbn; congruence. Qed.

Lemma newOpts_NoDup l : NoDup (map fst (newOpts l)).
Proof.
  unfold newOpts. assert (G : forall m, NoDup (map fst m) -> NoDup (map fst (fold_left (fun m x =>
      match zget m (p_option (fst x)) with
      | Some _ => m
      | None => zset m (p_option (fst x))
          {| o_pub := fst x; o_pending := [];
             o_plans := fold_left (fun a r => putPlan a (r_id r) r) (snd x) [];
             o_ask := []; o_first := -1; o_restart := None |}
      end) l m))).
  { induction l as [|x l IH]; intros m N; cbn [fold_left]; auto. apply IH.
    destruct (zget m _); auto. apply NoDup_keys_zset, N. }
  apply G. constructor.
Qed.

Lemma allDone_iff os : NoDup (map fst os) ->
  (allDone os = true <-> forall k op, zget os k = Some op -> o_pending op = []).
Proof.
  intros N. unfold allDone. rewrite forallb_forall. split.
  - intros H k op G. apply In_zget, H in G. cbn [snd] in G. destruct (o_pending op); auto. discriminate.
  - intros H (k, op) G. apply zget_In, H in G; auto. cbn [snd]. rewrite G. reflexivity.
Qed.

Definition laid (p : pub) (l : list (Z * Z)) : pub :=
  match l with
  | [] => p
  | x :: _ => {| p_option := p_option p; p_eligible := p_eligible p; p_cost := p_cost p;
                 p_start := fst x; p_end := snd (last l x) |}
  end.
Definition total (c : Z) (rs : list route) : Z :=
  fold_left (fun c r => if 0 <? r_cost r then c + r_cost r else maxCost) rs c.

Lemma total_sum rs : forall c, (forall r, In r rs -> 0 < r_cost r) ->
  total c rs = c + fold_right (fun r a => r_cost r + a) 0 rs.
Proof.
  unfold total. induction rs as [|r rs IH]; intros c H; cbn [fold_left fold_right]; [lia|].
  rewrite IH by (intros; apply H; cbn; auto).
  assert (Q : 0 < r_cost r) by (apply H; cbn; auto). apply Z.ltb_lt in Q. rewrite Q. lia.
Qed.

Lemma laid_offer p ls rs : ls <> [] -> offer p ls rs (withCost (laid p ls) (total (p_cost p) rs)).
Proof.
  intros NE. destruct ls as [|x r]; [contradiction|]. unfold offer. cbn [laid withCost p_option p_eligible
    p_start p_end p_cost]. do 2 (split; [reflexivity|]). split; [eauto|]. split.
  - exists (last (x :: r) x), (removelast (x :: r)). split; [|reflexivity].
    apply app_removelast_last. discriminate.
  - intros H. apply total_sum, H.
Qed.

Section Options.
  Context (task : Z) (eligible : list Z) (transActive : bool) (coloc : Z -> Z -> bool).
  Context (restCost : Z -> list wp -> Z).
  Context (ordv : list Z -> list Z) (ordw : zmap Z -> list (Z * Z)).
  Context (ordw_in : forall m x, In x (ordw m) -> In x m).
  Notation step := (step task eligible transActive coloc restCost ordv ordw).
  Notation run := (run step).

  (** Messages that neither start planning anew nor ask for routes. *)
  Definition calm (e : ev) : Prop :=
    match e with
    | Request q _ => ~ In task (q_tasks q)
    | Lanes _ => False
    | Implement i => i_task i <> task
    | _ => True
    end.
  Definition isOptions (o : out) : bool := match o with Options _ _ => true | _ => false end.

  Definition still (s s' : st) : Prop :=
    opts s' = opts s /\ planReq s' = planReq s /\ planOpts s' = planOpts s /\
    pendOpt s' = pendOpt s /\ pendImpl s' = pendImpl s /\ rtype s' = rtype s /\ nextId s' = nextId s.

  Lemma still_refl s : still s s.
  Proof. repeat split. Qed.

  Lemma calm_still s e :
    calm e -> pendImpl s = [] ->
    (forall id v rs, e = Routes id task v rs -> ~ In id (pendOpt s) \/ forall k, zget (rtype s) id <> Some (false, k)) ->
    still s (fst (step s e)) /\ forall x, In x (snd (step s e)) -> isOptions x = false.
  Proof.
    intros C P NR. destruct e as [v ts c|v|q u|l|j ms|i|j tk v rs]; cbn [TaskBaseModel.step calm] in *.
    - unfold entityState. destruct (zin v (assigned s)); [|split; [apply still_refl|intros x []]].
      destruct (zin task ts); destruct (zin v (active s)); (split; [repeat split|]);
        cbn [snd]; try (intros x []; fail); intros x [<-|[]]; reflexivity.
    - cbn [fst snd]. split; [|intros x []]. unfold entityConfiguration.
      destruct (match eligible with [] => true | _ => _ end); repeat split.
    - unfold automationRequest. cbn zeta. apply zin_false in C. rewrite C.
      split; [repeat split|intros x []].
    - destruct C.
    - cbn [fst snd]. split; [|intros x []]. unfold automationResponse.
      destruct (zget (reqs s) j) as [q|]; [|repeat split]. destruct (q_sandbox q); repeat split.
    - unfold implementationRequest. apply Z.eqb_neq in C. rewrite C. split; [repeat split|intros x []].
    - assert (D : still s s /\ forall x : out, In x [] -> isOptions x = false)
        by (split; [apply still_refl|intros x []]).
      unfold routes. destruct (tk =? task) eqn:T; [apply Z.eqb_eq in T; subst tk|exact D].
      destruct (zget (rtype s) j) as [[[|] k]|] eqn:R; [| |exact D].
      + unfold implementationRoutes. destruct (zget (reqs s) _); [|exact D].
        rewrite P. exact D.
      + unfold optionRoutes. destruct (zin j (pendOpt s)) eqn:Z; [|exact D]. apply zin_In in Z.
        destruct (NR _ _ _ eq_refl) as [N|N]; [contradiction|]. destruct (N k R).
  Qed.

  (** A complete response. *)
  Lemma option_fold k : forall rs s o op,
    rs <> [] -> NoDup (map r_id rs) -> zget (opts s) k = Some op -> NoDup (map fst (opts s)) ->
    (forall x, In x (o_pending op) <-> In x (map r_id rs)) ->
    let p := withCost (o_pub op) (total (p_cost (o_pub op)) rs) in
    let s' := fst (fold_left (optionRoute k) rs (s, o)) in
    planReq s' = planReq s /\ planOpts s' = planOpts s ++ [p] /\ pendOpt s' = pendOpt s /\
    pendImpl s' = pendImpl s /\ rtype s' = rtype s /\ nextId s' = nextId s /\
    NoDup (map fst (opts s')) /\
    (forall j, j <> k -> zget (opts s') j = zget (opts s) j) /\
    (exists op', zget (opts s') k = Some op' /\ o_pending op' = []) /\
    snd (fold_left (optionRoute k) rs (s, o)) =
      o ++ (if allDone (opts s') then [Options (planReq s) (planOpts s ++ [p])] else []).
  Proof.
    induction rs as [|r rs IH]; intros s o op NE N G ND P; [contradiction|].
    cbn zeta. cbn [fold_left].
    cbn [map] in *. inversion N as [|? ? N1 N2]; subst.
    assert (Z : zin (r_id r) (o_pending op) = true) by (apply zin_In, P; cbn; auto).
    set (c := if 0 <? r_cost r then p_cost (o_pub op) + r_cost r else maxCost).
    assert (A1 : optionRoute k (s, o) r =
      let left := zrem (r_id r) (o_pending op) in
      let o' := withPub (withPending op left) (withCost (o_pub op) c) in
      let s1 := setOpts s (zset (opts s) k o')
                  (match left with [] => planOpts s ++ [o_pub o'] | _ => planOpts s end) in
      (s1, o ++ if allDone (opts s1) then [Options (planReq s1) (planOpts s1)] else [])).
    { unfold optionRoute. cbn [fst snd]. rewrite G, Z. reflexivity. }
    rewrite A1. clear A1. cbn zeta.
    assert (L : forall x, In x (zrem (r_id r) (o_pending op)) <-> In x (map r_id rs)).
    { intros x. rewrite In_zrem, P. cbn [In]. split.
      - intros ([Q|Q] & D); [congruence|exact Q].
      - intros Q. split; [auto|]. intros ->. contradiction. }
    destruct (zrem (r_id r) (o_pending op)) as [|y l] eqn:ZR.
    - assert (E : rs = []).
      { destruct rs as [|r2 rs2]; auto. destruct (L (r_id r2)) as (_ & Q). destruct Q. cbn; auto. }
      subst rs. cbn [fold_left fst snd setOpts opts planReq planOpts pendOpt pendImpl rtype nextId
        withPub withPending o_pub]. unfold total. cbn [fold_left]. fold c.
      do 2 (split; [reflexivity|]). do 4 (split; [reflexivity|]).
      split; [apply NoDup_keys_zset, ND|]. split; [intros j D; apply zget_set_other, D|].
      split; [|reflexivity]. eexists. split; [apply zget_set_same|reflexivity].
    - set (op1 := withPub (withPending op (y :: l)) (withCost (o_pub op) c)).
      set (s1 := setOpts s (zset (opts s) k op1) (planOpts s)).
      assert (AD : allDone (opts s1) = false).
      { assert (ND1 : NoDup (map fst (opts s1))) by apply NoDup_keys_zset, ND.
        destruct (allDone (opts s1)) eqn:Q; [|reflexivity]. rewrite (allDone_iff _ ND1) in Q.
        specialize (Q k op1). unfold s1 in Q. cbn [setOpts opts] in Q.
        specialize (Q (zget_set_same _ _ _)). discriminate. }
      fold op1. fold s1. rewrite AD, app_nil_r. specialize (IH s1 o op1).
      destruct IH as (I1 & I2 & I3 & I4 & I5 & I6 & I7 & I8 & I9 & I10); auto.
      + intros ->. destruct (L y) as (Q & _). destruct Q. cbn; auto.
      + apply zget_set_same.
      + apply NoDup_keys_zset, ND.
      + unfold total in *. cbn [fold_left]. fold c.
        unfold op1 in I2, I10. cbn [withPub withPending withCost o_pub p_cost] in I2, I10.
        split; [exact I1|]. split; [exact I2|]. do 5 (split; [assumption|]). split.
        * intros j D. rewrite I8 by auto. apply zget_set_other, D.
        * split; [exact I9|exact I10].
  Qed.

  (** The route requests for a list of lanes. *)
  Lemma lanes_requests : forall l s o,
    NoDup (map (fun x => fst (fst x)) l) ->
    (forall k v ls, In (k, v, ls) l -> zget (opts s) k <> None) ->
    NoDup (map fst (opts s)) ->
    let r := fold_left lane l (s, o) in
    planReq (fst r) = planReq s /\ planOpts (fst r) = planOpts s /\ pendImpl (fst r) = pendImpl s /\
    NoDup (map fst (opts (fst r))) /\
    (forall id, In id (pendOpt (fst r)) <-> In id (pendOpt s) \/ In id (map fst (numbered (nextId s) l))) /\
    snd r = o ++ map (fun x => Ask (fst x) (snd (fst (snd x))) true (numbered 2 (snd (snd x))))
                     (numbered (nextId s) l) /\
    (forall id, id < nextId s -> zget (rtype (fst r)) id = zget (rtype s) id) /\
    (forall id k v ls, In (id, (k, v, ls)) (numbered (nextId s) l) ->
       zget (rtype (fst r)) id = Some (false, k)) /\
    (forall k v ls op, In (k, v, ls) l -> zget (opts s) k = Some op ->
       exists op', zget (opts (fst r)) k = Some op' /\
         (forall x, In x (o_pending op') <-> In x (o_pending op) \/ In x (map fst (numbered 2 ls))) /\
         o_pub op' = laid (o_pub op) ls) /\
    (forall k, ~ In k (map (fun x => fst (fst x)) l) -> zget (opts (fst r)) k = zget (opts s) k).
  Proof.
    induction l as [|((k, v), ls) l IH]; intros s o N KN ND; cbn zeta.
    - cbn. rewrite app_nil_r. repeat split; auto; try tauto.
    - cbn [map fst] in N. inversion N as [|? ? N1 N2]; subst. cbn [fold_left].
      destruct (zget (opts s) k) as [op|] eqn:G; [|edestruct KN; [left; reflexivity|exact G]].
      set (a1 := lane (s, o) (k, v, ls)).
      assert (A : a1 = (setPending (setOpts (newId s false k)
           (zset (opts s) k (withPub (withAsk (withPending op (addAll (o_pending op) (map fst (numbered 2 ls)))) ls)
              (laid (o_pub op) ls))) (planOpts s)) (zadd (nextId s) (pendOpt s)) (pendImpl s) (implReq s),
           o ++ [Ask (nextId s) v true (numbered 2 ls)])).
      { unfold a1, lane. cbn [fst snd newId opts]. rewrite G. destruct ls; reflexivity. }
      rewrite A. clear a1 A.
      match goal with |- context [fold_left lane l (?s1, ?o1)] => specialize (IH s1 o1); set (s' := s1) in * end.
      destruct IH as (I1 & I2 & I3 & I4 & I5 & I6 & I7 & I8 & I9 & I10); auto.
      + intros k0 v0 ls0 Q. unfold s'. cbn [setPending setOpts opts]. rewrite zget_set.
        destruct (k0 =? k); [discriminate|]. eapply KN. right. eauto.
      + unfold s'. cbn [setPending setOpts opts]. apply NoDup_keys_zset, ND.
      + assert (EN : nextId s' = nextId s + 1) by reflexivity. rewrite EN in *.
        cbn [numbered map fst snd].
        split; [exact I1|]. split; [exact I2|]. split; [exact I3|]. split; [exact I4|].
        split; [|split; [|split; [|split; [|split]]]].
        * intros id. rewrite I5. unfold s'. cbn [setPending pendOpt In]. rewrite In_zadd. intuition.
        * rewrite I6, <- app_assoc. reflexivity.
        * intros id Q. rewrite I7 by lia. unfold s'. cbn [setPending setOpts newId rtype].
          apply zget_set_other. lia.
        * intros id k0 v0 ls0 [Q|Q].
          -- injection Q as <- <- <- <-. rewrite I7 by lia. unfold s'.
             cbn [setPending setOpts newId rtype]. apply zget_set_same.
          -- eapply I8; eauto.
        * intros k0 v0 ls0 op0 [Q|Q] G0.
          -- injection Q as <- <- <-. rewrite I10 by auto. unfold s'. cbn [setPending setOpts opts].
             rewrite zget_set_same. eexists. split; [reflexivity|]. rewrite G in G0. injection G0 as <-.
             split; [|reflexivity]. intros x. cbn [withPub withAsk withPending o_pending]. apply in_addAll.
          -- assert (D : k0 <> k).
             { intros ->. apply N1. apply (in_map (fun x => fst (fst x))) in Q. exact Q. }
             apply (I9 k0 v0 ls0 op0 Q). unfold s'. cbn [setPending setOpts opts].
             rewrite zget_set_other; auto.
        * intros k0 Q. rewrite I10 by (intros R; apply Q; right; exact R). unfold s'.
          cbn [setPending setOpts opts]. apply zget_set_other. intros ->. apply Q. left. reflexivity.
  Qed.
End Options.

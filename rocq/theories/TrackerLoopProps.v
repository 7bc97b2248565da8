(** C50: waypoints that carry the number of their task. *)
From Coq Require Import List ZArith Bool Permutation Lia.
From Verif Require Import ZMap Run TrackerModel TrackerSpec TrackerStep TrackerProps.
Import ListNotations.
Open Scope list_scope.
Open Scope Z_scope.

Section Loop.
  Context (ord : list Z -> list Z) (ord_perm : forall l, Permutation (ord l) l).
  Notation history := (history ord).
  Notation step := (step ord).

  Lemma endable_elig evs t : In t (elig (fst (run step init evs))) <-> endable evs t.
  Proof.
    induction evs as [|e evs IH] using rev_ind; [split; [intros []|intros (k & [] & _)]|].
    rewrite run_snoc. cbn [fst]. rewrite endable_snoc, <- IH. set (s := fst (run step init evs)).
    destruct e as [v c|l|v ws|t' k]; cbn [TrackerModel.step fst].
    - assert (E : elig (fst (state ord s v c)) = elig s).
      { assert (L : forall v b i ts l a, elig (fst (fold_left (check v b i ts) l a)) = elig (fst a)).
        { clear. intros v b i ts. induction l as [|x l IH]; intros a; [reflexivity|]. cbn [fold_left]. rewrite IH. unfold check.
          match goal with |- elig (fst (if ?b then _ else _)) = _ => destruct b end; reflexivity. }
        assert (W : elig (fst (flown ord s v c)) = elig s).
        { unfold flown. destruct (zget (missions s) v) as [ws|]; [|reflexivity]. destruct (find _ ws); [|reflexivity].
          unfold at_waypoint. rewrite L. reflexivity. }
        unfold state. destruct (zget (over s) v) as [[t' n]|]; [|exact W]. destruct (c =? n); [reflexivity|exact W]. }
      rewrite E. split; [auto|intros [H|(k & H & _)]; [exact H|discriminate]].
    - change (fold_left _ l s) with (missions_of l s). rewrite (proj2 (missions_frame l s)). split; [auto|intros [H|(k & H & _)]; [exact H|discriminate]].
    - cbn [elig mission]. split; [auto|intros [H|(k & H & _)]; [exact H|discriminate]].
    - unfold task. cbn [elig]. split.
      + intros H. assert (K : In t (elig s) \/ t = t' /\ ending k).
        { destruct k as [d|[d|]| | |]; cbn [ending]; try (destruct (Z.ltb_spec 0 d)); rewrite ?In_zadd in H; intuition lia. }
        destruct K as [K|(-> & K)]; [left; exact K|right; exists k; auto].
      + intros [H|(k' & E & H)].
        * destruct k as [d|[d|]| | |]; try (destruct (Z.ltb_spec 0 d)); rewrite ?In_zadd; auto.
        * injection E as -> ->. destruct k' as [d|[d|]| | |]; cbn in H; try tauto; try (destruct (Z.ltb_spec 0 d); [|lia]); apply In_zadd; auto.
  Qed.

  (** At a waypoint of the task [b] with the tasks [T], while nothing else is in progress. *)
  Lemma loop_one v b inner T : forall l s o, NoDup l -> In b l -> (forall x, In x l -> x = b \/ In x T) ->
    fold_left (check v b inner T) l (s, o) = check v b inner T (s, o) b.
  Proof.
    assert (SK : forall x s o, x <> b -> In x T -> check v b inner T (s, o) x = (s, o)).
    { intros x s o D I. unfold check. destruct (Z.eqb_spec x b) as [E|_]; [contradiction|]. rewrite (proj2 (zin_In x T) I). cbn [negb fst snd].
      destruct s; reflexivity. }
    assert (SKL : forall l a, ~ In b l -> (forall x, In x l -> x = b \/ In x T) -> fold_left (check v b inner T) l a = a).
    { induction l as [|x l IH]; intros (s & o) NB H; [reflexivity|]. cbn [fold_left]. rewrite SK.
      - apply IH; [intros X; apply NB; right; exact X|intros y Y; apply H; right; exact Y].
      - intros ->. apply NB. left. reflexivity.
      - destruct (H x) as [->|I]; [left; reflexivity|exfalso; apply NB; left; reflexivity|exact I]. }
    induction l as [|x l IH]; intros s o ND IB H; [destruct IB|]. inversion ND as [|? ? NI ND']; subst. cbn [fold_left].
    destruct (Z.eq_dec x b) as [->|D].
    - apply SKL; [exact NI|intros y Y; apply H; right; exact Y].
    - rewrite SK; [|exact D|destruct (H x) as [E|I]; [left; reflexivity|contradiction|exact I]].
      apply IH; [exact ND'|destruct IB; [contradiction|assumption]|intros y Y; apply H; right; exact Y].
  Qed.

  Definition ready (s : st) (v : Z) (M : list wp) (b : Z) (T : list Z) : Prop :=
    zget (missions s) v = Some M /\ NoDup (getl (prog s) v) /\ (forall x, In x (getl (prog s) v) -> x = b \/ In x T)
    /\ (forall a w, M = a ++ [w] -> forall t n, zget (over s) v = Some (t, n) -> n = w_number w) /\ (M = [] -> zget (over s) v = None).

  Lemma flown_one s v M b T t ts i : ready s v M b T -> 0 < b -> 0 <= i < 10000 -> T = t :: ts -> place M (b * 10000 + i) T ->
    (forall a w, M = a ++ [w] -> w_number w <> b * 10000 + i) ->
    let back := match zget (getl (taskWp s) v) b with Some n => i <? n | None => false end in
    let r := state ord s v (b * 10000 + i) in
    ready (fst r) v M b T /\ elig (fst r) = elig s
    /\ snd r = (if back && zin t (elig s) then [Complete v t] else [])
    /\ zget (getl (taskWp (fst r)) v) b = (if back then None else Some i).
  Proof.
    intros (R1 & R2 & R3 & R4 & R5) B I ET P NL back r.
    assert (NO : forall t' n, zget (over s) v = Some (t', n) -> n <> b * 10000 + i).
    { intros t' n O. destruct M as [|w M] using rev_ind; [rewrite R5 in O by reflexivity; discriminate|].
      rewrite (R4 M w eq_refl _ _ O). apply (NL M w). reflexivity. }
    assert (ER : r = flown ord s v (b * 10000 + i)).
    { unfold r, state. destruct (zget (over s) v) as [[t' n]|] eqn:O; [|reflexivity].
      destruct (Z.eqb_spec (b * 10000 + i) n) as [E|_]; [|reflexivity]. exfalso. apply (NO t' n eq_refl). symmetry. exact E. }
    clearbody r. subst r. unfold flown. rewrite R1. pose proof (place_find M (b * 10000 + i)) as PF.
    destruct (find _ M) as [w|] eqn:FD; [|exfalso; apply (PF _ P)]. destruct PF as (PW & _).
    assert (EW : w_tasks w = T) by (apply (place_fun _ _ _ _ PW P)).
    assert (NW : w_number w = b * 10000 + i) by (apply find_some in FD; destruct FD as (_ & FD); apply Z.eqb_eq in FD; exact FD).
    unfold at_waypoint. rewrite NW, EW.
    assert (QB : Z.quot (b * 10000 + i) 10000 = b).
    { rewrite Z.quot_div_nonneg by lia. rewrite Z.add_comm, Z.div_add by lia. rewrite Z.div_small by lia. lia. }
    assert (RB : Z.rem (b * 10000 + i) 10000 = i).
    { rewrite Z.rem_mod_nonneg by lia. rewrite Z.add_comm, Z.mod_add by lia. apply Z.mod_small. lia. }
    rewrite QB, RB. destruct (Z.ltb_spec 0 b) as [_|]; [|lia].
    set (p2 := fold_left _ T (zadd b (getl (prog s) v))).
    assert (IN2 : forall x, In x p2 <-> In x T \/ x = b \/ In x (getl (prog s) v)) by (intros x; unfold p2; rewrite addAll_in, In_zadd; tauto).
    assert (ND2 : NoDup p2) by (unfold p2; apply addAll_nodup, NoDup_zadd, R2).
    assert (LO : forall s' o, fold_left (check v b i T) (ord p2) (s', o) = check v b i T (s', o) b).
    { intros s' o. apply loop_one.
      - apply (Permutation_NoDup (Permutation_sym (ord_perm p2)) ND2).
      - apply (Permutation_in b (Permutation_sym (ord_perm p2))). apply IN2. auto.
      - intros x X. apply (Permutation_in x (ord_perm p2)) in X. apply IN2 in X. destruct X as [X|[X|X]]; auto. }
    rewrite LO. unfold check. cbn [fst snd elig missions prog over emit taskWp]. rewrite Z.eqb_refl.
    assert (BK : match zget (getl (taskWp s) v) b with Some n => i <? n | None => i <? 0 end = back).
    { unfold back. destruct (zget _ b); [reflexivity|]. apply Z.ltb_ge. lia. }
    rewrite BK, ET, zget_set_same. destruct back eqn:EB; cbn [fst snd elig missions prog over emit taskWp].
    - split; [|split; [reflexivity|split; [|unfold getl; rewrite zget_set_same; reflexivity]]].
      + split; [exact R1|]. cbn [prog over]. rewrite !getl_set, !Z.eqb_refl. split; [|split; [|split; assumption]].
        * unfold zrem. apply NoDup_filter. exact ND2.
        * intros x X. apply In_zrem in X. destruct X as (X & _). apply IN2 in X. rewrite ET in X. destruct X as [X|[X|X]]; auto. destruct (R3 x X) as [->|Y]; [auto|rewrite ET in Y; auto].
      + destruct (zin t (elig s)); reflexivity.
    - split; [|split; [reflexivity|split; [reflexivity|]]].
      + split; [exact R1|]. cbn [prog over]. rewrite !getl_set, !Z.eqb_refl. split; [exact ND2|split; [|split; assumption]].
        intros x X. apply IN2 in X. rewrite ET in X. destruct X as [X|[X|X]]; auto. destruct (R3 x X) as [->|Y]; [auto|rewrite ET in Y; auto].
      + unfold getl. rewrite !zget_set_same. reflexivity.
  Qed.

  (** A task whose waypoints carry its number, task * 10000 + place, is reported complete when the vehicle goes back
      to an earlier place of it, and not while it goes on.  The first report of a mission may be misjudged, see
      [C50_stale_place_refuted]. *)
  Theorem C50_round evs h v M om i0 o0 i1 o1 i2 o2 rest b t ts :
    history evs = h ++ (Mission v M, om) :: (State v (b * 10000 + i0), o0) :: (State v (b * 10000 + i1), o1) :: (State v (b * 10000 + i2), o2) :: rest ->
    0 < b -> 0 <= i0 -> i0 <= i1 < 10000 -> 0 <= i2 < 10000 ->
    (forall i, In i [i0; i1; i2] -> place M (b * 10000 + i) (t :: ts) /\ forall a w, M = a ++ [w] -> w_number w <> b * 10000 + i) ->
    o1 = [] /\ (forall x, In x o2 <-> x = Complete v t /\ i2 < i1 /\ endable (map fst h) t) /\ (length o2 <= 1)%nat.
  Proof.
    intros E B I0 I1 I2 P.
    assert (ST : exists s, run step init (map fst h) = (s, h) /\
      o1 = snd (state ord (fst (state ord (mission s v M) v (b * 10000 + i0))) v (b * 10000 + i1)) /\
      o2 = snd (state ord (fst (state ord (fst (state ord (mission s v M) v (b * 10000 + i0))) v (b * 10000 + i1))) v (b * 10000 + i2))).
    { assert (E1 := E). apply run_split in E1. destruct E1 as (s & R0 & R1 & _). cbn [fst TrackerModel.step] in R1. exists s. split; [exact R0|].
      assert (E2 : history evs = (h ++ [(Mission v M, om)]) ++ (State v (b * 10000 + i0), o0) :: (State v (b * 10000 + i1), o1) :: (State v (b * 10000 + i2), o2) :: rest) by (rewrite <- app_assoc; exact E).
      apply run_split in E2. destruct E2 as (s1 & R2 & R3 & _). rewrite map_app in R2. cbn [map fst] in R2. rewrite R1 in R2. injection R2 as <-. cbn [fst TrackerModel.step] in R3.
      assert (E3 : history evs = ((h ++ [(Mission v M, om)]) ++ [(State v (b * 10000 + i0), o0)]) ++ (State v (b * 10000 + i1), o1) :: (State v (b * 10000 + i2), o2) :: rest) by (rewrite <- !app_assoc; exact E).
      apply run_split in E3. destruct E3 as (s2 & R4 & R5 & O1). rewrite map_app in R4. cbn [map fst] in R4. rewrite R3 in R4. injection R4 as <-. cbn [fst snd TrackerModel.step] in R5, O1.
      assert (E4 : history evs = (((h ++ [(Mission v M, om)]) ++ [(State v (b * 10000 + i0), o0)]) ++ [(State v (b * 10000 + i1), o1)]) ++ (State v (b * 10000 + i2), o2) :: rest) by (rewrite <- !app_assoc; exact E).
      apply run_split in E4. destruct E4 as (s3 & R6 & _ & O2). rewrite map_app in R6. cbn [map fst] in R6. rewrite R5 in R6. injection R6 as <-.
      split; [exact O1|exact O2]. }
    destruct ST as (s & R & -> & ->).
    assert (EE : elig s = elig (fst (run step init (map fst h)))) by (rewrite R; reflexivity).
    assert (RD : ready (mission s v M) v M b (t :: ts)).
    { split; [cbn [missions mission]; apply zget_set_same|]. cbn [prog over mission]. rewrite getl_set, Z.eqb_refl. split; [constructor|]. split; [intros x []|]. split.
      - intros a w -> t' n. rewrite rev_unit. destruct ((w_number w =? w_next w) && _).
        + rewrite zget_set_same. intros X. injection X as _ <-. reflexivity.
        + rewrite zget_del_same. discriminate.
      - intros ->. cbn [rev]. apply zget_del_same. }
    destruct (P i0) as (P0 & L0); [cbn; auto|]. destruct (P i1) as (P1 & L1); [cbn; auto|]. destruct (P i2) as (P2 & L2); [cbn; auto|].
    destruct (flown_one _ v M b (t :: ts) t ts i0 RD B ltac:(lia) eq_refl P0 L0) as (RD1 & E1 & _ & W1).
    set (s1 := fst (state ord (mission s v M) v (b * 10000 + i0))) in *. clearbody s1.
    destruct (flown_one s1 v M b (t :: ts) t ts i1 RD1 B ltac:(lia) eq_refl P1 L1) as (RD2 & E2 & O2 & W2).
    assert (NB : match zget (getl (taskWp s1) v) b with Some n => i1 <? n | None => false end = false).
    { rewrite W1. match goal with |- match (if ?x then _ else _) with _ => _ end = _ => destruct x end; [reflexivity|]. apply Z.ltb_ge. lia. }
    rewrite NB in O2, W2. cbn [andb] in O2. split; [exact O2|].
    set (s2 := fst (state ord s1 v (b * 10000 + i1))) in *. clearbody s2.
    destruct (flown_one s2 v M b (t :: ts) t ts i2 RD2 B I2 eq_refl P2 L2) as (_ & _ & O3 & _).
    rewrite W2 in O3. rewrite O3. assert (EL : zin t (elig s2) = true <-> endable (map fst h) t) by (rewrite zin_In, E2, E1; cbn [elig mission]; rewrite EE; apply endable_elig).
    destruct (Z.ltb_spec i2 i1) as [LT|GE]; cbn [andb].
    - destruct (zin t (elig s2)) eqn:ZE; (split; [|cbn; lia]).
      + intros x. split; [intros [<-|[]]; split; [reflexivity|split; [exact LT|apply EL; reflexivity]]|intros (-> & _); left; reflexivity].
      + intros x. split; [intros []|]. intros (_ & _ & X). apply EL in X. discriminate.
    - split; [|cbn; lia]. intros x. split; [intros []|]. intros (_ & X & _). lia.
  Qed.
End Loop.
Print Assumptions C50_round.

(** Task 5 has two waypoints, named by number after task 3, which the vehicle goes around; task 5 is reported. *)
Definition round : list wp := [wpt 30001 30002 [5]; wpt 30002 30001 [5]; wpt 1 2 []].
Definition round_evs : list ev := [Task 5 Ends; Mission 7 round; State 7 30001; State 7 30002; State 7 30001; State 7 30002; State 7 30002].
Example C50_round_trip : map snd (play round_evs) = [[]; []; []; []; [Complete 7 5]; []; []].
Proof. vm_compute. reflexivity. Qed.

Example C50_round_sound :
  (forall i, In i [1; 2; 1] -> place round (3 * 10000 + i) [5] /\ forall a w, round = a ++ [w] -> w_number w <> 3 * 10000 + i).
Proof.
  intros i I. split.
  - destruct I as [<-|[<-|[<-|[]]]].
    + exists [], (wpt 30001 30002 [5]), [wpt 30002 30001 [5]; wpt 1 2 []]. repeat split; intros x [].
    + exists [wpt 30001 30002 [5]], (wpt 30002 30001 [5]), [wpt 1 2 []]. repeat split. intros x [<-|[]]. cbn. lia.
    + exists [], (wpt 30001 30002 [5]), [wpt 30002 30001 [5]; wpt 1 2 []]. repeat split; intros x [].
  - intros a w E. change round with ([wpt 30001 30002 [5]; wpt 30002 30001 [5]] ++ [wpt 1 2 []]) in E. apply app_inj_tail in E. destruct E as (_ & <-).
    destruct I as [<-|[<-|[<-|[]]]]; cbn; lia.
Qed.

(** A new mission does not forget how far the vehicle was: its first waypoint completes the task. *)
Theorem C50_stale_place_refuted : exists evs, map snd (play evs) = [[]; []; []; []; []; [Complete 7 5]] /\
  exists M, evs = [Task 5 Ends; Mission 7 M; State 7 30001; State 7 30002; Mission 7 M; State 7 30001].
Proof. exists [Task 5 Ends; Mission 7 round; State 7 30001; State 7 30002; Mission 7 round; State 7 30001]. split; [vm_compute; reflexivity|]. exists round. reflexivity. Qed.
Print Assumptions C50_stale_place_refuted.

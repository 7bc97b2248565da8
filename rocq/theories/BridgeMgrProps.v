(** C103: the bridges of a configuration are started once, and each is asked to end and let go when it ended. *)
From Coq Require Import List NArith String Bool Lia FinFun.
From Verif Require Import Base Decimal10 NetModel ConfigModel ConfigSpec ConfigProps BridgeMgrModel BridgeMgrSpec.
Import ListNotations.
Open Scope string_scope.
Open Scope list_scope.
Open Scope N_scope.

Lemma eqb_str a b : str_eqb a b = true <-> a = b.
Proof. unfold str_eqb. destruct (list_eq_dec _ a b); split; auto; discriminate. Qed.
Lemma prefix_self a : is_prefix a a = true.
Proof. induction a as [|c a IH]; [reflexivity|]. cbn. rewrite Ascii.eqb_refl. exact IH. Qed.

Lemma kinds_spec t : existsb (String.eqb t) kinds = true <-> bridge_kind t.
Proof.
  unfold kinds, bridge_kind. cbn [existsb]. rewrite !orb_true_iff, !String.eqb_eq. intuition discriminate.
Qed.

Definition kind_of (x : node) : string := match attribute x "Type" with Some s => s | None => "" end.
Lemma for_bridge_spec x : (nd_name x =? "Bridge")%string && existsb (String.eqb (kind_of x)) kinds = true <-> for_bridge x.
Proof.
  unfold for_bridge, kind_of. rewrite andb_true_iff, String.eqb_eq, kinds_spec. split.
  - intros (E & K). split; [exact E|]. destruct (attribute x "Type") as [s|] eqn:A.
    + exists s. split; [apply attribute_some; exact A|exact K].
    + exfalso. unfold bridge_kind in K. intuition discriminate.
  - intros (E & t & G & K). apply attribute_some in G. rewrite G. auto.
Qed.
Lemma for_bridge_type x : for_bridge x -> gives x "Type" (kind_of x).
Proof. intros (_ & t & G & _). pose proof G as G'. apply attribute_some in G'. unfold kind_of. rewrite G'. exact G. Qed.

Section Manager.
  Context (works : N -> node -> bool) (me : N).
  Notation after := (after works me).
  Notation M := 4294967296.

  Lemma create_spec nx x e n : create works me nx x e n =
    if (nd_name x =? "Bridge")%string && existsb (String.eqb (kind_of x)) kinds then
      ((if works nx x then Some (if (e <? max32) && (n <? max32) then renumbered (configured me nx (kind_of x)) e n else configured me nx (kind_of x)) else None), wrap32 (nx + 1))
    else (None, nx).
  Proof. unfold create. fold (kind_of x). destruct (nd_name x =? "Bridge")%string; [|reflexivity]. cbn [andb]. destruct (existsb _ kinds); reflexivity. Qed.

  Definition made (t : list (N * node)) : list (N * bridge) :=
    map (fun p => (fst p, configured me (fst p) (kind_of (snd p)))) (filter (fun p => works (fst p) (snd p)) t).

  Lemma begin_spec n0 xs : forall k l, k + N.of_nat (List.length xs) <= M -> (forall p, In p l -> exists j, j < k /\ fst p = (n0 + j) mod M) -> NoDup (map fst l) ->
    exists t nx', begin_all works me ((n0 + k) mod M) l xs = (nx', l ++ made t) /\ tried ((n0 + k) mod M) xs t nx' /\ NoDup (map fst (l ++ made t)).
  Proof.
    induction xs as [|x xs IH]; intros k l LE IN ND.
    - exists [], ((n0 + k) mod M). cbn. rewrite app_nil_r. split; [reflexivity|]. split; [constructor|exact ND].
    - cbn [begin_all]. rewrite create_spec. cbn [List.length] in LE. pose proof (for_bridge_spec x) as FB.
      destruct ((nd_name x =? "Bridge")%string && existsb (String.eqb (kind_of x)) kinds).
      + assert (F : for_bridge x) by (apply FB; reflexivity).
        assert (NX : wrap32 ((n0 + k) mod M + 1) = (n0 + (k + 1)) mod M).
        { unfold wrap32. rewrite N.add_mod_idemp_l by lia. f_equal. lia. }
        rewrite NX. assert (NX' : ((n0 + k) mod M + 1) mod 2 ^ 32 = (n0 + (k + 1)) mod M) by exact NX.
        assert (IN2 : forall p, In p l -> exists j, j < k + 1 /\ fst p = (n0 + j) mod M).
        { intros p P. destruct (IN p P) as (j & J & E). exists j. split; [lia|exact E]. }
        destruct (works ((n0 + k) mod M) x) eqn:W.
        * cbn [andb N.ltb]. replace (max32 <? max32) with false by reflexivity. cbn [andb]. unfold emplace. cbn [configured g_net].
          assert (WK : wrap32 ((n0 + k) mod M) = (n0 + k) mod M) by (unfold wrap32; apply N.mod_mod; lia). rewrite WK.
          assert (FR : forall p, In p l -> fst p <> (n0 + k) mod M).
          { intros p P E. destruct (IN p P) as (j & J & E2). rewrite E2 in E.
            pose proof (N.div_mod (n0 + j) M ltac:(lia)) as D1. pose proof (N.div_mod (n0 + k) M ltac:(lia)) as D2. rewrite E in D1.
            set (q1 := (n0 + j) / M) in *. set (q2 := (n0 + k) / M) in *. assert (q1 = q2 \/ q1 < q2 \/ q2 < q1) by lia. nia. }
          destruct (existsb (fun p => fst p =? (n0 + k) mod M) l) eqn:EX.
          { exfalso. apply existsb_exists in EX. destruct EX as (p & P & E). apply N.eqb_eq in E. exact (FR p P E). }
          destruct (IH (k + 1) (l ++ [((n0 + k) mod M, configured me ((n0 + k) mod M) (kind_of x))])) as (t & nx' & E & T & ND2).
          { lia. }
          { intros p P. apply in_app_or in P. destruct P as [P|[<-|[]]]; [apply IN2; exact P|]. exists k. split; [lia|reflexivity]. }
          { rewrite map_app. cbn [map fst]. apply NoDup_rev in ND. rewrite <- (rev_involutive (map fst l ++ _)). apply NoDup_rev. rewrite rev_app_distr. cbn. constructor; [|exact ND].
            intros P. apply in_rev in P. apply in_map_iff in P. destruct P as (p & E & P). exact (FR p P E). }
          exists (((n0 + k) mod M, x) :: t), nx'. unfold made in *. cbn [filter fst snd]. rewrite W. cbn [map fst snd].
          rewrite <- app_assoc in E, ND2. cbn [app] in E, ND2. split; [exact E|]. split; [|exact ND2]. apply tried_one; [exact F|]. rewrite NX'. exact T.
        * destruct (IH (k + 1) l ltac:(lia) IN2 ND) as (t & nx' & E & T & ND2). exists (((n0 + k) mod M, x) :: t), nx'.
          unfold made in *. cbn [filter fst snd]. rewrite W. split; [exact E|]. split; [|exact ND2]. apply tried_one; [exact F|]. rewrite NX'. exact T.
      + assert (F : ~ for_bridge x) by (intros F; apply FB in F; discriminate).
        destruct (IH k l ltac:(lia) IN ND) as (t & nx' & E & T & ND2). exists t, nx'. split; [exact E|]. split; [apply tried_other; assumption|exact ND2].
  Qed.

  (** Before the start. *)
  Lemma before h : not_begun h -> running (after h) = [] /\ started (after h) = false /\ ended (after h) = [] /\ next (after h) < M.
  Proof.
    unfold BridgeMgrModel.after. induction h as [|ev h IH] using rev_ind; intros NB; [repeat split; reflexivity|].
    rewrite fold_left_app. cbn [fold_left]. destruct IH as (E1 & E2 & E3 & E4); [intros a P; apply (NB a), in_or_app; left; exact P|].
    set (s := fold_left _ h idle) in *. clearbody s. destruct ev as [a| |n|]; cbn [step].
    - exfalso. apply (NB a), in_or_app. right. left. reflexivity.
    - cbn. repeat split; auto. unfold wrap32. apply N.mod_lt. lia.
    - rewrite E1. cbn. auto.
    - cbn. rewrite E1. auto.
  Qed.

  Lemma start_some h a : not_begun h -> N.of_nat (List.length (nd_kids a)) <= M ->
    exists t nx, initialize works me (after h) (Some a) = ({| next := nx; running := made t; started := true; ended := [] |}, true) /\
      tried (next (after h)) (nd_kids a) t nx /\ NoDup (map fst (made t)).
  Proof.
    intros NB LE. destruct (before h NB) as (E1 & E2 & E3 & E4).
    destruct (begin_spec (next (after h)) (nd_kids a) 0 []) as (t & nx & E & T & ND).
    - lia.
    - intros p [].
    - constructor.
    - rewrite N.add_0_r, (N.mod_small _ M E4) in E, T. exists t, nx. unfold initialize. rewrite E2, E1, E, E3. auto.
  Qed.

  (** The bridges that run after the start are those of the configuration that can be started, each once. *)
  Theorem C103_started h a : not_begun h -> N.of_nat (List.length (nd_kids a)) <= 2 ^ 32 ->
    let s := after (h ++ [Initialize (Some a)]) in
    exists l n', tried (next (after h)) (nd_kids a) l n' /\ snd (initialize works me (after h) (Some a)) = true /\ next s = n' /\
      NoDup (map fst (running s)) /\
      (forall n, number_of s n <-> exists x, In (n, x) l /\ works n x = true) /\
      (forall n b, In (n, b) (running s) -> g_net b = n /\ g_entity b = me /\ exists x, In (n, x) l /\ works n x = true /\ gives x "Type" (g_type b)).
  Proof.
    intros NB LE. destruct (start_some h a NB LE) as (t & nx & E & T & ND). cbv zeta.
    assert (SE : after (h ++ [Initialize (Some a)]) = {| next := nx; running := made t; started := true; ended := [] |}).
    { unfold BridgeMgrModel.after. rewrite fold_left_app. cbn [fold_left step]. fold (after h). rewrite E. reflexivity. }
    rewrite SE, E. cbn [snd next running]. exists t, nx. split; [exact T|]. split; [reflexivity|]. split; [reflexivity|]. split; [exact ND|].
    assert (FB : forall n x, In (n, x) t -> for_bridge x).
    { clear -T. induction T as [n|n x xs l n' F T IH|n x xs l n' F T IH]; intros m y P; [destruct P|exact (IH m y P)|]. destruct P as [P|P]; [injection P as <- <-; exact F|exact (IH m y P)]. }
    assert (MB : forall n b, In (n, b) (made t) <-> exists x, In (n, x) t /\ works n x = true /\ b = configured me n (kind_of x)).
    { intros n b. unfold made. rewrite in_map_iff. split.
      - intros ((n', x) & P & I1). cbn [fst snd] in P. injection P as <- <-. apply filter_In in I1. destruct I1 as (I1 & W). exists x. auto.
      - intros (x & I1 & W & ->). exists (n, x). split; [reflexivity|]. apply filter_In. auto. }
    split.
    - intros n. unfold number_of. cbn [running]. split.
      + intros (b & P). apply MB in P. destruct P as (x & P1 & P2 & _). exists x. auto.
      + intros (x & P1 & P2). eexists. apply MB. exists x. auto.
    - intros n b P. cbn [running] in P. apply MB in P. destruct P as (x & P1 & P2 & ->). cbn. split; [reflexivity|]. split; [reflexivity|].
      exists x. split; [exact P1|]. split; [exact P2|]. apply for_bridge_type. exact (FB n x P1).
  Qed.

  Lemma started_after h : started (after h) = true <-> exists a, In (Initialize a) h.
  Proof.
    unfold BridgeMgrModel.after. induction h as [|ev h IH] using rev_ind; [split; [discriminate|intros (a & [])]|].
    rewrite fold_left_app. cbn [fold_left]. set (s := fold_left _ h idle) in *. clearbody s.
    assert (G : (exists a, In (Initialize a) (h ++ [ev])) <-> (exists a, In (Initialize a) h) \/ exists a, ev = Initialize a).
    { split.
      - intros (a & P). apply in_app_or in P. destruct P as [P|[P|[]]]; [left; exists a; exact P|right; exists a; exact P].
      - intros [(a & P)|(a & ->)]; exists a; apply in_or_app; [left; exact P|right; left; reflexivity]. }
    rewrite G, <- IH. destruct ev as [a| |n|]; cbn [step].
    - unfold initialize. destruct (started s) eqn:ST; [cbn; rewrite ST; split; auto|]. split; [intros _; right; exists a; reflexivity|intros _].
      destruct a as [a|]; [|reflexivity]. destruct (begin_all works me _ _ _). reflexivity.
    - cbn. split; [auto|intros [G1|(a & G1)]; [exact G1|discriminate]].
    - destruct (existsb _ (running s)); cbn; (split; [auto|intros [G1|(a & G1)]; [exact G1|discriminate]]).
    - cbn. split; [auto|intros [G1|(a & G1)]; [exact G1|discriminate]].
  Qed.

  (** Once started they are not started again. *)
  Theorem C103_once h a b : In (Initialize a) h -> initialize works me (after h) b = (after h, false).
  Proof. intros P. unfold initialize. rewrite (proj2 (started_after h) (ex_intro _ a P)). reflexivity. Qed.

  Lemma let_go_snoc n h ev : let_go n (h ++ [ev]) <-> let_go n h \/ (ev = Remove /\ In (Ends n) h).
  Proof.
    unfold let_go. split.
    - intros (u & v & w & E). destruct w as [|z w] using rev_ind.
      + right. replace (u ++ Ends n :: v ++ [Remove]) with ((u ++ Ends n :: v) ++ [Remove]) in E by (rewrite <- app_assoc; reflexivity).
        apply app_inj_tail in E. destruct E as (-> & ->). split; [reflexivity|]. apply in_or_app. right. left. reflexivity.
      + left. replace (u ++ Ends n :: v ++ Remove :: w ++ [z]) with ((u ++ Ends n :: v ++ Remove :: w) ++ [z]) in E.
        * apply app_inj_tail in E. destruct E as (-> & _). exists u, v, w. reflexivity.
        * rewrite <- !app_assoc. cbn. rewrite <- !app_assoc. reflexivity.
    - intros [(u & v & w & ->)|(-> & P)].
      + exists u, v, (w ++ [ev]). rewrite <- !app_assoc. cbn. rewrite <- !app_assoc. reflexivity.
      + apply in_split in P. destruct P as (u & v & ->). exists u, v, []. rewrite <- app_assoc. reflexivity.
  Qed.

  Lemma has_ended_spec s n : has_ended s n = true <-> In n (ended s).
  Proof. unfold has_ended. rewrite existsb_exists. split; [intros (m & P & E); apply N.eqb_eq in E; subst; exact P|intros P; exists n; split; [exact P|apply N.eqb_refl]]. Qed.

  Lemma kept s0 (ST : started s0 = true) (EN : ended s0 = []) h : let s := fold_left (step works me) h s0 in
    started s = true /\ (forall n b, In (n, b) (running s) <-> In (n, b) (running s0) /\ ~ let_go n h) /\
    (forall n, number_of s0 n -> (In n (ended s) <-> In (Ends n) h)) /\ (NoDup (map fst (running s0)) -> NoDup (map fst (running s))).
  Proof.
    cbv zeta. induction h as [|ev h IH] using rev_ind.
    - cbn. split; [exact ST|]. rewrite EN. split; [intros n b; split; [intros P; split; [exact P|intros ([|? ?] & ? & ? & E); discriminate]|intros (P & _); exact P]|].
      split; [intros n _; split; intros []|auto].
    - rewrite fold_left_app. cbn [fold_left]. set (s := fold_left _ h s0) in *. clearbody s. destruct IH as (S1 & S2 & S3 & S4).
      assert (IA : forall n, In (Ends n) (h ++ [ev]) <-> In (Ends n) h \/ ev = Ends n).
      { intros n. rewrite in_app_iff. cbn. intuition. }
      destruct ev as [a| |m|]; cbn [step].
      + unfold initialize. rewrite S1. cbn [fst]. split; [exact S1|]. split; [intros n b; rewrite S2, let_go_snoc; intuition discriminate|].
        split; [intros n K; rewrite (S3 n K), IA; intuition discriminate|exact S4].
      + cbn. split; [exact S1|]. split; [intros n b; rewrite S2, let_go_snoc; intuition discriminate|].
        split; [intros n K; rewrite (S3 n K), IA; intuition discriminate|exact S4].
      + destruct (existsb (fun p => fst p =? m) (running s)) eqn:EX; cbn.
        * split; [exact S1|]. split; [intros n b; rewrite S2, let_go_snoc; intuition discriminate|].
          split; [|exact S4]. intros n K. rewrite IA, (S3 n K). split; [intros [->|P]; auto|intros [P|P]; [auto|injection P as ->; auto]].
        * split; [exact S1|]. split; [intros n b; rewrite S2, let_go_snoc; intuition discriminate|].
          split; [|exact S4]. intros n K. rewrite IA, (S3 n K). split; [auto|]. intros [P|P]; [exact P|]. injection P as ->.
          destruct K as (b & K). destruct (has_ended s n) eqn:HE; [apply S3; [exists b; exact K|apply has_ended_spec; exact HE]|].
          exfalso. assert (NG : ~ let_go n h).
          { intros (u & v & w & E). assert (P : In n (ended s)) by (apply S3; [exists b; exact K|rewrite E; apply in_or_app; right; left; reflexivity]).
            apply has_ended_spec in P. congruence. }
          assert (P : In (n, b) (running s)) by (apply S2; auto).
          assert (X : existsb (fun p => fst p =? n) (running s) = true) by (apply existsb_exists; exists (n, b); split; [exact P|apply N.eqb_refl]). congruence.
      + cbn. split; [exact S1|]. split.
        * intros n b. rewrite filter_In, S2, let_go_snoc. cbn [fst]. rewrite negb_true_iff. split.
          -- intros ((P1 & P2) & P3). split; [exact P1|]. intros [G|(_ & G)]; [contradiction|].
             apply (S3 n (ex_intro _ b P1)) in G. apply has_ended_spec in G. congruence.
          -- intros (P1 & P2). split; [split; [exact P1|tauto]|]. destruct (has_ended s n) eqn:HE; [|reflexivity]. exfalso.
             apply has_ended_spec, (S3 n (ex_intro _ b P1)) in HE. tauto.
        * split; [intros n K; rewrite (S3 n K), IA; intuition discriminate|]. intros ND. specialize (S4 ND). clear -S4.
          induction (running s) as [|p l IH]; [exact S4|]. cbn in S4 |- *. inversion S4 as [|? ? NI ND]; subst. destruct (negb _); [|apply IH; exact ND].
          cbn. constructor; [|apply IH; exact ND]. intros P. apply NI. apply in_map_iff in P. destruct P as (q & E & P). apply filter_In in P. apply in_map_iff. exists q. tauto.
  Qed.

  Lemma after_start h a h2 : after (h ++ Initialize a :: h2) = fold_left (step works me) h2 (after (h ++ [Initialize a])).
  Proof. unfold BridgeMgrModel.after. rewrite !fold_left_app. reflexivity. Qed.
  Lemma just_started h a : not_begun h -> started (after (h ++ [Initialize a])) = true /\ ended (after (h ++ [Initialize a])) = [].
  Proof.
    intros NB. destruct (before h NB) as (E1 & E2 & E3 & E4). split; [apply started_after; exists a; apply in_or_app; right; left; reflexivity|].
    unfold BridgeMgrModel.after in *. rewrite fold_left_app. cbn [fold_left step]. unfold initialize. rewrite E2. destruct a as [a|]; [|exact E3].
    destruct (begin_all works me _ _ _). exact E3.
  Qed.

  (** A bridge is kept as it is from the start until it ended and is let go. *)
  Theorem C103_kept h a h2 n b : not_begun h ->
    (In (n, b) (running (after (h ++ Initialize a :: h2))) <-> In (n, b) (running (after (h ++ [Initialize a]))) /\ ~ let_go n h2).
  Proof. intros NB. rewrite after_start. destruct (just_started h a NB) as (S1 & S2). apply (kept _ S1 S2 h2). Qed.

  Lemma filter_length {A : Type} (f : A -> bool) l : (List.length (filter (fun x => negb (f x)) l) + List.length (filter f l) = List.length l)%nat.
  Proof. induction l as [|x l IH]; [reflexivity|]. cbn. destruct (f x); cbn; lia. Qed.

  (** What is counted when they are let go. *)
  Theorem C103_counts h r f : exists k g, snd (remove_terminated (after h) r f) = (r + N.of_nat k, f + N.of_nat g) /\
    k = List.length (running (after (h ++ [Remove]))) /\ (k + g = List.length (running (after h)))%nat.
  Proof.
    unfold BridgeMgrModel.after. rewrite fold_left_app. cbn [fold_left step]. fold (after h). set (s := after h). clearbody s.
    eexists. eexists. split; [reflexivity|]. cbn. split; [reflexivity|]. apply (filter_length (fun p => has_ended s (fst p))).
  Qed.

  (** Each bridge that runs and did not end is asked to end, once, by a message only it obeys. *)
  Theorem C103_kill h a h2 : not_begun h -> N.of_nat (List.length (nd_kids a)) <= 2 ^ 32 ->
    let s := after (h ++ Initialize (Some a) :: h2) in
    NoDup (terminate_all s) /\
    (forall m, In m (terminate_all s) <-> exists n, m = (getNetworkClientUnicastAddress me n, n) /\ number_of s n /\ ~ In (Ends n) h2) /\
    (forall n b m, In (n, b) (running s) -> In m (terminate_all s) -> (obeys b m = true <-> snd m = n)).
  Proof.
    intros NB LE. cbv zeta. rewrite after_start. destruct (just_started h (Some a) NB) as (S1 & S2).
    destruct (kept _ S1 S2 h2) as (_ & K2 & K3 & K4). destruct (C103_started h a NB LE) as (l & n' & _ & _ & _ & ND & _ & BR).
    assert (SH : forall n b, In (n, b) (running (after (h ++ [Initialize (Some a)]))) -> exists t, b = configured me n t).
    { destruct (start_some h a NB LE) as (t & nx & E & _ & _). unfold BridgeMgrModel.after. rewrite fold_left_app. cbn [fold_left step]. fold (after h). rewrite E. cbn [fst running].
      intros n b P. unfold made in P. apply in_map_iff in P. destruct P as ((n1, x) & P & _). injection P as <- <-. exists (kind_of x). reflexivity. }
    specialize (K4 ND). set (s0 := after (h ++ [Initialize (Some a)])) in *. set (s := fold_left _ h2 s0) in *. clearbody s. clearbody s0.
    assert (SH' : forall n b, In (n, b) (running s) -> exists t, b = configured me n t) by (intros n b P; apply K2 in P; apply SH, P).
    assert (TM : terminate_all s = map (fun n => (getNetworkClientUnicastAddress me n, n)) (map fst (filter (fun p => negb (has_ended s (fst p))) (running s)))).
    { unfold terminate_all. rewrite map_map. apply map_ext_in. intros (n, b) P. apply filter_In in P. destruct P as (P & _). destruct (SH' n b P) as (t & ->). reflexivity. }
    assert (IN : forall m, In m (terminate_all s) <-> exists n, m = (getNetworkClientUnicastAddress me n, n) /\ number_of s n /\ ~ In (Ends n) h2).
    { intros m. rewrite TM, in_map_iff. split.
      - intros (n & <- & P). exists n. split; [reflexivity|]. apply in_map_iff in P. destruct P as ((n1, b) & <- & P). apply filter_In in P. destruct P as (P & HE).
        cbn [fst] in *. split; [exists b; exact P|]. intros Q. assert (K : number_of s0 n1) by (exists b; apply K2 in P; apply P).
        apply (K3 n1 K), has_ended_spec in Q. rewrite Q in HE. discriminate.
      - intros (n & -> & (b & P) & NE). exists n. split; [reflexivity|]. apply in_map_iff. exists (n, b). split; [reflexivity|]. apply filter_In. split; [exact P|]. cbn [fst].
        rewrite negb_true_iff. destruct (has_ended s n) eqn:HE; [|reflexivity]. exfalso. apply NE. apply has_ended_spec in HE. apply (K3 n); [|exact HE]. exists b. apply K2 in P. apply P. }
    split; [|split; [exact IN|]].
    - rewrite TM. apply Injective_map_NoDup; [intros x y E; exact (f_equal snd E)|]. clear -K4.
      induction (running s) as [|p l IH]; [constructor|]. cbn in K4 |- *. inversion K4 as [|? ? NI ND]; subst. destruct (negb _); [|apply IH; exact ND].
      cbn. constructor; [|apply IH; exact ND]. intros P. apply NI. apply in_map_iff in P. destruct P as (q & E & P). apply filter_In in P. apply in_map_iff. exists q. tauto.
    - intros n b m P Q. destruct (SH' n b P) as (t & ->). apply IN in Q. destruct Q as (n1 & -> & _). unfold obeys. cbn [fst snd configured g_text g_subs].
      rewrite andb_true_iff, eqb_str. split; [intros (_ & E); symmetry; apply to_string_inj; exact E|]. intros ->. split; [|reflexivity].
      cbn [existsb own_subscriptions]. rewrite prefix_self. reflexivity.
  Qed.

  (** WANTED: a bridge for tests ends when the message with its number is sent to it.  FAILS unless it has kept its number: it goes by the number it was made with. *)
  Theorem C103_test_refuted nx x e k b nx' : e < 4294967295 -> k < 4294967295 -> create works me nx x e k = (Some b, nx') ->
    g_entity b = e /\ g_net b = k /\
    (obeys b (getNetworkClientUnicastAddress e k, k) = true <-> k = nx) /\ obeys b (getNetworkClientUnicastAddress e k, nx) = true.
  Proof.
    change 4294967295 with max32. intros E K C. rewrite create_spec in C. destruct (_ && _); [|discriminate]. apply N.ltb_lt in E, K. rewrite E, K in C. cbn [andb] in C.
    destruct (works nx x); [|discriminate]. injection C as <- _. split; [reflexivity|]. split; [reflexivity|]. unfold obeys, renumbered. cbn [fst snd g_text g_subs existsb configured].
    rewrite prefix_self. cbn [orb andb]. rewrite !eqb_str. split; [|reflexivity]. split; [intros G; symmetry; apply to_string_inj; exact G|intros ->; reflexivity].
  Qed.

  (** It is subscribed to the address of its new numbers and to what it was subscribed to before, except for the address of the number it was made with. *)
  Theorem C103_test_hears nx x e k b nx' : e < 4294967295 -> k < 4294967295 -> create works me nx x e k = (Some b, nx') ->
    forall a, In a (g_subs b) <-> a = getNetworkClientUnicastAddress e k \/ (In a (own_subscriptions me nx) /\ a <> getNetworkClientUnicastAddress me nx).
  Proof.
    change 4294967295 with max32. intros E K C a. rewrite create_spec in C. destruct (_ && _); [|discriminate]. apply N.ltb_lt in E, K. rewrite E, K in C. cbn [andb] in C.
    destruct (works nx x); [|discriminate]. injection C as <- _. unfold renumbered. cbn [g_subs g_entity g_net configured In]. rewrite filter_In, negb_true_iff.
    assert (X : str_eqb a (getNetworkClientUnicastAddress me nx) = false <-> a <> getNetworkClientUnicastAddress me nx) by (rewrite <- eqb_str; destruct (str_eqb a _); intuition congruence).
    rewrite X. intuition congruence.
  Qed.

  (** The bridges for tests are those that can be started, each under its place among the elements for bridges. *)
  Theorem C103_tests nx xs e k : nx < 2 ^ 32 -> e < 4294967295 -> k + N.of_nat (List.length xs) < 4294967295 ->
    let bs := snd (test_bridges works me nx xs e k []) in
    exists l, tested nx k xs l /\ NoDup (map fst bs) /\
      (forall n, (exists b, In (n, b) bs) <-> exists m x, In (n, m, x) l /\ works m x = true) /\
      (forall n b, In (n, b) bs -> g_entity b = e /\ g_net b = n).
  Proof.
    change 4294967295 with max32. intros NX E. cbv zeta.
    assert (G : forall xs nx k l, nx < M -> k + N.of_nat (List.length xs) < max32 -> (forall p, In p l -> fst p < k) -> NoDup (map fst l) ->
      (forall n b, In (n, b) l -> g_entity b = e /\ g_net b = n) ->
      let bs := snd (test_bridges works me nx xs e k l) in
      exists t, tested nx k xs t /\ NoDup (map fst bs) /\
        (forall n, (exists b, In (n, b) bs) <-> (exists b, In (n, b) l) \/ exists m x, In (n, m, x) t /\ works m x = true) /\
        (forall n b, In (n, b) bs -> g_entity b = e /\ g_net b = n)).
    { clear xs nx k NX. induction xs as [|x xs IH]; intros nx k l NX LE LT ND GG; cbv zeta.
      - exists []. split; [constructor|]. split; [exact ND|]. split; [|exact GG]. intros n. cbn. split; [auto|intros [P|(m & y & [] & _)]; exact P].
      - cbn [test_bridges]. cbn [List.length] in LE. unfold max32 in LE.
        assert (WK : wrap32 (k + 1) = k + 1) by (unfold wrap32; apply N.mod_small; lia).
        assert (LT2 : forall p, In p l -> fst p < k + 1) by (intros p P; specialize (LT p P); lia).
        assert (WN : wrap32 (nx + 1) < M) by (unfold wrap32; apply N.mod_lt; lia).
        destruct (nd_name x =? "Bridge")%string eqn:NB; [apply String.eqb_eq in NB|apply String.eqb_neq in NB].
        + rewrite create_spec, WK. pose proof (for_bridge_spec x) as FB. destruct ((nd_name x =? "Bridge")%string && existsb (String.eqb (kind_of x)) kinds).
          * assert (F : for_bridge x) by (apply FB; reflexivity). destruct (works nx x) eqn:W.
            -- rewrite (proj2 (N.ltb_lt e max32) E). replace (k <? max32) with true by (symmetry; apply N.ltb_lt; unfold max32; lia). cbn [andb].
               set (b := renumbered _ e k). unfold emplace. replace (g_net b) with k by reflexivity. replace (wrap32 k) with k by (symmetry; unfold wrap32; apply N.mod_small; lia).
               destruct (existsb (fun p => fst p =? k) l) eqn:EX.
               { exfalso. apply existsb_exists in EX. destruct EX as (p & P & Q). apply N.eqb_eq in Q. specialize (LT p P). lia. }
               destruct (IH (wrap32 (nx + 1)) (k + 1) (l ++ [(k, b)])) as (t & T & ND2 & C & GG2).
               ++ exact WN.
               ++ unfold max32. lia.
               ++ intros p P. apply in_app_or in P. destruct P as [P|[<-|[]]]; [apply LT2; exact P|cbn; lia].
               ++ rewrite map_app. cbn [map fst]. apply NoDup_rev in ND. rewrite <- (rev_involutive (map fst l ++ _)). apply NoDup_rev. rewrite rev_app_distr. cbn. constructor; [|exact ND].
                  intros P. apply in_rev in P. apply in_map_iff in P. destruct P as (p & Q & P). specialize (LT p P). lia.
               ++ intros n b' P. apply in_app_or in P. destruct P as [P|[P|[]]]; [apply GG; exact P|]. injection P as <- <-. split; reflexivity.
               ++ exists ((k, nx, x) :: t). split; [apply tested_one; [exact F|exact T]|]. split; [exact ND2|]. split; [|exact GG2]. intros n. rewrite C. split.
                  ** intros [(b' & P)|(m & y & P & Q)].
                     --- apply in_app_or in P. destruct P as [P|[P|[]]]; [left; exists b'; exact P|]. injection P as <- <-. right. exists nx, x. split; [left; reflexivity|exact W].
                     --- right. exists m, y. split; [right; exact P|exact Q].
                  ** intros [(b' & P)|(m & y & [P|P] & Q)].
                     --- left. exists b'. apply in_or_app. left. exact P.
                     --- injection P as <- <- <-. left. exists b. apply in_or_app. right. left. reflexivity.
                     --- right. exists m, y. auto.
            -- destruct (IH (wrap32 (nx + 1)) (k + 1) l WN ltac:(unfold max32; lia) LT2 ND GG) as (t & T & ND2 & C & GG2).
               exists ((k, nx, x) :: t). split; [apply tested_one; [exact F|exact T]|]. split; [exact ND2|]. split; [|exact GG2]. intros n. rewrite C. split.
               ++ intros [P|(m & y & P & Q)]; [left; exact P|right; exists m, y; split; [right; exact P|exact Q]].
               ++ intros [P|(m & y & [P|P] & Q)]; [left; exact P|injection P as <- <- <-; congruence|right; exists m, y; auto].
          * assert (F : ~ for_bridge x) by (intros F; apply FB in F; discriminate).
            destruct (IH nx (k + 1) l NX ltac:(unfold max32; lia) LT2 ND GG) as (t & T & ND2 & C & GG2).
            exists t. split; [apply tested_unknown; assumption|]. auto.
        + destruct (IH nx k l NX ltac:(unfold max32; lia) LT ND GG) as (t & T & ND2 & C & GG2). exists t. split; [apply tested_other; assumption|]. auto. }
    intros LE. destruct (G xs nx k [] NX LE) as (t & T & ND & C & GG); [intros p []|constructor|intros n b []|].
    exists t. split; [exact T|]. split; [exact ND|]. split; [|exact GG]. intros n. rewrite C. split; [intros [(b & [])|P]; exact P|auto].
  Qed.
End Manager.
Print Assumptions C103_started.
Print Assumptions C103_once.
Print Assumptions C103_kept.
Print Assumptions C103_counts.
Print Assumptions C103_kill.
Print Assumptions C103_test_refuted.
Print Assumptions C103_tests.
Print Assumptions C103_test_hears.

(** Two bridges that can be started, one that cannot, one of an unknown kind; another client before them; the second ends and is let go. *)
Definition tcp : node := Node "Bridge" [("Type", "LmcpObjectNetworkTcpBridge")] [].
Definition serial : node := Node "Bridge" [("Type", "LmcpObjectNetworkSerialBridge")] [].
Definition odd : node := Node "Bridge" [("Type", "Pigeon")] [].
Definition enabled : node := Node "UxAS" [] [tcp; odd; serial; tcp].
Definition ok (n : N) (x : node) : bool := negb (n =? 12).

Example C103_case : let h := [Client; Initialize (Some enabled); Ends 13] in
  map fst (running (after ok 7 h)) = [11; 13] /\ map snd (terminate_all (after ok 7 h)) = [11] /\
  map fst (running (after ok 7 (h ++ [Remove]))) = [11] /\ snd (remove_terminated (after ok 7 h) 3 0) = (4, 1) /\
  not_begun [Client] /\ let_go 13 [Ends 13; Remove].
Proof.
  cbv zeta. split; [vm_compute; reflexivity|]. split; [vm_compute; reflexivity|]. split; [vm_compute; reflexivity|]. split; [vm_compute; reflexivity|].
  split; [intros a [P|[]]; discriminate|]. exists [], [], []. reflexivity.
Qed.
Example C103_test_case : exists b, create ok 7 20 tcp 50 60 = (Some b, 21) /\
  obeys b (getNetworkClientUnicastAddress 50 60, 60) = false /\ obeys b (getNetworkClientUnicastAddress 50 60, 20) = true.
Proof. eexists. split; [reflexivity|]. split; vm_compute; reflexivity. Qed.
Example C103_tests_case : map fst (snd (test_bridges ok 7 11 [tcp; odd; serial; tcp] 50 60 [])) = [60; 63].
Proof. vm_compute. reflexivity. Qed.

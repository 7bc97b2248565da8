(** Filling in of summaries and the invariant of the batch summary service. *)
From Coq Require Import List ZArith Bool Permutation Lia.
From Verif Require Import ZMap Run BatchModel BatchSpec BatchProofs.
Import ListNotations.
Open Scope list_scope.
Open Scope Z_scope.

Section Fill.
  Context (flight : wp -> wp -> Z).
  Local Notation times := (times flight).
  Local Notation fill := (fill flight).
  Local Notation placeV := (placeV flight).
  Local Notation place := (place flight).
  Local Notation update := (update flight).
  Local Notation reports := (reports flight).

  Lemma spent_cons sel u w ws : spent flight sel (u :: w :: ws) = (if sel u then flight u w else 0) + spent flight sel (w :: ws).
  Proof. reflexivity. Qed.

  Lemma times_spent ws : forall prev a b,
    times prev ws a b = (a + spent flight tasked (match prev with Some u => u :: ws | None => ws end),
                         b + spent flight (fun w => negb (tasked w)) (match prev with Some u => u :: ws | None => ws end)).
  Proof.
    induction ws as [|w ws IH]; intros prev a b.
    - cbn. destruct prev; cbn; rewrite !Z.add_0_r; reflexivity.
    - cbn [BatchModel.times]. destruct prev as [u|].
      + rewrite !spent_cons. assert (X : tasked u = match w_tasks u with [] => false | _ => true end) by reflexivity.
        destruct (w_tasks u); rewrite X; rewrite IH; cbn [negb]; f_equal; lia.
      + rewrite IH. reflexivity.
  Qed.

  Lemma fill_line ws x : line (fill ws x) = line x.
  Proof. unfold BatchModel.fill. destruct ws; [reflexivity|]. destruct (times None (w :: ws) 0 0). reflexivity. Qed.

  Lemma fill_reports ws x l : ws <> [] -> reports x l -> reports (fill ws x) (l ++ [ws]).
  Proof.
    intros N (W & F & T). unfold BatchModel.fill. destruct ws as [|w ws]; [contradiction|]. rewrite times_spent.
    unfold BatchSpec.reports. cbn [v_wps v_first v_onTask v_arrive]. rewrite concat_app, rev_app_distr, W. cbn [concat rev app].
    rewrite app_nil_r. split; [reflexivity|]. split; [destruct (concat l); reflexivity|]. split; reflexivity.
  Qed.

  Lemma placeV_line v i d ws l : map line (placeV v i d ws l) = map line l.
  Proof. induction l as [|x l IH]; [reflexivity|]. cbn. destruct (_ && _); cbn; [rewrite fill_line|rewrite IH]; reflexivity. Qed.

  Lemma place_view v i d ws l : view (place v i d ws l) = view l.
  Proof.
    unfold view. induction l as [|y l IH]; [reflexivity|]. cbn. destruct (t_task y =? d); cbn; [rewrite placeV_line|rewrite IH]; reflexivity.
  Qed.

  Definition same_line (x : vsum) (v i d : Z) : bool := (v_vehicle x =? v) && (v_dest x =? d) && (v_init x =? i).

  Lemma same_line_true x v i d : same_line x v i d = true <-> line x = (v, i, d).
  Proof.
    unfold same_line, line. rewrite !andb_true_iff, !Z.eqb_eq. split; [intros ((-> & ->) & ->); reflexivity|intros [= -> -> ->]; auto].
  Qed.

  Definition extra (k : Z * Z * Z) (v i d : Z) (ws : list wp) : list (list wp) :=
    if (v =? fst (fst k)) && ((i =? snd (fst k)) && (d =? snd k)) then [ws] else [].

  Lemma extra_eq x v i d ws : extra (line x) v i d ws = if same_line x v i d then [ws] else [].
  Proof.
    unfold extra, same_line, line. cbn [fst snd]. rewrite (Z.eqb_sym v), (Z.eqb_sym i), (Z.eqb_sym d).
    destruct (v_vehicle x =? v), (v_init x =? i), (v_dest x =? d); reflexivity.
  Qed.

  Lemma placeV_reports (f : Z * Z * Z -> list (list wp)) v i d ws l : ws <> [] -> NoDup (map line l) ->
    (forall x, In x l -> reports x (f (line x))) ->
    forall x, In x (placeV v i d ws l) -> reports x (f (line x) ++ extra (line x) v i d ws).
  Proof.
    intros N. induction l as [|z l IH]; intros D H x I; [destruct I|]. cbn in D. inversion D as [|? ? D1 D2]; subst. cbn in I.
    destruct (same_line z v i d) eqn:E; unfold same_line in E; rewrite E in I.
    - destruct I as [<-|I].
      + rewrite fill_line, extra_eq. unfold same_line. rewrite E. apply fill_reports; [exact N|]. apply H. left. reflexivity.
      + rewrite extra_eq. destruct (same_line x v i d) eqn:E'.
        * exfalso. apply D1. apply same_line_true in E'. rewrite (proj1 (same_line_true z v i d) E), <- E'. apply in_map. exact I.
        * rewrite app_nil_r. apply H. right. exact I.
    - destruct I as [<-|I]; [|apply IH; auto; intros x' I'; apply H; right; exact I'].
      rewrite extra_eq. unfold same_line. rewrite E, app_nil_r. apply H. left. reflexivity.
  Qed.

  (** Distinct tasks, distinct lines, and the lines of a task lead to it. *)
  Definition orderly (l : list tsum) : Prop :=
    NoDup (map t_task l) /\ forall y, In y l -> NoDup (map line (t_vehicles y)) /\ forall x, In x (t_vehicles y) -> v_dest x = t_task y.

  Lemma orderly_view l l' : view l = view l' -> orderly l -> orderly l'.
  Proof.
    intros E (N & H). split.
    - replace (map t_task l') with (map fst (view l')) by (unfold view; rewrite map_map; reflexivity). rewrite <- E.
      unfold view. rewrite map_map. exact N.
    - intros y' I'. assert (V : In (t_task y', map line (t_vehicles y')) (view l)) by (rewrite E; unfold view; apply in_map_iff; exists y'; auto).
      apply in_map_iff in V. destruct V as (y & V & I). injection V as V1 V2. destruct (H y I) as (D & T). rewrite <- V2. split; [exact D|].
      intros x' J'. assert (V : In (line x') (map line (t_vehicles y))) by (rewrite V2; apply in_map; exact J'). apply in_map_iff in V.
      destruct V as (x & V & J). specialize (T x J). unfold line in V. injection V as _ _ V. congruence.
  Qed.

  Definition all_report (l : list tsum) (f : Z * Z * Z -> list (list wp)) : Prop :=
    forall y x, In y l -> In x (t_vehicles y) -> reports x (f (line x)).

  Lemma place_reports f v i d ws l : ws <> [] -> orderly l -> all_report l f ->
    all_report (place v i d ws l) (fun k => f k ++ extra k v i d ws).
  Proof.
    intros N. induction l as [|y0 l IH]; intros (D & O) H y x I J; [destruct I|]. cbn in D. inversion D as [|? ? D1 D2]; subst.
    cbn in I. destruct (Z.eqb_spec (t_task y0) d) as [E|E].
    - destruct I as [<-|I].
      + cbn in J. apply (placeV_reports f v i d ws (t_vehicles y0)); auto; [apply O; left; reflexivity|]. intros x' J'. apply (H y0); auto. left. reflexivity.
      + cbn beta. rewrite extra_eq. destruct (same_line x v i d) eqn:E'.
        * exfalso. apply same_line_true in E'. unfold line in E'. injection E' as _ _ E'. apply D1. rewrite E, <- E'.
          destruct (O y (or_intror I)) as (_ & T). rewrite (T x J). apply in_map. exact I.
        * rewrite app_nil_r. apply (H y); auto. right. exact I.
    - destruct I as [<-|I].
      + cbn beta. rewrite extra_eq. destruct (same_line x v i d) eqn:E'.
        * exfalso. apply same_line_true in E'. unfold line in E'. injection E' as _ _ E'. destruct (O y0 (or_introl eq_refl)) as (_ & T). rewrite (T x J) in E'. contradiction.
        * rewrite app_nil_r. apply (H y0); auto. left. reflexivity.
      + apply (IH (conj D2 (fun y I => O y (or_intror I)))) with (y := y); auto. intros y' x' I'. apply (H y'). right. exact I'.
  Qed.

  Lemma walk_nonempty ws : forall acc b w p c, In c (walk acc b w p ws) -> snd c <> [].
  Proof.
    induction ws as [|u ws IH]; intros acc b w p c I; [destruct I|]. cbn in I.
    assert (X : forall l (y : wp), l ++ [y] <> []) by (intros [|? ?] ?; discriminate).
    destruct (w_tasks u) as [|t ts]; [destruct b|destruct ws as [|u' ws]; destruct b].
    - exact (IH _ _ _ _ _ I).
    - destruct I as [<-|I]; [apply X|exact (IH _ _ _ _ _ I)].
    - exact (IH _ _ _ _ _ I).
    - destruct I as [<-|I]; [apply X|exact (IH _ _ _ _ _ I)].
    - exact (IH _ _ _ _ _ I).
    - exact (IH _ _ _ _ _ I).
  Qed.

  Lemma reports_ext l f g : (forall k, f k = g k) -> all_report l f -> all_report l g.
  Proof. intros E H y x I J. rewrite <- E. exact (H y x I J). Qed.

  Lemma mission_reports m L : (forall c, In c L -> snd c <> []) -> forall l f, orderly l -> all_report l f ->
    all_report (fold_left (fun l c => let '(i, d, ws) := c in place (m_vehicle m) i d ws l) L l) (fun k => f k ++ mine k [m] [L]) /\
    view (fold_left (fun l c => let '(i, d, ws) := c in place (m_vehicle m) i d ws l) L l) = view l.
  Proof.
    unfold mine. cbn [combine flat_map fst snd]. induction L as [|((i, d), ws) L IH]; intros N l f O H.
    - cbn. split; [|reflexivity]. apply (reports_ext l f); [|exact H]. intros k. destruct (_ =? _); rewrite ?app_nil_r; reflexivity.
    - cbn [fold_left]. assert (NW : ws <> []) by apply (N (i, d, ws) (or_introl eq_refl)).
      pose proof (place_reports f (m_vehicle m) i d ws l NW O H) as H1.
      assert (O1 : orderly (place (m_vehicle m) i d ws l)) by (apply (orderly_view l); [symmetry; apply place_view|exact O]).
      destruct (IH (fun c I => N c (or_intror I)) _ _ O1 H1) as (A & B). rewrite B, place_view. split; [|reflexivity].
      revert A. apply reports_ext. intros k. rewrite <- app_assoc. f_equal. unfold extra. cbn [filter fst snd].
      destruct (m_vehicle m =? fst (fst k)); [|reflexivity]. destruct ((i =? snd (fst k)) && (d =? snd k)); reflexivity.
  Qed.

  Lemma mine_app k ms Ls ms' Ls' : length ms = length Ls -> mine k (ms ++ ms') (Ls ++ Ls') = mine k ms Ls ++ mine k ms' Ls'.
  Proof.
    revert Ls. induction ms as [|m ms IH]; intros [|L Ls] E; try discriminate; [reflexivity|]. unfold mine in *. cbn. rewrite <- app_assoc.
    f_equal. apply IH. injection E as E. exact E.
  Qed.

  Lemma update_view ms : forall l, view (update ms l) = view l.
  Proof.
    unfold BatchModel.update. induction ms as [|m ms IH]; intros l; [reflexivity|]. cbn. rewrite IH. generalize (walk [] true 0 0 (m_wps m)).
    intros L. revert l. induction L as [|((i, d), ws) L IHL]; intros l; [reflexivity|]. cbn. rewrite IHL. apply place_view.
  Qed.

  Lemma update_reports ms Ls : Forall small ms -> Forall2 mission_legs ms Ls -> forall l f, orderly l -> all_report l f ->
    all_report (update ms l) (fun k => f k ++ mine k ms Ls).
  Proof.
    intros S F. revert S. induction F as [|m L ms Ls ML F IH]; intros S l f O H.
    - cbn. apply (reports_ext l f); [|exact H]. intros k. rewrite app_nil_r. reflexivity.
    - inversion S as [|? ? S1 S2]; subst. unfold BatchModel.update. cbn [fold_left]. fold (update ms).
      pose proof (walk_mission m L S1 ML) as W. rewrite W.
      assert (N : forall c, In c L -> snd c <> []) by (intros c I; rewrite <- W in I; exact (walk_nonempty _ _ _ _ _ _ I)).
      destruct (mission_reports m L N l f O H) as (A & B).
      assert (O1 : orderly (fold_left (fun l c => let '(i, d, ws) := c in place (m_vehicle m) i d ws l) L l)) by (apply (orderly_view l); [symmetry; exact B|exact O]).
      pose proof (IH S2 _ _ O1 A) as C. revert C. unfold BatchModel.update. apply reports_ext. intros k. rewrite <- app_assoc. f_equal.
      symmetry. apply (mine_app k [m] [L] ms Ls). reflexivity.
  Qed.
End Fill.

(** The lines of a proper query do not repeat. *)
Lemma NoDup_map_inj {A B} (f : A -> B) (l : list A) : (forall x y, In x l -> In y l -> f x = f y -> x = y) -> NoDup l -> NoDup (map f l).
Proof.
  induction l as [|x l IH]; intros H N; [constructor|]. inversion N as [|? ? N1 N2]; subst. cbn. constructor.
  - intros I. apply in_map_iff in I. destruct I as (y & E & I). apply N1. rewrite (H x y); auto; [left; reflexivity|right; exact I].
  - apply IH; [|exact N2]. intros y z I J. apply H; right; assumption.
Qed.

Lemma NoDup_flat_map_ {A B} (f : A -> list B) (l : list A) : NoDup l -> (forall x, In x l -> NoDup (f x)) ->
  (forall x y b, In x l -> In y l -> In b (f x) -> In b (f y) -> x = y) -> NoDup (flat_map f l).
Proof.
  induction l as [|x l IH]; intros N H D; [constructor|]. inversion N as [|? ? N1 N2]; subst. cbn.
  assert (A1 : NoDup (f x)) by (apply H; left; reflexivity).
  assert (A2 : NoDup (flat_map f l)).
  { apply IH; [exact N2|intros y I; apply H; right; exact I|]. intros y z b I J. apply D; right; assumption. }
  assert (X : forall b, In b (f x) -> ~ In b (flat_map f l)).
  { intros b I J. apply in_flat_map in J. destruct J as (y & J & K). apply N1. rewrite (D x y b); auto; [left; reflexivity|right; exact J]. }
  clear - A1 A2 X. induction (f x) as [|b q IHq]; [exact A2|]. inversion A1 as [|? ? B1 B2]; subst. cbn. constructor.
  - intros I. apply in_app_or in I. destruct I as [I|I]; [contradiction|]. apply (X b); [left; reflexivity|exact I].
  - apply IHq; [exact B2|]. intros c I. apply X. right. exact I.
Qed.

Lemma lines_NoDup q t : proper q -> NoDup (lines q t).
Proof.
  intros (NT & NV & N0). unfold lines. destruct (q_related q).
  - apply NoDup_flat_map_; [exact NV| |].
    + intros v _. apply NoDup_map_inj; [|exact NT]. intros i j Ii Ij E. injection E as E.
      destruct (Z.eqb_spec i t) as [->|A], (Z.eqb_spec j t) as [->|B]; auto; subst; contradiction.
    + intros v v' b _ _ I J. apply in_map_iff in I. apply in_map_iff in J. destruct I as (i & <- & _), J as (j & J & _). injection J as -> _. reflexivity.
  - apply NoDup_map_inj; [|exact NV]. intros v v' _ _ [= ->]. reflexivity.
Qed.

Lemma lines_dest q t k : In k (lines q t) -> snd k = t.
Proof.
  unfold lines. destruct (q_related q); intros I.
  - apply in_flat_map in I. destruct I as (v & _ & I). apply in_map_iff in I. destruct I as (i & <- & _). reflexivity.
  - apply in_map_iff in I. destruct I as (i & <- & _). reflexivity.
Qed.

Lemma lines_orderly q l : proper q -> view l = map (fun t => (t, lines q t)) (q_tasks q) -> orderly l.
Proof.
  intros P V. split.
  - replace (map t_task l) with (map fst (view l)) by (unfold view; rewrite map_map; reflexivity). rewrite V, map_map, map_id. apply P.
  - intros y I. assert (J : In (t_task y, map line (t_vehicles y)) (view l)) by (unfold view; apply in_map_iff; exists y; auto).
    rewrite V in J. apply in_map_iff in J. destruct J as (t & E & J). injection E as E1 E2. rewrite <- E2. split; [apply lines_NoDup, P|].
    intros x K. assert (Q : In (line x) (lines q t)) by (rewrite E2; apply in_map; exact K). apply lines_dest in Q. rewrite <- E1. exact Q.
Qed.

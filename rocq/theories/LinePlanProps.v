(** C92: which points of its line a line search flies by. *)
From Coq Require Import Reals List ZArith Bool Lia Lra Psatz.
From Verif Require Import LinePlanModel LinePlanSpec LinePlanGeom LinePlanProofs.
Import ListNotations.
Open Scope R_scope.

(** *** Ways that lose points one by one *)

Section Drops.
  Context (n : nat) (line : nat -> place) (stays : nat -> bool) (most : Z).

  Lemma drop_cut ks ks' : drop line stays ks ks' ->
    exists l1 i j k l2, ks = l1 ++ [i; j; k] ++ l2 /\ ks' = l1 ++ [i; k] ++ l2 /\ stays j = false.
  Proof. intros (j & e & C & _). destruct C as [l1 i j k l2 e Q St _]. exists l1, i, j, k, l2. auto. Qed.

  Lemma cut_spans l1 i j k l2 : spans n (l1 ++ [i; j; k] ++ l2) -> spans n (l1 ++ [i; k] ++ l2).
  Proof.
    intros (A & B & R). split; [|split].
    - destruct l1; exact A.
    - rewrite !rev_app_distr in *. destruct (rev l2); exact B.
    - cbn [app] in *. change (i :: j :: k :: l2) with ([i] ++ j :: (k :: l2)) in R. rewrite app_assoc in R. apply rising_drop in R.
      rewrite <- app_assoc in R. exact R.
  Qed.

  Lemma drops_spans ks ks' : drops line stays most ks ks' -> spans n ks -> spans n ks'.
  Proof.
    induction 1 as [| |ks ks' ks2 _ D _ IH]; auto. intros S. apply IH. apply drop_cut in D. destruct D as (l1 & i & j & k & l2 & -> & -> & _).
    apply cut_spans in S. exact S.
  Qed.

  Lemma drops_incl ks ks' : drops line stays most ks ks' -> incl ks' ks.
  Proof.
    induction 1 as [| |ks ks' ks2 _ D _ IH]; try apply incl_refl. apply drop_cut in D. destruct D as (l1 & i & j & k & l2 & -> & -> & _).
    intros x X. apply IH in X. rewrite !in_app_iff in *. cbn in *. tauto.
  Qed.

  Lemma drops_stays ks ks' x : drops line stays most ks ks' -> stays x = true -> In x ks -> In x ks'.
  Proof.
    induction 1 as [| |ks ks' ks2 _ D _ IH]; auto. intros S X. apply IH; auto. apply drop_cut in D. destruct D as (l1 & i & j & k & l2 & -> & -> & U).
    rewrite !in_app_iff in *. cbn in *. destruct X as [X|[[X|[X|[X|[]]]]|X]]; auto. subst x. congruence.
  Qed.

  Lemma drops_number ks ks' : drops line stays most ks ks' -> (forall j, In j ks -> stays j = false) -> (2 <= length ks)%nat ->
    Z.of_nat (length ks') = Z.max 2 (Z.min (Z.of_nat (length ks)) most).
  Proof using line stays most. clear n.
    induction 1 as [ks F|ks N|ks ks' ks2 M D _ IH]; intros S L.
    - lia.
    - assert (length ks = 2%nat). { destruct ks as [|i [|j [|k l]]]; cbn in L; try lia; auto. specialize (N [] i j k l eq_refl).
        rewrite (S j) in N; [discriminate|right; left; reflexivity]. } lia.
    - apply drop_cut in D. destruct D as (l1 & i & j & k & l2 & -> & -> & U). rewrite !app_length in *. cbn [length] in *. rewrite IH; [lia| |lia].
      intros x X. apply S. rewrite !in_app_iff in *. cbn in *. tauto.
  Qed.
End Drops.

(** The first pass goes from the first to the last point of the line.  A point in between stays if and only if it matters: if,
    between the last point before it that stays and the next point of the line, the way turns by a tenth of a degree or more or
    the point is a metre or more off. *)
Theorem C92_first_pass line : (2 <= length line)%nat ->
  exists ks, spans (length line) ks /\ preprocess line = map (fun k => nth k line origin) ks /\
    forall q p, In q ks -> (q < p)%nat -> (forall r, In r ks -> ~ (q < r < p)%nat) -> (p < length line - 1)%nat ->
      (In p ks <-> ~ slight (at_ line q) (at_ line p) (at_ line (S p))).
Proof. apply preprocess_pos. Qed.

Lemma only_ends line : (2 <= length line)%nat ->
  (forall p, (0 < p < length line - 1)%nat -> slight (at_ line 0) (at_ line p) (at_ line (S p))) ->
  preprocess line = [nth 0 line origin; nth (length line - 1) line origin].
Proof.
  intros N A. destruct (preprocess_pos line N) as (ks & (H & Z & R) & E & W). rewrite E.
  assert (Q : forall p, (0 < p < length line - 1)%nat -> ~ In p ks).
  { intros p. induction p as [p IH] using lt_wf_ind. intros P I0. destruct ks as [|z ks]; [discriminate|]. injection H as ->.
    apply (W 0%nat p) in I0; auto; [left; reflexivity|lia| |lia]. intros r Rr (B1 & B2). apply (IH r); auto; lia. }
  destruct ks as [|z ks]; [discriminate|]. injection H as ->.
  destruct ks as [|x ks]; [cbn in Z; injection Z as Z; lia|].
  assert (X : x = (length line - 1)%nat).
  { pose proof (rising_above _ _ R x (or_introl eq_refl)) as X0. pose proof (rising_last _ _ R Z x ltac:(right; left; reflexivity)) as X1.
    destruct (Nat.eq_dec x (length line - 1)); auto. exfalso. apply (Q x); [lia|right; left; reflexivity]. }
  destruct ks as [|y ks]; [subst x; reflexivity|]. exfalso.
  pose proof (rising_last _ _ R Z y ltac:(right; right; left; reflexivity)) as Y.
  destruct R as (_ & R). pose proof (rising_above _ _ R y (or_introl eq_refl)). lia.
Qed.

(** Of a straight line only the ends stay. *)
Theorem C92_straight line a c : (2 <= length line)%nat -> a <> c ->
  (exists t : nat -> R, (forall k, (k < length line)%nat -> at_ line k = along a c (t k)) /\ (forall k, (S k < length line)%nat -> t k < t (S k))) ->
  preprocess line = [nth 0 line origin; nth (length line - 1) line origin].
Proof.
  intros N AC (t & T & Inc). apply only_ends; auto. intros p P.
  assert (M : forall k, (0 < k < length line)%nat -> t 0%nat < t k).
  { induction k as [|k IH]; intros K; [lia|]. destruct k as [|k]; [apply Inc; lia|]. apply Rlt_trans with (t (S k)); [apply IH; lia|apply Inc; lia]. }
  assert (M1 := M p ltac:(lia)). assert (M2 := Inc p ltac:(lia)). rewrite !T by lia.
  set (t0 := t 0%nat) in *. set (t1 := t p) in *. set (t2 := t (S p)) in *. clearbody t0 t1 t2. clear T Inc M.
  set (dx := fst c - fst a). set (dy := snd c - snd a).
  destruct (SteeringCourseProps.atan2_xy dy dx) as (X & Y). set (l := sqrt (dx * dx + dy * dy)) in *. set (h := SteeringCourseModel.atan2 dy dx) in *.
  assert (LP : 0 < l).
  { apply sqrt_lt_R0. destruct (Req_dec dx 0) as [Zx|Zx]; [|nra]. destruct (Req_dec dy 0) as [Zy|Zy]; [|nra]. exfalso. apply AC.
    destruct a, c. unfold dx, dy in *. cbn in *. f_equal; lra. }
  unfold slight. destruct (Rlt_le_dec (away (along a c t0) (along a c t1)) tiny) as [|L1]; [auto|].
  destruct (Rlt_le_dec (away (along a c t1) (along a c t2)) tiny) as [|L2]; [auto|]. right. right. pose proof PI_RGT_0.
  assert (AW : forall u v, u < v -> away (along a c u) (along a c v) = (v - u) * l).
  { intros u v UV. unfold away, along. cbn [fst snd]. fold dx dy.
    replace ((fst a + v * dx - (fst a + u * dx)) ^ 2 + (snd a + v * dy - (snd a + u * dy)) ^ 2) with ((v - u) * (v - u) * (dx * dx + dy * dy)) by ring.
    rewrite sqrt_mult by nra. fold l. rewrite sqrt_square by lra. reflexivity. }
  split.
  - exists 0. split; [|rewrite Rabs_R0; lra]. split; [lra|]. exists h, ((t1 - t0) * l), ((t2 - t1) * l). unfold along. cbn [fst snd]. fold dx dy.
    rewrite Rminus_0_r. repeat split; [nra|nra| | | |].
    + replace ((t1 - t0) * l * cos h) with ((t1 - t0) * (l * cos h)) by ring. rewrite <- X. ring.
    + replace ((t1 - t0) * l * sin h) with ((t1 - t0) * (l * sin h)) by ring. rewrite <- Y. ring.
    + replace ((t2 - t1) * l * cos h) with ((t2 - t1) * (l * cos h)) by ring. rewrite <- X. ring.
    + replace ((t2 - t1) * l * sin h) with ((t2 - t1) * (l * sin h)) by ring. rewrite <- Y. ring.
  - exists 0. split; [|lra]. apply off_line; auto.
    + rewrite AW in * by lra. nra.
    + intros s. apply sqrt_pos.
    + exists ((t1 - t0) / (t2 - t0)). unfold away, along. cbn [fst snd]. symmetry. rewrite <- sqrt_0. f_equal. field. lra.
Qed.

(** The second pass leaves out points one by one, each time the first one of those that lose least, until there are no more than
    asked for or none is left that may be left out. *)
Theorem C92_second_pass line most : (2 <= length line)%nat ->
  exists ks, drops (at_ line) (fun k => fixed (nth k line origin)) most (seq 0 (length line)) ks /\
    plan_quickly line most = map (fun k => nth k line origin) ks.
Proof. apply quick_pos. Qed.

(** It goes from the first to the last point, marked points stay, and if there are none it is as many points as asked for. *)
Theorem C92_number line most : (2 <= length line)%nat ->
  exists ks, spans (length line) ks /\ plan_quickly line most = map (fun k => nth k line origin) ks /\
    (forall k, (k < length line)%nat -> fixed (nth k line origin) = true -> In k ks) /\
    ((forall p, In p line -> fixed p = false) -> Z.of_nat (length ks) = Z.max 2 (Z.min (Z.of_nat (length line)) most)).
Proof.
  intros N. destruct (quick_pos line most N) as (ks & D & E). exists ks. split; [|split; [exact E|split]].
  - apply (drops_spans _ _ _ _ _ _ D). apply seq_spans. lia.
  - intros k K F. apply (drops_stays _ _ _ _ _ _ D F). apply in_seq. lia.
  - intros F. rewrite (drops_number _ _ _ _ _ D), seq_length; auto; [|rewrite seq_length; lia].
    intros j J. apply in_seq in J. apply F, nth_In. lia.
Qed.

Lemma road_way line : road_length line = way (map plc line).
Proof.
  induction line as [|a [|b r] IH]; auto. cbn [road_length way map] in *. rewrite IH, dist_away. reflexivity.
Qed.

(** A waypoint for every 200 metres of the line, and at least two. *)
Theorem C92_most line : let len := way (map plc line) in let m := most_waypoints line in
  (len < 600 -> m = 2%Z) /\ (400 <= len -> 200 * IZR m <= len < 200 * (IZR m + 1)).
Proof.
  intros len m. unfold m, most_waypoints. rewrite road_way. fold len. destruct (base_Int_part (len / 200)) as (A & B).
  set (n := Int_part (len / 200)) in *. clearbody n. destruct (Z.ltb_spec n 2) as [Z|Z].
  - split; auto. intros L. apply IZR_le in L || idtac. assert (n <= 1)%Z by lia. apply IZR_le in H. lra.
  - split.
    + intros L. assert (IZR n < 3) by lra. apply lt_IZR in H. lia.
    + intros _. lra.
Qed.

Lemma clear_squeeze rs : forall q, (forall p, In p rs -> / 10 ^ 9 <= Rabs (px p - py p)) -> squeeze q rs = rs.
Proof.
  induction rs as [|r t IH]; intros q C; auto. cbn [squeeze]. destruct (Rlt_dec _ _) as [L|L].
  - exfalso. specialize (C r (or_introl eq_refl)).
    set (x := px r - py q) in *. set (y := py r - py q) in *. replace (px r - py r) with (x - y) in C by (unfold x, y; ring).
    set (e := / 10 ^ 10) in *. assert (E : / 10 ^ 9 = 10 * e) by (unfold e; field). rewrite E in C.
    assert (P : 0 < e) by (apply Rinv_0_lt_compat, pow_lt; lra).
    assert (X : Rabs x < e /\ Rabs y < e).
    { split; (eapply Rle_lt_trans; [|exact L]); rewrite <- sqrt_Rsqr_abs; apply sqrt_le_1_alt; unfold Rsqr; nra. }
    destruct X as (X & Y). pose proof (Rabs_triang x (- y)) as T. rewrite Rabs_Ropp in T. unfold Rminus in C. lra.
  - f_equal. apply IH. intros p P. apply C. right. exact P.
Qed.

Lemma nth_map_pos (line : list point) ks k : (k < length ks)%nat ->
  nth k (map (fun j => nth j line origin) ks) origin = nth (nth k ks 0%nat) line origin.
Proof. intros K. rewrite nth_indep with (d' := nth 0 line origin) by (rewrite map_length; exact K). apply (map_nth (fun j => nth j line origin)). Qed.

Lemma rising_nth ks : rising ks -> forall i j, (i < j < length ks)%nat -> (nth i ks 0 < nth j ks 0)%nat.
Proof.
  intros R i j J. induction ks as [|a ks IH] in i, j, R, J |- *; [cbn in J; lia|]. destruct j as [|j]; [lia|]. destruct i as [|i].
  - cbn. apply (rising_above _ _ R). apply nth_In. cbn in J. lia.
  - cbn in *. apply IH; [apply (rising_tail _ _ R)|lia].
Qed.

Lemma rising_map ks js : rising ks -> rising js -> (forall j, In j js -> (j < length ks)%nat) -> rising (map (fun j => nth j ks 0%nat) js).
Proof.
  intros R. induction js as [|j js IH]; intros S B; [exact I|]. cbn [map]. apply rising_cons.
  - intros x X. apply in_map_iff in X. destruct X as (i & <- & I0). apply rising_nth; auto. split; [apply (rising_above _ _ S), I0|apply B; right; exact I0].
  - apply IH; [apply (rising_tail _ _ S)|]. intros i I0. apply B. right. exact I0.
Qed.

Lemma hd_rev_nth {A} (l : list A) (d : A) x : hd_error (rev l) = Some x -> nth (length l - 1) l d = x.
Proof.
  intros H. destruct l as [|y l _] using rev_ind; [discriminate|]. rewrite rev_app_distr in H. injection H as ->.
  rewrite app_length. cbn [length]. rewrite app_nth2 by lia. replace (length l + 1 - 1 - length l)%nat with 0%nat by lia. reflexivity.
Qed.

(** Together: if no point of the line is as far north as it is east of the point of reference, the way goes from the first
    point to the last over points of the line in their order, and has no more than one point for each 200 metres of the line,
    or two. *)
Theorem C92_way line : (2 <= length line)%nat -> (forall p, In p line -> fixed p = false) ->
  (forall p, In p line -> / 10 ^ 9 <= Rabs (px p - py p)) ->
  exists ks, spans (length line) ks /\ thinned_line line = map (fun k => nth k line origin) ks /\
    (length ks = 2%nat \/ 200 * INR (length ks) <= way (map plc line)).
Proof.
  intros N F C. destruct (preprocess_pos line N) as (ks & (H & Z & R) & E & _).
  assert (B : forall k, In k ks -> (k < length line)%nat) by (intros k K; pose proof (rising_last _ _ R Z k K); lia).
  set (mid := preprocess line) in *. assert (LM : length mid = length ks) by (rewrite E; apply map_length).
  assert (N2 : (2 <= length mid)%nat).
  { rewrite LM. destruct ks as [|a [|b ks]]; cbn; try lia; [discriminate|]. cbn in H, Z. injection H as ->. injection Z as Z. lia. }
  destruct (C92_number mid (most_waypoints line) N2) as (js & (H2 & Z2 & R2) & E2 & _ & Q).
  assert (B2 : forall j, In j js -> (j < length ks)%nat) by (intros j J; pose proof (rising_last _ _ R2 Z2 j J); lia).
  assert (EQ : map (fun k => nth k mid origin) js = map (fun k => nth k line origin) (map (fun j => nth j ks 0%nat) js)).
  { rewrite map_map. apply map_ext_in. intros j J. rewrite E. apply nth_map_pos. apply B2, J. }
  exists (map (fun j => nth j ks 0%nat) js). split; [|split].
  - split; [|split].
    + destruct js as [|j js]; [discriminate|]. injection H2 as ->. cbn. destruct ks; [discriminate|]. cbn. exact H.
    + rewrite <- map_rev. destruct (rev js) as [|j r]; [discriminate|]. injection Z2 as ->. cbn. f_equal. rewrite LM. apply hd_rev_nth, Z.
    + apply rising_map; auto.
  - unfold thinned_line. fold mid. rewrite E2, EQ. unfold remove_zero.
    destruct (map (fun k => nth k line origin) (map (fun j => nth j ks 0%nat) js)) as [|q rs] eqn:X; auto. f_equal. apply clear_squeeze.
    intros p P. apply C. assert (P2 : In p (q :: rs)) by (right; exact P). rewrite <- X in P2. apply in_map_iff in P2. destruct P2 as (k & <- & K).
    apply nth_In. apply in_map_iff in K. destruct K as (j & <- & J). apply B, nth_In, B2, J.
  - rewrite map_length. assert (FM : forall p, In p mid -> fixed p = false).
    { intros p P. apply F. rewrite E in P. apply in_map_iff in P. destruct P as (k & <- & K). apply nth_In, B, K. }
    specialize (Q FM). destruct (C92_most line) as (M1 & M2). cbn zeta in *. destruct (Nat.eq_dec (length js) 2) as [|NE]; [left; assumption|].
    right. assert (2 < most_waypoints line)%Z by lia. destruct (Rlt_le_dec (way (map plc line)) 600) as [S0|S0]; [specialize (M1 S0); lia|].
    specialize (M2 ltac:(lra)). rewrite INR_IZR_INZ. assert (Z.of_nat (length js) <= most_waypoints line)%Z by lia. apply IZR_le in H1. lra.
Qed.

Print Assumptions C92_first_pass.
Print Assumptions C92_straight.
Print Assumptions C92_second_pass.
Print Assumptions C92_number.
Print Assumptions C92_most.
Print Assumptions C92_way.

(** C94: on a line search the sensor looks at the point of the line with the same part behind it as the nearest place of the way. *)
From Coq Require Import Reals List ZArith Bool Lia Lra Psatz.
From Verif Require Import LinePlanModel LinePlanSpec LinePlanGeom LinePlanProofs LineOffsetModel LineOffsetSpec LineOffsetProofs LineOffsetProps LineOffsetWayProps
  LineStareModel LineStareSpec LineStareProofs.
Import ListNotations.
Open Scope R_scope.

Lemma arc_way ws k : (S k < length ws)%nat -> arc ws k = way (firstn (S k) (map plc ws)).
Proof. reflexivity. Qed.

Lemma nth_plc ws k : (k < length ws)%nat -> nth k (map plc ws) (0, 0) = plc (nth k ws origin).
Proof. intros K. rewrite nth_indep with (d' := plc origin) by (rewrite map_length; exact K). apply map_nth. Qed.

(** The index in the road of each waypoint. *)
Lemma map_spec ws rs : (2 <= length ws)%nat -> (forall k, (S k < length ws)%nat -> 1 <= leg ws k) -> (2 <= length rs)%nat -> 0 < way (map plc rs) ->
  let len := way (map plc rs) in
  let (road', ids) := road_map ws rs in
  (forall s q, on_line (map sp road') s q -> on_line (map sp rs) s q) /\ way (map plc road') = len /\ (2 <= length road')%nat /\
  nth 0 road' origin = nth 0 rs origin /\
  (forall k, (k < length ws)%nat -> (nth k ids 0%nat < length road')%nat /\
     arc ws k / way (map plc ws) * len - / 10 ^ 6 <= arc road' (nth k ids 0%nat) <= arc ws k / way (map plc ws) * len) /\
  (forall k, (S k < length ws)%nat -> (nth k ids 0%nat < nth (S k) ids 0%nat)%nat).
Proof.
  intros LW LEG LR LEN. cbv zeta. pose proof (small_pos 6) as SP. unfold road_map. rewrite !total_way. set (len := way (map plc rs)) in *.
  set (wl := way (map plc ws)).
  assert (AL : arc ws (length ws - 1) = wl) by (apply arc_last; lia).
  assert (STEP : forall k, (S k < length ws)%nat -> arc ws k + 1 <= arc ws (S k)).
  { intros k K. rewrite arc_S by exact K. specialize (LEG k K). lra. }
  assert (WP : 0 < wl).
  { rewrite <- AL. pose proof (arc_mono ws 1 (length ws - 1) ltac:(lia) ltac:(lia)). pose proof (STEP 0%nat ltac:(lia)) as S0. rewrite arc_0 in S0. lra. }
  assert (SCALE : forall x y, x < y -> x / wl * len < y / wl * len).
  { intros x y XY. apply Rmult_lt_compat_r; [exact LEN|]. apply Rmult_lt_compat_r; [apply Rinv_0_lt_compat, WP|exact XY]. }
  assert (ONE : wl / wl * len = len) by (field; lra).
  assert (NUL : 0 / wl * len = 0) by (field; lra).
  set (ts := targets_from wl 0 ws). assert (LT : length ts = (length ws - 2)%nat) by apply targets_length.
  assert (NT : forall j, (j < length ts)%nat -> nth j ts 0 = arc ws (S j) / wl).
  { intros j J. unfold ts. rewrite targets_spec by (auto; lia). f_equal. ring. }
  destruct (add_points len rs ts) as [road' ids0] eqn:A.
  destruct (add_spec len ts rs 0 road' ids0 LR eq_refl (Rle_refl 0)) as (H1 & H2 & H3 & H4 & H5 & H6); [|exact A|].
  { intros j J. rewrite NT by exact J. split.
    - destruct j as [|j]; [|rewrite NT by lia; apply SCALE; pose proof (STEP (S j) ltac:(lia)); lra].
      rewrite <- NUL. apply SCALE. pose proof (STEP 0%nat ltac:(lia)) as S0. rewrite arc_0 in S0. lra.
    - rewrite <- ONE at 2. left. apply SCALE. pose proof (STEP (S j) ltac:(lia)). pose proof (arc_mono ws (S (S j)) (length ws - 1) ltac:(lia) ltac:(lia)). lra. }
  assert (N0 : forall k, nth k (0%nat :: ids0 ++ [(length road' - 1)%nat]) 0%nat =
     if Nat.eqb k 0 then 0%nat else if Nat.ltb k (length ws - 1) then nth (k - 1) ids0 0%nat else if Nat.eqb k (length ws - 1) then (length road' - 1)%nat else 0%nat).
  { intros [|k]; [reflexivity|]. change (Nat.eqb (S k) 0) with false. cbn [nth]. replace (S k - 1)%nat with k by lia.
    destruct (Nat.ltb (S k) (length ws - 1)) eqn:B; [apply Nat.ltb_lt in B; apply app_nth1; lia|].
    apply Nat.ltb_ge in B. destruct (Nat.eqb (S k) (length ws - 1)) eqn:B2.
    - apply Nat.eqb_eq in B2. rewrite app_nth2 by lia. replace (k - length ids0)%nat with 0%nat by lia. reflexivity.
    - apply Nat.eqb_neq in B2. apply nth_overflow. rewrite app_length. cbn. lia. }
  split; [exact H1|]. split; [exact H2|]. split; [lia|]. split; [apply H5; [lia|rewrite arc_0; lra]|]. split.
  - intros k K. rewrite N0. destruct (Nat.eqb k 0) eqn:B0; [apply Nat.eqb_eq in B0; subst k; rewrite !arc_0, NUL; split; [lia|lra]|].
    apply Nat.eqb_neq in B0. destruct (Nat.ltb k (length ws - 1)) eqn:B1.
    + apply Nat.ltb_lt in B1. destruct (H6 (k - 1)%nat ltac:(lia)) as (G1 & G2 & _). rewrite NT in G2 by lia. replace (S (k - 1)) with k in G2 by lia.
      split; [lia|exact G2].
    + apply Nat.ltb_ge in B1. replace k with (length ws - 1)%nat by lia. rewrite Nat.eqb_refl, AL, ONE. split; [lia|].
      rewrite arc_last, H2 by lia. lra.
  - intros k K. rewrite !N0. change (Nat.eqb (S k) 0) with false. cbn [andb]. replace (S k - 1)%nat with k by lia.
    destruct (Nat.eqb k 0) eqn:B0.
    + apply Nat.eqb_eq in B0. subst k. destruct (Nat.ltb 1 (length ws - 1)) eqn:B1.
      * apply Nat.ltb_lt in B1. destruct (H6 0%nat ltac:(lia)) as (_ & _ & _ & G). apply G; [lia|rewrite arc_0; lra].
      * apply Nat.ltb_ge in B1. replace (Nat.eqb 1 (length ws - 1)) with true by (symmetry; apply Nat.eqb_eq; lia). lia.
    + apply Nat.eqb_neq in B0. replace (Nat.ltb k (length ws - 1)) with true by (symmetry; apply Nat.ltb_lt; lia).
      destruct (H6 (k - 1)%nat ltac:(lia)) as (G1 & _ & G3 & _). replace (S (k - 1)) with k in G3 by lia.
      destruct (Nat.ltb (S k) (length ws - 1)) eqn:B1; [apply Nat.ltb_lt in B1; apply G3; lia|]. apply Nat.ltb_ge in B1.
      replace (Nat.eqb (S k) (length ws - 1)) with true by (symmetry; apply Nat.eqb_eq; lia). exact G1.
Qed.

(** The waypoint that the vehicle is taken to be on its way to ends the leg that is nearest to it. *)
Lemma leg_spec ws p : (2 <= length ws)%nat -> (forall k, (S k < length ws)%nat -> 1 <= leg ws k) ->
  exists k a t, to_waypoint ws p = S k /\ (S k < length ws)%nat /\ 0 <= t <= 1 /\ Rabs (a - t) <= / 10 ^ 10 /\
    plc (closest (nth k ws origin) (nth (S k) ws origin) p) = along (plc (nth k ws origin)) (plc (nth (S k) ws origin)) a /\
    nearest (map plc ws) (plc p) (2 / 10 ^ 10) k t.
Proof.
  intros LW LEG. pose proof (small_pos 10) as SP.
  destruct (heading_spec ws p (length ws - 2) 1 (closest_dist (nth 0 ws origin) (nth 1 ws origin) p) 2 eq_refl ltac:(lia)) as (A1 & A2 & A3).
  fold (to_waypoint ws p) in A1, A2, A3. set (w := to_waypoint ws p) in *.
  assert (W : exists k, w = S k /\ (S k < length ws)%nat) by (exists (w - 1)%nat; lia). destruct W as (k & EW & K). rewrite EW in *. clear A1 EW w.
  destruct (closest_spec (nth k ws origin) (nth (S k) ws origin) p (LEG k K)) as (a & t & CP & T & B1 & B2 & _ & MIN).
  exists k, a, t. split; [reflexivity|]. split; [exact K|]. split; [exact T|]. split; [exact B1|]. split; [exact CP|].
  assert (WPL : forall j s, (S j < length ws)%nat -> way_place (map plc ws) j s = along (plc (nth j ws origin)) (plc (nth (S j) ws origin)) s).
  { intros j s J. unfold way_place. rewrite !nth_plc by lia. reflexivity. }
  assert (CD : forall j, (S j < length ws)%nat ->
    (forall s, 0 <= s <= 1 -> code_dist ws p (S j) <= away (plc p) (way_place (map plc ws) j s)) /\
    exists s, 0 <= s <= 1 /\ away (plc p) (way_place (map plc ws) j s) <= code_dist ws p (S j) + / 10 ^ 10).
  { intros j J. unfold code_dist, closest_dist. destruct (Nat.eqb (S j) 1) eqn:E.
    - apply Nat.eqb_eq in E. assert (j = 0%nat) as -> by lia. rewrite plen_away.
      destruct (closest_spec (nth 0 ws origin) (nth 1 ws origin) p (LEG 0%nat J)) as (a1 & t1 & C1 & T1 & D1 & D2 & _ & M1). rewrite C1.
      split; [intros s S0; rewrite WPL by exact J; apply M1, S0|]. exists t1. split; [exact T1|]. rewrite WPL by exact J.
      eapply Rle_trans; [apply (away_triangle _ (along (plc (nth 0 ws origin)) (plc (nth 1 ws origin)) a1))|]. apply Rplus_le_compat_l.
      rewrite away_slide, Rabs_minus_sym. exact D2.
    - replace (S j - 1)%nat with j by lia. rewrite plen_away.
      assert (LB : 1 <= away (plc (nth (S j) ws origin)) (plc (nth j ws origin))) by (rewrite away_sym; apply (LEG j J)).
      destruct (closest_spec (nth (S j) ws origin) (nth j ws origin) p LB) as (a1 & t1 & C1 & T1 & D1 & D2 & _ & M1). rewrite C1.
      assert (FLIP : forall s, along (plc (nth j ws origin)) (plc (nth (S j) ws origin)) s = along (plc (nth (S j) ws origin)) (plc (nth j ws origin)) (1 - s)).
      { intros s. unfold along, plc. cbn [fst snd]. f_equal; ring. }
      split; [intros s S0; rewrite WPL, FLIP by exact J; apply M1; lra|]. exists (1 - t1). split; [lra|]. rewrite WPL, FLIP by exact J.
      replace (1 - (1 - t1)) with t1 by ring.
      eapply Rle_trans; [apply (away_triangle _ (along (plc (nth (S j) ws origin)) (plc (nth j ws origin)) a1))|]. apply Rplus_le_compat_l.
      rewrite away_slide, Rabs_minus_sym. exact D2. }
  split; [rewrite map_length; exact K|]. split; [exact T|]. rewrite map_length. intros j s J S0.
  assert (LEAST : code_dist ws p (S k) <= code_dist ws p (S j)).
  { destruct j as [|j]; [exact A2|]. apply A3. lia. }
  destruct (CD j J) as (CJ & _). specialize (CJ s S0). destruct (CD k K) as (_ & s1 & S1 & CK).
  assert (AT : away (plc p) (way_place (map plc ws) k t) <= away (plc p) (way_place (map plc ws) k s1) + / 10 ^ 10).
  { rewrite !WPL by exact K. eapply Rle_trans; [apply (away_triangle _ (along (plc (nth k ws origin)) (plc (nth (S k) ws origin)) a))|].
    apply Rplus_le_compat; [apply MIN, S1|]. rewrite away_slide, Rabs_minus_sym. exact B2. }
  lra.
Qed.

(** The point that the sensor is pointed to is on the line.  The part of the line behind it is the part of the way behind the place of the way
    that is nearest to the vehicle; it can be short of that by a few millionths of the line, or too long by a ten-thousandth of that. *)
Theorem C94_stare (ws rs : list point) (p : point) :
  (2 <= length ws)%nat -> (forall k, (S k < length ws)%nat -> 1 <= away (plc (nth k ws origin)) (plc (nth (S k) ws origin))) ->
  (2 <= length rs)%nat -> 0 < way (map plc rs) ->
  exists k t s,
    nearest (map plc ws) (plc p) (2 / 10 ^ 10) k t /\
    flown (map plc ws) k t * way (map plc rs) - 2 / 10 ^ 6 * (1 + way (map plc rs)) <= s /\
    s <= flown (map plc ws) k t * way (map plc rs) + way (map plc rs) / 10 ^ 10 /\
    on_line (map sp rs) s (sp (stare_point ws rs p)).
Proof.
  intros LW LEG LR LEN. pose proof (small_pos 6) as SP. pose proof (small_pos 10) as SP10.
  pose proof (map_spec ws rs LW LEG LR LEN) as MS. cbv zeta in MS. unfold stare_point. destruct (road_map ws rs) as [road' ids].
  destruct MS as (H1 & H2 & H3 & H4 & H5 & H6). rewrite total_way.
  destruct (leg_spec ws p LW LEG) as (k & a & t & EW & K & T & B1 & CP & NEAR).
  set (len := way (map plc rs)) in *. set (wl := way (map plc ws)) in *. set (sh := shares len road').
  assert (SH : forall i, (i < length road')%nat -> nth i sh 0 = arc road' i / len) by (intros i I; apply shares_spec; auto).
  assert (SL : length sh = length road') by (unfold sh, shares; cbn [length]; rewrite shares_from_length by exact H3; lia).
  assert (WP : 0 < wl).
  { unfold wl. rewrite <- arc_last by lia. pose proof (arc_mono ws 1 (length ws - 1) ltac:(lia) ltac:(lia)) as M. rewrite arc_S, arc_0 in M by lia.
    pose proof (LEG 0%nat ltac:(lia)) as L0. fold (leg ws 0) in L0. lra. }
  assert (FE : flown (map plc ws) k t * len = arc ws k / wl * len + t * (arc ws (S k) / wl * len - arc ws k / wl * len)).
  { unfold flown. fold wl. rewrite <- arc_way by exact K. rewrite !nth_plc by lia. rewrite arc_S by exact K. fold (leg ws k). field. lra. }
  set (f := nth k ids 0%nat) in *. set (g := nth (S k) ids 0%nat) in *.
  destruct (H5 k ltac:(lia)) as (F1 & F2). destruct (H5 (S k) ltac:(lia)) as (G1 & G2). fold f in F1, F2. fold g in G1, G2.
  pose proof (H6 k K) as FG. fold f g in FG.
  assert (XE : road_location ws road' ids sh p = walk road' sh (Rabs a * (arc road' g - arc road' f)) f (g - f)).
  { unfold road_location. rewrite EW. replace (S k - 1)%nat with k by lia. fold f g. rewrite !plen_away. fold (leg ws k).
    pose proof (LEG k K) as LK. fold (leg ws k) in LK. destruct (Rlt_dec _ _) as [_|B]; [|lra].
    rewrite CP, away_scale. fold (leg ws k). replace (Rabs a * leg ws k / leg ws k) with (Rabs a) by (field; lra).
    replace (Nat.eqb f g) with false by (symmetry; apply Nat.eqb_neq; lia). rewrite stretch_arc by lia. replace (f + (g - f))%nat with g by lia. reflexivity. }
  set (x := road_location ws road' ids sh p) in *.
  assert (SPAN : 0 <= arc road' g - arc road' f <= len).
  { pose proof (arc_mono road' f g ltac:(lia) G1). pose proof (arc_mono road' 0 f ltac:(lia) F1) as Z. rewrite arc_0 in Z.
    pose proof (arc_mono road' g (length road' - 1) ltac:(lia) ltac:(lia)) as Y. rewrite arc_last, H2 in Y by lia. lra. }
  assert (AB : Rabs (Rabs a - t) <= / 10 ^ 10).
  { rewrite <- (Rabs_pos_eq t) by lra. eapply Rle_trans; [apply Rabs_triang_inv2|exact B1]. }
  assert (AB2 : - / 10 ^ 10 <= Rabs a - t <= / 10 ^ 10) by (revert AB; unfold Rabs at 1; destruct (Rcase_abs _); lra).
  assert (XL : 0 <= Rabs a * (arc road' g - arc road' f)) by (apply Rmult_le_pos; [apply Rabs_pos|lra]).
  destruct (walk_spec len road' sh LEN SH (g - f) _ f ltac:(lia) XL) as (W1 & W2 & W3). rewrite <- XE in W1, W2, W3.
  replace (f + (g - f))%nat with g in W2, W3 by lia.
  set (af := arc road' f) in *. set (ag := arc road' g) in *. set (tf := arc ws k / wl * len) in *. set (tg := arc ws (S k) / wl * len) in *.
  assert (COV : t * (ag - af) - len / 10 ^ 10 <= Rabs a * (ag - af) <= t * (ag - af) + len / 10 ^ 10).
  { unfold Rdiv. assert (/ 10 ^ 10 * (ag - af) <= len * / 10 ^ 10) by (rewrite (Rmult_comm len); apply Rmult_le_compat_l; lra).
    assert ((t - / 10 ^ 10) * (ag - af) <= Rabs a * (ag - af)) by (apply Rmult_le_compat_r; lra).
    assert (Rabs a * (ag - af) <= (t + / 10 ^ 10) * (ag - af)) by (apply Rmult_le_compat_r; lra). lra. }
  set (m := / 10 ^ 6) in *.
  assert (MIX : flown (map plc ws) k t * len - m <= af + t * (ag - af) <= flown (map plc ws) k t * len).
  { rewrite FE. replace (af + t * (ag - af)) with ((1 - t) * af + t * ag) by ring.
    replace (tf + t * (tg - tf)) with ((1 - t) * tf + t * tg) by ring.
    assert ((1 - t) * (tf - m) <= (1 - t) * af) by (apply Rmult_le_compat_l; lra). assert ((1 - t) * af <= (1 - t) * tf) by (apply Rmult_le_compat_l; lra).
    assert (t * (tg - m) <= t * ag) by (apply Rmult_le_compat_l; lra). assert (t * ag <= t * tg) by (apply Rmult_le_compat_l; lra). lra. }
  assert (UNDER : af + t * (ag - af) <= ag) by (assert (t * (ag - af) <= 1 * (ag - af)) by (apply Rmult_le_compat_r; lra); lra).
  assert (TEN : 0 <= len / 10 ^ 10 <= len * m).
  { unfold Rdiv. split; [apply Rmult_le_pos; lra|]. apply Rmult_le_compat_l; [lra|]. unfold m. lra. }
  assert (XB : flown (map plc ws) k t * len - 2 * m - len / 10 ^ 10 <= x * len <= flown (map plc ws) k t * len + len / 10 ^ 10) by (split; [destruct W3; lra|lra]).
  replace (2 / 10 ^ 6) with (2 * m) by reflexivity.
  assert (X0 : 0 <= x * len <= len).
  { assert (0 <= af) by (unfold af; rewrite <- (arc_0 road'); apply arc_mono; lia).
    assert (ag <= len) by (rewrite <- H2, <- arc_last by lia; apply arc_mono; lia). lra. }
  assert (X1 : 0 <= x <= 1).
  { split; [apply Rmult_le_reg_r with len; lra|]. apply Rmult_le_reg_r with len; lra. }
  exists k, t. destruct (Req_EM_T x 1) as [E1|E1]; [|destruct (Req_EM_T x 0) as [E0|E0]].
  - exists len. split; [exact NEAR|]. rewrite E1, Rmult_1_l in XB. split; [lra|]. split; [lra|]. apply H1.
    replace len with (arc road' (length road' - 1)) by (rewrite arc_last by lia; exact H2). apply on_point; lia.
  - exists 0. split; [exact NEAR|]. rewrite E0, Rmult_0_l in XB. split; [lra|]. split; [lra|]. apply H1.
    replace 0 with (arc road' 0) by apply arc_0. apply on_point; lia.
  - destruct (road_point_spec len road' sh x) as (s & S0 & ON); auto; [lra|]. exists s. split; [exact NEAR|]. fold m in S0.
    unfold Rdiv in S0 at 1. fold m in S0. split; [lra|]. split; [lra|]. apply H1, ON.
Qed.

(** *** A small move of the vehicle *)

Definition flat_point (x y : R) : point := {| px := x; py := y; pz := 0; fixed := false |}.

(** A line that comes back twenty metres beside itself; a vehicle that looks straight down flies above it. *)
Definition hairpin : list point := [flat_point 0 0; flat_point 1000 0; flat_point 1000 20; flat_point 0 20].

Lemma sqrt_sq_le x y : 0 <= y -> sqrt x <= y -> 0 <= x -> x <= y * y.
Proof. intros Y H X. rewrite <- (sqrt_sqrt x X). apply Rmult_le_compat; auto; apply sqrt_pos. Qed.

Lemma hairpin_legs : away (0, 0) (1000, 0) = 1000 /\ away (1000, 0) (1000, 20) = 20 /\ away (1000, 20) (0, 20) = 1000.
Proof.
  unfold away. cbn [fst snd]. split; [|split].
  - replace ((1000 - 0) ^ 2 + (0 - 0) ^ 2) with (1000 * 1000) by ring. apply sqrt_square. lra.
  - replace ((1000 - 1000) ^ 2 + (20 - 0) ^ 2) with (20 * 20) by ring. apply sqrt_square. lra.
  - replace ((0 - 1000) ^ 2 + (20 - 20) ^ 2) with (1000 * 1000) by ring. apply sqrt_square. lra.
Qed.

Lemma hairpin_way : way (map plc hairpin) = 2020.
Proof. destruct hairpin_legs as (A & B & C). unfold hairpin. cbn [map way plc flat_point px py]. unfold plc. cbn [flat_point px py]. rewrite A, B, C. lra. Qed.

Lemma hairpin_fit : (2 <= length hairpin)%nat /\
  (forall k, (S k < length hairpin)%nat -> 1 <= away (plc (nth k hairpin origin)) (plc (nth (S k) hairpin origin))) /\ 0 < way (map plc hairpin).
Proof.
  destruct hairpin_legs as (A & B & C). split; [cbn; lia|]. split; [|rewrite hairpin_way; lra]. intros k K. cbn in K.
  destruct k as [|[|[|k]]]; [| | |lia]; cbn [nth hairpin]; unfold plc; cbn [flat_point px py]; lra.
Qed.

(** The place looked at can be at the other end of the line after a move of two centimetres. *)
Theorem C94_jump_refuted : exists (ws rs : list point) (p q : point) (s1 s2 : R),
  (forall k, (S k < length ws)%nat -> 1 <= away (plc (nth k ws origin)) (plc (nth (S k) ws origin))) /\
  away (plc p) (plc q) <= 2 / 100 /\ way (map plc rs) = 2020 /\
  on_line (map sp rs) s1 (sp (stare_point ws rs p)) /\ on_line (map sp rs) s2 (sp (stare_point ws rs q)) /\ s1 <= 2 /\ 2018 <= s2.
Proof.
  destruct hairpin_legs as (A & B & C). destruct hairpin_fit as (F1 & F2 & F3).
  set (p := flat_point 0 (9 + 99 / 100)). set (q := flat_point 0 (10 + 1 / 100)).
  destruct (C94_stare hairpin hairpin p F1 F2 F1 F3) as (k1 & t1 & s1 & (K1 & T1 & N1) & _ & U1 & O1).
  destruct (C94_stare hairpin hairpin q F1 F2 F1 F3) as (k2 & t2 & s2 & (K2 & T2 & N2) & L2 & _ & O2).
  exists hairpin, hairpin, p, q, s1, s2. split; [exact F2|]. rewrite hairpin_way in *.
  split; [|split; [reflexivity|split; [exact O1|split; [exact O2|]]]].
  - unfold p, q, plc, away, flat_point. cbn [fst snd px py].
    replace ((0 - 0) ^ 2 + (10 + 1 / 100 - (9 + 99 / 100)) ^ 2) with (2 / 100 * (2 / 100)) by field. rewrite sqrt_square by lra. lra.
  - assert (WP : forall k t, way_place (map plc hairpin) k t = match k with 0%nat => (1000 * t, 0) | 1%nat => (1000, 20 * t) | 2%nat => (1000 - 1000 * t, 20)
       | _ => way_place (map plc hairpin) k t end).
    { intros [|[|[|k]]] t; [| | |reflexivity]; unfold way_place, along, hairpin; cbn [map nth]; unfold plc; cbn [flat_point px py fst snd]; f_equal; ring. }
    assert (FL : forall k t, flown (map plc hairpin) k t * 2020 = match k with 0%nat => 1000 * t | 1%nat => 1000 + 20 * t | 2%nat => 1020 + 1000 * t
       | _ => flown (map plc hairpin) k t * 2020 end).
    { intros [|[|[|k]]] t; [| | |reflexivity]; unfold flown; rewrite hairpin_way; unfold hairpin; cbn [map nth firstn way]; unfold plc; cbn [flat_point px py];
        rewrite ?A, ?B, ?C; field. }
    split.
    + specialize (N1 0%nat 0 ltac:(cbn; lia) ltac:(lra)). rewrite (WP 0%nat) in N1. rewrite Rmult_0_r in N1.
      replace (away (plc p) (0, 0)) with (9 + 99 / 100) in N1
        by (unfold away, p, plc, flat_point; cbn [fst snd px py]; replace ((0 - 0) ^ 2 + (0 - (9 + 99 / 100)) ^ 2) with ((9 + 99 / 100) * (9 + 99 / 100)) by ring;
            rewrite sqrt_square; lra).
      unfold away in N1. apply sqrt_sq_le in N1; [|lra|apply Rplus_le_le_0_compat; apply pow2_ge_0].
      rewrite WP in N1. rewrite FL in U1. cbn [map length hairpin] in K1. destruct k1 as [|[|[|k]]]; [| | |lia]; unfold p, plc, flat_point in N1; cbn [fst snd px py] in N1.
      * assert (t1 <= / 1000); [|lra]. destruct (Rle_dec t1 (/ 1000)); [auto|]. exfalso. nra.
      * exfalso. pose proof (pow2_ge_0 (20 * t1 - (9 + 99 / 100))). lra.
      * exfalso. pose proof (pow2_ge_0 (1000 - 1000 * t1 - 0)). lra.
    + specialize (N2 2%nat 1 ltac:(cbn; lia) ltac:(lra)). rewrite (WP 2%nat) in N2. replace (1000 - 1000 * 1) with 0 in N2 by ring.
      replace (away (plc q) (0, 20)) with (9 + 99 / 100) in N2
        by (unfold away, q, plc, flat_point; cbn [fst snd px py]; replace ((0 - 0) ^ 2 + (20 - (10 + 1 / 100)) ^ 2) with ((9 + 99 / 100) * (9 + 99 / 100)) by field;
            rewrite sqrt_square; lra).
      unfold away in N2. apply sqrt_sq_le in N2; [|lra|apply Rplus_le_le_0_compat; apply pow2_ge_0].
      rewrite WP in N2. rewrite FL in L2. cbn [map length hairpin] in K2. destruct k2 as [|[|[|k]]]; [| | |lia]; unfold q, plc, flat_point in N2; cbn [fst snd px py] in N2.
      * exfalso. pose proof (pow2_ge_0 (1000 * t2 - 0)). lra.
      * exfalso. pose proof (pow2_ge_0 (20 * t2 - (10 + 1 / 100))). lra.
      * assert (1 - / 1000 <= t2); [|lra]. destruct (Rle_dec (1 - / 1000) t2); [auto|]. exfalso. nra.
Qed.

(** A vehicle above the middle of the way of a straight line looks at the middle of the line. *)
Example C94_case :
  let ws := [flat_point 0 300; flat_point 2000 300] in let rs := [flat_point 0 0; flat_point 500 0; flat_point 1000 0] in
  exists s, 499 <= s <= 501 /\ on_line (map sp rs) s (sp (stare_point ws rs (flat_point 1000 310))).
Proof.
  intros ws rs.
  assert (W : away (0, 300) (2000, 300) = 2000).
  { unfold away. cbn [fst snd]. replace ((2000 - 0) ^ 2 + (300 - 300) ^ 2) with (2000 * 2000) by ring. apply sqrt_square. lra. }
  assert (R1 : away (0, 0) (500, 0) = 500).
  { unfold away. cbn [fst snd]. replace ((500 - 0) ^ 2 + (0 - 0) ^ 2) with (500 * 500) by ring. apply sqrt_square. lra. }
  assert (R2 : away (500, 0) (1000, 0) = 500).
  { unfold away. cbn [fst snd]. replace ((1000 - 500) ^ 2 + (0 - 0) ^ 2) with (500 * 500) by ring. apply sqrt_square. lra. }
  assert (LEN : way (map plc rs) = 1000).
  { unfold rs. cbn [map way]. unfold plc. cbn [flat_point px py]. rewrite R1, R2. lra. }
  destruct (C94_stare ws rs (flat_point 1000 310)) as (k & t & s & (K & T & N) & L & U & ON).
  { cbn. lia. }
  { intros k K. cbn in K. destruct k as [|k]; [|lia]. unfold ws. cbn [nth]. unfold plc. cbn [flat_point px py]. lra. }
  { cbn. lia. }
  { lra. }
  exists s. split; [|exact ON]. cbn in K. destruct k as [|k]; [|lia]. rewrite LEN in *.
  assert (FL : flown (map plc ws) 0 t = t).
  { unfold flown, ws. cbn [map nth firstn way]. unfold plc. cbn [flat_point px py]. rewrite W. field. }
  rewrite FL in *. specialize (N 0%nat (/ 2) ltac:(cbn; lia) ltac:(lra)).
  assert (WP : forall t, way_place (map plc ws) 0 t = (2000 * t, 300)).
  { intros t0. unfold way_place, along, ws. cbn [map nth]. unfold plc. cbn [flat_point px py fst snd]. f_equal; ring. }
  rewrite !WP in N. replace (away (plc (flat_point 1000 310)) (2000 * / 2, 300)) with 10 in N
    by (unfold away, plc, flat_point; cbn [fst snd px py]; replace ((2000 * / 2 - 1000) ^ 2 + (300 - 310) ^ 2) with (10 * 10) by field; rewrite sqrt_square; lra).
  unfold away in N. apply sqrt_sq_le in N; [|lra|apply Rplus_le_le_0_compat; apply pow2_ge_0]. unfold plc, flat_point in N. cbn [fst snd px py] in N.
  assert (/ 2 - / 10000 <= t <= / 2 + / 10000); [|lra].
  split; [destruct (Rle_dec (/ 2 - / 10000) t)|destruct (Rle_dec t (/ 2 + / 10000))]; auto; exfalso; nra.
Qed.

Print Assumptions C94_stare.
Print Assumptions C94_jump_refuted.

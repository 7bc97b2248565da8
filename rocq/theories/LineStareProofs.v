(** The road with new points, shares of it, and the nearest place of the way. *)
From Coq Require Import Reals List ZArith Bool Lia Lra Psatz.
From Verif Require Import LinePlanModel LinePlanSpec LinePlanGeom LinePlanProofs LineOffsetModel LineOffsetSpec LineOffsetProofs LineOffsetProps LineOffsetWayProps
  LineStareModel LineStareSpec.
Import ListNotations.
Open Scope R_scope.

Definition sp (p : point) : spot := (plc p, pz p).

(** The length of the line up to the point [i]. *)
Definition arc (l : list point) (i : nat) : R := way (firstn (S i) (map plc l)).

Definition leg (l : list point) (i : nat) : R := away (plc (nth i l origin)) (plc (nth (S i) l origin)).

Lemma leg_pos l i : 0 <= leg l i. Proof. apply sqrt_pos. Qed.

Lemma arc_0 l : arc l 0 = 0.
Proof. destruct l; reflexivity. Qed.

Lemma arc_cons a b l i : arc (a :: b :: l) (S i) = away (plc a) (plc b) + arc (b :: l) i.
Proof. unfold arc. cbn [map]. reflexivity. Qed.

Lemma arc_S : forall i l, (S i < length l)%nat -> arc l (S i) = arc l i + leg l i.
Proof.
  induction i as [|i IH]; intros l L; destruct l as [|a [|b l]]; cbn [length] in L; try lia.
  - rewrite arc_cons, !arc_0. unfold leg. cbn [nth]. ring.
  - rewrite !arc_cons, IH by (cbn [length]; lia). unfold leg. cbn [nth]. ring.
Qed.

Lemma arc_last l : (1 <= length l)%nat -> arc l (length l - 1) = way (map plc l).
Proof. intros L. unfold arc. f_equal. apply firstn_all2. rewrite map_length. lia. Qed.

Lemma arc_mono l i j : (i <= j)%nat -> (j < length l)%nat -> arc l i <= arc l j.
Proof. intros I J. induction I as [|j I IH]; [lra|]. rewrite arc_S by exact J. pose proof (leg_pos l j). specialize (IH ltac:(lia)). lra. Qed.

Lemma arc_app l1 l2 i : (i < length l1)%nat -> arc (l1 ++ l2) i = arc l1 i.
Proof.
  intros I. unfold arc. f_equal. rewrite map_app, firstn_app, map_length. replace (S i - length l1)%nat with 0%nat by lia.
  cbn [firstn]. apply app_nil_r.
Qed.

Lemma on_leg : forall i l t, (S i < length l)%nat -> 0 <= t <= 1 ->
  on_line (map sp l) (arc l i + t * leg l i) (between (sp (nth i l origin)) (sp (nth (S i) l origin)) t).
Proof.
  induction i as [|i IH]; intros l t L T; destruct l as [|a [|b l]]; cbn [length] in L; try lia.
  - rewrite arc_0, Rplus_0_l. cbn [map nth]. unfold leg. cbn [nth]. apply (on_here (sp a) (sp b)). exact T.
  - rewrite arc_cons. unfold leg. cbn [map nth]. rewrite Rplus_assoc. apply (on_later (sp a) (sp b)). apply (IH (b :: l) t); [cbn; lia|exact T].
Qed.

Lemma on_point l i : (2 <= length l)%nat -> (i < length l)%nat -> on_line (map sp l) (arc l i) (sp (nth i l origin)).
Proof.
  intros L I. destruct (Nat.eq_dec (S i) (length l)) as [E|E].
  - destruct i as [|i]; [lia|]. rewrite arc_S by lia. pose proof (on_leg i l 1 ltac:(lia) ltac:(lra)) as H. rewrite Rmult_1_l in H.
    replace (between (sp (nth i l origin)) (sp (nth (S i) l origin)) 1) with (sp (nth (S i) l origin)) in H; [exact H|].
    unfold between, along, sp, plc. cbn [fst snd]. f_equal; [f_equal|]; ring.
  - pose proof (on_leg i l 0 ltac:(lia) ltac:(lra)) as H. rewrite Rmult_0_l, Rplus_0_r in H.
    replace (between (sp (nth i l origin)) (sp (nth (S i) l origin)) 0) with (sp (nth i l origin)) in H; [exact H|].
    unfold between, along, sp, plc. cbn [fst snd]. f_equal; [f_equal|]; ring.
Qed.

(** *** New points *)

Lemma away_along a b t : 0 <= t -> away a (along a b t) = t * away a b.
Proof.
  intros T. unfold away, along. cbn [fst snd].
  replace ((fst a + t * (fst b - fst a) - fst a) ^ 2 + (snd a + t * (snd b - snd a) - snd a) ^ 2)
    with ((t * t) * ((fst b - fst a) ^ 2 + (snd b - snd a) ^ 2)) by ring.
  rewrite sqrt_mult_alt by (apply Rmult_le_pos; exact T). rewrite sqrt_square by exact T. reflexivity.
Qed.

Lemma away_rest a b t : t <= 1 -> away (along a b t) b = (1 - t) * away a b.
Proof.
  intros T. unfold away, along. cbn [fst snd].
  replace ((fst b - (fst a + t * (fst b - fst a))) ^ 2 + (snd b - (snd a + t * (snd b - snd a))) ^ 2)
    with (((1 - t) * (1 - t)) * ((fst b - fst a) ^ 2 + (snd b - snd a) ^ 2)) by ring.
  rewrite sqrt_mult_alt by (apply Rmult_le_pos; lra). rewrite sqrt_square by lra. reflexivity.
Qed.

Lemma line_refine a b l2 t0 : 0 <= t0 <= 1 -> forall l1 s q,
  on_line (l1 ++ a :: between a b t0 :: b :: l2) s q -> on_line (l1 ++ a :: b :: l2) s q.
Proof.
  intros T. induction l1 as [|h l1 IH]; intros s q H; cbn [app] in *.
  - inversion H as [? ? ? t T1|? ? ? s1 ? H1]; subst.
    + unfold between at 1. cbn [fst]. rewrite away_along by lra.
      replace (between a (between a b t0) t) with (between a b (t * t0)) by (unfold between, along; cbn [fst snd]; f_equal; [f_equal|]; ring).
      replace (t * (t0 * away (fst a) (fst b))) with (t * t0 * away (fst a) (fst b)) by ring. apply on_here. split; [apply Rmult_le_pos; lra|].
      rewrite <- (Rmult_1_r 1). apply Rmult_le_compat; lra.
    + unfold between at 1. cbn [fst]. rewrite away_along by lra. inversion H1 as [? ? ? t T1|? ? ? s2 ? H2]; subst.
      * unfold between at 1. cbn [fst]. rewrite away_rest by lra.
        replace (between (between a b t0) b t) with (between a b (t0 + t * (1 - t0))) by (unfold between, along; cbn [fst snd]; f_equal; [f_equal|]; ring).
        replace (t0 * away (fst a) (fst b) + t * ((1 - t0) * away (fst a) (fst b))) with ((t0 + t * (1 - t0)) * away (fst a) (fst b)) by ring.
        apply on_here. assert (0 <= t * (1 - t0) <= 1 - t0); [|lra]. split; [apply Rmult_le_pos; lra|]. rewrite <- (Rmult_1_l (1 - t0)) at 2.
        apply Rmult_le_compat_r; lra.
      * unfold between at 1. cbn [fst]. rewrite away_rest by lra.
        replace (t0 * away (fst a) (fst b) + ((1 - t0) * away (fst a) (fst b) + s2)) with (away (fst a) (fst b) + s2) by ring. apply on_later, H2.
  - destruct l1 as [|g l1]; cbn [app] in *; inversion H as [? ? ? t T1|? ? ? s1 ? H1]; subst.
    + apply on_here. exact T1.
    + apply on_later. apply (IH s1 q). exact H1.
    + apply on_here. exact T1.
    + apply on_later. apply (IH s1 q). exact H1.
Qed.

Lemma way_refine a b l2 t0 : 0 <= t0 <= 1 -> forall l1, way (l1 ++ a :: along a b t0 :: b :: l2) = way (l1 ++ a :: b :: l2).
Proof.
  intros T. induction l1 as [|h l1 IH]; cbn [app].
  - cbn [way]. rewrite away_along, away_rest by lra. ring.
  - destruct l1 as [|g l1]; cbn [app] in *.
    + change (way (h :: a :: along a b t0 :: b :: l2)) with (away h a + way (a :: along a b t0 :: b :: l2)).
      change (way (h :: a :: b :: l2)) with (away h a + way (a :: b :: l2)). rewrite IH. reflexivity.
    + change (way (h :: g :: l1 ++ a :: along a b t0 :: b :: l2)) with (away h g + way (g :: l1 ++ a :: along a b t0 :: b :: l2)).
      change (way (h :: g :: l1 ++ a :: b :: l2)) with (away h g + way (g :: l1 ++ a :: b :: l2)). rewrite IH. reflexivity.
Qed.

(** Where a new point goes: behind the point [k - n] of the road. *)
Lemma find_spec : forall road n covered target k p, (2 <= length road)%nat -> covered <= target <= covered + way (map plc road) ->
  find_place road n covered target = (k, p) ->
  exists j t0, k = (n + j)%nat /\ (S j < length road)%nat /\ 0 <= t0 <= 1 /\
    sp p = between (sp (nth j road origin)) (sp (nth (S j) road origin)) t0 /\
    target - / 10 ^ 6 <= covered + arc road j + t0 * leg road j <= target /\ target <= covered + arc road (S j).
Proof.
  induction road as [|a road IH]; intros n covered target k p L T F; [cbn in L; lia|]. destruct road as [|b r]; [cbn in L; lia|].
  pose proof (small_pos 6) as SP. cbn [find_place] in F. rewrite plen_away in F. fold (leg (a :: b :: r) 0) in F.
  assert (LE : leg (a :: b :: r) 0 = away (plc a) (plc b)) by reflexivity. pose proof (leg_pos (a :: b :: r) 0) as LP.
  destruct (Rle_dec _ _) as [Y|Y].
  - injection F as <- <-. exists 0%nat. rewrite arc_0, arc_cons, arc_0. destruct (Rlt_dec _ _) as [B|B].
    + exists ((target - covered) / away (plc a) (plc b)). rewrite <- LE in *. assert (D : 0 < leg (a :: b :: r) 0) by lra.
      split; [lia|]. split; [cbn; lia|]. split.
      * split; [apply Rmult_le_pos; [lra|apply Rlt_le, Rinv_0_lt_compat, D]|]. apply Rmult_le_reg_r with (leg (a :: b :: r) 0); auto.
        unfold Rdiv. rewrite Rmult_assoc, Rinv_l by lra. lra.
      * split; [cbn [nth]; unfold between, along, sp, plc, padd, pscale, psub; cbn [fst snd px py pz]; f_equal; [f_equal|]; ring|].
        replace ((target - covered) / leg (a :: b :: r) 0 * leg (a :: b :: r) 0) with (target - covered) by (field; lra). lra.
    + exists 0. split; [lia|]. split; [cbn; lia|]. split; [lra|].
      split; [cbn [nth]; unfold between, along, sp, plc; cbn [fst snd]; f_equal; [f_equal|]; ring|]. lra.
  - change (way (map plc (a :: b :: r))) with (away (plc a) (plc b) + way (map plc (b :: r))) in T. rewrite <- LE in *.
    destruct r as [|c r]; [cbn in T; lra|].
    destruct (IH (S n) (covered + leg (a :: b :: c :: r) 0) target k p) as (j & t0 & -> & J & T0 & P & A & B); [cbn; lia|lra|exact F|].
    exists (S j), t0. split; [lia|]. split; [cbn [length] in *; lia|]. split; [exact T0|]. split; [exact P|].
    rewrite (arc_cons a b (c :: r) j), (arc_cons a b (c :: r) (S j)), <- LE.
    change (leg (a :: b :: c :: r) (S j)) with (leg (b :: c :: r) j). lra.
Qed.

Lemma insert_split road n j t0 p : n = S j -> (S j < length road)%nat -> 0 <= t0 <= 1 ->
  sp p = between (sp (nth j road origin)) (sp (nth (S j) road origin)) t0 ->
  let road1 := insert_at n p road in
  (forall s q, on_line (map sp road1) s q -> on_line (map sp road) s q) /\
  way (map plc road1) = way (map plc road) /\ length road1 = S (length road) /\
  (forall i, (i <= j)%nat -> arc road1 i = arc road i /\ nth i road1 origin = nth i road origin) /\
  nth n road1 origin = p /\ arc road1 n = arc road j + t0 * leg road j.
Proof.
  intros -> J T P. cbv zeta. destruct (nth_split road origin (n := j)) as (l1 & r & Q & LI); [lia|]. unfold leg.
  set (a := nth j road origin) in *. clearbody a. destruct r as [|b l2]; [rewrite Q, app_length in J; cbn in J; lia|].
  assert (NB : nth (S j) road origin = b). { rewrite Q, app_nth2 by lia. replace (S j - length l1)%nat with 1%nat by lia. reflexivity. }
  rewrite NB in *. clear NB.
  assert (E : insert_at (S j) p road = l1 ++ a :: p :: b :: l2).
  { unfold insert_at. rewrite Q. replace (l1 ++ a :: b :: l2) with ((l1 ++ [a]) ++ b :: l2) by (rewrite <- app_assoc; reflexivity).
    replace (S j) with (length (l1 ++ [a])) by (rewrite app_length, LI; cbn; lia).
    rewrite firstn_app, skipn_app, Nat.sub_diag, firstn_all, skipn_all. cbn [firstn skipn]. rewrite app_nil_r, <- app_assoc. reflexivity. }
  assert (PP : plc p = along (plc a) (plc b) t0) by exact (f_equal fst P).
  rewrite E. clear E. assert (W : forall x y, (l1 ++ a :: x :: y) = (l1 ++ [a]) ++ x :: y) by (intros; rewrite <- app_assoc; reflexivity).
  assert (LA : length (l1 ++ [a]) = S j) by (rewrite app_length, LI; cbn; lia).
  split; [|split; [|split; [|split; [|split]]]].
  - intros s q. rewrite Q, !map_app. cbn [map]. rewrite P. apply line_refine, T.
  - rewrite Q, !map_app. cbn [map]. rewrite PP. apply way_refine, T.
  - rewrite Q, !app_length. cbn [length]. lia.
  - intros i I. rewrite Q, !W. split; [rewrite !(arc_app (l1 ++ [a])) by lia; reflexivity|]. rewrite !(app_nth1 (l1 ++ [a])) by lia. reflexivity.
  - rewrite W, app_nth2 by lia. rewrite LA, Nat.sub_diag. reflexivity.
  - rewrite arc_S by (rewrite app_length; cbn [length]; lia). unfold leg. rewrite Q, !W. rewrite !(arc_app (l1 ++ [a])) by lia.
    rewrite (app_nth1 (l1 ++ [a])) by lia. rewrite (app_nth2 (l1 ++ [a]) _ _ (n := S j)) by lia. rewrite LA, Nat.sub_diag. cbn [nth].
    rewrite app_nth2 by lia. replace (j - length l1)%nat with 0%nat by lia. cbn [nth]. rewrite PP, away_along by lra. ring.
Qed.

(** All the new points. *)
Lemma add_spec len : forall ts road prev road' ids, (2 <= length road)%nat -> way (map plc road) = len -> 0 <= prev ->
  (forall j, (j < length ts)%nat -> (match j with O => prev | S i => nth i ts 0 * len end) < nth j ts 0 * len <= len) ->
  add_points len road ts = (road', ids) ->
  (forall s q, on_line (map sp road') s q -> on_line (map sp road) s q) /\ way (map plc road') = len /\ (length road <= length road')%nat /\
  length ids = length ts /\
  (forall i, (i < length road)%nat -> arc road i <= prev -> arc road' i = arc road i /\ nth i road' origin = nth i road origin) /\
  (forall j, (j < length ts)%nat -> (nth j ids 0%nat < length road' - 1)%nat /\
     nth j ts 0 * len - / 10 ^ 6 <= arc road' (nth j ids 0%nat) <= nth j ts 0 * len /\
     ((S j < length ts)%nat -> (nth j ids 0%nat < nth (S j) ids 0%nat)%nat) /\
     (forall i, (i < length road)%nat -> arc road i <= prev -> (i < nth j ids 0%nat)%nat)).
Proof.
  induction ts as [|t ts IH]; intros road prev road' ids L W P0 T A; cbn [add_points] in A.
  - injection A as <- <-. split; [auto|]. split; [exact W|]. split; [lia|]. split; [reflexivity|]. split; [auto|]. intros j J. cbn in J. lia.
  - destruct (find_place road 1 0 (t * len)) as [n p] eqn:F. destruct (add_points len (insert_at n p road) ts) as [road2 ids2] eqn:A2.
    injection A as <- <-. pose proof (T 0%nat ltac:(cbn; lia)) as T0. cbn [nth] in T0.
    destruct (find_spec road 1 0 (t * len) n p L) as (j0 & t0 & N & J0 & TB & P & B1 & B2); [rewrite W; lra|exact F|].
    destruct (insert_split road n j0 t0 p N J0 TB P) as (I1 & I2 & I3 & I4 & I5 & I6). rewrite Rplus_0_l in B1, B2.
    set (road1 := insert_at n p road) in *. rewrite W in I2.
    destruct (IH road1 (t * len) road2 ids2) as (K1 & K2 & K3 & K4 & K5 & K6); auto; try lia; try lra.
    { intros j J. specialize (T (S j) ltac:(cbn; lia)). cbn [nth] in T. destruct j as [|j]; exact T. }
    assert (EARLY : forall i, (i < length road)%nat -> arc road i <= prev -> (i <= j0)%nat).
    { intros i I AI. destruct (Nat.le_gt_cases i j0) as [C|C]; auto. pose proof (arc_mono road (S j0) i C I). lra. }
    assert (AN : arc road1 n <= t * len) by lra.
    destruct (K5 n ltac:(lia) AN) as (KN & _).
    split; [intros s q H; apply I1, K1, H|]. split; [exact K2|]. split; [lia|]. split; [cbn; lia|]. split.
    + intros i I AI. pose proof (EARLY i I AI) as E. destruct (I4 i E) as (E1 & E2).
      destruct (K5 i) as (E3 & E4); [lia|lra|]. rewrite E3, E4. auto.
    + intros j J. destruct j as [|j]; cbn [nth].
      * split; [lia|]. split; [rewrite KN; lra|]. split.
        -- intros J1. cbn [length] in J1. destruct (K6 0%nat ltac:(lia)) as (_ & _ & _ & G). apply (G n); [lia|exact AN].
        -- intros i I AI. specialize (EARLY i I AI). lia.
      * cbn [length] in J. destruct (K6 j ltac:(lia)) as (G1 & G2 & G3 & G4). split; [exact G1|]. split; [exact G2|].
        split; [intros J1; apply G3; cbn [length] in J1; lia|].
        intros i I AI. pose proof (EARLY i I AI) as E. destruct (I4 i E) as (E1 & _). apply G4; [lia|lra].
Qed.

(** *** Shares and targets *)

Lemma shares_from_spec len : 0 < len -> forall road acc k, (2 <= length road)%nat -> acc + way (map plc road) / len = 1 -> (S k < length road)%nat ->
  nth k (shares_from len acc road) 0 = acc + arc road (S k) / len.
Proof.
  intros P. induction road as [|a road IH]; intros acc k L W K; [cbn in L; lia|]. destruct road as [|b road]; [cbn in L; lia|].
  destruct road as [|c r].
  - cbn [length] in K. destruct k as [|k]; [|lia]. cbn [shares_from nth]. rewrite <- W. rewrite arc_cons, arc_0. cbn [map way]. reflexivity.
  - change (shares_from len acc (a :: b :: c :: r)) with
      ((acc + plen (psub b a) / len) :: shares_from len (acc + plen (psub b a) / len) (b :: c :: r)). rewrite plen_away.
    change (way (map plc (a :: b :: c :: r))) with (away (plc a) (plc b) + way (map plc (b :: c :: r))) in W.
    destruct k as [|k]; cbn [nth]; rewrite arc_cons.
    + rewrite arc_0. f_equal. f_equal. ring.
    + match goal with |- ?x = _ => change x with (nth k (shares_from len (acc + away (plc a) (plc b) / len) (b :: c :: r)) 0) end.
      rewrite IH; [field; lra|cbn; lia| |cbn [length] in *; lia]. rewrite <- W. field. lra.
Qed.

Lemma shares_spec len road k : 0 < len -> (2 <= length road)%nat -> way (map plc road) = len -> (k < length road)%nat ->
  nth k (shares len road) 0 = arc road k / len.
Proof.
  intros P L W K. unfold shares. destruct k as [|k]; [rewrite arc_0; cbn; field; lra|]. cbn [nth]. rewrite shares_from_spec; auto; [ring|].
  rewrite W. field. lra.
Qed.

Lemma shares_from_length len : forall road acc, (2 <= length road)%nat -> length (shares_from len acc road) = (length road - 1)%nat.
Proof.
  induction road as [|a road IH]; intros acc L; [cbn in L; lia|]. destruct road as [|b road]; [cbn in L; lia|]. destruct road as [|c r]; [reflexivity|].
  change (shares_from len acc (a :: b :: c :: r)) with
    ((acc + plen (psub b a) / len) :: shares_from len (acc + plen (psub b a) / len) (b :: c :: r)). cbn [length]. rewrite IH by (cbn; lia). cbn. lia.
Qed.

Lemma targets_spec len : 0 < len -> forall way acc k, (S (S k) < length way)%nat ->
  nth k (targets_from len acc way) 0 = (acc + arc way (S k)) / len.
Proof.
  intros P. induction way as [|a w IH]; intros acc k K; [cbn in K; lia|]. destruct w as [|b w]; [cbn in K; lia|]. destruct w as [|c r]; [cbn in K; lia|].
  change (targets_from len acc (a :: b :: c :: r)) with
    ((acc + plen (psub b a)) / len :: targets_from len (acc + plen (psub b a)) (b :: c :: r)). rewrite plen_away.
  destruct k as [|k]; cbn [nth]; rewrite arc_cons.
  - rewrite arc_0. f_equal. ring.
  - match goal with |- ?x = _ => change x with (nth k (targets_from len (acc + away (plc a) (plc b)) (b :: c :: r)) 0) end.
    rewrite IH by (cbn [length] in *; lia). f_equal. ring.
Qed.

Lemma targets_length len : forall way acc, length (targets_from len acc way) = (length way - 2)%nat.
Proof.
  induction way as [|a w IH]; intros acc; [reflexivity|]. destruct w as [|b w]; [reflexivity|]. destruct w as [|c r]; [reflexivity|].
  change (targets_from len acc (a :: b :: c :: r)) with
    ((acc + plen (psub b a)) / len :: targets_from len (acc + plen (psub b a)) (b :: c :: r)). cbn [length]. rewrite IH. cbn. lia.
Qed.

(** *** Along the road *)

Lemma stretch_arc road : forall fuel k, (k + fuel < length road)%nat -> stretch road k fuel = arc road (k + fuel) - arc road k.
Proof.
  induction fuel as [|f IH]; intros k K; cbn [stretch]; [rewrite Nat.add_0_r; ring|].
  rewrite plen_away. fold (leg road k). rewrite IH by lia. rewrite (arc_S k) by lia. replace (S k + f)%nat with (k + S f)%nat by lia. ring.
Qed.

Lemma walk_spec len road sh : 0 < len -> (forall k, (k < length road)%nat -> nth k sh 0 = arc road k / len) ->
  forall fuel covered k, (k + fuel < length road)%nat -> 0 <= covered ->
  let y := walk road sh covered k fuel * len in
  arc road k <= y <= arc road k + covered /\ y <= arc road (k + fuel) /\ (arc road k + covered - / 10 ^ 6 <= y \/ arc road (k + fuel) <= y).
Proof.
  intros P SH. pose proof (small_pos 6) as SP. assert (ME : forall x, x / len * len = x) by (intros; field; lra).
  induction fuel as [|f IH]; intros covered k K C; cbv zeta; cbn [walk].
  - rewrite SH by lia. rewrite ME, Nat.add_0_r. lra.
  - rewrite plen_away. fold (leg road k). pose proof (leg_pos road k) as LP. pose proof (arc_S k road ltac:(lia)) as AS.
    pose proof (arc_mono road (S k) (k + S f) ltac:(lia) K) as AM.
    destruct (Rlt_dec _ _) as [B|B].
    + specialize (IH (covered - leg road k) (S k) ltac:(lia) ltac:(lra)). cbv zeta in IH.
      replace (S k + f)%nat with (k + S f)%nat in IH by lia. rewrite AS in IH. lra.
    + destruct (Rlt_dec _ _) as [D|D].
      * rewrite !SH by lia. replace ((arc road k / len + covered / leg road k * (arc road (S k) / len - arc road k / len)) * len) with (arc road k + covered)
          by (rewrite AS; field; lra). lra.
      * rewrite SH by lia. rewrite ME. lra.
Qed.

Lemma upper_spec x : forall sh n, (exists k, (k < length sh)%nat /\ x <= nth k sh 0) ->
  exists j, upper_index sh n x = (n + j)%nat /\ (j < length sh)%nat /\ x <= nth j sh 0 /\ (forall i, (i < j)%nat -> nth i sh 0 < x).
Proof.
  induction sh as [|y sh IH]; intros n (k & K & X); [cbn in K; lia|]. cbn [upper_index]. destruct (Rle_dec x y) as [C|C].
  - exists 0%nat. split; [lia|]. split; [cbn; lia|]. split; [exact C|]. intros i I. lia.
  - destruct k as [|k]; [cbn in X; lra|]. destruct (IH (S n)) as (j & E & J & XJ & F); [exists k; split; [cbn in K; lia|exact X]|].
    exists (S j). split; [lia|]. split; [cbn; lia|]. split; [exact XJ|]. intros [|i] I; cbn; [lra|]. apply F. lia.
Qed.

Lemma road_point_spec len road sh x : 0 < len -> (2 <= length road)%nat -> way (map plc road) = len -> length sh = length road ->
  (forall k, (k < length road)%nat -> nth k sh 0 = arc road k / len) -> 0 < x < 1 ->
  exists s, x * len - len / 10 ^ 6 <= s <= x * len /\ on_line (map sp road) s (sp (road_point road sh x)).
Proof.
  intros P L W LS SH X. pose proof (small_pos 6) as SP. assert (ME : forall y, y / len * len = y) by (intros; field; lra).
  assert (TL : forall k, nth k (tl sh) 0 = nth (S k) sh 0) by (intros k; destruct sh; [destruct k|]; reflexivity).
  assert (LT : length (tl sh) = (length road - 1)%nat) by (destruct sh; cbn in *; lia).
  destruct (upper_spec x (tl sh) 1) as (j & E & J & XJ & F).
  { exists (length road - 2)%nat. split; [lia|]. rewrite TL, SH by lia. replace (S (length road - 2)) with (length road - 1)%nat by lia.
    rewrite arc_last, W by lia. unfold Rdiv. rewrite Rinv_r; lra. }
  unfold road_point. rewrite E. replace (1 + j - 1)%nat with j by lia. change (1 + j)%nat with (S j). rewrite TL in XJ.
  assert (LOW : nth j sh 0 < x).
  { destruct j as [|j]; [rewrite SH, arc_0 by lia; unfold Rdiv; lra|]. specialize (F j ltac:(lia)). rewrite TL in F. exact F. }
  assert (DA : nth (S j) sh 0 * len = nth j sh 0 * len + leg road j) by (rewrite !SH, !ME by lia; apply arc_S; lia).
  assert (AJ : arc road j = nth j sh 0 * len) by (rewrite SH, ME by lia; reflexivity).
  destruct (Rlt_dec _ _) as [B|B].
  - set (a := nth j sh 0) in *. set (b := nth (S j) sh 0) in *. exists (x * len). split.
    { assert (0 < len / 10 ^ 6) by (apply Rmult_lt_0_compat; [exact P|exact SP]). lra. }
    replace (x * len) with (arc road j + (x - a) / (b - a) * leg road j).
    + replace (sp (padd _ _)) with (between (sp (nth j road origin)) (sp (nth (S j) road origin)) ((x - a) / (b - a))).
      * apply on_leg; [lia|]. split; [apply Rmult_le_pos; [lra|apply Rlt_le, Rinv_0_lt_compat; lra]|].
        apply Rmult_le_reg_r with (b - a); [lra|]. unfold Rdiv. rewrite Rmult_assoc, Rinv_l by lra. lra.
      * unfold between, along, sp, plc, padd, pscale, psub; cbn [fst snd px py pz]; f_equal; [f_equal|]; ring.
    + replace (leg road j) with ((b - a) * len) by lra. rewrite AJ. field. lra.
  - exists (arc road j). split; [|apply on_point; lia]. rewrite AJ. set (a := nth j sh 0) in *. set (b := nth (S j) sh 0) in *.
    split; [|apply Rmult_le_compat_r; lra]. unfold Rdiv. replace (x * len - len * / 10 ^ 6) with ((x - / 10 ^ 6) * len) by ring.
    apply Rmult_le_compat_r; lra.
Qed.

(** *** The nearest place of the way *)

Lemma away_scale a b t : away a (along a b t) = Rabs t * away a b.
Proof.
  unfold away, along. cbn [fst snd].
  replace ((fst a + t * (fst b - fst a) - fst a) ^ 2 + (snd a + t * (snd b - snd a) - snd a) ^ 2)
    with ((Rabs t * Rabs t) * ((fst b - fst a) ^ 2 + (snd b - snd a) ^ 2)).
  - rewrite sqrt_mult_alt by (apply Rmult_le_pos; apply Rabs_pos). rewrite sqrt_square by apply Rabs_pos. reflexivity.
  - rewrite <- Rabs_mult, (Rabs_pos_eq (t * t)) by apply Rle_0_sqr. ring.
Qed.

Lemma away_slide a b t s : away (along a b t) (along a b s) = Rabs (s - t) * away a b.
Proof.
  unfold away, along. cbn [fst snd].
  replace ((fst a + s * (fst b - fst a) - (fst a + t * (fst b - fst a))) ^ 2 + (snd a + s * (snd b - snd a) - (snd a + t * (snd b - snd a))) ^ 2)
    with ((Rabs (s - t) * Rabs (s - t)) * ((fst b - fst a) ^ 2 + (snd b - snd a) ^ 2)).
  - rewrite sqrt_mult_alt by (apply Rmult_le_pos; apply Rabs_pos). rewrite sqrt_square by apply Rabs_pos. reflexivity.
  - rewrite <- Rabs_mult, (Rabs_pos_eq ((s - t) * (s - t))) by apply Rle_0_sqr. ring.
Qed.

Lemma away_triangle a b c : away a c <= away a b + away b c.
Proof.
  pose proof (triangle (fst a) (snd a) (fst c) (snd c) (fst b) (snd b)) as T. unfold dist_euc in T. unfold away.
  rewrite <- !Rsqr_pow2. rewrite (Rsqr_neg_minus (fst c) (fst a)), (Rsqr_neg_minus (snd c) (snd a)), (Rsqr_neg_minus (fst b) (fst a)),
    (Rsqr_neg_minus (snd b) (snd a)), (Rsqr_neg_minus (fst c) (fst b)), (Rsqr_neg_minus (snd c) (snd b)). exact T.
Qed.

Lemma away_sym a b : away a b = away b a.
Proof. unfold away. f_equal. ring. Qed.

(** Where a perpendicular comes in: nearer than that is as near. *)
Lemma away_foot p a b l k s : away a b <> 0 ->
  (fst p - fst a) * (fst b - fst a) + (snd p - snd a) * (snd b - snd a) = l * ((fst b - fst a) ^ 2 + (snd b - snd a) ^ 2) ->
  (k - l) * (k - l) <= (s - l) * (s - l) -> away p (along a b k) <= away p (along a b s).
Proof.
  intros _ E LE. unfold away, along. cbn [fst snd]. set (v := fst b - fst a) in *. set (w := snd b - snd a) in *.
  set (x := fst p - fst a) in *. set (y := snd p - snd a) in *. apply sqrt_le_1_alt.
  assert (Q : forall t, (fst a + t * v - fst p) ^ 2 + (snd a + t * w - snd p) ^ 2 =
     x ^ 2 + y ^ 2 + ((t - l) * (t - l) - l * l) * (v ^ 2 + w ^ 2)).
  { intros t. replace (fst a + t * v - fst p) with (t * v - x) by (unfold x; ring). replace (snd a + t * w - snd p) with (t * w - y) by (unfold y; ring).
    replace ((t * v - x) ^ 2 + (t * w - y) ^ 2) with (x ^ 2 + y ^ 2 + t * t * (v ^ 2 + w ^ 2) - 2 * t * (x * v + y * w)) by ring. rewrite E. ring. }
  rewrite !Q. assert (0 <= v ^ 2 + w ^ 2) by (apply Rplus_le_le_0_compat; apply pow2_ge_0). nra.
Qed.

Lemma closest_spec a b p : 1 <= away (plc a) (plc b) ->
  exists k t, plc (closest a b p) = along (plc a) (plc b) k /\ 0 <= t <= 1 /\ Rabs (k - t) <= / 10 ^ 10 /\
    Rabs (k - t) * away (plc a) (plc b) <= / 10 ^ 10 /\ (t = 1 \/ k < 1) /\
    (forall s, 0 <= s <= 1 -> away (plc p) (along (plc a) (plc b) k) <= away (plc p) (along (plc a) (plc b) s)).
Proof.
  intros L. pose proof (small_pos 10) as SP. set (v := px b - px a). set (w := py b - py a). set (q := v ^ 2 + w ^ 2).
  assert (Q : away (plc a) (plc b) * away (plc a) (plc b) = q).
  { unfold away, plc, q, v, w. cbn [fst snd]. apply sqrt_sqrt. apply Rplus_le_le_0_compat; apply pow2_ge_0. }
  set (d := away (plc a) (plc b)) in *. assert (Q1 : 1 <= q) by (rewrite <- Q; nra). assert (DQ : d <= q) by (rewrite <- Q; nra).
  set (l := ((px p - px a) * v + (py p - py a) * w) / q).
  assert (EL : (px p - px a) * v + (py p - py a) * w = l * q) by (unfold l; field; lra).
  assert (NEAR : forall k, (forall s, 0 <= s <= 1 -> (k - l) * (k - l) <= (s - l) * (s - l)) ->
    forall s, 0 <= s <= 1 -> away (plc p) (along (plc a) (plc b) k) <= away (plc p) (along (plc a) (plc b) s)).
  { intros k H s S0. apply away_foot with l; [fold d; lra| |apply H, S0]. exact EL. }
  unfold closest. set (c := padd p _).
  destruct (meet_at a b p c l (((px a - px p) * - w + (py a - py p) * v) / q)) as (MX & MY).
  { fold v w. replace (py c - py p) with v by (unfold c, padd, psub, v; cbn; ring). replace (px c - px p) with (- w) by (unfold c, padd, psub, w; cbn; ring).
    replace (v * v - w * - w) with q by (unfold q; ring). rewrite Rabs_pos_eq by lra. lra. }
  { unfold along, plc. cbn [fst snd]. replace (px c) with (px p - w) by (unfold c, padd, psub, w; cbn; ring).
    replace (py c) with (py p + v) by (unfold c, padd, psub, v; cbn; ring). fold v w. unfold l, q in *. f_equal; field; lra. }
  fold v w in MX, MY.
  assert (MZ : pz (meet a b p c) = 0).
  { unfold meet. destruct (Rlt_dec _ _) as [B|]; [|reflexivity]. exfalso.
    replace ((py b - py a) * (px p - px c) - (py c - py p) * (px a - px b)) with q in B by (unfold c, padd, psub, q, v, w; cbn; ring).
    rewrite Rabs_pos_eq in B by lra. lra. }
  rewrite MZ. destruct (Rlt_dec 0 0) as [|_]; [lra|]. set (i := meet a b p c) in *.
  assert (SA : forall x, (side x (padd x {| px := - py (psub b a); py := px (psub b a); pz := 0; fixed := false |}) i =
     if Rlt_dec (Rabs (- ((px i - px x) * v + (py i - py x) * w))) (/ 10 ^ 10) then 0%Z
     else if Rlt_dec 0 (- ((px i - px x) * v + (py i - py x) * w)) then 1%Z else (-1)%Z)).
  { intros x. unfold side. cbn [padd psub px py].
    replace ((px x + - (py b - py a) - px x) * (py i - py x) - (px i - px x) * (py x + (px b - px a) - py x))
      with (- ((px i - px x) * v + (py i - py x) * w)) by (unfold v, w; ring). reflexivity. }
  assert (PA : - ((px i - px a) * v + (py i - py a) * w) = - (l * q)) by (rewrite MX, MY; unfold q; ring).
  assert (PB : - ((px i - px b) * v + (py i - py b) * w) = (1 - l) * q).
  { rewrite MX, MY. replace (px b) with (px a + v) by (unfold v; ring). replace (py b) with (py a + w) by (unfold w; ring). unfold q. ring. }
  unfold swath_side. rewrite (SA a), (SA b), PA, PB. clear SA PA PB.
  assert (CA : along (plc a) (plc b) 0 = plc a) by (unfold along, plc; cbn; f_equal; ring).
  assert (CB : along (plc a) (plc b) 1 = plc b) by (unfold along, plc; cbn; f_equal; ring).
  assert (CI : along (plc a) (plc b) l = plc i) by (unfold along, plc; cbn; rewrite MX, MY; reflexivity).
  assert (LOW : forall s, 0 <= s <= 1 -> l <= 0 -> (0 - l) * (0 - l) <= (s - l) * (s - l)) by (intros; nra).
  assert (HIGH : forall s, 0 <= s <= 1 -> 1 <= l -> (1 - l) * (1 - l) <= (s - l) * (s - l)) by (intros; nra).
  assert (HERE : forall t, 0 <= t <= 1 -> (t = 1 \/ l < 1) -> Rabs (l - t) * q <= / 10 ^ 10 -> exists k t0, plc i = along (plc a) (plc b) k /\ 0 <= t0 <= 1 /\ Rabs (k - t0) <= / 10 ^ 10 /\
    Rabs (k - t0) * d <= / 10 ^ 10 /\ (t0 = 1 \/ k < 1) /\
    (forall s, 0 <= s <= 1 -> away (plc p) (along (plc a) (plc b) k) <= away (plc p) (along (plc a) (plc b) s))).
  { intros t T T1 B. exists l, t. pose proof (Rabs_pos (l - t)). split; [symmetry; exact CI|]. split; [exact T|]. split; [nra|]. split; [nra|].
    split; [exact T1|]. apply NEAR. intros s S0. rewrite Rminus_diag_eq by reflexivity. rewrite Rmult_0_l. apply Rle_0_sqr. }
  assert (ATA : l <= 0 -> exists k t0, plc a = along (plc a) (plc b) k /\ 0 <= t0 <= 1 /\ Rabs (k - t0) <= / 10 ^ 10 /\
    Rabs (k - t0) * d <= / 10 ^ 10 /\ (t0 = 1 \/ k < 1) /\
    (forall s, 0 <= s <= 1 -> away (plc p) (along (plc a) (plc b) k) <= away (plc p) (along (plc a) (plc b) s))).
  { intros B. exists 0, 0. rewrite Rminus_0_r, Rabs_R0. split; [symmetry; exact CA|]. split; [lra|]. split; [lra|]. split; [lra|]. split; [lra|].
    apply NEAR. intros s S0. apply LOW; auto. }
  assert (ATB : 1 <= l -> exists k t0, plc b = along (plc a) (plc b) k /\ 0 <= t0 <= 1 /\ Rabs (k - t0) <= / 10 ^ 10 /\
    Rabs (k - t0) * d <= / 10 ^ 10 /\ (t0 = 1 \/ k < 1) /\
    (forall s, 0 <= s <= 1 -> away (plc p) (along (plc a) (plc b) k) <= away (plc p) (along (plc a) (plc b) s))).
  { intros B. exists 1, 1. unfold Rminus. rewrite Rplus_opp_r, Rabs_R0. split; [symmetry; exact CB|]. split; [lra|]. split; [lra|]. split; [lra|]. split; [lra|].
    apply NEAR. intros s S0. apply HIGH; auto. }
  destruct (Rlt_dec (Rabs (- (l * q))) (/ 10 ^ 10)) as [B1|B1].
  - rewrite Rabs_Ropp in B1. change (Z.leb 0 0) with true. cbn [andb]. apply Rabs_def2 in B1.
    assert (LL : l < 1) by nra. destruct (Rlt_dec (Rabs ((1 - l) * q)) _) as [B2|B2]; [exfalso; apply Rabs_def2 in B2; nra|].
    destruct (Rlt_dec 0 ((1 - l) * q)) as [B3|B3]; [|exfalso; nra]. cbn [Z.leb Z.compare Z.eqb].
    destruct (Rle_dec 0 l) as [P0|P0].
    + apply (HERE l); [lra|right; lra|]. rewrite Rminus_diag_eq, Rabs_R0 by reflexivity. lra.
    + apply (HERE 0); [lra|right; lra|]. rewrite Rminus_0_r, Rabs_left by lra. lra.
  - destruct (Rlt_dec 0 (- (l * q))) as [B2|B2].
    + cbn [Z.leb Z.compare andb Z.ltb Z.eqb]. apply ATA. nra.
    + assert (B3 : / 10 ^ 10 <= l * q) by (rewrite Rabs_Ropp, Rabs_pos_eq in B1 by lra; lra).
      assert (LP : 0 < l) by nra. cbn [Z.leb Z.compare andb].
      destruct (Rlt_dec (Rabs ((1 - l) * q)) _) as [B4|B4]; cbn [Z.leb Z.compare Z.ltb Z.eqb].
      * apply Rabs_def2 in B4. destruct (Rlt_dec l 1) as [P0|P0].
        -- apply (HERE l); [lra|right; exact P0|]. rewrite Rminus_diag_eq, Rabs_R0 by reflexivity. lra.
        -- apply (HERE 1); [lra|left; reflexivity|]. rewrite Rabs_pos_eq by lra. lra.
      * destruct (Rlt_dec 0 ((1 - l) * q)) as [B5|B5]; cbn [Z.leb Z.compare Z.ltb Z.eqb].
        -- assert (l < 1) by nra. apply (HERE l); [lra|right; lra|]. rewrite Rminus_diag_eq, Rabs_R0 by reflexivity. lra.
        -- apply ATB. nra.
Qed.

Definition code_dist (ws : list point) (p : point) (j : nat) : R :=
  if Nat.eqb j 1 then closest_dist (nth 0 ws origin) (nth 1 ws origin) p else closest_dist (nth j ws origin) (nth (j - 1) ws origin) p.

Lemma heading_spec ws p : forall fuel best d k, d = code_dist ws p best -> (2 <= k)%nat ->
  let w := heading_for ws p best d k fuel in
  (w = best \/ (k <= w < k + fuel)%nat) /\ code_dist ws p w <= d /\ forall j, (k <= j < k + fuel)%nat -> code_dist ws p w <= code_dist ws p j.
Proof.
  induction fuel as [|f IH]; intros best d k D K; cbv zeta; cbn [heading_for].
  - split; [left; reflexivity|]. split; [lra|]. intros j J. lia.
  - assert (E : closest_dist (nth k ws origin) (nth (k - 1) ws origin) p = code_dist ws p k).
    { unfold code_dist. replace (Nat.eqb k 1) with false by (symmetry; apply Nat.eqb_neq; lia). reflexivity. }
    rewrite E. destruct (Rlt_dec _ _) as [B|B].
    + destruct (IH k (code_dist ws p k) (S k) eq_refl ltac:(lia)) as (A1 & A2 & A3). split; [right; lia|]. split; [lra|].
      intros j J. destruct (Nat.eq_dec j k) as [->|N]; [exact A2|apply A3; lia].
    + destruct (IH best d (S k) D ltac:(lia)) as (A1 & A2 & A3). split; [destruct A1; [left; auto|right; lia]|]. split; [exact A2|].
      intros j J. destruct (Nat.eq_dec j k) as [->|N]; [lra|apply A3; lia].
Qed.

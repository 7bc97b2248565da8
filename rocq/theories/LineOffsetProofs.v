(** Places beside a line, and looks that cross. *)
From Coq Require Import Reals List ZArith Bool Lia Lra Psatz.
From Verif Require Import RouteExtModel LinePlanModel LinePlanSpec LinePlanGeom LinePlanProofs LineOffsetModel LineOffsetSpec.
Import ListNotations.
Open Scope R_scope.

Lemma small_pos n : 0 < / 10 ^ n.
Proof. apply Rinv_0_lt_compat, pow_lt. lra. Qed.

Lemma plen_away a b : plen (psub b a) = away (plc a) (plc b).
Proof. rewrite away_plc. reflexivity. Qed.

Lemma unit_len x y r : 0 <= r -> x ^ 2 + y ^ 2 = 1 -> sqrt (r * x * (r * x) + r * y * (r * y)) = r.
Proof. intros R U. replace (r * x * (r * x) + r * y * (r * y)) with (r * r * (x ^ 2 + y ^ 2)) by ring. rewrite U, Rmult_1_r. apply sqrt_square, R. Qed.

Lemma away_course a b u : course a b u -> fst b - fst a = away a b * fst u /\ snd b - snd a = away a b * snd u.
Proof.
  intros (U & r & R & X & Y). assert (E : away a b = r).
  { unfold away. replace (fst b - fst a) with (r * fst u) by lra. replace (snd b - snd a) with (r * snd u) by lra.
    rewrite <- (unit_len (fst u) (snd u) r) at 3 by lra. f_equal. ring. }
  rewrite E. lra.
Qed.

(** Where a vector of course [u] ends up. *)
Lemma shifted_spec v th d p u r : fst u ^ 2 + snd u ^ 2 = 1 -> / 10 ^ 10 < r -> px v = r * fst u -> py v = r * snd u ->
  px (shifted v th d p) = px p + d * (cos th * fst u + sin th * fst (right u)) /\
  py (shifted v th d p) = py p + d * (cos th * snd u + sin th * snd (right u)) /\
  pz (shifted v th d p) = pz p + pz v * d / r.
Proof.
  intros U R X Y. pose proof (small_pos 10) as SP.
  assert (L : plen (rotate v th) = r).
  { unfold plen, rotate. cbn [px py]. rewrite X, Y.
    replace (cos th * (r * fst u) - sin th * (r * snd u)) with (r * (cos th * fst u - sin th * snd u)) by ring.
    replace (sin th * (r * fst u) + cos th * (r * snd u)) with (r * (sin th * fst u + cos th * snd u)) by ring.
    apply unit_len; [lra|]. pose proof (sin2_cos2 th) as SC. unfold Rsqr in SC.
    replace ((cos th * fst u - sin th * snd u) ^ 2 + (sin th * fst u + cos th * snd u) ^ 2)
      with ((sin th * sin th + cos th * cos th) * (fst u ^ 2 + snd u ^ 2)) by ring. rewrite SC, U. ring. }
  unfold shifted. rewrite L. destruct (Rlt_dec _ r) as [_|N]; [|lra].
  unfold padd, pscale, rotate, right. cbn [px py pz fst snd]. rewrite X, Y. split; [field; lra|split; field; lra].
Qed.

Lemma forward_nth s ps k : (k < length ps)%nat -> nth k (forward_points s ps) origin = forward_point s ps k.
Proof.
  intros K. unfold forward_points. rewrite nth_indep with (d' := forward_point s ps 0) by (rewrite map_length, seq_length; exact K).
  rewrite map_nth, seq_nth by exact K. reflexivity.
Qed.

Lemma forward_length s ps : length (forward_points s ps) = length ps.
Proof. unfold forward_points. rewrite map_length, seq_length. reflexivity. Qed.

(** *** Looks *)

Lemma meet_at a b c d t s : / 10 ^ 10 <= Rabs ((px b - px a) * (py d - py c) - (py b - py a) * (px d - px c)) ->
  along (plc a) (plc b) t = along (plc c) (plc d) s ->
  px (meet a b c d) = px a + t * (px b - px a) /\ py (meet a b c d) = py a + t * (py b - py a).
Proof.
  intros D E. unfold along, plc in E. cbn [fst snd] in E. injection E as EX EY. unfold meet.
  set (X := px a + t * (px b - px a)) in *. set (Y := py a + t * (py b - py a)) in *.
  set (D0 := (py b - py a) * (px c - px d) - (py d - py c) * (px a - px b)).
  assert (DE : D0 = (px b - px a) * (py d - py c) - (py b - py a) * (px d - px c)) by (unfold D0; ring).
  rewrite <- DE in D. destruct (Rlt_dec (Rabs D0) _) as [L|_]; [lra|]. cbn [px py].
  assert (N : D0 <> 0). { intros Z. rewrite Z, Rabs_R0 in D. pose proof (small_pos 10). lra. }
  assert (L1 : (py b - py a) * X + (px a - px b) * Y + (px b * py a - px a * py b) = 0) by (unfold X, Y; ring).
  assert (L2 : (py d - py c) * X + (px c - px d) * Y + (px d * py c - px c * py d) = 0) by (rewrite EX, EY; ring).
  replace (px b * py a - px a * py b) with (- ((py b - py a) * X + (px a - px b) * Y)) by lra.
  replace (px d * py c - px c * py d) with (- ((py d - py c) * X + (px c - px d) * Y)) by lra.
  split; apply Rmult_eq_reg_r with D0; auto; unfold Rdiv; rewrite Rmult_assoc, Rinv_l, Rmult_1_r by exact N; unfold D0; ring.
Qed.

Lemma side_low a b t : (px b - px a) * (py t - py a) - (px t - px a) * (py b - py a) <= 0 -> (side a b t <= 0)%Z.
Proof. intros H. unfold side. destruct (Rlt_dec _ _); [lia|]. destruct (Rlt_dec _ _); [lra|lia]. Qed.

Lemma side_high a b t : 0 <= (px b - px a) * (py t - py a) - (px t - px a) * (py b - py a) -> (0 <= side a b t)%Z.
Proof.
  intros H. unfold side. destruct (Rlt_dec _ _) as [|N]; [lia|]. destruct (Rlt_dec 0 _); [lia|].
  exfalso. apply N. rewrite Rabs_pos_eq by exact H. pose proof (small_pos 10). lra.
Qed.

(** The foot of a place between the ends of a segment. *)
Lemma swath_in a b i : 0 <= (px i - px a) * (px b - px a) + (py i - py a) * (py b - py a) ->
  (px i - px b) * (px b - px a) + (py i - py b) * (py b - py a) <= 0 -> swath_side a b i = 0%Z.
Proof.
  intros A B. unfold swath_side.
  set (w := {| px := - py (psub b a); py := px (psub b a); pz := 0; fixed := false |}).
  assert (SA : (side a (padd a w) i <= 0)%Z) by (apply side_low; unfold w, padd, psub; cbn [px py]; lra).
  assert (SB : (0 <= side b (padd b w) i)%Z) by (apply side_high; unfold w, padd, psub; cbn [px py]; lra).
  apply Z.leb_le in SA, SB. rewrite SA, SB. reflexivity.
Qed.

Lemma swath_along a b i t : 0 <= t <= 1 -> px i = px a + t * (px b - px a) -> py i = py a + t * (py b - py a) -> swath_side a b i = 0%Z.
Proof.
  intros T X Y. set (v := px b - px a) in *. set (w := py b - py a) in *.
  assert (Q : 0 <= v * v + w * w) by nra.
  apply swath_in; fold v w; rewrite X, Y.
  - replace ((px a + t * v - px a) * v + (py a + t * w - py a) * w) with (t * (v * v + w * w)) by ring. apply Rmult_le_pos; lra.
  - replace ((px a + t * v - px b) * v + (py a + t * w - py b) * w) with (- ((1 - t) * (v * v + w * w))) by (unfold v, w; ring).
    assert (0 <= (1 - t) * (v * v + w * w)) by (apply Rmult_le_pos; lra). lra.
Qed.

(** Looks that cross are noticed. *)
Lemma cross_seen a b c d : / 10 ^ 4 < away (plc a) (plc b) -> / 10 ^ 4 < away (plc c) (plc d) ->
  crosses (plc a) (plc b) (plc c) (plc d) -> looks_cross a b c d = true.
Proof.
  intros A B (D & t & s & T & S & E). unfold looks_cross. rewrite !plen_away.
  destruct (Rlt_dec _ _) as [_|]; [|lra]. destruct (Rlt_dec _ _) as [_|]; [|lra].
  unfold plc in D. cbn [fst snd] in D. destruct (meet_at a b c d t s D E) as (X & Y).
  apply orb_true_iff. right. rewrite (swath_along a b _ t), (swath_along c d _ s); auto.
  - rewrite X. unfold along, plc in E. cbn [fst snd] in E. injection E as E1 E2. lra.
  - rewrite Y. unfold along, plc in E. cbn [fst snd] in E. injection E as E1 E2. lra.
Qed.

Lemma stares_from_length road all : forall rest done a, length (stares_from road all done a rest) = (length rest - 1)%nat.
Proof.
  induction rest as [|b rest IH]; intros done a; [reflexivity|]. destruct rest as [|c r]; [reflexivity|].
  cbn [stares_from length] in *. rewrite IH. lia.
Qed.

Lemma stare_length plan road : (2 <= length plan)%nat -> length (stare_points plan road) = length plan.
Proof.
  intros L. destruct plan as [|a rest]; cbn in L; [lia|]. unfold stare_points. cbn [length]. rewrite app_length, stares_from_length. cbn. lia.
Qed.

Lemma first_none : forall plan stares n, first_crossing plan stares n = None -> length plan = length stares ->
  forall k, (S k < length plan)%nat -> looks_cross (nth (S k) plan origin) (nth (S k) stares origin) (nth k plan origin) (nth k stares origin) = false.
Proof.
  induction plan as [|a plan IH]; intros stares n F L k K; [cbn in K; lia|].
  destruct stares as [|s stares]; [discriminate|]. destruct plan as [|b plan]; [cbn in K; lia|]. destruct stares as [|t stares]; [discriminate|].
  cbn [first_crossing] in F. destruct (looks_cross b t a s) eqn:X; [discriminate|].
  destruct k as [|k]; [exact X|]. change (nth (S (S k)) (a :: b :: plan) origin) with (nth (S k) (b :: plan) origin).
  change (nth (S (S k)) (s :: t :: stares) origin) with (nth (S k) (t :: stares) origin).
  change (nth (S k) (a :: b :: plan) origin) with (nth k (b :: plan) origin).
  change (nth (S k) (s :: t :: stares) origin) with (nth k (t :: stares) origin).
  apply (IH (t :: stares) (S n)); auto. cbn in *. lia.
Qed.

Lemma first_some : forall plan stares n k, first_crossing plan stares n = Some k -> (n <= k)%nat /\ (k - n + 1 < length plan)%nat.
Proof.
  induction plan as [|a plan IH]; intros stares n k F; [discriminate|].
  destruct plan as [|b plan]; [destruct stares; discriminate|]. destruct stares as [|s [|t stares]]; try discriminate.
  cbn [first_crossing] in F. destruct (looks_cross b t a s).
  - injection F as <-. cbn. lia.
  - destruct (IH (t :: stares) (S n) k F) as (A & B). cbn in *. lia.
Qed.

(** *** Merging *)

Lemma merge_split plan k : (1 <= k)%nat -> (k < length plan)%nat -> (3 <= length plan)%nat ->
  exists l1 a b l2, plan = l1 ++ a :: b :: l2 /\ l2 <> [] /\ merge plan k = l1 ++ pscale (padd a b) (/ 2) :: l2.
Proof.
  intros K1 K L. unfold merge. set (j := if Nat.eqb k (length plan - 1) then (k - 1)%nat else k).
  assert (J : (1 <= j < length plan - 1)%nat).
  { unfold j. destruct (Nat.eqb_spec k (length plan - 1)); lia. }
  clearbody j. clear k K1 K. destruct j as [|i]; [lia|]. replace (S i - 1)%nat with i by lia.
  destruct (nth_split plan origin (n := i)) as (l1 & r & Q & LI); [lia|].
  set (a := nth i plan origin) in *. clearbody a. subst plan. rewrite app_length in J. cbn [length] in J.
  destruct r as [|b l2]; [cbn in J; lia|]. assert (L2 : l2 <> []) by (intros ->; cbn in J; lia).
  exists l1, a, b, l2. split; [reflexivity|]. split; [exact L2|].
  assert (NB : nth (S i) (l1 ++ a :: b :: l2) origin = b). { rewrite app_nth2 by lia. replace (S i - length l1)%nat with 1%nat by lia. reflexivity. }
  rewrite NB. set (p := pscale _ _).
  assert (E : erase (S i) (l1 ++ a :: b :: l2) = l1 ++ a :: l2).
  { replace (l1 ++ a :: b :: l2) with ((l1 ++ [a]) ++ b :: l2) by (rewrite <- app_assoc; reflexivity).
    replace (S i) with (length (l1 ++ [a])) by (rewrite app_length, LI; cbn; lia). rewrite erase_at, <- app_assoc. reflexivity. }
  rewrite E. unfold update. rewrite <- LI. rewrite firstn_app, Nat.sub_diag, firstn_all. cbn [firstn]. rewrite app_nil_r. f_equal. f_equal.
  rewrite skipn_app, skipn_all2 by lia. replace (S (length l1) - length l1)%nat with 1%nat by lia. reflexivity.
Qed.

Lemma clean_spec road : forall fuel plan, (2 <= length plan)%nat -> (length plan <= fuel)%nat ->
  let out := clean_up fuel road plan in
  (2 <= length out <= length plan)%nat /\ last out origin = last plan origin /\
  (forall p, In p out -> surrounded (map plc plan) (plc p)) /\
  (length out = 2%nat \/ first_crossing out (stare_points out road) 1 = None).
Proof.
  assert (SELF : forall plan p, In p plan -> surrounded (map plc plan) (plc p)).
  { intros plan p P a b c H. apply H. apply in_map, P. }
  induction fuel as [|f IH]; intros plan L F; [lia|]. cbn [clean_up].
  destruct (Nat.ltb_spec (length plan) 3) as [SM|SM].
  { split; [lia|]. split; [reflexivity|]. split; [apply SELF|]. left. lia. }
  destruct (first_crossing plan (stare_points plan road) 1) as [k|] eqn:C.
  2:{ split; [lia|]. split; [reflexivity|]. split; [apply SELF|]. right. exact C. }
  apply first_some in C. destruct (merge_split plan k) as (l1 & a & b & l2 & Q & N2 & ->); [lia|lia|exact SM|].
  set (p := pscale (padd a b) (/ 2)).
  assert (LEN : length plan = S (length (l1 ++ p :: l2))) by (rewrite Q, !app_length; cbn; lia).
  destruct (IH (l1 ++ p :: l2)) as (A & B & D & E); [lia|lia|]. set (out := clean_up f road (l1 ++ p :: l2)) in *.
  split; [lia|]. split; [|split; [|exact E]].
  - rewrite B, Q. destruct l2 as [|y l2]; [contradiction|]. clear.
    assert (G : forall (z : list point) l3, last (z ++ y :: l3) origin = last (y :: l3) origin).
    { induction z as [|h z IH]; intros l3; [reflexivity|]. cbn [app]. rewrite <- IH. destruct (z ++ y :: l3) eqn:Z; [destruct z; discriminate|reflexivity]. }
    replace (l1 ++ p :: y :: l2) with ((l1 ++ [p]) ++ y :: l2) by (rewrite <- app_assoc; reflexivity).
    replace (l1 ++ a :: b :: y :: l2) with ((l1 ++ [a; b]) ++ y :: l2) by (rewrite <- app_assoc; reflexivity).
    rewrite !G. reflexivity.
  - intros q X u v w H. specialize (D q X u v w). apply D. intros r R. apply in_map_iff in R. destruct R as (r' & <- & R).
    assert (IP : forall z, In z plan -> u * px z + v * py z <= w) by (intros z Z; apply (H (plc z)), in_map, Z).
    apply in_app_or in R. destruct R as [R|[R|R]].
    + apply IP. rewrite Q. apply in_or_app. left. exact R.
    + subst r'. assert (HA : u * px a + v * py a <= w) by (apply IP; rewrite Q; apply in_or_app; right; left; reflexivity).
      assert (HB : u * px b + v * py b <= w) by (apply IP; rewrite Q; apply in_or_app; right; right; left; reflexivity).
      unfold plc, p, pscale, padd. cbn [px py fst snd]. lra.
    + apply IP. rewrite Q. apply in_or_app. right. right. right. exact R.
Qed.

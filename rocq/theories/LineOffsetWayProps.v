(** C93, continued: which points of the way stay, where they look, the way back, and cost and headings of the option. *)
From Coq Require Import Reals List ZArith Bool Lia Lra Psatz.
From Verif Require Import RouteExtModel RouteExtGeom LinePlanModel LinePlanSpec LinePlanGeom LinePlanProofs LinePlanProps
  LineOffsetModel LineOffsetSpec LineOffsetProofs LineOffsetProps.
Import ListNotations.
Open Scope R_scope.

(** *** Where the points of a way look *)

Lemma total_way ps : total ps = way (map plc ps).
Proof.
  induction ps as [|a ps IH]; [reflexivity|]. destruct ps as [|b r]; [reflexivity|].
  change (total (a :: b :: r)) with (plen (psub b a) + total (b :: r)). rewrite IH, plen_away. reflexivity.
Qed.

Lemma way_pos l : 0 <= way l.
Proof.
  induction l as [|a l IH]; [cbn; lra|]. destruct l as [|b r]; [cbn; lra|]. change (way (a :: b :: r)) with (away a b + way (b :: r)).
  assert (0 <= away a b) by apply sqrt_pos. lra.
Qed.

Lemma locate_spec : forall road covered target, (forall k, (S k < length road)%nat -> / 10 ^ 6 < away (plc (nth k road origin)) (plc (nth (S k) road origin))) ->
  covered <= target < covered + way (map plc road) -> reached (map plc road) (target - covered) (plc (locate road covered target)).
Proof.
  induction road as [|a road IH]; intros covered target F T; [cbn in T; lra|]. destruct road as [|b r]; [cbn in T; lra|].
  assert (F0 : / 10 ^ 6 < away (plc a) (plc b)) by (apply (F 0%nat); cbn; lia).
  change (way (map plc (a :: b :: r))) with (away (plc a) (plc b) + way (map plc (b :: r))) in T.
  cbn [locate]. rewrite plen_away. destruct (Rlt_dec target _) as [L|L].
  - destruct (Rlt_dec _ _) as [_|]; [|lra]. cbn [map].
    replace (plc (padd a (pscale (psub b a) ((target - covered) / away (plc a) (plc b)))))
      with (along (plc a) (plc b) ((target - covered) / away (plc a) (plc b))).
    + constructor. lra.
    + unfold along, padd, pscale, psub, plc. cbn [fst snd px py]. f_equal; ring.
  - cbn [map]. replace (target - covered) with (away (plc a) (plc b) + (target - (covered + away (plc a) (plc b)))) by ring.
    apply reached_later. apply (IH (covered + away (plc a) (plc b)) target); [|lra].
    intros k K. apply (F (S k)). cbn [length] in *. lia.
Qed.

Lemma stares_nth road all : forall rest done a k, (S k < length rest)%nat ->
  nth k (stares_from road all done a rest) origin =
  locate road 0 ((done + way (firstn (S (S k)) (map plc (a :: rest)))) / all * total road).
Proof.
  induction rest as [|b rest IH]; intros done a k K; [cbn in K; lia|]. destruct rest as [|c r]; [cbn in K; lia|].
  change (stares_from road all done a (b :: c :: r)) with
    (locate road 0 ((done + plen (psub b a)) / all * total road) :: stares_from road all (done + plen (psub b a)) b (c :: r)).
  rewrite plen_away. destruct k as [|k].
  - cbn [nth]. f_equal. f_equal. f_equal. change (firstn 2 (map plc (a :: b :: c :: r))) with [plc a; plc b]. cbn [way]. ring.
  - match goal with |- nth (S k) (?x :: ?y) origin = _ => change (nth (S k) (x :: y) origin) with (nth k y origin) end. rewrite IH by (cbn [length] in *; lia). f_equal. f_equal. f_equal.
    change (firstn (S (S (S k))) (map plc (a :: b :: c :: r))) with (plc a :: firstn (S (S k)) (map plc (b :: c :: r))).
    cbn [map firstn]. cbn [way]. ring.
Qed.

(** A point of the way looks at the point of the line that has the same part of the line behind it as it has of the way: the first
    one at the beginning, the last one at the end. *)
Theorem C93_stares plan road k : (2 <= length plan)%nat -> (2 <= length road)%nat -> (k < length plan)%nat ->
  (forall j, (S j < length road)%nat -> / 10 ^ 6 < away (plc (nth j road origin)) (plc (nth (S j) road origin))) ->
  let W := map plc plan in let L := map plc road in
  let look := plc (nth k (stare_points plan road) origin) in
  (k = 0%nat -> look = plc (nth 0 road origin)) /\
  (k = (length plan - 1)%nat -> look = plc (nth (length road - 1) road origin)) /\
  ((0 < k < length plan - 1)%nat -> way (firstn (S k) W) < way W -> reached L (way (firstn (S k) W) / way W * way L) look).
Proof.
  intros L R K F W Q look. destruct plan as [|a rest]; [cbn in L; lia|]. unfold look, stare_points.
  assert (SL := stares_from_length road (total (a :: rest)) rest 0 a). split; [|split].
  - intros ->. reflexivity.
  - intros E. cbn [length] in *. destruct k as [|k]; [lia|]. cbn [nth].
    rewrite app_nth2 by lia. replace (k - _)%nat with 0%nat by lia. reflexivity.
  - intros KK G. cbn [length] in *. destruct k as [|k]; [lia|]. cbn [nth]. rewrite app_nth1 by lia. rewrite stares_nth by lia.
    rewrite !total_way, Rplus_0_l. fold W Q.
    set (x := way (firstn (S (S k)) W) / way W * way Q).
    assert (X0 : 0 <= way (firstn (S (S k)) W)) by apply way_pos.
    assert (WP : 0 < way W) by lra.
    assert (QP : 0 < way Q). { unfold Q. destruct road as [|c [|d r]]; cbn [length] in R; try lia. specialize (F 0%nat ltac:(cbn; lia)).
      cbn [nth] in F. change (way (map plc (c :: d :: r))) with (away (plc c) (plc d) + way (map plc (d :: r))).
      pose proof (way_pos (map plc (d :: r))). pose proof (small_pos 6). lra. }
    assert (X1 : 0 <= way (firstn (S (S k)) W) / way W < 1).
    { split; [apply Rmult_le_pos; [exact X0|apply Rlt_le, Rinv_0_lt_compat, WP]|]. apply Rmult_lt_reg_r with (way W); auto.
      unfold Rdiv. rewrite Rmult_assoc, Rinv_l, Rmult_1_r by lra. lra. }
    pose proof (locate_spec road 0 x F) as G2. rewrite Rminus_0_r in G2. apply G2. fold Q. unfold x. split; [apply Rmult_le_pos; lra|]. nra.
Qed.

(** Two or more points stay, the last one does, and none gets out of the area the points surrounded.  Unless only two are left the looks
    of successive points do not cross. *)
Theorem C93_looks road plan : (2 <= length plan)%nat ->
  let out := clean_up (length plan) road plan in let st := stare_points out road in
  (2 <= length out <= length plan)%nat /\ last out origin = last plan origin /\
  (forall p, In p out -> surrounded (map plc plan) (plc p)) /\
  forall k, (3 <= length out)%nat -> (S k < length out)%nat ->
    let a := plc (nth k out origin) in let b := plc (nth k st origin) in
    let c := plc (nth (S k) out origin) in let d := plc (nth (S k) st origin) in
    / 10 ^ 4 < away a b -> / 10 ^ 4 < away c d -> ~ crosses c d a b.
Proof.
  intros L out st. destruct (clean_spec road (length plan) plan L (le_n _)) as (A & B & D & E). fold out in A, B, D, E.
  split; [exact A|]. split; [exact B|]. split; [exact D|]. intros k K3 K a b c d FA FC X.
  destruct E as [E|E]; [lia|]. fold st in E.
  assert (SL : length out = length st) by (symmetry; apply stare_length; lia).
  pose proof (first_none out st 1 E SL k K) as N. rewrite cross_seen in N; auto. discriminate.
Qed.

(** If no look crosses the one before, as far as the code notices, nothing changes. *)
Lemma clean_same road plan : first_crossing plan (stare_points plan road) 1 = None -> clean_up (length plan) road plan = plan.
Proof. intros N. destruct plan as [|a r]; [reflexivity|]. cbn [length clean_up]. rewrite N. destruct (Nat.ltb _ 3); reflexivity. Qed.

(** Refuted: that only points whose looks cross are given up.  Looks that are parallel count as crossing if the place that the
    coordinates are measured from is abreast of both: three points beside a straight line become two. *)
Theorem C93_parallel_refuted l m : / 10 ^ 4 <= l -> / 10 ^ 4 < m ->
  let p x y := {| px := x; py := y; pz := 0; fixed := false |} in
  let plan := [p (- l) 0; p (- l) m; p (- l) (2 * m)] in let road := [p l 0; p l m; p l (2 * m)] in
  map plc (stare_points plan road) = map plc road /\
  (forall a b c d, In (a, b) (combine plan road) -> In (c, d) (combine plan road) -> a <> c -> forall t s, along (plc a) (plc b) t <> along (plc c) (plc d) s) /\
  map plc (clean_up 3 road plan) = [(- l, m / 2); (- l, 2 * m)].
Proof.
  intros L M p plan road. pose proof (small_pos 4) as SP. pose proof (small_pos 10) as SP2. pose proof (small_pos 6) as SP3.
  assert (LE : forall x y x' y', plen (psub (p x y) (p x' y')) = sqrt ((x - x') ^ 2 + (y - y') ^ 2)).
  { intros. unfold plen, psub, p. cbn [px py]. f_equal. ring. }
  assert (LV : forall x y y', y' <= y -> plen (psub (p x y) (p x y')) = y - y').
  { intros. rewrite LE. replace ((x - x) ^ 2 + (y - y') ^ 2) with ((y - y') * (y - y')) by ring. apply sqrt_square. lra. }
  assert (LH : forall y, plen (psub (p l y) (p (- l) y)) = 2 * l).
  { intros. rewrite LE. replace ((l - - l) ^ 2 + (y - y) ^ 2) with ((2 * l) * (2 * l)) by ring. apply sqrt_square. lra. }
  assert (TM : / 10 ^ 6 < m).
  { apply Rlt_trans with (/ 10 ^ 4); auto. apply Rinv_lt_contravar; [apply Rmult_lt_0_compat; apply pow_lt; lra|]. apply Rlt_pow; [lra|lia]. }
  assert (S1 : stare_points plan road = [p l 0; p l (0 + (m - 0) * ((m - 0) / m)); p l (2 * m)] \/
               map plc (stare_points plan road) = map plc road).
  { right. unfold stare_points, plan, road. cbn [total stares_from length Nat.sub nth].
    rewrite !LV by lra. cbn [locate]. rewrite !LV by lra.
    replace ((0 + (m - 0)) / (m - 0 + (2 * m - m + 0)) * (m - 0 + (2 * m - m + 0))) with m by (field; lra).
    destruct (Rlt_dec m (0 + (m - 0))) as [Z|_]; [lra|]. destruct (Rlt_dec m (0 + (m - 0) + (2 * m - m))) as [_|Z]; [|lra].
    destruct (Rlt_dec (/ 10 ^ 6) (2 * m - m)) as [_|Z]; [|lra]. cbn [app map].
    unfold plc, padd, pscale, psub, p. cbn [px py]. f_equal. f_equal. f_equal; field; lra. }
  assert (S2 : map plc (stare_points plan road) = map plc road).
  { destruct S1 as [E|E]; [|exact E]. rewrite E. unfold road, plc, p. cbn [map px py]. f_equal. f_equal. f_equal. field. lra. }
  clear S1. split; [exact S2|]. split.
  - intros a b c d X Y N t s E. unfold plan, road in X, Y. cbn [combine] in X, Y.
    assert (XA : py a = py b). { destruct X as [X|[X|[X|[]]]]; injection X as <- <-; reflexivity. }
    assert (YC : py c = py d). { destruct Y as [Y|[Y|[Y|[]]]]; injection Y as <- <-; reflexivity. }
    assert (AC : py a <> py c).
    { destruct X as [X|[X|[X|[]]]]; injection X as <- <-; destruct Y as [Y|[Y|[Y|[]]]]; injection Y as <- <-; cbn [py p] in *; try lra; exfalso; apply N; reflexivity. }
    unfold along, plc in E. cbn [fst snd] in E. injection E as _ E. rewrite XA, YC in E. rewrite XA, YC in AC. lra.
  - cbn [clean_up]. change (Nat.ltb (length plan) 3) with false. cbn iota.
    remember (stare_points plan road) as st eqn:Q. clear Q. destruct st as [|s0 [|s1 [|s2 [|s3 st]]]]; try discriminate.
    unfold road, plc, p in S2. cbn [map px py] in S2. injection S2 as X0 Y0 X1 Y1 X2 Y2.
    unfold plan at 1. cbn [first_crossing].
    assert (CR : looks_cross (p (- l) m) s1 (p (- l) 0) s0 = true).
    { unfold looks_cross, p. unfold plen, psub. cbn [px py]. rewrite X0, X1, Y0, Y1.
      replace ((l - - l) * (l - - l) + (m - m) * (m - m)) with ((2 * l) * (2 * l)) by ring.
      replace ((l - - l) * (l - - l) + (0 - 0) * (0 - 0)) with ((2 * l) * (2 * l)) by ring. rewrite sqrt_square by lra.
      destruct (Rlt_dec _ _) as [_|Z]; [|lra].
      apply orb_true_iff. right. unfold meet. cbn [px py]. rewrite X0, X1, Y0, Y1.
      replace ((m - m) * (- l - l) - (0 - 0) * (- l - l)) with 0 by ring. rewrite Rabs_R0. destruct (Rlt_dec 0 _) as [_|Z]; [|lra].
      rewrite !swath_in; [reflexivity| | | |]; cbn [px py]; rewrite ?X0, ?X1, ?Y0, ?Y1; nra. }
    rewrite CR. unfold merge, plan. cbn [length Nat.eqb Nat.sub nth]. unfold erase, update. cbn [firstn skipn app Nat.sub].
    unfold pscale, padd, p. cbn [px py pz]. unfold plc. cbn [map px py Nat.ltb Nat.leb length]. f_equal. f_equal; field.
Qed.

(** *** The way back *)

Definition turned (s : settings) : settings :=
  {| azimuth := if same_side s then - azimuth s else azimuth s; elevation := elevation s; nominal := nominal s;
     terrain := terrain s; same_side := same_side s |}.

Lemma rev_nth' (ps : list point) k : (k < length ps)%nat -> nth k (rev ps) origin = nth (length ps - 1 - k) ps origin.
Proof. intros K. rewrite rev_nth by exact K. f_equal. lia. Qed.

(** The way back is the way along the line from its other end; on the same side of the line if that is wanted: the azimuth is
    then counted the other way. *)
Theorem C93_reverse s ps : (2 <= length ps)%nat ->
  map plc (reverse_points s ps) = map plc (forward_points (turned s) (rev ps)).
Proof.
  intros L. unfold reverse_points, forward_points. rewrite rev_length. rewrite !map_map.
  apply nth_ext with (d := (0, 0)) (d' := (0, 0)). { rewrite !map_length, rev_length, !seq_length. reflexivity. }
  intros k K. rewrite map_length, rev_length, seq_length in K.
  rewrite nth_indep with (d' := (fun x => plc (reverse_point s ps x)) 0%nat) by (rewrite map_length, rev_length, seq_length; exact K).
  rewrite (map_nth (fun x => plc (reverse_point s ps x))).
  rewrite (nth_indep (map (fun x => plc (forward_point (turned s) (rev ps) x)) _) (0, 0) ((fun x => plc (forward_point (turned s) (rev ps) x)) 0%nat))
    by (rewrite map_length, seq_length; exact K).
  rewrite (map_nth (fun x => plc (forward_point (turned s) (rev ps) x))).
  rewrite rev_nth by (rewrite seq_length; exact K). rewrite seq_length, !seq_nth by lia. rewrite !Nat.add_0_l.
  set (j := (length ps - S k)%nat). unfold reverse_point, forward_point. rewrite rev_length.
  assert (E1 : Nat.eqb k 0 = Nat.eqb j (length ps - 1)) by (destruct (Nat.eqb_spec k 0), (Nat.eqb_spec j (length ps - 1)); auto; lia).
  assert (E2 : Nat.eqb k (length ps - 1) = Nat.eqb j 0) by (destruct (Nat.eqb_spec k (length ps - 1)), (Nat.eqb_spec j 0); auto; lia).
  rewrite E1, E2. rewrite (orb_comm (Nat.eqb j (length ps - 1))).
  rewrite (rev_nth' ps k) by lia. rewrite (rev_nth' ps 0), (rev_nth' ps 1) by lia. rewrite (rev_nth' ps (k - 1)) by lia.
  replace (length ps - 1 - k)%nat with j by lia. replace (length ps - 1 - 0)%nat with (length ps - 1)%nat by lia.
  replace (length ps - 1 - 1)%nat with (length ps - 2)%nat by lia.
  assert (RE : forall p, reach (turned s) p = reach s p) by reflexivity. rewrite RE. cbn [turned azimuth].
  destruct (Nat.eqb j 0 || Nat.eqb j (length ps - 1)) eqn:AE.
  - unfold plc. cbn [px py]. destruct (Nat.eqb_spec j (length ps - 1)) as [J|J]; [reflexivity|].
    replace (length ps - 1 - (k - 1))%nat with (S j) by lia. reflexivity.
  - apply orb_false_iff in AE. destruct AE as (A0 & A1). rewrite A1. apply Nat.eqb_neq in A0, A1.
    rewrite (rev_nth' ps (S k)) by lia. replace (length ps - 1 - (k - 1))%nat with (S j) by lia. replace (length ps - 1 - S k)%nat with (j - 1)%nat by lia.
    assert (ED : (if same_side s then reach s (nth j ps origin) * sin (azimuth s) * -1 else reach s (nth j ps origin) * sin (azimuth s)) =
                 reach s (nth j ps origin) * sin (if same_side s then - azimuth s else azimuth s)).
    { destruct (same_side s); [rewrite sin_neg|]; ring. }
    rewrite ED. reflexivity.
Qed.

(** *** The whole way *)

Lemma clear_zero ps : (forall p, In p ps -> / 10 ^ 9 <= Rabs (px p - py p)) -> remove_zero ps = ps.
Proof. intros C. destruct ps as [|q rs]; [reflexivity|]. cbn [remove_zero]. f_equal. apply clear_squeeze. intros p P. apply C. right. exact P. Qed.

(** If the line stays away from the places whose two coordinates are the same, and the points beside it are all on one side of them, the
    way is what is left of these points once no looks cross.  Beside a line of two points it is these points. *)
Theorem C93_way s road ps sg : (2 <= length ps)%nat -> sg = 1 \/ sg = -1 -> (forall p, In p ps -> / 10 ^ 9 <= Rabs (px p - py p)) ->
  (forall p, In p (forward_points s ps) -> / 10 ^ 9 <= sg * (px p - py p)) ->
  offset_forward s road ps = clean_up (length ps) road (forward_points s ps) /\
  (length ps = 2%nat -> offset_forward s road ps = forward_points s ps).
Proof.
  intros L SG C F. pose proof (small_pos 9) as SP.
  assert (ABS : forall x, / 10 ^ 9 <= sg * x -> / 10 ^ 9 <= Rabs x).
  { intros x X. destruct SG as [->| ->]; unfold Rabs; destruct (Rcase_abs x); lra. }
  assert (E : offset_forward s road ps = clean_up (length ps) road (forward_points s ps)).
  { unfold offset_forward. rewrite (clear_zero ps C).
    assert (Z : remove_zero (forward_points s ps) = forward_points s ps) by (apply clear_zero; intros p P; apply ABS, F, P).
    destruct ps as [|a [|b r]]; cbn [length] in L; try lia. rewrite Z, forward_length. apply clear_zero.
    intros p P. pose proof (C93_looks road (forward_points s (a :: b :: r))) as G. rewrite forward_length in G. destruct (G L) as (_ & _ & H & _).
    specialize (H p P). apply ABS. specialize (H (- sg) sg (- / 10 ^ 9)). cbn [plc fst snd] in H.
    assert (H2 : - sg * px p + sg * py p <= - / 10 ^ 9).
    { apply H. intros q Q. apply in_map_iff in Q. destruct Q as (q' & <- & Q). specialize (F q' Q). cbn [plc fst snd]. lra. }
    lra. }
  split; [exact E|]. intros L2. rewrite E. destruct ps as [|a [|b [|c r]]]; cbn [length] in L2; try lia.
  cbn [length clean_up]. rewrite forward_length. reflexivity.
Qed.

(** Likewise for the way back. *)
Theorem C93_way_back s road ps sg : (2 <= length ps)%nat -> sg = 1 \/ sg = -1 -> (forall p, In p ps -> / 10 ^ 9 <= Rabs (px p - py p)) ->
  (forall p, In p (reverse_points s ps) -> / 10 ^ 9 <= sg * (px p - py p)) ->
  offset_reverse s road ps = rev (clean_up (length ps) road (rev (reverse_points s ps))) /\
  (length ps = 2%nat -> offset_reverse s road ps = reverse_points s ps).
Proof.
  intros L SG C F. pose proof (small_pos 9) as SP.
  assert (ABS : forall x, / 10 ^ 9 <= sg * x -> / 10 ^ 9 <= Rabs x).
  { intros x X. destruct SG as [->| ->]; unfold Rabs; destruct (Rcase_abs x); lra. }
  assert (RL : length (rev (reverse_points s ps)) = length ps) by (unfold reverse_points; rewrite rev_length, map_length, rev_length, seq_length; reflexivity).
  assert (E : offset_reverse s road ps = rev (clean_up (length ps) road (rev (reverse_points s ps)))).
  { unfold offset_reverse. rewrite (clear_zero ps C).
    assert (Z : remove_zero (reverse_points s ps) = reverse_points s ps) by (apply clear_zero; intros p P; apply ABS, F, P).
    destruct ps as [|a [|b r]]; cbn [length] in L; try lia. cbv iota. rewrite Z. cbv zeta. rewrite RL. apply clear_zero.
    intros p P. apply in_rev in P. pose proof (C93_looks road (rev (reverse_points s (a :: b :: r)))) as G. rewrite RL in G. destruct (G L) as (_ & _ & H & _).
    specialize (H p P). apply ABS. specialize (H (- sg) sg (- / 10 ^ 9)). cbn [plc fst snd] in H.
    assert (H2 : - sg * px p + sg * py p <= - / 10 ^ 9).
    { apply H. intros q Q. apply in_map_iff in Q. destruct Q as (q' & <- & Q). apply in_rev in Q. specialize (F q' Q). cbn [plc fst snd]. lra. }
    lra. }
  split; [exact E|]. intros L2. rewrite E. replace (clean_up (length ps) road (rev (reverse_points s ps))) with (rev (reverse_points s ps)).
  - apply rev_involutive.
  - rewrite L2 in *. cbn [clean_up]. rewrite RL. reflexivity.
Qed.

(** *** The option *)

Lemma way_length_way ps : way_length ps = way (map plc ps).
Proof.
  induction ps as [|a ps IH]; [reflexivity|]. destruct ps as [|b r]; [reflexivity|].
  change (way_length (a :: b :: r)) with (dist b a + way_length (b :: r)). rewrite IH, dist_away. reflexivity.
Qed.

(** The cost is the time for the way in whole milliseconds, and nothing without a speed. *)
Theorem C93_cost plan speed :
  (0 < speed -> IZR (option_cost plan speed) <= 1000 * (way (map plc plan) / speed) < IZR (option_cost plan speed) + 1) /\
  (speed <= 0 -> option_cost plan speed = 0%Z).
Proof.
  unfold option_cost. rewrite way_length_way. destruct (Rlt_dec 0 speed) as [P|P].
  - split; [|lra]. intros _. set (x := way (map plc plan) / speed * 1000). destruct (base_Int_part x) as (A & B).
    replace (1000 * (way (map plc plan) / speed)) with x by (unfold x; ring). lra.
  - split; [lra|]. intros _. rewrite Rmult_0_l. unfold Int_part. replace (up 0) with 1%Z; [reflexivity|]. apply tech_up; cbn; lra.
Qed.

Lemma atan_sign x : (0 <= x -> 0 <= atan x) /\ (x <= 0 -> atan x <= 0).
Proof.
  split; intros [X|X].
  - apply atan_increasing in X. rewrite atan_0 in X. lra.
  - rewrite <- X, atan_0. lra.
  - apply atan_increasing in X. rewrite atan_0 in X. lra.
  - rewrite X, atan_0. lra.
Qed.

Lemma heading_range y x : - PI <= atan2 y x <= PI.
Proof.
  unfold atan2. pose proof PI_RGT_0. destruct (atan_bound (y / x)). destruct (atan_sign (y / x)) as (A & B).
  destruct (Rlt_dec 0 x); [lra|]. destruct (Rlt_dec x 0) as [X|X].
  - pose proof (Rinv_lt_0_compat x X) as I. destruct (Rle_dec 0 y) as [Y|Y].
    + assert (y / x <= 0) by (unfold Rdiv; nra). specialize (B ltac:(assumption)). lra.
    + assert (0 <= y / x) by (unfold Rdiv; nra). specialize (A ltac:(assumption)). lra.
  - destruct (Rlt_dec 0 y); [lra|]. destruct (Rlt_dec y 0); lra.
Qed.

(** The headings are those of the first and the last leg, clockwise from north, and west of north below zero. *)
Theorem C93_headings a b pre post : plc a <> plc b ->
  let along_heading h := - PI <= h <= PI /\ exists r, 0 < r /\ fst (plc b) = fst (plc a) + r * cos h /\ snd (plc b) = snd (plc a) + r * sin h in
  along_heading (start_heading (a :: b :: post)) /\ along_heading (end_heading (pre ++ [a; b])).
Proof.
  intros N. cbn zeta.
  assert (H : - PI <= heading a b <= PI /\
    exists r, 0 < r /\ fst (plc b) = fst (plc a) + r * cos (heading a b) /\ snd (plc b) = snd (plc a) + r * sin (heading a b)).
  { split; [apply heading_range|]. unfold heading. destruct (atan2_spec (py b - py a) (px b - px a)) as (L & X & Y).
    { destruct (Req_dec (px b - px a) 0) as [Z|Z]; [|left; exact Z]. right. intros Z2. apply N. unfold plc. f_equal; lra. }
    exists (sqrt ((px b - px a) * (px b - px a) + (py b - py a) * (py b - py a))). unfold plc. cbn [fst snd]. rewrite X, Y. lra. }
  split; [exact H|]. unfold end_heading. rewrite app_length. cbn [length].
  rewrite !app_nth2 by lia. replace (length pre + 2 - 2 - length pre)%nat with 0%nat by lia. replace (length pre + 2 - 1 - length pre)%nat with 1%nat by lia.
  exact H.
Qed.

(** *** Cases *)

(** North for a kilometre, 45 degrees down from 100 metres, to the side: the way is 100 metres east of the line, and what it sees is
    on its left. *)
Example C93_case :
  let p x y := {| px := x; py := y; pz := 0; fixed := false |} in
  let s := {| azimuth := PI / 2; elevation := PI / 4; nominal := 100; terrain := true; same_side := false |} in
  let line := [p 0 2000; p 1000 2000] in
  map plc (offset_forward s line line) = [(0, 2100); (1000, 2100)] /\ course (0, 2000) (1000, 2000) (1, 0) /\
  looks_down 100 (elevation s) 100 /\ sees (0, 2100) (1, 0) (0, 2000) 100 (- azimuth s).
Proof.
  intros p s line. pose proof PI_RGT_0 as PP.
  assert (RE : forall q, reach s q = 100).
  { intros q. apply (looks_down_unique 100 (elevation s)); [apply reach_spec; reflexivity|].
    split; cbn [elevation s]; [intros _; rewrite tan_PI4; ring|lra]. }
  assert (FW : map plc (forward_points s line) = [(0, 2100); (1000, 2100)]).
  { assert (A : forall v q, px v = 1000 -> py v = 0 -> px (shifted v (PI - azimuth s) (reach s q) q) = px q /\
                                                        py (shifted v (PI - azimuth s) (reach s q) q) = py q + 100).
    { intros v q X Y. destruct (shifted_spec v (PI - azimuth s) (reach s q) q (1, 0) 1000) as (SX & SY & _); cbn [fst snd]; try lra.
      rewrite SX, SY, RE. unfold right. cbn [fst snd azimuth s]. replace (PI - PI / 2) with (PI / 2) by field. rewrite cos_PI2, sin_PI2. lra. }
    unfold forward_points, line. cbn [length seq map]. unfold forward_point. cbn [length Nat.eqb Nat.sub orb nth plc px py].
    destruct (A (psub (p 1000 2000) (p 0 2000)) (p 0 2000)) as (X1 & Y1); [cbn; lra|cbn; lra|].
    destruct (A (psub (p 1000 2000) (p 0 2000)) (p 1000 2000)) as (X2 & Y2); [cbn; lra|cbn; lra|].
    unfold plc. cbn [px py]. rewrite X1, Y1, X2, Y2. cbn [px py p]. f_equal; [f_equal; lra|]. f_equal. f_equal; lra. }
  assert (K9 : / 10 ^ 9 <= 1) by (rewrite <- Rinv_1; apply Rinv_le_contravar; [lra|apply pow_R1_Rle; lra]).
  split; [|split; [|split]].
  - assert (Z : offset_forward s line line = forward_points s line).
    { apply (C93_way s line line (-1)); [cbn; lia|right; reflexivity| | |reflexivity].
      - intros q [<-|[<-|[]]]; cbn [px py p]; unfold Rabs; destruct (Rcase_abs _); lra.
      - intros q Q. apply (in_map plc) in Q. rewrite FW in Q. unfold plc in Q. destruct Q as [Q|[Q|[]]]; injection Q as Q1 Q2; lra. }
    rewrite Z. exact FW.
  - split; [cbn; ring|]. exists 1000. cbn. lra.
  - split; cbn [elevation s]; [intros _; rewrite tan_PI4; ring|lra].
  - unfold sees, right. cbn [fst snd azimuth s]. rewrite cos_neg, sin_neg, cos_PI2, sin_PI2. lra.
Qed.

(** A turn to the right by 90 degrees: the corner of the way is nearer than the straight parts. *)
Example C93_bend_case :
  let p x y := {| px := x; py := y; pz := 0; fixed := false |} in
  let s := {| azimuth := PI / 2; elevation := PI / 4; nominal := 100; terrain := true; same_side := false |} in
  let line := [p 0 0; p 1000 0; p 1000 1000] in
  turns (0, 0) (1000, 0) (1000, 1000) (- (PI / 2)) /\
  beside (1000, 0) (1, 0) (plc (nth 1 (forward_points s line) origin)) (100 * cos (PI / 4)) /\
  beside (1000, 0) (0, 1) (plc (nth 1 (forward_points s line) origin)) (100 * cos (PI / 4)).
Proof.
  intros p s line. pose proof PI_RGT_0 as PP.
  assert (T : turns (0, 0) (1000, 0) (1000, 1000) (- (PI / 2))).
  { split; [lra|]. exists 0, 1000, 1000. replace (0 - - (PI / 2)) with (PI / 2) by ring. rewrite cos_0, sin_0, cos_PI2, sin_PI2. cbn. lra. }
  assert (TF : forall a b, 1 <= (fst b - fst a) ^ 2 + (snd b - snd a) ^ 2 -> tiny <= away a b).
  { intros a b H. apply Rle_trans with 1; [unfold tiny; rewrite <- Rinv_1; apply Rinv_le_contravar; [lra|apply pow_R1_Rle; lra]|].
    rewrite <- sqrt_1. apply sqrt_le_1_alt, H. }
  split; [exact T|].
  destruct (C93_between s line 1 100 100 (- (PI / 2)) (1, 0) (0, 1)) as (A & B & _).
  - cbn; lia.
  - reflexivity.
  - split; cbn [elevation s]; [intros _; rewrite tan_PI4; ring|lra].
  - apply TF. cbn. lra.
  - apply TF. cbn. lra.
  - exact T.
  - split; [cbn; ring|]. exists 1000. cbn. lra.
  - split; [cbn; ring|]. exists 1000. cbn. lra.
  - cbn [azimuth s] in A, B. rewrite sin_PI2, Rmult_1_r in A, B. replace (- (PI / 2) / 2) with (- (PI / 4)) in A, B by field.
    rewrite cos_neg in A, B. split; [exact A|exact B].
Qed.

Print Assumptions C93_stares.
Print Assumptions C93_looks.
Print Assumptions C93_parallel_refuted.
Print Assumptions C93_reverse.
Print Assumptions C93_way.
Print Assumptions C93_way_back.
Print Assumptions C93_cost.
Print Assumptions C93_headings.

(** C108: the point of the road that belongs to the place of a vehicle on its plan. *)
From Coq Require Import Reals Lra Lia List.
From Verif Require Import EscortModel EscortSpec EscortGeom StareMapModel StareMapSpec.
Import ListNotations.
Open Scope R_scope.

Lemma seg_len_gap a b : seg_len a b = gap a b.
Proof. apply len_gap. Qed.
Lemma total_way ps : total ps = way ps.
Proof. induction ps as [|p [|q r] IH]; [reflexivity|reflexivity|]. cbn [total way] in *. rewrite seg_len_gap. f_equal. exact IH. Qed.
Lemma to_closest a b t : dist_to_closest a b t = gap t (closest_point a b t).
Proof. apply len_gap. Qed.
Lemma short_pos : 0 < short.
Proof. unfold short. apply Rinv_0_lt_compat. lra. Qed.

(** The invariant of the loop: of the legs up to [n] the one found is nearest. *)
Lemma snap_loop_spec t all : forall ps pre n d k c, all = pre ++ ps -> n = length pre ->
  d = gap t c -> (exists a b, leg all k a b /\ c = closest_point a b t) ->
  (forall j a b, (j < n)%nat -> leg all j a b -> d <= gap t (closest_point a b t)) ->
  let (k', c') := snap_loop t n d k c ps in
  (exists a b, leg all k' a b /\ c' = closest_point a b t) /\ forall j a b, leg all j a b -> gap t c' <= gap t (closest_point a b t).
Proof.
  induction ps as [|p [|q r] IH]; intros pre n d k c A NL DC K M; cbn [snap_loop].
  - split; [exact K|]. intros j a b L. rewrite <- DC. apply (M j); [|exact L]. destruct L as (L & _). assert (X : (j < length all)%nat) by (apply nth_error_Some; congruence). rewrite A, app_nil_r in X. lia.
  - split; [exact K|]. intros j a b L. rewrite <- DC. apply (M j); [|exact L]. destruct L as (_ & L). assert (X : (S j < length all)%nat) by (apply nth_error_Some; congruence). rewrite A, app_length in X. cbn [length] in X. lia.
  - assert (LN : leg all n p q).
    { subst n. rewrite A. split; rewrite nth_error_app2 by lia; [rewrite Nat.sub_diag|replace (S (length pre) - length pre)%nat with 1%nat by lia]; reflexivity. }
    assert (UQ : forall a b, leg all n a b -> a = p /\ b = q) by (intros a b (L1 & L2); destruct LN; split; congruence).
    assert (A' : all = (pre ++ [p]) ++ q :: r) by (rewrite <- app_assoc; exact A). assert (N' : S n = length (pre ++ [p])) by (rewrite app_length; cbn; lia).
    rewrite to_closest. destruct (Rlt_dec (gap t (closest_point p q t)) d) as [C|C].
    + apply (IH (pre ++ [p])); auto; [exists p, q; auto|]. intros j a b J L. destruct (Nat.eq_dec j n) as [->|NE]; [destruct (UQ _ _ L) as (-> & ->); lra|]. specialize (M j a b ltac:(lia) L). lra.
    + apply (IH (pre ++ [p])); auto. intros j a b J L. destruct (Nat.eq_dec j n) as [->|NE]; [destruct (UQ _ _ L) as (-> & ->); lra|]. apply (M j); [lia|exact L].
Qed.

(** The place on the plan is the nearest one. *)
Theorem C108_snap ps t : (2 <= length ps)%nat -> exists k c, snap ps t = Some (k, c) /\ nearest_on ps t k c.
Proof.
  intros LE. destruct ps as [|p [|q r]]; try (cbn in LE; lia). unfold snap.
  pose proof (snap_loop_spec t (p :: q :: r) (q :: r) [p] 1 (dist_to_closest p q t) 0 (closest_point p q t) eq_refl eq_refl (to_closest p q t)) as SP.
  destruct (snap_loop t 1 (dist_to_closest p q t) 0 (closest_point p q t) (q :: r)) as (k, c). exists k, c. split; [reflexivity|].
  destruct SP as ((a & b & L & E) & M).
  { exists p, q. split; [split; reflexivity|reflexivity]. }
  { intros j a b J L. assert (j = 0%nat) by lia. subst j. destruct L as (L1 & L2). cbn in L1, L2. injection L1 as <-. injection L2 as <-. rewrite to_closest. lra. }
  exists a, b. split; [exact L|]. split; [rewrite E; apply closest_nearest|]. intros x (j & a' & b' & L' & B'). specialize (M j a' b' L'). destruct (closest_nearest a' b' t) as (_ & CN). specialize (CN x B'). lra.
Qed.

Lemma toward_pnt p q d : 0 < gap p q -> toward p q d = pnt p q (d / gap p q).
Proof. intros G. unfold toward, add, scale, sub, pnt. rewrite seg_len_gap. cbn [fst snd]. f_equal; field; lra. Qed.

Lemma part_of p q d : 0 < gap p q -> 0 <= d <= gap p q -> between p q (pnt p q (d / gap p q)) /\ gap p (pnt p q (d / gap p q)) = d.
Proof.
  intros G D. assert (K : 0 <= d / gap p q <= 1).
  { split; [apply Rmult_le_pos; [lra|left; apply Rinv_0_lt_compat; lra]|]. apply Rmult_le_reg_r with (gap p q); [lra|]. replace (d / gap p q * gap p q) with d by (field; lra). lra. }
  split; [exists (d / gap p q); split; [exact K|reflexivity]|]. rewrite <- (pnt_0 p q) at 1. rewrite pnt_gap. rewrite Rabs_pos_eq by lra. field. lra.
Qed.

Lemma walk_road_step f l run p q r : walk_road f l run (p :: q :: r) =
  if Rle_dec f ((run + gap p q) / l) then (if Rlt_dec (gap p q) short then p else toward p q (f * l - run)) else walk_road f l (run + gap p q) (q :: r).
Proof. rewrite <- (seg_len_gap p q). reflexivity. Qed.

Lemma walk_road_travel f l : 0 < l -> forall r p q run, run <= f * l -> exists s, travel (q :: r) p (f * l - run) s /\ gap s (walk_road f l run (p :: q :: r)) <= short.
Proof.
  intros LP. pose proof short_pos as SP. induction r as [|n r IH]; intros p q run RU.
  all: rewrite walk_road_step; pose proof (gap_pos p q) as GP.
  all: assert (STEP : f <= (run + gap p q) / l <-> f * l - run <= gap p q)
      by (split; intro X; [apply Rmult_le_compat_r with (r := l) in X; [|lra]; replace ((run + gap p q) / l * l) with (run + gap p q) in X by (field; lra); lra
                          |apply Rmult_le_reg_r with l; [exact LP|]; replace ((run + gap p q) / l * l) with (run + gap p q) by (field; lra); lra]).
  all: destruct (Rle_dec f ((run + gap p q) / l)) as [C|C].
  1, 3: apply STEP in C; destruct (Req_dec (gap p q) 0) as [G0|G0];
    [exists p; split; [apply on_leg; [exists 0; split; [lra|]; destruct p; cbn [fst snd]; f_equal; ring|rewrite gap_refl; lra]|];
     destruct (Rlt_dec (gap p q) short); [rewrite gap_refl; lra|lra]
    |destruct (part_of p q (f * l - run)) as (BT & GD); [lra|lra|]; exists (pnt p q ((f * l - run) / gap p q)); split; [apply on_leg; assumption|];
     destruct (Rlt_dec (gap p q) short); [rewrite gap_sym, GD; lra|rewrite toward_pnt by lra; rewrite gap_refl; lra]].
  - assert (X : gap p q <= f * l - run) by (destruct (Rle_dec (f * l - run) (gap p q)) as [Y|Y]; [exfalso; apply C, STEP, Y|lra]).
    exists q. split; [apply beyond; [exact X|apply at_end]|cbn [walk_road]; rewrite gap_refl; lra].
  - assert (X : gap p q <= f * l - run) by (destruct (Rle_dec (f * l - run) (gap p q)) as [Y|Y]; [exfalso; apply C, STEP, Y|lra]).
    destruct (IH q n (run + gap p q)) as (s & T & G); [lra|]. exists s. split; [|exact G]. apply beyond; [exact X|]. replace (f * l - run - gap p q) with (f * l - (run + gap p q)) by ring. exact T.
Qed.

Lemma way_pos ps : 0 <= way ps.
Proof. induction ps as [|p [|q r] IH]; cbn [way] in *; try lra. pose proof (gap_pos p q). lra. Qed.

Lemma behind_progressed ps k c t : nearest_on ps t k c -> progressed ps k c (behind ps k c).
Proof.
  intros (a & b & L & _). exists a, b. split; [exact L|]. unfold behind. rewrite total_way. f_equal. destruct L as (L & _). rewrite (nth_error_nth ps k c L). change (dist c a) with (gap c a). apply gap_sym.
Qed.

Lemma behind_pos ps k c : 0 <= behind ps k c.
Proof. unfold behind. rewrite total_way. pose proof (way_pos (firstn (S k) ps)). pose proof (gap_pos c (nth k ps c)). change (dist c (nth k ps c)) with (gap c (nth k ps c)). lra. Qed.

Lemma stare_eq plan road t : (2 <= length plan)%nat -> (2 <= length road)%nat -> / 10 ^ 6 <= way plan -> / 10 ^ 6 <= way road ->
  exists k c, nearest_on plan t k c /\ stare plan road t = walk_road (behind plan k c / way plan) (way road) 0 road.
Proof.
  intros LP LR WP WR. destruct (C108_snap plan t LP) as (k & c & SN & NE). exists k, c. split; [exact NE|].
  destruct road as [|p [|q r]]; try (cbn in LR; lia). destruct plan as [|u [|v w]]; try (cbn in LP; lia). unfold stare. rewrite SN, !total_way. unfold short.
  destruct (Rlt_dec (way (u :: v :: w)) (/ 10 ^ 6)); [lra|]. destruct (Rlt_dec (way (p :: q :: r)) (/ 10 ^ 6)); [lra|]. reflexivity.
Qed.

(** The point looked at is as far along the road as the vehicle along its plan, up to a thousandth of a millimeter. *)
Theorem C108_stare plan road t : (2 <= length plan)%nat -> (2 <= length road)%nat -> / 10 ^ 6 <= way plan -> / 10 ^ 6 <= way road ->
  exists s, looked_at plan road t s /\ gap s (stare plan road t) <= / 10 ^ 6.
Proof.
  intros LP LR WP WR. pose proof short_pos as SP. unfold short in SP. destruct (stare_eq plan road t LP LR WP WR) as (k & c & NE & ->).
  destruct road as [|p [|q r]]; try (cbn in LR; lia).
  destruct (walk_road_travel (behind plan k c / way plan) (way (p :: q :: r)) ltac:(lra) r p q 0) as (s & T & G).
  { apply Rmult_le_pos; [|lra]. apply Rmult_le_pos; [apply behind_pos|left; apply Rinv_0_lt_compat; lra]. }
  exists s. split; [|exact G]. exists k, c, (behind plan k c). split; [exact NE|]. split; [apply (behind_progressed _ _ _ t), NE|]. rewrite Rminus_0_r in T. exact T.
Qed.

Lemma travel_on rest : forall p d q, rest <> [] -> travel rest p d q -> on (p :: rest) q.
Proof.
  induction rest as [|n rest IH]; intros p d q NE T; [congruence|]. inversion T as [|? ? ? ? ? B G|? ? ? ? ? G T']; subst.
  - exists 0%nat, p, n. split; [split; reflexivity|exact B].
  - destruct rest as [|m rest].
    + inversion T'; subst. exists 0%nat, p, q. split; [split; reflexivity|]. exists 1. split; [lra|]. destruct q; cbn [fst snd]; f_equal; ring.
    + destruct (IH n _ q ltac:(discriminate) T') as (i & a & b & L & B). exists (S i), a, b. split; [exact L|exact B].
Qed.

(** So it is on the road. *)
Theorem C108_on_road plan road t : (2 <= length plan)%nat -> (2 <= length road)%nat -> / 10 ^ 6 <= way plan -> / 10 ^ 6 <= way road ->
  exists s, on road s /\ gap s (stare plan road t) <= / 10 ^ 6.
Proof.
  intros LP LR WP WR. destruct (C108_stare plan road t LP LR WP WR) as (s & (k & c & x & _ & _ & T) & G). exists s. split; [|exact G].
  destruct road as [|p [|q r]]; try (cbn in LR; lia). eapply travel_on; [discriminate|exact T].
Qed.

(** Without a way to go along, it is the begin of the road. *)
Theorem C108_begin plan p road t : (length plan < 2)%nat \/ road = [] \/ way plan < / 10 ^ 6 \/ way (p :: road) < / 10 ^ 6 -> stare plan (p :: road) t = p.
Proof.
  intros Q. unfold stare. destruct road as [|q r]; [reflexivity|]. destruct plan as [|u [|v w]]; try reflexivity. rewrite !total_way. unfold short.
  destruct (Rlt_dec (way (u :: v :: w)) (/ 10 ^ 6)); [reflexivity|]. destruct (Rlt_dec (way (p :: q :: r)) (/ 10 ^ 6)); [reflexivity|].
  exfalso. destruct Q as [Q|[Q|[Q|Q]]]; [cbn in Q; lia|discriminate|lra|lra].
Qed.

(** With the stored values the way to the leg is taken off as a part of the whole, not in meters. *)
Lemma walk_stored_step f l n n' ns p q r : walk_stored f l (n :: n' :: ns) (p :: q :: r) =
  if Rle_dec f n' then (if Rlt_dec (gap p q) short then p else toward p q (f * l - n)) else walk_stored f l (n' :: ns) (q :: r).
Proof. rewrite <- (seg_len_gap p q). reflexivity. Qed.
Lemma norms_step l run p q r : norms l run (p :: q :: r) = run / l :: norms l (run + gap p q) (q :: r).
Proof. rewrite <- (seg_len_gap p q). reflexivity. Qed.
Lemma way_step p q r : way (p :: q :: r) = gap p q + way (q :: r).
Proof. reflexivity. Qed.

Lemma toward_gap p q d e : 0 < gap p q -> gap (toward p q d) (toward p q e) = Rabs (e - d).
Proof.
  intros G. rewrite !toward_pnt by exact G. rewrite pnt_gap. replace (e / gap p q - d / gap p q) with ((e - d) * / gap p q) by (field; lra).
  rewrite Rabs_mult, (Rabs_pos_eq (/ gap p q)) by (left; apply Rinv_0_lt_compat, G). field. lra.
Qed.

Lemma stored_walk f l : 0 < l -> forall r p q run, run <= f * l -> l = run + way (p :: q :: r) -> (forall i a b, leg (p :: q :: r) i a b -> short <= gap a b) ->
  let u := walk_road f l run (p :: q :: r) in let v := walk_stored f l (norms l run (p :: q :: r)) (p :: q :: r) in
  (u = List.last (p :: q :: r) p /\ v = u) \/
  exists k a b, leg (p :: q :: r) k a b /\ between a b u /\ gap u v = Rabs ((run + way (firstn (S k) (p :: q :: r))) * (1 - / l)).
Proof.
  intros LP. pose proof short_pos as SP. induction r as [|n r IH]; intros p q run RU LE SH; cbv zeta.
  - assert (G : short <= gap p q) by (apply (SH 0%nat); split; reflexivity). cbn [way] in LE.
    rewrite walk_road_step, norms_step. cbn [norms]. rewrite walk_stored_step.
    assert (ONE : (run + gap p q) / l = 1) by (rewrite LE; field; lra). rewrite ONE. destruct (Rle_dec f 1) as [C|C]; [|left; split; reflexivity].
    destruct (Rlt_dec (gap p q) short); [lra|]. right. exists 0%nat, p, q. split; [split; reflexivity|].
    assert (FL : f * l <= 1 * l) by (apply Rmult_le_compat_r; lra). split.
    + rewrite toward_pnt by lra. apply part_of; lra.
    + rewrite toward_gap by lra. cbn [firstn way]. f_equal. field. lra.
  - assert (G : short <= gap p q) by (apply (SH 0%nat); split; reflexivity). rewrite way_step in LE.
    rewrite walk_road_step, norms_step, (norms_step l _ q n). rewrite walk_stored_step.
    destruct (Rle_dec f ((run + gap p q) / l)) as [C|C].
    + destruct (Rlt_dec (gap p q) short); [lra|]. right. exists 0%nat, p, q. split; [split; reflexivity|].
      assert (FL : f * l <= (run + gap p q) / l * l) by (apply Rmult_le_compat_r; lra). replace ((run + gap p q) / l * l) with (run + gap p q) in FL by (field; lra). split.
      * rewrite toward_pnt by lra. apply part_of; lra.
      * rewrite toward_gap by lra. cbn [firstn way]. f_equal. field. lra.
    + assert (FL : run + gap p q <= f * l).
      { apply Rnot_le_lt in C. apply Rmult_lt_compat_r with (r := l) in C; [|exact LP]. replace ((run + gap p q) / l * l) with (run + gap p q) in C by (field; lra). lra. }
      assert (SH' : forall i a b, leg (q :: n :: r) i a b -> short <= gap a b) by (intros i a b L; apply (SH (S i)); exact L).
      destruct (IH q n (run + gap p q) FL ltac:(lra) SH') as [(U & V)|(k & a & b & L & BT & GE)].
      * left. rewrite <- norms_step. split; [rewrite U|exact V]. change (List.last (p :: q :: n :: r) p) with (List.last (q :: n :: r) p). clear. assert (X : forall (x : pt) m y z, List.last (x :: m) y = List.last (x :: m) z) by (intros x m; revert x; induction m as [|w m IH]; intros x y z; [reflexivity|exact (IH w y z)]). apply X.
      * right. exists (S k), a, b. rewrite <- norms_step. split; [exact L|]. split; [exact BT|]. rewrite GE. f_equal. change (firstn (S (S k)) (p :: q :: n :: r)) with (p :: q :: firstn k (n :: r)). rewrite way_step. change (firstn (S k) (q :: n :: r)) with (q :: firstn k (n :: r)). ring.
Qed.

(** The point worked out from stored values is off by the length of the road before the leg, but for its part of the whole. *)
Theorem C108_stored_refuted plan road t : (2 <= length plan)%nat -> (2 <= length road)%nat -> / 10 ^ 6 <= way plan -> (forall i a b, leg road i a b -> / 10 ^ 6 <= gap a b) ->
  exists m, initialize plan road = Some m /\
  ((stare_stored m t = stare plan road t /\ forall x, stare plan road t = List.last road x) \/
   exists k a b, leg road k a b /\ between a b (stare plan road t) /\ gap (stare plan road t) (stare_stored m t) = Rabs (way (firstn (S k) road) * (1 - / way road))).
Proof.
  intros LP LR WP SH. pose proof short_pos as SP.
  assert (WR : / 10 ^ 6 <= way road).
  { destruct road as [|p [|q r]]; try (cbn in LR; lia). rewrite way_step. pose proof (way_pos (q :: r)). specialize (SH 0%nat p q (conj eq_refl eq_refl)). lra. }
  destruct (C108_snap plan t LP) as (k & c & SN & NE).
  set (m := {| m_path := road; m_plan := plan; m_norm := norms (total road) 0 road; m_plan_length := total plan; m_path_length := total road |}).
  exists m. split; [destruct plan, road; try (cbn in LP, LR; lia); reflexivity|].
  assert (E1 : stare plan road t = walk_road (behind plan k c / way plan) (way road) 0 road).
  { destruct road as [|p [|q r]]; try (cbn in LR; lia). destruct plan as [|u [|v w]]; try (cbn in LP; lia). unfold stare. rewrite SN, !total_way. unfold short.
    destruct (Rlt_dec (way (u :: v :: w)) (/ 10 ^ 6)); [lra|]. destruct (Rlt_dec (way (p :: q :: r)) (/ 10 ^ 6)); [lra|]. reflexivity. }
  assert (E2 : stare_stored m t = walk_stored (behind plan k c / way plan) (way road) (norms (way road) 0 road) road).
  { unfold m. rewrite !total_way. destruct road as [|p [|q r]]; try (cbn in LR; lia). destruct plan as [|u [|v w]]; try (cbn in LP; lia). unfold stare_stored. cbn [m_path m_plan m_norm m_plan_length m_path_length]. rewrite SN. unfold short.
    destruct (Rlt_dec (way (u :: v :: w)) (/ 10 ^ 6)); [lra|]. destruct (Rlt_dec (way (p :: q :: r)) (/ 10 ^ 6)); [lra|]. reflexivity. }
  rewrite E1, E2. destruct road as [|p [|q r]]; try (cbn in LR; lia). unfold short in SP.
  destruct (stored_walk (behind plan k c / way plan) (way (p :: q :: r)) ltac:(lra) r p q 0) as [(U & V)|(j & a & b & L & BT & GE)].
  - apply Rmult_le_pos; [|lra]. apply Rmult_le_pos; [apply behind_pos|left; apply Rinv_0_lt_compat; lra].
  - ring.
  - exact SH.
  - left. split; [exact V|]. intro x. rewrite U. assert (X : forall (x : pt) m y z, List.last (x :: m) y = List.last (x :: m) z) by (intros x0 m0; revert x0; induction m0 as [|w m0 IH]; intros x0 y z; [reflexivity|exact (IH w y z)]). apply X.
  - right. exists j, a, b. split; [exact L|]. split; [exact BT|]. rewrite GE. f_equal. ring.
Qed.

(** Storing an empty plan or road runs over the end of an array. *)
Theorem C108_empty_refuted plan road : plan = [] \/ road = [] -> initialize plan road = None.
Proof. intros [-> | ->]; [reflexivity|]. destruct plan; reflexivity. Qed.

(** A concrete case: 150 m along a straight road of two legs of 100 m. *)
Definition r3 : list pt := [(0, 0); (100, 0); (200, 0)].

Lemma gap_line x y : gap (x, 0) (y, 0) = Rabs (y - x).
Proof. unfold gap. cbn [fst snd]. replace ((y - x) ^ 2 + (0 - 0) ^ 2) with (Rsqr (y - x)) by (unfold Rsqr; ring). apply sqrt_Rsqr_abs. Qed.
Lemma way_r3 : way r3 = 200.
Proof. unfold r3. cbn [way]. rewrite !gap_line. rewrite !Rabs_pos_eq by lra. lra. Qed.
Lemma snap_r3 : snap r3 (150, 0) = Some (1%nat, (150, 0)).
Proof.
  assert (TP : 0 < tiny < 1) by (unfold tiny; split; [apply Rinv_0_lt_compat; lra|rewrite <- Rinv_1; apply Rinv_lt_contravar; lra]).
  assert (C1 : closest_point (0, 0) (100, 0) (150, 0) = (100, 0)).
  { rewrite closest_eq. cbn [fst snd]. destruct (Rlt_dec _ tiny); [lra|]. destruct (Rle_dec _ (- tiny)); [lra|]. destruct (Rle_dec tiny _); [reflexivity|lra]. }
  assert (C2 : closest_point (100, 0) (200, 0) (150, 0) = (150, 0)).
  { rewrite closest_eq. cbn [fst snd]. destruct (Rlt_dec _ tiny); [lra|]. destruct (Rle_dec _ (- tiny)); [lra|]. destruct (Rle_dec tiny _); [lra|]. unfold pnt. cbn [fst snd]. f_equal; field. }
  unfold r3, snap. cbn [snap_loop]. rewrite !to_closest, C1, C2, !gap_line. rewrite (Rabs_left (100 - 150)) by lra. rewrite (Rabs_pos_eq (150 - 150)) by lra.
  destruct (Rlt_dec (150 - 150) (- (100 - 150))); [reflexivity|lra].
Qed.
Lemma behind_r3 : behind r3 1 (150, 0) / way r3 = 3 / 4.
Proof. rewrite way_r3. unfold behind. rewrite total_way. unfold r3. cbn [firstn way nth]. change (dist (150, 0) (100, 0)) with (gap (150, 0) (100, 0)). rewrite !gap_line. rewrite (Rabs_left (100 - 150)), (Rabs_pos_eq (100 - 0)) by lra. field. Qed.

Example C108_case : (2 <= length r3)%nat /\ / 10 ^ 6 <= way r3 /\ (forall i a b, leg r3 i a b -> / 10 ^ 6 <= gap a b) /\
  stare r3 r3 (150, 0) = (150, 0) /\ exists m, initialize r3 r3 = Some m /\ stare_stored m (150, 0) = (2495 / 10, 0).
Proof.
  pose proof short_pos as SP. assert (SL : short < 1) by (unfold short; rewrite <- Rinv_1; apply Rinv_lt_contravar; lra). fold short.
  split; [cbn; lia|]. split; [rewrite way_r3; lra|]. split.
  { intros [|[|[|i]]] a b (L1 & L2); cbn in L1, L2; try discriminate; injection L1 as <-; injection L2 as <-; rewrite gap_line, Rabs_pos_eq by lra; lra. }
  assert (G1 : gap (0, 0) (100, 0) = 100) by (rewrite gap_line, Rabs_pos_eq; lra). assert (G2 : gap (100, 0) (200, 0) = 100) by (rewrite gap_line, Rabs_pos_eq; lra).
  split.
  - unfold stare. change (match r3 with [] => _ | [p] => _ | p :: _ => _ end) with (if Rlt_dec (total r3) short then (0, 0) else if Rlt_dec (total r3) short then (0, 0) else match snap r3 (150, 0) with None => (0, 0) | Some (k, c) => walk_road (behind r3 k c / total r3) (total r3) 0 r3 end).
    rewrite snap_r3, total_way, behind_r3, way_r3. destruct (Rlt_dec 200 short); [lra|]. unfold r3. rewrite !walk_road_step, G1, G2.
    destruct (Rle_dec (3 / 4) ((0 + 100) / 200)); [lra|]. destruct (Rle_dec (3 / 4) ((0 + 100 + 100) / 200)); [|lra]. destruct (Rlt_dec 100 short); [lra|].
    rewrite toward_pnt by lra. rewrite G2. unfold pnt. cbn [fst snd]. f_equal; field.
  - eexists. split; [reflexivity|]. unfold stare_stored. cbn [m_path m_plan m_norm m_plan_length m_path_length]. fold r3.
    change (match r3 with [] => _ | [p] => _ | p :: _ => _ end) with (if Rlt_dec (total r3) short then (0, 0) else if Rlt_dec (total r3) short then (0, 0) else match snap r3 (150, 0) with None => (0, 0) | Some (k, c) => walk_stored (behind r3 k c / total r3) (total r3) (norms (total r3) 0 r3) r3 end).
    rewrite snap_r3, total_way, behind_r3, way_r3. destruct (Rlt_dec 200 short); [lra|]. unfold r3. rewrite !norms_step, G1, G2. cbn [norms]. rewrite !walk_stored_step, G1, G2.
    destruct (Rle_dec (3 / 4) ((0 + 100) / 200)); [lra|]. destruct (Rle_dec (3 / 4) 1); [|lra]. destruct (Rlt_dec 100 short); [lra|].
    rewrite toward_pnt by lra. rewrite G2. unfold pnt. cbn [fst snd]. f_equal; field.
Qed.

Print Assumptions C108_snap.
Print Assumptions C108_stare.
Print Assumptions C108_on_road.
Print Assumptions C108_begin.
Print Assumptions C108_stored_refuted.
Print Assumptions C108_empty_refuted.

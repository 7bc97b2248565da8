(** C93: where the way of a line search is beside its line. *)
From Coq Require Import Reals List ZArith Bool Lia Lra Psatz.
From Verif Require Import RouteExtModel LinePlanModel LinePlanSpec LinePlanGeom LinePlanProofs LineOffsetModel LineOffsetSpec LineOffsetProofs.
Import ListNotations.
Open Scope R_scope.

(** From [h] above, something is seen [el] below the horizon [d] away on the ground; looks that are nearly level or nearly straight
    down are taken as straight down. *)
Definition looks_down (h el d : R) : Prop :=
  (PI / 180 <= el <= 89 * (PI / 180) -> d * tan el = h) /\ (el < PI / 180 \/ 89 * (PI / 180) < el -> d = 0).

(** The height above a point of the line: the given altitude if the ground is followed, the difference otherwise. *)
Definition above (s : settings) (p : point) (h : R) : Prop := h = if terrain s then nominal s else nominal s - pz p.

Lemma deg_pos : 0 < PI / 180. Proof. pose proof PI_RGT_0. lra. Qed.

Lemma reach_spec s p h : above s p h -> looks_down h (elevation s) (reach s p).
Proof.
  intros ->. pose proof deg_pos as DP. pose proof PI_RGT_0 as PP. unfold reach. split.
  - intros E. destruct (Rlt_dec _ _); [lra|]. destruct (Rlt_dec _ _); [lra|].
    assert (T : 0 < tan (elevation s)) by (apply tan_gt_0; lra). unfold Rdiv. rewrite Rmult_assoc, Rinv_l by lra. ring.
  - intros E. destruct (Rlt_dec _ _); [reflexivity|]. destruct (Rlt_dec _ _); [reflexivity|]. lra.
Qed.

Lemma looks_down_unique h el d d' : looks_down h el d -> looks_down h el d' -> d = d'.
Proof.
  intros (A & B) (A' & B'). pose proof deg_pos as DP. pose proof PI_RGT_0 as PP.
  destruct (Rlt_dec el (PI / 180)) as [L|L]; [rewrite B, B'; auto|].
  destruct (Rlt_dec (89 * (PI / 180)) el) as [L2|L2]; [rewrite B, B'; auto|].
  assert (T : 0 < tan el) by (apply tan_gt_0; lra). specialize (A ltac:(lra)). specialize (A' ltac:(lra)).
  apply Rmult_eq_reg_r with (tan el); lra.
Qed.

Section Line.
  Context (s : settings) (ps : list point).
  Let P k := nth k ps origin.
  Let W k := nth k (forward_points s ps) origin.

  Lemma forward_end k (v : point) : (2 <= length ps)%nat -> (k = 0 \/ k = length ps - 1)%nat ->
    v = (if Nat.eqb k 0 then psub (P 1) (P 0) else psub (P k) (P (k - 1)%nat)) ->
    px (W k) = px (shifted v (PI - azimuth s) (reach s (P k)) (P k)) /\
    py (W k) = py (shifted v (PI - azimuth s) (reach s (P k)) (P k)) /\
    pz (W k) = pz (shifted v (PI - azimuth s) (reach s (P k)) (P k)).
  Proof.
    intros L K ->. unfold W. rewrite forward_nth by lia. unfold forward_point. fold (P k) (P 1) (P 0) (P (k - 1)%nat) (P (S k)).
    assert (E : Nat.eqb k 0 || Nat.eqb k (length ps - 1) = true) by (apply orb_true_iff; rewrite !Nat.eqb_eq; lia).
    rewrite E. cbn [px py pz]. auto.
  Qed.

  (** From the first and the last point of the way the ends of the line are seen, at the distance that belongs to the height and the
      elevation, and at the wanted azimuth to the left of the course. *)
  Theorem C93_ends u h d : (2 <= length ps)%nat ->
    (forall k, (k = 0 \/ k = length ps - 1)%nat -> above s (P k) h -> looks_down h (elevation s) d ->
       let a := if Nat.eqb k 0 then P 0 else P (k - 1)%nat in let b := if Nat.eqb k 0 then P 1 else P k in
       / 10 ^ 10 < away (plc a) (plc b) -> course (plc a) (plc b) u ->
       sees (plc (W k)) u (plc (P k)) d (- azimuth s) /\ beside (plc (P k)) u (plc (W k)) (d * sin (azimuth s)) /\
       pz (W k) = pz (P k) + (pz b - pz a) * d / away (plc a) (plc b)).
  Proof.
    intros L k K A D a b F C. rewrite (looks_down_unique _ _ _ _ D (reach_spec s (P k) h A)). clear D.
    destruct (away_course _ _ _ C) as (X & Y). destruct C as (U & _).
    destruct (forward_end k (psub b a) L K) as (WX & WY & WZ). { unfold a, b. destruct (Nat.eqb k 0); reflexivity. }
    destruct (shifted_spec (psub b a) (PI - azimuth s) (reach s (P k)) (P k) u (away (plc a) (plc b)) U F X Y) as (SX & SY & SZ).
    assert (CO : cos (PI - azimuth s) = - cos (azimuth s)). { unfold Rminus. rewrite Rplus_comm, neg_cos, cos_neg. reflexivity. }
    assert (SI : sin (PI - azimuth s) = sin (azimuth s)) by apply sin_PI_x.
    rewrite CO, SI in SX, SY. rewrite <- WX in SX. rewrite <- WY in SY. rewrite <- WZ in SZ. split; [|split].
    - unfold sees, plc, right in *. cbn [fst snd] in *. rewrite cos_neg, sin_neg, SX, SY. lra.
    - unfold beside, plc, right in *. cbn [fst snd] in *. rewrite SX, SY.
      replace ((px (P k) + reach s (P k) * (- cos (azimuth s) * fst u + sin (azimuth s) * - snd u) - px (P k)) * - snd u +
               (py (P k) + reach s (P k) * (- cos (azimuth s) * snd u + sin (azimuth s) * fst u) - py (P k)) * fst u)
        with (reach s (P k) * sin (azimuth s) * (fst u ^ 2 + snd u ^ 2)) by ring. rewrite U. ring.
    - rewrite SZ. unfold psub. cbn [pz]. reflexivity.
  Qed.

  Lemma forward_mid k : (0 < k < length ps - 1)%nat ->
    let th := (PI - fst (separation (P (k - 1)%nat) (P k) (P (S k)))) / 2 in
    let w := shifted (psub (P k) (P (k - 1)%nat)) th (reach s (P k) * sin (azimuth s)) (P k) in
    px (W k) = px w /\ py (W k) = py w /\ pz (W k) = pz w.
  Proof.
    intros K. unfold W. rewrite forward_nth by lia. unfold forward_point. fold (P k) (P 1) (P 0) (P (k - 1)%nat) (P (S k)).
    assert (E : Nat.eqb k 0 || Nat.eqb k (length ps - 1) = false) by (apply orb_false_iff; rewrite !Nat.eqb_neq; lia).
    rewrite E. apply orb_false_iff in E. destruct E as (E & _). rewrite E. cbn [px py pz]. auto.
  Qed.

  Lemma half_turn t t' : - PI <= t <= PI -> - PI <= t' <= PI -> cos t = cos t' -> cos (t / 2) = cos (t' / 2).
  Proof.
    intros T T' E. assert (A : 0 <= cos (t / 2)) by (apply cos_ge_0; lra). assert (A' : 0 <= cos (t' / 2)) by (apply cos_ge_0; lra).
    assert (Q : cos (t / 2) ^ 2 = cos (t' / 2) ^ 2).
    { assert (D : forall x, cos x = 2 * cos (x / 2) ^ 2 - 1). { intros x. replace x with (2 * (x / 2)) at 1 by field. rewrite cos_2a_cos. ring. }
      rewrite (D t), (D t') in E. lra. }
    nra.
  Qed.

  (** A point of the way in between is as far from the leg before as from the leg behind, on the same side of both: what the height, the
      elevation and the azimuth make of a straight line, times the cosine of half the turn. *)
  Theorem C93_between k h d t u1 u2 : (0 < k < length ps - 1)%nat -> above s (P k) h -> looks_down h (elevation s) d ->
    tiny <= away (plc (P (k - 1)%nat)) (plc (P k)) -> tiny <= away (plc (P k)) (plc (P (S k))) ->
    turns (plc (P (k - 1)%nat)) (plc (P k)) (plc (P (S k))) t ->
    course (plc (P (k - 1)%nat)) (plc (P k)) u1 -> course (plc (P k)) (plc (P (S k))) u2 ->
    beside (plc (P k)) u1 (plc (W k)) (d * sin (azimuth s) * cos (t / 2)) /\
    beside (plc (P k)) u2 (plc (W k)) (d * sin (azimuth s) * cos (t / 2)) /\
    away (plc (P k)) (plc (W k)) = Rabs (d * sin (azimuth s)) /\
    pz (W k) = pz (P k) + (pz (P k) - pz (P (k - 1)%nat)) * (d * sin (azimuth s)) / away (plc (P (k - 1)%nat)) (plc (P k)).
  Proof.
    intros K A D F1 F2 T C1 C2. rewrite (looks_down_unique _ _ _ _ D (reach_spec s (P k) h A)). clear D.
    set (e := reach s (P k) * sin (azimuth s)).
    pose proof (sep_turns _ _ _ F1 F2) as T0. destruct (forward_mid k K) as (WX & WY & WZ). fold e in WX, WY, WZ.
    set (t0 := fst (separation (P (k - 1)%nat) (P k) (P (S k)))) in *.
    pose proof (turns_cos _ _ _ _ _ T T0) as TC. assert (HT : cos (t / 2) = cos (t0 / 2)) by (apply half_turn; [apply T|apply T0|exact TC]).
    rewrite HT. clear HT TC T. destruct T0 as (TB & g & r & q & R0 & Q0 & BX & BY & CX & CY).
    destruct (away_course _ _ _ C1) as (X1 & Y1). destruct (away_course _ _ _ C2) as (X2 & Y2).
    assert (TP : / 10 ^ 10 < tiny). { unfold tiny. apply Rinv_lt_contravar; [apply Rmult_lt_0_compat; apply pow_lt; lra|]. apply Rlt_pow; [lra|lia]. }
    pose proof tiny_pos as TP0. destruct C1 as (U1 & _). destruct C2 as (U2 & _).
    assert (AR : away (plc (P (k - 1)%nat)) (plc (P k)) = r).
    { unfold away. rewrite BX, BY. etransitivity; [|apply (unit_len (cos g) (sin g) r); [lra|pose proof (sin2_cos2 g) as G; unfold Rsqr in G; lra]]. f_equal. ring. }
    assert (AQ : away (plc (P k)) (plc (P (S k))) = q).
    { unfold away. rewrite CX, CY.
      etransitivity; [|apply (unit_len (cos (g - t0)) (sin (g - t0)) q); [lra|pose proof (sin2_cos2 (g - t0)) as G; unfold Rsqr in G; lra]].
      f_equal. ring. }
    rewrite AR in *. rewrite AQ in *.
    assert (UX1 : fst u1 = cos g) by (apply Rmult_eq_reg_l with r; lra). assert (UY1 : snd u1 = sin g) by (apply Rmult_eq_reg_l with r; lra).
    assert (UX2 : fst u2 = cos (g - t0)) by (apply Rmult_eq_reg_l with q; lra).
    assert (UY2 : snd u2 = sin (g - t0)) by (apply Rmult_eq_reg_l with q; lra).
    destruct (shifted_spec (psub (P k) (P (k - 1)%nat)) ((PI - t0) / 2) e (P k) u1 r U1 ltac:(lra) X1 Y1) as (SX & SY & SZ).
    rewrite <- WX in SX. rewrite <- WY in SY. rewrite <- WZ in SZ.
    set (th := (PI - t0) / 2) in *.
    assert (HN : px (W k) = px (P k) + e * cos (g + th)). { rewrite SX. unfold right. cbn [fst]. rewrite UX1, UY1, cos_plus. ring. }
    assert (HE : py (W k) = py (P k) + e * sin (g + th)). { rewrite SY. unfold right. cbn [snd]. rewrite UX1, UY1, sin_plus. ring. }
    assert (S1 : sin th = cos (t0 / 2)). { unfold th. replace ((PI - t0) / 2) with (PI / 2 - t0 / 2) by field. apply sin_shift. }
    assert (S2 : sin (t0 + th) = cos (t0 / 2)). { unfold th. replace (t0 + (PI - t0) / 2) with (PI / 2 + t0 / 2) by field. symmetry. apply cos_sin. }
    split; [|split; [|split]].
    - unfold beside, right, plc. cbn [fst snd]. rewrite HN, HE, UX1, UY1.
      replace ((px (P k) + e * cos (g + th) - px (P k)) * - sin g + (py (P k) + e * sin (g + th) - py (P k)) * cos g)
        with (e * (sin (g + th) * cos g - cos (g + th) * sin g)) by ring.
      rewrite <- sin_minus. replace (g + th - g) with th by ring. rewrite S1. reflexivity.
    - unfold beside, right, plc. cbn [fst snd]. rewrite HN, HE, UX2, UY2.
      replace ((px (P k) + e * cos (g + th) - px (P k)) * - sin (g - t0) + (py (P k) + e * sin (g + th) - py (P k)) * cos (g - t0))
        with (e * (sin (g + th) * cos (g - t0) - cos (g + th) * sin (g - t0))) by ring.
      rewrite <- sin_minus. replace (g + th - (g - t0)) with (t0 + th) by ring. rewrite S2. reflexivity.
    - rewrite away_plc, HN, HE. replace (_ + _) with (e * e * (sin (g + th) * sin (g + th) + cos (g + th) * cos (g + th))) by ring.
      pose proof (sin2_cos2 (g + th)) as G. unfold Rsqr in G. rewrite G, Rmult_1_r. apply sqrt_Rsqr_abs.
    - rewrite SZ. unfold psub. cbn [pz]. reflexivity.
  Qed.
End Line.

(** So the whole way beside a straight line is at the same distance on the right of it. *)
Theorem C93_straight s ps u h d : (2 <= length ps)%nat -> terrain s = true -> h = nominal s -> looks_down h (elevation s) d ->
  (forall k, (S k < length ps)%nat -> tiny <= away (plc (nth k ps origin)) (plc (nth (S k) ps origin)) /\
                                      course (plc (nth k ps origin)) (plc (nth (S k) ps origin)) u) ->
  forall k, (k < length ps)%nat ->
    beside (plc (nth k ps origin)) u (plc (nth k (forward_points s ps) origin)) (d * sin (azimuth s)).
Proof.
  intros L T HH D C k K. assert (A : forall p, above s p h) by (intros p; unfold above; rewrite T; exact HH).
  assert (TP : / 10 ^ 10 < tiny). { unfold tiny. apply Rinv_lt_contravar; [apply Rmult_lt_0_compat; apply pow_lt; lra|]. apply Rlt_pow; [lra|lia]. }
  destruct (Nat.eq_dec k 0) as [->|K0].
  { destruct (C 0%nat) as (F & C0); [lia|]. apply (C93_ends s ps u h d L 0); auto. cbn [Nat.eqb]. lra. }
  destruct (C (k - 1)%nat) as (F1 & C1); [lia|]. replace (S (k - 1)) with k in F1, C1 by lia.
  destruct (Nat.eq_dec k (length ps - 1)) as [E|NE].
  { assert (Z : Nat.eqb k 0 = false) by (apply Nat.eqb_neq; exact K0).
    pose proof (C93_ends s ps u h d L k (or_intror E) (A _) D) as G. rewrite Z in G. apply G; [lra|exact C1]. }
  destruct (C k) as (F2 & C2); [lia|].
  assert (TU : turns (plc (nth (k - 1) ps origin)) (plc (nth k ps origin)) (plc (nth (S k) ps origin)) 0).
  { pose proof (sep_turns _ _ _ F1 F2) as T0. destruct (away_course _ _ _ C1) as (X1 & Y1). destruct (away_course _ _ _ C2) as (X2 & Y2).
    pose proof tiny_pos as TP0. destruct T0 as (_ & g & r & q & R0 & Q0 & BX & BY & CX & CY). pose proof PI_RGT_0.
    assert (U : fst u ^ 2 + snd u ^ 2 = 1) by apply C1.
    split; [lra|]. exists g, r, (away (plc (nth k ps origin)) (plc (nth (S k) ps origin))). rewrite Rminus_0_r.
    assert (AR : away (plc (nth (k - 1) ps origin)) (plc (nth k ps origin)) = r).
    { unfold away. rewrite BX, BY. etransitivity; [|apply (unit_len (cos g) (sin g) r); [lra|pose proof (sin2_cos2 g) as G; unfold Rsqr in G; lra]]. f_equal. ring. }
    rewrite AR in X1, Y1. assert (UX : fst u = cos g) by (apply Rmult_eq_reg_l with r; lra).
    assert (UY : snd u = sin g) by (apply Rmult_eq_reg_l with r; lra). rewrite <- UX, <- UY in *. lra. }
  destruct (C93_between s ps k h d 0 u u) as (B & _); auto; [lia|].
  replace (0 / 2) with 0 in B by field. rewrite cos_0, Rmult_1_r in B. exact B.
Qed.

(** Refuted: that the ends of the line are seen at the wanted azimuth, which is meant clockwise; they are on the other side. *)
Theorem C93_side_refuted s ps u h d : (2 <= length ps)%nat -> above s (nth 0 ps origin) h -> looks_down h (elevation s) d ->
  / 10 ^ 10 < away (plc (nth 0 ps origin)) (plc (nth 1 ps origin)) -> course (plc (nth 0 ps origin)) (plc (nth 1 ps origin)) u ->
  d * sin (azimuth s) <> 0 -> ~ sees (plc (nth 0 (forward_points s ps) origin)) u (plc (nth 0 ps origin)) d (azimuth s).
Proof.
  intros L A D F C N S. assert (U : fst u ^ 2 + snd u ^ 2 = 1) by apply C.
  destruct (C93_ends s ps u h d L 0 (or_introl eq_refl) A D F C) as (S' & _). clear C. destruct S as (S1 & S2), S' as (S3 & S4).
  rewrite cos_neg, sin_neg in S3, S4. unfold right in *. cbn [fst snd] in *.
  set (z := d * sin (azimuth s)) in *.
  assert (E1 : z * snd u = 0) by (unfold z; lra). assert (E2 : z * fst u = 0) by (unfold z; lra).
  apply N. assert (z * z * (fst u ^ 2 + snd u ^ 2) = 0) by nra. rewrite U in *. nra.
Qed.

(** Refuted: that the way keeps its distance; where the line turns it comes closer to it. *)
Theorem C93_bend_refuted s ps k h d t u1 u2 : (0 < k < length ps - 1)%nat -> above s (nth k ps origin) h -> looks_down h (elevation s) d ->
  tiny <= away (plc (nth (k - 1) ps origin)) (plc (nth k ps origin)) -> tiny <= away (plc (nth k ps origin)) (plc (nth (S k) ps origin)) ->
  turns (plc (nth (k - 1) ps origin)) (plc (nth k ps origin)) (plc (nth (S k) ps origin)) t ->
  course (plc (nth (k - 1) ps origin)) (plc (nth k ps origin)) u1 -> course (plc (nth k ps origin)) (plc (nth (S k) ps origin)) u2 ->
  t <> 0 -> d * sin (azimuth s) <> 0 ->
  exists x, beside (plc (nth k ps origin)) u1 (plc (nth k (forward_points s ps) origin)) x /\ Rabs x < Rabs (d * sin (azimuth s)).
Proof.
  intros K A D F1 F2 T C1 C2 N Z. exists (d * sin (azimuth s) * cos (t / 2)).
  split; [apply (C93_between s ps k h d t u1 u2); auto|]. pose proof (proj1 T) as TB. pose proof PI_RGT_0.
  rewrite Rabs_mult. rewrite <- (Rmult_1_r (Rabs (d * sin (azimuth s)))) at 2. apply Rmult_lt_compat_l; [apply Rabs_pos_lt, Z|].
  rewrite Rabs_pos_eq by (apply cos_ge_0; lra). rewrite <- cos_0.
  destruct (Rle_dec 0 t).
  - apply cos_decreasing_1; lra.
  - rewrite <- (cos_neg (t / 2)). apply cos_decreasing_1; lra.
Qed.

(** Refuted: that the way is at the altitude of the line: a slope goes on. *)
Theorem C93_slope_refuted s a b d : above s b d -> d <> 0 -> elevation s = PI / 4 -> / 10 ^ 10 < away (plc a) (plc b) -> pz a <> pz b ->
  pz (nth 1 (forward_points s [a; b]) origin) <> pz b.
Proof.
  intros A N E F Z. pose proof PI_RGT_0. pose proof (small_pos 10).
  set (u := ((px b - px a) / away (plc a) (plc b), (py b - py a) / away (plc a) (plc b))).
  assert (C : course (plc a) (plc b) u).
  { split.
    - unfold u. cbn [fst snd]. pose proof (away_plc a b) as W. set (w := away (plc a) (plc b)) in *.
      assert (Q : w * w = (px b - px a) * (px b - px a) + (py b - py a) * (py b - py a)) by (rewrite W; apply sqrt_sqrt, Rplus_le_le_0_compat; apply Rle_0_sqr).
      replace (((px b - px a) / w) ^ 2 + ((py b - py a) / w) ^ 2) with (((px b - px a) * (px b - px a) + (py b - py a) * (py b - py a)) / (w * w))
        by (field; lra). rewrite <- Q. field. lra.
    - unfold u. set (w := away (plc a) (plc b)) in *. exists w. split; [lra|]. unfold plc. cbn [fst snd]. split; field; lra. }
  assert (D : looks_down d (elevation s) d).
  { split; [|lra]. intros _. rewrite E, tan_PI4. ring. }
  destruct (C93_ends s [a; b] u d d (le_n 2) 1 (or_intror eq_refl) A D F C) as (_ & _ & G). cbn [nth] in G. cbn [nth]. rewrite G. intros Q.
  assert (Q2 : (pz b - pz a) * d = 0).
  { apply Rmult_eq_reg_r with (/ away (plc a) (plc b)); [|apply Rinv_neq_0_compat; lra]. unfold Rdiv in Q. cbn in Q. lra. }
  apply Rmult_integral in Q2. lra.
Qed.

Print Assumptions C93_ends.
Print Assumptions C93_between.
Print Assumptions C93_straight.
Print Assumptions C93_side_refuted.
Print Assumptions C93_bend_refuted.
Print Assumptions C93_slope_refuted.

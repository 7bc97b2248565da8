(** Proofs about where the target of an overwatch task is taken to be. *)
From Coq Require Import Reals Lra List ZArith Lia Bool.
From Verif Require Import PiBounds FlatEarthModel FlatEarthProps RouteExtModel RouteExtGeom BlockadeProps EscortGeom OverwatchModel OverwatchSpec.
Import ListNotations.
Open Scope R_scope.

(** ** Directions *)
Lemma size_pos d : 0 <= size d.
Proof. apply sqrt_pos. Qed.
Lemma size_sq d : size d ^ 2 = fst d ^ 2 + snd d ^ 2.
Proof. unfold size. rewrite <- Rsqr_pow2, Rsqr_sqrt; [reflexivity|]. pose proof (pow2_ge_0 (fst d)). pose proof (pow2_ge_0 (snd d)). lra. Qed.
Lemma size_zero d : size d = 0 -> d = (0, 0).
Proof.
  intros Z. pose proof (size_sq d) as S. rewrite Z in S. pose proof (pow2_ge_0 (fst d)). pose proof (pow2_ge_0 (snd d)). destruct d as (a, b). cbn [fst snd] in *. f_equal; nra.
Qed.
Lemma size_le d x : 0 <= x -> fst d ^ 2 + snd d ^ 2 <= x ^ 2 -> size d <= x.
Proof. intros X H. unfold size. rewrite <- (sqrt_pow2 x X). apply sqrt_le_1_alt, H. Qed.
Lemma unit_size a : size (cos a, sin a) = 1.
Proof. unfold size. cbn [fst snd]. pose proof (sin2_cos2 a) as S. unfold Rsqr in S. replace (cos a ^ 2 + sin a ^ 2) with 1 by lra. apply sqrt_1. Qed.
Lemma unit_size' a : size (sin a, cos a) = 1.
Proof. unfold size. cbn [fst snd]. rewrite Rplus_comm. exact (unit_size a). Qed.
Lemma sin_lip a b : Rabs (sin a - sin b) <= Rabs (a - b).
Proof. rewrite <- !cos_shift. eapply Rle_trans; [apply cos_lip|]. right. replace (PI / 2 - a - (PI / 2 - b)) with (- (a - b)) by ring. apply Rabs_Ropp. Qed.
Lemma near_angles a b : Rabs (a - b) <= / 10 ^ 10 -> near (cos a, sin a) (cos b, sin b).
Proof.
  intros H. pose proof (cos_lip a b) as C. pose proof (sin_lip a b) as S. unfold near. cbn [fst snd]. apply size_le; [lra|]. cbn [fst snd].
  assert (SQ : forall x, Rabs x <= / 10 ^ 10 -> x ^ 2 <= (/ 10 ^ 10) ^ 2) by (intros x X; rewrite <- (pow2_abs x); apply pow_incr; split; [apply Rabs_pos|exact X]).
  pose proof (SQ (cos a - cos b) ltac:(lra)). pose proof (SQ (sin a - sin b) ltac:(lra)). lra.
Qed.
(** The direction of a vector with its angle from the second axis. *)
Lemma angle_spec x y : let s := (y, x) in let w := (sin (atan2 y x), cos (atan2 y x)) in size w = 1 /\ s = (size s * fst w, size s * snd w) /\ (size s = 0 -> w = (0, 1)).
Proof.
  cbv zeta. cbn [fst snd]. split; [apply unit_size'|]. destruct (Req_dec x 0) as [X|X]; [destruct (Req_dec y 0) as [Y|Y]|].
  - subst. assert (Z : size (0, 0) = 0) by (unfold size; cbn [fst snd]; replace (0 ^ 2 + 0 ^ 2) with 0 by ring; apply sqrt_0). rewrite Z. split; [f_equal; ring|]. intros _. unfold atan2. destruct (Rlt_dec 0 0); [lra|]. rewrite sin_0, cos_0. reflexivity.
  - destruct (atan2_spec y x (or_intror Y)) as (P & C & S). assert (Z : size (y, x) = sqrt (x * x + y * y)) by (unfold size; cbn [fst snd]; f_equal; ring). rewrite Z. split; [f_equal; lra|lra].
  - destruct (atan2_spec y x (or_introl X)) as (P & C & S). assert (Z : size (y, x) = sqrt (x * x + y * y)) by (unfold size; cbn [fst snd]; f_equal; ring). rewrite Z. split; [f_equal; lra|lra].
Qed.
Lemma half_pi_near : Rabs (half_pi - PI / 2) <= / 10 ^ 10.
Proof. unfold half_pi. pose proof PI_bounds. apply Rabs_le. lra. Qed.
Lemma toward_spec d : let h := half_pi - atan2 (fst d) (snd d) in toward d (cos h, sin h).
Proof.
  cbv zeta. pose proof (angle_spec (snd d) (fst d)) as A. cbv zeta in A. rewrite <- surjective_pairing in A. destruct A as (A1 & A2 & A3). eexists. split; [exact A1|]. split; [exact A2|]. split; [exact A3|].
  set (a := atan2 _ _). rewrite <- (cos_shift a), <- (sin_shift a). apply near_angles. replace (half_pi - a - (PI / 2 - a)) with (half_pi - PI / 2) by ring. apply half_pi_near.
Qed.
Lemma turned a : -5 <= a <= 5 -> Rabs (a * rad_to_deg * deg_to_rad - a) <= / 10 ^ 10.
Proof.
  intros A. replace (a * rad_to_deg * deg_to_rad - a) with (a * (rad_to_deg * deg_to_rad - 1)) by ring. rewrite Rabs_mult. assert (A5 : Rabs a <= 5) by (apply Rabs_le; lra). assert (T : Rabs (rad_to_deg * deg_to_rad - 1) <= / 10 ^ 12) by (unfold rad_to_deg, deg_to_rad; apply Rabs_le; lra).
  pose proof (Rabs_pos a). pose proof (Rabs_pos (rad_to_deg * deg_to_rad - 1)). assert (M : Rabs a * Rabs (rad_to_deg * deg_to_rad - 1) <= 5 * / 10 ^ 12) by (apply Rmult_le_compat; lra). lra.
Qed.

(** ** Movements *)
Definition vector (x : R * R) : R * (R * R) := (fst x, (cos (snd x), sin (snd x))).
Lemma origin p : deg_ne_m (lat p) (lon p) fresh = (around p, (0, 0)).
Proof.
  pose proof (origin_values (lat p * deg_to_rad) (lon p * deg_to_rad)) as V. cbv zeta in V. unfold deg_ne_m, around. cbv zeta. destruct V as (-> & -> & _). f_equal. f_equal; ring.
Qed.
Lemma sample_motion p c : (10 <= time c - time p)%Z -> motion (skewed p c) (time c - time p) (vector (sample p c)).
Proof.
  intros T. unfold sample. rewrite origin. cbv zeta. unfold skewed, moved. destruct (deg_ne_m (lat c) (lon c) (around p)) as (e, (cn, ce)). cbn [fst snd]. rewrite Rminus_0_r. unfold vector, motion. cbn [fst snd].
  assert (T' : 10 <= IZR (time c - time p)) by (apply IZR_le in T; exact T). split; [|exact (toward_spec (cn, ce - cn))]. unfold size. cbn [fst snd]. replace (cn ^ 2 + (ce - cn) ^ 2) with (cn * cn + (ce - cn) * (ce - cn)) by ring. field. lra.
Qed.
Lemma samples_motions w : forall p, motions skewed p w (map vector (samples p w)).
Proof.
  induction w as [|c w IH]; intros p; cbn [samples map]; [constructor|]. destruct (Z.ltb_spec (time c - time p) 10); [apply too_early; [assumption|apply IH]|]. destruct (Z.ltb_spec 4000 (time c - time p)); [apply too_late; [assumption|apply IH]|].
  cbn [map]. apply usable; [lia|apply sample_motion; lia|apply IH].
Qed.
Lemma total_sum f l : total f l = sum (map f l).
Proof.
  unfold total. assert (H : forall a, fold_left (fun a x => a + f x) l a = a + sum (map f l)). { induction l as [|x l IH]; intros a; cbn [fold_left map sum fold_right]; [ring|]. rewrite IH. unfold sum. ring. }
  rewrite H. ring.
Qed.
Lemma mean_spec l : l <> [] -> mean (map vector l) (vector (total fst l / INR (length l), atan2 (total (fun x => sin (snd x)) l) (total (fun x => cos (snd x)) l) * rad_to_deg * deg_to_rad)).
Proof.
  intros N. unfold mean. split; [destruct l; [contradiction|discriminate]|]. rewrite map_length. split.
  - cbn [vector fst]. rewrite total_sum, map_map. assert (P : INR (length l) <> 0) by (apply not_0_INR; destruct l; [contradiction|discriminate]). change (map (fun x => fst (vector x)) l) with (map (@fst R R) l). field. exact P.
  - cbv zeta. rewrite !map_map. cbn [vector fst snd]. rewrite <- (total_sum (fun x => cos (snd x))), <- (total_sum (fun x => sin (snd x))). set (S := total (fun x => sin (snd x)) l). set (C := total (fun x => cos (snd x)) l).
    pose proof (angle_spec C S) as A. cbv zeta in A. set (a := atan2 S C) in *. exists (cos a, sin a). destruct A as (_ & A2 & A3). split; [apply unit_size|]. cbn [fst snd] in *.
    assert (Z : size (C, S) = size (S, C)) by (unfold size; cbn [fst snd]; f_equal; ring). rewrite Z. split; [injection A2; intros E1 E2; f_equal; assumption|]. split; [intros Q; specialize (A3 Q); injection A3; intros E1 E2; f_equal; assumption|].
    apply near_angles, turned, atan2_range.
Qed.
Lemma movement_expected w : expected skewed w (vector (fst (movement w), snd (movement w) * deg_to_rad)).
Proof.
  unfold movement. destruct w as [|p [|c w]].
  - exists []. split; [reflexivity|left; split; reflexivity].
  - exists []. split; [constructor|left; split; reflexivity].
  - set (rest := c :: w). exists (map vector (samples p rest)). split; [apply samples_motions|]. pose proof (mean_spec (samples p rest)) as M. destruct (samples p rest) as [|x l]; [left; split; reflexivity|]. right. cbn [fst snd] in *. apply M. discriminate.
Qed.
Lemma ahead_predicted k dt w : predicted skewed k w dt (ahead k dt (movement w)).
Proof.
  unfold ahead, predicted. destruct (Z.ltb_spec 100 dt) as [L|L]; [|left; split; [exact L|reflexivity]]. right. split; [exact L|]. exists (vector (fst (movement w), snd (movement w) * deg_to_rad)). split; [apply movement_expected|]. rewrite origin. cbv zeta. cbn [vector fst snd]. f_equal; ring.
Qed.

(** ** Runs *)
Section Runs.
  Context (watched : Z) (known : option track).
  Local Notation run := (run watched (init known)).
  Lemma run_snoc h e : run (h ++ [e]) = fst (step watched (run h) e).
  Proof. unfold OverwatchModel.run. rewrite fold_left_app. reflexivity. Qed.
  Lemma valid_spec k : if valid k then 1 / 100 <= Rabs (lat k) \/ 1 / 100 <= Rabs (lon k) else Rabs (lat k) < 1 / 100 /\ Rabs (lon k) < 1 / 100.
  Proof. unfold valid. destruct (Rlt_dec (Rabs (lat k)) (1 / 100)); [destruct (Rlt_dec (Rabs (lon k)) (1 / 100)); lra|lra]. Qed.
  Lemma push_recent l w k : recent l w -> recent (l ++ [k]) (push w k).
  Proof.
    intros (l' & -> & LE & D). unfold push. cbv zeta. rewrite app_length. cbn [length]. destruct D as [->|F].
    - destruct (Nat.eq_dec (length w) 4) as [E|E].
      + exists (firstn 1 w). replace (length w + 1 - 4)%nat with 1%nat by lia. rewrite skipn_app. replace (1 - length w)%nat with 0%nat by lia. change (skipn 0 [k]) with [k]. cbn [app]. split; [rewrite app_assoc; f_equal; symmetry; apply firstn_skipn|].
        split; [rewrite app_length, skipn_length; cbn [length]; lia|]. right. rewrite app_length, skipn_length. cbn [length]. lia.
      + exists []. replace (length w + 1 - 4)%nat with 0%nat by lia. cbn [skipn app]. split; [reflexivity|]. split; [rewrite app_length; cbn [length]; lia|left; reflexivity].
    - exists (l' ++ firstn 1 w). replace (length w + 1 - 4)%nat with 1%nat by lia. rewrite skipn_app. replace (1 - length w)%nat with 0%nat by lia. change (skipn 0 [k]) with [k]. split; [rewrite <- !app_assoc; f_equal; rewrite app_assoc; f_equal; symmetry; apply firstn_skipn|].
      split; [rewrite app_length, skipn_length; cbn [length]; lia|]. right. rewrite app_length, skipn_length. cbn [length]. lia.
  Qed.
  Lemma inv h : exists l, counted watched h l /\ recent l (window (run h)) /\ forall k, last (run h) = Some k <-> newest known l k.
  Proof.
    induction h as [|e h (l & C & W & L)] using rev_ind.
    - exists []. split; [constructor|]. split; [exists []; split; [reflexivity|]; split; [cbn; lia|left; reflexivity]|]. intros k. change (last (run [])) with known. unfold newest. split; [intros E; right; auto|]. intros [(l' & E)|(_ & E)]; [destruct l'; discriminate E|exact E].
    - rewrite run_snoc. destruct e as [v k|now]; cbn [step]; [|exists l; split; [constructor; exact C|split; [exact W|exact L]]].
      destruct (Z.eqb_spec v watched) as [->|N]; cbn [andb]; [|exists l; split; [constructor; assumption|split; [exact W|exact L]]]. pose proof (valid_spec k) as V. destruct (valid k); cbn [fst last window]; [|exists l; split; [apply near_zero; tauto|split; [exact W|exact L]]].
      exists (l ++ [k]). split; [constructor; assumption|]. split; [apply push_recent, W|]. intros k'. unfold newest. split.
      + intros E. injection E as <-. left. exists l. reflexivity.
      + intros [(l' & E)|(E & _)]; [apply app_inj_tail in E; destruct E as (_ & ->); reflexivity|]. destruct l; discriminate E.
  Qed.
  Lemma counted_one h : forall l l', counted watched h l -> counted watched h l' -> l = l'.
  Proof.
    induction h as [|e h IH] using rev_ind; intros l l' A B.
    - assert (N : forall x, counted watched [] x -> x = []). { intros x X. inversion X as [|h0 l0 k0 C0 V0 E0|h0 l0 k0 C0 V0 V1 E0|h0 l0 u0 k0 C0 N0 E0|h0 l0 t0 C0 E0]; try reflexivity; destruct h0; discriminate E0. } rewrite (N _ A), (N _ B). reflexivity.
    - assert (D : forall x, counted watched (h ++ [e]) x -> match e with Ask _ => counted watched h x | Seen u k => if Z.eqb u watched then (if valid k then exists y, x = y ++ [k] /\ counted watched h y else counted watched h x) else counted watched h x end).
      { intros x X. inversion X as [E0|h0 l0 k0 C0 V0 E0|h0 l0 k0 C0 V0 V1 E0|h0 l0 u0 k0 C0 N0 E0|h0 l0 t0 C0 E0]; try (apply app_inj_tail in E0; destruct E0 as (E1 & E2); subst).
        - destruct h; discriminate E0.
        - rewrite Z.eqb_refl. pose proof (valid_spec k0) as V. destruct (valid k0); [exists l0; auto|lra].
        - rewrite Z.eqb_refl. pose proof (valid_spec k0) as V. destruct (valid k0); [lra|assumption].
        - destruct (Z.eqb_spec u0 watched); [contradiction|assumption].
        - assumption. }
      apply D in A, B. destruct e as [u k|now]; [|auto]. destruct (Z.eqb u watched); [|auto]. destruct (valid k); [|auto]. destruct A as (y & -> & A), B as (z & -> & B). f_equal. auto.
  Qed.
End Runs.
Lemma newest_one known l k k' : newest known l k -> newest known l k' -> k = k'.
Proof.
  intros [(x & ->)|(-> & A)] [(y & E)|(E & B)].
  - apply app_inj_tail in E. destruct E. assumption.
  - destruct x; discriminate E.
  - destruct y; discriminate E.
  - congruence.
Qed.
Lemma recent_one l w w' : recent l w -> recent l w' -> w = w'.
Proof.
  intros (x & -> & A1 & A2) (y & E & B1 & B2). assert (L : length x = length y).
  { pose proof (f_equal (@length track) E) as F. rewrite !app_length in F. destruct A2 as [->|A2], B2 as [->|B2]; cbn [length] in *; lia. }
  revert y L E B2. induction x as [|a x IH]; intros [|b y] L E B2; try discriminate L; [exact E|]. injection E as -> E. injection L as L. apply (IH ltac:(destruct A2 as [A2|A2]; [discriminate A2|right; exact A2]) y L E). right. destruct B2 as [B2|B2]; [discriminate B2|exact B2].
Qed.

(** One who asks is told the place where the target is expected from its last states, if the last one is not older than 15 seconds. *)
Theorem C83_place : forall watched known h now l k, counted watched h l -> newest known l k -> (now - time k <= 15000)%Z ->
  exists w q, recent l w /\ snd (step watched (run watched (init known) h) (Ask now)) = [Some q] /\ predicted skewed k w (now - time k) q.
Proof.
  intros watched known h now l k C N T. destruct (inv watched known h) as (l' & C' & W & L). rewrite (counted_one watched h l' l C' C) in *. cbn [step snd]. rewrite (proj2 (L k) N). destruct (Z.ltb_spec 15000 (now - time k)); [lia|].
  eexists _, _. split; [exact W|]. split; [reflexivity|]. apply ahead_predicted.
Qed.
(** Otherwise nothing. *)
Theorem C83_unknown : forall watched known h now l, counted watched h l -> (forall k, newest known l k -> (15000 < now - time k)%Z) -> snd (step watched (run watched (init known) h) (Ask now)) = [None].
Proof.
  intros watched known h now l C N. destruct (inv watched known h) as (l' & C' & W & L). rewrite (counted_one watched h l' l C' C) in *. cbn [step snd]. destruct (last (run watched (init known) h)) as [k|] eqn:E; [|reflexivity]. specialize (N k (proj1 (L k) eq_refl)). destruct (Z.ltb_spec 15000 (now - time k)); [reflexivity|lia].
Qed.

(** As long as the target moves along a circle of latitude, the place is the one that its movement leads to. *)
Lemma motions_level p w l : motions skewed p w l -> Forall (fun c => lat c = lat p) w -> motions moved p w l.
Proof.
  assert (MZ : forall p c, lat c = lat p -> skewed p c = moved p c).
  { intros p0 c E. unfold skewed, moved. pose proof (origin_values (lat p0 * deg_to_rad) (lon p0 * deg_to_rad)) as V. cbv zeta in V. unfold deg_ne_m, around. cbv zeta. cbn [fst snd]. rewrite initialize_ready by apply ready_initialize. destruct V as (-> & -> & _). rewrite E. f_equal; ring. }
  intros M. induction M as [p|p c w l T M IH|p c w l T M IH|p c w l x T X M IH]; intros F.
  - constructor.
  - inversion F. apply too_early; auto.
  - inversion F as [|? ? E F']. apply too_late; [exact T|]. apply IH. eapply Forall_impl; [|exact F']. cbn. intros; congruence.
  - inversion F as [|? ? E F']. apply usable; [exact T|rewrite <- (MZ _ _ E); exact X|]. apply IH. eapply Forall_impl; [|exact F']. cbn. intros; congruence.
Qed.
Theorem C83_level : forall watched known h now l k, counted watched h l -> newest known l k -> (now - time k <= 15000)%Z -> (forall c d, In c l -> In d l -> lat c = lat d) ->
  exists w q, recent l w /\ snd (step watched (run watched (init known) h) (Ask now)) = [Some q] /\ predicted moved k w (now - time k) q.
Proof.
  intros watched known h now l k C N T F. destruct (C83_place watched known h now l k C N T) as (w & q & W & E & P). exists w, q. split; [exact W|]. split; [exact E|]. destruct P as [P|(D & x & (ms & M & X) & Q)]; [left; exact P|right]. split; [exact D|]. exists x. split; [|exact Q]. exists ms. split; [|exact X].
  destruct w as [|p w]; [exact M|]. apply motions_level; [exact M|]. apply Forall_forall. intros c I. destruct W as (l' & -> & _). apply F; apply in_or_app; right; [right; exact I|left; reflexivity].
Qed.

Lemma Rabs_le_both a b : Rabs a <= b -> - b <= a <= b.
Proof. unfold Rabs. destruct (Rcase_abs a); lra. Qed.
(** A target that moves to the north is expected in the north-west: as far in the west as in the north. *)
Theorem C83_north_refuted : forall watched known h now p c, counted watched h [p; c] -> (10 <= time c - time p <= 4000)%Z -> (100 < now - time c <= 15000)%Z -> lon c = lon p -> 0 < fst (moved p c) ->
  let way := fst (moved p c) * IZR (now - time c) / IZR (time c - time p) in
  exists n w, snd (step watched (run watched (init known) h) (Ask now)) = [Some (m_ll_deg n w (around c))] /\ w <= - (99 / 100) * way.
Proof.
  intros watched known h now p c C T D LO N way. assert (NW : newest known [p; c] c) by (left; exists [p]; reflexivity). destruct (C83_place watched known h now _ c C NW ltac:(lia)) as (w & q & W & E & P).
  assert (WE : w = [p; c]) by (apply (recent_one [p; c]); [exact W|exists []; cbn; auto]). subst w. destruct P as [(D' & _)|(_ & x & (l & M & X) & Q)]; [lia|]. cbv zeta in Q.
  exists (fst x * IZR (now - time c) / 1000 * fst (snd x)), (fst x * IZR (now - time c) / 1000 * snd (snd x)). rewrite E, Q. split; [reflexivity|].
  assert (SK : skewed p c = (fst (moved p c), - fst (moved p c))).
  { unfold skewed. assert (Z : snd (moved p c) = 0); [|rewrite Z; f_equal; ring]. unfold moved, around, deg_ne_m. cbv zeta. cbn [fst snd]. rewrite initialize_ready by apply ready_initialize. pose proof (origin_values (lat p * deg_to_rad) (lon p * deg_to_rad)) as V. cbv zeta in V. destruct V as (_ & -> & _). rewrite LO. ring. }
  set (nn := fst (moved p c)) in *. inversion M as [|? ? ? ? T1 M1|? ? ? ? T1 M1|? ? ? l1 y T1 X1 M1]; try lia. subst. inversion M1; subst. destruct X as [(X & _)|(_ & X2 & X3)]; [discriminate X|]. cbn [map sum fold_right length INR] in X2, X3. destruct X1 as (Y1 & (u0 & U1 & U2 & _ & U3)). rewrite SK in *.
  cbv zeta in X3. destruct X3 as (w0 & V1 & V2 & _ & V3). assert (T' : 10 <= IZR (time c - time p)) by (apply IZR_le; lia). assert (D' : 100 <= IZR (now - time c)) by (apply IZR_le; lia).
  set (sz := size (nn, - nn)) in *. assert (SZ : sz ^ 2 = 2 * nn ^ 2) by (unfold sz; rewrite size_sq; cbn [fst snd]; ring). assert (SP : 0 <= sz) by apply size_pos. injection U2 as U4 U5.
  assert (SP' : 0 < sz) by (destruct SP as [SP|SP]; [exact SP|]; rewrite <- SP in SZ; nra). assert (SL : sz <= 1.4143 * nn). { apply Rsqr_incr_0_var; [unfold Rsqr; nra|lra]. }
  assert (U6 : snd u0 <= - 0.7070). { assert (Q1 : sz * (snd u0 + 0.7070) <= 0) by (rewrite Rmult_plus_distr_l, <- U5; nra). apply Rnot_lt_le. intros Q2. assert (0 < sz * (snd u0 + 0.7070)) by (apply Rmult_lt_0_compat; lra). lra. }
  assert (CMP : forall a b, near a b -> Rabs (snd a - snd b) <= / 10 ^ 9). { intros a b H. unfold near in H. eapply Rle_trans; [|exact H]. unfold size. cbn [fst snd]. rewrite <- sqrt_Rsqr_abs. apply sqrt_le_1_alt. unfold Rsqr. pose proof (pow2_ge_0 (fst a - fst b)). lra. }
  pose proof (CMP _ _ U3) as C1. pose proof (CMP _ _ V3) as C2. apply Rabs_le_both in C1, C2.
  set (s := (fst (snd y) + 0, snd (snd y) + 0)) in *. assert (SS : size s <= 1.001).
  { pose proof (size_sq s) as Q1. unfold s at 2 3 in Q1. cbn [fst snd] in Q1. rewrite !Rplus_0_r in Q1. apply Rsqr_incr_0_var; [|lra]. unfold Rsqr. unfold near in U3. set (dd := (fst (snd y) - fst u0, snd (snd y) - snd u0)) in *. pose proof (size_sq dd) as Q2. unfold dd at 2 3 in Q2. cbn [fst snd] in Q2. pose proof (size_sq u0) as Q3. rewrite U1 in Q3. pose proof (size_pos dd).
    assert (Q4 : size dd ^ 2 <= (/ 10 ^ 9) ^ 2) by (apply pow_incr; lra). set (a := fst (snd y)) in *. set (b := snd (snd y)) in *. assert (A1 : Rabs (a - fst u0) <= / 10 ^ 9) by (rewrite <- sqrt_Rsqr_abs; rewrite <- (sqrt_pow2 (/ 10 ^ 9)) by lra; apply sqrt_le_1_alt; unfold Rsqr; pose proof (pow2_ge_0 (b - snd u0)); lra).
    apply Rabs_le_both in A1. assert (B1 : -1 <= fst u0 <= 1) by (split; pose proof (pow2_ge_0 (snd u0)); nra). assert (B2 : -1 <= snd u0 <= 1) by (split; pose proof (pow2_ge_0 (fst u0)); nra). nra. }
  assert (V6 : snd w0 <= - 0.7062). { apply (f_equal snd) in V2. unfold s at 1 in V2. cbn [snd] in V2. rewrite Rplus_0_r in V2. pose proof (size_pos s). apply Rnot_lt_le. intros Q1. assert (size s * (- 0.7062) <= size s * snd w0) by (apply Rmult_le_compat_l; lra). lra. }
  assert (F : snd (snd x) <= - 0.706) by lra. assert (SV : 1.4142 * nn <= sz) by (apply Rsqr_incr_0_var; [unfold Rsqr; nra|lra]).
  assert (XX : fst x = 1000 * sz / IZR (time c - time p)). { rewrite Rmult_1_r, Rplus_0_r in X2. rewrite X2. apply Rmult_eq_reg_r with (IZR (time c - time p)); [|lra]. rewrite Y1. field. lra. }
  rewrite XX. unfold way. set (dt := IZR (time c - time p)) in *. set (dn := IZR (now - time c)) in *. replace (1000 * sz / dt * dn / 1000 * snd (snd x)) with (sz * snd (snd x) * (dn / dt)) by (field; lra). replace (- (99 / 100) * (nn * dn / dt)) with (- (99 / 100) * nn * (dn / dt)) by (field; lra).
  apply Rmult_le_compat_r; [apply Rlt_le, Rdiv_lt_0_compat; lra|]. assert (sz * snd (snd x) <= sz * (- 0.706)) by (apply Rmult_le_compat_l; lra). lra.
Qed.

(** A target that goes to the north with some ten meters per second, and one that goes to the east. *)
Definition ex_track (t : Z) (a b : R) : track := {| time := t; lat := a; lon := b |}.
Definition ex_north : list ev := [Seen 5 (ex_track 0 0 0); Seen 5 (ex_track 1000 45 9); Seen 7 (ex_track 1500 1 1); Seen 5 (ex_track 2000 (45 + 1 / 10000) 9)].
Lemma ex_counted : counted 5 ex_north [ex_track 1000 45 9; ex_track 2000 (45 + 1 / 10000) 9].
Proof.
  change ex_north with (((([] ++ [Seen 5 (ex_track 0 0 0)]) ++ [Seen 5 (ex_track 1000 45 9)]) ++ [Seen 7 (ex_track 1500 1 1)]) ++ [Seen 5 (ex_track 2000 (45 + 1 / 10000) 9)]).
  change [ex_track 1000 45 9; ex_track 2000 (45 + 1 / 10000) 9] with (([] ++ [ex_track 1000 45 9]) ++ [ex_track 2000 (45 + 1 / 10000) 9]).
  apply one; [apply other; [apply one; [apply near_zero; [constructor| |]|]|lia]|]; cbn [lat lon ex_track]; rewrite ?Rabs_R0; try lra; left; rewrite Rabs_pos_eq; lra.
Qed.
Example C83_meets : counted 5 ex_north [ex_track 1000 45 9; ex_track 2000 (45 + 1 / 10000) 9] /\ newest None [ex_track 1000 45 9; ex_track 2000 (45 + 1 / 10000) 9] (ex_track 2000 (45 + 1 / 10000) 9) /\ (3000 - 2000 <= 15000)%Z.
Proof. split; [apply ex_counted|]. split; [left; exists [ex_track 1000 45 9]; reflexivity|lia]. Qed.
Example C83_north_meets : let p := ex_track 1000 45 9 in let c := ex_track 2000 (45 + 1 / 10000) 9 in
  counted 5 ex_north [p; c] /\ (10 <= time c - time p <= 4000)%Z /\ (100 < 3000 - time c <= 15000)%Z /\ lon c = lon p /\ 0 < fst (moved p c).
Proof.
  cbv zeta. split; [apply ex_counted|]. cbn [time lon ex_track]. split; [lia|]. split; [lia|]. split; [reflexivity|]. unfold moved, around, deg_ne_m. cbv zeta. cbn [fst snd]. rewrite initialize_ready by apply ready_initialize. cbn [lat lon ex_track].
  pose proof (origin_values (45 * deg_to_rad) (9 * deg_to_rad)) as V. cbv zeta in V. destruct V as (-> & _ & _ & M & _). apply Rmult_lt_0_compat; [lra|]. unfold deg_to_rad. lra.
Qed.
Example C83_level_meets : let l := [ex_track 1000 45 9; ex_track 2000 45 (9 + 1 / 10000)] in counted 5 [Seen 5 (ex_track 1000 45 9); Seen 5 (ex_track 2000 45 (9 + 1 / 10000))] l /\ newest None l (ex_track 2000 45 (9 + 1 / 10000)) /\ forall c d, In c l -> In d l -> lat c = lat d.
Proof.
  cbv zeta. split; [|split; [left; exists [ex_track 1000 45 9]; reflexivity|intros c d [<-|[<-|[]]] [<-|[<-|[]]]; reflexivity]].
  change [Seen 5 (ex_track 1000 45 9); Seen 5 (ex_track 2000 45 (9 + 1 / 10000))] with (([] ++ [Seen 5 (ex_track 1000 45 9)]) ++ [Seen 5 (ex_track 2000 45 (9 + 1 / 10000))]). change [ex_track 1000 45 9; ex_track 2000 45 (9 + 1 / 10000)] with (([] ++ [ex_track 1000 45 9]) ++ [ex_track 2000 45 (9 + 1 / 10000)]).
  apply one; [apply one; [constructor|]|]; cbn [lat lon ex_track]; left; rewrite Rabs_pos_eq; lra.
Qed.
Example C83_unknown_meets : counted 5 ex_north [ex_track 1000 45 9; ex_track 2000 (45 + 1 / 10000) 9] /\ forall k, newest None [ex_track 1000 45 9; ex_track 2000 (45 + 1 / 10000) 9] k -> (15000 < 17001 - time k)%Z.
Proof. split; [apply ex_counted|]. intros k N. rewrite (newest_one None _ k (ex_track 2000 (45 + 1 / 10000) 9) N) by (left; exists [ex_track 1000 45 9]; reflexivity). cbn. lia. Qed.

Print Assumptions C83_place.
Print Assumptions C83_unknown.
Print Assumptions C83_level.
Print Assumptions C83_north_refuted.

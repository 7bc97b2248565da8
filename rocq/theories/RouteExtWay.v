(** Proofs about the way that the manoeuvres of a route extension take. *)
From Coq Require Import Reals Lra Lia List ZArith.
From Verif Require Import RouteExtModel RouteExtSpec RouteExtGeom PiBounds.
Import ListNotations.
Open Scope R_scope.

Lemma pose_eq : forall p q, px p = px q -> py p = py q -> ph p = ph q -> p = q.
Proof. intros (a, b, c) (x, y, z). cbn. intros -> -> ->. reflexivity. Qed.

(** A pose on a circle around a center, to the left and to the right of the center. *)
Definition onL (r cx cy h : R) : pose := {| px := cx + r * sin h; py := cy - r * cos h; ph := h |}.
Definition onR (r cx cy h : R) : pose := {| px := cx - r * sin h; py := cy + r * cos h; ph := h |}.

Lemma fly_L : forall r cx cy h s, fly r (onL r cx cy h) 1 s = onL r cx cy (h + s / r).
Proof. intros. unfold fly, center, onL. cbn [Z.eqb px py ph fst snd]. apply pose_eq; cbn [px py ph]; replace (1 * (s / r)) with (s / r) by ring; ring. Qed.
Lemma fly_R : forall r cx cy h s, fly r (onR r cx cy h) (-1) s = onR r cx cy (h - s / r).
Proof. intros. unfold fly, center, onR. cbn [Z.eqb px py ph fst snd]. apply pose_eq; cbn [px py ph]; replace (h + -1 * (s / r)) with (h - s / r) by ring; ring. Qed.
Lemma L_R : forall r cx cy h, onL r cx cy h = onR r (cx + 2 * r * sin h) (cy - 2 * r * cos h) h.
Proof. intros. apply pose_eq; cbn [onL onR px py ph]; ring. Qed.
Lemma R_L : forall r cx cy h, onR r cx cy h = onL r (cx - 2 * r * sin h) (cy + 2 * r * cos h) h.
Proof. intros. apply pose_eq; cbn [onL onR px py ph]; ring. Qed.

(** ** Lists of legs *)
Lemma finish_app : forall r w p v, finish r p (w ++ v) = finish r (finish r p w) v.
Proof. induction w as [|l w IH]; intros p v; cbn [app finish]; [reflexivity|apply IH]. Qed.
Lemma flown_app : forall r w p v, flown r p (w ++ v) <-> flown r p w /\ flown r (finish r p w) v.
Proof. induction w as [|l w IH]; intros p v; cbn [app finish flown]; [tauto|]. rewrite IH. tauto. Qed.
Lemma through_app : forall r w p v x y, through r p (w ++ v) x y <-> through r p w x y \/ through r (finish r p w) v x y.
Proof. induction w as [|l w IH]; intros p v x y; cbn [app finish through]; [tauto|]. rewrite IH. tauto. Qed.
Lemma way_app : forall w v, way (w ++ v) = way w + way v.
Proof. unfold way. induction w as [|l w IH]; intros v; cbn [app map fold_right]; [ring|]. rewrite IH. ring. Qed.
Lemma way_cons : forall l w, way (l :: w) = llen l + way w.
Proof. reflexivity. Qed.

(** ** Moving the whole picture *)
Definition frame (s : R * R) (psi : R) (q : pose) : pose :=
  {| px := fst s + px q * cos psi - py q * sin psi; py := snd s + px q * sin psi + py q * cos psi; ph := psi + ph q |}.

Lemma frame_fly : forall r s psi q dir t, fly r (frame s psi q) dir t = frame s psi (fly r q dir t).
Proof.
  intros r s psi q dir t. unfold fly, center. destruct (Z.eqb dir 0); apply pose_eq; cbn [frame px py ph fst snd];
    rewrite ?(Rplus_assoc psi (ph q)), ?(cos_plus psi), ?(sin_plus psi); ring.
Qed.
Lemma frame_finish : forall r s psi w q, finish r (frame s psi q) w = frame s psi (finish r q w).
Proof. induction w as [|l w IH]; intros q; cbn [finish]; [reflexivity|]. rewrite frame_fly. apply IH. Qed.
Lemma frame_through : forall r s psi w q x y, through r (frame s psi q) w x y ->
  exists a b, through r q w a b /\ x = fst s + a * cos psi - b * sin psi /\ y = snd s + a * sin psi + b * cos psi.
Proof.
  induction w as [|l w IH]; intros q x y H; cbn [through] in *; [destruct H|]. destruct H as [(t & T & X & Y)|H].
  - rewrite frame_fly in X, Y. cbn [frame px py] in X, Y. exists (px (fly r q (ldir l) t)), (py (fly r q (ldir l) t)).
    split; [left; exists t; auto|]. split; congruence.
  - rewrite frame_fly in H. apply IH in H. destruct H as (a & b & H & X). exists a, b. split; [right; exact H|exact X].
Qed.

(** A point is near the first [d] meters of the first axis. *)
Definition nearby (r d a b : R) : Prop := exists c, 0 <= c <= d /\ (a - c) * (a - c) + b * b <= (2 * r) * (2 * r).

Lemma nearby_strip : forall r d a b, 0 < r -> 0 <= a <= d -> - (2 * r) <= b <= 2 * r -> nearby r d a b.
Proof. intros r d a b R A B. exists a. split; [exact A|]. nra. Qed.
Lemma nearby_circle : forall r d c h, 0 < r -> 0 <= c <= d -> nearby r d (c + r * sin h) (r - r * cos h).
Proof.
  intros r d c h R C. exists c. split; [exact C|]. pose proof (sin2_cos2 h) as S. unfold Rsqr in S. pose proof (COS_bound h) as B.
  replace ((c + r * sin h - c) * (c + r * sin h - c) + (r - r * cos h) * (r - r * cos h))
    with (r * r * (sin h * sin h + cos h * cos h + 1 - 2 * cos h)) by ring. rewrite S.
  assert (0 <= r * r) by nra. nra.
Qed.

(** ** One leg at a time *)
Lemma onL_flown : forall r cx cy h l, r <> 0 -> ldir l = 1%Z -> 0 <= llen l ->
  lx l = px (onL r cx cy (h + llen l / r)) -> ly l = py (onL r cx cy (h + llen l / r)) -> ltx l = cx -> lty l = cy ->
  forall w, flown r (onL r cx cy h) (l :: w) <-> flown r (onL r cx cy (h + llen l / r)) w.
Proof.
  intros r cx cy h l R D P X Y TX TY w. cbn [flown]. rewrite D, fly_L. split; [tauto|]. intros H. split; [auto|]. split; [exact P|].
  split; [exact X|]. split; [exact Y|]. split; [|exact H]. intros _. unfold center, onL. cbn [px py ph]. rewrite TX, TY. f_equal; ring.
Qed.
Lemma onR_flown : forall r cx cy h l, r <> 0 -> ldir l = (-1)%Z -> 0 <= llen l ->
  lx l = px (onR r cx cy (h - llen l / r)) -> ly l = py (onR r cx cy (h - llen l / r)) -> ltx l = cx -> lty l = cy ->
  forall w, flown r (onR r cx cy h) (l :: w) <-> flown r (onR r cx cy (h - llen l / r)) w.
Proof.
  intros r cx cy h l R D P X Y TX TY w. cbn [flown]. rewrite D, fly_R. split; [tauto|]. intros H. split; [auto|]. split; [exact P|].
  split; [exact X|]. split; [exact Y|]. split; [|exact H]. intros _. unfold center, onR. cbn [px py ph]. rewrite TX, TY. f_equal; ring.
Qed.

(** Legs that only turn left. *)
Lemma lefts_finish : forall r w cx cy h, r <> 0 -> Forall (fun l => ldir l = 1%Z) w ->
  finish r (onL r cx cy h) w = onL r cx cy (h + way w / r).
Proof.
  intros r w cx cy. induction w as [|l w IH]; intros h R F; cbn [finish].
  - f_equal. unfold way. cbn. field. exact R.
  - inversion F as [|? ? D F']. subst. rewrite D, fly_L, IH by assumption. f_equal. rewrite way_cons. field. exact R.
Qed.
Lemma lefts_through : forall r w cx cy h a b, Forall (fun l => ldir l = 1%Z) w -> through r (onL r cx cy h) w a b ->
  exists k, a = cx + r * sin k /\ b = cy - r * cos k.
Proof.
  intros r w cx cy. induction w as [|l w IH]; intros h a b F H; cbn [through] in H; [destruct H|].
  inversion F as [|? ? D F']. subst. rewrite D in H. destruct H as [(t & _ & X & Y)|H].
  - rewrite fly_L in X, Y. cbn [onL px py] in X, Y. exists (h + t / r). split; congruence.
  - rewrite fly_L in H. eapply IH; eassumption.
Qed.

(** ** The three manoeuvres *)
Lemma shift_l : forall a b, cos (a - PI / 2 + b) = sin (a + b) /\ sin (a - PI / 2 + b) = - cos (a + b).
Proof.
  intros a b. replace (a - PI / 2 + b) with ((a + b) - PI / 2) by ring. rewrite cos_minus, sin_minus, cos_PI2, sin_PI2. split; ring.
Qed.
Lemma shift_r : forall a b, cos (a + PI / 2 - b) = - sin (a - b) /\ sin (a + PI / 2 - b) = cos (a - b).
Proof.
  intros a b. replace (a + PI / 2 - b) with ((a - b) + PI / 2) by ring. rewrite cos_plus, sin_plus, cos_PI2, sin_PI2. split; ring.
Qed.
Lemma left_x_eq : forall r x psi a, left_x r x psi a = x - r * sin psi + r * sin (psi + a).
Proof. intros. unfold left_x. rewrite (proj1 (shift_l psi a)). reflexivity. Qed.
Lemma left_y_eq : forall r y psi a, left_y r y psi a = y + r * cos psi - r * cos (psi + a).
Proof. intros. unfold left_y. rewrite (proj2 (shift_l psi a)). ring. Qed.
Lemma right_x_eq : forall r x psi a, right_x r x psi a = x + r * sin psi - r * sin (psi - a).
Proof. intros. unfold right_x. rewrite (proj1 (shift_r psi a)). ring. Qed.
Lemma right_y_eq : forall r y psi a, right_y r y psi a = y - r * cos psi + r * cos (psi - a).
Proof. intros. unfold right_y. rewrite (proj2 (shift_r psi a)). reflexivity. Qed.

Lemma mul_div : forall a r, r <> 0 -> a * r / r = a.
Proof. intros. field. assumption. Qed.

Lemma fly_left : forall r x y psi a, r <> 0 ->
  fly r {| px := x; py := y; ph := psi |} 1 (a * r) = {| px := left_x r x psi a; py := left_y r y psi a; ph := psi + a |}.
Proof.
  intros r x y psi a R. unfold fly, center. cbn [Z.eqb px py ph fst snd]. rewrite mul_div by exact R. rewrite left_x_eq, left_y_eq.
  replace (1 * a) with a by ring. apply pose_eq; cbn [px py ph]; ring.
Qed.
Lemma fly_right : forall r x y psi a, r <> 0 ->
  fly r {| px := x; py := y; ph := psi |} (-1) (a * r) = {| px := right_x r x psi a; py := right_y r y psi a; ph := psi - a |}.
Proof.
  intros r x y psi a R. unfold fly, center. cbn [Z.eqb px py ph fst snd]. rewrite mul_div by exact R. rewrite right_x_eq, right_y_eq.
  replace (psi + -1 * a) with (psi - a) by ring. apply pose_eq; cbn [px py ph]; ring.
Qed.

Definition heading (s e : R * R) : R := atan2 (snd e - snd s) (fst e - fst s).
Definition starting (s e : R * R) : pose := {| px := fst s; py := snd s; ph := heading s e |}.

Lemma single_flown : forall th r s e, 0 < r -> 0 <= th -> flown r (starting s e) (single_bubble th r s e).
Proof.
  intros th r s e R T. assert (R0 : r <> 0) by lra. assert (L : 0 <= th * r) by nra.
  unfold starting, single_bubble, heading. cbv zeta. generalize (atan2 (snd e - snd s) (fst e - fst s)). intros psi.
  generalize (fst s) (snd s). intros x y.
  cbn [flown ldir llen lx ly ltx lty]. rewrite fly_left by exact R0. rewrite fly_right by exact R0. rewrite fly_right by exact R0.
  rewrite fly_left by exact R0. cbn [px py ph].
  repeat split; try reflexivity; try exact L; auto; intros _; unfold center; cbn [px py ph]; rewrite ?right_x_eq, ?right_y_eq; f_equal; ring.
Qed.

Lemma slide_flown : forall th r s e, 0 < r -> 0 <= th <= PI / 2 -> flown r (starting s e) (slide_back th r s e).
Proof.
  intros th r s e R T. assert (R0 : r <> 0) by lra. destruct (gam_spec th T) as (G & _). pose proof PI_RGT_0.
  assert (L : 0 <= th * r) by nra. assert (L1 : 0 <= PI / 2 * r) by nra. assert (L2 : 0 <= acos (1 - sin th) * r) by nra.
  assert (L3 : 0 <= (PI / 2 + acos (1 - sin th) + th) * r) by nra.
  unfold starting, slide_back, heading. cbv zeta. generalize (atan2 (snd e - snd s) (fst e - fst s)). intros psi.
  generalize (fst s) (snd s). intros x y.
  cbn [flown ldir llen lx ly ltx lty]. rewrite fly_left by exact R0. rewrite !fly_right by exact R0.
  rewrite fly_left by exact R0. rewrite fly_right by exact R0. cbn [px py ph].
  repeat split; try reflexivity; try assumption; auto; intros _; unfold center; cbn [px py ph]; rewrite ?right_x_eq, ?right_y_eq; f_equal; ring.
Qed.

Lemma quarters_ok : forall n r tx ty psi, 0 < r ->
  let q := quarters n r tx ty (tx + r * sin psi) (ty - r * cos psi) psi in
  let k := psi + INR n * (PI / 2) in
  flown r (onL r tx ty psi) (fst q) /\ snd q = (tx + r * sin k, ty - r * cos k, k)
  /\ finish r (onL r tx ty psi) (fst q) = onL r tx ty k
  /\ Forall (fun l => ldir l = 1%Z) (fst q) /\ way (fst q) = INR n * (PI / 2 * r).
Proof.
  intros n r tx ty psi R. assert (R0 : r <> 0) by lra. pose proof PI_RGT_0. revert psi. induction n as [|n IH]; intros psi q k.
  - unfold q, k. cbn [quarters fst snd INR flown finish]. replace (psi + 0 * (PI / 2)) with psi by ring.
    repeat split; [constructor|]. unfold way. cbn. ring.
  - unfold q. cbn [quarters].
    assert (E : - (ty - r * cos psi) + ty + tx = tx + r * sin (psi + PI / 2) /\ tx + r * sin psi - tx + ty = ty - r * cos (psi + PI / 2)).
    { rewrite sin_plus, cos_plus, sin_PI2, cos_PI2. split; ring. }
    rewrite (proj1 E), (proj2 E). specialize (IH (psi + PI / 2)). cbv zeta in IH.
    destruct (quarters n r tx ty (tx + r * sin (psi + PI / 2)) (ty - r * cos (psi + PI / 2)) (psi + PI / 2)) as (w, st).
    cbn [fst snd] in *. destruct IH as (A & B & C & D & F).
    assert (K : k = psi + PI / 2 + INR n * (PI / 2)) by (unfold k; rewrite S_INR; ring). rewrite K.
    assert (Q : psi + PI / 2 * r / r = psi + PI / 2) by (rewrite mul_div by exact R0; reflexivity).
    split; [|split; [|split; [|split]]].
    + apply onL_flown; cbn [ldir llen lx ly ltx lty]; try reflexivity; try exact R0; [nra| | |]; rewrite Q; [reflexivity|reflexivity|exact A].
    + exact B.
    + cbn [finish ldir llen]. rewrite fly_L, Q. exact C.
    + constructor; [reflexivity|exact D].
    + rewrite way_cons, F, S_INR. cbn [llen]. ring.
Qed.

Lemma race_parts : forall n t r s e, 0 < r -> 0 <= t ->
  exists w0 w2 w4 l1 l3, race_track n t r s e = w0 ++ [l1] ++ w2 ++ [l3] ++ w4
  /\ flown r (starting s e) (race_track n t r s e)
  /\ Forall (fun l => ldir l = 1%Z) w0 /\ Forall (fun l => ldir l = 1%Z) w2 /\ Forall (fun l => ldir l = 1%Z) w4
  /\ ldir l1 = 0%Z /\ ldir l3 = 0%Z /\ llen l1 = t /\ llen l3 = t
  /\ way w0 = INR n * (2 * PI * r) /\ way w2 = PI * r /\ way w4 = PI * r.
Proof.
  intros n t r s e R T. unfold race_track, starting. fold (heading s e). generalize (heading s e). intros psi. cbv zeta.
  set (cx := fst s - r * sin psi). set (cy := snd s + r * cos psi).
  replace (fst s) with (cx + r * sin psi) by (unfold cx; ring). replace (snd s) with (cy - r * cos psi) by (unfold cy; ring).
  pose proof (quarters_ok (4 * n) r cx cy psi R) as Q. cbv zeta in Q.
  destruct (quarters (4 * n) r cx cy (cx + r * sin psi) (cy - r * cos psi) psi) as (w0, st). cbn [fst snd] in Q.
  destruct Q as (A0 & -> & B0 & C0 & D0). set (k := psi + INR (4 * n) * (PI / 2)) in *.
  set (x1 := cx + r * sin k + t * cos k). set (y1 := cy - r * cos k + t * sin k).
  set (cx1 := x1 - r * sin k). set (cy1 := y1 + r * cos k).
  replace x1 with (cx1 + r * sin k) by (unfold cx1; ring). replace y1 with (cy1 - r * cos k) by (unfold cy1; ring).
  pose proof (quarters_ok 2 r cx1 cy1 k R) as Q. cbv zeta in Q.
  destruct (quarters 2 r cx1 cy1 (cx1 + r * sin k) (cy1 - r * cos k) k) as (w2, st). cbn [fst snd] in Q.
  destruct Q as (A2 & -> & B2 & C2 & D2). set (k2 := k + INR 2 * (PI / 2)) in *.
  set (x3 := cx1 + r * sin k2 + t * cos k2). set (y3 := cy1 - r * cos k2 + t * sin k2).
  set (cx3 := x3 - r * sin k2). set (cy3 := y3 + r * cos k2).
  replace x3 with (cx3 + r * sin k2) by (unfold cx3; ring). replace y3 with (cy3 - r * cos k2) by (unfold cy3; ring).
  pose proof (quarters_ok 2 r cx3 cy3 k2 R) as Q. cbv zeta in Q.
  destruct (quarters 2 r cx3 cy3 (cx3 + r * sin k2) (cy3 - r * cos k2) k2) as (w4, st). cbn [fst snd] in Q.
  destruct Q as (A4 & -> & B4 & C4 & D4).
  exists w0, w2, w4. eexists. eexists. split; [reflexivity|]. split.
  - rewrite flown_app. split; [exact A0|].
    change {| px := cx + r * sin psi; py := cy - r * cos psi; ph := psi |} with (onL r cx cy psi). rewrite B0. cbn [app].
    cbn [flown ldir llen lx ly ltx lty].
    assert (F1 : fly r (onL r cx cy k) 0 t = onL r cx1 cy1 k).
    { apply pose_eq; unfold fly, onL; cbn [Z.eqb px py ph]; unfold cx1, cy1, x1, y1; ring. }
    rewrite F1. split; [auto|]. split; [exact T|]. split; [reflexivity|]. split; [reflexivity|]. split; [intros H; destruct (H eq_refl)|].
    rewrite flown_app. split; [exact A2|]. rewrite B2. cbn [flown ldir llen lx ly ltx lty].
    assert (F3 : fly r (onL r cx1 cy1 k2) 0 t = onL r cx3 cy3 k2).
    { apply pose_eq; unfold fly, onL; cbn [Z.eqb px py ph]; unfold cx3, cy3, x3, y3; ring. }
    rewrite F3. split; [auto|]. split; [exact T|]. split; [reflexivity|]. split; [reflexivity|]. split; [intros H; destruct (H eq_refl)|].
    exact A4.
  - split; [exact C0|]. split; [exact C2|]. split; [exact C4|]. split; [reflexivity|]. split; [reflexivity|]. split; [reflexivity|].
    split; [reflexivity|]. split; [rewrite D0, mult_INR; cbn [INR]; field|]. split; [rewrite D2|rewrite D4]; cbn [INR]; field.
Qed.

(** ** Where the manoeuvres lead, seen from their start *)
Definition origin : pose := {| px := 0; py := 0; ph := 0 |}.
Lemma origin_L : forall r, origin = onL r 0 r 0.
Proof. intros r. apply pose_eq; cbn [origin onL px py ph]; rewrite ?sin_0, ?cos_0; ring. Qed.

Lemma turned : forall s len a r, 0 < r -> 0 <= s <= len -> len = a * r -> 0 <= s / r <= a.
Proof.
  intros s len a r R S E. split; [apply Rmult_le_pos; [lra|left; apply Rinv_0_lt_compat, R]|].
  apply Rmult_le_reg_r with r; [exact R|]. replace (s / r * r) with s by (field; lra). lra.
Qed.

Lemma single_local : forall th r s e, 0 < r -> 0 <= th <= PI / 2 ->
  let d := single_straight th r in let w := single_bubble th r s e in
  0 <= d /\ way w = single_arc th r /\ finish r origin w = {| px := d; py := 0; ph := 0 |}
  /\ forall a b, through r origin w a b -> nearby r d a b.
Proof.
  intros th r s e R T d w. assert (R0 : r <> 0) by lra. pose proof PI_RGT_0 as PP.
  assert (S : 0 <= sin th <= 1) by (split; [apply sin_ge_0; lra|apply SIN_bound]).
  assert (C : 0 <= cos th <= 1) by (split; [apply cos_ge_0; lra|apply COS_bound]).
  assert (D : 0 <= d) by (unfold d, single_straight; nra).
  assert (G1 : fly r origin 1 (th * r) = onR r (2 * r * sin th) (r - 2 * r * cos th) th).
  { rewrite (origin_L r), fly_L, mul_div by exact R0. rewrite L_R. replace (0 + th) with th by ring. f_equal; ring. }
  assert (G2 : fly r (onR r (2 * r * sin th) (r - 2 * r * cos th) th) (-1) (th * r) = onR r (2 * r * sin th) (r - 2 * r * cos th) 0).
  { rewrite fly_R, mul_div by exact R0. f_equal. ring. }
  assert (G3 : fly r (onR r (2 * r * sin th) (r - 2 * r * cos th) 0) (-1) (th * r) = onL r d r (- th)).
  { rewrite fly_R, mul_div by exact R0. rewrite R_L. replace (0 - th) with (- th) by ring. rewrite sin_neg, cos_neg.
    unfold d, single_straight. f_equal; ring. }
  assert (G4 : fly r (onL r d r (- th)) 1 (th * r) = {| px := d; py := 0; ph := 0 |}).
  { rewrite fly_L, mul_div by exact R0. apply pose_eq; cbn [onL px py ph]; replace (- th + th) with 0 by ring; rewrite ?sin_0, ?cos_0; ring. }
  split; [exact D|]. split; [|split].
  - unfold w, way, single_bubble, single_arc. cbn [map fold_right llen]. ring.
  - unfold w, single_bubble. cbv zeta. cbn [finish ldir llen]. rewrite G1, G2, G3, G4. reflexivity.
  - intros a b H. unfold w, single_bubble in H. cbv zeta in H. cbn [through ldir llen] in H. rewrite G1, G2, G3 in H.
    destruct H as [(t & K & X & Y)|[(t & K & X & Y)|[(t & K & X & Y)|[(t & K & X & Y)|[]]]]];
      pose proof (turned t (th * r) th r R K eq_refl) as V; set (v := t / r) in *.
    + rewrite (origin_L r), fly_L in X, Y. fold v in X, Y. cbn [onL px py] in X, Y. rewrite <- X, <- Y. apply nearby_circle; [exact R|lra].
    + rewrite fly_R in X, Y. fold v in X, Y. cbn [onR px py] in X, Y. rewrite <- X, <- Y.
      assert (V1 : 0 <= sin (th - v) <= sin th). { split; [apply sin_ge_0; lra|apply sin_incr_1; lra]. }
      assert (V2 : cos th <= cos (th - v) <= 1). { split; [apply cos_decr_1; lra|apply COS_bound]. }
      apply nearby_strip; [exact R| |]; unfold d, single_straight; nra.
    + rewrite fly_R in X, Y. fold v in X, Y. cbn [onR px py] in X, Y. rewrite <- X, <- Y. replace (0 - v) with (- v) by ring.
      rewrite sin_neg, cos_neg.
      assert (V1 : 0 <= sin v <= sin th). { split; [apply sin_ge_0; lra|apply sin_incr_1; lra]. }
      assert (V2 : cos th <= cos v <= 1). { split; [apply cos_decr_1; lra|apply COS_bound]. }
      apply nearby_strip; [exact R| |]; unfold d, single_straight; nra.
    + rewrite fly_L in X, Y. fold v in X, Y. cbn [onL px py] in X, Y. rewrite <- X, <- Y. apply nearby_circle; [exact R|lra].
Qed.

Lemma slide_local : forall th r s e, 0 < r -> 0 <= th <= PI / 2 ->
  let d := slide_straight th r in let w := slide_back th r s e in
  0 <= d /\ way w = slide_arc th r /\ finish r origin w = {| px := d; py := 0; ph := 0 |}
  /\ forall a b, through r origin w a b -> nearby r d a b.
Proof.
  intros th r s e R T d w. assert (R0 : r <> 0) by lra. pose proof PI_RGT_0 as PP.
  destruct (gam_spec th T) as (G & CG & SG & S). unfold w, slide_back. cbv zeta. set (del := acos (1 - sin th)) in *.
  assert (C : 0 <= cos th <= 1) by (split; [apply cos_ge_0; lra|apply COS_bound]).
  assert (SD : sin th <= sin del <= 1).
  { split; [|apply SIN_bound]. pose proof (sin2_cos2 del) as Q. unfold Rsqr in Q. rewrite CG in Q.
    assert (0 <= sin del) by (apply sin_ge_0; lra). nra. }
  assert (CS : 1 <= cos th + sin th).
  { pose proof (sin2_cos2 th) as Q. unfold Rsqr in Q. nra. }
  assert (DE : d = 2 * r + 2 * r * cos th + 2 * r * sin del) by (unfold d; apply slide_straight_eq; exact T).
  assert (D4 : 4 * r <= d) by (rewrite DE; nra).
  assert (H1 : sin (- (PI / 2) - th) = - cos th /\ cos (- (PI / 2) - th) = - sin th).
  { replace (- (PI / 2) - th) with (- (PI / 2 + th)) by ring. rewrite sin_neg, cos_neg, sin_plus, cos_plus, sin_PI2, cos_PI2. split; ring. }
  assert (G1 : fly r origin 1 (PI / 2 * r) = onR r (2 * r) r (PI / 2)).
  { rewrite (origin_L r), fly_L, mul_div by exact R0. rewrite L_R. replace (0 + PI / 2) with (PI / 2) by ring. rewrite sin_PI2, cos_PI2. f_equal; ring. }
  assert (G2 : fly r (onR r (2 * r) r (PI / 2)) (-1) (PI / 2 * r) = onR r (2 * r) r 0).
  { rewrite fly_R, mul_div by exact R0. f_equal. ring. }
  assert (G3 : fly r (onR r (2 * r) r 0) (-1) (PI / 2 * r) = onR r (2 * r) r (- (PI / 2))).
  { rewrite fly_R, mul_div by exact R0. f_equal. ring. }
  assert (G4 : fly r (onR r (2 * r) r (- (PI / 2))) (-1) (th * r) = onL r (2 * r + 2 * r * cos th) (r - 2 * r * sin th) (- (PI / 2) - th)).
  { rewrite fly_R, mul_div by exact R0. rewrite R_L, (proj1 H1), (proj2 H1). f_equal; ring. }
  assert (G5 : fly r (onL r (2 * r + 2 * r * cos th) (r - 2 * r * sin th) (- (PI / 2) - th)) 1 ((PI / 2 + del + th) * r) = onR r d (- r) del).
  { rewrite fly_L, mul_div by exact R0. replace (- (PI / 2) - th + (PI / 2 + del + th)) with del by ring. rewrite L_R, CG, DE. f_equal; ring. }
  assert (G6 : fly r (onR r d (- r) del) (-1) (del * r) = {| px := d; py := 0; ph := 0 |}).
  { rewrite fly_R, mul_div by exact R0. apply pose_eq; cbn [onR px py ph]; replace (del - del) with 0 by ring; rewrite ?sin_0, ?cos_0; ring. }
  split; [lra|]. split; [|split].
  - unfold way, slide_arc. cbn [map fold_right llen]. fold del. field.
  - cbn [finish ldir llen]. rewrite G1, G2, G3, G4, G5, G6. reflexivity.
  - intros a b H. cbn [through ldir llen] in H. rewrite G1, G2, G3, G4, G5 in H.
    assert (CR : forall v, nearby r d (px (onR r (2 * r) r v)) (py (onR r (2 * r) r v))).
    { intros v. cbn [onR px py]. pose proof (SIN_bound v). pose proof (COS_bound v). apply nearby_strip; [exact R| |]; nra. }
    destruct H as [(t & K & X & Y)|[(t & K & X & Y)|[(t & K & X & Y)|[(t & K & X & Y)|[(t & K & X & Y)|[(t & K & X & Y)|[]]]]]]];
      rewrite <- X, <- Y.
    + rewrite (origin_L r), fly_L. cbn [onL px py]. apply nearby_circle; [exact R|lra].
    + rewrite fly_R. apply CR.
    + rewrite fly_R. apply CR.
    + rewrite fly_R. apply CR.
    + pose proof (turned t ((PI / 2 + del + th) * r) (PI / 2 + del + th) r R K eq_refl) as V. rewrite fly_L. cbn [onL px py].
      set (v := - (PI / 2) - th + t / r). assert (V' : - PI <= v <= del) by (unfold v; lra).
      assert (V1 : -1 <= sin v <= sin del).
      { split; [apply SIN_bound|]. destruct (Rle_lt_dec v 0) as [N|N].
        - apply Rle_trans with 0; [|lra]. replace v with (- (- v)) by ring. rewrite sin_neg. assert (0 <= sin (- v)) by (apply sin_ge_0; lra). lra.
        - apply sin_incr_1; lra. }
      pose proof (COS_bound v) as V2. apply nearby_strip; [exact R| |]; [rewrite DE|]; nra.
    + pose proof (turned t (del * r) del r R K eq_refl) as V. rewrite fly_R. cbn [onR px py].
      set (v := t / r) in *. assert (V1 : 0 <= sin (del - v) <= sin del). { split; [apply sin_ge_0; lra|apply sin_incr_1; lra]. }
      assert (V2 : 0 <= cos (del - v) <= 1). { split; [apply cos_ge_0; lra|apply COS_bound]. }
      apply nearby_strip; [exact R| |]; nra.
Qed.

Lemma race_local : forall n t r s e, 0 < r -> 0 <= t ->
  let w := race_track n t r s e in
  way w = INR (S n) * (2 * PI * r) + 2 * t
  /\ (exists h, finish r origin w = {| px := 0; py := 0; ph := h |} /\ same_way h 0)
  /\ forall a b, through r origin w a b -> nearby r t a b.
Proof.
  intros n t r s e R T w. assert (R0 : r <> 0) by lra.
  destruct (race_parts n t r s e R T) as (w0 & w2 & w4 & l1 & l3 & E & _ & F0 & F2 & F4 & D1 & D3 & L1 & L3 & W0 & W2 & W4).
  unfold w. rewrite E. clear w E.
  assert (U : forall h, cos (h + PI) = - cos h /\ sin (h + PI) = - sin h) by (intros h; split; [apply neg_cos|apply neg_sin]).
  set (h0 := INR n * (2 * PI)). assert (H0 : cos h0 = 1 /\ sin h0 = 0).
  { unfold h0. replace (INR n * (2 * PI)) with (0 + 2 * INR n * PI) by ring. rewrite cos_period, sin_period, cos_0, sin_0. auto. }
  assert (H1 : cos (h0 + PI) = -1 /\ sin (h0 + PI) = 0).
  { rewrite (proj1 (U h0)), (proj2 (U h0)), (proj1 H0), (proj2 H0). split; ring. }
  assert (H2 : cos (h0 + PI + PI) = 1 /\ sin (h0 + PI + PI) = 0).
  { rewrite (proj1 (U (h0 + PI))), (proj2 (U (h0 + PI))), (proj1 H1), (proj2 H1). split; ring. }
  assert (G0 : finish r origin w0 = onL r 0 r h0).
  { rewrite (origin_L r), lefts_finish by assumption. f_equal. rewrite W0. unfold h0. field. exact R0. }
  assert (G1 : fly r (onL r 0 r h0) (ldir l1) (llen l1) = onL r t r h0).
  { rewrite D1, L1. apply pose_eq; unfold fly, onL; cbn [Z.eqb px py ph]; rewrite ?(proj1 H0), ?(proj2 H0); ring. }
  assert (G2 : finish r (onL r t r h0) w2 = onL r t r (h0 + PI)).
  { rewrite lefts_finish by assumption. f_equal. rewrite W2. field. exact R0. }
  assert (G3 : fly r (onL r t r (h0 + PI)) (ldir l3) (llen l3) = onL r 0 r (h0 + PI)).
  { rewrite D3, L3. apply pose_eq; unfold fly, onL; cbn [Z.eqb px py ph]; rewrite ?(proj1 H1), ?(proj2 H1); ring. }
  assert (G4 : finish r (onL r 0 r (h0 + PI)) w4 = onL r 0 r (h0 + PI + PI)).
  { rewrite lefts_finish by assumption. f_equal. rewrite W4. field. exact R0. }
  split; [|split].
  - rewrite !way_app, W0, W2, W4, !way_cons, L1, L3. unfold way. cbn [map fold_right]. rewrite S_INR. ring.
  - exists (h0 + PI + PI). split.
    + rewrite finish_app, G0. cbn [app finish]. rewrite G1, finish_app, G2. cbn [finish]. rewrite G3, G4.
      apply pose_eq; unfold onL; cbn [px py ph]; rewrite ?(proj1 H2), ?(proj2 H2); ring.
    + unfold same_way. rewrite (proj1 H2), (proj2 H2), cos_0, sin_0. auto.
  - intros a b H. rewrite through_app, G0 in H. cbn [app through] in H. rewrite G1, through_app, G2 in H. cbn [through] in H. rewrite G3 in H.
    destruct H as [H|[(x & K & X & Y)|[H|[(x & K & X & Y)|H]]]].
    + rewrite (origin_L r) in H. apply lefts_through in H; [|exact F0]. destruct H as (k & -> & ->). apply nearby_circle; [exact R|lra].
    + rewrite D1 in X, Y. unfold fly, onL in X, Y. cbn [Z.eqb px py ph] in X, Y. rewrite (proj1 H0), (proj2 H0) in X, Y.
      apply nearby_strip; lra.
    + apply lefts_through in H; [|exact F2]. destruct H as (k & -> & ->). apply nearby_circle; [exact R|lra].
    + rewrite D3 in X, Y. unfold fly, onL in X, Y. cbn [Z.eqb px py ph] in X, Y. rewrite (proj1 H1), (proj2 H1) in X, Y.
      apply nearby_strip; lra.
    + apply lefts_through in H; [|exact F4]. destruct H as (k & -> & ->). apply nearby_circle; [exact R|lra].
Qed.

(** ** Extending a segment *)
Lemma floor_frac : forall x, 0 <= x - IZR (Int_part x) < 1.
Proof. intros x. pose proof (base_Int_part x). lra. Qed.

Lemma laps : forall len r, 0 < r -> 2 * PI * r <= len ->
  let n := Z.to_nat (Int_part (len / 2 / PI / r) - 1) in let t := fmod len (2 * PI * r) / 2 in
  len = INR (S n) * (2 * PI * r) + 2 * t /\ 0 <= t /\ t < PI * r.
Proof.
  intros len r R L n t. pose proof PI_RGT_0 as P. assert (Q : 0 < 2 * PI * r) by (apply Rmult_lt_0_compat; lra).
  assert (E : len / 2 / PI / r = len / (2 * PI * r)) by (field; lra).
  set (q := len / (2 * PI * r)) in *. assert (LQ : len = q * (2 * PI * r)) by (unfold q; field; lra).
  pose proof (floor_frac q) as F.
  assert (Q1 : 1 <= q). { apply Rmult_le_reg_r with (2 * PI * r); [exact Q|]. rewrite <- LQ. lra. }
  assert (I1 : (1 <= Int_part q)%Z). { assert (IZR 0 < IZR (Int_part q)) by lra. apply lt_IZR in H. lia. }
  assert (N : INR (S n) = IZR (Int_part q)).
  { unfold n. rewrite E. rewrite INR_IZR_INZ. f_equal. lia. }
  unfold t, fmod. fold q. rewrite N. set (i := IZR (Int_part q)) in *.
  assert (T0 : 0 <= (q - i) * (2 * PI * r)) by (apply Rmult_le_pos; lra).
  assert (T1 : (q - i) * (2 * PI * r) < 2 * PI * r) by nra.
  rewrite LQ. split; [field|]. split; lra.
Qed.

Lemma starting_frame : forall s e, starting s e = frame s (heading s e) origin.
Proof. intros s e. apply pose_eq; cbn [starting frame origin px py ph]; ring. Qed.

Lemma extend_ok : forall s e len r, 0 < r -> 0 <= len -> exists w d net,
  extend_segment s e len r = Some w /\ required len r = Some d /\ 0 <= net <= d
  /\ flown r (starting s e) w
  /\ (exists h, finish r origin w = {| px := net; py := 0; ph := h |} /\ same_way h 0)
  /\ net + len - tolerance r <= way w <= net + len
  /\ (forall a b, through r origin w a b -> nearby r d a b)
  /\ (net = d \/ net = 0) /\ (2 * PI * r <= len -> way w = len /\ d < PI * r).
Proof.
  intros s e len r R P. assert (TO : 0 <= tolerance r) by (unfold tolerance; lra).
  assert (SW : same_way 0 0) by (split; reflexivity). pose proof PI_RGT_0 as PP.
  unfold extend_segment, required. destruct (Rlt_dec len (2 * r * (PI - 2))) as [L|L].
  - destruct (single_search_ok len r R P L) as (th & E & T & A). rewrite E. cbn [option_map].
    destruct (single_local th r s e R T) as (D & W & F & N).
    exists (single_bubble th r s e), (single_straight th r), (single_straight th r).
    split; [reflexivity|]. split; [reflexivity|]. split; [lra|]. split; [apply single_flown; lra|]. split; [exists 0; auto|].
    split; [lra|]. split; [exact N|]. split; [auto|]. intros H. nra.
  - destruct (Rlt_dec len (2 * PI * r)) as [L2|L2].
    + destruct (slide_search_ok len r R ltac:(lra) L2) as (th & E & T & A). rewrite E. cbn [option_map].
      destruct (slide_local th r s e R T) as (D & W & F & N).
      exists (slide_back th r s e), (slide_straight th r), (slide_straight th r).
      split; [reflexivity|]. split; [reflexivity|]. split; [lra|]. split; [apply slide_flown; lra|]. split; [exists 0; auto|].
      split; [lra|]. split; [exact N|]. split; [auto|]. intros H. lra.
    + destruct (laps len r R ltac:(lra)) as (E & T & T1).
      set (n := Z.to_nat (Int_part (len / 2 / PI / r) - 1)) in *. set (t := fmod len (2 * PI * r) / 2) in *.
      destruct (race_local n t r s e R T) as (W & F & N). destruct (race_parts n t r s e R T) as (? & ? & ? & ? & ? & _ & FL & _).
      exists (race_track n t r s e), t, 0. split; [reflexivity|]. split; [reflexivity|]. split; [lra|]. split; [exact FL|]. split; [exact F|].
      split; [lra|]. split; [exact N|]. split; [auto|]. intros _. split; [lra|exact T1].
Qed.

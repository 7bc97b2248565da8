(** C80: what the simple waypoint plan manager sends. *)
From Coq Require Import Reals Lra Lia List ZArith.
From Verif Require Import ZMap Latest PiBounds FlatEarthModel RouteExtModel RouteExtGeom SimplePlanModel SimplePlanSpec.
Import ListNotations.
Open Scope R_scope.

Lemma mission_first v ms m : mission_of v ms = Some m <-> first_for v ms m.
Proof.
  split.
  - induction ms as [|x ms IH]; cbn [mission_of]; [discriminate|]. destruct (Z.eqb_spec (vehicle x) v) as [E|E].
    + intros [= ->]. exists [], ms. split; [reflexivity|]. split; [exact E|intros ? []].
    + intros H. apply IH in H. destruct H as (l1 & l2 & -> & M & N). exists (x :: l1), l2. split; [reflexivity|]. split; [exact M|]. intros y [<-|Y]; auto.
  - intros (l1 & l2 & -> & M & N). induction l1 as [|x l1 IH]; cbn [app mission_of]; [apply Z.eqb_eq in M; rewrite M; reflexivity|].
    destruct (Z.eqb_spec (vehicle x) v) as [E|E]; [exfalso; exact (N x (or_introl eq_refl) E)|]. apply IH. intros y Y. apply N. right. exact Y.
Qed.
Lemma mission_none v ms : mission_of v ms = None <-> forall m, In m ms -> vehicle m <> v.
Proof.
  induction ms as [|x ms IH]; cbn [mission_of]; [split; [intros _ ? []|reflexivity]|]. destruct (Z.eqb_spec (vehicle x) v) as [E|E].
  - split; [discriminate|]. intros H. exfalso. exact (H x (or_introl eq_refl) E).
  - rewrite IH. split; [intros H m [<-|M]; auto|intros H m M; apply H; right; exact M].
Qed.

Section Plans.
  Context (v : Z).

  Lemma run_snoc s h e : run v s (h ++ [e]) = fst (step v (run v s h) e).
  Proof. unfold run. rewrite fold_left_app. reflexivity. Qed.
  Lemma response_keeps s ms : configs (fst (step v s (Response ms))) = configs s /\ states (fst (step v s (Response ms))) = states s.
  Proof.
    cbn [step]. destruct (mission_of v ms) as [m|]; [|auto]. destruct (points m) as [|w [|? ?]]; auto. destruct (single s v w). auto.
  Qed.
  Lemma configs_latest h u : zget (configs (run v init h)) u = Latest.follow (configured u) h.
  Proof.
    induction h as [|e h IH] using rev_ind; [reflexivity|]. rewrite run_snoc, follow_snoc. destruct e as [w la lo|w c|ms|la lo]; cbn [configured].
    - exact IH.
    - cbn [step fst configs]. rewrite zget_set, (Z.eqb_sym w u). destruct (Z.eqb u w); [reflexivity|exact IH].
    - destruct (response_keeps (run v init h) ms) as (-> & _). exact IH.
    - exact IH.
  Qed.
  Lemma states_latest h u : zget (states (run v init h)) u = Latest.follow (located u) h.
  Proof.
    induction h as [|e h IH] using rev_ind; [reflexivity|]. rewrite run_snoc, follow_snoc. destruct e as [w la lo|w c|ms|la lo]; cbn [located].
    - cbn [step fst states]. rewrite zget_set, (Z.eqb_sym w u). destruct (Z.eqb u w); [reflexivity|exact IH].
    - exact IH.
    - destruct (response_keeps (run v init h) ms) as (_ & ->). exact IH.
    - exact IH.
  Qed.

  Lemma clamp x : (if Rlt_dec 89 (if Rlt_dec x 1 then 1 else x) then 89 else if Rlt_dec x 1 then 1 else x) = Rmax 1 (Rmin 89 x).
  Proof. unfold Rmax, Rmin. repeat destruct (Rlt_dec _ _); repeat destruct (Rle_dec _ _); lra. Qed.
  Lemma radius_turns h : turns h v (turn_radius (run v init h) v).
  Proof.
    unfold turn_radius. rewrite configs_latest. destruct (Latest.follow (configured v) h) as [c|] eqn:C; [right|left; split; [apply follow_unsaid, C|reflexivity]].
    exists c. cbv zeta. rewrite clamp. eexists. split; [apply follow_latest, C|]. split; [|unfold gravity, deg_to_rad; replace (980665 / 10 ^ 5) with 9.80665 by lra; replace (1745329251994 / 10 ^ 14) with 0.01745329251994 by lra; rewrite <- Rsqr_pow2; reflexivity].
    unfold bank_angle. destruct (banking c); [reflexivity|]. rewrite Rabs_pos_eq, Rmin_right, Rmax_right by lra. reflexivity.
  Qed.
  Lemma initialize_ready a b e : ready (initialize a b e) = true.
  Proof. unfold initialize. destruct (ready e) eqn:R; [exact R|reflexivity]. Qed.
  Lemma initialize_again a b e : ready e = true -> initialize a b e = e.
  Proof. intros R. unfold initialize. rewrite R. reflexivity. Qed.

  Lemma find_mission ms : find (fun m => Z.eqb (vehicle m) v) ms = mission_of v ms.
  Proof. induction ms as [|m ms IH]; [reflexivity|]. cbn [find mission_of]. destruct (Z.eqb (vehicle m) v); [reflexivity|exact IH]. Qed.
  Definition at_origin (a : R * R) : earth := initialize (fst a * deg_to_rad) (snd a * deg_to_rad) fresh.
  Lemma converter_step s e : converter (fst (step v s e)) = match converts v e with Some a => initialize (fst a * deg_to_rad) (snd a * deg_to_rad) (converter s) | None => converter s end.
  Proof.
    destruct e as [w la lo|w c|ms|la lo]; try reflexivity. cbn [step converts]. rewrite find_mission. destruct (mission_of v ms) as [m|]; [|reflexivity]. destruct (points m) as [|w [|? ?]]; try reflexivity.
    unfold single. cbv zeta. unfold deg_ne_m at 1. cbv zeta beta iota. set (e := initialize (lat w * deg_to_rad) (lon w * deg_to_rad) (converter s)).
    destruct (zget (states s) v) as [x|]; [|reflexivity]. unfold deg_ne_m. cbv zeta beta iota. cbn [fst converter]. rewrite initialize_again by apply initialize_ready. reflexivity.
  Qed.
  Lemma converter_keep h : converter (run v init h) = match keep (converts v) h with Some a => at_origin a | None => fresh end.
  Proof.
    induction h as [|e h IH] using rev_ind; [reflexivity|]. rewrite run_snoc, keep_snoc, converter_step, IH. destruct (keep (converts v) h) as [a|]; destruct (converts v e) as [b|]; reflexivity.
  Qed.
  Lemma origin_here h w : origin h v w (initialize (lat w * deg_to_rad) (lon w * deg_to_rad) (converter (run v init h))).
  Proof.
    unfold origin. replace 0.01745329251994 with deg_to_rad by (unfold deg_to_rad; lra). rewrite converter_keep. destruct (keep (converts v) h) as [a|] eqn:K.
    - exists a. split; [left; apply keep_earliest, K|]. apply initialize_again, initialize_ready.
    - exists (lat w, lon w). split; [right; split; [apply keep_unsaid, K|reflexivity]|reflexivity].
  Qed.
  Lemma single_lengthened h w : exists w1 w2, snd (single (run v init h) v w) = [w1; w2] /\ lengthened h v w w1 w2.
  Proof.
    unfold single. set (s := run v init h). set (e := initialize (lat w * deg_to_rad) (lon w * deg_to_rad) (converter s)).
    assert (RE : ready e = true) by apply initialize_ready.
    assert (P : deg_ne_m (lat w) (lon w) (converter s) = (e, place e (lat w) (lon w))).
    { unfold place, deg_ne_m. cbv zeta. fold e. rewrite (initialize_again _ _ e RE). reflexivity. }
    rewrite P. cbv beta iota. set (p := place e (lat w) (lon w)).
    assert (D : exists t, (match zget (states s) v with None => (e, 0) | Some x => let '(e0, q) := deg_ne_m (fst x) (snd x) e in (e0, atan2 (snd p - snd q) (fst p - fst q)) end) = (e, t) /\ direction h v e p (cos t, sin t)).
    { unfold s. rewrite states_latest. destruct (Latest.follow (located v) h) as [x|] eqn:X.
      - assert (Q : deg_ne_m (fst x) (snd x) e = (e, place e (fst x) (snd x))) by (unfold place, deg_ne_m; cbv zeta; rewrite !(initialize_again _ _ e RE); reflexivity).
        rewrite Q. cbv beta iota. set (q := place e (fst x) (snd x)). eexists. split; [reflexivity|]. set (t := atan2 (snd p - snd q) (fst p - fst q)).
        split; [cbn [fst snd]; pose proof (sin2_cos2 t) as SC; unfold Rsqr in SC; lra|]. right. exists x. split; [apply follow_latest, X|]. fold q. cbv zeta. cbn [fst snd].
        assert (Z0 : p = q -> t = 0).
        { intros E. unfold t. rewrite E. replace (snd q - snd q) with 0 by ring. replace (fst q - fst q) with 0 by ring. unfold atan2. destruct (Rlt_dec 0 0); [lra|reflexivity]. }
        split; [intros E; rewrite (Z0 E), cos_0, sin_0; reflexivity|]. unfold straight.
        destruct (Req_dec (fst p - fst q) 0) as [E1|E1]; [destruct (Req_dec (snd p - snd q) 0) as [E2|E2]|].
        + rewrite E1, E2. replace (0 ^ 2 + 0 ^ 2) with 0 by ring. rewrite sqrt_0. lra.
        + destruct (atan2_spec (snd p - snd q) (fst p - fst q) (or_intror E2)) as (_ & A & B). fold t in A, B. rewrite <- !Rsqr_pow2. split; symmetry; assumption.
        + destruct (atan2_spec (snd p - snd q) (fst p - fst q) (or_introl E1)) as (_ & A & B). fold t in A, B. rewrite <- !Rsqr_pow2. split; symmetry; assumption.
      - exists 0. split; [reflexivity|]. rewrite cos_0, sin_0. split; [cbn [fst snd]; lra|]. left. split; [apply follow_unsaid, X|reflexivity]. }
    destruct D as (t & -> & D). cbv beta iota. cbn [snd]. eexists. eexists. split; [reflexivity|].
    exists e, (turn_radius s v), (cos t, sin t). split; [apply origin_here|]. split; [apply radius_turns|]. split; [exact D|]. split; [reflexivity|]. cbn [number next fields lat lon fst snd]. repeat split.
  Qed.

  (** A response with a mission for the vehicle leads to exactly that one: the first, as it is or made longer. *)
  Theorem C80_response h ms : let out := snd (step v (run v init h) (Response ms)) in
    (forall m, first_for v ms m -> exists m', out = [m'] /\ served h v m m')
    /\ ((forall m, In m ms -> vehicle m <> v) -> out = []).
  Proof.
    cbv zeta. split.
    - intros m F. apply mission_first in F. cbn [step]. rewrite F. destruct (points m) as [|w [|w' ws]] eqn:P.
      + exists m. split; [reflexivity|]. split; [reflexivity|]. split; [reflexivity|]. right. rewrite P. split; [discriminate|reflexivity].
      + destruct (single_lengthened h w) as (w1 & w2 & E & L). destruct (single (run v init h) v w) as (c, l). cbn [snd] in E |- *. subst l. eexists. split; [reflexivity|]. cbn [vehicle points content].
        split; [reflexivity|]. split; [reflexivity|]. left. exists w, w1, w2. auto.
      + exists m. split; [reflexivity|]. split; [reflexivity|]. split; [reflexivity|]. right. rewrite P. split; [discriminate|reflexivity].
    - intros N. apply mission_none in N. cbn [step]. rewrite N. reflexivity.
  Qed.
  (** Nothing else is sent. *)
  Theorem C80_silent h e : (forall ms, e <> Response ms) -> snd (step v (run v init h) e) = [].
  Proof. intros N. destruct e as [w la lo|w c|ms|la lo]; try reflexivity. exfalso. exact (N ms eq_refl). Qed.

  (** The bank angle leaves a turn of some size if the vehicle has a speed. *)
  Lemma tan_pos phi : 1 <= phi <= 89 -> 0 < tan (phi * 0.01745329251994).
  Proof. intros H. pose proof PI_bounds. apply tan_gt_0; lra. Qed.
  Theorem C80_room h r : turns h v r -> 0 <= r /\ (r = 0 <-> exists c, latest (configured v) h c /\ speed c = 0).
  Proof.
    intros [(U & ->)|(c & phi & C & B & ->)].
    - split; [lra|]. split; [lra|]. intros (c & C & _). apply follow_latest in C. apply follow_unsaid in U. congruence.
    - assert (T : 0 < tan (phi * 0.01745329251994)).
      { apply tan_pos. unfold bank_angle in B. destruct (banking c) as [b|]; [|lra]. subst phi. pose proof (Rmax_l 1 (Rmin 89 (Rabs b))). split; [assumption|]. apply Rmax_lub; [lra|apply Rmin_l]. }
      assert (D : 0 < 9.80665 * tan (phi * 0.01745329251994)) by (apply Rmult_lt_0_compat; lra). set (d := 9.80665 * tan (phi * 0.01745329251994)) in *.
      assert (I : 0 < / d) by (apply Rinv_0_lt_compat, D). pose proof (pow2_ge_0 (speed c)) as S. split; [apply Rmult_le_pos; lra|]. split.
      + intros E. exists c. split; [exact C|]. unfold Rdiv in E. apply Rmult_integral in E. destruct E as [E|E]; [|lra]. rewrite <- Rsqr_pow2 in E. apply Rsqr_0_uniq, E.
      + intros (c' & C' & E). apply follow_latest in C, C'. assert (c' = c) by congruence. subst c'. rewrite E. unfold Rdiv. ring.
  Qed.
  (** The second waypoint is behind the first one as seen from the vehicle. *)
  Theorem C80_behind h e p u r x : direction h v e p u -> latest (located v) h x -> 0 <= r ->
    straight (place e (fst x) (snd x)) (fst p + 2 * r * fst u, snd p + 2 * r * snd u) = straight (place e (fst x) (snd x)) p + 2 * r
    /\ straight p (fst p + 2 * r * fst u, snd p + 2 * r * snd u) = 2 * r.
  Proof.
    intros (U & [(N & _)|(y & Y & Q)]) X R; [apply follow_latest in X; apply follow_unsaid in N; congruence|]. apply follow_latest in X, Y. assert (y = x) by congruence. subst y. cbv zeta in Q.
    set (q := place e (fst x) (snd x)) in *. destruct Q as (_ & A & B). set (d := straight q p) in *. assert (D : 0 <= d) by apply sqrt_pos. unfold straight. cbn [fst snd]. split.
    - replace (fst p + 2 * r * fst u - fst q) with ((d + 2 * r) * fst u) by lra. replace (snd p + 2 * r * snd u - snd q) with ((d + 2 * r) * snd u) by lra.
      replace (((d + 2 * r) * fst u) ^ 2 + ((d + 2 * r) * snd u) ^ 2) with ((d + 2 * r) ^ 2 * (fst u ^ 2 + snd u ^ 2)) by ring. rewrite U, Rmult_1_r, <- Rsqr_pow2. apply sqrt_Rsqr. lra.
    - replace ((fst p + 2 * r * fst u - fst p) ^ 2 + (snd p + 2 * r * snd u - snd p) ^ 2) with ((2 * r) ^ 2 * (fst u ^ 2 + snd u ^ 2)) by ring. rewrite U, Rmult_1_r, <- Rsqr_pow2. apply sqrt_Rsqr. lra.
  Qed.
End Plans.
Print Assumptions C80_response.
Print Assumptions C80_silent.
Print Assumptions C80_room.
Print Assumptions C80_behind.

(** The second waypoint of a mission with one leads where that one did, to the first one if it stood for itself: the vehicle turns back. *)
Theorem C80_stays_refuted : ~ forall v h ms m', snd (step v (run v init h) (Response ms)) = [m'] ->
  forall w1 w2, points m' = [w1; w2] -> number w2 = (number w1 + 1)%Z -> (forall m w, In m ms -> In w (points m) -> next w = number w) -> next w2 = number w2.
Proof.
  intros ALL. set (w := {| number := 1; next := 1; lat := 0; lon := 0; fields := 0 |}). set (m := {| vehicle := 1; points := [w]; content := 0 |}).
  destruct (C80_response 1 [] [m]) as (A & _). destruct (A m) as (m' & E & (_ & _ & [(x & w1 & w2 & P & P' & L)|(L & _)])).
  - exists [], []. split; [reflexivity|]. split; [reflexivity|intros ? []].
  - injection P as <-. destruct L as (e & r & u & _ & _ & _ & W1 & N2 & X2 & _). specialize (ALL 1%Z [] [m] m' E w1 w2 P'). rewrite N2, X2, W1 in ALL. cbn in ALL.
    specialize (ALL eq_refl). assert (C : (1 = 2)%Z); [|discriminate]. apply ALL. intros m0 w0 [<-|[]] [<-|[]]. reflexivity.
  - apply L. reflexivity.
Qed.
Print Assumptions C80_stays_refuted.

(** The hypotheses are met. *)
Example C80_meets : let h := [Config 1 {| speed := 20; banking := Some 30 |}; State 1 0 0] in
  first_for 1 [{| vehicle := 2; points := []; content := 0 |}; {| vehicle := 1; points := [{| number := 4; next := 4; lat := 1; lon := 1; fields := 7 |}]; content := 0 |}]
    {| vehicle := 1; points := [{| number := 4; next := 4; lat := 1; lon := 1; fields := 7 |}]; content := 0 |}
  /\ latest (located 1) h (0, 0) /\ turns h 1 (20 ^ 2 / (9.80665 * tan (30 * 0.01745329251994))).
Proof.
  cbv zeta. split; [exists [{| vehicle := 2; points := []; content := 0 |}], []; split; [reflexivity|]; split; [reflexivity|]; intros x [<-|[]]; discriminate|]. split; [apply follow_latest; reflexivity|].
  right. exists {| speed := 20; banking := Some 30 |}, 30. split; [apply follow_latest; reflexivity|]. split; [|reflexivity]. cbn [bank_angle banking]. rewrite Rabs_pos_eq, Rmin_right, Rmax_right by lra. reflexivity.
Qed.

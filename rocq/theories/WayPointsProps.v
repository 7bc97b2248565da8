(** C101: the waypoints listed for a route lead around the zones and can be flown. *)
From Coq Require Import Reals List ZArith QArith Qreals Lia Lra.
From Verif Require Import SteeringCourseModel SegModel SegSpec SegProps VisModel VisProps VisCaseProps PiBounds DubinsModel DubinsSpec DubinsProofs DubinsTangent DubinsShort DubinsProps VisSpec WayPointsModel WayPointsSpec WayPointsProofs WayHeading.
Import ListNotations.
Open Scope R_scope.

Lemma find_corner ps v : numbered ps -> corner ps v -> List.find (fun u => Z.eqb (fst u) (fst v)) (flat_map p_verts ps) = Some v.
Proof.
  intros (ND & _) (p & IP & IV). assert (IN : In v (flat_map p_verts ps)) by (apply in_flat_map; exists p; auto).
  revert ND IN. generalize (flat_map p_verts ps). clear. intros l. induction l as [|u l IH]; intros ND IN; [contradiction|]. cbn in *.
  inversion ND as [|? ? NI ND']; subst. destruct IN as [->|IN]; [rewrite Z.eqb_refl; reflexivity|].
  destruct (Z.eqb_spec (fst u) (fst v)) as [E|_]; [exfalso; apply NI; rewrite E; apply in_map; exact IN|apply IH; assumption].
Qed.
Lemma corner_located ps v : numbered ps -> corner ps v -> located ps (fst v) (corner_place ps (fst v)).
Proof. intros N C. exists v. split; [exact C|]. split; [reflexivity|]. unfold corner_place. rewrite (find_corner ps v N C). reflexivity. Qed.

(** All of a way's numbers are corners, if those of the edges are. *)
Lemma walk_ends es vs l : walk es vs l -> forall i, In i vs -> vs = [i] \/ exists j w, joined es i j w.
Proof.
  intros W. induction W as [a|a b w r l J W IH]; intros i X.
  - destruct X as [->|[]]. left. reflexivity.
  - right. destruct X as [<-|X]; [exists b, w; exact J|]. destruct (IH i X) as [E|G]; [|exact G].
    injection E as -> _. exists a, w. destruct J as [J|J]; [right|left]; exact J.
Qed.

Lemma dist_tri p q x : dist p x <= dist p q + dist q x.
Proof.
  pose proof (triangle (fst p) (snd p) (fst x) (snd x) (fst q) (snd q)) as T. unfold dist_euc, Rsqr in T. exact T.
Qed.

Section Way.
  Context (ps : list polygon) (inside : polygon -> pos -> bool) (notconvex : polygon -> bool) (n : nat) (dist_ parent : Z -> Z -> Z)
    (num : numbered ps).
  Notation es := (build inside notconvex ps).
  Context (sw : shortest_walks es n dist_ parent).

  Lemma way_located A B vs l : VisSpec.way ps es A B vs l -> Forall2 (located ps) vs (map (corner_place ps) vs) /\ vs <> [].
  Proof.
    intros (v & w & la & lw & lb & CV & CW & (r & SV) & (r' & SW') & _ & _ & _ & W & _).
    split; [|rewrite SV; discriminate].
    assert (G : forall i, In i vs -> exists u, corner ps u /\ fst u = i).
    { intros i X. destruct (walk_ends _ _ _ W i X) as [E|(j & x & J)].
      - exists v. split; [exact CV|]. rewrite SV in E. injection E as E _. exact E.
      - destruct (C55_legs inside notconvex ps i j x num J) as (u & u' & CU & _ & E & _). exists u. auto. }
    clear - G num. induction vs as [|i vs IH]; [constructor|]. cbn. constructor.
    - destruct (G i (or_introl eq_refl)) as (u & C & <-). apply corner_located; assumption.
    - apply IH. intros j X. apply G. right. exact X.
  Qed.

  (** The way found, with the numbers listed for it. *)
  Lemma the_way A B vs0 l0 : ~ sees ps A B nowhere nowhere -> VisSpec.way ps es A B vs0 l0 -> (l0 <= 2147483646)%Z ->
    let p := find_path dist_ ps A B in
    exists vs l, VisSpec.way ps es A B vs l /\ (forall vs' l', VisSpec.way ps es A B vs' l' -> (l <= l')%Z)
      /\ pa_start p = A /\ pa_end p = B /\ Z.ltb (pa_first p) 0 = false
      /\ exists c cs is, map (corner_place ps) vs = c :: cs /\ trail parent n p = Some is /\
           (map (corner_place ps) is = c :: cs \/ cs = [] /\ map (corner_place ps) is = [c; c]).
  Proof.
    intros NS W0 L0 p. destruct (C54_shortest ps es n dist_ parent num sw A B vs0 l0 NS W0 L0) as (vs & l & _ & W & M & PS & PE & T).
    exists vs, l. split; [exact W|]. split; [exact M|]. split; [exact PS|]. split; [exact PE|].
    destruct (way_located _ _ _ _ W) as (_ & NE). destruct vs as [|v vs]; [contradiction NE; reflexivity|].
    assert (Z0 : Z.ltb (pa_first p) 0 = false).
    { destruct (Z.ltb (pa_first p) 0) eqn:Z0; [|reflexivity]. exfalso. unfold trail in T. fold p in T. rewrite Z0 in T.
      destruct T as [T|(u & _ & T)]; discriminate. }
    split; [exact Z0|]. exists (corner_place ps v), (map (corner_place ps) vs).
    destruct T as [T|(u & E & T)].
    - exists (v :: vs). split; [reflexivity|]. split; [exact T|]. left. reflexivity.
    - injection E as -> ->. exists [u; u]. split; [reflexivity|]. split; [exact T|]. right. split; reflexivity.
  Qed.

  (** If no heading is asked for, the waypoints are the start, the corners of a shortest way and the end, some of them repeated. *)
  Theorem C101_straight A B hs he r sep vs0 l0 :
    ~ sees ps A B nowhere nowhere -> VisSpec.way ps es A B vs0 l0 -> (l0 <= 2147483646)%Z ->
    exists vs l cs pts, VisSpec.way ps es A B vs l /\ (forall vs' l', VisSpec.way ps es A B vs' l' -> (l <= l')%Z)
      /\ Forall2 (located ps) vs cs
      /\ plan_points ps dist_ parent n A B false false hs he r sep = Listed pts /\ repeated (at_pos A :: cs ++ [at_pos B]) pts.
  Proof.
    intros NS W0 L0. destruct (the_way A B vs0 l0 NS W0 L0) as (vs & l & W & M & PS & PE & Z0 & c & cs & is & E & T & K).
    unfold plan_points. rewrite T, PS, PE, Z0. cbn [negb andb]. destruct (way_located _ _ _ _ W) as (LO & _). rewrite E in LO.
    destruct K as [->|(-> & ->)].
    - destruct (straight_points (place_of A) (rad_of hs) c cs (place_of B) (rad_of (he - 180)) r sep) as (pts & G & RP).
      exists vs, l, (c :: cs), pts. repeat split; assumption.
    - destruct (straight_points (place_of A) (rad_of hs) c [c] (place_of B) (rad_of (he - 180)) r sep) as (pts & G & RP).
      exists vs, l, [c], pts. split; [exact W|]. split; [exact M|]. split; [exact LO|]. split; [exact G|].
      clear - RP. cbn [app] in *.
      assert (K : forall k l : list place, repeated k l -> forall a b, k = a ++ c :: c :: b -> repeated (a ++ c :: b) l).
      { clear. intros k l H. induction H as [|x k l H IH|x k l H IH]; intros a b E.
        - destruct a; discriminate.
        - destruct a as [|y a]; cbn in E |- *; injection E as -> ->; [apply rep_more; exact H|apply rep_one, IH; reflexivity].
        - destruct a as [|y a].
          + cbn in E. injection E as -> ->. apply rep_more. apply (IH [] b eq_refl).
          + cbn in E. injection E as -> ->. cbn. apply rep_more. apply (IH (y :: a) b). reflexivity. }
      exact (K _ _ RP [at_pos A] [at_pos B] eq_refl).
  Qed.

  (** Between two of these waypoints that follow each other no zone is in the way, except that a leg may go along a side of one. *)
  Theorem C101_in_sight A B hs he r sep vs0 l0 pts :
    ~ sees ps A B nowhere nowhere -> VisSpec.way ps es A B vs0 l0 -> (l0 <= 2147483646)%Z ->
    plan_points ps dist_ parent n A B false false hs he r sep = Listed pts ->
    forall l1 x y l2, pts = l1 ++ x :: y :: l2 -> x = y \/ open_leg ps x y.
  Proof.
    intros NS W0 L0 PP l1 x y l2 E. destruct (C101_straight A B hs he r sep vs0 l0 NS W0 L0) as (vs & l & cs & pts' & W & _ & LO & PP' & RP).
    rewrite PP in PP'. injection PP' as <-. destruct (repeated_next _ _ RP _ _ _ _ E) as [->|(k1 & k2 & K)]; [left; reflexivity|right].
    destruct W as (v & w & la & lw & lb & CV & CW & (q1 & SV) & (q2 & SW') & SA & SB & _ & WK & _).
    assert (UQ : forall u i z, corner ps u -> fst u = i -> located ps i z -> z = at_pos (snd u)).
    { intros u i z CU <- (u' & CU' & EU & ->). pose proof (find_corner ps u num CU) as F. rewrite <- EU, (find_corner ps u' num CU') in F. injection F as ->. reflexivity. }
    assert (MID : forall vs lw, walk es vs lw -> forall cs, Forall2 (located ps) vs cs -> forall k1 k2, cs = k1 ++ x :: y :: k2 -> open_leg ps x y).
    { clear - UQ num. intros vs lw W. induction W as [a|a b w r l J W IH]; intros cs F k1 k2 E.
      - inversion F as [|? ? ? ? ? F']; subst. inversion F'; subst. destruct k1 as [|? [|? ?]]; discriminate.
      - destruct cs as [|z zs]; [inversion F|]. assert (LF : located ps a z /\ Forall2 (located ps) (b :: r) zs) by (inversion F; auto). destruct LF as (LA & F').
        destruct k1 as [|u k1]; cbn in E; injection E as -> E.
        + subst zs. inversion F' as [|? ? ? ? LB _]; subst. destruct (C55_legs inside notconvex ps a b w num J) as (p & q & CP & CQ & EA & EB & _ & O).
          exists (snd p), (snd q), a, b. split; [exact (UQ _ _ _ CP EA LA)|]. split; [exact (UQ _ _ _ CQ EB LB)|].
          rewrite <- EA, <- EB. split; [right; destruct p; exact CP|]. split; [right; destruct q; exact CQ|].
          destruct O as [(z & IZ & SD)|S]; [right; exists z, p, q; auto|left; exact S].
        + exact (IH _ F' _ _ E). }
    destruct k1 as [|u k1]; cbn in K; injection K as KA K.
    - subst x. rewrite SV in LO. inversion LO as [|? z ? zs LV LO']; subst cs. cbn in K. injection K as -> _.
      exists A, (snd v), nowhere, (fst v). split; [reflexivity|]. split; [exact (UQ _ _ _ CV eq_refl LV)|]. split; [left; reflexivity|].
      split; [right; destruct v; exact CV|left; exact SA].
    - destruct k2 as [|z k2].
      + replace (k1 ++ [x; y]) with ((k1 ++ [x]) ++ [y]) in K by (rewrite <- app_assoc; reflexivity). apply app_inj_tail in K. destruct K as (K & <-). subst cs.
        rewrite SW' in LO. apply Forall2_app_inv_l in LO. destruct LO as (a & b & _ & LB & K). inversion LB as [|? z ? ? LZ LN]; subst. inversion LN; subst.
        apply app_inj_tail in K. destruct K as (_ & ->).
        exists (snd w), B, (fst w), nowhere. split; [exact (UQ _ _ _ CW eq_refl LZ)|]. split; [reflexivity|]. split; [right; destruct w; exact CW|].
        split; [left; reflexivity|left; exact SB].
      + assert (K' : exists k3, cs = k1 ++ x :: y :: k3).
        { destruct (exists_last (l := z :: k2)) as (k3 & e & EZ); [discriminate|]. rewrite EZ in K.
          exists k3. replace (k1 ++ x :: y :: k3 ++ [e]) with ((k1 ++ x :: y :: k3) ++ [e]) in K by (rewrite <- app_assoc; reflexivity).
          apply app_inj_tail in K. apply K. }
        destruct K' as (k3 & K'). exact (MID _ _ WK _ LO _ _ K').
  Qed.

  (** If the end is seen from the start and no heading is asked for, these two are the waypoints. *)
  Theorem C101_direct A B hs he r sep : sees ps A B nowhere nowhere ->
    plan_points ps dist_ parent n A B false false hs he r sep = Listed [at_pos A; at_pos B].
  Proof.
    intros S. unfold plan_points, find_path. pose proof (proj2 (blocked_sees ps A B (-1)%Z (-1)%Z) S) as BL; rewrite BL. reflexivity.
  Qed.

  Lemma back_same he : same_heading (norm_angle (rad_of (he - 180) + PI)) (degrees he).
  Proof.
    destruct (norm_cs (rad_of (he - 180) + PI)) as (C & S). unfold same_heading. rewrite C, S. unfold rad_of, degrees.
    replace ((he - 180) * (PI / 180) + PI) with (PI * he / 180) by field. split; reflexivity.
  Qed.
  Lemma rad_degrees h : rad_of h = degrees h.
  Proof. unfold rad_of, degrees. field. Qed.
  Lemma clear_same r p h q h1 h2 : same_heading h1 h2 -> clear r p h q h2 -> clear r p h q h1.
  Proof.
    intros (C & S) CL s1 s2. specialize (CL s1 s2). assert (E : hub (q, h1) r s2 = hub (q, h2) r s2) by (destruct q, s2; cbn; rewrite C, S; reflexivity).
    rewrite E. exact CL.
  Qed.
  Lemma leg_flown p h f b r sep : 1 <= r -> 0 < sep -> clear r p h f (norm_angle (b + PI)) ->
    exists len, flown r sep (p, h) f (norm_angle (b + PI)) len (leg false p h f (Some b) r sep).
  Proof.
    intros Rp Sp CL. unfold leg. destruct (Rlt_dec r 1); [lra|]. destruct (C100_flyable r sep p h f _ Rp Sp CL) as (len & ws & E & F).
    rewrite E. exists len, ws. auto.
  Qed.

  (** If a heading is asked for and the end is seen from the start, the waypoints can be flown from the start with its heading to the end
      with its heading. *)
  Theorem C101_turns_direct A B us ue hs he r sep : us = true \/ ue = true -> sees ps A B nowhere nowhere ->
    1 <= r -> 0 < sep -> clear r (at_pos A) (degrees hs) (at_pos B) (degrees he) ->
    exists pts h' len, plan_points ps dist_ parent n A B us ue hs he r sep = Listed pts /\ same_heading h' (degrees he)
      /\ flown r sep (at_pos A, degrees hs) (at_pos B) h' len pts.
  Proof.
    intros U S Rp Sp CL. apply (clear_same r _ _ _ _ _ (back_same he)) in CL.
    destruct (leg_flown (at_pos A) (degrees hs) (at_pos B) _ r sep Rp Sp CL) as (len & F).
    eexists. exists (norm_angle (rad_of (he - 180) + PI)), len. split; [|split; [apply back_same|exact F]].
    unfold plan_points, find_path. pose proof (proj2 (blocked_sees ps A B (-1)%Z (-1)%Z) S) as BL; rewrite BL, rad_degrees.
    assert (E : negb ue && negb us = false) by (destruct U as [-> | ->]; [destruct ue|destruct us]; reflexivity). rewrite E. reflexivity.
  Qed.

  Lemma far_clear r p h q h' : 0 < r -> 2 * r + 1 / 2 <= dist p q -> clear r p h q h'.
  Proof.
    intros Rp F s1 s2.
    assert (ON : forall p h s, dist p (hub (p, h) r s) = r).
    { clear - Rp. intros (pn, pe) h s. unfold dist. pose proof (cs_unit h) as T. transitivity (sqrt (r * r)); [|apply sqrt_square; lra].
      f_equal. destruct s; cbn [hub fst snd].
      - transitivity (r * r * (cos h * cos h + sin h * sin h)); [ring|rewrite T; ring].
      - transitivity (r * r * (cos h * cos h + sin h * sin h)); [ring|rewrite T; ring]. }
    pose proof (dist_tri p (hub (p, h) r s1) q). pose proof (dist_tri (hub (p, h) r s1) (hub (q, h') r s2) q).
    pose proof (ON p h s1). pose proof (ON q h' s2) as O2. rewrite dist_sym in O2. lra.
  Qed.

  Lemma generate_turns r sep A h c cs B b : 1 <= r -> 0 < sep ->
    (forall x, In x (c :: cs) -> 2 * r + 1 / 2 <= dist A x /\ 2 * r + 1 / 2 <= dist x B) ->
    exists pts, generate false A h (Some (c :: cs)) false B b r sep = Listed pts /\ around_corners r sep (A, h) (c :: cs) B (norm_angle (b + PI)) pts.
  Proof.
    intros Rp Sp FC.
    pose proof (smooth_spec c cs B) as SM. destruct (smooth ((c :: cs) ++ [B])) as (mids, h2) eqn:ES.
    destruct SM as (WM & HM); [intros x X; destruct (FC x X); lra|].
    assert (NM : mids <> []) by (destruct (without_short_some _ _ _ WM) as (m' & EM); rewrite EM; discriminate).
    destruct (exists_last NM) as (k & y & EK). clear NM. subst mids.
    assert (IY : In y (c :: cs)) by (apply (without_short_in _ _ WM); apply in_or_app; right; left; reflexivity).
    set (t := task_heading A h c r).
    destruct (leg_flown A h c t r sep Rp Sp) as (len1 & FL1); [apply far_clear; [lra|apply FC; left; reflexivity]|].
    change (leg false A h c (Some t) r sep) with (leg false A h c None r sep) in FL1.
    destruct (leg_flown y h2 B b r sep Rp Sp) as (len3 & FL3); [apply far_clear; [lra|apply FC; exact IY]|].
    destruct (task_heading_spec r A h c) as (s & a & l' & A1 & A2 & A3 & A4 & A5); [lra|pose proof (proj1 (FC c (or_introl eq_refl))); lra|].
    exists (leg false A h c None r sep ++ (k ++ [y]) ++ leg false y h2 B (Some b) r sep). split.
    - unfold generate. destruct (leg false A h c None r sep) as [|w ws] eqn:EL.
      + exfalso. destruct FL1 as (w & EW & FW). destruct w as [|]; [|discriminate].
        destruct FW as [(s1 & s2 & FW)|(s1 & FW)].
        * destruct FW as (? & ? & ? & ? & ? & ? & w1 & ? & ? & _ & _ & _ & _ & _ & _ & _ & _ & _ & _ & _ & _ & _ & EQ & _). destruct w1; discriminate.
        * destruct FW as (? & ? & ? & w1 & ? & ? & _ & _ & _ & _ & _ & (? & ? & ? & _ & _ & EA & _) & _ & _ & EQ & _). subst w1. symmetry in EQ.
          apply app_eq_nil in EQ. destruct EQ as (EQ & _). apply app_eq_nil in EQ. destruct EQ as (_ & EQ). discriminate.
      + rewrite ES. assert (LY : last ((w :: ws) ++ (k ++ [y])) A = y) by (rewrite app_assoc; apply last_last).
        cbv zeta. rewrite LY. f_equal. symmetry. apply app_assoc.
    - exists c, cs, (leg false A h c None r sep), len1, (norm_angle (t + PI)), k, y, h2, (leg false y h2 B (Some b) r sep), len3.
      split; [reflexivity|]. split; [exact FL1|]. split; [exists s, a, l'; auto 6|]. split; [exact WM|]. split; [exact HM|].
      split; [exact FL3|reflexivity].
  Qed.
  Lemma twice_once c m : without_short [c; c] m -> m = [c].
  Proof.
    intros WS. inversion WS as [|?|? ? ? ? D0 ?|? ? ? ? D0 WS']; subst.
    - exfalso. unfold dist in D0. replace ((fst c - fst c) * (fst c - fst c) + (snd c - snd c) * (snd c - snd c)) with 0 in D0 by ring. rewrite sqrt_0 in D0. lra.
    - inversion WS'; reflexivity.
  Qed.

  (** If a heading is asked for and the end is not seen from the start, the waypoints lead around the corners of a shortest way. *)
  Theorem C101_turns A B us ue hs he r sep vs0 l0 : us = true \/ ue = true ->
    ~ sees ps A B nowhere nowhere -> VisSpec.way ps es A B vs0 l0 -> (l0 <= 2147483646)%Z ->
    1 <= r -> 0 < sep ->
    (forall v, corner ps v -> 2 * r + 1 / 2 <= dist (at_pos A) (at_pos (snd v)) /\ 2 * r + 1 / 2 <= dist (at_pos (snd v)) (at_pos B)) ->
    exists vs l cs pts h', VisSpec.way ps es A B vs l /\ (forall vs' l', VisSpec.way ps es A B vs' l' -> (l <= l')%Z)
      /\ Forall2 (located ps) vs cs
      /\ plan_points ps dist_ parent n A B us ue hs he r sep = Listed pts
      /\ same_heading h' (degrees he) /\ around_corners r sep (at_pos A, degrees hs) cs (at_pos B) h' pts.
  Proof.
    intros U NS W0 L0 Rp Sp Far. destruct (the_way A B vs0 l0 NS W0 L0) as (vs & l & W & M & PS & PE & Z0 & c & cs & is & E & T & K).
    destruct (way_located _ _ _ _ W) as (LO & _). rewrite E in LO.
    assert (E0 : negb ue && negb us = false) by (destruct U as [-> | ->]; [destruct ue|destruct us]; reflexivity).
    assert (FC : forall x, In x (c :: cs) -> 2 * r + 1 / 2 <= dist (at_pos A) x /\ 2 * r + 1 / 2 <= dist x (at_pos B)).
    { intros x X. clear - LO X Far. induction LO as [|i z vs zs L0 LO IH]; [contradiction|]. destruct X as [<-|X]; [|exact (IH X)].
      destruct L0 as (v & C & _ & ->). apply Far. exact C. }
    exists vs, l, (c :: cs). unfold plan_points. rewrite T, PS, PE, Z0, E0, rad_degrees.
    destruct K as [K|(-> & K)]; rewrite K.
    - destruct (generate_turns r sep (at_pos A) (degrees hs) c cs (at_pos B) (rad_of (he - 180)) Rp Sp FC) as (pts & G & AC).
      exists pts, (norm_angle (rad_of (he - 180) + PI)). split; [exact W|]. split; [exact M|]. split; [exact LO|]. split; [exact G|]. split; [apply back_same|exact AC].
    - destruct (generate_turns r sep (at_pos A) (degrees hs) c [c] (at_pos B) (rad_of (he - 180)) Rp Sp) as (pts & G & AC).
      { intros x [->|[->|[]]]; apply FC; left; reflexivity. }
      exists pts, (norm_angle (rad_of (he - 180) + PI)). split; [exact W|]. split; [exact M|]. split; [exact LO|]. split; [exact G|]. split; [apply back_same|].
      destruct AC as (c' & cs' & w1 & len1 & h1 & k & y & h2 & w3 & len3 & EC & F1 & TH & WS & HE & F3 & EP). injection EC as <- <-.
      exists c, [], w1, len1, h1, k, y, h2, w3, len3. apply twice_once in WS. rewrite WS in *. repeat (split; [assumption || reflexivity || constructor|]). assumption.
  Qed.

  (** WANTED: the heading at the end does not matter unless it is asked for.  FAILS: it is kept to all the same. *)
  Theorem C101_unasked_refuted A B hs he r sep : sees ps A B nowhere nowhere ->
    1 <= r -> 0 < sep -> clear r (at_pos A) (degrees hs) (at_pos B) (degrees he) ->
    exists pts h' len, plan_points ps dist_ parent n A B true false hs he r sep = Listed pts /\ same_heading h' (degrees he)
      /\ flown r sep (at_pos A, degrees hs) (at_pos B) h' len pts.
  Proof. intros S Rp Sp CL. apply C101_turns_direct; [left; reflexivity|assumption..]. Qed.

  (** WANTED: if no way is found, no waypoints are listed.  FAILS: the origin of the map is listed twice. *)
  Theorem C101_lost_refuted A B hs he r sep :
    ~ sees ps A B nowhere nowhere ->
    (forall v, corner ps v -> ~ sees ps A (snd v) nowhere (fst v))
    \/ (forall v, corner ps v -> ~ sees ps (snd v) B (fst v) nowhere) ->
    plan_points ps dist_ parent n A B false false hs he r sep = Listed [(0, 0); (0, 0)].
  Proof.
    intros NS H. pose proof (C54_lost_refuted ps dist_ A B NS H) as E. unfold is_find_path in E. injection E as E.
    unfold plan_points. rewrite E. cbn. unfold place_of. cbn. rewrite RMicromega.Q2R_0. reflexivity.
  Qed.
End Way.
Print Assumptions C101_straight.
Print Assumptions C101_in_sight.
Print Assumptions C101_direct.
Print Assumptions C101_turns_direct.
Print Assumptions C101_turns.
Print Assumptions C101_unasked_refuted.
Print Assumptions C101_lost_refuted.

(** One triangle to keep out of. *)
Lemma zone1_shortest : shortest_walks (build outside convex zone1) 3 (tri_dist false) (tri_parent false).
Proof. rewrite zone1_graph. apply tri_shortest. lia. Qed.
Lemma zone1_hidden : ~ sees zone1 here there nowhere nowhere.
Proof. apply not_seen. vm_compute. reflexivity. Qed.
Lemma zone1_way : VisSpec.way zone1 (build outside convex zone1) here there [2%Z] 816.
Proof. rewrite zone1_graph. apply C54_around. Qed.

Example C101_around hs he r sep : exists pts, plan_points zone1 (tri_dist false) (tri_parent false) 3 here there false false hs he r sep = Listed pts /\
  pts = [(100, -100); (0, 0); (0, 0); (0, 300); (100, 400); (100, 400); (100, 400)].
Proof.
  eexists. split; [unfold plan_points; assert (T : trail (tri_parent false) 3 (find_path (tri_dist false) zone1 here there) = Some [0; 1]%Z) by (vm_compute; reflexivity)|].
  - rewrite T. reflexivity.
  - cbn. unfold place_of, corner_place. cbn. unfold Q2R. cbn. repeat f_equal; lra.
Qed.


Definition aside : pos := at_ 200 300.
Lemma zone1_far v : corner zone1 v -> let d := 2 * 10 + 1 / 2 in
  (d <= dist (at_pos here) (at_pos (snd v)) /\ d <= dist (at_pos (snd v)) (at_pos there)) /\ d <= dist (at_pos (snd v)) (at_pos aside).
Proof.
  assert (K : forall x y, 21 * 21 <= (fst x - fst y) * (fst x - fst y) + (snd x - snd y) * (snd x - snd y) -> 2 * 10 + 1 / 2 <= dist x y).
  { intros x y G. apply Rle_trans with 21; [lra|]. unfold dist. apply Rle_trans with (sqrt (21 * 21)); [rewrite sqrt_square; lra|apply sqrt_le_1_alt; exact G]. }
  intros (p & [<-|[]] & IV) d. cbn in IV. repeat destruct IV as [<-|IV]; try contradiction; unfold d; repeat split; apply K; unfold at_pos, here, there, aside, at_; cbn; unfold Q2R; cbn; lra.
Qed.

Example C101_around_turning hs he sep : 0 < sep -> exists vs l cs pts h', VisSpec.way zone1 (build outside convex zone1) here there vs l
  /\ plan_points zone1 (tri_dist false) (tri_parent false) 3 here there true true hs he 10 sep = Listed pts
  /\ same_heading h' (degrees he) /\ around_corners 10 sep (at_pos here, degrees hs) cs (at_pos there) h' pts.
Proof.
  intros Sp. destruct (C101_turns zone1 outside convex 3 (tri_dist false) (tri_parent false) zone1_numbered zone1_shortest here there true true hs he 10 sep [2%Z] 816)
    as (vs & l & cs & pts & h' & W & _ & _ & P & SH & AC).
  - left. reflexivity.
  - exact zone1_hidden.
  - exact zone1_way.
  - lia.
  - lra.
  - exact Sp.
  - intros v C. apply zone1_far. exact C.
  - exists vs, l, cs, pts, h'. auto.
Qed.

(** WANTED: the heading is kept where two parts of the way meet.  FAILS: if there is one corner only, the last part begins at it with the
    heading north, whatever the heading of the vehicle there. *)
Theorem C101_one_corner_refuted he sep : 0 < sep ->
  exists w1 len1 h1 c w3 len3 h3,
    plan_points zone1 (tri_dist false) (tri_parent false) 3 here aside true true 90 he 10 sep = Listed (w1 ++ [c] ++ w3)
    /\ flown 10 sep (at_pos here, degrees 90) c h1 len1 w1 /\ ~ same_heading h1 0
    /\ same_heading h3 (degrees he) /\ flown 10 sep (c, 0) (at_pos aside) h3 len3 w3.
Proof.
  intros Sp. unfold plan_points.
  assert (T : trail (tri_parent false) 3 (find_path (tri_dist false) zone1 here aside) = Some [2; 2]%Z) by (vm_compute; reflexivity). rewrite T.
  assert (PA : pa_start (find_path (tri_dist false) zone1 here aside) = here /\ pa_end (find_path (tri_dist false) zone1 here aside) = aside
    /\ Z.ltb (pa_first (find_path (tri_dist false) zone1 here aside)) 0 = false) by (vm_compute; auto).
  destruct PA as (-> & -> & ->). cbn [negb andb map]. rewrite rad_degrees.
  assert (CC : corner zone1 (2%Z, at_ 0 400)) by (exists (tri false 0 0); split; [left; reflexivity|right; right; left; reflexivity]).
  assert (EC : corner_place zone1 2 = at_pos (at_ 0 400)) by (unfold corner_place; rewrite (find_corner zone1 (2%Z, at_ 0 400) zone1_numbered CC : List.find (fun u => Z.eqb (fst u) 2) _ = _); reflexivity).
  rewrite EC. set (c := at_pos (at_ 0 400)).
  destruct (generate_turns 10 sep (at_pos here) (degrees 90) c [c] (at_pos aside) (rad_of (he - 180)) ltac:(lra) Sp) as (pts & G & AC).
  { intros x [<-|[<-|[]]]; destruct (zone1_far _ CC) as ((F1 & _) & F2); split; assumption. }
  destruct AC as (c' & cs' & w1 & len1 & h1 & k & y & h2 & w3 & len3 & E1 & F1 & TH & WS & (HE & _) & F3 & ->). injection E1 as <- <-.
  apply twice_once in WS. rewrite (HE _ WS) in F3. rewrite WS in G. destruct k as [|? [|? ?]]; try discriminate. injection WS as ->.
  exists w1, len1, h1, c, w3, len3, (norm_angle (rad_of (he - 180) + PI)).
  split; [exact G|]. split; [exact F1|]. split; [|split; [apply back_same|exact F3]].
  intros (C1 & S1). destruct TH as (s & a & l & _ & _ & _ & FQ & (C2 & S2)). rewrite C1, cos_0 in C2. rewrite S1, sin_0 in S2.
  cbn [fly fold_left] in *. set (P1 := fly1 10 (at_pos here, degrees 90) (Turn s a)) in *.
  assert (H1 : hub P1 10 s = hub (at_pos here, degrees 90) 10 s) by apply hub_turn.
  clearbody P1. destruct P1 as ((n1, e1), u). cbn [fly1 fst snd] in *. apply (f_equal snd) in FQ. cbn [snd] in FQ.
  replace (degrees 90) with (PI / 2) in H1 by (unfold degrees; field). unfold at_pos, here, at_ in H1. cbn in H1. unfold c, at_pos, at_, Q2R in FQ. cbn in FQ. rewrite S2 in FQ.
  unfold Q2R in H1. cbn in H1. destruct s; apply (f_equal snd) in H1; cbn [snd] in H1; rewrite C2, cos_PI2 in H1; lra.
Qed.
Print Assumptions C101_one_corner_refuted.

(** Nothing in the way, a kilometre apart, and only the heading at the start is asked for. *)
Example C101_free dist_ parent n hs he sep : 0 < sep ->
  exists pts h' len, plan_points [] dist_ parent n (at_ 0 0) (at_ 0 1000) true false hs he 10 sep = Listed pts /\ same_heading h' (degrees he)
      /\ flown 10 sep (at_pos (at_ 0 0), degrees hs) (at_pos (at_ 0 1000)) h' len pts.
Proof.
  intros Sp. apply C101_unasked_refuted; [|lra|exact Sp|].
  - intros p a b [].
  - apply far_clear; [lra|]. apply Rle_trans with 1000; [lra|]. apply Rle_trans with (sqrt (1000 * 1000)); [rewrite sqrt_square; lra|].
    apply sqrt_le_1_alt. unfold at_pos, at_. cbn. unfold Q2R. cbn. lra.
Qed.

(** Between walls no corner is seen. *)
Example C101_star dist_ parent n hs he r sep :
  plan_points star dist_ parent n (at_ 0 0) (at_ 1000 0) false false hs he r sep = Listed [(0, 0); (0, 0)].
Proof.
  apply C101_lost_refuted.
  - apply not_seen. vm_compute. reflexivity.
  - left. intros v (p & [<-|[<-|[]]] & IV); cbn in IV; repeat destruct IV as [<-|IV]; try contradiction;
      apply not_seen; vm_compute; reflexivity.
Qed.

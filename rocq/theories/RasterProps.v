(** Theorems about the lanes of an area search. *)
From Coq Require Import Reals List ZArith Lra Lia Psatz.
From Verif Require Import FlatEarthModel FlatEarthProps SteeringCourseModel SectorModel SectorProofs RasterModel RasterSpec RasterProofs.
Import ListNotations.
Open Scope R_scope.

(** There is an end of the lanes, if they have a width. *)
Theorem C89_ends : forall k ps c h L lead_ trail_, 0 < L ->
  exists n legs, forall fuel, (n < fuel)%nat -> raster fuel k ps c h L lead_ trail_ = Some legs.
Proof.
  intros k ps c h L ld tr P. unfold raster. destruct (map (transform c h) ps) as [|v r]; [exists 0%nat, []; reflexivity|].
  set (w := least (snd v) (map snd r)). set (e := greatest (snd v) (map snd r)).
  destruct (begin k w e L) as [[x over] up] eqn:Eb.
  assert (O : over = L \/ over = - L).
  { destruct k; cbn in Eb; injection Eb as _ <- _; [left; reflexivity|]. destruct (orb _ _); [left|right]; reflexivity. }
  set (n := Z.to_nat (Rdefinitions.up (Rmax ((e - x) / L) ((x - w) / L)))).
  assert (N : forall t, t / L <= Rmax ((e - x) / L) ((x - w) / L) -> t <= INR n * L).
  { intros t Ht. destruct (archimed (Rmax ((e - x) / L) ((x - w) / L))) as [A _].
    set (u := Rdefinitions.up (Rmax ((e - x) / L) ((x - w) / L))) in *. fold u in n.
    assert (U : IZR u <= INR n).
    { unfold n. rewrite INR_IZR_INZ. apply IZR_le. lia. }
    replace t with (t / L * L) by (field; lra). apply Rmult_le_compat_r; lra. }
  pose proof (N (e - x) (Rmax_l _ _)). pose proof (N (x - w) (Rmax_r _ _)).
  match goal with |- context [sweep _ ?s _ _ _ _ ?u] => destruct (sweep_ends s w e over n x u) as [legs Hl] end.
  - destruct (Rlt_dec 0 over), O as [-> | ->]; lra.
  - exists n, legs. exact Hl.
Qed.
Print Assumptions C89_ends.

(** The requests are numbered from 2 on, and each begins where the one before ends, in the same direction. *)
Theorem C89_joined : forall fuel k a heading_rad lane_ lead_ trail_ e rs i r,
  plan fuel k a heading_rad lane_ lead_ trail_ e = Some rs -> nth_error rs i = Some r ->
  route r = (2 + Z.of_nat i)%Z /\
  forall r', nth_error rs (S i) = Some r' -> from r' = to r /\ from_heading r' = to_heading r.
Proof.
  intros fuel k a hd L ld tr e rs i r H Hr. unfold plan in H. destruct (boundary k a hd e) as [e' [[ps c] an]].
  destruct (raster _ _ _ _ _ _ _ _) as [l|]; [|discriminate]. injection H as <-. destruct (requests_none e' l 2) as (_ & _ & q & hh & C).
  exact (chain_nth _ _ _ _ C i r Hr).
Qed.
Print Assumptions C89_joined.

(** Exactly the lanes within the area are flown, in their order, in turn upwards and downwards. *)
Theorem C89_lanes : forall fuel k narrow west up ps c h L lead_ trail_ legs w e,
  scheme k narrow west up -> 0 < L -> reaches h ps w e -> raster fuel k ps c h L lead_ trail_ = Some legs ->
  (forall i, (i < length legs)%nat <-> w < lane narrow west w e L i < e) /\
  (forall i g, nth_error legs i = Some g ->
     in_the_lane h (lane narrow west w e L i) (start g) (stop g) /\
     if Bool.eqb (Nat.even i) up then heading g = h * rad_to_deg
     else exists turns : Z, heading g = h * rad_to_deg + 180 + 360 * IZR turns).
Proof.
  intros fuel k narrow west up ps c h L ld tr legs w e K P R H. destruct ps as [|v r]; [destruct R as (_ & (p & [] & _) & _)|].
  destruct (raster_shape fuel k narrow west up v r c h L ld tr legs w e K P R H) as [A B]. split; [exact A|]. intros i g Hg.
  destruct (in_lane_near (scan_of c h v r ld tr) (transform c h v) (map (transform c h) r) _ _ g eq_refl eq_refl eq_refl (B i g Hg)) as [C D].
  cbn [axis pole scan_of] in C. replace (lane narrow west w e L i - across h c + across h c) with (lane narrow west w e L i) in C by ring.
  split; [exact C|]. rewrite D. unfold turned, heading_down, heading_up. cbn [axis scan_of].
  destruct (wrap_turns (h * rad_to_deg + 180) 360 ltac:(lra)) as [t Ht].
  destruct (Nat.even i), up; cbn; try reflexivity; exists t; exact Ht.
Qed.
Print Assumptions C89_lanes.

(** In a convex area, a lane that does not go through the first point of the boundary is seen from one end of the area to the other. *)
Theorem C89_chord : forall fuel k narrow west up v r c h L lead_ trail_ legs w e i g q,
  scheme k narrow west up -> 0 < L -> reaches h (v :: r) w e -> raster fuel k (v :: r) c h L lead_ trail_ = Some legs ->
  convex (v :: r) -> nth_error legs i = Some g -> across h v <> lane narrow west w e L i ->
  inside (v :: r) q -> across h q = lane narrow west w e L i ->
  sweeps_over h lead_ trail_ (Bool.eqb (Nat.even i) up) (start g) (stop g) q.
Proof.
  intros fuel k narrow west up v r c h L ld tr legs w e i g q K P R H Cv Hg V I E.
  destruct (raster_shape fuel k narrow west up v r c h L ld tr legs w e K P R H) as [A B].
  assert (X : w < lane narrow west w e L i < e) by (apply A, nth_error_Some; congruence).
  destruct R as (_ & (u & U1 & U2) & (t & T1 & T2)).
  replace (Bool.eqb (Nat.even i) up) with (turned up i) by (unfold turned; destruct (Nat.even i), up; reflexivity).
  apply (in_lane_chord (scan_of c h v r ld tr) c h (v :: r) v r (lane narrow west w e L i - across h c) (turned up i) g u t q); try reflexivity; try assumption; try lra.
  apply B, Hg.
Qed.
Print Assumptions C89_chord.

(** No place of the area is farther than one lane from a leg, and half a lane if it is half a lane from the end where the lanes end. *)
Theorem C89_near : forall fuel k narrow west up ps c h L lead_ trail_ legs w e q,
  scheme k narrow west up -> 0 < L -> reaches h ps w e -> w < e -> raster fuel k ps c h L lead_ trail_ = Some legs -> inside ps q ->
  exists i g, nth_error legs i = Some g /\ Rabs (across h q - lane narrow west w e L i) <= L /\
    (narrow * L <= e - w -> (if west then across h q < e - L / 2 else w + L / 2 < across h q) ->
     Rabs (across h q - lane narrow west w e L i) <= L / 2).
Proof.
  intros fuel k narrow west up ps c h L ld tr legs w e q K P R We H I.
  destruct (C89_lanes fuel k narrow west up ps c h L ld tr legs w e K P R H) as [A _].
  destruct (begin_lane k narrow west up w e L 0 K P) as [_ Nr].
  pose proof (inside_across h ps q w e (proj1 R) I) as Q.
  enough (G : exists i, w < lane narrow west w e L i < e /\ Rabs (across h q - lane narrow west w e L i) <= L /\
    (narrow * L <= e - w -> (if west then across h q < e - L / 2 else w + L / 2 < across h q) -> Rabs (across h q - lane narrow west w e L i) <= L / 2)).
  { destruct G as (i & G1 & G2). apply A in G1. apply nth_error_Some in G1. destruct (nth_error legs i) as [g|] eqn:Eg; [|congruence].
    exists i, g. split; [exact Eg|exact G2]. }
  clear A H I R K. set (x := across h q) in *. clearbody x.
  unfold lane. destruct (Rlt_dec (e - w) (narrow * L)) as [S|S].
  - exists 0%nat. cbn [INR]. rewrite Rmult_0_l, Rplus_0_r. repeat split; try lra. apply Rabs_le. nra.
  - assert (Lw : L / 2 < e - w) by nra.
    set (t := if west then x - w else e - x). assert (T : 0 <= t <= e - w) by (unfold t; destruct west; lra).
    assert (Fl : exists n : nat, INR n * L <= t < INR n * L + L).
    { destruct (archimed (t / L)) as [B1 B2]. exists (Z.to_nat (Rdefinitions.up (t / L) - 1)).
      assert (T0 : t = t / L * L) by (field; lra). assert (0 <= t / L) by (apply Rmult_le_pos; [lra|left; apply Rinv_0_lt_compat; lra]).
      assert (U : (0 < Rdefinitions.up (t / L))%Z) by (apply lt_IZR; lra).
      rewrite INR_IZR_INZ, Z2Nat.id, minus_IZR by lia. split; nra. }
    destruct Fl as (n & N1 & N2).
    assert (Sg : forall i, Rabs (x - ((if west then w + L / 2 else e - L / 2) + INR i * (if west then L else - L))) = Rabs (t - (INR i * L + L / 2))).
    { intros i. unfold t. destruct west; [f_equal; ring|]. rewrite <- Rabs_Ropp. f_equal. ring. }
    assert (Ps : forall i, w < (if west then w + L / 2 else e - L / 2) + INR i * (if west then L else - L) < e <-> 0 < INR i * L + L / 2 < e - w).
    { intros i. destruct west; split; lra. }
    destruct (Rlt_dec (INR n * L + L / 2) (e - w)) as [F|F].
    + exists n. rewrite Ps, Sg. pose proof (pos_INR n). repeat split; try lra; try nra; [|intros _ _]; apply Rabs_le; lra.
    + destruct n as [|m]; [cbn in F; lra|]. rewrite S_INR in *. exists m. rewrite Ps, Sg. pose proof (pos_INR m). repeat split; try nra.
      * apply Rabs_le; nra.
      * intros _ Far. exfalso. unfold t in *. destruct west; nra.
Qed.
Print Assumptions C89_near.

(** A lane through the first point of the boundary is not searched: the sensor sees only what is within one metre of that point. *)
Theorem C89_first_refuted : forall fuel k narrow west up v b l z c h L lead_ trail_ legs w e i g q,
  scheme k narrow west up -> 0 < L -> reaches h (v :: b :: l) w e -> raster fuel k (v :: b :: l) c h L lead_ trail_ = Some legs ->
  (exists m, b :: l = m ++ [z]) -> across h b <> across h v -> across h z <> across h v -> along h v <> along h c ->
  nth_error legs i = Some g -> across h v = lane narrow west w e L i ->
  sweeps_over h lead_ trail_ (Bool.eqb (Nat.even i) up) (start g) (stop g) q ->
  Rabs (along h q - along h v) <= 1.
Proof.
  intros fuel k narrow west up v b l z c h L ld tr legs w e i g q K P R H (m & Em) Nb Nz Nc Hg V Sw.
  destruct (raster_shape fuel k narrow west up v (b :: l) c h L ld tr legs w e K P R H) as [A B]. specialize (B i g Hg). rewrite <- V in B.
  destruct (in_lane_hits _ _ _ _ B) as (p & m' & q' & Eh & ->).
  replace (across h v - across h c) with (snd (transform c h v)) in Eh by apply transform_across.
  cbn [border scan_of south north map] in Eh.
  pose proof (span_bounded (transform c h v) (map (transform c h) (b :: l))) as Bd. cbn [map] in Bd.
  assert (Ek : transform c h b :: map (transform c h) l = map (transform c h) m ++ [transform c h z])
    by (change (transform c h b :: map (transform c h) l) with (map (transform c h) (b :: l)); rewrite Em, map_app; reflexivity).
  assert (V0 : fst (transform c h v) <> 0) by (rewrite transform_along; lra).
  assert (Nb' : snd (transform c h b) <> snd (transform c h v)) by (rewrite !transform_across; lra).
  assert (Nz' : snd (transform c h z) <> snd (transform c h v)) by (rewrite !transform_across; lra).
  destruct (hits_first _ _ _ _ _ _ _ p m' q' Ek Bd V0 Nb' Nz' Eh) as [F1 F2].
  replace (Bool.eqb (Nat.even i) up) with (turned up i) in Sw by (unfold turned; destruct (Nat.even i), up; reflexivity).
  pose proof (leg_point (scan_of c h v (b :: l) ld tr) (turned up i) p q' q (eq_sym F2) Sw) as Z. cbn [axis pole scan_of] in Z.
  rewrite F1, transform_along in Z. apply abs_between in Z. apply Rabs_le. destruct (Rlt_dec 0 _) in Z; lra.
Qed.
Print Assumptions C89_first_refuted.

(** The CMASI area search flies one lane, in the middle, if the area is narrower than two lanes: the footprint, which is 10/9 of a lane wide,
    does not reach the ends. *)
Theorem C89_narrow_refuted : forall fuel ps c h L lead_ trail_ legs w e,
  0 < L -> reaches h ps w e -> e - w < 2 * L -> 10 / 9 * L + 1 < e - w -> raster fuel Cmasi ps c h L lead_ trail_ = Some legs ->
  exists g q, legs = [g] /\ inside ps q /\ 5 / 9 * L < Rabs (across h q - across h (start g)) /\ 5 / 9 * L < Rabs (across h q - across h (stop g)).
Proof.
  intros fuel ps c h L ld tr legs w e P R Na Wi H. destruct (C89_lanes fuel Cmasi 2 true true ps c h L ld tr legs w e s_cmasi P R H) as [A B].
  assert (Ln : forall i, lane 2 true w e L i = (w + e) / 2 + INR i * L) by (intros i; unfold lane; destruct (Rlt_dec _ _); [reflexivity|lra]).
  assert (L1 : (0 < length legs)%nat) by (apply A; rewrite Ln; cbn; lra).
  assert (L2 : ~ (1 < length legs)%nat) by (rewrite A, Ln; cbn; lra).
  destruct legs as [|g [|g' l]]; cbn in L1, L2; try lia.
  destruct R as (_ & (q & Q1 & Q2) & _). exists g, q. split; [reflexivity|]. split; [apply mean_self, Q1|].
  destruct (B 0%nat g eq_refl) as [[C1 C2] _]. rewrite Ln in C1, C2. cbn in C1, C2. apply abs_between in C1. apply abs_between in C2.
  rewrite Q2. split; rewrite Rabs_left; lra.
Qed.
Print Assumptions C89_narrow_refuted.

(** If between 1/18 and 1/2 of a lane is left over, the place at the end is not seen from any lane, although the footprint is 10/9 of a lane wide. *)
Theorem C89_strip_refuted : forall fuel k narrow west up ps c h L lead_ trail_ legs w e (n : nat),
  scheme k narrow west up -> reaches h ps w e -> narrow * L <= e - w ->
  L / 18 + 1 / 2 < e - w - INR n * L <= L / 2 -> raster fuel k ps c h L lead_ trail_ = Some legs ->
  exists q, inside ps q /\ forall g, In g legs ->
    5 / 9 * L < Rabs (across h q - across h (start g)) /\ 5 / 9 * L < Rabs (across h q - across h (stop g)).
Proof.
  intros fuel k narrow west up ps c h L ld tr legs w e n K R Wi F H. assert (P : 0 < L) by lra.
  destruct (C89_lanes fuel k narrow west up ps c h L ld tr legs w e K P R H) as [A B].
  assert (Ln : forall i, lane narrow west w e L i = (if west then w + L / 2 else e - L / 2) + INR i * (if west then L else - L))
    by (intros i; unfold lane; destruct (Rlt_dec _ _); [lra|reflexivity]).
  destruct R as (_ & (q1 & Q1 & Q2) & (q2 & Q3 & Q4)).
  exists (if west then q2 else q1). split; [destruct west; apply mean_self; assumption|].
  intros g Hg. apply In_nth_error in Hg as [i Hi]. destruct (B i g Hi) as [[C1 C2] _].
  assert (X : w < lane narrow west w e L i < e) by (apply A, nth_error_Some; congruence). rewrite Ln in *.
  assert (N : INR i + 1 <= INR n).
  { rewrite <- S_INR. apply le_INR. apply INR_lt. apply (Rmult_lt_reg_r L); [exact P|]. destruct west; lra. }
  assert (N' : INR i * L + L <= INR n * L) by nra.
  apply abs_between in C1. apply abs_between in C2.
  destruct west; [rewrite Q4; split; rewrite Rabs_right; lra|rewrite Q2; split; rewrite Rabs_left; lra].
Qed.
Print Assumptions C89_strip_refuted.

(** The angled search of a rectangle: every place of the rectangle, except in the half lane at the end where the lanes end, comes under a leg,
    to within half a lane and half a metre. *)
Theorem C89_rectangle : forall fuel i narrow west up centre width height rotation heading_rad e e' ps c angle L lead_ trail_ legs a b,
  scheme (Angled i) narrow west up -> 0 < L -> narrow * L <= width -> 0 < height ->
  boundary (Angled i) (Rectangle centre width height rotation) heading_rad e = (e', (ps, c, angle)) ->
  raster fuel (Angled i) ps c angle L lead_ trail_ = Some legs ->
  - (height / 2) <= a <= height / 2 -> - (width / 2) <= b <= width / 2 -> (if west then b < width / 2 - L / 2 else - (width / 2) + L / 2 < b) ->
  let q := (fst c + a * cos angle - b * sin angle, snd c + a * sin angle + b * cos angle) in
  angle = rotation * deg_to_rad /\
  exists j g, nth_error legs j = Some g /\ sweeps_over angle lead_ trail_ (Bool.eqb (Nat.even j) up) (start g) (stop g) q /\
    Rabs (across angle q - across angle (start g)) <= L / 2 + 1 / 2 /\ Rabs (across angle q - across angle (stop g)) <= L / 2 + 1 / 2.
Proof.
  intros fuel i narrow west up ce wd hg rot hd e e' ps c h L ld tr legs a b K P Wi Hp Eb H Ha Hb Far q. unfold boundary in Eb.
  destruct (deg_ne_m (fst ce) (snd ce) e) as [e1 c1]. cbn zeta in Eb. injection Eb as E1 E2 E3 E4. subst c1 e1 ps h. split; [reflexivity|].
  set (h := rot * deg_to_rad) in *.
  set (corner := fun x y : R => (fst c + x * cos h - y * sin h, snd c + x * sin h + y * cos h)).
  change q with (corner a b). clear q.
  match type of H with raster _ _ ?l _ _ _ _ _ = _ => change l with [corner (hg / 2) (- (wd / 2)); corner (hg / 2) (wd / 2); corner (- (hg / 2)) (wd / 2); corner (- (hg / 2)) (- (wd / 2))] in H end.
  set (ps := [corner (hg / 2) (- (wd / 2)); corner (hg / 2) (wd / 2); corner (- (hg / 2)) (wd / 2); corner (- (hg / 2)) (- (wd / 2))]) in *.
  destruct (begin_lane (Angled i) narrow west up 0 wd L 0 K P) as [_ Nr]. assert (Wp : 0 < wd) by nra.
  assert (Ac : forall x y, across h (corner x y) = across h c + y).
  { intros x y. unfold across, corner. cbn [fst snd]. transitivity (snd c * cos h - fst c * sin h + y * (cos h * cos h + sin h * sin h)); [ring|rewrite cs; ring]. }
  assert (Al : forall x y, along h (corner x y) = along h c + x).
  { intros x y. unfold along, corner. cbn [fst snd]. transitivity (fst c * cos h + snd c * sin h + x * (cos h * cos h + sin h * sin h)); [ring|rewrite cs; ring]. }
  assert (Lf : forall x1 y1 x2 y2 x3 y3, left_of (corner x1 y1) (corner x2 y2) (corner x3 y3) = (y2 - y1) * (x3 - x1) - (x2 - x1) * (y3 - y1)).
  { intros. unfold left_of, corner. cbn [fst snd].
    transitivity (((y2 - y1) * (x3 - x1) - (x2 - x1) * (y3 - y1)) * (cos h * cos h + sin h * sin h)); [ring|rewrite cs; ring]. }
  assert (In4 : forall x, - (hg / 2) <= x <= hg / 2 -> forall y, - (wd / 2) <= y <= wd / 2 -> inside ps (corner x y)).
  { intros x Hx y Hy. set (s := (x + hg / 2) / hg). set (t := (y + wd / 2) / wd).
    assert (Es : s * hg = x + hg / 2) by (unfold s; field; lra). assert (Et : t * wd = y + wd / 2) by (unfold t; field; lra).
    assert (S01 : 0 <= s <= 1) by (split; nra). assert (T01 : 0 <= t <= 1) by (split; nra).
    assert (M : mean ps (s * (1 - t) + (s * t + ((1 - s) * t + ((1 - s) * (1 - t) + 0)))) _) by
      (unfold ps; repeat (apply m_cons; [nra|]); constructor).
    unfold inside. replace 1 with (s * (1 - t) + (s * t + ((1 - s) * t + ((1 - s) * (1 - t) + 0)))) at 1 by ring.
    match type of M with mean _ _ ?z => replace (corner x y) with z; [exact M|] end.
    replace x with (s * hg - hg / 2) by lra. replace y with (t * wd - wd / 2) by lra.
    unfold corner. cbn [fst snd]. f_equal; field. }
  clearbody corner.
  set (w := across h c - wd / 2). set (ee := across h c + wd / 2).
  assert (R : reaches h ps w ee).
  { split; [|split].
    - intros p Hp'. destruct Hp' as [<-|[<-|[<-|[<-|[]]]]]; rewrite Ac; unfold w, ee; lra.
    - exists (corner (hg / 2) (- (wd / 2))). split; [left; reflexivity|]. rewrite Ac. unfold w. ring.
    - exists (corner (hg / 2) (wd / 2)). split; [right; left; reflexivity|]. rewrite Ac. unfold ee. ring. }
  assert (Cv : convex ps).
  { right. intros p1 p2 p3 Hn Hi. apply next_sides in Hn. cbn [sides] in Hn.
    destruct Hn as [Hn|[Hn|[Hn|[Hn|[]]]]]; injection Hn as <- <-; destruct Hi as [<-|[<-|[<-|[<-|[]]]]]; rewrite Lf; nra. }
  destruct (C89_near fuel (Angled i) narrow west up ps c h L ld tr legs w ee (corner a b) K P R ltac:(unfold w, ee; lra) H (In4 a Ha b Hb))
    as (j & g & Hg & _ & Nj).
  specialize (Nj ltac:(unfold w, ee; lra) ltac:(rewrite Ac; unfold w, ee; destruct west; lra)). rewrite Ac in Nj.
  destruct (C89_lanes fuel (Angled i) narrow west up ps c h L ld tr legs w ee K P R H) as [A B].
  assert (X : w < lane narrow west w ee L j < ee) by (apply A, nth_error_Some; congruence).
  destruct (B j g Hg) as [[B1 B2] _]. exists j, g. split; [exact Hg|]. set (x := lane narrow west w ee L j) in *.
  split.
  - pose proof (C89_chord fuel (Angled i) narrow west up _ _ c h L ld tr legs w ee j g (corner a (x - across h c)) K P R H Cv Hg) as Ch.
    fold x in Ch. specialize (Ch ltac:(rewrite Ac; unfold w in X; lra) (In4 a Ha (x - across h c) ltac:(unfold w, ee in X; lra)) ltac:(rewrite Ac; ring)).
    unfold sweeps_over in *. rewrite Al in *. exact Ch.
  - rewrite Ac. apply abs_between in Nj. apply abs_between in B1. apply abs_between in B2. split; apply Rabs_le; lra.
Qed.
Print Assumptions C89_rectangle.

(** The CMASI area search pays no attention to the rotation of a rectangle: it searches the upright one. *)
Theorem C89_rotation_refuted : forall centre width height heading_rad e e' ps c angle,
  0 < height < width -> boundary Cmasi (Rectangle centre width height 90) heading_rad e = (e', (ps, c, angle)) ->
  ~ inside ps (fst c + width / 2, snd c).
Proof.
  intros ce wd hg hd e e' ps c h P Eb I. unfold boundary in Eb.
  destruct (deg_ne_m (fst ce) (snd ce) e) as [e1 c1]. cbn zeta in Eb. injection Eb as E1 E2 E3 E4. subst c1 e1 ps h.
  pose proof (mean_linear (-1) 0 (fst c + hg / 2) _ 1 _ I) as M. cbn [fst snd] in M.
  enough (0 <= -1 * (fst c + wd / 2) + 0 * snd c + (fst c + hg / 2) * 1) by lra. apply M.
  intros p Hp. destruct Hp as [<-|[<-|[<-|[<-|[]]]]]; cbn [fst snd]; lra.
Qed.
Print Assumptions C89_rotation_refuted.

(** Cases. *)
Lemma across0 p : across 0 p = snd p.
Proof. unfold across. rewrite cos_0, sin_0. ring. Qed.
Lemma along0 p : along 0 p = fst p.
Proof. unfold along. rewrite cos_0, sin_0. ring. Qed.

(** A field of 100 m by 50 m, lanes of 20 m: two lanes, of which the first does not go through the first point, and half a lane left over. *)
Definition field_ : list place := [(0, 0); (0, 50); (100, 50); (100, 0)].

Example C89_field_case : scheme Cmasi 2 true true /\ reaches 0 field_ 0 50 /\ convex field_ /\ inside field_ (50, 10) /\
  (exists fuel g1 g2, raster fuel Cmasi field_ (50, 25) 0 20 30 10 = Some [g1; g2]) /\
  across 0 (0, 0) <> lane 2 true 0 50 20 0 /\ across 0 (50, 10) = lane 2 true 0 50 20 0 /\
  2 * 20 <= 50 - 0 /\ 20 / 18 + 1 / 2 < 50 - 0 - INR 2 * 20 <= 20 / 2.
Proof.
  assert (R : reaches 0 field_ 0 50).
  { split; [|split].
    - intros p Hp. rewrite across0. destruct Hp as [<-|[<-|[<-|[<-|[]]]]]; cbn; lra.
    - exists (0, 0). rewrite across0. split; [left|]; reflexivity.
    - exists (0, 50). rewrite across0. split; [right; left|]; reflexivity. }
  assert (L0 : lane 2 true 0 50 20 0 = 10) by (unfold lane; destruct (Rlt_dec _ _); cbn; lra).
  split; [constructor|]. split; [exact R|]. split; [|split; [|split]].
  - left. intros a b q Hn Hq. apply next_sides in Hn. cbn [sides] in Hn.
    destruct Hn as [Hn|[Hn|[Hn|[Hn|[]]]]]; injection Hn as <- <-; destruct Hq as [<-|[<-|[<-|[<-|[]]]]]; unfold left_of; cbn; lra.
  - unfold inside. pose proof (m_cons (0, 0) _ 0.4 _ _ ltac:(lra) (m_cons (0, 50) _ 0.1 _ _ ltac:(lra) (m_cons (100, 50) _ 0.1 _ _ ltac:(lra)
      (m_cons (100, 0) _ 0.4 _ _ ltac:(lra) m_nil)))) as M. cbn in M.
    replace 1 with (0.4 + (0.1 + (0.1 + (0.4 + 0)))) at 1 by lra. match type of M with mean _ _ ?z => replace (50, 10) with z; [exact M|f_equal; lra] end.
  - destruct (C89_ends Cmasi field_ (50, 25) 0 20 30 10 ltac:(lra)) as (n & legs & H). specialize (H (S n) ltac:(lia)).
    destruct (C89_lanes (S n) Cmasi 2 true true field_ (50, 25) 0 20 30 10 legs 0 50 s_cmasi ltac:(lra) R H) as [A _].
    assert (A2 : (1 < length legs)%nat) by (apply A; unfold lane; destruct (Rlt_dec _ _); cbn; lra).
    assert (A3 : ~ (2 < length legs)%nat) by (rewrite A; unfold lane; destruct (Rlt_dec _ _); cbn; lra).
    destruct legs as [|g1 [|g2 [|g3 l]]]; cbn in A2, A3; try lia. exists (S n), g1, g2. exact H.
  - rewrite L0, !across0. cbn. repeat split; lra.
Qed.

(** A triangle, its top first, 20 m wide, lanes of 15 m: the only lane goes through the top. *)
Definition triangle : list place := [(30, 0); (-30, 10); (-30, -10)].

Example C89_triangle_case : reaches 0 triangle (-10) 10 /\ (exists fuel g, raster fuel Cmasi triangle (0, 0) 0 15 30 10 = Some [g]) /\
  (exists m, [(-30, 10); (-30, -10)] = m ++ [(-30, -10)]) /\ across 0 (-30, 10) <> across 0 (30, 0) /\ across 0 (-30, -10) <> across 0 (30, 0) /\
  along 0 (30, 0) <> along 0 (0, 0) /\ across 0 (30, 0) = lane 2 true (-10) 10 15 0 /\
  10 - -10 < 2 * 15 /\ 10 / 9 * 15 + 1 < 10 - -10 /\ inside triangle (0, 0) /\ ~ Rabs (along 0 (0, 0) - along 0 (30, 0)) <= 1.
Proof.
  assert (R : reaches 0 triangle (-10) 10).
  { split; [|split].
    - intros p Hp. rewrite across0. destruct Hp as [<-|[<-|[<-|[]]]]; cbn; lra.
    - exists (-30, -10). rewrite across0. split; [right; right; left|]; reflexivity.
    - exists (-30, 10). rewrite across0. split; [right; left|]; reflexivity. }
  split; [exact R|]. split; [|split; [exists [(-30, 10)]; reflexivity|]].
  - destruct (C89_ends Cmasi triangle (0, 0) 0 15 30 10 ltac:(lra)) as (n & legs & H). specialize (H (S n) ltac:(lia)).
    destruct (C89_narrow_refuted (S n) triangle (0, 0) 0 15 30 10 legs (-10) 10 ltac:(lra) R ltac:(lra) ltac:(lra) H) as (g & _ & -> & _). exists (S n), g. exact H.
  - rewrite !across0, !along0. cbn [fst snd]. repeat split; try lra.
    + unfold lane. destruct (Rlt_dec _ _); cbn; lra.
    + unfold inside. pose proof (m_cons (30, 0) _ 0.5 _ _ ltac:(lra) (m_cons (-30, 10) _ 0.25 _ _ ltac:(lra) (m_cons (-30, -10) _ 0.25 _ _ ltac:(lra) m_nil))) as M.
      cbn in M. replace 1 with (0.5 + (0.25 + (0.25 + 0))) at 1 by lra. match type of M with mean _ _ ?z => replace (0, 0) with z; [exact M|f_equal; lra] end.
    + rewrite Rabs_left; lra.
Qed.

(** A rectangle of 50 m by 100 m that is turned, searched from the north-west with lanes of 20 m. *)
Example C89_rectangle_case : forall e, exists e' ps c angle fuel legs,
  scheme (Angled 7) (10 / 11) true false /\ 10 / 11 * 20 <= 50 /\
  boundary (Angled 7) (Rectangle (45, 10) 50 100 30) 1 e = (e', (ps, c, angle)) /\ raster fuel (Angled 7) ps c angle 20 30 10 = Some legs /\
  - (100 / 2) <= 40 <= 100 / 2 /\ - (50 / 2) <= -20 <= 50 / 2 /\ -20 < 50 / 2 - 20 / 2.
Proof.
  intros e. destruct (boundary (Angled 7) (Rectangle (45, 10) 50 100 30) 1 e) as [e' [[ps c] angle]] eqn:E.
  destruct (C89_ends (Angled 7) ps c angle 20 30 10 ltac:(lra)) as (n & legs & H). specialize (H (S n) ltac:(lia)).
  exists e', ps, c, angle, (S n), legs. repeat split; try assumption; try lra. constructor. reflexivity.
Qed.

(** The lanes are asked for, one request for each, with one more between two of them; the places are those of the same flat earth. *)
Theorem C89_asked : forall fuel k a heading_rad lane_ lead_ trail_ e rs e' ps c angle,
  boundary k a heading_rad e = (e', (ps, c, angle)) -> plan fuel k a heading_rad lane_ lead_ trail_ e = Some rs ->
  exists legs, raster fuel k ps c angle lane_ lead_ trail_ = Some legs /\ length rs = (2 * length legs - 1)%nat /\
  forall i g, nth_error legs i = Some g -> exists r, nth_error rs (2 * i) = Some r /\
    from r = m_ll_deg (fst (start g)) (snd (start g)) e' /\ to r = m_ll_deg (fst (stop g)) (snd (stop g)) e' /\
    from_heading r = heading g /\ to_heading r = heading g.
Proof.
  intros fuel k a hd L ld tr e rs e' ps c an Eb H. unfold plan in H. rewrite Eb in H.
  destruct (raster fuel k ps c an L ld tr) as [l|]; [|discriminate]. injection H as <-. exists l. split; [reflexivity|].
  destruct (requests_none e' l 2) as (A & B & _). split; [exact A|exact B].
Qed.
Print Assumptions C89_asked.

(** The boundary of a polygon is made of its points, in their order, seen from the origin that is used for the requests. *)
Theorem C89_polygon : forall k l heading_rad e e' ps c angle,
  boundary k (Polygon l) heading_rad e = (e', (ps, c, angle)) ->
  Forall2 (fun q p => deg_ne_m (fst q) (snd q) e' = (e', p)) l ps /\ exists turns : Z, angle = heading_rad + 2 * dPi * IZR turns.
Proof.
  intros k l hd e e' ps c an H. unfold boundary in H. destruct (places e l) as [e1 ps1] eqn:E. injection H as E1 E2 E3 E4. subst e1 ps1 an. clear E3.
  split; [|apply wrap_turns; unfold dPi; lra].
  assert (Keep : forall l e e' ps, ready e = true -> places e l = (e', ps) -> e' = e).
  { clear. induction l as [|q l IH]; intros e e' ps Re H; cbn [places] in H; [congruence|]. unfold deg_ne_m in H. cbn zeta in H.
    rewrite initialize_ready in H by exact Re. destruct (places e l) as [e2 qs] eqn:E. injection H as <- _. apply (IH _ _ _ Re E). }
  revert e e' ps E. induction l as [|q l IH]; intros e e' ps E; cbn [places] in E; [injection E as <- <-; constructor|].
  destruct (deg_ne_m (fst q) (snd q) e) as [e1 p] eqn:Eq. destruct (places e1 l) as [e2 qs] eqn:El. injection E as <- <-.
  assert (Re : ready e1 = true) by (unfold deg_ne_m in Eq; cbn zeta in Eq; injection Eq as <- _; apply ready_initialize).
  pose proof (Keep _ _ _ _ Re El) as ->. constructor; [|apply (IH _ _ _ El)].
  unfold deg_ne_m in *. cbn zeta in *. injection Eq as E1 E2. rewrite E1 in E2. rewrite initialize_ready by exact Re. rewrite E2. reflexivity.
Qed.
Print Assumptions C89_polygon.

(** The boundary of a circle has 36 points at the radius from the centre. *)
Theorem C89_circle : forall k centre radius heading_rad e e' ps c angle,
  boundary k (Circle centre radius) heading_rad e = (e', (ps, c, angle)) ->
  deg_ne_m (fst centre) (snd centre) e = (e', c) /\ length ps = 36%nat /\
  (forall p, In p ps -> (fst p - fst c) ^ 2 + (snd p - snd c) ^ 2 = radius ^ 2) /\
  (forall i p, nth_error ps i = Some p -> fst p = fst c + radius * sin (INR i * (dPi / 18)) /\ snd p = snd c + radius * cos (INR i * (dPi / 18))).
Proof.
  intros k ce rd hd e e' ps c an H. unfold boundary in H. destruct (deg_ne_m (fst ce) (snd ce) e) as [e1 c1] eqn:Ec.
  assert (Hd : e1 = e' /\ c1 = c /\ ps = map (fun i => let t := INR i * (dPi / 18) in (rd * sin t + fst c1, rd * cos t + snd c1)) (seq 0 36))
    by (injection H; intros; subst; auto).
  clear H. destruct Hd as (-> & -> & ->). split; [reflexivity|]. split; [rewrite map_length, seq_length; reflexivity|]. split.
  - intros p Hp. apply in_map_iff in Hp as (i & <- & _). cbn zeta. cbn [fst snd].
    pose proof (cs (INR i * (dPi / 18))) as Cs. set (t := INR i * (dPi / 18)) in *.
    transitivity (rd ^ 2 * (cos t * cos t + sin t * sin t)); [ring|rewrite Cs; ring].
  - intros i p Hp. rewrite nth_error_map in Hp. destruct (nth_error (seq 0 36) i) as [j|] eqn:Ej; [|discriminate]. injection Hp as <-.
    assert (Lt : (i < 36)%nat) by (rewrite <- (seq_length 36 0); apply nth_error_Some; congruence).
    apply nth_error_nth with (d := 0%nat) in Ej. rewrite seq_nth in Ej by exact Lt. cbn [Nat.add] in Ej. subst j. cbn [fst snd]. split; ring.
Qed.
Print Assumptions C89_circle.

Example C89_shapes_case : exists e' ps c angle, boundary Cmasi (Polygon [(45, 10); (45.1, 10); (45, 10.1)]) 1 fresh = (e', (ps, c, angle)) /\
  exists e2 ps2 c2 angle2, boundary Cmasi (Circle (45, 10) 500) 1 fresh = (e2, (ps2, c2, angle2)) /\
  forall fuel rs, plan fuel Cmasi (Circle (45, 10) 500) 1 40 30 10 fresh = Some rs -> exists legs, raster fuel Cmasi ps2 c2 angle2 40 30 10 = Some legs.
Proof.
  destruct (boundary Cmasi (Polygon [(45, 10); (45.1, 10); (45, 10.1)]) 1 fresh) as [e' [[ps c] an]].
  exists e', ps, c, an. split; [reflexivity|]. destruct (boundary Cmasi (Circle (45, 10) 500) 1 fresh) as [e2 [[ps2 c2] an2]] eqn:E.
  exists e2, ps2, c2, an2. split; [reflexivity|]. intros fuel rs H. destruct (C89_asked _ _ _ _ _ _ _ _ _ _ _ _ _ E H) as (legs & Hl & _). exists legs. exact Hl.
Qed.

(** The choice among the ways, and why no flight of a turn, a straight leg and a turn is shorter. *)
From Coq Require Import Reals List ZArith Lra Lia.
From Verif Require Import SteeringCourseModel SteeringCourseProps PiBounds DubinsModel DubinsSpec DubinsProofs DubinsTangent DubinsTurns.
Import ListNotations.
Open Scope R_scope.

Definition ring_of (P : pose) (r : R) (s : sense) : circle := {| mid := hub P r s; rad := r; way := s |}.
Lemma circles_hub p h r : circles p h r = [ring_of (p, h) r Cw; ring_of (p, h) r Ccw].
Proof.
  destruct p as (n, e). unfold circles, ring_of. cbn [fst snd hub].
  replace (cos (h + PI / 2)) with (- sin h) by (rewrite cos_plus, cos_PI2, sin_PI2; ring).
  replace (sin (h + PI / 2)) with (cos h) by (rewrite sin_plus, cos_PI2, sin_PI2; ring).
  replace (cos (h - PI / 2)) with (sin h) by (rewrite cos_minus, cos_PI2, sin_PI2; ring).
  replace (sin (h - PI / 2)) with (- cos h) by (rewrite sin_minus, cos_PI2, sin_PI2; ring).
  replace (n + r * - sin h) with (n - r * sin h) by ring. replace (e + r * - cos h) with (e - r * cos h) by ring. reflexivity.
Qed.

(** What is kept is the shorter. *)
Definition no_longer (b : option (R * list waypoint)) (t : R) : Prop := match b with Some (u, _) => u <= t | None => False end.
Lemma keep_best best ws t : no_longer best t -> no_longer (keep best ws) t.
Proof. destruct best as [(u, l)|]; [|contradiction]. destruct ws as [w|]; [|exact (fun x => x)]. cbn. destruct (Rlt_dec (total None w) u); cbn; lra. Qed.
Lemma keep_new best ws : no_longer (keep best (Some ws)) (total None ws).
Proof. destruct best as [(u, l)|]; cbn; [destruct (Rlt_dec (total None ws) u); cbn; lra|lra]. Qed.
Lemma keep_one (Good : R -> list waypoint -> Prop) best ws :
  (forall u l, best = Some (u, l) -> Good u l) -> (forall l, ws = Some l -> Good (total None l) l) ->
  forall u l, keep best ws = Some (u, l) -> Good u l.
Proof.
  intros B W u l K. destruct ws as [w|]; [|exact (B u l K)]. destruct best as [(v, k)|]; cbn in K.
  - destruct (Rlt_dec (total None w) v); [inversion K; subst; apply W; reflexivity|exact (B u l K)].
  - inversion K; subst. apply W. reflexivity.
Qed.

Definition good (r sep : R) (P : pose) (finish : place) (h' : R) (len : R) (ws : list waypoint) : Prop :=
  (exists s1 s2, follows_straight r sep P finish h' s1 s2 len ws) \/ (exists s, follows_turns r sep P finish h' s len ws).

(** One pair of circles. *)
Definition offers (r sep : R) (P : pose) (finish : place) (h' : R) (s1 s2 : sense) (best : option (R * list waypoint)) : Prop :=
  let D := dist (hub P r s1) (hub (finish, h') r s2) in
  (s1 = s2 \/ iround (2 * r) <= iround D ->
   exists m th len ws, hub (finish, h') r s2 = around (hub P r s1) D th /\ follows_exact r sep P finish h' s1 s2 m th len ws /\ no_longer best len) /\
  (s1 = s2 -> D <= 4 * r ->
   (dist finish (fst (fst P), snd (fst P) + r) < 3 * r \/ dist finish (fst (fst P), snd (fst P) - r) < 3 * r) ->
   exists len ws, follows_turns r sep P finish h' s1 len ws /\ no_longer best len).

Lemma attempt_full r sep start h finish h' s1 s2 best : 1 <= r -> 0 < sep ->
  1 / 2 <= dist (hub (start, h) r s1) (hub (finish, h') r s2) ->
  (forall u l, best = Some (u, l) -> good r sep (start, h) finish h' u l) ->
  exists best',
    attempt start finish sep (ring_of (start, h) r s1, best) (ring_of (finish, h') r s2) = (ring_of (start, h) r s1, best') /\
    (forall u l, best' = Some (u, l) -> good r sep (start, h) finish h' u l) /\
    (forall t, no_longer best t -> no_longer best' t) /\
    offers r sep (start, h) finish h' s1 s2 best'.
Proof.
  intros Rp Sp Dp G. unfold attempt. destruct (tst_full r sep start h finish h' s1 s2 Rp Sp Dp) as (res & E & F).
  unfold ring_of. rewrite E. clear E.
  set (D := dist (hub (start, h) r s1) (hub (finish, h') r s2)) in *.
  assert (G1 : forall u l, keep best res = Some (u, l) -> good r sep (start, h) finish h' u l).
  { apply keep_one; [exact G|]. intros l ->. destruct F as (m & th & _ & F). left. exists s1, s2. exact (exact_straight _ _ _ _ _ _ _ _ _ _ _ F). }
  assert (O1 : forall best', (forall t, no_longer (keep best res) t -> no_longer best' t) ->
    (s1 = s2 \/ iround (2 * r) <= iround D ->
     exists m th len ws, hub (finish, h') r s2 = around (hub (start, h) r s1) D th /\ follows_exact r sep (start, h) finish h' s1 s2 m th len ws /\ no_longer best' len)).
  { intros best' M K. destruct res as [ws|]; [|exfalso; destruct F as (F1 & F2); destruct K as [K|K]; [contradiction|lra]].
    destruct F as (m & th & CC & F). exists m, th, (total None ws), ws. split; [exact CC|]. split; [exact F|]. apply M, keep_new. }
  destruct (three_turns start finish _ _) eqn:TT.
  - assert (SS : s1 = s2). { unfold three_turns in TT. cbn [way] in TT. destruct s1, s2; cbn in TT; congruence. }
    destruct SS. destruct (ttt_full r sep start h finish h' s1 Rp Sp Dp) as (res2 & E2 & F2). rewrite E2.
    eexists. split; [reflexivity|]. split.
    { apply keep_one; [exact G1|]. intros l ->. right. exists s1. exact F2. }
    split. { intros t T. apply keep_best, keep_best, T. }
    split; [apply O1; intros t T; apply keep_best, T|].
    intros _ D4 _. destruct res2 as [ws|]; [|fold D in F2; cbn in *; unfold D in *; lra].
    exists (total None ws), ws. split; [exact F2|apply keep_new].
  - eexists. split; [reflexivity|]. split; [exact G1|]. split. { intros t T. apply keep_best, T. }
    split; [apply O1; auto|].
    intros SS D4 CK. exfalso. destruct SS. unfold three_turns in TT. cbn [way rad mid] in TT.
    replace (same_sense s1 s1) with true in TT by (destruct s1; reflexivity). cbv zeta in TT.
    replace (apart (hub (start, h) r s1) (hub (finish, h') r s1)) with D in TT by reflexivity.
    destruct (Rlt_dec (4 * r + 1 / 1000000000) D); [unfold D in *; cbn [fst snd] in *; lra|].
    unfold dist in CK. cbn [fst snd] in CK.
    replace ((snd finish - (snd start + r)) * (snd finish - (snd start + r)))
      with ((snd finish - snd start - r) * (snd finish - snd start - r)) in CK by ring.
    replace ((snd finish - (snd start - r)) * (snd finish - (snd start - r)))
      with ((snd finish - snd start + r) * (snd finish - snd start + r)) in CK by ring.
    destruct (Rlt_dec (sqrt ((fst finish - fst start) * (fst finish - fst start) + (snd finish - snd start - r) * (snd finish - snd start - r))) (3 * r)); [discriminate|].
    destruct (Rlt_dec (sqrt ((fst finish - fst start) * (fst finish - fst start) + (snd finish - snd start + r) * (snd finish - snd start + r))) (3 * r)); [discriminate|].
    destruct CK; contradiction.
Qed.

Lemma offers_mono r sep P finish h' s1 s2 best best' : offers r sep P finish h' s1 s2 best ->
  (forall t, no_longer best t -> no_longer best' t) -> offers r sep P finish h' s1 s2 best'.
Proof.
  intros (A & B) M. split.
  - intros K. destruct (A K) as (m & th & len & ws & C & F & L). exists m, th, len, ws. auto.
  - intros K1 K2 K3. destruct (B K1 K2 K3) as (len & ws & F & L). exists len, ws. auto.
Qed.

Lemma dubins_full r sep start h finish h' : 1 <= r -> 0 < sep ->
  (forall s1 s2, 1 / 2 <= dist (hub (start, h) r s1) (hub (finish, h') r s2)) ->
  exists len ws, dubins start h finish h' r sep = Some (len, ws) /\ good r sep (start, h) finish h' len ws /\
    forall s1 s2, offers r sep (start, h) finish h' s1 s2 (Some (len, ws)).
Proof.
  intros Rp Sp Far. unfold dubins. rewrite !circles_hub. cbn [fold_left snd].
  destruct (attempt_full r sep start h finish h' Cw Cw None Rp Sp (Far _ _)) as (b1 & -> & G1 & M1 & O1); [discriminate|].
  destruct (attempt_full r sep start h finish h' Cw Ccw b1 Rp Sp (Far _ _) G1) as (b2 & -> & G2 & M2 & O2). cbn [snd].
  destruct (attempt_full r sep start h finish h' Ccw Cw b2 Rp Sp (Far _ _) G2) as (b3 & -> & G3 & M3 & O3).
  destruct (attempt_full r sep start h finish h' Ccw Ccw b3 Rp Sp (Far _ _) G3) as (b4 & -> & G4 & M4 & O4). cbn [snd].
  destruct b4 as [(len, ws)|].
  - exists len, ws. split; [reflexivity|]. split; [apply G4; reflexivity|].
    intros [|] [|].
    + apply (offers_mono _ _ _ _ _ _ _ b1 _ O1). auto.
    + apply (offers_mono _ _ _ _ _ _ _ b2 _ O2). auto.
    + apply (offers_mono _ _ _ _ _ _ _ b3 _ O3). auto.
    + exact O4.
  - exfalso. destruct O4 as (O4 & _). destruct (O4 (or_introl eq_refl)) as (m & th & len & ws & _ & _ & L). exact L.
Qed.

(** C86: the sensor of a vehicle on a pattern search looks at the road as far along it as the vehicle is on its way. *)
From Coq Require Import Reals List ZArith Lra Lia Sorted.
From Verif Require Import FlatEarthModel FlatEarthProps SensorSteeringModel SensorSteeringSpec SensorSteeringProofs.
Import ListNotations.
Open Scope R_scope.

(** * The way *)

Lemma increasing_lt l : increasing l -> StronglySorted Z.lt l.
Proof.
  intros H. apply Sorted_StronglySorted; [intros x y z; lia|]. induction l as [|a [|b l] IH]; [constructor|repeat constructor|].
  destruct H as (A & H). constructor; [now apply IH|now constructor].
Qed.

Lemma insert_end {A} k (v : A) m : Forall (fun x => (fst x < k)%Z) m -> insert k v m = m ++ [(k, v)].
Proof.
  induction 1 as [|(j, w) m H F IH]; [reflexivity|]. cbn in *. destruct (Z.ltb_spec k j); [lia|]. destruct (Z.eqb_spec k j); [lia|]. now rewrite IH.
Qed.

Lemma fill_sorted {A} (key : A -> Z) ds : StronglySorted Z.lt (map key ds) ->
  fold_left (fun m d => insert (key d) d m) ds [] = map (fun d => (key d, d)) ds.
Proof.
  induction ds as [|d ds IH] using rev_ind; intros S; [reflexivity|]. rewrite map_app in S.
  assert (S' : StronglySorted Z.lt (map key ds)).
  { clear IH. induction (map key ds) as [|x l IH]; [constructor|]. cbn in S. apply StronglySorted_inv in S. destruct S as (S & F).
    constructor; [now apply IH|]. rewrite Forall_forall in *. intros y Y. apply F. apply in_app_iff. now left. }
  rewrite fold_left_app. cbn [fold_left]. rewrite (IH S'), insert_end, map_app; [reflexivity|]. apply Forall_forall. intros (k, x) X. apply in_map_iff in X.
  destruct X as (y & E & Y). injection E as <- <-. cbn [fst]. apply (sorted_last _ _ _ S). now apply in_map.
Qed.

Lemma find_app {A} k (u v : list (Z * A)) : (forall x, In x u -> fst x <> k) -> find k (u ++ v) = find k v.
Proof.
  induction u as [|(j, w) u IH]; intros H; [reflexivity|]. cbn. destruct (Z.eqb_spec k j) as [->|_].
  - exfalso. apply (H (j, w)); [now left|reflexivity].
  - apply IH. intros x X. apply H. now right.
Qed.

Lemma find_none {A} k (u : list (Z * A)) : (forall x, In x u -> fst x <> k) -> find k u = None.
Proof. intros H. rewrite <- (app_nil_r u), find_app; [reflexivity|exact H]. Qed.

Lemma before_app {A} k (u v : list (Z * A)) : Forall (fun x => (fst x < k)%Z) u -> Forall (fun x => (k <= fst x)%Z) v -> before k (u ++ v) = u.
Proof.
  intros U V. unfold before. induction U as [|x u H U IH].
  - cbn. induction V as [|y v H V IH]; [reflexivity|]. cbn. destruct (Z.ltb_spec (fst y) k); [lia|exact IH].
  - cbn. destruct (Z.ltb_spec (fst x) k); [|lia]. now rewrite IH.
Qed.

Lemma from_app {A} k (u v : list (Z * A)) : Forall (fun x => (fst x < k)%Z) u -> Forall (fun x => (k <= fst x)%Z) v -> from k (u ++ v) = v.
Proof.
  intros U V. unfold from. induction U as [|x u H U IH].
  - cbn. induction V as [|y v H V IH]; [reflexivity|]. cbn. destruct (Z.leb_spec k (fst y)); [now rewrite IH|lia].
  - cbn. destruct (Z.leb_spec k (fst x)); [lia|exact IH].
Qed.

Lemma sorted_app {A} (R : A -> A -> Prop) u v : StronglySorted R (u ++ v) -> StronglySorted R v /\ forall x y, In x u -> In y v -> R x y.
Proof.
  induction u as [|a u IH]; intros S; [split; [exact S|intros x y []]|]. cbn in S. apply StronglySorted_inv in S. destruct S as (S & F).
  destruct (IH S) as (V & H). split; [exact V|]. intros x y [->|X] Y; [|now apply H]. rewrite Forall_forall in F. apply F. apply in_app_iff. now right.
Qed.

Definition ways_of (ds : list datum) : list (Z * datum) := map (fun d => (number d, d)) ds.

Lemma numbers_of ways ds t : measure None 0 ways = (ds, t) -> map number ds = map fst ways.
Proof. intros M. rewrite <- (measure_shape _ _ _ _ _ M), map_map. reflexivity. Qed.

Lemma the_ways ways roads : increasing (map fst ways) -> exists ds, measure None 0 ways = (ds, len (spots ways)) /\
  exists rd, measure None 0 roads = (rd, len (spots roads)) /\
  initialize ways roads = {| waypoints := ways_of ds; road := fold_left (fun m d => insert (norm (len (spots roads)) d) d m) rd [];
    way_length := len (spots ways); road_length := len (spots roads) |}.
Proof.
  intros I. unfold initialize. destruct (measure None 0 ways) as (ds, wl) eqn:M. destruct (measure None 0 roads) as (rd, rl) eqn:N.
  pose proof (measure_len _ _ _ M) as (-> & _). pose proof (measure_len _ _ _ N) as (-> & _).
  exists ds. split; [reflexivity|]. exists rd. split; [reflexivity|]. f_equal. apply fill_sorted. rewrite (numbers_of _ _ _ M). now apply increasing_lt.
Qed.

Lemma at_leg ways ds l1 i a j b l2 : increasing (map fst ways) -> measure None 0 ways = (ds, len (spots ways)) ->
  ways = l1 ++ (i, a) :: (j, b) :: l2 -> exists da db,
  place da = a /\ place db = b /\ find j (ways_of ds) = Some db /\ back (before j (ways_of ds)) = Some (i, da) /\
  cumulative da = len (spots (l1 ++ [(i, a)])) /\ cumulative db = cumulative da + dist (flat a) (flat b).
Proof.
  intros I M E. pose proof (measure_shape _ _ _ _ _ M) as Sh. pose proof (increasing_lt _ I) as S. rewrite <- (numbers_of _ _ _ M) in S.
  rewrite E in Sh. apply map_eq_app in Sh. destruct Sh as (u & v & -> & Eu & Ev).
  destruct v as [|da [|db v]]; try discriminate. cbn in Ev. injection Ev as Ea Ea' Eb Eb' Ev. subst i a j b.
  exists da, db. split; [reflexivity|]. split; [reflexivity|].
  assert (S1 : StronglySorted Z.lt (map number (u ++ [da]) ++ map number (db :: v))) by (rewrite <- map_app, <- app_assoc; exact S).
  apply sorted_app in S1. destruct S1 as (S2 & Lt).
  assert (U : Forall (fun x : Z * datum => (fst x < number db)%Z) (ways_of (u ++ [da]))).
  { apply Forall_forall. intros x X. apply in_map_iff in X. destruct X as (y & <- & Y). cbn [fst]. apply Lt; [now apply in_map|now left]. }
  assert (V : Forall (fun x : Z * datum => (number db <= fst x)%Z) (ways_of (db :: v))).
  { apply Forall_forall. intros x X. apply in_map_iff in X. destruct X as (y & <- & [->|Y]); cbn [fst]; [lia|].
    cbn in S2. apply StronglySorted_inv in S2. destruct S2 as (_ & F). rewrite Forall_forall in F. apply Z.lt_le_incl, F. now apply in_map. }
  assert (W : ways_of (u ++ da :: db :: v) = ways_of (u ++ [da]) ++ ways_of (db :: v)) by (unfold ways_of; rewrite <- map_app, <- app_assoc; reflexivity).
  split; [|split; [|split]].
  - rewrite W, find_app.
    + cbn. now rewrite Z.eqb_refl.
    + intros x X. rewrite Forall_forall in U. apply U in X. lia.
  - rewrite W, before_app by assumption. unfold ways_of. rewrite map_app. apply back_snoc.
  - rewrite (cum _ _ _ M _ _ _ eq_refl). f_equal. unfold spots. rewrite !map_app, <- Eu, map_map. reflexivity.
  - rewrite (cum_step _ _ _ M u da [] db v eq_refl). cbn [app map len]. unfold there. ring.
Qed.

Lemma nearest_clamp a b p : a <> b ->
  let q := (fst b - fst a) * (fst b - fst a) + (snd b - snd a) * (snd b - snd a) in
  let f := ((fst p - fst a) * (fst b - fst a) + (snd p - snd a) * (snd b - snd a)) / q in
  let f := if Rlt_dec f 0 then 0 else if Rlt_dec 1 f then 1 else f in
  0 < q /\ 0 <= f <= 1 /\ nearest a b p (mix a b f).
Proof.
  intros N. cbn zeta. set (q := _ + _ * (snd b - snd a)). set (d := _ + (snd p - snd a) * _).
  assert (Q : 0 < q).
  { destruct (Req_dec q 0) as [Z|Z].
    - exfalso. apply N. apply dist_zero. unfold dist. replace (_ ^ 2 + _ ^ 2) with q by (unfold q; ring). rewrite Z. apply sqrt_0.
    - assert (0 <= q); [|lra]. unfold q. apply Rplus_le_le_0_compat; apply Rle_0_sqr. }
  split; [exact Q|].
  set (f := if Rlt_dec (d / q) 0 then 0 else if Rlt_dec 1 (d / q) then 1 else d / q).
  assert (dq : d = d / q * q) by (field; lra).
  assert (F : 0 <= f <= 1) by (unfold f; destruct (Rlt_dec (d / q) 0); [lra|]; destruct (Rlt_dec 1 (d / q)); lra).
  split; [exact F|]. split; [now exists f|]. intros u U. apply sqrt_le_1; [apply Rplus_le_le_0_compat; apply pow2_ge_0|apply Rplus_le_le_0_compat; apply pow2_ge_0|].
  apply Rminus_le. unfold mix. cbn [fst snd].
  match goal with |- ?x <= 0 => replace x with (- ((u - f) * ((u + f) * q - 2 * d))) by (unfold q, d; ring) end.
  apply Rge_le, Ropp_0_le_ge_contravar.
  set (r := d / q) in *. replace ((u + f) * q - 2 * d) with ((u + f - 2 * r) * q) by (rewrite dq; ring).
  rewrite <- Rmult_assoc. apply Rmult_le_pos; [|lra]. unfold f. destruct (Rlt_dec r 0); [nra|]. destruct (Rlt_dec 1 r); [nra|].
  replace ((u - r) * (u + r - 2 * r)) with ((u - r) * (u - r)) by ring. apply Rle_0_sqr.
Qed.

Lemma nearest_leg (a b : point) (p : R * R) : flat a <> flat b ->
  let bn := north b - north a in let be := east b - east a in
  let an := fst p - north a in let ae := snd p - east a in
  let square := bn * bn + be * be in
  let factor := (an * bn + ae * be) / square in
  let factor := if Rlt_dec factor 0 then 0 else if Rlt_dec 1 factor then 1 else factor in
  0 < square /\ 0 <= factor <= 1 /\ nearest (flat a) (flat b) p (mix (flat a) (flat b) factor).
Proof. exact (nearest_clamp (flat a) (flat b) p). Qed.

(** * The theorems *)

(** On the leg from one waypoint to the next the sensor looks at the road. *)
Theorem C86_stare ways roads l1 i a j b l2 lat lon e :
  ways = l1 ++ (i, a) :: (j, b) :: l2 -> increasing (map fst ways) -> flat a <> flat b ->
  0 < len (spots roads) -> ready e = true ->
  exists q x s p y alt,
    snd (stare (initialize ways roads) j lat lon e) = Stare (fst (m_ll_deg (fst y) (snd y) e)) (snd (m_ll_deg (fst y) (snd y) e)) alt /\
    nearest (flat a) (flat b) (snd (deg_ne_m lat lon e)) q /\ x = len (spots (l1 ++ [(i, a)])) + dist (flat a) q /\
    along (spots roads) s p /\ Rabs (s / len (spots roads) - x / len (spots ways)) < 1 / 1000 /\
    dist y p <= 2 / 1000 * len (spots roads) /\ (spaced (len (spots roads) / 1000) (spots roads) -> y = p).
Proof.
  intros E I N P Rd. destruct (the_ways ways roads I) as (ds & M & rd & Mr & ->).
  destruct (at_leg _ _ _ _ _ _ _ _ I M E) as (da & db & Pa & Pb & F & B & Ca & Cb).
  unfold stare. cbn [waypoints]. rewrite F, B.
  assert (C : rad_ne_m (deg_to_rad * lat) (deg_to_rad * lon) e = (e, snd (deg_ne_m lat lon e))).
  { unfold rad_ne_m, deg_ne_m. rewrite !(Rmult_comm deg_to_rad), initialize_ready by exact Rd. reflexivity. }
  rewrite C. set (pos := snd (deg_ne_m lat lon e)). unfold progress. cbn [way_length].
  assert (Dab : 0 < dist (flat a) (flat b)).
  { destruct (Rle_lt_or_eq_dec _ _ (dist_pos (flat a) (flat b))) as [X|X]; [exact X|]. exfalso. apply N, dist_zero. now symmetry. }
  assert (Lw : len (spots ways) = len (spots (l1 ++ [(i, a)])) + dist (flat a) (flat b) + len (spots ((j, b) :: l2))).
  { rewrite E. unfold spots. rewrite !map_app. cbn [map snd]. rewrite len_app, len_cons. ring. }
  pose proof (len_pos (spots (l1 ++ [(i, a)]))) as L1. pose proof (len_pos (spots ((j, b) :: l2))) as L2.
  destruct (Rlt_dec 0 (len (spots ways))) as [W|W]; [|lra].
  destruct (nearest_leg a b pos N) as (Q & F01 & Near). cbn zeta in F01, Near.
  rewrite Pa, Pb. destruct (Req_EM_T _ 0) as [Z|Z]; [lra|]. rewrite Cb, Ca.
  match goal with |- context [trunc ((?f * _ + _) / _ * 1000)] => set (f0 := f) in * end.
  set (q := mix (flat a) (flat b) f0).
  assert (Dq : dist (flat a) q = f0 * dist (flat a) (flat b)).
  { unfold q. pose proof (dist_mix_t (flat a) (flat b) 0 f0) as D. rewrite mix_0 in D. rewrite D. rewrite Rabs_left1 by lra. ring. }
  set (x := len (spots (l1 ++ [(i, a)])) + dist (flat a) q).
  assert (X0 : 0 <= x <= len (spots ways)).
  { unfold x. rewrite Dq, Lw. split; [pose proof (Rmult_le_pos f0 _ (proj1 F01) (Rlt_le _ _ Dab)); lra|].
    assert (f0 * dist (flat a) (flat b) <= 1 * dist (flat a) (flat b)) by (apply Rmult_le_compat_r; lra). lra. }
  replace (f0 * (len (spots (l1 ++ [(i, a)])) + dist (flat a) (flat b) - len (spots (l1 ++ [(i, a)]))) + len (spots (l1 ++ [(i, a)])))
    with x by (unfold x; rewrite Dq; ring).
  set (n := trunc (x / len (spots ways) * 1000)).
  assert (Y0 : 0 <= x / len (spots ways) * 1000 <= 1000).
  { split; [apply Rmult_le_pos; [|lra]; apply Rmult_le_pos; [lra|left; now apply Rinv_0_lt_compat]|].
    rewrite <- (Rmult_1_l 1000) at 2. apply Rmult_le_compat_r; [lra|]. apply (Rmult_le_reg_r (len (spots ways))); [exact W|].
    unfold Rdiv. rewrite Rmult_assoc, Rinv_l by lra. lra. }
  pose proof (trunc_bounds _ (proj1 Y0)) as Tb. fold n in Tb.
  assert (n0 : (0 <= n <= 1000)%Z).
  { split; [apply Z.lt_succ_r, lt_IZR; unfold Z.succ; rewrite plus_IZR; lra|apply le_IZR; lra]. }
  destruct (look_good roads rd _ Mr P (ways_of ds) (len (spots ways)) n e n0) as (y & alt & Lk & s & p & Al & Sn & Dy & Ex).
  exists q, x, s, p, y, alt. cbn [snd]. split; [exact Lk|]. split; [exact Near|]. split; [reflexivity|]. split; [exact Al|].
  split; [apply Rabs_def1; lra|]. split; [exact Dy|]. intros Sp. apply Ex. now right.
Qed.

(** On the way to the first waypoint it looks at the beginning. *)
Theorem C86_first i a l2 roads lat lon e :
  let ways := (i, a) :: l2 in increasing (map fst ways) -> 0 < len (spots roads) ->
  exists s y alt,
    stare (initialize ways roads) i lat lon e = (e, Stare (fst (m_ll_deg (fst y) (snd y) e)) (snd (m_ll_deg (fst y) (snd y) e)) alt) /\
    along (spots roads) s y /\ 0 <= s / len (spots roads) < 1 / 1000.
Proof.
  intros ways I P. destruct (the_ways ways roads I) as (ds & M & rd & Mr & ->).
  pose proof (measure_shape _ _ _ _ _ M) as Sh. pose proof (increasing_lt _ I) as S. rewrite <- (numbers_of _ _ _ M) in S.
  destruct ds as [|d ds]; [discriminate|]. cbn in Sh. injection Sh as Ei _ _. cbn in S. rewrite Ei in S.
  assert (V : Forall (fun x : Z * datum => (i <= fst x)%Z) (ways_of (d :: ds))).
  { apply Forall_forall. intros x X. apply in_map_iff in X. destruct X as (y & <- & [<-|Y]); cbn [fst]; [lia|].
    apply StronglySorted_inv in S. destruct S as (_ & F). rewrite Forall_forall in F. apply Z.lt_le_incl, F. now apply in_map. }
  unfold stare. cbn [waypoints]. pose proof (before_app i [] (ways_of (d :: ds)) (Forall_nil _) V) as B. cbn [app] in B. rewrite B.
  cbn [ways_of map find]. rewrite Ei, Z.eqb_refl. cbn [back rev hd_error].
  destruct (look_good roads rd _ Mr P ((i, d) :: map (fun d0 => (number d0, d0)) ds) (len (spots ways)) 0 e) as (y & alt & Lk & s & p & Al & Sn & _ & Ex); [lia|].
  rewrite <- Ex in Al by now left. exists s, y, alt. split; [now rewrite Lk|]. split; [exact Al|]. lra.
Qed.

(** A waypoint that is none of the segment changes nothing. *)
Theorem C86_unknown ways roads id lat lon e : ~ In id (map fst ways) -> stare (initialize ways roads) id lat lon e = (e, Unchanged).
Proof.
  intros N. unfold initialize. destruct (measure None 0 ways) as (ds, wl) eqn:M. destruct (measure None 0 roads) as (rd, rl) eqn:Mr.
  unfold stare. cbn [waypoints]. rewrite find_none; [reflexivity|]. intros (k, d) X E. cbn in E. subst k.
  apply (fill_spec number ds) in X. destruct X as (Ed & u & v & Eds & _). apply N. rewrite <- (numbers_of _ _ _ M), Eds, map_app. apply in_app_iff.
  right. left. exact Ed.
Qed.

(** * Segments *)

Definition gather (segs : list (list (Z * point) * list (Z * point))) : list (Z * steering) :=
  fold_left (fun m s => add (fst s) (snd s) m) segs [].

Definition ids (s : list (Z * point) * list (Z * point)) : list Z := map fst (fst s).

Lemma hd_rev_in {A} (l : list A) x : hd_error (rev l) = Some x -> exists l', l = l' ++ [x].
Proof.
  intros H. destruct (rev l) as [|y r] eqn:E; [discriminate|]. injection H as ->. exists (rev r). rewrite <- (rev_involutive l), E. reflexivity.
Qed.

Definition first (s : list (Z * point) * list (Z * point)) : Z := match ids s with i :: _ => i | [] => 0%Z end.

Lemma chained_first a l : chained (map ids (a :: l)) ->
  (forall x, In x (ids a) -> (first a <= x)%Z) /\ forall s x, In s l -> In x (ids a) -> (x <= first s)%Z.
Proof.
  revert a. induction l as [|b l IH]; intros a H.
  - cbn in H. destruct H as (_ & I & _). split; [|intros s x []]. intros x X. unfold first. destruct (ids a) as [|i r]; [destruct X|].
    apply increasing_lt in I. apply StronglySorted_inv in I. destruct I as (_ & F). rewrite Forall_forall in F. destruct X as [->|X]; [lia|]. apply F in X. lia.
  - destruct H as (_ & I & Ch & H). destruct (IH b H) as (B1 & B2). split.
    + intros x X. unfold first. destruct (ids a) as [|i r]; [destruct X|].
      apply increasing_lt in I. apply StronglySorted_inv in I. destruct I as (_ & F). rewrite Forall_forall in F. destruct X as [->|X]; [lia|]. apply F in X. lia.
    + intros s x Sx X. destruct H as (Two & _). destruct (ids b) as [|i r] eqn:Eb; [cbn in Two; lia|]. cbn in Ch. rewrite Eb in Ch. cbn [hd_error] in Ch.
      destruct (hd_rev_in _ _ Ch) as (l' & El).
      assert (Xi : (x <= i)%Z).
      { rewrite El in X, I. apply in_app_iff in X. destruct X as [X|[->|[]]]; [|lia]. apply increasing_lt in I. apply (sorted_last _ _ _ I) in X. lia. }
      destruct Sx as [->|Sx]; [unfold first; rewrite Eb; exact Xi|]. specialize (B2 s i Sx (or_introl eq_refl)). lia.
Qed.

Lemma chained_sorted l : chained (map ids l) -> StronglySorted Z.lt (map first l).
Proof.
  induction l as [|a l IH]; intros H; [constructor|]. pose proof (chained_first a l H) as (_ & B). destruct H as (Two & I & _ & H). cbn [map].
  constructor; [now apply IH|]. apply Forall_forall. intros k K. apply in_map_iff in K. destruct K as (s & <- & Sx).
  destruct (ids a) as [|i [|j r]] eqn:Ea; [cbn in Two; lia|cbn in Two; lia|]. unfold first at 1. rewrite Ea.
  specialize (B s j Sx (or_intror (or_introl eq_refl))). destruct I as (I & _). lia.
Qed.

Lemma add_first s m : ids s <> [] -> add (fst s) (snd s) m = insert (first s) (initialize (fst s) (snd s)) m.
Proof. unfold first, ids, add. destruct (fst s) as [|(i, p) r]; intros N; [now elim N|reflexivity]. Qed.

Lemma chained_gather l : chained (map ids l) -> gather l = map (fun s => (first s, initialize (fst s) (snd s))) l.
Proof.
  intros H. pose proof (chained_sorted l H) as S.
  assert (N : forall s, In s l -> ids s <> []).
  { clear S. induction l as [|a l IH]; intros s Sx; [destruct Sx|]. destruct H as (Two & _ & _ & H).
    destruct Sx as [->|Sx]; [intros Z; rewrite Z in Two; cbn in Two; lia|now apply IH]. }
  unfold gather. clear H. induction l as [|s l IH] using rev_ind; [reflexivity|]. rewrite map_app in S.
  rewrite fold_left_app, map_app. cbn [fold_left map]. rewrite IH.
  - rewrite add_first by (apply N; apply in_app_iff; right; now left). apply insert_end. apply Forall_forall. intros x X. apply in_map_iff in X.
    destruct X as (s' & <- & Sx). cbn [fst]. apply (sorted_last _ _ _ S). now apply in_map.
  - clear -S. induction (map first l) as [|x u IH]; [constructor|]. cbn in S. apply StronglySorted_inv in S. destruct S as (S & F).
    constructor; [now apply IH|]. rewrite Forall_forall in *. intros y Y. apply F. apply in_app_iff. now left.
  - intros s' Sx. apply N. apply in_app_iff. now left.
Qed.

Lemma chained_app u v : chained (u ++ v) -> chained v.
Proof. induction u as [|a u IH]; intros H; [exact H|]. apply IH. apply H. Qed.

(** If each segment begins with the last waypoint of the one before, the segment of the leg that is flown decides. *)
Theorem C86_segments segs u s v id lat lon e :
  chained (map ids segs) -> segs = u ++ s :: v -> In id (tl (ids s)) \/ (u = [] /\ hd_error (ids s) = Some id) ->
  find_stare (gather segs) id lat lon e = stare (initialize (fst s) (snd s)) id lat lon e.
Proof.
  intros H E Id. rewrite (chained_gather _ H). pose proof (chained_sorted _ H) as S. rewrite E in *. rewrite map_app in H.
  pose proof (chained_app _ _ H) as Hs. change (ids s :: map ids v) with (map ids (s :: v)) in Hs.
  pose proof (chained_first s v Hs) as (B1 & B2). destruct Hs as (Two & I & _).
  set (f := fun s => (first s, initialize (fst s) (snd s))).
  destruct Id as [Id|(-> & Id)].
  - assert (Hid : In id (ids s)) by (destruct (ids s); [destruct Id|now right]).
    assert (Lt : (first s < id)%Z).
    { unfold first. destruct (ids s) as [|i r]; [destruct Id|]. apply increasing_lt in I. apply StronglySorted_inv in I. destruct I as (_ & F).
      rewrite Forall_forall in F. now apply F. }
    assert (Eq : map f (u ++ s :: v) = map f (u ++ [s]) ++ map f v) by (rewrite <- map_app, <- app_assoc; reflexivity).
    assert (U : Forall (fun x : Z * steering => (fst x < id)%Z) (map f (u ++ [s]))).
    { apply Forall_forall. intros x X. apply in_map_iff in X. destruct X as (y & <- & Y). cbn [fst f]. apply in_app_iff in Y. destruct Y as [Y|[<-|[]]]; [|exact Lt].
      rewrite map_app in S. destruct (sorted_app _ _ _ S) as (_ & L). specialize (L (first y) (first s) (in_map _ _ _ Y) (or_introl eq_refl)). lia. }
    assert (V : Forall (fun x : Z * steering => (id <= fst x)%Z) (map f v)).
    { apply Forall_forall. intros x X. apply in_map_iff in X. destruct X as (y & <- & Y). cbn [fst f]. now apply B2. }
    unfold find_stare. rewrite Eq, (from_app _ _ _ U V), (before_app _ _ _ U V), map_app. cbn [map]. rewrite back_snoc.
    destruct ((map f u ++ [f s]) ++ map f v) as [|(k, w) r] eqn:Z; [destruct (map f u); discriminate|]. rewrite <- Z.
    destruct (map f v) as [|z r'] eqn:Zv; [|reflexivity]. rewrite app_nil_r, back_snoc. reflexivity.
  - cbn [app] in *. assert (F : first s = id) by (unfold first; destruct (ids s); [discriminate|]; cbn in Id; congruence).
    cbn [map] in S. apply StronglySorted_inv in S. destruct S as (_ & Fo). rewrite Forall_forall in Fo.
    assert (V : Forall (fun x : Z * steering => (id <= fst x)%Z) (map f (s :: v))).
    { apply Forall_forall. intros x X. apply in_map_iff in X. destruct X as (y & <- & [<-|Y]); cbn [fst f]; [lia|].
      specialize (Fo (first y) (in_map _ _ _ Y)). lia. }
    pose proof (from_app id [] _ (Forall_nil _) V) as A1. pose proof (before_app id [] _ (Forall_nil _) V) as A2. cbn [app] in A1, A2.
    unfold find_stare. rewrite A1, A2. reflexivity.
Qed.

(** Otherwise nothing is found for the first waypoint of a segment. *)
Theorem C86_gap_refuted w1 r1 w2 r2 g a l lat lon e : w1 <> [] -> w2 = (g, a) :: l -> (forall i, In i (map fst w1) -> (i < g)%Z) ->
  find_stare (gather [(w1, r1); (w2, r2)]) g lat lon e = (e, Unchanged).
Proof.
  intros N -> Lt. destruct w1 as [|(h, b) w1]; [congruence|]. specialize (Lt h (or_introl eq_refl)) as Hg. unfold gather. cbn [fold_left fst snd add insert].
  destruct (Z.ltb_spec g h); [lia|]. destruct (Z.eqb_spec g h); [lia|]. unfold find_stare, from, before, back. cbn [filter fst].
  destruct (Z.leb_spec g h); [lia|]. rewrite Z.leb_refl. destruct (Z.ltb_spec h g); [|lia]. rewrite Z.ltb_irrefl. cbn [rev app hd_error].
  apply C86_unknown. intros X. specialize (Lt g X). lia.
Qed.

(** * What goes wrong *)

Lemma no_length roads rd : measure None 0 roads = (rd, len (spots roads)) -> len (spots roads) = 0 ->
  forall k d, In (k, d) (fold_left (fun m d => insert (norm (len (spots roads)) d) d m) rd []) -> k = 0%Z.
Proof.
  intros M Z k d I. apply (fill_spec (norm (len (spots roads))) rd) in I. destruct I as (<- & _). unfold norm.
  destruct (Rlt_dec 0 (len (spots roads))); [lra|reflexivity].
Qed.

(** If the road is a point, the sensor looks at the origin of latitude and longitude as soon as a thousandth of the way is behind the vehicle. *)
Theorem C86_point_refuted ways roads l1 i a j b l2 lat lon e q :
  ways = l1 ++ (i, a) :: (j, b) :: l2 -> increasing (map fst ways) -> flat a <> flat b ->
  len (spots roads) = 0 -> ready e = true ->
  nearest (flat a) (flat b) (snd (deg_ne_m lat lon e)) q ->
  len (spots ways) / 1000 <= len (spots (l1 ++ [(i, a)])) + dist (flat a) q ->
  snd (stare (initialize ways roads) j lat lon e) = Stare 0 0 None.
Proof.
  intros E I N P Rd Nq Far. destruct (the_ways ways roads I) as (ds & M & rd & Mr & ->).
  destruct (at_leg _ _ _ _ _ _ _ _ I M E) as (da & db & Pa & Pb & F & B & Ca & Cb).
  unfold stare. cbn [waypoints]. rewrite F, B.
  assert (C : rad_ne_m (deg_to_rad * lat) (deg_to_rad * lon) e = (e, snd (deg_ne_m lat lon e))).
  { unfold rad_ne_m, deg_ne_m. rewrite !(Rmult_comm deg_to_rad), initialize_ready by exact Rd. reflexivity. }
  rewrite C. set (pos := snd (deg_ne_m lat lon e)) in *. unfold progress. cbn [way_length].
  assert (Dab : 0 < dist (flat a) (flat b)).
  { destruct (Rle_lt_or_eq_dec _ _ (dist_pos (flat a) (flat b))) as [X|X]; [exact X|]. exfalso. apply N, dist_zero. now symmetry. }
  assert (Lw : len (spots ways) = len (spots (l1 ++ [(i, a)])) + dist (flat a) (flat b) + len (spots ((j, b) :: l2))).
  { rewrite E. unfold spots. rewrite !map_app. cbn [map snd]. rewrite len_app, len_cons. ring. }
  pose proof (len_pos (spots (l1 ++ [(i, a)]))) as L1. pose proof (len_pos (spots ((j, b) :: l2))) as L2.
  destruct (Rlt_dec 0 (len (spots ways))) as [W|W]; [|lra].
  destruct (nearest_leg a b pos N) as (Q & F01 & Near). cbn zeta in F01, Near.
  rewrite Pa, Pb. destruct (Req_EM_T _ 0) as [Z|Z]; [lra|]. rewrite Cb, Ca.
  match goal with |- context [trunc ((?f * _ + _) / _ * 1000)] => set (f0 := f) in * end.
  assert (Uq : q = mix (flat a) (flat b) f0).
  { destruct Nq as ((t & T01 & ->) & Min). destruct Near as (_ & Min'). f_equal.
    pose proof (Min f0 F01) as A1. pose proof (Min' t T01) as A2. assert (A : dist pos (mix (flat a) (flat b) t) = dist pos (mix (flat a) (flat b) f0)) by lra.
    assert (Half : 0 <= (t + f0) / 2 <= 1) by lra. pose proof (Min _ Half) as A3.
    apply sqrt_le_0 in A3; [|apply Rplus_le_le_0_compat; apply pow2_ge_0|apply Rplus_le_le_0_compat; apply pow2_ge_0].
    apply sqrt_inj in A; [|apply Rplus_le_le_0_compat; apply pow2_ge_0|apply Rplus_le_le_0_compat; apply pow2_ge_0].
    unfold mix in A, A3. cbn [fst snd] in A, A3.
    set (a1 := fst (flat a)) in *. set (a2 := snd (flat a)) in *. set (b1 := fst (flat b) - a1) in *. set (b2 := snd (flat b) - a2) in *.
    set (c1 := fst pos - a1) in *. set (c2 := snd pos - a2) in *.
    assert (Qb : 0 < b1 * b1 + b2 * b2).
    { assert (N' : flat a <> flat b) by exact N. unfold b1, b2, a1, a2, flat. cbn [fst snd]. exact Q. }
    assert (K : (t - f0) * (t - f0) * (b1 * b1 + b2 * b2) <= 0).
    { replace (fst pos - (a1 + t * b1)) with (c1 - t * b1) in * by (unfold c1; ring).
      replace (snd pos - (a2 + t * b2)) with (c2 - t * b2) in * by (unfold c2; ring).
      replace (fst pos - (a1 + f0 * b1)) with (c1 - f0 * b1) in * by (unfold c1; ring).
      replace (snd pos - (a2 + f0 * b2)) with (c2 - f0 * b2) in * by (unfold c2; ring).
      replace (fst pos - (a1 + (t + f0) / 2 * b1)) with (c1 - (t + f0) / 2 * b1) in * by (unfold c1; ring).
      replace (snd pos - (a2 + (t + f0) / 2 * b2)) with (c2 - (t + f0) / 2 * b2) in * by (unfold c2; ring).
      lra. }
    assert (K0 : (t - f0) * (t - f0) = 0).
    { destruct (Rle_lt_or_eq_dec _ _ (Rle_0_sqr (t - f0))) as [X|X]; unfold Rsqr in X; [|now symmetry].
      pose proof (Rmult_lt_0_compat _ _ X Qb). lra. }
    apply Rmult_integral in K0. lra. }
  assert (Dq : dist (flat a) q = f0 * dist (flat a) (flat b)).
  { rewrite Uq. pose proof (dist_mix_t (flat a) (flat b) 0 f0) as D. rewrite mix_0 in D. rewrite D. rewrite Rabs_left1 by lra. ring. }
  replace (f0 * (len (spots (l1 ++ [(i, a)])) + dist (flat a) (flat b) - len (spots (l1 ++ [(i, a)]))) + len (spots (l1 ++ [(i, a)])))
    with (len (spots (l1 ++ [(i, a)])) + dist (flat a) q) by (rewrite Dq; ring).
  set (x := len (spots (l1 ++ [(i, a)])) + dist (flat a) q) in *.
  assert (Y : 1 <= x / len (spots ways) * 1000).
  { apply (Rmult_le_reg_r (len (spots ways))); [exact W|]. replace (x / len (spots ways) * 1000 * len (spots ways)) with (x * 1000) by (field; lra). lra. }
  assert (n1 : (1 <= trunc (x / len (spots ways) * 1000))%Z).
  { rewrite <- (trunc_IZR 1) by lia. apply trunc_le. lra. }
  cbn [snd]. unfold look. cbn [road].
  destruct (from _ _) as [|(k, d) r] eqn:Fr; [reflexivity|]. exfalso.
  assert (X : In (k, d) (from (trunc (x / len (spots ways) * 1000)) (fold_left (fun m d => insert (norm (len (spots roads)) d) d m) rd []))) by (rewrite Fr; now left).
  apply from_in in X. destruct X as (X & Ge). apply (no_length _ _ Mr P) in X. cbn in Ge. lia.
Qed.

(** With two waypoints at the same place the behaviour is undefined. *)
Theorem C86_twice_refuted ways roads l1 i a j b l2 lat lon e :
  ways = l1 ++ (i, a) :: (j, b) :: l2 -> increasing (map fst ways) -> flat a = flat b -> 0 < len (spots ways) ->
  snd (stare (initialize ways roads) j lat lon e) = Undefined.
Proof.
  intros E I N P. destruct (the_ways ways roads I) as (ds & M & rd & Mr & ->).
  destruct (at_leg _ _ _ _ _ _ _ _ I M E) as (da & db & Pa & Pb & F & B & Ca & Cb).
  unfold stare. cbn [waypoints]. rewrite F, B. destruct (rad_ne_m _ _ e) as (e', pos). unfold progress. cbn [way_length].
  destruct (Rlt_dec 0 (len (spots ways))) as [W|W]; [|lra]. rewrite Pa, Pb. unfold flat in N. injection N as N1 N2. rewrite N1, N2.
  destruct (Req_EM_T _ 0) as [Z|Z]; [reflexivity|]. exfalso. apply Z. ring.
Qed.

(** * A vehicle half way *)
Definition at_ (n e : R) : point := {| north := n; east := e; altitude := 0 |}.
Definition ways1 : list (Z * point) := [(1%Z, at_ (-50) 0); (2%Z, at_ 50 0)].
Definition road1 : list (Z * point) := [(0%Z, at_ 0 0); (1%Z, at_ 0 100)].
Definition origin : earth := history [Init 0 0].

Lemma dist_north a b e : a <= b -> dist (a, e) (b, e) = b - a.
Proof.
  intros H. unfold dist. cbn [fst snd]. replace ((a - b) ^ 2 + (e - e) ^ 2) with (Rsqr (b - a)) by (unfold Rsqr; ring). apply sqrt_Rsqr. lra.
Qed.
Lemma dist_east a b n : a <= b -> dist (n, a) (n, b) = b - a.
Proof.
  intros H. unfold dist. cbn [fst snd]. replace ((n - n) ^ 2 + (a - b) ^ 2) with (Rsqr (b - a)) by (unfold Rsqr; ring). apply sqrt_Rsqr. lra.
Qed.

Lemma road1_len : len (spots road1) = 100.
Proof. cbn. unfold flat. cbn. rewrite dist_east; lra. Qed.
Lemma ways1_len : len (spots ways1) = 100.
Proof. cbn. unfold flat. cbn. rewrite dist_north; lra. Qed.

Example half : exists y alt, Rabs (y - 50) < 1 / 10 /\
  snd (stare (initialize ways1 road1) 2 0 0 origin) = Stare (fst (m_ll_deg 0 y origin)) (snd (m_ll_deg 0 y origin)) alt.
Proof.
  destruct (C86_stare ways1 road1 [] 1 (at_ (-50) 0) 2 (at_ 50 0) [] 0 0 origin)
    as (q & x & s & p & y & alt & Ans & Near & X & Al & Part & _ & Ex).
  - reflexivity.
  - cbn. lia.
  - unfold flat. cbn. intros H. injection H as H. lra.
  - rewrite road1_len. lra.
  - unfold origin, history, after, fold_left. apply ready_initialize.
  - rewrite road1_len, ways1_len in Part. rewrite Ex in Ans.
    + assert (Here : snd (deg_ne_m 0 0 origin) = (0, 0)).
      { unfold deg_ne_m. cbn [snd]. rewrite !Rmult_0_l. unfold origin. rewrite history_eq. cbn [named fst snd].
        rewrite (initialize_ready 0 0) by apply ready_initialize. unfold FlatEarthModel.initialize. cbn [ready fresh meridional lat0 lon0 small]. f_equal; ring. }
      rewrite Here in Near. destruct Near as ((t & T & ->) & Min).
      assert (t = 1 / 2) as ->.
      { assert (H2 : 0 <= 1 / 2 <= 1) by lra. specialize (Min _ H2). unfold dist, mix, flat in Min. cbn [fst snd north east at_] in Min.
        apply sqrt_le_0 in Min; [|apply Rplus_le_le_0_compat; apply pow2_ge_0|apply Rplus_le_le_0_compat; apply pow2_ge_0].
        assert (K : (t - 1 / 2) * (t - 1 / 2) <= 0) by lra.
        assert (K0 : (t - 1 / 2) * (t - 1 / 2) = 0) by (pose proof (Rle_0_sqr (t - 1 / 2)) as Sq; unfold Rsqr in Sq; lra).
        apply Rmult_integral in K0. lra. }
      assert (X50 : x = 50).
      { rewrite X. unfold flat. cbn. unfold mix. cbn [fst snd]. replace (-50 + 1 / 2 * (50 - -50)) with 0 by lra. replace (0 + 1 / 2 * (0 - 0)) with 0 by ring.
        rewrite dist_north; lra. }
      assert (P : p = (0, s)).
      { inversion Al as [|a b r u U E1 E2 E3|a b r u p' Al' E1 E2 E3]; subst.
        - unfold flat, mix. cbn. rewrite dist_east by lra. f_equal; ring.
        - inversion Al'; subst. unfold flat. cbn. rewrite dist_east by lra. f_equal; ring. }
      subst p x. exists s, alt. split; [|exact Ans]. apply Rabs_def2 in Part. apply Rabs_def1; lra.
    + rewrite road1_len. cbn. unfold flat. cbn. rewrite dist_east by lra. split; [lra|exact I].
Qed.

Example chain : chained (map ids [([(1%Z, at_ 0 0); (2%Z, at_ 1 0); (3%Z, at_ 2 0)], road1); ([(3%Z, at_ 2 0); (4%Z, at_ 3 0)], road1)]).
Proof. cbn. repeat split; lia. Qed.

Print Assumptions C86_stare.
Print Assumptions C86_first.
Print Assumptions C86_unknown.
Print Assumptions C86_segments.
Print Assumptions C86_gap_refuted.
Print Assumptions C86_point_refuted.
Print Assumptions C86_twice_refuted.

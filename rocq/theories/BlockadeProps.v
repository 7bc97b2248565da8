(** C81: what the vehicles of a blockade are commanded. *)
From Coq Require Import Reals Lra Lia List ZArith.
From Verif Require Import ZMap Latest PiBounds FlatEarthModel FlatEarthProps RouteExtModel RouteExtGeom BlockadeModel BlockadeSpec BlockadeGeom.
Import ListNotations.
Open Scope R_scope.

Lemma polar p : let r := atan2 (snd p) (fst p) in p = (len p * cos r, len p * sin r).
Proof.
  cbv zeta. destruct p as (x, y). unfold len. cbn [fst snd]. destruct (Req_dec x 0) as [X|X]; [destruct (Req_dec y 0) as [Y|Y]|].
  - subst. replace (0 * 0 + 0 * 0) with 0 by ring. rewrite sqrt_0. f_equal; ring.
  - destruct (atan2_spec y x (or_intror Y)) as (_ & A & B). rewrite A, B. reflexivity.
  - destruct (atan2_spec y x (or_introl X)) as (_ & A & B). rewrite A, B. reflexivity.
Qed.
Lemma len_pos p : 0 <= len p.
Proof. apply sqrt_pos. Qed.
Lemma dist_straight p q : dist p q = straight p q.
Proof. reflexivity. Qed.
Lemma len_dist p q : len (sub p q) = dist q p.
Proof. unfold len, sub, dist. cbn [fst snd]. f_equal. ring. Qed.
Lemma cs r : cos r ^ 2 + sin r ^ 2 = 1.
Proof. rewrite Rplus_comm, <- !Rsqr_pow2. apply sin2_cos2. Qed.
Lemma cs' r : cos r * cos r = 1 - sin r * sin r.
Proof. pose proof (cs r). lra. Qed.
Lemma rotate_len p r : len (rotate p r) = len p.
Proof.
  unfold len, rotate. cbn [fst snd]. f_equal. replace ((cos r * fst p - sin r * snd p) * (cos r * fst p - sin r * snd p) + (sin r * fst p + cos r * snd p) * (sin r * fst p + cos r * snd p)) with ((cos r ^ 2 + sin r ^ 2) * (fst p * fst p + snd p * snd p)) by ring. rewrite cs. ring.
Qed.
Lemma rotate_back r l : rotate (l * cos r, l * sin r) (- r) = (l, 0).
Proof.
  unfold rotate. cbn [fst snd]. rewrite cos_neg, sin_neg. f_equal; [|ring]. replace (cos r * (l * cos r) - - sin r * (l * sin r)) with (l * (cos r ^ 2 + sin r ^ 2)) by ring. rewrite cs. ring.
Qed.
(** Distances in the frame of the enemy are distances. *)
Lemma frame b v r l : straight (l, 0) (rotate (sub v b) (- r)) = dist (from b l (cos r, sin r)) v.
Proof.
  unfold straight, dist, rotate, sub, from. cbn [fst snd]. rewrite cos_neg, sin_neg. f_equal. set (x := fst v - fst b). set (y := snd v - snd b).
  replace (fst v - (fst b + l * cos r)) with (x - l * cos r) by (unfold x; ring). replace (snd v - (snd b + l * sin r)) with (y - l * sin r) by (unfold y; ring).
  replace ((cos r * x - - sin r * y - l) ^ 2 + (- sin r * x + cos r * y - 0) ^ 2) with ((cos r ^ 2 + sin r ^ 2) * (x ^ 2 + y ^ 2) - 2 * l * (x * cos r + y * sin r) + l ^ 2) by ring.
  replace ((x - l * cos r) ^ 2 + (y - l * sin r) ^ 2) with ((x ^ 2 + y ^ 2) - 2 * l * (x * cos r + y * sin r) + l ^ 2 * (cos r ^ 2 + sin r ^ 2)) by ring.
  rewrite cs. ring.
Qed.
Lemma from_dist b u k l : unit_vector u -> dist (from b k u) (from b l u) = Rabs (l - k).
Proof.
  intros U. unfold dist, from, unit_vector in *. cbn [fst snd]. replace ((fst b + l * fst u - (fst b + k * fst u)) ^ 2 + (snd b + l * snd u - (snd b + k * snd u)) ^ 2) with ((l - k) ^ 2 * (fst u ^ 2 + snd u ^ 2)) by ring.
  rewrite U, Rmult_1_r, <- Rsqr_pow2. apply sqrt_Rsqr_abs.
Qed.
Lemma from_zero b u : from b 0 u = b.
Proof. unfold from. destruct b. cbn [fst snd]. f_equal; ring. Qed.

(** Where the enemy is stopped, in the frame of the enemy. *)
Definition stop (gap : R) (en b v : R * R) : R * R :=
  let r := atan2 (snd (sub en b)) (fst (sub en b)) in
  add (if Rlt_dec gap (len (sub en b)) then
         let w := rotate (sub en b) (- r) in let w := (fst w - gap, snd w) in
         scale (rotate w r) (block_dist w (rotate (sub v b) (- r)))
       else scale (sub en b) 0) b.
Lemma stop_meets gap en b v : let r := atan2 (snd (sub en b)) (fst (sub en b)) in
  en = from b (dist b en) (cos r, sin r) /\ meets b (cos r, sin r) (dist b en) gap v (stop gap en b v).
Proof.
  cbv zeta. pose proof (polar (sub en b)) as P. cbv zeta in P. unfold stop. cbv zeta. set (r := atan2 _ _) in *. set (L := len (sub en b)) in *.
  assert (DL : dist b en = L) by (symmetry; apply len_dist). rewrite DL. split.
  - unfold sub in P. injection P as P1 P2. unfold from. cbn [fst snd]. rewrite <- P1, <- P2. destruct en. cbn [fst snd]. f_equal; ring.
  - destruct (Rlt_dec gap L) as [G|G].
    + right. split; [exact G|]. rewrite P, rotate_back. cbn [fst snd]. set (E := L - gap). set (w := rotate (sub v b) (- r)).
      assert (EP : 0 < E) by (unfold E; lra).
      assert (RR : forall k, add (scale (rotate (E, 0) r) k) b = from b (k * E) (cos r, sin r)) by (intros k; unfold add, scale, rotate, from; cbn [fst snd]; f_equal; ring).
      rewrite RR. assert (W0 : len w = dist b v) by (unfold w; rewrite rotate_len; apply len_dist).
      assert (WE : len (sub w (E, 0)) = dist (from b E (cos r, sin r)) v) by (rewrite len_dist, dist_straight; unfold w; apply frame).
      destruct (Rlt_dec E (dist b v)) as [A|A].
      * left. split; [exact A|]. unfold block_dist. cbn [fst]. rewrite W0. destruct (Rlt_dec E (dist b v)); [|contradiction]. rewrite Rmult_0_l. apply from_zero.
      * right. destruct (Rlt_dec (dist (from b E (cos r, sin r)) v) 10) as [B|B].
        -- left. split; [lra|]. split; [exact B|]. unfold block_dist. cbn [fst]. rewrite W0, WE. destruct (Rlt_dec E (dist b v)); [contradiction|]. destruct (Rlt_dec _ 10); [|contradiction]. rewrite Rmult_1_l. reflexivity.
        -- right. split; [lra|]. split; [lra|]. exists (block_dist (E, 0) w * E). destruct w as (wx, wy) eqn:WW.
           assert (IN : wx ^ 2 + wy ^ 2 <= E ^ 2).
           { rewrite <- W0 in A. unfold len in A. cbn [fst snd] in A. apply Rnot_lt_le in A. assert (H : sqrt (wx * wx + wy * wy) ^ 2 <= E ^ 2) by (apply pow_incr; split; [apply sqrt_pos|exact A]).
             rewrite <- Rsqr_pow2, Rsqr_sqrt in H; [lra|]. pose proof (pow2_ge_0 wx). pose proof (pow2_ge_0 wy). lra. }
           assert (AP : 100 <= (wx - E) ^ 2 + wy ^ 2).
           { rewrite <- WE in B. apply Rnot_lt_le in B. unfold len, sub in B. cbn [fst snd] in B. assert (H : 10 ^ 2 <= sqrt ((wx - E) * (wx - E) + (wy - 0) * (wy - 0)) ^ 2) by (apply pow_incr; lra).
             rewrite <- Rsqr_pow2 in H at 1. rewrite <- (Rsqr_pow2 (sqrt _)), Rsqr_sqrt in H; [unfold Rsqr in H; lra|]. pose proof (pow2_ge_0 (wx - E)). pose proof (pow2_ge_0 (wy - 0)). lra. }
           destruct (block_meeting E wx wy EP IN AP) as (K & M). split; [exact K|]. split; [reflexivity|]. intros E9. specialize (M E9). pose proof (frame b v r (block_dist (E, 0) (wx, wy) * E)) as FR. fold w in FR. rewrite WW in FR. rewrite FR in M.
           rewrite from_dist by (unfold unit_vector; apply cs). rewrite (Rabs_pos_eq (E - _)) by lra. rewrite <- WE. unfold len, sub. cbn [fst snd].
           replace ((wx - E) * (wx - E) + (wy - 0) * (wy - 0)) with ((wx - E) ^ 2 + wy ^ 2) by ring. exact M.
    + left. split; [lra|]. unfold add, scale. destruct b. cbn [fst snd]. f_equal; ring.
Qed.

(** The line of vehicles stands across the way of the enemy. *)
Lemma wall r : -5 <= r <= 5 -> let th := PI / 2 - ((PI / 2 - r) * rad_to_deg + 90) * deg_to_rad in right_of (cos r, sin r) (cos th, sin th).
Proof.
  intros RB. cbv zeta. set (th := PI / 2 - _). split; [apply cs|]. pose proof PI_bounds as PB.
  assert (D : Rabs (th - (r - PI / 2)) <= / 10 ^ 10).
  { unfold th. replace (PI / 2 - ((PI / 2 - r) * rad_to_deg + 90) * deg_to_rad - (r - PI / 2)) with ((PI / 2 - r) * (1 - rad_to_deg * deg_to_rad) + (PI / 2 - 90 * deg_to_rad)) by ring.
    assert (K : 0 <= 1 - rad_to_deg * deg_to_rad <= / 10 ^ 12) by (unfold rad_to_deg, deg_to_rad; lra).
    assert (Q : Rabs (PI / 2 - 90 * deg_to_rad) <= / 10 ^ 11) by (apply Rabs_le; unfold deg_to_rad; lra).
    eapply Rle_trans; [apply Rabs_triang|]. rewrite Rabs_mult, (Rabs_pos_eq (1 - _)) by lra. assert (A : Rabs (PI / 2 - r) <= 7) by (apply Rabs_le; lra).
    assert (B : Rabs (PI / 2 - r) * (1 - rad_to_deg * deg_to_rad) <= 7 * / 10 ^ 12) by (apply Rmult_le_compat; try lra; apply Rabs_pos). lra. }
  assert (LIP : forall a b, Rabs (cos a - cos b) <= Rabs (a - b)).
  { intros a b. rewrite form2. rewrite !Rabs_mult. pose proof (sin_abs ((a - b) / 2)) as S1. assert (S2 : Rabs (sin ((a + b) / 2)) <= 1) by (apply Rabs_le, SIN_bound).
    assert (A2 : Rabs (-2) = 2) by (rewrite Rabs_left; lra). rewrite A2. assert (H : Rabs ((a - b) / 2) = Rabs (a - b) / 2) by (unfold Rdiv; rewrite Rabs_mult, (Rabs_pos_eq (/ 2)) by lra; reflexivity). rewrite H in S1.
    pose proof (Rabs_pos (sin ((a - b) / 2))). pose proof (Rabs_pos (sin ((a + b) / 2))).
    assert (B : Rabs (sin ((a - b) / 2)) * Rabs (sin ((a + b) / 2)) <= Rabs (a - b) / 2 * 1) by (apply Rmult_le_compat; lra). lra. }
  cbn [fst snd]. split; (eapply Rle_trans; [|exact D]).
  - rewrite <- (cos_shift r). rewrite <- (cos_neg (PI / 2 - r)). replace (- (PI / 2 - r)) with (r - PI / 2) by ring. apply LIP.
  - replace (sin th + cos r) with (cos (PI / 2 - th) - cos (r - PI)).
    + eapply Rle_trans; [|right; reflexivity]. replace (th - (r - PI / 2)) with (- (PI / 2 - th - (PI - r))) by field. rewrite Rabs_Ropp. replace (cos (r - PI)) with (cos (PI - r)) by (rewrite <- (cos_neg (PI - r)); f_equal; ring). apply LIP.
    + rewrite cos_shift. replace (r - PI) with (- (PI - r)) by ring. rewrite cos_neg. replace (PI - r) with (- r + PI) by ring. rewrite neg_cos, cos_neg. ring.
Qed.
Lemma atan2_range y x : -5 <= atan2 y x <= 5.
Proof.
  pose proof PI_bounds. pose proof (atan_bound (y / x)). unfold atan2.
  destruct (Rlt_dec 0 x); [lra|]. destruct (Rlt_dec x 0); [destruct (Rle_dec 0 y); lra|]. destruct (Rlt_dec 0 y); [lra|]. destruct (Rlt_dec y 0); lra.
Qed.

Lemma latest_after v h e : latest (activity v) (h ++ [e]) true <-> match activity v e with Some y => y = true | None => latest (activity v) h true end.
Proof. rewrite latest_snoc. destruct (activity v e) as [y|]; (split; [intros [H|(H & K)]|intros H]); try congruence; auto. left. congruence. Qed.

Section Blockade.
  Context (t : task).

  Lemma run_snoc s h e : run t s (h ++ [e]) = fst (step t (run t s h) e).
  Proof. unfold run. rewrite fold_left_app. reflexivity. Qed.

  Lemma converter_ready s : converter s = fresh \/ based (converter s) -> forall la lo, based (initialize la lo (converter s)) /\ (ready (converter s) = true -> initialize la lo (converter s) = converter s).
  Proof.
    intros [->|(a & b & ->)] la lo; (split; [|intros R]).
    - exists la, lo. reflexivity.
    - discriminate R.
    - exists a, b. apply initialize_ready, ready_initialize.
    - apply initialize_ready, R.
  Qed.

  (** The origin that is used. *)
  Definition set_up (e : earth) (en : report) : earth :=
    match protected t with Some p => initialize (fst p * deg_to_rad) (snd p * deg_to_rad) e | None => initialize (lat en * deg_to_rad) (lon en * deg_to_rad) e end.
  Lemma set_up_ready e en : ready (set_up e en) = true.
  Proof. unfold set_up. destruct (protected t); apply ready_initialize. Qed.
  Lemma spot_eq e la lo : spot e la lo = at_place e (la, lo).
  Proof. reflexivity. Qed.
  Definition base (e : earth) (en : R * R) : R * R := match protected t with Some p => at_place e p | None => (fst (at_place e en) - 100, snd (at_place e en)) end.
  Definition heading (e : earth) (en : R * R) : R := let d := sub (at_place e en) (base e en) in atan2 (snd d) (fst d).

  Lemma post_eq s st en : post t s st en =
    let e := set_up (converter s) en in let r := heading e (lat en, lon en) in
    let c := stop (standoff t) (at_place e (lat en, lon en)) (base e (lat en, lon en)) (at_place e (lat st, lon st)) in
    let th := PI / 2 - ((PI / 2 - r) * rad_to_deg + 90) * deg_to_rad in
    let q := from (at_place e (m_ll_deg (snd c) (fst c) e)) (standoff t * (INR (length (filter (fun n => Z.ltb (id st) n) (active s))) - INR (length (active s)) / 2)) (cos th, sin th) in
    (e, m_ll_deg (snd q) (fst q) e).
  Proof.
    unfold post, center. cbn [fst snd].
    assert (E : match protected t with Some p => fst (deg_ne_m (fst p) (snd p) (converter s)) | None => fst (deg_ne_m (lat en) (lon en) (converter s)) end = set_up (converter s) en) by (unfold set_up; destruct (protected t); reflexivity).
    rewrite E. set (e := set_up (converter s) en). cbv zeta.
    assert (B : match protected t with Some p => spot e (fst p) (snd p) | None => (fst (spot e (lat en) (lon en)) - 100, snd (spot e (lat en) (lon en))) end = base e (lat en, lon en)).
    { unfold base. destruct (protected t) as [(a, b)|]; rewrite ?spot_eq; reflexivity. }
    rewrite B. rewrite !spot_eq. unfold stop, heading. cbv zeta.
    set (b := base e (lat en, lon en)). set (x := at_place e (lat en, lon en)). set (v := at_place e (lat st, lon st)). set (r := atan2 (snd (sub x b)) (fst (sub x b))).
    set (k := standoff t * _).
    match goal with |- context [m_ll_deg (snd ?c) (fst ?c) e] => set (c0 := c) end.
    unfold from. cbn [fst snd]. rewrite <- surjective_pairing. f_equal. f_equal; ring.
  Qed.

  Lemma inv h : let s := run t init h in
    (forall v, zget (configs s) v = Latest.follow (configured v) h) /\ enemy s = Latest.follow (sighted (blocked t)) h /\ at_work h (active s)
    /\ (converter s = fresh \/ based (converter s)).
  Proof.
    cbv zeta. induction h as [|e h (C & E & (ND & W) & B)] using rev_ind.
    - cbn. repeat split; auto; try constructor; try contradiction. intros H. destruct (latest_nil _ _ H).
    - rewrite run_snoc. set (s := run t init h) in *. destruct e as [v c|st p|v|la lo].
      + cbn [step fst configs enemy active converter]. repeat split; [|rewrite follow_snoc; exact E|exact ND| | |exact B].
        * intros u. rewrite zget_set, follow_snoc. cbn [configured]. rewrite (Z.eqb_sym v u). destruct (Z.eqb u v); [reflexivity|apply C].
        * intros H. apply latest_after. apply W, H.
        * intros H. apply latest_after in H. apply W, H.
      + assert (EN : learn t s st = Latest.follow (sighted (blocked t)) (h ++ [Report st p])).
        { unfold learn. rewrite follow_snoc. cbn [sighted]. destruct (Z.eqb (id st) (blocked t)); [reflexivity|exact E]. }
        assert (CN : forall u, zget (configs s) u = Latest.follow (configured u) (h ++ [Report st p])) by (intros u; rewrite follow_snoc; apply C).
        assert (WW : at_work (h ++ [Report st p]) (match p with Away => active s | On => zadd (id st) (active s) | Off => zrem (id st) (active s) end)).
        { split; [destruct p; [exact ND|apply NoDup_zadd, ND|apply NoDup_zrem, ND]|]. intros u. rewrite latest_after. destruct p; cbn [activity].
          - apply W.
          - rewrite In_zadd. destruct (Z.eqb_spec (id st) u) as [->|N]; [split; auto|]. rewrite <- W. split; [intros [->|H]; [congruence|exact H]|auto].
          - rewrite In_zrem. destruct (Z.eqb_spec (id st) u) as [->|N]; [split; [intros (_ & H); congruence|discriminate]|]. rewrite <- W. split; [intros (H & _); exact H|intros H; split; [exact H|congruence]]. }
        destruct p; cbn [step fst configs enemy active converter]; try (split; [exact CN|split; [exact EN|split; [exact WW|exact B]]]).
        destruct (enemy s) as [en|] eqn:EE; [|cbn [fst configs enemy active converter]; split; [exact CN|split; [exact EN|split; [exact WW|exact B]]]].
        unfold command. rewrite post_eq. cbv zeta. cbn [fst configs enemy active converter]. split; [exact CN|split; [exact EN|split; [exact WW|]]]. right.
        unfold set_up. destruct (protected t); apply (converter_ready s B).
      + cbn [step fst configs enemy active converter]. split; [intros u; rewrite follow_snoc; apply C|]. split; [rewrite follow_snoc; exact E|]. split; [|exact B].
        split; [apply NoDup_zrem, ND|]. intros u. rewrite In_zrem, latest_after. cbn [activity]. destruct (Z.eqb_spec v u) as [->|N]; [split; [intros (_ & H); congruence|discriminate]|].
        rewrite <- W. split; [intros (H & _); exact H|intros H; split; [exact H|congruence]].
      + cbn [step fst configs enemy active converter]. split; [intros u; rewrite follow_snoc; apply C|]. split; [rewrite follow_snoc; exact E|]. split; [split; [exact ND|]|right; apply (converter_ready s B)].
        intros u. rewrite latest_after. apply W.
  Qed.
End Blockade.

(** A vehicle that reports from its work, once the blocked one was seen, is told with one mission to go to its post on the line that stands across
    the way of the enemy where the vehicle meets it, and to stay there and watch. *)
Theorem C81_mission : forall t h st en, latest (sighted (blocked t)) h en ->
  exists l e q sp a s', at_work h l /\ based e /\ (based (converter (run t init h)) -> e = converter (run t init h))
  /\ posted t e l (id st) (lat st, lon st) (lat en, lon en) q /\ speed_of h st sp
  /\ let x := m_ll_deg (snd q) (fst q) e in acts h st en (fst x) (snd x) sp a
  /\ let w n acts := {| w_number := n; w_next := 2; w_lat := fst x; w_lon := snd x; w_alt := altitude st; w_speed := sp; w_actions := acts |} in
     step t (run t init h) (Report st On) = (s', [{| m_vehicle := id st; m_first := 1; m_points := [w 1%Z []; w 2%Z a] |}]) /\ converter s' = e.
Proof.
  intros t h st en EN. destruct (inv t h) as (C & E & W & B). set (s := run t init h) in *. apply follow_latest in EN. rewrite <- E in EN.
  cbn [step]. rewrite EN. unfold command. rewrite (post_eq t). cbv zeta. set (e := set_up t (converter s) en).
  set (b := base t e (lat en, lon en)). set (r := heading t e (lat en, lon en)). set (th := PI / 2 - _).
  set (c := stop _ _ _ _). set (q := from _ _ _).
  assert (BE : based e) by (unfold e, set_up; destruct (protected t); apply (converter_ready s B)).
  exists (active s), e, q, (fly_speed s st), (actions s st en (fst (m_ll_deg (snd q) (fst q) e)) (snd (m_ll_deg (snd q) (fst q) e))). eexists.
  split; [exact W|]. split; [exact BE|]. split.
  { intros (la & lo & Q). unfold e, set_up. rewrite Q. destruct (protected t); apply initialize_ready, ready_initialize. }
  split.
  { exists b, (cos r, sin r), (dist b (at_place e (lat en, lon en))), c, (cos th, sin th). pose proof (stop_meets (standoff t) (at_place e (lat en, lon en)) b (at_place e (lat st, lon st))) as (S1 & S2).
    split; [unfold home, b, base; destruct (protected t); reflexivity|]. split; [apply cs|]. split; [reflexivity|]. split; [exact S1|]. split; [exact S2|]. split; [apply wall, atan2_range|]. reflexivity. }
  split.
  { unfold fly_speed. rewrite C. destruct (Latest.follow (configured (id st)) h) as [cc|] eqn:F; [right; exists cc; split; [apply follow_latest, F|reflexivity]|left; split; [apply follow_unsaid, F|reflexivity]]. }
  split.
  { unfold actions. rewrite C. destruct (Latest.follow (configured (id st)) h) as [cc|] eqn:F; [right|left; split; [apply follow_unsaid, F|reflexivity]].
    eexists cc, _, _. split; [apply follow_latest, F|]. split; [|split; [rewrite map_map; reflexivity|destruct (what cc); intuition discriminate]]. destruct (what cc); auto. }
  split; reflexivity.
Qed.

(** Nothing else is commanded, and nothing before the blocked one was seen. *)
Theorem C81_silent : forall t h e, (forall st, e <> Report st On) \/ unsaid (sighted (blocked t)) h -> snd (step t (run t init h) e) = [].
Proof.
  intros t h e H. destruct (inv t h) as (_ & E & _). destruct e as [v c|st p|v|la lo]; try reflexivity. destruct p; try reflexivity. destruct H as [H|H]; [destruct (H st); reflexivity|].
  apply follow_unsaid in H. rewrite H in E. cbn [step]. rewrite E. reflexivity.
Qed.

(** There and back through degrees. *)
Definition turn : R := rad_to_deg * deg_to_rad.
Lemma turn_near : 1 - / 10 ^ 12 <= turn <= 1.
Proof. unfold turn, rad_to_deg, deg_to_rad. lra. Qed.
Lemma through la lo : between_poles la -> let e := initialize la lo fresh in
  forall p, at_place e (m_ll_deg (snd p) (fst p) e) = (turn * fst p + small e * lon0 e * (turn - 1), turn * snd p + meridional e * lat0 e * (turn - 1)).
Proof.
  intros B e p. pose proof (origin_values la lo) as V. cbv zeta in V. fold e in V. destruct V as (_ & _ & RD & M & _). pose proof (small_pos la lo B) as P. fold e in P.
  unfold at_place, m_ll_deg, deg_ne_m, turn. cbv zeta. cbn [fst snd]. destruct (Rle_dec (meridional e) 0); [lra|]. destruct (Rle_dec (small e) 0); [lra|]. rewrite initialize_ready by exact RD. f_equal; field; lra.
Qed.
Lemma dist_scaled k x y p q : 0 <= k -> dist (k * fst p + x, k * snd p + y) (k * fst q + x, k * snd q + y) = k * dist p q.
Proof.
  intros K. unfold dist. cbn [fst snd]. replace ((k * fst q + x - (k * fst p + x)) ^ 2 + (k * snd q + y - (k * snd p + y)) ^ 2) with (Rsqr k * ((fst q - fst p) ^ 2 + (snd q - snd p) ^ 2)) by (unfold Rsqr; ring).
  rewrite sqrt_mult; [rewrite sqrt_Rsqr by exact K; reflexivity|apply Rle_0_sqr|]. pose proof (pow2_ge_0 (fst q - fst p)). pose proof (pow2_ge_0 (snd q - snd p)). lra.
Qed.
Lemma meets_from b u l gap v c : meets b u l gap v c -> exists k, c = from b k u.
Proof.
  intros [(_ & ->)|(_ & [(_ & ->)|[(_ & _ & ->)|(_ & _ & k & _ & -> & _)]])]; [exists 0; symmetry; apply from_zero|exists 0; symmetry; apply from_zero|exists (l - gap); reflexivity|exists k; reflexivity].
Qed.
Lemma across u x p k1 k2 w1 w2 : unit_vector u -> right_of u x -> let q k w := from (from p k u) w x in Rabs (w2 - w1) * (1 - / 10 ^ 10) <= dist (q k1 w1) (q k2 w2).
Proof.
  intros U (X & A & B). cbv zeta. unfold dist, from, unit_vector in *. cbn [fst snd]. destruct u as (ux, uy), x as (xx, xy). cbn [fst snd] in *. apply rabs_inv in A. apply rabs_inv in B.
  set (a := k2 - k1). set (w := w2 - w1). set (d := ux * xx + uy * xy).
  assert (D : 0 <= d ^ 2 <= / 10 ^ 10).
  { split; [apply pow2_ge_0|]. assert (U1 : -1 <= ux <= 1) by (pose proof (pow2_ge_0 uy); split; nra). assert (U2 : -1 <= uy <= 1) by (pose proof (pow2_ge_0 ux); split; nra).
    assert (Q : d = ux * (xx - uy) + uy * (xy + ux)) by (unfold d; ring). set (y := xx - uy) in *. set (z := xy + ux) in *.
    assert (D1 : -2 / 10 ^ 10 <= d <= 2 / 10 ^ 10) by (rewrite Q; split; nra). nra. }
  match goal with |- _ <= sqrt ?S => replace S with ((a + w * d) ^ 2 + w ^ 2 * (1 - d ^ 2)) end.
  - rewrite <- (sqrt_Rsqr (Rabs w * (1 - / 10 ^ 10))) by (apply Rmult_le_pos; [apply Rabs_pos|lra]). apply sqrt_le_1_alt. rewrite Rsqr_mult, <- Rsqr_abs, !Rsqr_pow2. pose proof (pow2_ge_0 (a + w * d)). pose proof (pow2_ge_0 w).
    assert (L : w ^ 2 * (1 - / 10 ^ 10) ^ 2 <= w ^ 2 * (1 - d ^ 2)) by (apply Rmult_le_compat_l; lra). lra.
  - replace ((a + w * d) ^ 2 + w ^ 2 * (1 - d ^ 2)) with (a ^ 2 + 2 * a * w * d + w ^ 2) by ring. unfold a, w, d.
    replace ((k2 - k1) ^ 2) with ((k2 - k1) ^ 2 * (ux ^ 2 + uy ^ 2)) by (rewrite U; ring). replace ((w2 - w1) ^ 2) with ((w2 - w1) ^ 2 * (xx ^ 2 + xy ^ 2)) by (rewrite X; ring). ring.
Qed.
Lemma higher_counts l i j : (i < j)%Z -> In j l -> (length (filter (fun n => Z.ltb j n) l) + 1 <= length (filter (fun n => Z.ltb i n) l))%nat.
Proof.
  intros IJ. induction l as [|x l IH]; [intros []|].
  assert (G : (length (filter (fun n => Z.ltb j n) l) <= length (filter (fun n => Z.ltb i n) l))%nat).
  { clear IH. induction l as [|y l IH]; [reflexivity|]. cbn [filter]. destruct (Z.ltb_spec j y), (Z.ltb_spec i y); cbn [length]; lia. }
  intros [->|H]; cbn [filter].
  - destruct (Z.ltb_spec j j); [lia|]. destruct (Z.ltb_spec i j); [|lia]. cbn [length]. lia.
  - specialize (IH H). destruct (Z.ltb_spec j x), (Z.ltb_spec i x); cbn [length]; lia.
Qed.
Lemma counts_differ l i j : i <> j -> In i l -> In j l -> 1 <= Rabs (INR (length (filter (fun n => Z.ltb j n) l)) - INR (length (filter (fun n => Z.ltb i n) l))).
Proof.
  intros N I J. destruct (Z_lt_le_dec i j) as [L|L].
  - pose proof (higher_counts l i j L J) as H. apply le_INR in H. rewrite plus_INR in H. cbn [INR] in H. rewrite Rabs_left1; lra.
  - assert (L' : (j < i)%Z) by lia. pose proof (higher_counts l j i L' I) as H. apply le_INR in H. rewrite plus_INR in H. cbn [INR] in H. rewrite Rabs_pos_eq; lra.
Qed.
Lemma command_points t s st en w : In w (m_points (snd (command t s st en))) -> (w_lat w, w_lon w) = snd (post t s st en).
Proof.
  unfold command. destruct (post t s st en) as (e, (x, y)). cbn [snd m_points]. intros [<-|[<-|[]]]; reflexivity.
Qed.

(** Vehicles that are at work are posted at least the standoff from each other. *)
Theorem C81_apart : forall t h st1 st2 en la lo s1 s2 m1 m2 w1 w2,
  latest (sighted (blocked t)) h en -> id st1 <> id st2 -> latest (activity (id st1)) h true -> latest (activity (id st2)) h true ->
  let e := converter (run t init h) in e = initialize la lo fresh -> between_poles la ->
  step t (run t init h) (Report st1 On) = (s1, [m1]) -> step t (run t init h) (Report st2 On) = (s2, [m2]) -> In w1 (m_points m1) -> In w2 (m_points m2) ->
  (1 - / 10 ^ 9) * Rabs (standoff t) <= dist (at_place e (w_lat w1, w_lon w1)) (at_place e (w_lat w2, w_lon w2)).
Proof.
  intros t h st1 st2 en la lo s1 s2 m1 m2 w1 w2 EN ID A1 A2 e EQ BP S1 S2 W1 W2. destruct (inv t h) as (_ & E & (ND & W) & _). unfold e in *. clear e. set (s := run t init h) in *.
  apply follow_latest in EN. rewrite <- E in EN. cbn [step] in S1, S2. rewrite EN in S1, S2. apply W in A1. apply W in A2.
  assert (P1 : (w_lat w1, w_lon w1) = snd (post t s st1 en)). { apply command_points. destruct (command t s st1 en) as (c1, x1). injection S1 as _ <-. exact W1. }
  assert (P2 : (w_lat w2, w_lon w2) = snd (post t s st2 en)). { apply command_points. destruct (command t s st2 en) as (c2, x2). injection S2 as _ <-. exact W2. }
  rewrite P1, P2, !(post_eq t). cbv zeta. cbn [snd].
  assert (ES : set_up t (converter s) en = converter s) by (rewrite EQ; unfold set_up; destruct (protected t); apply initialize_ready, ready_initialize).
  rewrite ES, EQ. set (e := initialize la lo fresh). pose proof (through la lo BP) as TH. fold e in TH. cbv zeta in TH. rewrite !TH. rewrite dist_scaled by (pose proof turn_near; lra).
  destruct (stop_meets (standoff t) (at_place e (lat en, lon en)) (base t e (lat en, lon en)) (at_place e (lat st1, lon st1))) as (_ & M1). apply meets_from in M1. destruct M1 as (k1 & ->).
  destruct (stop_meets (standoff t) (at_place e (lat en, lon en)) (base t e (lat en, lon en)) (at_place e (lat st2, lon st2))) as (_ & M2). apply meets_from in M2. destruct M2 as (k2 & ->).
  change (atan2 _ _) with (heading t e (lat en, lon en)). set (r := heading t e (lat en, lon en)). set (b := base t e (lat en, lon en)).
  set (p := (turn * fst b + small e * lon0 e * (turn - 1), turn * snd b + meridional e * lat0 e * (turn - 1))).
  assert (F : forall k, (turn * fst (from b k (cos r, sin r)) + small e * lon0 e * (turn - 1), turn * snd (from b k (cos r, sin r)) + meridional e * lat0 e * (turn - 1)) = from p (turn * k) (cos r, sin r)).
  { intros k. unfold p, from. cbn [fst snd]. f_equal; ring. }
  rewrite !F. set (x := (cos (PI / 2 - _), sin _)). set (n1 := INR (length (filter (fun n => Z.ltb (id st1) n) _))). set (n2 := INR (length (filter (fun n => Z.ltb (id st2) n) _))). set (nn := INR (length _)).
  pose proof (across (cos r, sin r) x p (turn * k1) (turn * k2) (standoff t * (n1 - nn / 2)) (standoff t * (n2 - nn / 2)) (cs r) (wall r (atan2_range _ _))) as AC. cbv zeta in AC.
  pose proof (counts_differ (active s) (id st1) (id st2) ID A1 A2) as CD. fold n1 in CD. fold n2 in CD.
  replace (standoff t * (n2 - nn / 2) - standoff t * (n1 - nn / 2)) with (standoff t * (n2 - n1)) in AC by ring. rewrite Rabs_mult in AC.
  set (D := dist _ _) in *. pose proof turn_near as TN. pose proof (Rabs_pos (standoff t)) as SP. set (S := Rabs (standoff t)) in *.
  assert (B1 : S * 1 <= S * Rabs (n2 - n1)) by (apply Rmult_le_compat_l; lra).
  assert (B2 : S * (1 - / 10 ^ 10) <= D) by (eapply Rle_trans; [|exact AC]; apply Rmult_le_compat_r; lra).
  apply Rle_trans with ((1 - / 10 ^ 12) * (S * (1 - / 10 ^ 10))); [|apply Rmult_le_compat; try lra; apply Rmult_le_pos; lra].
  replace ((1 - / 10 ^ 12) * (S * (1 - / 10 ^ 10))) with (((1 - / 10 ^ 12) * (1 - / 10 ^ 10)) * S) by ring. apply Rmult_le_compat_r; lra.
Qed.

(** The post is not that of the same report before: a vehicle that comes to work alone is sent to the place where it meets the enemy, and with the next report
    away from there by half of the standoff. *)
Theorem C81_stays_refuted : forall t h st en la lo, latest (sighted (blocked t)) h en -> id st <> blocked t -> (forall v, ~ latest (activity v) h true) ->
  let e := converter (run t init h) in e = initialize la lo fresh -> between_poles la -> 0 < standoff t ->
  exists s1 s2 m1 m2, step t (run t init h) (Report st On) = (s1, [m1]) /\ step t s1 (Report st On) = (s2, [m2])
  /\ forall w1 w2, In w1 (m_points m1) -> In w2 (m_points m2) ->
     49 / 100 * standoff t <= dist (at_place e (w_lat w1, w_lon w1)) (at_place e (w_lat w2, w_lon w2)).
Proof.
  intros t h st en la lo EN NB NW e EQ BP SP. destruct (inv t h) as (_ & E & (ND & W) & _). unfold e in *. clear e. set (s := run t init h) in *.
  apply follow_latest in EN. rewrite <- E in EN. assert (AE : active s = []). { destruct (active s) as [|v l] eqn:Q; [reflexivity|]. destruct (NW v). apply W. left. reflexivity. }
  assert (ES : set_up t (converter s) en = converter s) by (rewrite EQ; unfold set_up; destruct (protected t); apply initialize_ready, ready_initialize).
  assert (LE : learn t s st = Some en) by (unfold learn; destruct (Z.eqb_spec (id st) (blocked t)); [contradiction|exact EN]).
  assert (C1 : fst (command t s st en) = converter s) by (unfold command; rewrite (post_eq t); cbv zeta; rewrite ES; reflexivity).
  set (s1 := {| configs := configs s; enemy := Some en; active := [id st]; converter := converter s |}).
  assert (ST1 : step t s (Report st On) = (s1, [snd (command t s st en)])).
  { cbn [step]. rewrite EN. destruct (command t s st en) as (c, m). cbn [fst] in C1. subst c. unfold s1. rewrite LE, AE. reflexivity. }
  exists s1, (fst (step t s1 (Report st On))), (snd (command t s st en)), (snd (command t s1 st en)). split; [exact ST1|]. split.
  { cbn [step]. change (enemy s1) with (Some en). cbv iota. destruct (command t s1 st en) as (c, m). reflexivity. }
  intros w1 w2 W1 W2. apply command_points in W1. apply command_points in W2. rewrite W1, W2, !(post_eq t). cbv zeta. cbn [snd]. change (converter s1) with (converter s). rewrite ES, EQ.
  change (active s1) with [id st]. rewrite AE. set (e := initialize la lo fresh). pose proof (through la lo BP) as TH. fold e in TH. cbv zeta in TH.
  rewrite !(TH (from _ _ _)). rewrite dist_scaled by (pose proof turn_near; lra). cbn [filter length]. rewrite Z.ltb_irrefl. cbn [length INR].
  set (p := at_place e _). set (x := (cos _, sin _)).
  assert (U : unit_vector x) by apply cs. rewrite from_dist by exact U. pose proof turn_near as TN. replace (standoff t * (0 - 1 / 2) - standoff t * (0 - 0 / 2)) with (- (standoff t / 2)) by field. rewrite Rabs_Ropp, Rabs_pos_eq by lra. nra.
Qed.

(** A blockade with two vehicles: the enemy is north-east of the place to protect. *)
Definition ex_task : task := {| task_id := 5; blocked := 9; standoff := 300; protected := Some (0, 0) |}.
Definition ex_report (v : Z) (a b : R) : report := {| id := v; lat := a; lon := b; altitude := 50; ground := 7 |}.
Definition ex_history : list ev :=
  [Elsewhere 0 0; Config 1 {| nominal := 12; what := Air; payloads := [(1, true); (2, false); (3, true)]%Z |}; Report (ex_report 9 (1 / 10) (1 / 10)) Away;
   Report (ex_report 1 (1 / 100) 0) On; Report (ex_report 2 0 (1 / 100)) On].
Example C81_meets : latest (sighted (blocked ex_task)) ex_history (ex_report 9 (1 / 10) (1 / 10)) /\ latest (activity 1) ex_history true /\ latest (activity 2) ex_history true
  /\ converter (run ex_task init ex_history) = initialize (0 * deg_to_rad) (0 * deg_to_rad) fresh /\ between_poles (0 * deg_to_rad)
  /\ exists c, latest (configured 1) ex_history c /\ what c = Air.
Proof.
  split; [apply follow_latest; reflexivity|]. split; [apply follow_latest; reflexivity|]. split; [apply follow_latest; reflexivity|]. split.
  - unfold ex_history. cbn [run fold_left]. unfold run. cbn [fold_left step fst snd converter init enemy learn id ex_report blocked ex_task Z.eqb Pos.eqb configs active]. unfold command. rewrite !(post_eq ex_task). cbv zeta.
    cbn [fst snd converter]. unfold set_up, deg_ne_m. cbn [protected ex_task fst snd converter]. rewrite !(initialize_ready _ _ (initialize _ _ _)) by apply ready_initialize. reflexivity.
  - split; [|eexists; split; [apply follow_latest; reflexivity|reflexivity]]. unfold between_poles. pose proof PI_bounds. lra.
Qed.
Example C81_stays_meets : let h := firstn 3 ex_history in latest (sighted (blocked ex_task)) h (ex_report 9 (1 / 10) (1 / 10)) /\ (forall v, ~ latest (activity v) h true)
  /\ converter (run ex_task init h) = initialize (0 * deg_to_rad) (0 * deg_to_rad) fresh /\ 0 < standoff ex_task.
Proof.
  cbv zeta. split; [apply follow_latest; reflexivity|]. split; [intros v H; apply follow_latest in H; discriminate H|]. split; [reflexivity|cbn; lra].
Qed.

Print Assumptions C81_mission.
Print Assumptions C81_silent.
Print Assumptions C81_apart.
Print Assumptions C81_stays_refuted.

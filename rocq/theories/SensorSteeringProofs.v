(** Proofs about the pointing of sensors. *)
From Coq Require Import Reals List ZArith Lra Lia Sorted.
From Verif Require Import FlatEarthModel FlatEarthProps SensorSteeringModel SensorSteeringSpec.
Import ListNotations.
Open Scope R_scope.

(** * Maps *)

Definition keyed {A} (m : list (Z * A)) : Prop := StronglySorted (fun x y => (fst x < fst y)%Z) m.

Lemma insert_in {A} k (v : A) m x : keyed m -> In x (insert k v m) <-> x = (k, v) \/ (fst x <> k /\ In x m).
Proof.
  intros S. induction S as [|(j, w) r S IH F]; [cbn; intuition|]. cbn [insert].
  rewrite Forall_forall in F. destruct (Z.ltb_spec k j).
  - cbn. split.
    + intros [E|[E|I]]; [left; congruence|right; subst x; cbn; split; [lia|now left]|].
      right. split; [|now right]. apply F in I. cbn in I. lia.
    + intros [E|(N & I)]; [now left|now right].
  - destruct (Z.eqb_spec k j) as [->|N].
    + cbn. split.
      * intros [E|I]; [left; congruence|right]. split; [|now right]. apply F in I. cbn in I. lia.
      * intros [E|(N & [E|I])]; [now left| |now right]. subst x. now cbn in N.
    + cbn [In]. rewrite IH. split.
      * intros [E|[E|(M & I)]]; [right; subst x; cbn; split; [lia|now left]|now left|right; split; [exact M|now right]].
      * intros [E|(M & [E|I])]; [right; now left|now left|right; right; now split].
Qed.

Lemma insert_keyed {A} k (v : A) m : keyed m -> keyed (insert k v m).
Proof.
  intros S. pose proof (insert_in k v) as I. induction S as [|(j, w) r S IH F]; [cbn; repeat constructor|].
  cbn [insert]. rewrite Forall_forall in F. destruct (Z.ltb_spec k j).
  - constructor; [constructor; [exact S|now apply Forall_forall]|]. constructor; [assumption|].
    apply Forall_forall. intros x X. apply F in X. cbn in *. lia.
  - destruct (Z.eqb_spec k j) as [->|N].
    + constructor; [exact S|now apply Forall_forall].
    + constructor; [exact IH|]. apply Forall_forall. intros x X. apply I in X; [|exact S].
      destruct X as [->|(_ & X)]; [cbn; lia|now apply F].
Qed.

Lemma fill_spec {A} (key : A -> Z) ds : let m := fold_left (fun m d => insert (key d) d m) ds [] in
  keyed m /\ forall k d, In (k, d) m <-> key d = k /\ exists u v, ds = u ++ d :: v /\ forall x, In x v -> key x <> k.
Proof.
  induction ds as [|z ds IH] using rev_ind; cbn zeta.
  - split; [constructor|]. intros k d. split; [intros []|]. intros (_ & [|] & v & E & _); discriminate.
  - cbn zeta in IH. rewrite fold_left_app. cbn [fold_left]. destruct IH as (S & I). split; [now apply insert_keyed|].
    intros k d. rewrite insert_in by exact S. cbn [fst]. rewrite I. split.
    + intros [E|(N & E & u & v & -> & V)].
      * injection E as -> ->. split; [reflexivity|]. exists ds, []. split; [reflexivity|]. intros ? [].
      * split; [exact E|]. exists u, (v ++ [z]). split; [now rewrite <- app_assoc|].
        intros x X. apply in_app_iff in X. destruct X as [X|[->|[]]]; [now apply V|congruence].
    + intros (E & u & v & D & V). destruct v as [|y v _] using rev_ind.
      * apply app_inj_tail in D. destruct D as (-> & ->). left. congruence.
      * change (u ++ d :: v ++ [y]) with (u ++ (d :: v) ++ [y]) in D. rewrite app_assoc in D. apply app_inj_tail in D.
        destruct D as (-> & ->). right. split.
        -- intros X. symmetry in X. apply (V y); [apply in_app_iff; right; now left|exact X].
        -- split; [exact E|]. exists u, v. split; [reflexivity|]. intros x X. apply V. apply in_app_iff. now left.
Qed.

Lemma from_in {A} n (m : list (Z * A)) x : In x (from n m) <-> In x m /\ (n <= fst x)%Z.
Proof. unfold from. rewrite filter_In, Z.leb_le. reflexivity. Qed.

Lemma before_in {A} n (m : list (Z * A)) x : In x (before n m) <-> In x m /\ (fst x < n)%Z.
Proof. unfold before. rewrite filter_In, Z.ltb_lt. reflexivity. Qed.

Lemma filter_keyed {A} f (m : list (Z * A)) : keyed m -> keyed (filter f m).
Proof.
  intros S. induction S as [|x r S IH F]; [constructor|]. cbn. destruct (f x); [|exact IH].
  constructor; [exact IH|]. rewrite Forall_forall in *. intros y Y. apply filter_In in Y. now apply F.
Qed.

Lemma from_head {A} n (m : list (Z * A)) x r : keyed m -> from n m = x :: r ->
  In x m /\ (n <= fst x)%Z /\ forall y, In y m -> (n <= fst y)%Z -> (fst x <= fst y)%Z.
Proof.
  intros S E. pose proof (filter_keyed (fun e => Z.leb n (fst e)) m S) as K. change (filter _ m) with (from n m) in K. rewrite E in K.
  apply StronglySorted_inv in K. destruct K as (_ & F). rewrite Forall_forall in F.
  assert (X : In x (from n m)) by (rewrite E; now left). apply from_in in X. destruct X as (X & N). split; [exact X|]. split; [exact N|].
  intros y Y M. assert (Z : In y (from n m)) by (now apply from_in). rewrite E in Z. destruct Z as [->|Z]; [lia|]. apply F in Z. lia.
Qed.

Lemma back_some {A} (m : list (Z * A)) x : back m = Some x -> exists l, m = l ++ [x].
Proof.
  unfold back. intros H. destruct (rev m) as [|y r] eqn:E; [discriminate|]. injection H as ->.
  exists (rev r). rewrite <- (rev_involutive m), E. reflexivity.
Qed.

Lemma back_snoc {A} (m : list (Z * A)) x : back (m ++ [x]) = Some x.
Proof. unfold back. rewrite rev_app_distr. reflexivity. Qed.

Lemma back_none {A} (m : list (Z * A)) : back m = None -> m = [].
Proof. unfold back. intros H. destruct (rev m) as [|y r] eqn:E; [|discriminate]. rewrite <- (rev_involutive m), E. reflexivity. Qed.

Lemma sorted_last {A} (R : A -> A -> Prop) l x : StronglySorted R (l ++ [x]) -> forall y, In y l -> R y x.
Proof.
  induction l as [|z l IH]; intros S y Y; [destruct Y|]. cbn in S. apply StronglySorted_inv in S. destruct S as (S & F).
  destruct Y as [->|Y]; [|now apply IH]. rewrite Forall_forall in F. apply F. apply in_app_iff. right. now left.
Qed.

Lemma before_back {A} n (m : list (Z * A)) x : keyed m -> back (before n m) = Some x ->
  In x m /\ (fst x < n)%Z /\ forall y, In y m -> (fst y < n)%Z -> (fst y <= fst x)%Z.
Proof.
  intros S E. apply back_some in E. destruct E as (l & E).
  pose proof (filter_keyed (fun e => Z.ltb (fst e) n) m S) as K. change (filter _ m) with (before n m) in K. rewrite E in K.
  assert (X : In x (before n m)) by (rewrite E; apply in_app_iff; right; now left). apply before_in in X. destruct X as (X & N).
  split; [exact X|]. split; [exact N|]. intros y Y M. assert (Z : In y (before n m)) by (now apply before_in). rewrite E in Z.
  apply in_app_iff in Z. destruct Z as [Z|[->|[]]]; [|lia]. apply (sorted_last _ _ _ K) in Z. lia.
Qed.

(** * Lines *)

Definition flat (p : point) : spot := (north p, east p).

Lemma gap_dist p q : gap p q = dist (flat p) (flat q).
Proof. unfold gap, dist, flat. cbn. f_equal. ring. Qed.

Lemma dist_straight p q : dist p q = straight p q.
Proof. unfold dist, straight. f_equal. ring. Qed.

Lemma dist_pos p q : 0 <= dist p q.
Proof. apply sqrt_pos. Qed.

Lemma dist_tri p q r : dist p r <= dist p q + dist q r.
Proof. rewrite !dist_straight. apply straight_triangle. Qed.

Lemma dist_zero p q : dist p q = 0 <-> p = q.
Proof. rewrite dist_straight. apply straight_zero. Qed.

Lemma dist_sym p q : dist p q = dist q p.
Proof. rewrite !dist_straight. apply straight_sym. Qed.

Lemma dist_refl p : dist p p = 0.
Proof. now apply dist_zero. Qed.

Lemma sqrt_scale k x : 0 <= x -> sqrt (k ^ 2 * x) = Rabs k * sqrt x.
Proof. intros H. rewrite sqrt_mult; [|apply pow2_ge_0|exact H]. f_equal. rewrite <- sqrt_Rsqr_abs. f_equal. unfold Rsqr. ring. Qed.

Lemma dist_mix_t a b t u : dist (mix a b t) (mix a b u) = Rabs (t - u) * dist a b.
Proof.
  unfold dist, mix. cbn. rewrite <- sqrt_scale by (apply Rplus_le_le_0_compat; apply pow2_ge_0). f_equal. ring.
Qed.

Lemma dist_mix_end a b c t : dist (mix a b t) (mix a c t) = Rabs t * dist b c.
Proof.
  unfold dist, mix. cbn. rewrite <- sqrt_scale by (apply Rplus_le_le_0_compat; apply pow2_ge_0). f_equal. ring.
Qed.

Lemma mix_0 a b : mix a b 0 = a.
Proof. destruct a. unfold mix. cbn. f_equal; ring. Qed.
Lemma mix_1 a b : mix a b 1 = b.
Proof. destruct a, b. unfold mix. cbn. f_equal; ring. Qed.

Lemma len_cons a b r : len (a :: b :: r) = dist a b + len (b :: r).
Proof. reflexivity. Qed.

Lemma len_pos l : 0 <= len l.
Proof.
  induction l as [|a [|b r] IH]; [cbn; lra|cbn; lra|]. rewrite len_cons. pose proof (dist_pos a b). lra.
Qed.

Lemma len_app u a v : len (u ++ a :: v) = len (u ++ [a]) + len (a :: v).
Proof.
  induction u as [|x u IH]; [cbn; lra|]. destruct u as [|y u].
  - cbn [app]. rewrite !len_cons. cbn. lra.
  - cbn [app] in *. rewrite !len_cons. lra.
Qed.

Lemma len_chord a l b : dist a b <= len (a :: l ++ [b]).
Proof.
  revert a. induction l as [|x l IH]; intros a.
  - cbn. lra.
  - cbn [app]. rewrite len_cons. pose proof (dist_tri a x b). specialize (IH x). lra.
Qed.

Lemma along_in u a b v t : 0 <= t <= 1 -> along (u ++ a :: b :: v) (len (u ++ [a]) + t * dist a b) (mix a b t).
Proof.
  intros T. induction u as [|x u IH].
  - cbn [app]. replace (len [a] + _) with (t * dist a b) by (cbn; ring). now constructor.
  - destruct u as [|y u].
    + cbn [app] in *. rewrite len_cons. replace (dist x a + len [a] + t * dist a b) with (dist x a + (len [a] + t * dist a b)) by ring.
      now constructor.
    + cbn [app] in *. rewrite len_cons.
      replace (dist x y + len (y :: u ++ [a]) + t * dist a b) with (dist x y + (len (y :: u ++ [a]) + t * dist a b)) by ring.
      now constructor.
Qed.

Lemma along_at u a v : along (u ++ a :: v) (len (u ++ [a])) a.
Proof.
  destruct v as [|b v].
  - induction u as [|x u IH]; [constructor|]. destruct u as [|y u].
    + cbn [app] in *. rewrite len_cons. now constructor.
    + cbn [app] in *. rewrite len_cons. now constructor.
  - pose proof (along_in u a b v 0) as H. rewrite mix_0 in H. replace (len (u ++ [a])) with (len (u ++ [a]) + 0 * dist a b) by ring. apply H. lra.
Qed.

(** * Measuring *)

Definition spots (l : list (Z * point)) : list spot := map (fun x => flat (snd x)) l.
Definition there (d : datum) : spot := flat (place d).

Lemma measure_shape l : forall last x ds t, measure last x l = (ds, t) -> map (fun d => (number d, place d)) ds = l.
Proof.
  induction l as [|(i, p) l IH]; intros last x ds t H; cbn in H.
  - injection H as <- <-. reflexivity.
  - destruct (measure _ _ l) as (ds', t') eqn:E. injection H as <- <-. cbn. f_equal. now apply IH in E.
Qed.

Lemma measure_there l last x ds t : measure last x l = (ds, t) -> spots l = map there ds.
Proof. intros H. apply measure_shape in H. subst l. unfold spots. rewrite map_map. reflexivity. Qed.

Lemma measure_more l : forall q x ds t, measure (Some q) x l = (ds, t) ->
  t = x + len (flat q :: spots l) /\
  forall u d v, ds = u ++ d :: v -> cumulative d = x + len (flat q :: map there (u ++ [d])).
Proof.
  induction l as [|(i, p) l IH]; intros q x ds t H; cbn in H.
  - injection H as <- <-. split; [cbn; lra|]. intros u d v E; destruct u; discriminate.
  - destruct (measure _ _ l) as (ds', t') eqn:E. injection H as <- <-. apply IH in E. destruct E as (T & C).
    unfold spots. cbn [map snd]. fold (spots l). rewrite len_cons, <- gap_dist. split; [lra|].
    intros u d v E. destruct u as [|y u].
    + cbn in E. injection E as <- <-. cbn [app map cumulative]. rewrite len_cons. unfold there. cbn [place]. rewrite <- gap_dist. cbn. lra.
    + cbn in E. injection E as <- ->. cbn [app map]. rewrite len_cons. unfold there at 1 2. cbn [place]. rewrite <- gap_dist.
      rewrite (C u d v eq_refl). lra.
Qed.

Lemma measure_len l ds t : measure None 0 l = (ds, t) ->
  t = len (spots l) /\ forall u d v, ds = u ++ d :: v -> cumulative d = len (map there (u ++ [d])).
Proof.
  destruct l as [|(i, p) l]; intros H; cbn in H.
  - injection H as <- <-. split; [reflexivity|]. intros u d v E; destruct u; discriminate.
  - destruct (measure _ _ l) as (ds', t') eqn:E. injection H as <- <-. apply measure_more in E. destruct E as (T & C).
    split; [unfold spots; cbn [map snd]; fold (spots l); lra|]. intros u d v E. destruct u as [|y u].
    + cbn in E. injection E as <- <-. reflexivity.
    + cbn in E. injection E as <- ->. cbn [app map]. rewrite (C u d v eq_refl). unfold there at 2. cbn [place]. lra.
Qed.

(** * Thousandths *)

Lemma trunc_bounds x : 0 <= x -> IZR (trunc x) <= x < IZR (trunc x) + 1.
Proof.
  intros H. unfold trunc. destruct (Rlt_dec x 0); [lra|]. pose proof (base_Int_part x). lra.
Qed.

Lemma trunc_le x y : 0 <= x <= y -> (trunc x <= trunc y)%Z.
Proof.
  intros H. pose proof (trunc_bounds x). pose proof (trunc_bounds y). apply Z.lt_succ_r. apply lt_IZR. rewrite succ_IZR. lra.
Qed.

Lemma trunc_IZR z : (0 <= z)%Z -> trunc (IZR z) = z.
Proof.
  intros H. apply IZR_le in H. pose proof (trunc_bounds (IZR z) H) as (A & B). rewrite <- plus_IZR in B.
  apply le_IZR in A. apply lt_IZR in B. lia.
Qed.

Lemma trunc_unique x z : 0 <= x -> IZR z <= x < IZR z + 1 -> trunc x = z.
Proof.
  intros H (A & B). pose proof (trunc_bounds x H) as (C & D).
  assert (E : IZR z < IZR (trunc x + 1)) by (rewrite plus_IZR; lra). assert (F : IZR (trunc x) < IZR (z + 1)) by (rewrite plus_IZR; lra).
  apply lt_IZR in E, F. lia.
Qed.

(** * The road *)

Section Road.
  Context (roads : list (Z * point)) (ds : list datum) (L : R) (M : measure None 0 roads = (ds, L)) (Pos : 0 < len (spots roads)).

  Lemma total : L = len (spots roads).
  Proof. apply (measure_len _ _ _ M). Qed.

  Lemma cum u d v : ds = u ++ d :: v -> cumulative d = len (map there (u ++ [d])).
  Proof. apply (measure_len _ _ _ M). Qed.

  Lemma line : spots roads = map there ds.
  Proof. apply (measure_there _ _ _ _ _ M). Qed.

  Lemma cum_bounds d : In d ds -> 0 <= cumulative d <= L.
  Proof.
    intros I. apply in_split in I. destruct I as (u & v & E). rewrite (cum _ _ _ E), total, line, E.
    split; [apply len_pos|]. rewrite !map_app. cbn [map]. rewrite (len_app (map there u) (there d) (map there v)). pose proof (len_pos (there d :: map there v)). lra.
  Qed.

  Lemma cum_step u c w d v : ds = u ++ c :: w ++ d :: v -> cumulative d = cumulative c + len (map there (c :: w ++ [d])).
  Proof.
    intros E. rewrite (cum _ _ _ E). rewrite (cum (u ++ c :: w) d v) by (rewrite E, <- app_assoc; reflexivity).
    rewrite <- app_assoc. cbn [app]. rewrite !map_app. cbn [map]. rewrite len_app. rewrite map_app. reflexivity.
  Qed.

  Notation part d := (cumulative d / L * 1000).

  Lemma L_pos : 0 < L.
  Proof. rewrite total. exact Pos. Qed.

  Lemma part_pos d : In d ds -> 0 <= part d.
  Proof.
    intros I. destruct (cum_bounds _ I) as (A & _). pose proof L_pos.
    apply Rmult_le_pos; [|lra]. apply Rmult_le_pos; [exact A|]. left. now apply Rinv_0_lt_compat.
  Qed.

  Lemma norm_trunc d : norm L d = trunc (part d).
  Proof. unfold norm. destruct (Rlt_dec 0 L); [reflexivity|]. pose proof L_pos. lra. Qed.

  Lemma norm_bounds d : In d ds -> IZR (norm L d) <= part d < IZR (norm L d) + 1.
  Proof. intros I. rewrite norm_trunc. apply trunc_bounds. now apply part_pos. Qed.

  Lemma part_le c d : cumulative c <= cumulative d -> part c <= part d.
  Proof.
    intros H. pose proof L_pos as P. apply Rmult_le_compat_r; [lra|]. apply Rmult_le_compat_r; [|exact H]. left. now apply Rinv_0_lt_compat.
  Qed.

  Lemma norm_mono u c w d v : ds = u ++ c :: w ++ d :: v -> (norm L c <= norm L d)%Z.
  Proof.
    intros E. rewrite !norm_trunc. apply trunc_le. split.
    - apply part_pos. rewrite E. apply in_app_iff. right. now left.
    - apply part_le. rewrite (cum_step _ _ _ _ _ E). pose proof (len_pos (map there (c :: w ++ [d]))). lra.
  Qed.

  Lemma norm_last u d : ds = u ++ [d] -> norm L d = 1000%Z.
  Proof.
    intros E. rewrite norm_trunc. assert (C : cumulative d = L) by (rewrite (cum u d []) by exact E; rewrite <- E, <- line; now rewrite total).
    rewrite C. replace (L / L * 1000) with (IZR 1000) by (field; pose proof L_pos; lra). apply trunc_IZR. lia.
  Qed.

  Lemma norm_first d v : ds = d :: v -> norm L d = 0%Z.
  Proof.
    intros E. rewrite norm_trunc, (cum [] d v) by exact E. replace (len _ / L * 1000) with (IZR 0) by (cbn; unfold Rdiv; ring).
    apply trunc_IZR. lia.
  Qed.

  Let m := fold_left (fun m d => insert (norm L d) d m) ds [].

  Lemma entry k d : In (k, d) m <-> norm L d = k /\ exists u v, ds = u ++ d :: v /\ forall x, In x v -> norm L x <> k.
  Proof. apply (fill_spec (norm L) ds). Qed.

  Lemma m_keyed : keyed m.
  Proof. apply (fill_spec (norm L) ds). Qed.

  (** Each factor that occurs has an entry. *)
  Lemma entry_of d : In d ds -> exists x, In (norm L d, x) m.
  Proof.
    intros I. cut (forall l, In d l -> exists u x v, l = u ++ x :: v /\ norm L x = norm L d /\ forall y, In y v -> norm L y <> norm L d).
    { intros H. destruct (H _ I) as (u & x & v & E & N & V). exists x. apply entry. split; [exact N|]. exists u, v. now split. }
    clear. intros l. induction l as [|z l IH] using rev_ind; intros I; [destruct I|].
    destruct (Z.eq_dec (norm L z) (norm L d)) as [E|E].
    - exists l, z, []. split; [reflexivity|]. split; [exact E|]. intros ? [].
    - apply in_app_iff in I. destruct I as [I|[->|[]]]; [|congruence]. destruct (IH I) as (u & x & v & -> & N & V).
      exists u, x, (v ++ [z]). split; [now rewrite <- app_assoc|]. split; [exact N|]. intros y Y. apply in_app_iff in Y.
      destruct Y as [Y|[<-|[]]]; [now apply V|exact E].
  Qed.

  (** What is found for [n] thousandths. *)
  Definition good (n : Z) (y : spot) : Prop := exists s p, along (spots roads) s p /\ IZR n <= s / L * 1000 < IZR n + 1 /\
    dist y p <= 2 / 1000 * L /\ (n = 0%Z \/ spaced (L / 1000) (spots roads) -> y = p).

  Lemma spaced_split u a b v x : spaced x (u ++ a :: b :: v) -> x <= dist a b.
  Proof.
    induction u as [|c u IH]; [intros H; apply H|]. intros H. apply IH. destruct u; apply H.
  Qed.

  Lemma good_at u d v n : ds = u ++ d :: v -> norm L d = n -> good n (there d).
  Proof.
    intros E N. exists (cumulative d), (there d). split; [|split; [|split; [|reflexivity]]].
    - rewrite line, E, (cum _ _ _ E), !map_app. cbn [map]. apply along_at.
    - rewrite <- N. apply norm_bounds. rewrite E. apply in_app_iff. right. now left.
    - rewrite dist_refl. pose proof L_pos. lra.
  Qed.

  Lemma good_between n k d j c : (0 <= n <= 1000)%Z -> In (k, d) m -> In (j, c) m -> (j < n <= k)%Z ->
    (forall y, In y m -> (n <= fst y)%Z -> (k <= fst y)%Z) -> (forall y, In y m -> (fst y < n)%Z -> (fst y <= j)%Z) ->
    good n (mix (there c) (there d) (IZR (n - j) / IZR (k - j))).
  Proof.
    intros B Id Ic Jn Least Most. destruct (proj1 (entry _ _) Id) as (Nd & u2 & v2 & E2 & V2).
    destruct (proj1 (entry _ _) Ic) as (Nc & u1 & v1 & E1 & V1).
    assert (exists w, ds = u1 ++ c :: w ++ d :: v2 /\ v1 = w ++ d :: v2) as (w & E & Ev).
    { rewrite E1 in E2. apply app_eq_app in E2. destruct E2 as (l & [(X & Y)|(X & Y)]).
      - exfalso. destruct l as [|z l].
        + cbn in Y. injection Y as <- _. lia.
        + cbn in Y. injection Y as <- Y. assert (Q : ds = u2 ++ d :: l ++ c :: v1).
          { rewrite E1, X, <- app_assoc. reflexivity. }
          apply norm_mono in Q. lia.
      - destruct l as [|z l].
        + cbn in Y. injection Y as <- _. lia.
        + cbn in Y. injection Y as <- Y. exists l. split; [|exact Y]. rewrite E1, Y. reflexivity. }
    assert (W : forall x, In x w -> norm L x = k).
    { intros x X. apply in_split in X. destruct X as (w1 & w2 & ->).
      assert (Q1 : ds = u1 ++ c :: w1 ++ x :: (w2 ++ d :: v2)) by (rewrite E, <- app_assoc; reflexivity).
      assert (Q2 : ds = (u1 ++ c :: w1) ++ x :: w2 ++ d :: v2) by (rewrite Q1, <- app_assoc; reflexivity).
      pose proof (norm_mono _ _ _ _ _ Q1) as A1. pose proof (norm_mono _ _ _ _ _ Q2) as A2.
      assert (A3 : norm L x <> j) by (apply V1; rewrite Ev, <- app_assoc; apply in_app_iff; right; now left).
      destruct (entry_of x) as (x' & Ix). { rewrite Q1. apply in_app_iff. right. right. apply in_app_iff. right. now left. }
      destruct (Z.lt_ge_cases (norm L x) n) as [Lt|Ge].
      - pose proof (Most _ Ix Lt). cbn in *. lia.
      - pose proof (Least _ Ix Ge). cbn in *. lia. }
    assert (Hd : In d ds) by (rewrite E; apply in_app_iff; right; right; apply in_app_iff; right; now left).
    assert (Hc : In c ds) by (rewrite E; apply in_app_iff; right; now left).
    pose proof (norm_bounds _ Hd) as Bd. pose proof (norm_bounds _ Hc) as Bc. rewrite Nd in Bd. rewrite Nc in Bc. pose proof L_pos as LP.
    assert (J0 : (-1 < j)%Z) by (apply lt_IZR; pose proof (part_pos _ Hc); lra).
    set (t := IZR (n - j) / IZR (k - j)).
    assert (Kj : 0 < IZR (k - j)) by (apply IZR_lt; lia).
    assert (Tk : t * (IZR k - IZR j) = IZR n - IZR j) by (unfold t; rewrite !minus_IZR; field; rewrite minus_IZR in Kj; lra).
    assert (T0 : 0 < t). { unfold t. apply Rmult_lt_0_compat; [apply IZR_lt; lia|now apply Rinv_0_lt_compat]. }
    assert (T1 : t <= 1). { unfold t. apply (Rmult_le_reg_r (IZR (k - j))); [exact Kj|]. unfold Rdiv. rewrite Rmult_assoc, Rinv_l, Rmult_1_r, Rmult_1_l by lra. apply IZR_le. lia. }
    set (s := cumulative c + t * (cumulative d - cumulative c)).
    assert (Sn : IZR n <= s / L * 1000 < IZR n + 1).
    { replace (s / L * 1000) with ((1 - t) * part c + t * part d) by (unfold s; field; lra).
      split.
      - replace (IZR n) with ((1 - t) * IZR j + t * IZR k) by lra.
        apply Rplus_le_compat; apply Rmult_le_compat_l; lra.
      - replace (IZR n + 1) with ((1 - t) * (IZR j + 1) + t * (IZR k + 1)) by lra.
        apply Rplus_le_lt_compat; [apply Rmult_le_compat_l; lra|apply Rmult_lt_compat_l; lra]. }
    assert (Line : spots roads = map there u1 ++ there c :: map there w ++ there d :: map there v2).
    { rewrite line, E, map_app. cbn [map]. rewrite map_app. reflexivity. }
    destruct w as [|b w].
    - exists s, (mix (there c) (there d) t). split; [|split; [exact Sn|split; [rewrite dist_refl; lra|reflexivity]]].
      rewrite Line. cbn [map app]. replace s with (len (map there u1 ++ [there c]) + t * dist (there c) (there d)); [apply along_in; lra|].
      unfold s. rewrite (cum_step _ _ _ _ _ E) at 1. rewrite (cum _ _ _ E), map_app. cbn [map app len]. ring.
    - assert (Nb : norm L b = k) by (apply W; now left).
      assert (Hb : In b ds) by (rewrite E; apply in_app_iff; right; right; now left).
      pose proof (norm_bounds _ Hb) as Bb. rewrite Nb in Bb.
      assert (Ecb : ds = u1 ++ c :: [] ++ b :: (w ++ d :: v2)) by exact E.
      assert (Ebd : ds = (u1 ++ [c]) ++ b :: w ++ d :: v2) by (rewrite E, <- app_assoc; reflexivity).
      pose proof (cum_step _ _ _ _ _ Ecb) as Ccb. pose proof (cum_step _ _ _ _ _ Ebd) as Cbd.
      cbn [map app len] in Ccb. rewrite Rplus_0_r in Ccb.
      assert (Far : dist (there b) (there d) <= cumulative d - cumulative b).
      { rewrite Cbd. cbn [map]. rewrite map_app. cbn [map]. pose proof (len_chord (there b) (map there w) (there d)). lra. }
      assert (Not : ~ spaced (L / 1000) (spots roads)).
      { intros Sp. rewrite Line in Sp.
        assert (exists b' w', map there (b :: w) ++ there d :: map there v2 = map there w' ++ there b' :: there d :: map there v2 /\
                  exists w0 : list datum, ds = (u1 ++ c :: w') ++ b' :: [] ++ d :: v2 /\ norm L b' = k) as (b' & w' & Eq & _ & Eb & Nb').
        { destruct (exists_last (l := b :: w)) as (w' & b' & El); [discriminate|]. exists b', w'. split.
          - rewrite El, map_app, <- app_assoc. reflexivity.
          - exists []. split; [rewrite E, El, <- !app_assoc; reflexivity|]. apply W. rewrite El. apply in_app_iff. right. now left. }
        rewrite Eq in Sp. change (map there u1 ++ there c :: map there w' ++ there b' :: there d :: map there v2)
          with (map there u1 ++ (there c :: map there w') ++ there b' :: there d :: map there v2) in Sp.
        rewrite app_assoc in Sp. apply spaced_split in Sp.
        pose proof (cum_step _ _ _ _ _ Eb) as C. cbn [map app len] in C.
        assert (Hb' : In b' ds) by (rewrite Eb; apply in_app_iff; right; now left).
        pose proof (norm_bounds _ Hb') as Bb'. rewrite Nb' in Bb'.
        assert (X : part d = part b' + dist (there b') (there d) / L * 1000) by (rewrite C; field; lra).
        assert (Y : 1 <= dist (there b') (there d) / L * 1000).
        { replace 1 with (L / 1000 / L * 1000) by (field; lra). apply Rmult_le_compat_r; [lra|].
          apply Rmult_le_compat_r; [left; now apply Rinv_0_lt_compat|exact Sp]. }
        lra. }
      destruct (Z.eq_dec n k) as [->|Nk].
      + assert (t = 1) as ->. { apply (Rmult_eq_reg_r (IZR k - IZR j)); [lra|]. rewrite <- minus_IZR. lra. }
        rewrite mix_1. destruct (good_at (u1 ++ c :: b :: w) d v2 k) as (s' & p & G); [rewrite E, <- app_assoc; reflexivity|exact Nd|].
        exists s', p. exact G.
      + assert (Nk' : IZR n + 1 <= IZR k) by (rewrite <- plus_IZR; apply IZR_le; lia).
        assert (Sb : s < cumulative b).
        { apply (Rmult_lt_reg_r (/ L)); [now apply Rinv_0_lt_compat|]. apply (Rmult_lt_reg_r 1000); [lra|]. fold (s / L) (cumulative b / L). lra. }
        assert (Dcb : 0 < dist (there c) (there b)).
        { assert (s >= cumulative c).
          { unfold s. assert (0 <= cumulative d - cumulative c).
            { rewrite (cum_step _ _ _ _ _ E). pose proof (len_pos (map there (c :: (b :: w) ++ [d]))). lra. }
            pose proof (Rmult_le_pos _ _ (Rlt_le _ _ T0) H). lra. }
          lra. }
        set (D := dist (there c) (there b)) in *.
        set (tau := (s - cumulative c) / D).
        assert (TD : tau * D = s - cumulative c) by (unfold tau; field; lra).
        assert (dc : 0 <= cumulative d - cumulative b) by (pose proof (dist_pos (there b) (there d)); lra).
        assert (SD : s - cumulative c = t * (D + (cumulative d - cumulative b)))
          by (unfold s; replace (D + (cumulative d - cumulative b)) with (cumulative d - cumulative c) by lra; ring).
        assert (Tt : t <= tau).
        { apply (Rmult_le_reg_r D); [exact Dcb|]. rewrite TD, SD. pose proof (Rmult_le_pos _ _ (Rlt_le _ _ T0) dc). lra. }
        assert (Tau1 : tau <= 1). { apply (Rmult_le_reg_r D); [exact Dcb|]. rewrite TD. lra. }
        exists s, (mix (there c) (there b) tau). split; [|split; [exact Sn|split; [|intros [N0|Sp]; [exfalso; lia|contradiction]]]].
        * rewrite Line. cbn [map app]. replace s with (len (map there u1 ++ [there c]) + tau * dist (there c) (there b)); [apply along_in; lra|].
          fold D. rewrite TD. rewrite (cum _ _ _ E), map_app. cbn [map app]. ring.
        * pose proof (dist_tri (mix (there c) (there d) t) (mix (there c) (there b) t) (mix (there c) (there b) tau)) as Tri.
          rewrite dist_mix_end, dist_mix_t in Tri. fold D in Tri. rewrite (Rabs_pos_eq t), (Rabs_left1 (t - tau)) in Tri by lra.
          replace (- (t - tau) * D) with (t * (cumulative d - cumulative b)) in Tri by (replace (- (t - tau) * D) with (tau * D - t * D) by ring; rewrite TD, SD; ring).
          rewrite (dist_sym (there d) (there b)) in Tri.
          assert (A1 : t * dist (there b) (there d) <= 1 * (cumulative d - cumulative b)) by (apply Rmult_le_compat; try lra; apply dist_pos).
          assert (A2 : t * (cumulative d - cumulative b) <= 1 * (cumulative d - cumulative b)) by (apply Rmult_le_compat; lra).
          assert (A3 : cumulative d - cumulative b <= 1 / 1000 * L).
          { apply (Rmult_le_reg_r (/ L)); [now apply Rinv_0_lt_compat|]. apply (Rmult_le_reg_r 1000); [lra|].
            replace ((cumulative d - cumulative b) * / L * 1000) with (part d - part b) by (field; lra).
            replace (1 / 1000 * L * / L * 1000) with 1 by (field; lra). lra. }
          lra.
  Qed.

  (** The point looked at. *)
  Lemma look_good W Wl n e : (0 <= n <= 1000)%Z -> exists y alt,
    look {| waypoints := W; road := m; way_length := Wl; road_length := L |} n e =
      Stare (fst (m_ll_deg (fst y) (snd y) e)) (snd (m_ll_deg (fst y) (snd y) e)) alt /\ good n y.
  Proof.
    intros B. unfold look. cbn [road].
    assert (Ne : ds <> []). { intros Z. pose proof Pos as P. rewrite line, Z in P. cbn in P. lra. }
    assert (Hd : exists z v, ds = z :: v) by (clear - Ne; destruct ds as [|z v]; [congruence|now exists z, v]).
    destruct (from n m) as [|(k, d) r] eqn:F.
    - exfalso. destruct (exists_last Ne) as (u & z & E). destruct (entry_of z) as (x & I); [rewrite E; apply in_app_iff; right; now left|].
      rewrite (norm_last u z E) in I. assert (X : In (1000%Z, x) (from n m)) by (apply from_in; split; [exact I|cbn; lia]). rewrite F in X. destruct X.
    - destruct (from_head _ _ _ _ m_keyed F) as (Id & Nk & Least). cbn [fst] in Nk, Least.
      destruct (back (before n m)) as [(j, c)|] eqn:Bk.
      + destruct (before_back _ _ _ m_keyed Bk) as (Ic & Nj & Most). cbn [fst] in Nj, Most.
        pose proof (good_between n k d j c B Id Ic (conj Nj Nk) Least Most) as G.
        exists (mix (there c) (there d) (IZR (n - j) / IZR (k - j))), (Some (altitude (place d))). split; [|exact G].
        destruct (Rlt_dec 0 (IZR (k - j))) as [P|P]; [|exfalso; apply P; apply IZR_lt; lia].
        unfold mix, there, flat. cbn [fst snd].
        rewrite (Rplus_comm (north (place c))), (Rplus_comm (east (place c))).
        rewrite (Rmult_comm _ (north (place d) - north (place c))), (Rmult_comm _ (east (place d) - east (place c))).
        destruct (m_ll_deg _ _ e). reflexivity.
      + apply back_none in Bk. assert (N0 : n = 0%Z).
        { destruct Hd as (z & v & E). destruct (entry_of z) as (x & I); [rewrite E; now left|].
          rewrite (norm_first z v E) in I. destruct (Z.eq_dec n 0); [assumption|]. exfalso.
          assert (X : In (0%Z, x) (before n m)) by (apply before_in; split; [exact I|cbn; lia]). rewrite Bk in X. destruct X. }
        subst n. exists (there d), None. split; [unfold there, flat; cbn [fst snd]; destruct (m_ll_deg _ _ e); reflexivity|].
        assert (K0 : k = 0%Z).
        { destruct Hd as (z & v & E). destruct (entry_of z) as (x & I); [rewrite E; now left|].
          rewrite (norm_first z v E) in I. specialize (Least _ I). cbn in Least. lia. }
        subst k. destruct (proj1 (entry _ _) Id) as (Nd & u & v & E & _). now apply (good_at u d v).
  Qed.
End Road.

(** C82: where an escort goes. *)
From Coq Require Import Reals Lra Lia List ZArith Permutation.
From Verif Require Import ZMap Latest PiBounds FlatEarthModel FlatEarthProps RouteExtModel RouteExtGeom BlockadeGeom EscortModel EscortSpec EscortGeom.
Import ListNotations.
Open Scope R_scope.

(** ** Least distances *)
Section Least.
  Context {A : Type} (d : A -> R) (want : A -> bool) (d_pos : forall x, 0 <= d x).
  Lemma least_spec xs : (least d want xs = (-1, None) /\ forall x, In x xs -> want x = false)
    \/ exists x, least d want xs = (d x, Some x) /\ In x xs /\ want x = true /\ forall y, In y xs -> want y = true -> d x <= d y.
  Proof.
    unfold least. induction xs as [|x xs IH] using rev_ind; [left; split; [reflexivity|intros ? []]|]. rewrite fold_left_app. cbn [fold_left]. destruct IH as [(E & N)|(y & E & I & W & M)]; rewrite E; cbn [fst].
    - destruct (Rlt_dec (-1) 0); [|lra]. destruct (want x) eqn:WX.
      + right. exists x. split; [reflexivity|]. split; [apply in_or_app; right; left; reflexivity|]. split; [exact WX|]. intros y Y WY. apply in_app_or in Y. destruct Y as [Y|[<-|[]]]; [rewrite (N y Y) in WY; discriminate|lra].
      + left. split; [reflexivity|]. intros y Y. apply in_app_or in Y. destruct Y as [Y|[<-|[]]]; auto.
    - right. pose proof (d_pos y). destruct (Rlt_dec (d y) 0); [lra|]. destruct (Rlt_dec (d x) (d y)) as [L|L]; [destruct (want x) eqn:WX|].
      + exists x. split; [reflexivity|]. split; [apply in_or_app; right; left; reflexivity|]. split; [exact WX|]. intros z Z WZ. apply in_app_or in Z. destruct Z as [Z|[<-|[]]]; [specialize (M z Z WZ)|]; lra.
      + exists y. split; [reflexivity|]. split; [apply in_or_app; left; exact I|]. split; [exact W|]. intros z Z WZ. apply in_app_or in Z. destruct Z as [Z|[<-|[]]]; [exact (M z Z WZ)|congruence].
      + exists y. split; [reflexivity|]. split; [apply in_or_app; left; exact I|]. split; [exact W|]. intros z Z WZ. apply in_app_or in Z. destruct Z as [Z|[<-|[]]]; [exact (M z Z WZ)|lra].
  Qed.
End Least.

Lemma legs_leg i ps x : In x (legs i ps) <-> exists j, leg ps j (fst (snd x)) (snd (snd x)) /\ fst x = (i + j)%nat.
Proof.
  revert i. induction ps as [|p ps IH]; intros i.
  - cbn. split; [intros []|intros (j & (H & _) & _); destruct j; discriminate H].
  - destruct ps as [|q ps].
    + cbn. split; [intros []|intros (j & (_ & H) & _); destruct j; discriminate H].
    + change (legs i (p :: q :: ps)) with ((i, (p, q)) :: legs (S i) (q :: ps)). cbn [In]. rewrite IH. split.
      * intros [<-|(j & (L1 & L2) & E)]; [exists 0%nat; split; [split; reflexivity|cbn; lia]|]. exists (S j). split; [split; [exact L1|exact L2]|lia].
      * intros ([|j] & (L1 & L2) & E); [left|right].
        -- cbn in L1, L2. destruct x as (n, (a, b)). cbn [fst snd] in *. injection L1 as ->. injection L2 as ->. f_equal. lia.
        -- exists j. split; [split; [exact L1|exact L2]|lia].
Qed.
Lemma leg_dist_gap t x : leg_dist t x = gap t (closest_point (fst (snd x)) (snd (snd x)) t).
Proof. unfold leg_dist, dist_to_closest. apply len_gap. Qed.
Lemma leg_dist_pos t x : 0 <= leg_dist t x.
Proof. rewrite leg_dist_gap. apply gap_pos. Qed.
Lemma below_true x y : below x y = true <-> x < y.
Proof. unfold below. destruct (Rlt_dec x y); split; auto; try discriminate; contradiction. Qed.
Lemma below_false x y : below x y = false <-> y <= x.
Proof. unfold below. destruct (Rlt_dec x y); split; auto; try discriminate; lra. Qed.

(** ** Onto the path *)
Definition wanted (h sp : R) (x : nat * (pt * pt)) : bool := (below (Rabs (heading_delta h (fst (snd x)) (snd (snd x)))) 90 || below (Rabs sp) 1)%bool.
Lemma wanted_spec h sp i a b : -180 <= h < 360 -> (wanted h sp (i, (a, b)) = true -> Rabs sp < 1 \/ ~ against h a b) /\ (wanted h sp (i, (a, b)) = false -> 1 <= Rabs sp /\ ~ along h a b).
Proof.
  intros H. unfold wanted. cbn [fst snd]. destruct (delta_spec h a b H) as (D1 & D2). split; intros W.
  - apply Bool.orb_true_iff in W. destruct W as [W|W]; apply below_true in W; auto.
  - apply Bool.orb_false_iff in W. destruct W as (W1 & W2). apply below_false in W1. apply below_false in W2. split; [exact W2|]. apply D2. lra.
Qed.
Lemma project_enters t h sp ps : -180 <= h < 360 -> let '(p, i, j) := project t h sp ps in
  exists start, enters t h sp ps p start /\ i = match start with None => 0%nat | Some i => i end /\ j = match start with None => 0%nat | Some i => S i end.
Proof.
  intros H. unfold project. change (fun x : nat * (pt * pt) => _) with (wanted h sp). destruct (least_spec (leg_dist t) (wanted h sp) (leg_dist_pos t) (legs 0 ps)) as [(E & N)|((i & (a & b)) & E & I & W & M)]; rewrite E; cbn [snd].
  - exists None. split; [|split; reflexivity]. split; [reflexivity|]. intros i a b L. apply (wanted_spec h sp i a b H). apply N. apply legs_leg. exists i. split; [exact L|reflexivity].
  - apply legs_leg in I. destruct I as (j & L & EJ). cbn [fst snd] in L, EJ. subst i. exists (Some j). split; [|split; reflexivity]. exists a, b. split; [exact L|]. split; [apply closest_nearest|].
    split; [apply (wanted_spec h sp (0 + j) a b H), W|]. intros j' a' b' q L' W' B'. rewrite leg_dist_gap in M.
    assert (I' : In (j', (a', b')) (legs 0 ps)) by (apply legs_leg; exists j'; split; [exact L'|reflexivity]).
    assert (W2 : wanted h sp (j', (a', b')) = true). { destruct (wanted h sp (j', (a', b'))) eqn:Q; [reflexivity|]. apply (wanted_spec h sp j' a' b' H) in Q. destruct W', Q; [lra|contradiction]. }
    specialize (M _ I' W2). rewrite leg_dist_gap in M. cbn [fst snd] in M. destruct (closest_nearest a' b' t) as (_ & C). specialize (C q B'). lra.
Qed.

(** ** Along the path *)
Lemma between_part p n k : 0 <= k <= 1 -> between p n (add (scale (sub p n) (1 - k)) n).
Proof. intros K. exists k. split; [exact K|]. unfold add, scale, sub. cbn [fst snd]. f_equal; ring. Qed.
Lemma walk_travel d : forall rest acc p n, acc - gap p n <= d -> exists q, travel (n :: rest) p (d - acc + gap p n) q /\ gap q (walk d acc p n rest) <= / 10 ^ 2.
Proof.
  assert (STOP : forall rest acc p n, acc - gap p n <= d <= acc -> exists q, travel (n :: rest) p (d - acc + gap p n) q
            /\ gap q (if Rlt_dec (/ 10 ^ 2) (len (sub p n)) then (if Rle_dec (acc - d) (len (sub p n) + 1) then add (scale (sub p n) ((acc - d) / len (sub p n))) n else n) else n) <= / 10 ^ 2).
  { intros rest acc p n H. rewrite len_gap, (gap_sym n p). set (g := gap p n) in *. assert (GP : 0 <= g) by apply gap_pos.
    destruct (Rlt_dec (/ 10 ^ 2) g) as [L|L].
    - destruct (Rle_dec (acc - d) (g + 1)) as [B|B]; [|lra]. set (k := (d - acc + g) / g). assert (KK : 0 <= k <= 1).
      { unfold k. split; [apply Rmult_le_pos; [lra|left; apply Rinv_0_lt_compat; lra]|]. apply Rmult_le_reg_r with g; [lra|]. replace ((d - acc + g) / g * g) with (d - acc + g) by (field; lra). lra. }
      assert (KE : (acc - d) / g = 1 - k) by (unfold k; field; lra). rewrite KE. exists (add (scale (sub p n) (1 - k)) n). split; [|rewrite gap_refl; lra].
      apply on_leg; [apply between_part, KK|]. destruct (between_part p n k KK) as (k' & _ & E'). clear E' k'.
      assert (E : add (scale (sub p n) (1 - k)) n = pnt p n k) by (unfold add, scale, sub, pnt; cbn [fst snd]; f_equal; ring). rewrite E. rewrite <- (pnt_0 p n) at 1. rewrite pnt_gap. fold g. rewrite Rabs_pos_eq by lra. unfold k. field. lra.
    - destruct (Req_dec g 0) as [G0|G0].
      + exists p. split; [|fold g; lra]. apply on_leg; [exists 0; split; [lra|]; destruct p; cbn [fst snd]; f_equal; ring|]. rewrite gap_refl. lra.
      + set (k := (d - acc + g) / g). assert (KK : 0 <= k <= 1).
        { unfold k. split; [apply Rmult_le_pos; [lra|left; apply Rinv_0_lt_compat; lra]|]. apply Rmult_le_reg_r with g; [lra|]. replace ((d - acc + g) / g * g) with (d - acc + g) by (field; lra). lra. }
        exists (pnt p n k). split.
        * apply on_leg; [exists k; split; [exact KK|reflexivity]|]. rewrite <- (pnt_0 p n) at 1. rewrite pnt_gap. fold g. rewrite Rabs_pos_eq by lra. unfold k. field. lra.
        * rewrite <- (pnt_1 p n) at 2. rewrite pnt_gap. fold g. rewrite Rabs_pos_eq by lra. assert ((1 - k) * g <= 1 * g) by (apply Rmult_le_compat_r; lra). lra. }
  assert (LAST : forall acc p n, acc < d -> travel [n] p (d - acc + gap p n) n).
  { intros acc p n H. apply beyond; [lra|]. apply at_end. }
  induction rest as [|m rest IH]; intros acc p n H; cbn [walk].
  - destruct (Rle_dec d acc) as [C|C].
    + apply STOP. lra.
    + exists n. split; [apply LAST; lra|rewrite gap_refl; lra].
  - destruct (Rlt_dec acc d) as [C|C].
    + change (dist n m) with (gap n m). pose proof (gap_pos n m). assert (Q : acc + gap n m - gap n m <= d) by lra. destruct (IH (acc + gap n m) n m Q) as (q & T & G). exists q. split; [|exact G].
      apply beyond; [lra|]. replace (d - acc + gap p n - gap p n) with (d - (acc + gap n m) + gap n m) by ring. exact T.
    + destruct (Rle_dec d acc) as [C'|C']; [apply STOP; lra|lra].
Qed.
Lemma walk_from_travel d p ps : 0 <= d -> exists q, travel ps p d q /\ gap q (walk_from d p ps) <= / 10 ^ 2.
Proof.
  intros D. destruct ps as [|n rest]; cbn [walk_from]; [exists p; split; [apply at_end|rewrite gap_refl; lra]|]. change (dist p n) with (gap p n).
  assert (H : gap p n - gap p n <= d) by lra. destruct (walk_travel d rest (gap p n) p n H) as (q & T & G). exists q. split; [|exact G]. replace d with (d - gap p n + gap p n) by ring. exact T.
Qed.
Lemma displaced_escorted d t h sp ps : -180 <= h < 360 -> d < - (1 / 100) \/ 0 < d -> escorted d t h sp ps (displaced d t h sp ps).
Proof.
  intros H D. unfold displaced. pose proof (project_enters t h sp ps H) as P. destruct (project t h sp ps) as ((p, i), j). destruct P as (start & E & -> & ->). destruct (Rle_dec (- (1 / 100)) d) as [L|L].
  - assert (D0 : 0 <= d) by lra. destruct (walk_from_travel d p (skipn match start with None => 0%nat | Some i => S i end ps) D0) as (q & T & G). exists p, start, q. split; [exact E|]. split; [exact G|]. split; [|lra].
    intros _. destruct start; exact T.
  - assert (D0 : 0 <= Rabs d) by apply Rabs_pos. destruct (walk_from_travel (Rabs d) p (rev (firstn (S match start with None => 0%nat | Some i => i end) ps)) D0) as (q & T & G). exists p, start, q.
    split; [exact E|]. split; [exact G|]. split; [lra|]. intros _. rewrite Rabs_left in T by lra. destruct start; exact T.
Qed.

(** ** Headings *)
Lemma int_part x : IZR (Int_part x) <= x < IZR (Int_part x) + 1.
Proof. destruct (base_Int_part x). lra. Qed.
Lemma wrap_spec h : exists k : Z, h = wrap h + 360 * IZR k /\ 0 <= wrap h < 360.
Proof.
  unfold wrap, fmod. cbv zeta. destruct (Rle_dec 0 (h / 360)) as [L|L].
  - pose proof (int_part (h / 360)) as I. set (n := Int_part (h / 360)) in *. destruct (Rlt_dec (h - IZR n * 360) 0) as [N|N]; [lra|]. exists n. lra.
  - pose proof (int_part (- (h / 360))) as I. set (n := Int_part (- (h / 360))) in *. destruct (Rlt_dec (h - - IZR n * 360) 0) as [N|N].
    + exists (- n - 1)%Z. rewrite minus_IZR, opp_IZR. lra.
    + exists (- n)%Z. rewrite opp_IZR. lra.
Qed.
Lemma progress_wrap h a b : progress (wrap h) a b = progress h a b.
Proof.
  destruct (wrap_spec h) as (k & E & _). unfold progress. assert (X : h * PI / 180 = wrap h * PI / 180 + 2 * IZR k * PI) by (rewrite E at 1; field).
  rewrite X. destruct (cos_turns (wrap h * PI / 180) k) as (-> & ->). reflexivity.
Qed.
Lemma escorted_wrap d t h sp ps q : escorted d t (wrap h) sp ps q -> escorted d t h sp ps q.
Proof.
  intros (p & start & q0 & E & G & T). exists p, start, q0. split; [|split; [exact G|exact T]]. unfold enters, along, against in *. destruct start as [i|].
  - destruct E as (a & b & L & N & A & M). exists a, b. split; [exact L|]. split; [exact N|]. rewrite progress_wrap in A. split; [exact A|]. intros j a' b' q' L' A' B'. apply (M j a' b' q' L'); [|exact B']. rewrite progress_wrap. exact A'.
  - destruct E as (-> & N). split; [reflexivity|]. intros i a b L. rewrite <- (progress_wrap h). exact (N i a b L).
Qed.
Lemma progress_back h a b : progress h b a = - progress h a b.
Proof. unfold progress. ring. Qed.
Lemma against_back h a b : against h b a <-> along h a b.
Proof. unfold against, along. rewrite progress_back, gap_sym. split; lra. Qed.
Lemma along_back h a b : along h b a <-> against h a b.
Proof. unfold against, along. rewrite progress_back, gap_sym. split; lra. Qed.

(** ** Lines *)
Lemma leg_split ps a b : (exists i, leg ps i a b) <-> exists l1 l2, ps = l1 ++ a :: b :: l2.
Proof.
  split.
  - intros (i & A & B). apply nth_error_split in A. destruct A as (l1 & l2 & -> & <-). exists l1. rewrite nth_error_app2 in B by lia. replace (S (length l1) - length l1)%nat with 1%nat in B by lia. cbn in B. destruct l2 as [|c l2]; [discriminate|]. injection B as ->. exists l2. reflexivity.
  - intros (l1 & l2 & ->). exists (length l1). split; (rewrite nth_error_app2 by lia); [rewrite Nat.sub_diag|replace (S (length l1) - length l1)%nat with 1%nat by lia]; reflexivity.
Qed.
Lemma leg_rev ps a b : (exists i, leg (rev ps) i a b) <-> exists i, leg ps i b a.
Proof.
  assert (H : forall ps a b, (exists i, leg ps i b a) -> exists i, leg (rev ps) i a b).
  { intros qs x y L. apply leg_split in L. destruct L as (l1 & l2 & ->). apply leg_split. exists (rev l2), (rev l1). rewrite rev_app_distr. cbn [rev]. rewrite <- !app_assoc. reflexivity. }
  split; [|apply H]. intros L. apply H in L. rewrite rev_involutive in L. exact L.
Qed.
Lemma on_near ps q t : on ps q -> exists x, In x (legs 0 ps) /\ leg_dist t x <= gap t q + hair.
Proof.
  intros (i & a & b & L & B). exists (i, (a, b)). split; [apply legs_leg; exists i; split; [exact L|reflexivity]|]. rewrite leg_dist_gap. cbn [fst snd]. destruct (closest_nearest a b t) as (_ & C). exact (C q B).
Qed.
Lemma leg_on ps x t : In x (legs 0 ps) -> exists q, on ps q /\ gap q (closest_point (fst (snd x)) (snd (snd x)) t) <= hair.
Proof.
  intros I. apply legs_leg in I. destruct I as (j & L & _). destruct (closest_nearest (fst (snd x)) (snd (snd x)) t) as ((q & B & G) & _). exists q. split; [|exact G]. exists j, (fst (snd x)), (snd (snd x)). split; [exact L|exact B].
Qed.
Lemma distance_spec t ps : distance_to_line t ps = -1 /\ legs 0 ps = []
  \/ exists x, distance_to_line t ps = leg_dist t x /\ In x (legs 0 ps) /\ forall y, In y (legs 0 ps) -> leg_dist t x <= leg_dist t y.
Proof.
  unfold distance_to_line. destruct (least_spec (leg_dist t) (fun _ => true) (leg_dist_pos t) (legs 0 ps)) as [(E & N)|(x & E & I & _ & M)]; rewrite E; cbn [fst].
  - left. split; [reflexivity|]. destruct (legs 0 ps) as [|x l]; [reflexivity|]. discriminate (N x (or_introl eq_refl)).
  - right. exists x. split; [reflexivity|]. split; [exact I|]. intros y Y. apply M; [exact Y|reflexivity].
Qed.

Definition heads (h : R) (x : nat * (pt * pt)) : bool := below (Rabs (heading_delta h (fst (snd x)) (snd (snd x)))) 90.
Lemma heads_spec h x : -180 <= h < 360 -> (heads h x = true -> ~ against h (fst (snd x)) (snd (snd x))) /\ (heads h x = false -> ~ along h (fst (snd x)) (snd (snd x))).
Proof.
  intros H. unfold heads. destruct (delta_spec h (fst (snd x)) (snd (snd x)) H) as (D1 & D2). split; intros W; [apply D1, below_true, W|apply D2]. apply below_false in W. lra.
Qed.
Lemma flip_spec t h ps : -180 <= h < 360 -> if flip_line t h ps then backwards t h ps else forwards t h ps.
Proof.
  intros H. unfold flip_line, least_along. change (fun x : nat * (pt * pt) => _) with (heads h).
  pose proof (least_spec (leg_dist t) (heads h) (leg_dist_pos t) (legs 0 ps)) as F. pose proof (least_spec (leg_dist t) (heads h) (leg_dist_pos t) (legs 0 (rev ps))) as R.
  assert (LR : forall x, In x (legs 0 (rev ps)) -> exists j, leg ps j (snd (snd x)) (fst (snd x))).
  { intros x I. apply legs_leg in I. destruct I as (j & L & _). apply leg_rev. exists j. exact L. }
  assert (RL : forall j a b, leg ps j a b -> exists i, In (i, (b, a)) (legs 0 (rev ps))).
  { intros j a b L. assert (X : exists i, leg (rev ps) i b a) by (apply leg_rev; exists j; exact L). destruct X as (i & X). exists i. apply legs_leg. exists i. split; [exact X|reflexivity]. }
  assert (LI : forall j a b, leg ps j a b -> In (j, (a, b)) (legs 0 ps)) by (intros j a b L; apply legs_leg; exists j; split; [exact L|reflexivity]).
  destruct R as [(R & RN)|(y & R & RI & RW & RM)]; rewrite R; cbn [fst].
  - destruct (Rlt_dec (-1) 0); [|lra]. right. right. left. intros i a b L. destruct (RL i a b L) as (j & J). rewrite <- along_back. apply (heads_spec h (j, (b, a)) H), RN, J.
  - destruct (Rlt_dec (leg_dist t y) 0) as [N|_]; [pose proof (leg_dist_pos t y); lra|]. destruct F as [(F & FN)|(x & F & FI & FW & FM)]; rewrite F; cbn [fst].
    + replace (below 0 (-1)) with false by (symmetry; apply below_false; lra). cbn [andb]. left. intros i a b L. apply (heads_spec h (i, (a, b)) H), FN, LI, L.
    + destruct (below 0 (leg_dist t x)) eqn:Z; cbn [andb].
      * assert (FL : exists i, leg ps i (fst (snd x)) (snd (snd x))) by (apply legs_leg in FI; destruct FI as (i & L & _); exists i; exact L). destruct FL as (i & FL).
        destruct (below (leg_dist t y) (leg_dist t x)) eqn:B.
        -- apply below_true in B. split; [exists i, (fst (snd x)), (snd (snd x)); split; [exact FL|apply (heads_spec h x H), FW]|].
           destruct (LR y RI) as (j & RL'). exists (closest_point (fst (snd y)) (snd (snd y)) t), j, (snd (snd y)), (fst (snd y)). split; [exact RL'|]. split; [rewrite <- against_back; apply (heads_spec h y H), RW|]. split; [apply closest_nearest|].
           intros i' a b q L A BT. assert (W : heads h (i', (a, b)) = true). { destruct (heads h (i', (a, b))) eqn:Q; [reflexivity|]. apply (heads_spec h (i', (a, b)) H) in Q. contradiction. }
           pose proof (FM _ (LI _ _ _ L) W) as LE. rewrite !leg_dist_gap in *. cbn [fst snd] in LE. destruct (closest_nearest a b t) as (_ & C). specialize (C q BT). lra.
        -- apply below_false in B. right. right. right. exists (closest_point (fst (snd x)) (snd (snd x)) t), i, (fst (snd x)), (snd (snd x)). split; [exact FL|]. split; [apply (heads_spec h x H), FW|]. split; [apply closest_nearest|].
           intros j a' b' q L A BT. destruct (RL j a' b' L) as (j' & J). assert (W : heads h (j', (b', a')) = true). { destruct (heads h (j', (b', a'))) eqn:Q; [reflexivity|]. apply (heads_spec h (j', (b', a')) H) in Q. cbn [fst snd] in Q. rewrite along_back in Q. contradiction. }
           pose proof (RM _ J W) as LE. rewrite !leg_dist_gap in *. cbn [fst snd] in LE. destruct (closest_nearest b' a' t) as (_ & C).
           assert (BT' : between b' a' q). { destruct BT as (kk & K & ->). exists (1 - kk). split; [lra|]. f_equal; ring. }
           specialize (C q BT'). lra.
      * apply below_false in Z. right. left. destruct (leg_on ps x t FI) as (q & O & G). exists q. split; [exact O|]. rewrite leg_dist_gap in Z. pose proof (gap_tri t (closest_point (fst (snd x)) (snd (snd x)) t) q) as T3. rewrite (gap_sym (closest_point _ _ _) q) in T3. lra.
Qed.

Section Nearest.
  Context (e : earth) (t : pt).
  Local Notation dl := (fun x : Z * list pt => distance_to_line t (map (spot e) (snd x))).
  Lemma nearest_line_spec ls : nearest_line e t ls = 0%Z /\ (forall x, In x ls -> dl x <= 0)
    \/ exists x, In x ls /\ nearest_line e t ls = fst x /\ 0 < dl x /\ forall y, In y ls -> 0 < dl y -> dl x <= dl y.
  Proof.
    unfold nearest_line. match goal with |- context [fold_left ?g _ _] => set (f := g) end.
    assert (P : fold_left f ls (-1, 0%Z) = (-1, 0%Z) /\ (forall x, In x ls -> dl x <= 0)
      \/ exists x, In x ls /\ fold_left f ls (-1, 0%Z) = (dl x, fst x) /\ 0 < dl x /\ forall y, In y ls -> 0 < dl y -> dl x <= dl y).
    { induction ls as [|x ls IH] using rev_ind; [left; split; [reflexivity|intros ? []]|]. rewrite fold_left_app. cbn [fold_left]. destruct IH as [(E & N)|(y & I & E & P & M)]; rewrite E; unfold f; cbv beta zeta; cbn [fst].
      - destruct (below 0 (dl x)) eqn:B; cbn [andb].
        + replace (below (-1) 0) with true by (symmetry; apply below_true; lra). cbn [orb]. right. exists x. apply below_true in B. split; [apply in_or_app; right; left; reflexivity|]. split; [reflexivity|]. split; [exact B|].
          intros y Y PY. apply in_app_or in Y. destruct Y as [Y|[<-|[]]]; [specialize (N y Y); lra|lra].
        + apply below_false in B. left. split; [reflexivity|]. intros y Y. apply in_app_or in Y. destruct Y as [Y|[<-|[]]]; auto.
      - right. assert (KEEP : (0 < dl x -> dl y <= dl x) -> exists z, In z (ls ++ [x]) /\ (dl y, fst y) = (dl z, fst z) /\ 0 < dl z /\ forall w, In w (ls ++ [x]) -> 0 < dl w -> dl z <= dl w).
        { intros K. exists y. split; [apply in_or_app; left; exact I|]. split; [reflexivity|]. split; [exact P|]. intros w W PW. apply in_app_or in W. destruct W as [W|[<-|[]]]; auto. }
        destruct (below 0 (dl x)) eqn:B; cbn [andb]; [|apply below_false in B; apply KEEP; lra]. apply below_true in B.
        replace (below (dl y) 0) with false by (symmetry; apply below_false; lra). cbn [orb]. destruct (below (dl x) (dl y)) eqn:C; [|apply below_false in C; apply KEEP; intros _; exact C].
        apply below_true in C. exists x. split; [apply in_or_app; right; left; reflexivity|]. split; [reflexivity|]. split; [exact B|]. intros w W PW. apply in_app_or in W. destruct W as [W|[<-|[]]]; [specialize (M w W PW); lra|lra]. }
    destruct P as [(-> & N)|(x & I & -> & R)]; [left; split; [reflexivity|exact N]|right; exists x; split; [exact I|]; split; [reflexivity|exact R]].
  Qed.
End Nearest.

Section Runs.
  Context (order : zmap (list pt) -> list (Z * list pt)) (order_perm : forall m, Permutation (order m) m) (whole : bool) (t : task).
  Local Notation run := (run order whole t).
  Local Notation step := (step order whole t).

  Lemma run_snoc s h e : run s (h ++ [e]) = fst (step (run s h) e).
  Proof. unfold EscortModel.run. rewrite fold_left_app. reflexivity. Qed.
  Lemma set_up_based s la lo : converter s = fresh \/ based (converter s) -> based (initialize la lo (converter s)) /\ (based (converter s) -> initialize la lo (converter s) = converter s).
  Proof.
    intros [->|(a & b & E)]; (split; [|intros (a' & b' & E')]).
    - exists la, lo. reflexivity.
    - exfalso. pose proof (ready_initialize a' b' fresh) as R. rewrite <- E' in R. discriminate R.
    - exists a, b. rewrite E. apply initialize_ready, ready_initialize.
    - rewrite E. apply initialize_ready, ready_initialize.
  Qed.
  Lemma path_converter s k : fst (path order t s k) = converter s \/ fst (path order t s k) = initialize (lat k * deg_to_rad) (lon k * deg_to_rad) (converter s).
  Proof.
    unfold path. destruct (Z.eqb (route t) 0); [|left; reflexivity]. destruct (zget (missions s) (supported t)); [left; reflexivity|]. destruct (prescribed t); [|left; reflexivity]. destruct (lines s); [left; reflexivity|]. cbv zeta.
    right. destruct (Z.eqb _ 0); [reflexivity|]. destruct (zget _ _); reflexivity.
  Qed.
  Lemma target_converter s k : converter s = fresh \/ based (converter s) -> let c := fst (target order whole t s k) in (c = fresh \/ based c) /\ (based (converter s) -> c = converter s).
  Proof.
    intros B. cbv zeta. unfold target. destruct (at_entity whole (standoff t)); [auto|]. pose proof (path_converter s k) as P. destruct (path order t s k) as (e, ps). cbn [fst] in P.
    destruct (set_up_based s (lat k * deg_to_rad) (lon k * deg_to_rad) B) as (S1 & S2).
    assert (E1 : (e = fresh \/ based e) /\ (based (converter s) -> e = converter s)) by (destruct P as [-> | ->]; auto).
    destruct ps as [|x ps]; [exact E1|]. cbn [fst]. unfold deg_ne_m. cbn [fst]. destruct E1 as ([->|(a & b & ->)] & E2).
    - split; [right; eexists _, _; reflexivity|]. intros BB. specialize (E2 BB). rewrite <- E2 in BB. destruct BB as (a' & b' & E'). pose proof (ready_initialize a' b' fresh) as R. rewrite <- E' in R. discriminate R.
    - rewrite initialize_ready by apply ready_initialize. split; [right; exists a, b; reflexivity|exact E2].
  Qed.

  Lemma inv h : let s := run init h in
    last s = Latest.follow (seen (supported t)) h /\ (forall v, zget (missions s) v = Latest.follow (told v) h) /\ (forall i, zget (lines s) i = Latest.follow (lined i) h)
    /\ NoDup (map fst (lines s)) /\ (converter s = fresh \/ based (converter s)).
  Proof.
    cbv zeta. induction h as [|e h (L & M & N & ND & B)] using rev_ind; [cbn; repeat split; auto; constructor|].
    rewrite run_snoc. set (s := run init h) in *. destruct e as [v k|ms|v ws|v ws|i ps|la lo|]; cbn [EscortModel.step].
    - destruct (Z.eqb v (supported t)) eqn:E; cbn [fst last missions lines converter].
      + split; [rewrite follow_snoc; cbn [seen]; rewrite E; reflexivity|]. split; [intros u; rewrite follow_snoc; apply M|]. split; [intros i; rewrite follow_snoc; apply N|]. auto.
      + split; [rewrite follow_snoc; cbn [seen]; rewrite E; exact L|]. split; [intros u; rewrite follow_snoc; apply M|]. split; [intros i; rewrite follow_snoc; apply N|]. auto.
    - cbn [fst last missions lines converter]. split; [rewrite follow_snoc; exact L|]. split; [|split; [intros i; rewrite follow_snoc; apply N|auto]].
      intros u. rewrite follow_snoc. cbn [told]. rewrite <- M. generalize (missions s). intros mm. induction ms as [|x ms IH] using rev_ind; [reflexivity|]. rewrite fold_left_app, rev_app_distr. cbn [fold_left rev app find].
      rewrite zget_set, (Z.eqb_sym u (fst x)). destruct (Z.eqb (fst x) u); [reflexivity|exact IH].
    - cbn [fst last missions lines converter]. split; [rewrite follow_snoc; exact L|]. split; [|split; [intros i; rewrite follow_snoc; apply N|auto]]. intros u. rewrite follow_snoc, zget_set. cbn [told]. rewrite (Z.eqb_sym u v). destruct (Z.eqb v u); [reflexivity|apply M].
    - cbn [fst last missions lines converter]. split; [rewrite follow_snoc; exact L|]. split; [|split; [intros i; rewrite follow_snoc; apply N|auto]]. intros u. rewrite follow_snoc, zget_set. cbn [told]. rewrite (Z.eqb_sym u v). destruct (Z.eqb v u); [reflexivity|apply M].
    - cbn [fst last missions lines converter]. split; [rewrite follow_snoc; exact L|]. split; [intros u; rewrite follow_snoc; apply M|]. split; [|split; [apply NoDup_keys_zset, ND|exact B]].
      intros j. rewrite follow_snoc, zget_set. cbn [lined]. rewrite (Z.eqb_sym j i). destruct (Z.eqb i j); [reflexivity|apply N].
    - cbn [fst last missions lines converter]. split; [rewrite follow_snoc; exact L|]. split; [intros u; rewrite follow_snoc; apply M|]. split; [intros i; rewrite follow_snoc; apply N|]. split; [exact ND|]. right. apply (set_up_based s _ _ B).
    - assert (KEEP : Latest.follow (seen (supported t)) (h ++ [Ask]) = last s /\ (forall v, zget (missions s) v = Latest.follow (told v) (h ++ [Ask])) /\ (forall i, zget (lines s) i = Latest.follow (lined i) (h ++ [Ask]))).
      { split; [rewrite follow_snoc; symmetry; exact L|]. split; intros; rewrite follow_snoc; [apply M|apply N]. }
      destruct KEEP as (K1 & K2 & K3). destruct (last s) as [k|] eqn:LK; [|cbn [fst]; rewrite LK; auto]. pose proof (target_converter s k B) as TC. cbv zeta in TC. destruct (target order whole t s k) as (c, q). cbn [fst last missions lines converter] in *. rewrite ?LK. destruct TC. auto 10.
  Qed.

  (** The nearest line is the one the specification names. *)
  Lemma nearest_known_spec h e x : let s := run init h in let i := nearest_line e x (order (lines s)) in
    (i = 0%Z /\ forall j l, latest (lined j) h l -> (forall r, on (map (at_place e) l) r -> hair < gap x r) -> forall q, ~ on (map (at_place e) l) q)
    \/ nearest_known h e x i /\ exists l, zget (lines s) i = Some l /\ latest (lined i) h l.
  Proof.
    cbv zeta. destruct (inv h) as (_ & _ & N & ND & _). set (s := run init h) in *. change (at_place e) with (spot e).
    assert (IN : forall j l, latest (lined j) h l -> In (j, l) (order (lines s))).
    { intros j l L. apply follow_latest in L. rewrite <- N in L. apply Permutation_in with (lines s); [apply Permutation_sym, order_perm|]. apply In_zget, L. }
    assert (OUT : forall y, In y (order (lines s)) -> zget (lines s) (fst y) = Some (snd y) /\ latest (lined (fst y)) h (snd y)).
    { intros y Y. apply Permutation_in with (l' := lines s) in Y; [|apply order_perm]. assert (Z : zget (lines s) (fst y) = Some (snd y)) by (apply zget_In; [exact ND|destruct y; exact Y]). split; [exact Z|]. apply follow_latest. rewrite <- N. exact Z. }
    assert (FAR : forall l q, (forall r, on (map (spot e) l) r -> hair < gap x r) -> on (map (spot e) l) q -> 0 < distance_to_line x (map (spot e) l) /\ distance_to_line x (map (spot e) l) <= gap x q + hair).
    { intros l q F O. destruct (on_near _ q x O) as (y & Y & LE). destruct (distance_spec x (map (spot e) l)) as [(_ & Z)|(z & E & I & M)]; [rewrite Z in Y; destruct Y|]. rewrite E. split; [|specialize (M y Y); lra].
      destruct (leg_on _ z x I) as (r & OR & G). specialize (F r OR). rewrite leg_dist_gap. pose proof (gap_tri x (closest_point (fst (snd z)) (snd (snd z)) x) r) as T3. rewrite (gap_sym (closest_point _ _ _) r) in T3. lra. }
    destruct (nearest_line_spec e x (order (lines s))) as [(E & Z)|(y & I & E & P & M)]; rewrite E.
    - left. split; [reflexivity|]. intros j l L F q O. destruct (FAR l q F O) as (P & _). specialize (Z _ (IN _ _ L)). cbn [snd] in Z. lra.
    - right. destruct (OUT y I) as (G & L). split; [|exists (snd y); auto]. destruct (distance_spec x (map (spot e) (snd y))) as [(Q & _)|(z & Q & IZ & _)]; [rewrite Q in P; lra|].
      destruct (leg_on _ z x IZ) as (r & OR & GR). rewrite leg_dist_gap in Q. unfold nearest_known. change (at_place e) with (spot e). exists (snd y), (closest_point (fst (snd z)) (snd (snd z)) x). split; [exact L|]. split; [exists r; split; [exact OR|exact GR]|]. split; [lra|].
      intros j l' q L' F O. destruct (FAR l' q F O) as (P' & LE). specialize (M _ (IN _ _ L')). cbn [snd] in M. specialize (M P'). lra.
  Qed.

  Lemma path_follows h k : let s := run init h in let e := fst (path order t s k) in follows h t k e (snd (path order t s k)).
  Proof.
    cbv zeta. destruct (inv h) as (_ & M & N & ND & B). set (s := run init h) in *. unfold path. destruct (Z.eqb_spec (route t) 0) as [R|R].
    - destruct (zget (missions s) (supported t)) as [ws|] eqn:MS.
      { right. left. split; [exact R|]. rewrite M in MS. apply follow_latest, MS. }
      assert (U : unsaid (told (supported t)) h) by (rewrite M in MS; apply follow_unsaid, MS).
      destruct (prescribed t) as [|w ws] eqn:PR.
      + destruct (lines s) as [|ln lns] eqn:LS.
        * right. right. right. left. cbn [fst snd]. repeat split; auto. right. intros j l L. apply follow_latest in L. rewrite <- N in L. discriminate L.
        * cbv zeta. set (e := fst (deg_ne_m _ _ _)). change (at_place e) with (spot e). set (x := spot e (lat k, lon k)). rewrite <- LS. pose proof (nearest_known_spec h e x) as NK. cbv zeta in NK. fold s in NK. rewrite <- LS in N.
          set (i := nearest_line e x (order (lines s))) in *. destruct (Z.eqb_spec i 0) as [I|I].
          -- right. right. right. left. cbn [fst snd]. repeat split; auto. destruct NK as [(_ & K)|(K & _)]; [right; exact K|left; rewrite I in K; exact K].
          -- destruct NK as [(K & _)|(K & l & Z & L)]; [contradiction|]. rewrite Z. right. right. right. right. cbn [fst snd]. repeat split; auto. exists i, l. split; [exact I|]. split; [exact L|]. split; [exact K|]. split; [destruct (if Rlt_dec _ _ then _ else _); auto|].
             intros SP HD. destruct (Rlt_dec (Rabs (speed k)) 1); [lra|]. pose proof (flip_spec x (heading k) (map (spot e) l) HD) as FS. destruct (flip_line x (heading k) (map (spot e) l)); [right|left]; auto.
      + right. right. left. cbn [fst snd]. repeat split; auto. congruence.
    - left. split; [exact R|]. cbn [fst snd]. rewrite N. destruct (Latest.follow (lined (route t)) h) as [ps|] eqn:F; [left; apply follow_latest, F|right; split; [apply follow_unsaid, F|reflexivity]].
  Qed.
  Lemma follows_set_up h k : let s := run init h in let e := fst (path order t s k) in let e' := fst (deg_ne_m (lat k) (lon k) e) in
    snd (path order t s k) <> [] -> follows h t k e' (snd (path order t s k)).
  Proof.
    cbv zeta. intros NE. pose proof (path_follows h k) as F. cbv zeta in F. set (s := run init h) in *. pose proof (path_converter s k) as P. set (pp := path order t s k) in *.
    destruct F as [F|[F|[F|[(_ & _ & _ & Z & _)|F]]]]; [left; exact F|right; left; exact F|right; right; left; exact F|contradiction|].
    assert (E : fst (deg_ne_m (lat k) (lon k) (fst pp)) = fst pp); [|rewrite E; right; right; right; right; exact F].
    destruct (inv h) as (_ & M & _). fold s in M. destruct F as (R & U & PR & i & l & I & L & _).
    unfold pp. unfold path. rewrite R, Z.eqb_refl. apply follow_unsaid in U. rewrite M, U, PR. apply follow_latest in L. destruct (inv h) as (_ & _ & N & _). rewrite <- N in L. fold s in L. destruct (lines s) as [|ln lns] eqn:LS; [discriminate L|].
    rewrite <- LS. cbv zeta. set (e := fst (deg_ne_m (lat k) (lon k) (converter s))). assert (Q : fst (deg_ne_m (lat k) (lon k) e) = e) by (unfold e, deg_ne_m; cbn [fst]; apply initialize_ready, ready_initialize).
    destruct (Z.eqb (nearest_line _ _ _) 0); [exact Q|]. destruct (zget (lines s) (nearest_line _ _ _)); exact Q.
  Qed.
End Runs.

(** One who asks is told the place on the path of the supported entity that is the standoff ahead of it, or behind it; the place of the entity itself if the
    standoff is small or there is no path. *)
Theorem C82_place : forall order, (forall m, Permutation (order m) m) -> forall whole t h k, latest (seen (supported t)) h k ->
  let s := run order whole t init h in
  exists s' x, step order whole t s Ask = (s', [x]) /\
  (x = (lat k, lon k) /\ Rabs (standoff t) < 1.001
   \/ 0.099 <= Rabs (standoff t) /\ exists ps, follows h t k (converter s') ps
      /\ (ps = [] /\ x = (lat k, lon k)
          \/ ps <> [] /\ based (converter s') /\ (based (converter s) -> converter s' = converter s)
             /\ exists q, escorted (standoff t) (at_place (converter s') (lat k, lon k)) (heading k) (speed k) (map (at_place (converter s')) ps) q /\ x = m_ll_deg (snd q) (fst q) (converter s'))).
Proof.
  intros order perm whole t h k SK s. destruct (inv order whole t h) as (L & _ & _ & _ & B). fold s in L, B. apply follow_latest in SK. rewrite <- L in SK. cbn [step]. rewrite SK.
  pose proof (target_converter order whole t s k B) as TC. cbv zeta in TC. destruct (target order whole t s k) as (c, x) eqn:TG. eexists _, x. split; [reflexivity|]. cbn [converter fst] in *.
  unfold target in TG. destruct (at_entity whole (standoff t)) eqn:AE.
  - left. injection TG as <- <-. split; [reflexivity|]. unfold at_entity in AE. destruct whole; apply below_true in AE; apply Rabs_def2 in AE; apply Rabs_def1; lra.
  - right. assert (AF : standoff t <= - (99 / 1000) \/ 101 / 1000 <= standoff t).
    { unfold at_entity in AE. destruct whole; apply below_false in AE; revert AE; unfold Rabs; destruct (Rcase_abs _); intros; lra. }
    split; [unfold Rabs; destruct (Rcase_abs _); lra|]. pose proof (path_follows order perm whole t h k) as PF. pose proof (follows_set_up order perm whole t h k) as PS. cbv zeta in PF, PS. fold s in PF, PS. destruct (path order t s k) as (e, ps) eqn:PP. cbn [fst snd] in PF, PS. exists ps.
    destruct ps as [|p ps].
    + injection TG as <- <-. split; [exact PF|]. left. auto.
    + assert (NE : p :: ps <> []) by discriminate. injection TG as Q1 Q2. rewrite <- Q1 in *. split; [exact (PS NE)|]. right. split; [exact NE|].
      set (e' := fst (deg_ne_m (lat k) (lon k) e)) in *. assert (BE : based e'). { destruct (proj1 TC) as [F|F]; [|exact F]. exfalso. unfold e', deg_ne_m in F. cbn [fst] in F. pose proof (ready_initialize (lat k * deg_to_rad) (lon k * deg_to_rad) e) as R. rewrite F in R. discriminate R. }
      split; [exact BE|]. split; [exact (proj2 TC)|]. eexists. split; [|symmetry; exact Q2]. apply escorted_wrap. change (map (at_place e') (p :: ps)) with (map (spot e') (p :: ps)). destruct (wrap_spec (heading k)) as (_ & _ & W). apply displaced_escorted; lra.
Qed.

Theorem C82_silent : forall order whole t h e, e <> Ask \/ unsaid (seen (supported t)) h -> snd (step order whole t (run order whole t init h) e) = [].
Proof.
  intros order whole t h e [N|U]; [destruct e; try reflexivity; contradiction|]. destruct e; try reflexivity. destruct (inv order whole t h) as (L & _). apply follow_unsaid in U. rewrite U in L. cbn [step]. rewrite L. reflexivity.
Qed.

(** The nearest point of a segment is found, also when it is an end. *)
Theorem C82_closest : forall a b t, nearest a b t (closest_point a b t).
Proof. exact closest_nearest. Qed.

(** What is known about the path of the entity is one line. *)
Definition only_line (h : list ev) (t : task) (i : Z) (l : list pt) : Prop :=
  route t = 0%Z /\ unsaid (told (supported t)) h /\ prescribed t = [] /\ i <> 0%Z /\ latest (lined i) h l /\ forall j l', latest (lined j) h l' -> j = i.
Lemma only_latest h t i l j l' : only_line h t i l -> latest (lined j) h l' -> j = i /\ l' = l.
Proof. intros (_ & _ & _ & _ & L & O) L'. specialize (O j l' L'). subst j. split; [reflexivity|]. apply follow_latest in L, L'. congruence. Qed.

(** One that moves against the direction of the line is not taken to follow it in the other direction: the escort is sent to the beginning of the line and from there on,
    as far as the standoff from the entity. *)
Theorem C82_against_refuted : forall order, (forall m, Permutation (order m) m) -> forall whole t h k i l,
  latest (seen (supported t)) h k -> only_line h t i l -> 1.001 <= standoff t -> 1 <= Rabs (speed k) -> -180 <= heading k < 360 ->
  let s := run order whole t init h in let e := converter s in let here := at_place e (lat k, lon k) in
  based e -> (exists r, on (map (at_place e) l) r) -> (forall r, on (map (at_place e) l) r -> hair < gap here r) -> (forall j a b, leg (map (at_place e) l) j a b -> against (heading k) a b) ->
  exists s' q0 q, step order whole t s Ask = (s', [m_ll_deg (snd q) (fst q) e]) /\ travel (map (at_place e) l) here (standoff t) q0 /\ gap q0 q <= / 10 ^ 2.
Proof.
  intros order perm whole t h k i l SK OL ST SP HD s e here BE (r0 & ON) FAR AG. destruct (C82_place order perm whole t h k SK) as (s' & x & E & D). fold s in E, D. destruct D as [(_ & D)|(_ & ps & F & D)]; [rewrite Rabs_pos_eq in D; lra|].
  assert (CE : converter s' = e). { destruct (inv order whole t h) as (_ & _ & _ & _ & B). fold s in B. pose proof (target_converter order whole t s k B) as TC. cbv zeta in TC. cbn [step] in E. destruct (last s) as [k'|] eqn:LK; [|discriminate E].
    pose proof (target_converter order whole t s k' B) as TC'. cbv zeta in TC'. destruct (target order whole t s k') as (c, q). injection E as <- _. cbn [converter fst] in *. apply (proj2 TC'), BE. }
  rewrite CE in *. fold here in F, D. assert (PL : ps = l).
  { destruct OL as (R & U & P & I & L & O). destruct F as [(F & _)|[(_ & F)|[(_ & _ & F & _)|[(_ & _ & _ & _ & F)|(_ & _ & _ & i' & l' & I' & L' & _ & _ & F)]]]]; try contradiction.
    - apply follow_latest in F. apply follow_unsaid in U. congruence.
    - exfalso. destruct F as [(l' & p & L' & _)|F]; [specialize (O _ _ L'); congruence|]. exact (F i l L FAR r0 ON).
    - pose proof (O _ _ L'). subst i'. assert (l' = l) by (apply follow_latest in L, L'; congruence). subst l'. destruct (F SP HD) as [(-> & _)|(_ & (j & a & b & LG & NA) & _)]; [reflexivity|]. destruct (NA (AG _ _ _ LG)). }
  subst ps. destruct D as [(Z & _)|(_ & _ & _ & q & (p & start & q0 & EN & G & T & _) & ->)].
  { destruct ON as (j & a & b & (A & _) & _). rewrite Z in A. destruct j; discriminate A. }
  exists s', q0, q. split; [exact E|]. split; [|exact G]. assert (Q : 0 < standoff t) by lra. specialize (T Q). destruct start as [j|].
  - exfalso. destruct EN as (a & b & LG & _ & [X|X] & _); [lra|]. exact (X (AG _ _ _ LG)).
  - destruct EN as (-> & _). exact T.
Qed.

(** One that stays at some place is taken to follow a line of two points from the second point to the first one, however near the first one is. *)
Theorem C82_at_rest_refuted : forall order, (forall m, Permutation (order m) m) -> forall whole t h k i a b,
  latest (seen (supported t)) h k -> only_line h t i [a; b] -> 1.001 <= standoff t -> Rabs (speed k) < 1 ->
  let s := run order whole t init h in let e := converter s in let here := at_place e (lat k, lon k) in
  based e -> (forall r, on (map (at_place e) [a; b]) r -> hair < gap here r) -> 1 <= gap (at_place e a) (at_place e b) ->
  exists s' p q0 q, step order whole t s Ask = (s', [m_ll_deg (snd q) (fst q) e])
  /\ nearest (at_place e b) (at_place e a) here p /\ travel [at_place e a] p (standoff t) q0 /\ gap q0 q <= / 10 ^ 2.
Proof.
  intros order perm whole t h k i a b SK OL ST SP s e here BE FAR AB. destruct (inv order whole t h) as (LS & MI & LI & ND & B). fold s in LS, MI, LI, ND, B. apply follow_latest in SK. rewrite <- LS in SK.
  pose proof (nearest_known_spec order perm whole t h e here) as NK. cbv zeta in NK. fold s in NK. assert (INIT : forall la lo, initialize la lo e = e) by (intros la lo; destruct BE as (x & y & ->); apply initialize_ready, ready_initialize).
  assert (OA : on (map (at_place e) [a; b]) (at_place e a)). { exists 0%nat, (at_place e a), (at_place e b). split; [split; reflexivity|]. exists 0. split; [lra|]. destruct (at_place e a), (at_place e b). cbn. f_equal; ring. }
  assert (PP : path order t s k = (e, [b; a])).
  { unfold path. destruct OL as (R & U & P & I & L & O). rewrite R, Z.eqb_refl, MI. apply follow_unsaid in U. rewrite U, P. pose proof L as L0. apply follow_latest in L0. rewrite <- LI in L0. destruct (lines s) as [|ln lns] eqn:LN; [discriminate L0|]. rewrite <- LN in *.
    cbv zeta. fold e. assert (DN : fst (deg_ne_m (lat k) (lon k) e) = e) by (unfold deg_ne_m; cbn [fst]; apply INIT). rewrite DN. change (spot e) with (at_place e). fold here.
    assert (ID : nearest_line e here (order (lines s)) = i). { destruct NK as [(_ & F)|((l' & p & L' & _) & _)]; [destruct (F i _ L FAR _ OA)|exact (O _ _ L')]. }
    rewrite ID. destruct (Z.eqb_spec i 0); [contradiction|]. rewrite L0. cbn [map at_rest]. destruct (Rlt_dec (Rabs (speed k)) 1); [|contradiction].
    assert (B1 : below (-1) 0 = true) by (apply below_true; lra). rewrite B1. cbn [orb]. rewrite len_gap. change (dist here (at_place e a)) with (gap here (at_place e a)). pose proof (FAR _ OA) as HA. unfold hair in HA. set (g := gap (at_place e a) (at_place e b)) in *. set (d := gap here (at_place e a)) in *.
    replace (below 1 (0 + g + g)) with true by (symmetry; apply below_true; lra). replace (below (1 / 2) ((0 + g + d) / (0 + g + g))) with true; [reflexivity|]. symmetry. apply below_true. apply Rmult_lt_reg_r with (0 + g + g); [lra|]. unfold Rdiv at 2. rewrite Rmult_assoc, Rinv_l by lra. lra. }
  cbn [step]. rewrite SK. unfold target. replace (at_entity whole (standoff t)) with false.
  2: { symmetry. unfold at_entity. destruct whole; apply below_false; rewrite Rabs_pos_eq; lra. }
  rewrite PP. cbv zeta. assert (DN : fst (deg_ne_m (lat k) (lon k) e) = e) by (unfold deg_ne_m; cbn [fst]; apply INIT). rewrite DN. change (spot e) with (at_place e). fold here. destruct (wrap_spec (heading k)) as (_ & _ & W).
  assert (DE : escorted (standoff t) here (heading k) (speed k) (map (at_place e) [b; a]) (displaced (standoff t) here (wrap (heading k)) (speed k) (map (at_place e) [b; a]))) by (apply escorted_wrap, displaced_escorted; lra).
  set (q := displaced _ _ _ _ _) in *. destruct DE as (p & start & q0 & EN & G & T & _). assert (Q : 0 < standoff t) by lra. specialize (T Q). eexists _, p, q0, q. split; [reflexivity|].
  destruct start as [j|].
  - destruct EN as (x & y & LG & N & _). destruct LG as (L1 & L2). destruct j as [|[|j]]; [|cbn in L2; discriminate L2|cbn in L2; destruct j; discriminate L2]. cbn in L1, L2. injection L1 as <-. injection L2 as <-. split; [exact N|]. split; [exact T|exact G].
  - destruct EN as (_ & N). destruct (N 0%nat (at_place e b) (at_place e a)) as (X & _); [split; reflexivity|lra].
Qed.

(** One at the beginning of the only line that is known is not taken to follow it: the escort is sent to the entity, whatever the standoff is. *)
Lemma side_same a b : side a b a = 0%Z.
Proof. unfold side, sub. cbn [fst snd]. match goal with |- context [Rabs ?x] => replace x with 0 by ring end. rewrite Rabs_R0. destruct (Rlt_dec 0 tiny) as [|N]; [reflexivity|]. destruct N. unfold tiny. lra. Qed.
Lemma closest_start a b : closest_point a b a = a.
Proof.
  unfold closest_point. cbv zeta. unfold intersect_point. cbv zeta. destruct (Rlt_dec _ tiny) as [L|N]; [reflexivity|].
  match goal with |- context [swath_side a b ?z] => set (c := z) in * end. assert (C : c = a).
  { unfold c. unfold add, sub in *. cbn [fst snd] in *. destruct a as (ax, ay), b as (bx, by_). cbn [fst snd] in *. match type of N with ~ Rabs ?x < _ => assert (X : x <> 0) by (intros Z; apply N; rewrite Z, Rabs_R0; unfold tiny; lra) end.
    f_equal; field; exact X. }
  rewrite C. unfold swath_side. cbv zeta. rewrite side_same. destruct (side b _ a) eqn:S; cbn [Z.leb Z.compare andb Z.ltb]; try reflexivity. exfalso. revert S. unfold side, sub, add. cbv zeta. cbn [fst snd]. destruct (Rlt_dec (Rabs _) tiny); [discriminate|]. destruct (Rlt_dec 0 _) as [|M]; [discriminate|]. intros _. apply M.
  match goal with |- 0 < ?x => replace x with ((fst b - fst a) ^ 2 + (snd b - snd a) ^ 2) by ring end. clearbody c. unfold add, sub in N. cbn [fst snd] in N.
  match type of N with ~ Rabs ?x < _ => replace x with ((fst b - fst a) ^ 2 + (snd b - snd a) ^ 2) in N by ring end. pose proof (pow2_ge_0 (fst b - fst a)). pose proof (pow2_ge_0 (snd b - snd a)).
  destruct (Rle_lt_or_eq_dec 0 ((fst b - fst a) ^ 2 + (snd b - snd a) ^ 2)) as [P|P]; [lra|exact P|]. rewrite <- P, Rabs_R0 in N. destruct N. unfold tiny. lra.
Qed.
Theorem C82_on_line_refuted : forall order, (forall m, Permutation (order m) m) -> forall whole t h k i b l,
  latest (seen (supported t)) h k -> only_line h t i ((lat k, lon k) :: b :: l) ->
  snd (step order whole t (run order whole t init h) Ask) = [(lat k, lon k)].
Proof.
  intros order perm whole t h k i b l SK OL. destruct (inv order whole t h) as (LS & MI & LI & ND & B). set (s := run order whole t init h) in *. apply follow_latest in SK. rewrite <- LS in SK. cbn [step]. rewrite SK. unfold target. destruct (at_entity whole (standoff t)); [reflexivity|].
  assert (PP : snd (path order t s k) = []); [|destruct (path order t s k) as (e, ps); cbn [snd] in PP; rewrite PP; reflexivity].
  unfold path. destruct OL as (R & U & P & I & L & O). rewrite R, Z.eqb_refl, MI. apply follow_unsaid in U. rewrite U, P. pose proof L as L0. apply follow_latest in L0. rewrite <- LI in L0. destruct (lines s) as [|ln lns] eqn:LN; [discriminate L0|]. rewrite <- LN in *.
  cbv zeta. set (e := fst (deg_ne_m (lat k) (lon k) (converter s))). set (x := spot e (lat k, lon k)). assert (N : nearest_line e x (order (lines s)) = 0%Z); [|rewrite N; reflexivity].
  destruct (nearest_line_spec e x (order (lines s))) as [(N & _)|(y & Y & _ & D & _)]; [exact N|]. exfalso. assert (Y' : In y (lines s)) by (apply Permutation_in with (order (lines s)); [apply perm|exact Y]). destruct y as (j, l').
  apply (zget_In _ _ _ ND) in Y'. rewrite LI in Y'. apply follow_latest in Y'. pose proof (O _ _ Y'). subst j. apply follow_latest in Y'. apply follow_latest in L. assert (l' = (lat k, lon k) :: b :: l) by congruence. subst l'. cbn [snd map] in D.
  destruct (distance_spec x (spot e (lat k, lon k) :: spot e b :: map (spot e) l)) as [(Q & _)|(z & Q & _ & M)]; [rewrite Q in D; lra|]. specialize (M (0%nat, (x, spot e b)) (or_introl eq_refl)). rewrite Q in D. rewrite leg_dist_gap in M at 1. rewrite (leg_dist_gap x (0%nat, _)) in M. cbn [fst snd] in M. rewrite closest_start, gap_refl in M. rewrite leg_dist_gap in D. lra.
Qed.

(** A line that leads one degree to the north, and one that moves towards it from the north. *)
Definition ex_task : task := {| supported := 9; route := 0; prescribed := []; standoff := 250000 |}.
Definition ex_history (k : track) : list ev := [Elsewhere 0 0; Line 1 [(0, 0); (1, 0)]; Seen 9 k].
Definition ex_earth : earth := initialize (0 * deg_to_rad) (0 * deg_to_rad) fresh.
Definition all_lines (m : zmap (list pt)) : list (Z * list pt) := m.
Lemma ex_place : exists d, 100000 < d < 130000 /\ forall y, at_place ex_earth (y, 0) = (0, y * d).
Proof.
  unfold ex_earth, initialize. cbn [ready fresh]. rewrite Rmult_0_l. unfold at_place, deg_ne_m. exists (meridional (initialize 0 0 fresh) * deg_to_rad). split.
  - unfold initialize. cbn [ready fresh meridional]. unfold den_meridional, root. rewrite sin_0. replace (1 - ecc2 * 0 ^ 2) with 1 by ring. rewrite sqrt_1. destruct (Rle_dec (1 ^ 3) 0); [lra|]. unfold equatorial, ecc2, deg_to_rad. lra.
  - intros y. cbn [fst snd]. rewrite !initialize_ready by reflexivity. unfold initialize. cbn [ready fresh meridional small lat0 lon0]. f_equal; ring.
Qed.
Lemma ex_only k : only_line (ex_history k) ex_task 1 [(0, 0); (1, 0)].
Proof.
  split; [reflexivity|]. split; [apply follow_unsaid; reflexivity|]. split; [reflexivity|]. split; [discriminate|]. split; [apply follow_latest; reflexivity|].
  intros j l L. apply follow_latest in L. unfold ex_history in L. cbn [follow fold_left lined] in L. unfold Latest.follow in L. cbn [fold_left lined] in L. destruct (Z.eqb_spec 1 j); [congruence|discriminate L].
Qed.
Lemma ex_converter k : converter (run all_lines false ex_task init (ex_history k)) = ex_earth.
Proof. reflexivity. Qed.
Lemma ex_on d y p : at_place ex_earth (0, 0) = (0, 0 * d) -> at_place ex_earth (1, 0) = (0, 1 * d) -> on (map (at_place ex_earth) [(0, 0); (1, 0)]) p -> exists k, 0 <= k <= 1 /\ gap (0, y * d) p = Rabs ((k - y) * d).
Proof.
  intros P0 P1 (j & a & b & (L1 & L2) & k & K & ->). cbn [map] in L1, L2. rewrite P0, P1 in *. destruct j as [|[|j]]; [|cbn in L2; discriminate L2|destruct j; discriminate L2]. cbn in L1, L2. injection L1 as <-. injection L2 as <-. exists k. split; [exact K|].
  unfold gap. cbn [fst snd]. match goal with |- sqrt ?x = _ => replace x with (Rsqr ((k - y) * d)) by (unfold Rsqr; ring) end. apply sqrt_Rsqr_abs.
Qed.
Example C82_against_meets : let k := {| lat := 2; lon := 0; heading := 180; speed := 10 |} in let h := ex_history k in
  latest (seen 9) h k /\ only_line h ex_task 1 [(0, 0); (1, 0)] /\ 1.001 <= standoff ex_task /\ 1 <= Rabs (speed k) /\ -180 <= heading k < 360
  /\ let e := converter (run all_lines false ex_task init h) in let here := at_place e (lat k, lon k) in
     based e /\ (exists r, on (map (at_place e) [(0, 0); (1, 0)]) r) /\ (forall r, on (map (at_place e) [(0, 0); (1, 0)]) r -> hair < gap here r) /\ (forall j a b, leg (map (at_place e) [(0, 0); (1, 0)]) j a b -> against (heading k) a b).
Proof.
  cbv zeta. rewrite ex_converter. destruct ex_place as (d & D & P). split; [apply follow_latest; reflexivity|]. split; [apply ex_only|]. cbn [standoff ex_task lat lon heading speed]. split; [lra|]. split; [rewrite Rabs_pos_eq; lra|]. split; [lra|]. split; [eexists _, _; reflexivity|]. split; [|split].
  - exists (at_place ex_earth (0, 0)), 0%nat, (at_place ex_earth (0, 0)), (at_place ex_earth (1, 0)). split; [split; reflexivity|]. exists 0. split; [lra|]. rewrite !P. cbn. f_equal; ring.
  - intros r O. destruct (ex_on d 2 r (P 0) (P 1) O) as (kk & K & G). rewrite P, G. rewrite Rabs_left by nra. unfold hair. nra.
  - intros j a b (L1 & L2). cbn [map] in L1, L2. rewrite !P in *. destruct j as [|[|j]]; [|cbn in L2; discriminate L2|destruct j; discriminate L2]. cbn in L1, L2. injection L1 as <-. injection L2 as <-. unfold against, progress. cbn [fst snd]. replace (180 * PI / 180) with PI by field. rewrite sin_PI, cos_PI.
    assert (G : gap (0, 0 * d) (0, 1 * d) = d). { unfold gap. cbn [fst snd]. match goal with |- sqrt ?x = _ => replace x with (Rsqr d) by (unfold Rsqr; ring) end. apply sqrt_Rsqr. lra. } rewrite G. lra.
Qed.
Example C82_at_rest_meets : let k := {| lat := -1; lon := 0; heading := 0; speed := 0 |} in let h := ex_history k in
  latest (seen 9) h k /\ only_line h ex_task 1 [(0, 0); (1, 0)] /\ Rabs (speed k) < 1
  /\ let e := converter (run all_lines false ex_task init h) in let here := at_place e (lat k, lon k) in
     based e /\ (forall r, on (map (at_place e) [(0, 0); (1, 0)]) r -> hair < gap here r) /\ 1 <= gap (at_place e (0, 0)) (at_place e (1, 0)).
Proof.
  cbv zeta. rewrite ex_converter. destruct ex_place as (d & D & P). split; [apply follow_latest; reflexivity|]. split; [apply ex_only|]. cbn [standoff ex_task lat lon heading speed]. split; [rewrite Rabs_R0; lra|]. split; [eexists _, _; reflexivity|]. split.
  - intros r O. destruct (ex_on d (-1) r (P 0) (P 1) O) as (kk & K & G). rewrite P, G. rewrite Rabs_pos_eq by nra. unfold hair. nra.
  - rewrite !P. assert (G : gap (0, 0 * d) (0, 1 * d) = d). { unfold gap. cbn [fst snd]. match goal with |- sqrt ?x = _ => replace x with (Rsqr d) by (unfold Rsqr; ring) end. apply sqrt_Rsqr. lra. } rewrite G. lra.
Qed.
Example C82_on_line_meets : let k := {| lat := 0; lon := 0; heading := 0; speed := 10 |} in latest (seen (supported ex_task)) (ex_history k) k /\ only_line (ex_history k) ex_task 1 ((lat k, lon k) :: (1, 0) :: []).
Proof. cbv zeta. split; [apply follow_latest; reflexivity|apply ex_only]. Qed.

Print Assumptions C82_place.
Print Assumptions C82_silent.
Print Assumptions C82_closest.
Print Assumptions C82_against_refuted.
Print Assumptions C82_at_rest_refuted.
Print Assumptions C82_on_line_refuted.

(** Lemmas on the model of the lanes of an area search. *)
From Coq Require Import Reals List ZArith Lra Lia Psatz.
From Verif Require Import FlatEarthModel SteeringCourseModel SectorModel SectorProofs RasterModel RasterSpec.
Import ListNotations.
Open Scope R_scope.

(** Signs. *)
Lemma apart_spec a b : apart a b = true <-> 0 < a * b.
Proof.
  unfold apart, sign.
  destruct (Req_EM_T a 0) as [->|A]; [split; intros H; [discriminate|lra]|].
  destruct (Req_EM_T b 0) as [->|B]; [split; intros H; [discriminate|lra]|].
  assert (S : forall r, r <> 0 -> (0 < r /\ r / Rabs r = 1) \/ (r < 0 /\ r / Rabs r = -1)).
  { intros r H. destruct (Rlt_dec 0 r) as [P|P]; [left|right].
    - split; [exact P|]. rewrite Rabs_pos_eq by lra. field. lra.
    - split; [lra|]. rewrite Rabs_left by lra. field. lra. }
  destruct (S a A) as [[A1 A2]|[A1 A2]], (S b B) as [[B1 B2]|[B1 B2]]; rewrite A2, B2; destruct (Req_EM_T _ _);
    split; intros H; try reflexivity; try discriminate; try lra; nra.
Qed.

(** The height of the line through two points at [x]. *)
Definition height (a b : place) (x : R) : R := fst a + (fst b - fst a) * ((x - snd a) / (snd b - snd a)).

Definition touches (a b : place) (x : R) : Prop := snd a <> snd b /\ (snd a - x) * (snd b - x) <= 0.

Lemma between a b x : (a - x) * (b - x) <= 0 <-> (a <= x <= b) \/ (b <= x <= a).
Proof.
  split; [|intros [?|?]; nra]. intros H. destruct (Rle_dec a x), (Rle_dec b x); try (left; lra); try (right; lra).
  - destruct (Req_dec a x); [right; lra|]. destruct (Req_dec b x); [left; lra|]. nra.
  - nra.
Qed.

Lemma rounded_near num denom : denom <> 0 ->
  Rabs ((if Rlt_dec num 0 then num - (if Rlt_dec denom 0 then - denom / 2 else denom / 2)
         else num + (if Rlt_dec denom 0 then - denom / 2 else denom / 2)) / denom - num / denom) <= 1 / 2.
Proof.
  intros D. destruct (Rlt_dec num 0), (Rlt_dec denom 0);
  match goal with |- Rabs ?x <= _ => assert (E : x = 1 / 2 \/ x = - (1 / 2)) by (first [left; field; lra|right; field; lra]) end;
  apply Rabs_le; lra.
Qed.

Lemma rounded_at num denom v : denom <> 0 -> v = num / denom ->
  Rabs ((if Rlt_dec num 0 then num - (if Rlt_dec denom 0 then - denom / 2 else denom / 2)
         else num + (if Rlt_dec denom 0 then - denom / 2 else denom / 2)) / denom - v) <= 1 / 2.
Proof. intros D ->. apply rounded_near, D. Qed.

Lemma height_between a b x : touches a b x -> forall lo hi, lo < fst a < hi -> lo < fst b < hi -> lo < height a b x < hi.
Proof.
  intros [N T] lo hi A B. unfold height.
  set (t := (x - snd a) / (snd b - snd a)).
  assert (E : t * (snd b - snd a) = x - snd a) by (unfold t; field; lra).
  assert (0 <= t <= 1).
  { apply between in T. assert (0 <= t * ((snd b - snd a) * (snd b - snd a)) <= (snd b - snd a) * (snd b - snd a)).
    { rewrite <- Rmult_assoc, E. destruct T; split; nra. }
    assert (0 < (snd b - snd a) * (snd b - snd a)) by (apply Rsqr_pos_lt; lra). split; nra. }
  assert (Q : forall u v, 0 < u -> 0 < v -> 0 < (1 - t) * u + t * v).
  { intros u v U V. assert (0 <= t * v) by nra. assert (0 <= (1 - t) * u) by nra. destruct (Rlt_dec 0 t); nra. }
  specialize (Q (fst a - lo) (fst b - lo) ltac:(lra) ltac:(lra)) as Q1.
  specialize (Q (hi - fst a) (hi - fst b) ltac:(lra) ltac:(lra)) as Q2. split; lra.
Qed.

Lemma meet_lane a b x lo hi : lo < fst a < hi -> lo < fst b < hi ->
  (touches a b x /\ exists p, meet a b (lo, x) (hi, x) = Some p /\ Rabs (fst p - height a b x) <= 1 / 2 /\ Rabs (snd p - x) <= 1 / 2) \/
  (~ touches a b x /\ meet a b (lo, x) (hi, x) = None).
Proof.
  intros A B. unfold meet. cbn [fst snd].
  set (H := hi - lo). assert (HP : 0 < H) by (unfold H; lra).
  set (ka := fst b - fst a). set (la := snd a - snd b). set (ma := snd b * fst a - snd a * fst b).
  match goal with |- context [apart ?u ?v] => destruct (apart u v) eqn:E1 end;
  try match goal with |- context [apart ?u ?v] => destruct (apart u v) eqn:E2 end.
  - right. split; [|reflexivity]. intros T. apply apart_spec in E1.
    assert (Hh := height_between a b x T lo hi A B). destruct T as [N T].
    assert (Z1 : forall y, ka * x + la * y + ma = la * (y - height a b x)).
    { intros y. unfold height, ka, la, ma. field. lra. }
    rewrite !Z1 in E1. assert (0 < la * la) by (apply Rsqr_pos_lt; unfold la; lra).
    assert (la * (lo - height a b x) * (la * (hi - height a b x)) = la * la * ((lo - height a b x) * (hi - height a b x))) by ring.
    assert ((lo - height a b x) * (hi - height a b x) < 0) by nra. nra.
  - right. split; [|reflexivity]. intros [N T]. apply apart_spec in E2.
    assert (Z : forall s y, (hi - lo) * s + (x - x) * y + (x * lo - x * hi) = (hi - lo) * (s - x)) by (intros; ring).
    rewrite !Z in E2. fold H in E2. nra.
  - destruct (Req_EM_T _ 0) as [D|D].
    + right. split; [|reflexivity]. intros [N T]. unfold la in D. fold H in D.
      assert (H * (snd a - snd b) = 0) by nra. apply Rmult_integral in H0. lra.
    + left. assert (N : snd a <> snd b) by (intros E; apply D; unfold la; rewrite E; ring).
      split.
      * split; [exact N|]. destruct (Rlt_dec 0 ((snd a - x) * (snd b - x))) as [P|P]; [|lra]. exfalso.
        assert (Z : forall s y, (hi - lo) * s + (x - x) * y + (x * lo - x * hi) = (hi - lo) * (s - x)) by (intros; ring).
        rewrite !Z in E2. fold H in E2. assert (T : 0 < H * (snd a - x) * (H * (snd b - x))).
        { replace (H * (snd a - x) * (H * (snd b - x))) with (H * H * ((snd a - x) * (snd b - x))) by ring.
          apply Rmult_lt_0_compat; [nra|exact P]. }
        apply apart_spec in T. congruence.
      * eexists. split; [reflexivity|]. cbn [fst snd].
        assert (HH : H <> 0) by lra. assert (NN : snd b - snd a <> 0) by lra.
        assert (N2 : - (H * la) <> 0) by (intros E; apply D; rewrite <- E; ring).
        split; apply rounded_at; try exact D.
        -- unfold height. replace (x * lo - x * hi) with (- x * H) by (unfold H; ring).
           replace (ka * (x - x) - H * la) with (H * (snd b - snd a)) by (unfold la; ring). unfold ka, ma. field. lra.
        -- replace (x * lo - x * hi) with (- x * H) by (unfold H; ring).
           replace (ka * (x - x) - H * la) with (H * (snd b - snd a)) by (unfold la; ring). unfold la. field. lra.
Qed.

(** The sides of a boundary. *)
Lemma sides_app f a : forall l r, sides f (l ++ a :: r) = sides a l ++ sides f (a :: r).
Proof.
  induction l as [|b l IH]; intros r; [reflexivity|]. destruct l as [|c l]; [reflexivity|].
  cbn [app] in *. change (sides f (b :: c :: l ++ a :: r)) with ((b, c) :: sides f (c :: l ++ a :: r)).
  rewrite IH. reflexivity.
Qed.

Lemma sides_map (T : place -> place) f : forall l, sides (T f) (map T l) = map (fun s => (T (fst s), T (snd s))) (sides f l).
Proof.
  induction l as [|b l IH]; [reflexivity|]. destruct l as [|c l]; [reflexivity|]. cbn [map sides] in *. rewrite IH. reflexivity.
Qed.

Lemma sides_in f : forall l c d, In (c, d) (sides f l) -> In c l /\ (In d l \/ d = f).
Proof.
  induction l as [|b l IH]; intros c d H; [destruct H|]. destruct l as [|b' l].
  - destruct H as [E|[]]. injection E as <- <-. cbn. auto.
  - destruct H as [E|H]; [injection E as <- <-; cbn; auto|]. destruct (IH _ _ H) as [A B].
    split; [right; exact A|]. destruct B as [B|B]; [left; right; exact B|right; exact B].
Qed.

Lemma sides_next (v : place) (r : list place) (c d : place) : In (c, d) (sides v (v :: r)) -> next (v :: r) c d.
Proof.
  intros H. enough (G : forall l k, v :: r = k ++ l -> In (c, d) (sides v l) -> next (v :: r) c d) by (apply (G (v :: r) []); [reflexivity|exact H]).
  clear H. induction l as [|b l IH]; intros k E H; [destruct H|]. destruct l as [|b' l].
  - destruct H as [E'|[]]. injection E' as <- <-. right. exists k. split; [exact E|reflexivity].
  - destruct H as [E'|H]; [injection E' as <- <-; left; exists k, l; exact E|].
    apply (IH (k ++ [b])); [rewrite <- app_assoc; exact E|exact H].
Qed.

(** The first and the last side that touches a line, on the way from one side of it to the other ([g] is 1 or -1). *)
Lemma first_touch x g (f : place) : g * g = 1 -> 0 <= g * (snd f - x) -> forall l a, g * (snd a - x) < 0 ->
  exists (pre : list (place * place)) (c d : place) (post : list (place * place)), sides f (a :: l) = pre ++ (c, d) :: post /\ (forall s, In s pre -> ~ touches (fst s) (snd s) x) /\
    g * (snd c - x) < 0 /\ 0 <= g * (snd d - x).
Proof.
  intros G F. induction l as [|b l IH]; intros a A.
  - exists [], a, f, []. cbn. repeat split; try assumption. tauto.
  - destruct (Rle_dec 0 (g * (snd b - x))) as [B|B].
    + exists [], a, b, (sides f (b :: l)). repeat split; try assumption. intros s [].
    + destruct (IH b ltac:(lra)) as (pre & c & d & post & E & N & C & D). exists ((a, b) :: pre), c, d, post.
      change (sides f (a :: b :: l)) with ((a, b) :: sides f (b :: l)). rewrite E. repeat split; try assumption.
      intros s [<-|Hs]; [|apply N, Hs]. cbn. intros [_ T].
      assert ((snd a - x) * (snd b - x) = g * (snd a - x) * (g * (snd b - x))) by (transitivity (g * g * ((snd a - x) * (snd b - x))); [rewrite G|]; ring).
      nra.
Qed.

Lemma last_touch x g (a : place) : g * g = 1 -> 0 <= g * (snd a - x) -> forall l f, g * (snd f - x) < 0 ->
  exists (pre : list (place * place)) (c d : place) (post : list (place * place)), sides f (a :: l) = pre ++ (c, d) :: post /\ (forall s, In s post -> ~ touches (fst s) (snd s) x) /\
    0 <= g * (snd c - x) /\ g * (snd d - x) < 0.
Proof.
  intros G A l. induction l as [|z l IH] using rev_ind; intros f F.
  - exists [], a, f, []. cbn. repeat split; try assumption. tauto.
  - change (a :: l ++ [z]) with ((a :: l) ++ z :: []). rewrite sides_app.
    destruct (Rle_dec 0 (g * (snd z - x))) as [B|B].
    + exists (sides z (a :: l)), z, f, []. repeat split; try assumption. intros s [].
    + destruct (IH z ltac:(lra)) as (pre & c & d & post & E & N & C & D). exists pre, c, d, (post ++ [(z, f)]).
      rewrite E, <- app_assoc. repeat split; try assumption.
      intros s Hs. apply in_app_iff in Hs as [Hs|[<-|[]]]; [apply N, Hs|]. cbn. intros [_ T].
      assert ((snd z - x) * (snd f - x) = g * (snd z - x) * (g * (snd f - x))) by (transitivity (g * g * ((snd z - x) * (snd f - x))); [rewrite G|]; ring).
      nra.
Qed.

Lemma cross_touches g x c d : g * g = 1 -> g * (snd c - x) < 0 -> 0 <= g * (snd d - x) -> touches c d x /\ touches d c x.
Proof.
  intros G C D.
  assert (E : (snd c - x) * (snd d - x) = g * (snd c - x) * (g * (snd d - x))) by (transitivity (g * g * ((snd c - x) * (snd d - x))); [rewrite G|]; ring).
  unfold touches. repeat split; try (intros H; rewrite H in C; lra); try (intros H; rewrite H in D; lra); nra.
Qed.

(** The intersections of a boundary between [lo] and [hi] with a lane. *)
Definition hits (ss : list (place * place)) (x lo hi : R) : list place := intersections ss (lo, x) (hi, x).

Definition bounded (l : list place) (lo hi : R) : Prop := forall p, In p l -> lo < fst p < hi.

Lemma hits_app s1 s2 x lo hi : hits (s1 ++ s2) x lo hi = hits s1 x lo hi ++ hits s2 x lo hi.
Proof. apply flat_map_app. Qed.

Definition near_line (a b : place) (x : R) (p : place) : Prop := Rabs (fst p - height a b x) <= 1 / 2 /\ Rabs (snd p - x) <= 1 / 2.

Lemma hits_one (c d : place) (post : list (place * place)) x lo hi : lo < fst c < hi -> lo < fst d < hi -> touches c d x ->
  exists p, near_line c d x p /\ hits ((c, d) :: post) x lo hi = p :: hits post x lo hi.
Proof.
  intros C D T. unfold hits, intersections. cbn [flat_map fst snd]. destruct (meet_lane c d x lo hi C D) as [(_ & p & E & N)|[N _]]; [|contradiction].
  exists p. rewrite E. split; [exact N|reflexivity].
Qed.

Lemma hits_none (ss : list (place * place)) x lo hi : (forall s : place * place, In s ss -> lo < fst (fst s) < hi /\ lo < fst (snd s) < hi /\ ~ touches (fst s) (snd s) x) ->
  hits ss x lo hi = [].
Proof.
  induction ss as [|s ss IH]; intros H; [reflexivity|]. unfold hits, intersections in *. cbn [flat_map].
  destruct (H s (or_introl eq_refl)) as (A & B & N). destruct (meet_lane (fst s) (snd s) x lo hi A B) as [(T & _)|[_ E]]; [contradiction|].
  rewrite E. apply IH. intros s' Hs. apply H. right. exact Hs.
Qed.

Lemma hits_near (ss : list (place * place)) x lo hi : (forall s : place * place, In s ss -> lo < fst (fst s) < hi /\ lo < fst (snd s) < hi) ->
  forall p, In p (hits ss x lo hi) -> Rabs (snd p - x) <= 1 / 2.
Proof.
  intros H p Hp. apply in_flat_map in Hp as (s & Hs & Hp). destruct (H s Hs) as [A B].
  destruct (meet_lane (fst s) (snd s) x lo hi A B) as [(T & q & E & _ & N)|[_ E]]; rewrite E in Hp; [|destruct Hp].
  destruct Hp as [<-|[]]. exact N.
Qed.

Lemma hits_cross g x (f : place) (l : list place) (a : place) lo hi : g * g = 1 -> 0 <= g * (snd f - x) -> g * (snd a - x) < 0 ->
  lo < fst f < hi -> bounded (a :: l) lo hi -> (0 < length (hits (sides f (a :: l)) x lo hi))%nat.
Proof.
  intros G F A Bf B. destruct (first_touch x g f G F l a A) as (pre & c & d & post & E & _ & C & D).
  assert (I : In (c, d) (sides f (a :: l))) by (rewrite E; apply in_app_iff; right; left; reflexivity).
  apply sides_in in I as [I1 I2]. rewrite E, hits_app, app_length.
  destruct (hits_one c d post x lo hi (B _ I1)) as (p & _ & ->).
  - destruct I2 as [I2| ->]; [apply B, I2|exact Bf].
  - exact (proj1 (cross_touches g x c d G C D)).
  - cbn. lia.
Qed.

Lemma apart_split {A} (u t : A) l : In u l -> In t l -> u <> t ->
  (exists l1 l2 l3, l = l1 ++ u :: l2 ++ t :: l3) \/ (exists l1 l2 l3, l = l1 ++ t :: l2 ++ u :: l3).
Proof.
  intros U T N. apply in_split in U as (l1 & l2 & ->). apply in_app_iff in T as [T|[T|T]]; [|contradiction|].
  - right. apply in_split in T as (k1 & k2 & ->). exists k1, k2, l2. rewrite <- app_assoc. reflexivity.
  - left. apply in_split in T as (k1 & k2 & ->). exists l1, k1, k2. reflexivity.
Qed.

Lemma bounded_app l1 l2 lo hi : bounded (l1 ++ l2) lo hi <-> bounded l1 lo hi /\ bounded l2 lo hi.
Proof.
  unfold bounded. split; [intros H; split; intros p Hp; apply H, in_app_iff; auto|].
  intros [A B] p Hp. apply in_app_iff in Hp as [Hp|Hp]; auto.
Qed.

Lemma two_hits_order g (v : place) (r : list place) x lo hi (u t : place) (l1 l2 l3 : list place) : g * g = 1 -> v :: r = l1 ++ u :: l2 ++ t :: l3 -> bounded (v :: r) lo hi ->
  g * (snd u - x) < 0 -> 0 < g * (snd t - x) -> (1 < length (hits (sides v (v :: r)) x lo hi))%nat.
Proof.
  intros G E B U T. assert (Bv : lo < fst v < hi) by (apply B; left; reflexivity).
  assert (Gn : - g * - g = 1) by lra.
  assert (B' := B). rewrite E in B'. apply bounded_app in B' as [B1 B2]. change (u :: l2 ++ t :: l3) with ((u :: l2) ++ t :: l3) in B2.
  apply bounded_app in B2 as [B2 B3]. assert (Bt : lo < fst t < hi) by (apply B3; left; reflexivity).
  assert (Bu : lo < fst u < hi) by (apply B2; left; reflexivity).
  assert (Mid : (0 < length (hits (sides t (u :: l2)) x lo hi))%nat) by (apply (hits_cross g); try assumption; lra).
  rewrite E, sides_app. change (u :: l2 ++ t :: l3) with ((u :: l2) ++ t :: l3). rewrite sides_app, !hits_app, !app_length.
  destruct (Rle_dec (g * (snd v - x)) 0) as [V|V].
  - assert (0 < length (hits (sides v (t :: l3)) x lo hi))%nat by (apply (hits_cross (- g)); try assumption; lra). lia.
  - destruct l1 as [|v' l1]; cbn in E; injection E as Ev Er; [subst u; lra|]. subst v'.
    assert (0 < length (hits (sides u (v :: l1)) x lo hi))%nat by (apply (hits_cross (- g)); try assumption; lra). lia.
Qed.

Lemma two_hits (v : place) (r : list place) x lo hi (u t : place) : bounded (v :: r) lo hi -> In u (v :: r) -> In t (v :: r) -> snd u < x < snd t ->
  (1 < length (hits (sides v (v :: r)) x lo hi))%nat.
Proof.
  intros B U T X. destruct (apart_split u t (v :: r) U T) as [(l1 & l2 & l3 & E)|(l1 & l2 & l3 & E)].
  - intros ->. lra.
  - apply (two_hits_order 1 v r x lo hi u t l1 l2 l3); try assumption; lra.
  - apply (two_hits_order (-1) v r x lo hi t u l1 l2 l3); try assumption; lra.
Qed.

(** If the first point is not in the lane, the first and the last intersection are on sides that cross it in opposite directions. *)
Lemma ends_opposite g (v : place) (r : list place) x lo hi (t : place) : g * g = 1 -> bounded (v :: r) lo hi -> In t (v :: r) ->
  g * (snd v - x) < 0 -> 0 < g * (snd t - x) ->
  exists (a b c d p : place) (m : list place) (q : place), In (a, b) (sides v (v :: r)) /\ In (c, d) (sides v (v :: r)) /\ 0 < g * (snd b - snd a) /\ g * (snd d - snd c) < 0 /\
    hits (sides v (v :: r)) x lo hi = p :: m ++ [q] /\ near_line a b x p /\ near_line c d x q.
Proof.
  intros G B T V X. assert (Bv : lo < fst v < hi) by (apply B; left; reflexivity).
  destruct T as [->|T]; [lra|]. apply in_split in T as (l1 & l3 & ->).
  change (v :: l1 ++ t :: l3) with ((v :: l1) ++ t :: l3) in *. apply bounded_app in B as [B1 B2].
  assert (Bt : lo < fst t < hi) by (apply B2; left; reflexivity). rewrite sides_app.
  destruct (first_touch x g t G ltac:(lra) l1 v V) as (pre & a & b & post & E & N & A & B).
  destruct (last_touch x g t G ltac:(lra) l3 v V) as (pre' & c & d & post' & E' & N' & C & D).
  rewrite E, E'.
  assert (I : In (a, b) (sides t (v :: l1))) by (rewrite E; apply in_app_iff; right; left; reflexivity).
  assert (I' : In (c, d) (sides v (t :: l3))) by (rewrite E'; apply in_app_iff; right; left; reflexivity).
  apply sides_in in I as [I1 I2]. apply sides_in in I' as [I1' I2'].
  destruct (hits_one a b post x lo hi (B1 _ I1)) as (p & P & Ep).
  { destruct I2 as [I2| ->]; [apply B1, I2|exact Bt]. } { exact (proj1 (cross_touches g x a b G A B)). }
  destruct (hits_one c d post' x lo hi (B2 _ I1')) as (q & Q & Eq).
  { destruct I2' as [I2'| ->]; [apply B2, I2'|exact Bv]. } { exact (proj2 (cross_touches g x d c G D C)). }
  exists a, b, c, d, p, (hits post x lo hi ++ hits pre' x lo hi), q.
  split; [apply in_app_iff; left; apply in_app_iff; right; left; reflexivity|].
  split; [apply in_app_iff; right; apply in_app_iff; right; left; reflexivity|].
  split; [lra|]. split; [lra|]. split; [|split; assumption].
  rewrite !hits_app, Ep, Eq.
  rewrite (hits_none pre), (hits_none post').
  - cbn. rewrite <- app_assoc. reflexivity.
  - intros s Hs. assert (Hi : In (fst s, snd s) (sides v (t :: l3))) by (destruct s; rewrite E'; apply in_app_iff; right; right; exact Hs).
    apply sides_in in Hi as [H1 H2]. split; [apply B2, H1|]. split; [destruct H2 as [H2| ->]; [apply B2, H2|exact Bv]|apply N', Hs].
  - intros s Hs. assert (Hi : In (fst s, snd s) (sides t (v :: l1))) by (destruct s; rewrite E; apply in_app_iff; left; exact Hs).
    apply sides_in in Hi as [H1 H2]. split; [apply B1, H1|]. split; [destruct H2 as [H2| ->]; [apply B1, H2|exact Bt]|apply N, Hs].
Qed.

(** The frame of the lanes. *)
Lemma transform_along c h p : fst (transform c h p) = along h p - along h c.
Proof. unfold transform, along. cbn. ring. Qed.
Lemma transform_across c h p : snd (transform c h p) = across h p - across h c.
Proof. unfold transform, across. cbn. ring. Qed.

Lemma cs h : cos h * cos h + sin h * sin h = 1.
Proof. pose proof (sin2_cos2 h). unfold Rsqr in *. lra. Qed.

Lemma retransform_along c h p : along h (retransform c h p) = fst p + along h c.
Proof. unfold retransform, along. cbn. transitivity (fst p * (cos h * cos h + sin h * sin h) + (fst c * cos h + snd c * sin h)); [ring|rewrite cs; ring]. Qed.
Lemma retransform_across c h p : across h (retransform c h p) = snd p + across h c.
Proof. unfold retransform, across. cbn. transitivity (snd p * (cos h * cos h + sin h * sin h) + (snd c * cos h - fst c * sin h)); [ring|rewrite cs; ring]. Qed.

Lemma transform_left c h a b q : left_of (transform c h a) (transform c h b) (transform c h q) = left_of a b q.
Proof.
  unfold left_of, transform. cbn [fst snd].
  transitivity (((snd b - snd a) * (fst q - fst a) - (fst b - fst a) * (snd q - snd a)) * (cos h * cos h + sin h * sin h)); [ring|rewrite cs; ring].
Qed.

Lemma mean_linear al be ga : forall ps t s, mean ps t s -> (forall p, In p ps -> 0 <= al * fst p + be * snd p + ga) ->
  0 <= al * fst s + be * snd s + ga * t.
Proof.
  intros ps t s M. induction M as [|p ps w t s W M IH]; intros H; cbn; [lra|].
  specialize (IH (fun q Hq => H q (or_intror Hq))). specialize (H p (or_introl eq_refl)).
  assert (0 <= w * (al * fst p + be * snd p + ga)) by (apply Rmult_le_pos; assumption). lra.
Qed.

Lemma mean_self : forall ps p, In p ps -> inside ps p.
Proof.
  assert (Z : forall ps, mean ps 0 (0, 0)).
  { induction ps as [|p ps IH]; [constructor|]. pose proof (m_cons p ps 0 0 (0, 0) ltac:(lra) IH) as M. cbn in M.
    replace (0 + 0) with 0 in M by ring. replace (0 * fst p + 0) with 0 in M by ring. replace (0 * snd p + 0) with 0 in M by ring. exact M. }
  unfold inside. induction ps as [|a ps IH]; intros p H; [destruct H|]. destruct H as [->|H].
  - pose proof (m_cons p ps 1 0 (0, 0) ltac:(lra) (Z ps)) as M. cbn in M. destruct p as [n e]. cbn in M.
    replace (1 + 0) with 1 in M by ring. replace (1 * n + 0) with n in M by ring. replace (1 * e + 0) with e in M by ring. exact M.
  - pose proof (m_cons a ps 0 1 p ltac:(lra) (IH p H)) as M. destruct p as [n e]. cbn in M.
    replace (0 + 1) with 1 in M by ring. replace (0 * fst a + n) with n in M by ring. replace (0 * snd a + e) with e in M by ring. exact M.
Qed.

Lemma inside_left a b s ps q : (forall p, In p ps -> 0 <= s * left_of a b p) -> inside ps q -> 0 <= s * left_of a b q.
Proof.
  intros H I. pose proof (mean_linear (s * (snd b - snd a)) (- s * (fst b - fst a)) (s * ((fst b - fst a) * snd a - (snd b - snd a) * fst a)) ps 1 q I) as M.
  replace (s * left_of a b q) with (s * (snd b - snd a) * fst q + - s * (fst b - fst a) * snd q + s * ((fst b - fst a) * snd a - (snd b - snd a) * fst a) * 1)
    by (unfold left_of; ring).
  apply M. intros p Hp. specialize (H p Hp). unfold left_of in H. nra.
Qed.

Lemma inside_across h ps q w e : (forall p, In p ps -> w <= across h p <= e) -> inside ps q -> w <= across h q <= e.
Proof.
  intros H I. pose proof (mean_linear (- sin h) (cos h) (- w) ps 1 q I) as M1. pose proof (mean_linear (sin h) (- cos h) e ps 1 q I) as M2.
  unfold across in *. split; [enough (0 <= - sin h * fst q + cos h * snd q + - w * 1) by lra; apply M1|
    enough (0 <= sin h * fst q + - cos h * snd q + e * 1) by lra; apply M2]; intros p Hp; specialize (H p Hp); lra.
Qed.

(** The extents. *)
Lemma least_spec : forall l x, least x l <= x /\ (forall y, In y l -> least x l <= y) /\ In (least x l) (x :: l).
Proof.
  unfold least. induction l as [|a l IH]; intros x; cbn [fold_left]; [cbn; repeat split; [lra|tauto|tauto]|].
  destruct (IH (Rmin x a)) as (A & B & C). pose proof (Rmin_l x a). pose proof (Rmin_r x a). repeat split; [lra| |].
  - intros y [<-|Hy]; [lra|apply B, Hy].
  - destruct C as [C|C]; [|right; right; exact C]. rewrite <- C. unfold Rmin. destruct (Rle_dec x a); [left|right; left]; reflexivity.
Qed.

Lemma greatest_spec : forall l x, x <= greatest x l /\ (forall y, In y l -> y <= greatest x l) /\ In (greatest x l) (x :: l).
Proof.
  unfold greatest. induction l as [|a l IH]; intros x; cbn [fold_left]; [cbn; repeat split; [lra|tauto|tauto]|].
  destruct (IH (Rmax x a)) as (A & B & C). pose proof (Rmax_l x a). pose proof (Rmax_r x a). repeat split; [lra| |].
  - intros y [<-|Hy]; [lra|apply B, Hy].
  - destruct C as [C|C]; [|right; right; exact C]. rewrite <- C. unfold Rmax. destruct (Rle_dec x a); [right; left|left]; reflexivity.
Qed.

Lemma extents c h v r w e : reaches h (v :: r) w e ->
  least (snd (transform c h v)) (map snd (map (transform c h) r)) = w - across h c /\
  greatest (snd (transform c h v)) (map snd (map (transform c h) r)) = e - across h c.
Proof.
  intros (A & (p & P1 & P2) & (q & Q1 & Q2)).
  set (T := transform c h) in *.
  assert (I : forall z, In z (v :: r) -> In (snd (T z)) (snd (T v) :: map snd (map T r))).
  { intros z Hz. change (snd (T v) :: map snd (map T r)) with (map snd (map T (v :: r))). apply in_map, in_map, Hz. }
  assert (J : forall y, In y (snd (T v) :: map snd (map T r)) -> w - across h c <= y <= e - across h c).
  { intros y Hy. change (snd (T v) :: map snd (map T r)) with (map snd (map T (v :: r))) in Hy.
    apply in_map_iff in Hy as (z & <- & Hz). apply in_map_iff in Hz as (z' & <- & Hz). unfold T. rewrite transform_across. specialize (A z' Hz). lra. }
  destruct (least_spec (map snd (map T r)) (snd (T v))) as (L1 & L2 & L3). destruct (greatest_spec (map snd (map T r)) (snd (T v))) as (G1 & G2 & G3).
  split.
  - apply Rle_antisym; [|apply J, L3]. rewrite <- P2. rewrite <- (transform_across c h p). fold T.
    destruct (I p P1) as [<-|Hp]; [exact L1|apply L2, Hp].
  - apply Rle_antisym; [apply J, G3|]. rewrite <- Q2. rewrite <- (transform_across c h q). fold T.
    destruct (I q Q1) as [<-|Hp]; [exact G1|apply G2, Hp].
Qed.

Lemma span_bounded v r : bounded (v :: r) (least (fst v) (map fst r) - 100000) (greatest (fst v) (map fst r) + 100000).
Proof.
  intros p Hp. destruct (least_spec (map fst r) (fst v)) as (L1 & L2 & _). destruct (greatest_spec (map fst r) (fst v)) as (G1 & G2 & _).
  destruct Hp as [<-|Hp]; [lra|]. specialize (L2 _ (in_map fst _ _ Hp)). specialize (G2 _ (in_map fst _ _ Hp)). lra.
Qed.

(** A lane. *)
Definition leg_of (s : scan) (up : bool) (p q : place) : leg :=
  let (n, m) := if Rlt_dec (fst p) (fst q) then (q, p) else (p, q) in
  if up
  then {| start := retransform (pole s) (axis s) (fst m - lead s, snd m);
          stop := retransform (pole s) (axis s) (fst n - trail s, snd n); heading := heading_up s |}
  else {| start := retransform (pole s) (axis s) (fst n + lead s, snd n);
          stop := retransform (pole s) (axis s) (fst m + trail s, snd m); heading := heading_down s |}.

Lemma in_lane_shape s x up p m q : hits (border s) x (south s - 100000) (north s + 100000) = p :: m ++ [q] ->
  in_lane s x up = Some (leg_of s up p q).
Proof.
  unfold hits, in_lane, leg_of. intros ->. destruct (m ++ [q]) as [|a l] eqn:E; [destruct m; discriminate|].
  assert (L : last (a :: l) p = q) by (rewrite <- E; apply last_last).
  rewrite L. destruct (Rlt_dec _ _); reflexivity.
Qed.

Lemma in_lane_hits s x up g : in_lane s x up = Some g -> exists p m q,
  hits (border s) x (south s - 100000) (north s + 100000) = p :: m ++ [q] /\ g = leg_of s up p q.
Proof.
  intros H. destruct (hits (border s) x (south s - 100000) (north s + 100000)) as [|p l] eqn:E.
  - unfold in_lane in H. unfold hits in E. rewrite E in H. discriminate.
  - destruct l as [|a l]; [unfold in_lane in H; unfold hits in E; rewrite E in H; discriminate|].
    destruct (exists_last (l := a :: l) ltac:(discriminate)) as (m & q & Em). rewrite Em in *. exists p, m, q. split; [reflexivity|].
    rewrite (in_lane_shape s x up p m q E) in H. congruence.
Qed.

Lemma in_lane_some s v r x up u t : border s = sides v (v :: r) -> south s = least (fst v) (map fst r) -> north s = greatest (fst v) (map fst r) ->
  In u (v :: r) -> In t (v :: r) -> snd u < x < snd t -> in_lane s x up <> None.
Proof.
  intros B S N U T X. pose proof (span_bounded v r) as Bd. rewrite <- S, <- N in Bd.
  pose proof (two_hits v r x _ _ u t Bd U T X) as H. rewrite <- B in H.
  destruct (hits (border s) x (south s - 100000) (north s + 100000)) as [|p [|a l]] eqn:E; cbn in H; try lia.
  destruct (exists_last (l := a :: l) ltac:(discriminate)) as (m & q & Em). rewrite Em in E.
  rewrite (in_lane_shape s x up p m q E). discriminate.
Qed.

Lemma in_lane_near s v r x up g : border s = sides v (v :: r) -> south s = least (fst v) (map fst r) -> north s = greatest (fst v) (map fst r) ->
  in_lane s x up = Some g -> in_the_lane (axis s) (x + across (axis s) (pole s)) (start g) (stop g) /\
    heading g = (if up then heading_up s else heading_down s).
Proof.
  intros B S N H. destruct (in_lane_hits s x up g H) as (p & m & q & E & ->). pose proof (span_bounded v r) as Bd. rewrite <- S, <- N in Bd.
  assert (K : forall a, In a (p :: m ++ [q]) -> Rabs (snd a - x) <= 1 / 2).
  { rewrite <- E, B. apply hits_near. intros [c d] Hs. apply sides_in in Hs as [H1 H2]. cbn [fst snd].
    split; [apply Bd, H1|]. destruct H2 as [H2| ->]; [apply Bd, H2|apply Bd; left; reflexivity]. }
  pose proof (K p ltac:(left; reflexivity)) as K1. pose proof (K q ltac:(right; apply in_app_iff; right; left; reflexivity)) as K2.
  unfold leg_of, in_the_lane. destruct (Rlt_dec _ _), up; cbn [start stop heading]; rewrite !retransform_across; cbn [snd];
    repeat split;
    match goal with |- Rabs (?a + ?b - (?c + ?b)) <= _ => replace (a + b - (c + b)) with (a - c) by ring; assumption end.
Qed.

Lemma abs_between a b : Rabs a <= b -> - b <= a <= b.
Proof. unfold Rabs. destruct (Rcase_abs a); lra. Qed.

Lemma leg_sweeps s up p q y0 y1 Q : Rabs (fst p - y0) <= 1 / 2 -> Rabs (fst q - y1) <= 1 / 2 ->
  let y := along (axis s) Q - along (axis s) (pole s) in (y0 <= y <= y1 \/ y1 <= y <= y0) ->
  sweeps_over (axis s) (lead s) (trail s) up (start (leg_of s up p q)) (stop (leg_of s up p q)) Q.
Proof.
  intros A B y Y. unfold y in Y. clear y. apply abs_between in A. apply abs_between in B.
  unfold leg_of, sweeps_over. destruct (Rlt_dec _ _), up; cbn [start stop]; rewrite !retransform_along; cbn [fst]; lra.
Qed.

Lemma left_height a b q : snd b - snd a <> 0 -> left_of a b q = (snd b - snd a) * (fst q - height a b (snd q)).
Proof. intros N. unfold left_of, height. field. lra. Qed.

Lemma in_lane_chord s c h ps v r x up g u t Q : ps = v :: r -> pole s = c -> axis s = h ->
  border s = sides (transform c h v) (map (transform c h) ps) ->
  south s = least (fst (transform c h v)) (map fst (map (transform c h) r)) -> north s = greatest (fst (transform c h v)) (map fst (map (transform c h) r)) ->
  convex ps -> In u ps -> In t ps -> across h u - across h c < x < across h t - across h c -> across h v - across h c <> x ->
  in_lane s x up = Some g -> inside ps Q -> across h Q - across h c = x ->
  sweeps_over h (lead s) (trail s) up (start g) (stop g) Q.
Proof.
  intros -> Ep Ea B S N Cv U T X V H I E. set (F := transform c h) in *.
  pose proof (span_bounded (F v) (map F r)) as Bd. rewrite <- S, <- N in Bd.
  assert (O : exists g0 t0, g0 * g0 = 1 /\ In (F t0) (F v :: map F r) /\ g0 * (snd (F v) - x) < 0 /\ 0 < g0 * (snd (F t0) - x)).
  { destruct (Rlt_dec (snd (F v)) x) as [L|L]; [exists 1, t|exists (-1), u]; unfold F in *; rewrite !transform_across in *;
      (split; [lra|split; [apply (in_map (transform c h) (v :: r)); assumption|lra]]). }
  destruct O as (g0 & t0 & G & It & V1 & T1).
  destruct (ends_opposite g0 (F v) (map F r) x _ _ (F t0) G Bd It V1 T1) as (a & b & cc & d & p & m & q & I1 & I2 & D1 & D2 & Eh & [Np _] & [Nq _]).
  cbn [map] in B. rewrite <- B in Eh. rewrite (in_lane_shape s x up p m q Eh) in H. injection H as <-.
  subst c h. apply (leg_sweeps s up p q _ _ Q Np Nq).
  change (F v :: map F r) with (map F (v :: r)) in I1, I2. rewrite sides_map in I1, I2.
  apply in_map_iff in I1 as ([a0 b0] & Ei1 & I1). injection Ei1 as <- <-. apply in_map_iff in I2 as ([c0 d0] & Ei2 & I2). injection Ei2 as <- <-.
  cbn [fst snd] in *. apply sides_next in I1. apply sides_next in I2.
  assert (W : forall s0, (forall a b q, next (v :: r) a b -> In q (v :: r) -> 0 <= s0 * left_of a b q) ->
    0 <= s0 * ((snd (F b0) - snd (F a0)) * (fst (F Q) - height (F a0) (F b0) x)) /\
    0 <= s0 * ((snd (F d0) - snd (F c0)) * (fst (F Q) - height (F c0) (F d0) x))).
  { intros s0 H0. assert (Ex : snd (F Q) = x) by (unfold F; rewrite transform_across; exact E). rewrite <- Ex, <- !left_height.
    - unfold F. rewrite !transform_left. split; apply inside_left with (ps := v :: r); try exact I; intros p0 Hp0; apply H0; assumption.
    - intros Z. rewrite Z in D2. lra.
    - intros Z. rewrite Z in D1. lra. }
  assert (Ey : fst (F Q) = along (axis s) Q - along (axis s) (pole s)) by (unfold F; apply transform_along). rewrite <- Ey.
  assert (G1 : g0 = 1 \/ g0 = -1).
  { destruct (Req_dec g0 1); [left; assumption|right]. assert (Z : (g0 - 1) * (g0 + 1) = 0) by lra. apply Rmult_integral in Z. lra. }
  destruct Cv as [Cv|Cv].
  - destruct (W 1) as [W1 W2]; [intros a' b' q' Hn Hq; specialize (Cv _ _ _ Hn Hq); lra|].
    destruct G1 as [-> | ->]; [left|right]; split; nra.
  - destruct (W (-1)) as [W1 W2]; [intros a' b' q' Hn Hq; specialize (Cv _ _ _ Hn Hq); lra|].
    destruct G1 as [-> | ->]; [right|left]; split; nra.
Qed.

(** The lanes one after the other. *)
Definition turned (up : bool) (i : nat) : bool := if Nat.even i then up else negb up.

Lemma turned_S up i : turned (negb up) i = turned up (S i).
Proof. unfold turned. rewrite Nat.even_succ, <- Nat.negb_even. destruct (Nat.even i), up; reflexivity. Qed.

Lemma sweep_shape s w e over : w < e -> over <> 0 -> (forall x up, w < x < e -> in_lane s x up <> None) ->
  forall fuel x up legs, sweep fuel s w e over x up = Some legs -> (if Rlt_dec 0 over then w < x else x < e) ->
  (forall i, (i < length legs)%nat <-> w < x + INR i * over < e) /\
  (forall i g, nth_error legs i = Some g -> in_lane s (x + INR i * over) (turned up i) = Some g).
Proof.
  intros We Nz Ok. induction fuel as [|f IH]; intros x up legs H B; [discriminate|]. cbn [sweep] in H.
  match type of H with (if ?b then _ else _) = _ => destruct b eqn:Cb end.
  - assert (X : w < x < e) by (destruct (Rlt_dec 0 over), (Rlt_dec x e), (Rlt_dec w x); try discriminate; lra).
    destruct (in_lane s x up) as [g|] eqn:Eg; [|exfalso; apply (Ok x up X Eg)].
    destruct (sweep f s w e over (x + over) (negb up)) as [l|] eqn:El; [|discriminate]. injection H as <-.
    destruct (IH _ _ _ El ltac:(destruct (Rlt_dec 0 over); lra)) as [A C]. split.
    + intros [|i]; [cbn; split; [intros _; lra|lia]|]. cbn [length]. rewrite S_INR.
      replace (x + (INR i + 1) * over) with (x + over + INR i * over) by ring. rewrite <- A. lia.
    + intros [|i] g' Hg; cbn in Hg.
      * injection Hg as <-. cbn. rewrite Rmult_0_l, Rplus_0_r. exact Eg.
      * rewrite S_INR, <- turned_S. replace (x + (INR i + 1) * over) with (x + over + INR i * over) by ring. apply C, Hg.
  - injection H as <-. split; [|intros [|i] g Hg; discriminate].
    intros i. pose proof (pos_INR i) as Pi. split; [cbn; lia|]. intros X. exfalso.
    destruct (Rlt_dec 0 over), (Rlt_dec x e), (Rlt_dec w x); try discriminate; nra.
Qed.

Lemma sweep_flat s w over x up : forall fuel legs, (if Rlt_dec 0 over then w <= x else x <= w) -> sweep fuel s w w over x up = Some legs -> legs = [].
Proof.
  intros [|f] legs B H; [discriminate|]. cbn [sweep] in H.
  destruct (Rlt_dec 0 over), (Rlt_dec x w), (Rlt_dec w x); try lra; injection H as <-; reflexivity.
Qed.

Lemma sweep_ends s w e over : forall n x up, (if Rlt_dec 0 over then e <= x + INR n * over else x + INR n * over <= w) ->
  exists legs, forall fuel, (n < fuel)%nat -> sweep fuel s w e over x up = Some legs.
Proof.
  induction n as [|n IH]; intros x up H.
  - exists []. intros [|f] F; [lia|]. cbn [sweep]. cbn in H. destruct (Rlt_dec 0 over), (Rlt_dec x e), (Rlt_dec w x); try reflexivity; lra.
  - destruct (IH (x + over) (negb up)) as [l Hl].
    { rewrite S_INR in H. destruct (Rlt_dec 0 over); lra. }
    destruct (if (if Rlt_dec 0 over then if Rlt_dec x e then true else false else if Rlt_dec w x then true else false) then true else false) eqn:Cb.
    + destruct (in_lane s x up) as [g|] eqn:Eg.
      * exists (g :: l). intros [|f] F; [lia|]. cbn [sweep]. rewrite Eg, (Hl f) by lia.
        destruct (Rlt_dec 0 over), (Rlt_dec x e), (Rlt_dec w x); try reflexivity; discriminate.
      * exists []. intros [|f] F; [lia|]. cbn [sweep]. rewrite Eg.
        destruct (Rlt_dec 0 over), (Rlt_dec x e), (Rlt_dec w x); reflexivity.
    + exists []. intros [|f] F; [lia|]. cbn [sweep].
      destruct (Rlt_dec 0 over), (Rlt_dec x e), (Rlt_dec w x); try reflexivity; discriminate.
Qed.

(** The whole. *)
Definition scan_of (c : place) (h : R) (v : place) (r : list place) (lead_ trail_ : R) : scan :=
  {| border := sides (transform c h v) (map (transform c h) (v :: r)); pole := c; axis := h;
     south := least (fst (transform c h v)) (map fst (map (transform c h) r));
     north := greatest (fst (transform c h v)) (map fst (map (transform c h) r)); lead := lead_; trail := trail_ |}.

Lemma begin_lane k narrow west up w e L a : scheme k narrow west up -> 0 < L ->
  begin k (w - a) (e - a) L = (lane narrow west w e L 0 - a, (if west then L else - L), up) /\
  10 / 11 <= narrow <= 2.
Proof.
  intros K P. unfold lane. cbn [INR]. rewrite Rmult_0_l, Rplus_0_r. destruct K as [|i E|i E|i E|i E]; cbn [begin]; rewrite ?E; cbn; (split; [|lra]).
  1: destruct (Rlt_dec ((e - a - (w - a)) / 2) L), (Rlt_dec (e - w) (2 * L)); try lra; do 2 f_equal; lra.
  all: destruct (Rlt_dec ((e - a - (w - a)) * (11 / 10)) L), (Rlt_dec (e - w) (10 / 11 * L)); try lra; do 2 f_equal; lra.
Qed.

Lemma raster_shape fuel k narrow west up v r c h L lead_ trail_ legs w e : scheme k narrow west up -> 0 < L -> reaches h (v :: r) w e ->
  raster fuel k (v :: r) c h L lead_ trail_ = Some legs ->
  (forall i, (i < length legs)%nat <-> w < lane narrow west w e L i < e) /\
  (forall i g, nth_error legs i = Some g -> in_lane (scan_of c h v r lead_ trail_) (lane narrow west w e L i - across h c) (turned up i) = Some g).
Proof.
  intros K P R H. unfold raster in H. cbn [map] in H. destruct (extents c h v r w e R) as [E1 E2]. rewrite E1, E2 in H.
  destruct (begin_lane k narrow west up w e L (across h c) K P) as [Eb Nr]. rewrite Eb in H.
  fold (scan_of c h v r lead_ trail_) in H. set (s := scan_of c h v r lead_ trail_) in *.
  change {| border := sides (transform c h v) (transform c h v :: map (transform c h) r); pole := c; axis := h;
            south := south s; north := north s; lead := lead_; trail := trail_ |} with s in H.
  destruct R as (A & (p & P1 & P2) & (q & Q1 & Q2)). assert (We : w <= e) by (specialize (A p P1); lra).
  assert (Li : forall i, lane narrow west w e L i = lane narrow west w e L 0 + INR i * (if west then L else - L)) by (intros i; unfold lane; cbn [INR]; ring).
  destruct (Req_dec w e) as [Ee|Ne].
  - rewrite <- Ee in *. apply sweep_flat in H.
    + subst legs. split; [|intros [|i] g Hg; discriminate]. intros i. split; [cbn; lia|lra].
    + unfold lane. cbn [INR]. destruct west; [destruct (Rlt_dec 0 L)|destruct (Rlt_dec 0 (- L))]; destruct (Rlt_dec _ _); nra.
  - destruct (sweep_shape s (w - across h c) (e - across h c) (if west then L else - L) ltac:(lra) ltac:(destruct west; lra)) with (fuel := fuel)
      (x := lane narrow west w e L 0 - across h c) (up := up) (legs := legs) as [B C].
    + intros x u X. apply (in_lane_some s (transform c h v) (map (transform c h) r) x u (transform c h p) (transform c h q)); try reflexivity.
      * apply (in_map (transform c h) (v :: r)), P1.
      * apply (in_map (transform c h) (v :: r)), Q1.
      * rewrite !transform_across, P2, Q2. exact X.
    + exact H.
    + unfold lane. cbn [INR]. destruct west; [destruct (Rlt_dec 0 L)|destruct (Rlt_dec 0 (- L))]; destruct (Rlt_dec (e - w) _); nra.
    + split.
      * intros i. rewrite B, (Li i). split; lra.
      * intros i g Hg. rewrite (Li i). replace (lane narrow west w e L 0 + INR i * (if west then L else - L) - across h c)
          with (lane narrow west w e L 0 - across h c + INR i * (if west then L else - L)) by ring. apply C, Hg.
Qed.

(** The given point is half a metre farther from the middle than the exact one. *)
Lemma meet_exact a b x lo hi : lo < fst a < hi -> lo < fst b < hi -> touches a b x -> height a b x <> 0 ->
  exists p, meet a b (lo, x) (hi, x) = Some p /\ fst p = height a b x + (if Rlt_dec 0 (height a b x) then 1 / 2 else - (1 / 2)).
Proof.
  intros A B T Y. destruct (meet_lane a b x lo hi A B) as [(_ & p & E & _)|[N _]]; [|contradiction]. exists p. split; [exact E|].
  unfold meet in E. cbn [fst snd] in E. destruct (apart _ _); [discriminate|]. destruct (apart _ _); [discriminate|].
  destruct (Req_EM_T _ 0) as [D|D]; [discriminate|]. injection E as <-. cbn [fst].
  destruct T as [Nz _]. pose (H := hi - lo). assert (HP : 0 < H) by (unfold H; lra).
  set (num := (hi - lo) * (snd b * fst a - snd a * fst b) - (fst b - fst a) * (x * lo - x * hi)) in *.
  set (den := (fst b - fst a) * (x - x) - (hi - lo) * (snd a - snd b)) in *.
  assert (Ed : den = H * (snd b - snd a)) by (unfold den, H; ring).
  assert (En : num = height a b x * den) by (rewrite Ed; unfold num, height, H; field; lra).
  set (y := height a b x) in *. rewrite En. clearbody y num den. clear En Ed A B num.
  destruct (Rlt_dec 0 y), (Rlt_dec den 0), (Rlt_dec (y * den) 0); try (exfalso; nra); field; lra.
Qed.

Lemma leg_point s up p q Q : fst p = fst q -> sweeps_over (axis s) (lead s) (trail s) up (start (leg_of s up p q)) (stop (leg_of s up p q)) Q ->
  Rabs (along (axis s) Q - along (axis s) (pole s) - fst p) <= 1 / 2.
Proof.
  intros E. unfold leg_of, sweeps_over. destruct (Rlt_dec _ _); [lra|].
  destruct up; cbn [start stop]; rewrite !retransform_along; cbn [fst]; intros H; apply Rabs_le; lra.
Qed.

Lemma hits_first v b l k z lo hi p m q : b :: l = k ++ [z] -> bounded (v :: b :: l) lo hi -> fst v <> 0 -> snd b <> snd v -> snd z <> snd v ->
  hits (sides v (v :: b :: l)) (snd v) lo hi = p :: m ++ [q] ->
  fst p = fst v + (if Rlt_dec 0 (fst v) then 1 / 2 else - (1 / 2)) /\ fst q = fst p.
Proof.
  intros Ek B V Nb Nz H.
  assert (Bv : lo < fst v < hi) by (apply B; left; reflexivity). assert (Bb : lo < fst b < hi) by (apply B; right; left; reflexivity).
  assert (Bz : lo < fst z < hi) by (apply B; right; rewrite Ek; apply in_app_iff; right; left; reflexivity).
  assert (T1 : touches v b (snd v)) by (split; [intros E; apply Nb; symmetry; exact E|lra]).
  assert (T2 : touches z v (snd v)) by (split; [exact Nz|lra]).
  assert (H1 : height v b (snd v) = fst v) by (unfold height; field; lra).
  assert (H2 : height z v (snd v) = fst v) by (unfold height; field; lra).
  destruct (meet_exact v b (snd v) lo hi Bv Bb T1) as (p0 & E0 & F0); [rewrite H1; exact V|].
  destruct (meet_exact z v (snd v) lo hi Bz Bv T2) as (q0 & E1 & F1); [rewrite H2; exact V|].
  rewrite H1 in F0. rewrite H2 in F1.
  assert (Ep : p = p0).
  { change (sides v (v :: b :: l)) with ((v, b) :: sides v (b :: l)) in H. unfold hits, intersections in H. cbn [flat_map fst snd] in H.
    rewrite E0 in H. cbn in H. congruence. }
  assert (Eq : q = q0).
  { rewrite Ek in H. change (v :: k ++ [z]) with ((v :: k) ++ z :: []) in H. rewrite sides_app, hits_app in H.
    unfold hits at 2, intersections in H. cbn [sides flat_map fst snd] in H. rewrite E1 in H. cbn [app] in H.
    change (p :: m ++ [q]) with ((p :: m) ++ [q]) in H. apply app_inj_tail in H as [_ H]. congruence. }
  subst. split; [exact F0|]. rewrite F0, F1. reflexivity.
Qed.

Lemma next_sides v r a b : next (v :: r) a b -> In (a, b) (sides v (v :: r)).
Proof.
  intros [(l & k & E)|(l & E & H)].
  - rewrite E at 1. rewrite sides_app. apply in_app_iff. right. left. reflexivity.
  - cbn in H. injection H as <-. rewrite E. change (l ++ [a]) with (l ++ a :: []). rewrite sides_app. apply in_app_iff. right. left. reflexivity.
Qed.

(** Theorems about which part of a route is extended and what the extended route looks like. *)
From Coq Require Import Reals Lra Lia List ZArith.
From Verif Require Import FlatEarthModel RouteExtModel RouteExtSpec RouteExtGeom RouteExtWay PiBounds RouteExtProps FlatEarthProps.
Import ListNotations.
Open Scope R_scope.

(** The speed on each segment: the one of the waypoint at its end, unless this is 0 or nearly the speed before. *)
Inductive cruise : R -> list waypoint -> list R -> Prop :=
| cruise_end : forall v, cruise v [] []
| cruise_new : forall v w ws vs, / 10 ^ 4 < Rabs (v - wspeed w) -> / 10 ^ 4 < wspeed w -> cruise (wspeed w) ws vs ->
    cruise v (w :: ws) (wspeed w :: vs)
| cruise_keep : forall v w ws vs, Rabs (v - wspeed w) <= / 10 ^ 4 \/ wspeed w <= / 10 ^ 4 -> cruise v ws vs ->
    cruise v (w :: ws) (v :: vs).

(** East and north of a waypoint, in meters from the first waypoint of the route. *)
Definition local (w0 w : waypoint) : R * R :=
  let p := snd (deg_ne_m (wlat w) (wlon w) (fst (deg_ne_m (wlat w0) (wlon w0) fresh))) in (snd p, fst p).

(** The distance of two points. *)
Definition apart (a b : R * R) : R := sqrt ((fst b - fst a) ^ 2 + (snd b - snd a) ^ 2).

(** Segment [i] of a route: its ends, its length, and the length to add for a given time. *)
Record segment (wps : list waypoint) (ms : Z) (i : nat) (a b : waypoint) (l len : R) : Prop := {
  seg_start : nth_error wps i = Some a;
  seg_stop : nth_error wps (S i) = Some b;
  seg_length : forall w0, nth_error wps 0 = Some w0 -> l = apart (local w0 a) (local w0 b);
  seg_more : exists w0 ws vs v, wps = w0 :: ws /\ cruise (wspeed w0) ws vs /\ nth_error vs i = Some v /\ len = IZR ms / 1000 * v }.

(** A segment is long enough for the extension. *)
Definition suits (wps : list waypoint) (ms : Z) (r : R) (i : nat) (l : R) : Prop :=
  exists a b len d, segment wps ms i a b l len /\ required len r = Some d /\ d <= l.

(** Numbers from [n] on; each waypoint leads to the next, the last one to itself. *)
Definition linked (n : Z) (ws : list waypoint) : Prop :=
  forall k w, nth_error ws k = Some w -> wnum w = (n + Z.of_nat k)%Z
    /\ wnext w = (if Nat.eqb (S k) (length ws) then n + Z.of_nat k else n + Z.of_nat k + 1)%Z.

(** The same waypoint up to its numbers. *)
Definition alike (a b : waypoint) : Prop := wlat a = wlat b /\ wlon a = wlon b /\ wspeed a = wspeed b /\ wother a = wother b.

Lemma required_some : forall len r, exists d, required len r = Some d.
Proof.
  intros len r. unfold required. destruct (Rlt_dec len (2 * r * (PI - 2))).
  - destruct (search_ends (fun th => single_error th len r) (single_error 0 len r)) as (m & E).
    assert (E' : single_search len r = Some m) by exact E. rewrite E'. cbn [option_map]. eexists; reflexivity.
  - destruct (Rlt_dec len (2 * PI * r)); [|eexists; reflexivity].
    destruct (search_ends (fun th => slide_error th len r) (slide_error 0 len r)) as (m & E).
    assert (E' : slide_search len r = Some m) by exact E. rewrite E'. cbn [option_map]. eexists; reflexivity.
Qed.
Lemma extend_some : forall s e len r, exists w, extend_segment s e len r = Some w.
Proof.
  intros s e len r. unfold extend_segment. destruct (Rlt_dec len (2 * r * (PI - 2))).
  - destruct (search_ends (fun th => single_error th len r) (single_error 0 len r)) as (m & E).
    assert (E' : single_search len r = Some m) by exact E. rewrite E'. cbn [option_map]. eexists; reflexivity.
  - destruct (Rlt_dec len (2 * PI * r)); [|eexists; reflexivity].
    destruct (search_ends (fun th => slide_error th len r) (slide_error 0 len r)) as (m & E).
    assert (E' : slide_search len r = Some m) by exact E. rewrite E'. cbn [option_map]. eexists; reflexivity.
Qed.

(** Lengths and speeds of the segments from a place on. *)
Fixpoint options (e : earth) (start : R * R) (ws : list waypoint) (vs : list R) : list (R * R) :=
  match ws, vs with w :: ws, v :: vs => (seg_len start (place e w), v) :: options e (place e w) ws vs | _, _ => [] end.

Definition good (ms : Z) (r : R) (o : list (R * R)) (k : nat) (l len d : R) : Prop :=
  exists v, nth_error o k = Some (l, v) /\ len = (IZR ms + 0) / 1000 * v /\ required len r = Some d /\ d <= l.

Lemma scan_ok : forall e ms r ws i start vel len minlen best,
  len = (IZR ms + 0) / 1000 * vel -> required len r = Some minlen ->
  exists best' vs, scan e ms r i start vel len minlen best ws = Some best' /\ cruise vel ws vs
  /\ let o := options e start ws vs in
     (best' = best /\ forall k l len d, good ms r o k l len d -> l <= fcleared best)
     \/ (exists k, findex best' = (i + k)%nat /\ good ms r o k (fcleared best') (flen best') (fmin best') /\ fcleared best < fcleared best'
         /\ forall j l len d, good ms r o j l len d -> l <= fcleared best' /\ ((j < k)%nat -> l < fcleared best')).
Proof.
  intros e ms r ws. induction ws as [|w ws IH]; intros i start vel len minlen best L Q; cbn [scan].
  - exists best, []. split; [reflexivity|]. split; [constructor|]. left. split; [reflexivity|]. intros k l ln d (v & H & _).
    destruct k; discriminate.
  - set (upd := if Rlt_dec (/ 10 ^ 4) (Rabs (vel - wspeed w)) then
             if Rlt_dec (/ 10 ^ 4) (wspeed w) then
               let len := (IZR ms + 0) / 1000 * wspeed w in option_map (fun m => (wspeed w, len, m)) (required len r)
             else Some (vel, len, minlen) else Some (vel, len, minlen)).
    assert (U : exists v ln d, upd = Some (v, ln, d) /\ ln = (IZR ms + 0) / 1000 * v /\ required ln r = Some d
                /\ forall vs, cruise v ws vs -> cruise vel (w :: ws) (v :: vs)).
    { unfold upd. destruct (Rlt_dec (/ 10 ^ 4) (Rabs (vel - wspeed w))) as [A|A].
      - destruct (Rlt_dec (/ 10 ^ 4) (wspeed w)) as [B|B].
        + cbv zeta. destruct (required_some ((IZR ms + 0) / 1000 * wspeed w) r) as (d & D). rewrite D. exists (wspeed w), ((IZR ms + 0) / 1000 * wspeed w), d.
          split; [reflexivity|]. split; [reflexivity|]. split; [exact D|]. intros vs H. apply cruise_new; assumption.
        + exists vel, len, minlen. split; [reflexivity|]. split; [exact L|]. split; [exact Q|]. intros vs H. apply cruise_keep; [right; lra|exact H].
      - exists vel, len, minlen. split; [reflexivity|]. split; [exact L|]. split; [exact Q|]. intros vs H. apply cruise_keep; [left; lra|exact H]. }
    destruct U as (v & ln & d & EU & E1 & E2 & CR). rewrite EU. set (l := seg_len start (place e w)).
    set (best1 := if Rle_dec d l then if Rlt_dec (fcleared best) l then {| findex := i; fcleared := l; flen := ln; fmin := d |} else best else best).
    destruct (IH (S i) (place e w) v ln d best1 E1 E2) as (best' & vs & A & C & D). exists best', (v :: vs).
    split; [exact A|]. split; [apply CR, C|]. cbn [options]. fold l.
    assert (G0 : forall x y z, good ms r ((l, v) :: options e (place e w) ws vs) 0 x y z <-> x = l /\ y = ln /\ z = d /\ d <= l).
    { intros x y z. unfold good. cbn [nth_error]. split.
      - intros (v' & H & Y & Z & W). injection H as <- <-. subst y. rewrite <- E1, E2 in Z. injection Z as <-. rewrite <- E1. auto.
      - intros (-> & -> & -> & H). exists v. auto. }
    assert (GS : forall k x y z, good ms r ((l, v) :: options e (place e w) ws vs) (S k) x y z <-> good ms r (options e (place e w) ws vs) k x y z)
      by (intros; reflexivity).
    assert (B1 : (d <= l /\ fcleared best < l /\ best1 = {| findex := i; fcleared := l; flen := ln; fmin := d |})
                 \/ ((d <= l -> l <= fcleared best) /\ best1 = best)).
    { unfold best1. destruct (Rle_dec d l); [|right; split; [intros; lra|reflexivity]].
      destruct (Rlt_dec (fcleared best) l); [left; auto|right; split; [intros; lra|reflexivity]]. }
    cbv zeta in D. destruct D as [(-> & D)|(k & K1 & K2 & K3 & K4)].
    + destruct B1 as [(B1 & B2 & ->)|(B1 & ->)].
      * right. exists 0%nat. cbn [findex fcleared flen fmin] in *. split; [lia|]. split; [apply G0; auto|]. split; [exact B2|].
        intros [|j] x y z H; [apply G0 in H; split; [lra|lia]|]. apply GS, D in H. split; [exact H|lia].
      * left. split; [reflexivity|]. intros [|k] x y z H; [apply G0 in H; destruct H as (-> & _ & _ & H); auto|]. apply GS, D in H. exact H.
    + right. exists (S k). split; [lia|]. split; [apply GS, K2|].
      assert (B0 : fcleared best <= fcleared best1) by (destruct B1 as [(_ & ? & ->)|(_ & ->)]; cbn [fcleared]; lra).
      split; [lra|]. intros [|j] x y z H.
      * apply G0 in H. destruct H as (-> & _ & _ & H).
        assert (l <= fcleared best1) by (destruct B1 as [(_ & ? & ->)|(B & ->)]; cbn [fcleared]; [lra|auto]). split; [lra|intros; lra].
      * apply GS in H. destruct (K4 _ _ _ _ H) as (X & Y). split; [exact X|]. intros J. apply Y. lia.
Qed.

Lemma options_nth : forall e ws vs start k l v, nth_error (options e start ws vs) k = Some (l, v) -> exists b,
  nth_error ws k = Some b /\ nth_error vs k = Some v
  /\ l = seg_len (match k with O => start | S k => match nth_error ws k with Some a => place e a | None => start end end) (place e b).
Proof.
  intros e ws. induction ws as [|w ws IH]; intros [|v vs] start k l v' H; try (destruct k; discriminate).
  destruct k as [|k]; cbn [options nth_error] in *.
  - injection H as <- <-. exists w. auto.
  - apply IH in H. destruct H as (b & A & B & C). exists b. split; [exact A|]. split; [exact B|]. rewrite C. destruct k as [|k]; [reflexivity|].
    cbn [nth_error]. destruct (nth_error ws k) eqn:E; [reflexivity|]. exfalso. apply nth_error_None in E.
    assert (nth_error ws (S k) <> None) by (rewrite A; discriminate). apply nth_error_Some in H. lia.
Qed.
Lemma options_some : forall e ws vs v0 start k b v, cruise v0 ws vs -> nth_error ws k = Some b -> nth_error vs k = Some v ->
  exists l, nth_error (options e start ws vs) k = Some (l, v).
Proof.
  intros e ws. induction ws as [|w ws IH]; intros vs v0 start k b v C A B; [destruct k; discriminate|].
  inversion C as [|? ? ? vs' _ _ C'|? ? ? vs' _ C']; subst; destruct k as [|k]; cbn [options nth_error] in *;
    try (injection B as <-; eauto); eapply IH; eassumption.
Qed.
Lemma cruise_fun : forall v ws vs, cruise v ws vs -> forall vs', cruise v ws vs' -> vs' = vs.
Proof.
  intros v ws vs C. induction C as [v|v w ws vs A B C IH|v w ws vs A C IH]; intros vs' D; inversion D; subst; try reflexivity;
    try (f_equal; auto); lra.
Qed.
Lemma seg_len_apart : forall a b, seg_len a b = apart a b.
Proof. intros a b. unfold seg_len, apart. f_equal. ring. Qed.

Lemma good_segment : forall w0 ws vs ms r k l len d, cruise (wspeed w0) ws vs ->
  let e := fst (deg_ne_m (wlat w0) (wlon w0) fresh) in
  good ms r (options e (place e w0) ws vs) k l len d -> exists a b, segment (w0 :: ws) ms k a b l len /\ required len r = Some d /\ d <= l.
Proof.
  intros w0 ws vs ms r k l len d C e (v & H & L & Q & G). apply options_nth in H. destruct H as (b & B & V & E).
  assert (A : exists a, nth_error (w0 :: ws) k = Some a /\ match k with O => place e w0 | S k => match nth_error ws k with Some a => place e a | None => place e w0 end end = place e a).
  { destruct k as [|k]; [exists w0; auto|]. cbn [nth_error]. destruct (nth_error ws k) as [a|] eqn:N; [exists a; auto|].
    exfalso. apply nth_error_None in N. assert (M : nth_error ws (S k) <> None) by (rewrite B; discriminate). apply nth_error_Some in M. lia. }
  destruct A as (a & A & P). rewrite P in E. exists a, b. split; [|auto]. split; [exact A|exact B| |].
  - intros w1 W. cbn in W. injection W as <-. rewrite E, seg_len_apart. reflexivity.
  - exists w0, ws, vs, v. split; [reflexivity|]. split; [exact C|]. split; [exact V|]. rewrite L, Rplus_0_r. reflexivity.
Qed.
Lemma segment_good : forall w0 ws vs ms r k a b l len d, cruise (wspeed w0) ws vs ->
  let e := fst (deg_ne_m (wlat w0) (wlon w0) fresh) in
  segment (w0 :: ws) ms k a b l len -> required len r = Some d -> d <= l -> good ms r (options e (place e w0) ws vs) k l len d.
Proof.
  intros w0 ws vs ms r k a b l len d C e [A B E (w1 & ws1 & vs1 & v & W & C1 & V & L)] Q G. injection W as <- <-.
  assert (vs1 = vs) by (eapply cruise_fun; eassumption). subst vs1.
  destruct (options_some e ws vs (wspeed w0) (place e w0) k b v C B V) as (l' & H). exists v.
  pose proof H as H'. apply options_nth in H'. destruct H' as (b' & B' & _ & E'). cbn [nth_error] in B. assert (b' = b) by congruence. subst b'.
  assert (P : match k with O => place e w0 | S k => match nth_error ws k with Some a => place e a | None => place e w0 end end = place e a).
  { destruct k as [|k]; cbn [nth_error] in A; [injection A as <-; reflexivity|rewrite A; reflexivity]. }
  rewrite P in E'. specialize (E w0 eq_refl). rewrite seg_len_apart in E'. change (local w0 a) with (place e a) in E. change (local w0 b) with (place e b) in E.
  rewrite <- E in E'. subst l'. split; [exact H|]. split; [rewrite Rplus_0_r; exact L|]. auto.
Qed.

Lemma renumber_linked : forall ws n, linked n (renumber n ws).
Proof.
  assert (LEN : forall ws n, length (renumber n ws) = length ws) by (induction ws; intros; cbn [renumber length]; auto).
  induction ws as [|w ws IH]; intros n k x H; [destruct k; discriminate|]. cbn [renumber] in *. destruct k as [|k]; cbn [nth_error] in H.
  - injection H as <-. cbn [wnum wnext length]. split; [lia|]. rewrite LEN. destruct ws; cbn [length Nat.eqb]; lia.
  - apply IH in H. destruct H as (A & B). rewrite LEN in B. cbn [length]. rewrite LEN. split; [lia|]. rewrite B.
    change (Nat.eqb (S (S k)) (S (length ws))) with (Nat.eqb (S k) (length ws)). destruct (Nat.eqb (S k) (length ws)); lia.
Qed.
Lemma renumber_alike : forall ws n, Forall2 alike (renumber n ws) ws.
Proof.
  induction ws as [|w ws IH]; intros n; cbn [renumber]; constructor; [|apply IH]. unfold alike. cbn [wlat wlon wspeed wother]. auto.
Qed.

(** ** What is done with a route *)

(** The search for a manoeuvre always comes to an end. *)
Theorem C75_ends : forall wps ms r d, exists b out, extend_path wps ms r d = Some (b, out).
Proof.
  intros wps ms r d. unfold extend_path. destruct wps as [|w0 [|w1 ws]]; [eauto|eauto|].
  destruct (Rlt_dec (wspeed w0) (/ 10 ^ 4)); [eauto|]. cbv zeta. destruct (required_some ((IZR ms + 0) / 1000 * wspeed w0) r) as (m & M). rewrite M.
  set (e := fst (deg_ne_m (wlat w0) (wlon w0) fresh)).
  destruct (scan_ok e ms r (w1 :: ws) 0 (place e w0) (wspeed w0) _ m {| findex := 0; fcleared := 0; flen := 0; fmin := 0 |} eq_refl M) as (best & vs & S & _).
  rewrite S. destruct (Rlt_dec (/ 10 ^ 4) (fcleared best)); [|eauto].
  destruct (nth_error (w0 :: w1 :: ws) (findex best)) as [a|]; [|eauto]. destruct (nth_error (w0 :: w1 :: ws) (Datatypes.S (findex best))) as [b|]; [|eauto].
  match goal with |- context [extend_segment ?s ?t ?l ?q] => destruct (extend_some s t l q) as (w & W); rewrite W end. eauto.
Qed.

(** A route is not extended exactly if its first speed is 0 or no segment is long enough; then it stays as it is. *)
Theorem C75_fails : forall wps ms r d out, extend_path wps ms r d = Some (false, out) ->
  out = wps /\ forall w0 i l, nth_error wps 0 = Some w0 -> / 10 ^ 4 <= wspeed w0 -> suits wps ms r i l -> l <= / 10 ^ 4.
Proof.
  intros wps ms r d out H. unfold extend_path in H. destruct wps as [|w0 [|w1 ws]].
  - injection H as <-. split; [reflexivity|]. intros w0 i l W. discriminate.
  - injection H as <-. split; [reflexivity|]. intros w i l W _ (a & b & len & q & [_ B _ _] & _). destruct i; discriminate.
  - destruct (Rlt_dec (wspeed w0) (/ 10 ^ 4)).
    { injection H as <-. split; [reflexivity|]. intros w i l W. cbn in W. injection W as <-. intros. lra. }
    cbv zeta in H. destruct (required_some ((IZR ms + 0) / 1000 * wspeed w0) r) as (m & M). rewrite M in H.
    set (e := fst (deg_ne_m (wlat w0) (wlon w0) fresh)) in *.
    destruct (scan_ok e ms r (w1 :: ws) 0 (place e w0) (wspeed w0) _ m {| findex := 0; fcleared := 0; flen := 0; fmin := 0 |} eq_refl M) as (best & vs & S & C & O).
    rewrite S in H. cbv zeta in O.
    assert (BB : forall i l, suits (w0 :: w1 :: ws) ms r i l -> l <= fcleared best).
    { intros i l (a & b & len & q & SG & Q & QL). pose proof (segment_good w0 (w1 :: ws) vs ms r i a b l len q C SG Q QL) as G. cbv zeta in G. fold e in G.
      destruct O as [(-> & O)|(k & _ & _ & _ & O)]; [apply O in G; exact G|apply O in G; apply G]. }
    destruct (Rlt_dec (/ 10 ^ 4) (fcleared best)) as [L|L].
    + destruct O as [(-> & _)|(k & K & G & _)]; [cbn [fcleared] in L; exfalso; assert (0 < / 10 ^ 4) by (apply Rinv_0_lt_compat; lra); lra|].
      rewrite Nat.add_0_l in K. destruct (good_segment w0 (w1 :: ws) vs ms r k _ _ _ C G) as (a & b & [A B _ _] & _).
      rewrite K, A, B in H. match type of H with context [extend_segment ?s ?t ?l ?q] => destruct (extend_some s t l q) as (w & W); rewrite W in H end. discriminate.
    + injection H as <-. split; [reflexivity|]. intros w i l _ _ SU. apply BB in SU. lra.
Qed.

(** A waypoint that is put at a place, given by its east and north from the first waypoint [w0]: all else is as for [b], the end of the segment. *)
Definition put (w0 b w : waypoint) (x : R * R) : Prop :=
  (wlat w, wlon w) = m_ll_deg (snd x) (fst x) (fst (deg_ne_m (wlat w0) (wlon w0) fresh)) /\ wspeed w = wspeed b /\ wother w = wother b.

(** A route that is extended is so on the longest segment that is long enough for the manoeuvre, the first of them if there are more: the
    manoeuvre starts so that the length it needs is in the middle.  Everything before stays as it is; everything behind stays where it is and
    keeps its speed and all else, but gets new numbers, that go on from the number of the end of the segment. *)
Theorem C75_longest : forall wps ms r d out, extend_path wps ms r d = Some (true, out) ->
  exists w0 i a b l len q p legs mid rest,
    nth_error wps 0 = Some w0 /\ / 10 ^ 4 <= wspeed w0
    /\ segment wps ms i a b l len /\ required len r = Some q /\ q <= l /\ / 10 ^ 4 < l
    /\ (forall j l', suits wps ms r j l' -> l' <= l /\ ((j < i)%nat -> l' < l))
    /\ (let s := local w0 a in let t := local w0 b in let f := (l - q) / 2 / l in
        p = (fst s + (fst t - fst s) * f, snd s + (snd t - snd s) * f) /\ extend_segment p t len r = Some legs)
    /\ Forall2 (put w0 b) mid (p :: flat_map (discretize_leg d) legs)
    /\ out = firstn (S i) wps ++ mid ++ rest
    /\ linked (wnum b) (mid ++ rest)
    /\ Forall2 alike rest (skipn (S i) wps).
Proof.
  intros wps ms r d out H. unfold extend_path in H. destruct wps as [|w0 [|w1 ws]]; [discriminate|discriminate|].
  destruct (Rlt_dec (wspeed w0) (/ 10 ^ 4)) as [Z|Z]; [discriminate|].
  cbv zeta in H. destruct (required_some ((IZR ms + 0) / 1000 * wspeed w0) r) as (m & M). rewrite M in H.
  set (e := fst (deg_ne_m (wlat w0) (wlon w0) fresh)) in *.
  destruct (scan_ok e ms r (w1 :: ws) 0 (place e w0) (wspeed w0) _ m {| findex := 0; fcleared := 0; flen := 0; fmin := 0 |} eq_refl M) as (best & vs & S & C & O).
  rewrite S in H. cbv zeta in O. destruct (Rlt_dec (/ 10 ^ 4) (fcleared best)) as [L|L]; [|discriminate].
  assert (P4 : 0 < / 10 ^ 4) by (apply Rinv_0_lt_compat; lra).
  destruct O as [(-> & _)|(k & K & G & _ & O)]; [cbn [fcleared] in L; lra|].
  rewrite Nat.add_0_l in K. pose proof (good_segment w0 (w1 :: ws) vs ms r k _ _ _ C G) as GS. cbv zeta in GS.
  destruct GS as (a & b & SG & RQ & QL). pose proof SG as [A B E _].
  rewrite K, A, B in H. clear K G.
  set (l := fcleared best) in *. set (len := flen best) in *. set (q := fmin best) in *.
  set (f := (l - q) / 2 / l) in *. set (p := (fst (place e a) + (fst (place e b) - fst (place e a)) * f, snd (place e a) + (snd (place e b) - snd (place e a)) * f)) in *.
  destruct (extend_some p (place e b) len r) as (legs & W). rewrite W in H.
  apply (f_equal (fun o : option (bool * list waypoint) => match o with Some x => snd x | None => out end)) in H. cbv beta iota in H. cbn [snd] in H.
  set (tail := skipn (Datatypes.S k) (w0 :: w1 :: ws)).
  set (mid := placed e b p :: discretize d e (placed e b p) legs).
  pose proof (renumber_alike (mid ++ tail) (wnum b)) as AL. pose proof (renumber_linked (mid ++ tail) (wnum b)) as LK.
  apply Forall2_app_inv_r in AL. destruct AL as (x1 & x2 & F1 & F2 & EQ). rewrite EQ in LK.
  exists w0, k, a, b, l, len, q, p, legs, x1, x2. split; [reflexivity|]. split; [lra|]. split; [exact SG|]. split; [exact RQ|]. split; [exact QL|].
  split; [exact L|]. split.
  { intros j l' (a' & b' & len' & q' & SG' & RQ' & QL'). pose proof (segment_good w0 (w1 :: ws) vs ms r j a' b' l' len' q' C SG' RQ' QL') as G'.
    cbv zeta in G'. fold e in G'. apply O in G'. exact G'. }
  split; [cbv zeta; split; [reflexivity|exact W]|]. split.
  { unfold mid, discretize in F1.
    change (placed e b p :: map (placed e (placed e b p)) (flat_map (discretize_leg d) legs))
      with (map (placed e (placed e b p)) (p :: flat_map (discretize_leg d) legs)) in F1.
    clear -F1. revert F1. generalize (p :: flat_map (discretize_leg d) legs).
    induction x1 as [|x xs IH]; intros ys F; destruct ys as [|y ys]; inversion F as [|? ? ? ? (Q1 & Q2 & Q3 & Q4)]; subst; constructor; [|apply IH; assumption].
    unfold put. cbn [placed wlat wlon wspeed wother] in *. rewrite Q1, Q2. split; [symmetry; apply surjective_pairing|auto]. }
  split; [|split; [exact LK|exact F2]]. rewrite <- H, <- EQ. reflexivity.
Qed.

Lemma cruise_pos : forall v ws vs, cruise v ws vs -> / 10 ^ 4 <= v -> forall i x, nth_error vs i = Some x -> / 10 ^ 4 <= x.
Proof.
  intros v ws vs C. induction C as [v|v w ws vs A B C IH|v w ws vs A C IH]; intros P i x H; destruct i as [|i]; cbn [nth_error] in H; try discriminate.
  - injection H as <-. lra.
  - eapply IH; [lra|exact H].
  - injection H as <-. exact P.
  - eapply IH; [exact P|exact H].
Qed.

(** For a time that is not negative the vehicle can fly the manoeuvre with turns of the given radius, from a point of the segment and in its
    direction; the waypoints that are put in are on this way, one after the other; at its end it is on the segment again, in the same direction
    and not beyond the end.  The way is longer than the piece of the segment it stands for by the length that is flown in the time at the speed of
    the segment, up to a five millionth of the radius. *)
Theorem C75_time : forall wps ms r d out, 0 < r -> 0 < d -> (0 <= ms)%Z -> extend_path wps ms r d = Some (true, out) ->
  exists w0 i a b l len h from net legs mid rest,
    nth_error wps 0 = Some w0 /\ segment wps ms i a b l len /\ 0 <= len
    /\ local w0 b = (fst (local w0 a) + l * cos h, snd (local w0 a) + l * sin h)
    /\ 0 <= from /\ 0 <= net /\ from + net <= l
    /\ (let p := {| px := fst (local w0 a) + from * cos h; py := snd (local w0 a) + from * sin h; ph := h |} in
        flown r p legs
        /\ px (finish r p legs) = fst (local w0 a) + (from + net) * cos h /\ py (finish r p legs) = snd (local w0 a) + (from + net) * sin h
        /\ same_way (ph (finish r p legs)) h
        /\ exists pts, Forall2 (put w0 b) mid ((px p, py p) :: pts) /\ forall x y, In (x, y) pts -> through r p legs x y)
    /\ net + len - 2 / 10 ^ 7 * r <= way legs <= net + len
    /\ out = firstn (S i) wps ++ mid ++ rest /\ Forall2 alike rest (skipn (S i) wps).
Proof.
  intros wps ms r d out R D MS H. apply C75_longest in H.
  destruct H as (w0 & i & a & b & l & len & q & p & legs & mid & rest & W0 & SP & SG & RQ & QL & L & _ & (P & W) & PT & EQ & _ & AL).
  assert (P4 : 0 < / 10 ^ 4) by (apply Rinv_0_lt_compat; lra).
  assert (LN : 0 <= len).
  { destruct SG as [_ _ _ (w & ws & vs & v & -> & C & V & ->)]. cbn in W0. injection W0 as <-. pose proof (cruise_pos _ _ _ C SP _ _ V).
    apply IZR_le in MS. apply Rmult_le_pos; lra. }
  pose proof SG as [_ _ E _]. specialize (E w0 W0). set (s := local w0 a) in *. set (t := local w0 b) in *. cbv zeta in P.
  set (f := (l - q) / 2 / l) in *.
  assert (LL : l * l = (fst t - fst s) * (fst t - fst s) + (snd t - snd s) * (snd t - snd s)).
  { rewrite E at 1 2. unfold apart. rewrite sqrt_sqrt; [ring|]. apply Rplus_le_le_0_compat; apply pow2_ge_0. }
  assert (FL : f * l = (l - q) / 2) by (unfold f; field; lra).
  assert (Q0 : 0 <= q).
  { assert (NE : (0, 0) <> (1, 0)) by (intros X; injection X; lra).
    destruct (C74_extend (0, 0) (1, 0) len r R LN NE) as (_ & _ & q' & n' & _ & _ & RQ' & _ & NN & _). rewrite RQ in RQ'. injection RQ' as <-. lra. }
  assert (F1 : f < 1).
  { apply Rmult_lt_reg_r with l; [lra|]. rewrite FL. lra. }
  assert (NE : p <> t).
  { intros X. rewrite P in X. assert (X1 := f_equal fst X). assert (X2 := f_equal snd X). cbn [fst snd] in X1, X2.
    assert (Y1 : (fst t - fst s) * (1 - f) = 0) by lra. assert (Y2 : (snd t - snd s) * (1 - f) = 0) by lra.
    apply Rmult_integral in Y1. apply Rmult_integral in Y2. destruct Y1 as [Y1|Y1]; [|lra]. destruct Y2 as [Y2|Y2]; [|lra].
    rewrite Y1, Y2 in LL. nra. }
  destruct (C74_extend p t len r R LN NE) as (po & w & q' & net & (LK1 & ll & LP & LK2 & LK3) & W' & RQ' & FW & NN & E1 & E2 & SW & WY & _).
  rewrite W in W'. injection W' as <-. rewrite RQ in RQ'. injection RQ' as <-.
  set (h := ph po) in *.
  assert (PP : px po = fst p /\ py po = snd p) by (rewrite <- LK1; auto). destruct PP as (PX & PY).
  (* the direction of the pose is the one of the segment *)
  assert (DX : (1 - f) * (fst t - fst s) = ll * cos h) by (rewrite P in LK2; cbn [fst] in LK2; lra).
  assert (DY : (1 - f) * (snd t - snd s) = ll * sin h) by (rewrite P in LK3; cbn [snd] in LK3; lra).
  assert (LE : ll = (1 - f) * l).
  { pose proof (sin2_cos2 h) as Q. unfold Rsqr in Q.
    assert (SQ : ll * ll = ((1 - f) * l) * ((1 - f) * l)).
    { transitivity ((ll * cos h) * (ll * cos h) + (ll * sin h) * (ll * sin h)); [transitivity (ll * ll * (sin h * sin h + cos h * cos h)); [rewrite Q; ring|ring]|].
      rewrite <- DX, <- DY. transitivity ((1 - f) * (1 - f) * (l * l)); [rewrite LL; ring|ring]. }
    assert (0 < (1 - f) * l) by (apply Rmult_lt_0_compat; lra). nra. }
  assert (CX : fst t - fst s = l * cos h).
  { apply Rmult_eq_reg_l with (1 - f); [|lra]. rewrite DX, LE. ring. }
  assert (CY : snd t - snd s = l * sin h).
  { apply Rmult_eq_reg_l with (1 - f); [|lra]. rewrite DY, LE. ring. }
  assert (FX : fst p = fst s + (l - q) / 2 * cos h) by (rewrite P; cbn [fst]; rewrite CX, <- FL; ring).
  assert (FY : snd p = snd s + (l - q) / 2 * sin h) by (rewrite P; cbn [snd]; rewrite CY, <- FL; ring).
  assert (PO : po = {| px := fst s + (l - q) / 2 * cos h; py := snd s + (l - q) / 2 * sin h; ph := h |}).
  { rewrite <- FX, <- FY, <- PX, <- PY. unfold h. destruct po; reflexivity. }
  exists w0, i, a, b, l, len, h, ((l - q) / 2), net, legs, mid, rest. fold s t.
  split; [exact W0|]. split; [exact SG|]. split; [exact LN|]. split.
  { rewrite (surjective_pairing t). f_equal; lra. }
  split; [lra|]. split; [lra|]. split; [lra|]. split.
  { cbv zeta. rewrite <- PO. split; [exact FW|]. split; [rewrite E1, FX; ring|]. split; [rewrite E2, FY; ring|]. split; [exact SW|].
    exists (flat_map (discretize_leg d) legs). rewrite PX, PY, <- surjective_pairing. split; [exact PT|].
    intros x y X. exact (C74_waypoints r d legs po R D FW x y X). }
  split; [exact WY|]. split; [exact EQ|exact AL].
Qed.

(** ** Numbers *)

(** Each waypoint leads to the one behind it. *)
Fixpoint chained (ws : list waypoint) : Prop :=
  match ws with a :: (b :: _) as r => wnext a = wnum b /\ chained r | _ => True end.

Lemma chained_app : forall xs ys, chained xs -> chained ys ->
  (forall x y, nth_error xs (length xs - 1) = Some x -> nth_error ys 0 = Some y -> wnext x = wnum y) -> chained (xs ++ ys).
Proof.
  induction xs as [|x xs IH]; intros ys A B C; [exact B|]. destruct xs as [|x2 xs].
  - destruct ys as [|y ys]; [exact I|]. split; [apply C; reflexivity|exact B].
  - destruct A as (A1 & A2). split; [exact A1|]. apply IH; [exact A2|exact B|]. intros u v U V. apply C; [|exact V].
    cbn [length] in *. replace (S (S (length xs)) - 1)%nat with (S (S (length xs) - 1)) by lia. exact U.
Qed.
Lemma chained_firstn : forall n ws, chained ws -> chained (firstn n ws).
Proof.
  induction n as [|n IH]; intros ws H; [exact I|]. destruct ws as [|a ws]; [exact I|]. specialize (IH ws). destruct ws as [|b ws]; [destruct n; exact I|].
  destruct n as [|n]; [exact I|]. destruct H as (A & B). split; [exact A|]. exact (IH B).
Qed.
Lemma chained_nth : forall ws i a b, chained ws -> nth_error ws i = Some a -> nth_error ws (S i) = Some b -> wnext a = wnum b.
Proof.
  induction ws as [|x ws IH]; intros i a b C A B; [destruct i; discriminate|]. destruct i as [|i].
  - cbn in A. injection A as <-. destruct ws as [|y ws]; [discriminate|]. cbn in B. injection B as <-. apply C.
  - eapply IH; [|exact A|exact B]. destruct ws; [exact I|]. apply C.
Qed.
Lemma linked_chained : forall ws n, linked n ws -> chained ws.
Proof.
  induction ws as [|a ws IH]; intros n H; [exact I|]. destruct ws as [|b ws]; [exact I|].
  destruct (H 0%nat a eq_refl) as (_ & A). destruct (H 1%nat b eq_refl) as (B & _). cbn [length Nat.eqb] in A. split; [lia|].
  apply (IH (n + 1)%Z). intros k w W. destruct (H (S k) w W) as (X & Y). split; [lia|]. rewrite Y.
  change (Nat.eqb (S (S k)) (length (a :: b :: ws))) with (Nat.eqb (S k) (length (b :: ws))). destruct (Nat.eqb (S k) (length (b :: ws))); lia.
Qed.

(** If each waypoint led to the one behind it, then this is so in the extended route; the last waypoint leads to itself, whatever it led to before. *)
Theorem C75_chain : forall wps ms r d out, extend_path wps ms r d = Some (true, out) ->
  (chained wps -> chained out) /\ forall w, nth_error out (length out - 1) = Some w -> wnext w = wnum w.
Proof.
  intros wps ms r d out H. apply C75_longest in H.
  destruct H as (w0 & i & a & b & l & len & q & p & legs & mid & rest & _ & _ & [A B _ _] & _ & _ & _ & _ & _ & PT & -> & LK & AL).
  assert (LF : length (firstn (S i) wps) = S i).
  { apply firstn_length_le. assert (X : nth_error wps (S i) <> None) by (rewrite B; discriminate). apply nth_error_Some in X. lia. }
  assert (M0 : exists m0 ms0, mid = m0 :: ms0) by (inversion PT; eauto). destruct M0 as (m0 & ms0 & ->).
  split.
  - intros C. apply chained_app; [apply chained_firstn, C|eapply linked_chained, LK|]. intros x y X Y. rewrite LF in X.
    replace (S i - 1)%nat with i in X by lia. assert (X' : nth_error wps i = Some x).
    { rewrite <- (firstn_skipn (S i) wps), nth_error_app1 by lia. exact X. }
    rewrite A in X'. injection X' as <-. destruct (LK 0%nat y Y) as (N & _). rewrite (chained_nth _ _ _ _ C A B). lia.
  - intros w W. rewrite app_length, LF in W. set (new := (m0 :: ms0) ++ rest) in *.
    assert (NL : (1 <= length new)%nat) by (unfold new; cbn [app length]; lia).
    rewrite nth_error_app2 in W by lia. rewrite LF in W. replace (S i + length new - 1 - S i)%nat with (length new - 1)%nat in W by lia.
    destruct (LK _ _ W) as (N1 & N2). rewrite N1, N2. replace (S (length new - 1)) with (length new) by lia. rewrite Nat.eqb_refl. reflexivity.
Qed.

(** No number is there twice, if the numbers before the extension are different and below the one of the end of the segment. *)
Theorem C75_numbers : forall wps ms r d out, extend_path wps ms r d = Some (true, out) ->
  (forall j k a b, (j < k)%nat -> nth_error wps j = Some a -> nth_error wps k = Some b -> (wnum a < wnum b)%Z) ->
  forall j k a b, (j < k)%nat -> nth_error out j = Some a -> nth_error out k = Some b -> (wnum a < wnum b)%Z.
Proof.
  intros wps ms r d out H INC. apply C75_longest in H.
  destruct H as (w0 & i & a & b & l & len & q & p & legs & mid & rest & _ & _ & [A B _ _] & _ & _ & _ & _ & _ & _ & -> & LK & _).
  assert (LF : length (firstn (S i) wps) = S i).
  { apply firstn_length_le. assert (X : nth_error wps (S i) <> None) by (rewrite B; discriminate). apply nth_error_Some in X. lia. }
  assert (OLD : forall j x, (j < S i)%nat -> nth_error (firstn (S i) wps ++ mid ++ rest) j = Some x -> nth_error wps j = Some x).
  { intros j x J X. rewrite nth_error_app1 in X by lia. rewrite <- (firstn_skipn (S i) wps), nth_error_app1 by lia. exact X. }
  assert (NEW : forall j x, (S i <= j)%nat -> nth_error (firstn (S i) wps ++ mid ++ rest) j = Some x -> wnum x = (wnum b + Z.of_nat (j - S i))%Z).
  { intros j x J X. rewrite nth_error_app2 in X by lia. rewrite LF in X. apply LK in X. apply X. }
  intros j k x y J X Y. destruct (Nat.lt_ge_cases k (S i)) as [K|K].
  - apply (INC j k); [exact J|apply OLD; [lia|exact X]|apply OLD; [lia|exact Y]].
  - rewrite (NEW k y K Y). destruct (Nat.lt_ge_cases j (S i)) as [JI|JI].
    + pose proof (INC j (S i) x b JI (OLD j x JI X) B). lia.
    + rewrite (NEW j x JI X). lia.
Qed.

(** All waypoints that are put in are copies of the end of the segment, with all that is to be done there, and so this is done once for each. *)
Theorem C75_copies_refuted : forall wps ms r d out, extend_path wps ms r d = Some (true, out) ->
  exists i b w, nth_error wps (S i) = Some b /\ nth_error out (S i) = Some w /\ wother w = wother b
    /\ (length wps < length out)%nat /\ exists k w', (S i < k)%nat /\ nth_error out k = Some w' /\ wother w' = wother b /\ alike w' b.
Proof.
  intros wps ms r d out H. apply C75_longest in H.
  destruct H as (w0 & i & a & b & l & len & q & p & legs & mid & rest & _ & _ & [A B _ _] & _ & _ & _ & _ & _ & PT & -> & _ & AL).
  assert (X : nth_error wps (S i) <> None) by (rewrite B; discriminate). apply nth_error_Some in X.
  assert (LF : length (firstn (S i) wps) = S i) by (apply firstn_length_le; lia).
  inversion PT as [|m0 x0 ms0 xs0 (_ & _ & O) _ E1 E2]. subst mid.
  assert (SK : exists ws, skipn (S i) wps = b :: ws).
  { pose proof B as B'. rewrite <- (firstn_skipn (S i) wps), nth_error_app2, LF, Nat.sub_diag in B' by lia.
    destruct (skipn (S i) wps) as [|z zs]; [discriminate|]. cbn in B'. injection B' as ->. eauto. }
  destruct SK as (ws & SK). rewrite SK in AL. inversion AL as [|b' ? rest' ? AB AR E3 E4]. subst rest.
  assert (LR : length rest' = length ws) by (clear -AR; induction AR; cbn [length]; congruence).
  assert (LW : length wps = (S i + S (length ws))%nat) by (rewrite <- (firstn_skipn (S i) wps), app_length, LF, SK; reflexivity).
  exists i, b, m0. split; [exact B|]. split; [rewrite nth_error_app2, LF, Nat.sub_diag by lia; reflexivity|]. split; [exact O|].
  split; [rewrite !app_length, LF; cbn [length]; lia|]. exists (S i + S (length ms0))%nat, b'. split; [lia|]. split; [|split; [apply AB|exact AB]].
  rewrite nth_error_app2, LF by lia. replace (S i + S (length ms0) - S i)%nat with (length (m0 :: ms0)) by (cbn [length]; lia).
  rewrite nth_error_app2, Nat.sub_diag by lia. reflexivity.
Qed.

(** ** A route that is extended *)

(** Two waypoints, a degree of latitude apart; the second one is reached at 20 m/s. *)
Definition leaving (n : Z) : waypoint := {| wlat := 0; wlon := 0; wspeed := 20; wnum := n; wnext := 7; wother := 1 |}.
Definition arriving : waypoint := {| wlat := 1; wlon := 0; wspeed := 20; wnum := 7; wnext := 7; wother := 2 |}.

Lemma cruise_case : cruise 20 [arriving] [20].
Proof. apply cruise_keep; [left; cbn [arriving wspeed]; rewrite Rminus_diag_eq, Rabs_R0 by reflexivity; assert (0 < / 10 ^ 4) by (apply Rinv_0_lt_compat; lra); lra|constructor]. Qed.
Lemma far_case : forall n, 100000 < apart (local (leaving n) (leaving n)) (local (leaving n) arriving).
Proof.
  intros n. destruct (C73_scale (DegM 0 0) []) as (north & east & N & _ & _ & S & SD & _).
  change (history [DegM 0 0]) with (fst (deg_ne_m 0 0 fresh)) in *.
  unfold local, leaving, arriving. cbn [wlat wlon]. rewrite !SD, !S. cbn [fst snd named]. unfold apart. cbn [fst snd].
  replace 100000 with (sqrt (100000 ^ 2)) by (apply sqrt_pow2; lra). apply sqrt_lt_1; [apply pow2_ge_0|apply Rplus_le_le_0_compat; apply pow2_ge_0|].
  unfold deg in *. nra.
Qed.
Lemma suits_case : forall n, exists l, suits [leaving n; arriving] 1000 100 0 l /\ 100000 < l.
Proof.
  intros n. pose proof (far_case n) as F. set (l := apart (local (leaving n) (leaving n)) (local (leaving n) arriving)) in *. exists l. split; [|exact F].
  assert (Q : exists d, required 20 100 = Some d /\ d <= 400).
  { unfold required. pose proof PI_bounds. destruct (Rlt_dec 20 (2 * 100 * (PI - 2))) as [_|H1]; [|lra].
    destruct (search_ends (fun th => single_error th 20 100) (single_error 0 20 100)) as (m & E).
    assert (E' : single_search 20 100 = Some m) by exact E. rewrite E'. exists (single_straight m 100). split; [reflexivity|].
    unfold single_straight. pose proof (SIN_bound m). lra. }
  destruct Q as (d & Q & D). exists (leaving n), arriving, 20, d. split; [|split; [exact Q|lra]]. split; [reflexivity|reflexivity| |].
  - intros w W. cbn in W. injection W as <-. reflexivity.
  - exists (leaving n), [arriving], [20], 20. split; [reflexivity|]. split; [exact cruise_case|]. split; [reflexivity|]. lra.
Qed.
Example C75_meets : forall n, exists out, extend_path [leaving n; arriving] 1000 100 50 = Some (true, out).
Proof.
  intros n. destruct (C75_ends [leaving n; arriving] 1000 100 50) as ([] & out & E); [exists out; exact E|]. exfalso.
  apply C75_fails in E. destruct E as (_ & E). destruct (suits_case n) as (l & S & L).
  assert (/ 10 ^ 4 < 1) by (apply Rmult_lt_reg_l with (10 ^ 4); [lra|]; rewrite Rinv_r by lra; lra).
  specialize (E (leaving n) 0%nat l eq_refl ltac:(cbn [leaving wspeed]; lra) S). lra.
Qed.
(** A route between two waypoints at the same place is not extended. *)
Example C75_fails_meets : forall n, extend_path [leaving n; leaving n] 1000 100 50 = Some (false, [leaving n; leaving n]).
Proof.
  intros n. destruct (C75_ends [leaving n; leaving n] 1000 100 50) as ([] & out & E).
  - exfalso. apply C75_longest in E. destruct E as (w0 & i & a & b & l & _ & _ & _ & _ & _ & _ & W & _ & [A B E _] & _ & _ & L & _).
    specialize (E w0 W). assert (a = b) by (destruct i as [|[|i]]; cbn in A, B; [congruence|discriminate|destruct i; discriminate]). subst b.
    unfold apart in E. rewrite !Rminus_diag_eq in E by reflexivity. replace (0 ^ 2 + 0 ^ 2) with 0 in E by ring. rewrite sqrt_0 in E.
    assert (0 < / 10 ^ 4) by (apply Rinv_0_lt_compat; lra). lra.
  - rewrite E. apply C75_fails in E. destruct E as (-> & _). reflexivity.
Qed.
(** The route of the case meets what the theorem on numbers asks for. *)
Example C75_numbers_meets : forall j k a b, (j < k)%nat -> nth_error [leaving 6; arriving] j = Some a -> nth_error [leaving 6; arriving] k = Some b ->
  (wnum a < wnum b)%Z.
Proof. intros [|[|j]] [|[|k]] a b J A B; try lia; cbn in A, B; try (destruct k; discriminate). injection A as <-. injection B as <-. cbn. lia. Qed.

(** If numbers do not go up along a route, then a number that was there once can be there twice: here the numbers are 8 and 7. *)
Theorem C75_numbers_refuted : exists wps out, extend_path wps 1000 100 50 = Some (true, out) /\ chained wps /\ NoDup (map wnum wps)
  /\ exists j k a b, j <> k /\ nth_error out j = Some a /\ nth_error out k = Some b /\ wnum a = wnum b.
Proof.
  destruct (C75_meets 8) as (out & E). exists [leaving 8; arriving], out. split; [exact E|]. split; [split; [reflexivity|exact I]|]. split.
  { cbn. constructor; [intros [H|[]]; discriminate|]. constructor; [intros []|constructor]. }
  apply C75_longest in E. destruct E as (w0 & i & a & b & l & len & q & p & legs & mid & rest & _ & _ & [A B _ _] & _ & _ & _ & _ & _ & PT & -> & LK & AL).
  destruct i as [|i]; [|destruct i; discriminate]. cbn in A, B. injection A as <-. injection B as <-. cbn [firstn skipn app] in *.
  inversion PT as [|m0 ? ms0 ? _ _]. subst mid. inversion AL as [|b' ? rest' ? _ _]. subst rest.
  assert (X : exists y, nth_error ((m0 :: ms0) ++ b' :: rest') 1 = Some y) by (destruct ms0; cbn; eauto).
  destruct X as (z & ZZ). exists 0%nat, 2%nat, (leaving 8), z. split; [lia|]. split; [reflexivity|]. split; [exact ZZ|].
  destruct (LK 1%nat z ZZ) as (N & _). rewrite N. reflexivity.
Qed.

Print Assumptions C75_ends.
Print Assumptions C75_fails.
Print Assumptions C75_longest.
Print Assumptions C75_time.
Print Assumptions C75_chain.
Print Assumptions C75_numbers.
Print Assumptions C75_numbers_refuted.
Print Assumptions C75_copies_refuted.

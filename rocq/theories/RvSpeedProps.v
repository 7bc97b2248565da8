(** C79: the speed of the vehicles of a rendezvous. *)
From Coq Require Import Reals Lra Lia List ZArith Bool Permutation.
From Verif Require Import ZMap Latest FlatEarthModel RouteExtWay RvRouteModel RvRouteProps RvSpeedModel RvSpeedSpec.
Import ListNotations.
Open Scope R_scope.

Lemma snoc_split {A} (h : list A) e h1 x h2 : h ++ [e] = h1 ++ x :: h2 ->
  h2 = [] /\ h1 = h /\ x = e \/ exists h3, h2 = h3 ++ [e] /\ h = h1 ++ x :: h3.
Proof.
  intros H. destruct (exists_last (l := x :: h2)) as (l & y & L); [discriminate|]. rewrite L, app_assoc in H. apply app_inj_tail in H. destruct H as (-> & ->).
  destruct l as [|x' l]; cbn in L; injection L as -> ->; [left; rewrite app_nil_r; auto|right; exists l; auto].
Qed.

Lemma tiny_pos : 0 < tiny.
Proof. unfold tiny. apply Rinv_0_lt_compat. lra. Qed.

(** *** The way that is left *)
Lemma find_some n : forall ws k i w, find_point k ws n = Some (i, w) -> (k <= i)%nat /\ first_with ws n (i - k) w.
Proof.
  induction ws as [|x ws IH]; intros k i w; cbn [find_point]; [discriminate|]. destruct (Z.eqb_spec (p_num x) n) as [E|E].
  - intros [= <- <-]. split; [lia|]. rewrite Nat.sub_diag. split; [reflexivity|]. split; [exact E|]. intros j y J. lia.
  - intros H. apply IH in H. destruct H as (L & A & B & C). split; [lia|]. replace (i - k)%nat with (S (i - S k)) by lia. split; [exact A|]. split; [exact B|].
    intros [|j] y J Y; [injection Y as <-; exact E|apply (C j y); [lia|exact Y]].
Qed.
Lemma find_none n : forall ws k, find_point k ws n = None -> forall x, In x ws -> p_num x <> n.
Proof.
  induction ws as [|x ws IH]; intros k; cbn [find_point]; [intros _ ? []|]. destruct (Z.eqb_spec (p_num x) n) as [E|E]; [discriminate|].
  intros H y [<-|Y]; [exact E|eapply IH; eassumption].
Qed.
Lemma seen_in i seen : existsb (Nat.eqb i) seen = true <-> In i seen.
Proof. rewrite existsb_exists. split; [intros (x & X & E); apply Nat.eqb_eq in E; congruence|intros X; exists i; rewrite Nat.eqb_refl; auto]. Qed.

Section Way.
  Context (task : Z).
  Lemma follow_ahead ws : forall fuel seen n, NoDup seen -> (forall i, In i seen -> (i < length ws)%nat) -> (length ws < fuel + length seen)%nat ->
    ahead task ws seen n (follow fuel task ws seen n).
  Proof.
    induction fuel as [|fuel IH]; intros seen n N B L.
    - exfalso. assert (X : (length seen <= length (seq 0 (length ws)))%nat) by (apply NoDup_incl_length; [exact N|intros i I; apply in_seq; specialize (B i I); lia]). rewrite seq_length in X. lia.
    - cbn [follow]. destruct (find_point 0 ws n) as [(i, w)|] eqn:F; [|apply ahead_none; eapply find_none; exact F].
      apply find_some in F. destruct F as (_ & F). rewrite Nat.sub_0_r in F. destruct (existsb (Nat.eqb i) seen) eqn:S; [eapply ahead_again; [exact F|apply seen_in, S]|].
      assert (NS : ~ In i seen) by (rewrite <- seen_in; congruence). destruct (zin task (p_tasks w)) eqn:T.
      + apply zin_In in T. eapply ahead_on; [exact F|exact T|exact NS|]. apply IH; [constructor; assumption| |cbn [length]; lia].
        intros j [<-|J]; [|auto]. destruct F as (F & _). apply nth_error_Some. congruence.
      + eapply ahead_other; [exact F|]. apply zin_false, T.
  Qed.
  Lemma first_fun ws n i w j x : first_with ws n i w -> first_with ws n j x -> i = j /\ w = x.
  Proof.
    intros (A & B & C) (A' & B' & C'). destruct (Nat.lt_trichotomy i j) as [L|[->|L]].
    - exfalso. exact (C' i w L A B).
    - split; [reflexivity|congruence].
    - exfalso. exact (C j x L A' B').
  Qed.
  Lemma ahead_fun ws seen n p : ahead task ws seen n p -> forall p', ahead task ws seen n p' -> p = p'.
  Proof.
    assert (FI : forall m i w, first_with ws m i w -> In w ws /\ p_num w = m) by (intros m i w (A & B & _); split; [eapply nth_error_In, A|exact B]).
    induction 1 as [seen n N|seen n i w F O|seen n i w F S|seen n i w p F O S A IH]; intros p' A'; inversion A' as [? ? N'|? ? i' w' F' O'|? ? i' w' F' S'|? ? i' w' q F' O' S' A'']; subst; try reflexivity;
      try (destruct (FI _ _ _ F') as (X & Y); exfalso; exact (N _ X Y)); try (destruct (FI _ _ _ F) as (X & Y); exfalso; exact (N' _ X Y));
      destruct (first_fun _ _ _ _ _ _ F F') as (-> & ->); try contradiction. f_equal. apply IH, A''.
  Qed.
  Lemma length_far st : forall ws p, length_from (fst (deg_ne_m (r_lat st) (r_lon st) fresh)) p ws = far st p ws.
  Proof.
    induction ws as [|w ws IH]; intros p; [reflexivity|]. cbn [length_from far]. rewrite IH. apply f_equal2; [|reflexivity]. f_equal. unfold spot. ring.
  Qed.
  Lemma far_pos st : forall ws p, 0 <= far st p ws.
  Proof. induction ws as [|w ws IH]; intros p; cbn [far]; [lra|]. pose proof (sqrt_pos ((fst (spot st w) - fst p) ^ 2 + (snd (spot st w) - snd p) ^ 2)). specialize (IH (spot st w)). lra. Qed.
  Lemma remaining_pos h st d : remaining task h st d -> 0 <= d.
  Proof. intros [(_ & ->)|(ws & p & _ & _ & ->)]; [lra|apply far_pos]. Qed.
End Way.

(** *** States *)
Section States.
  Context (task : Z).
  Record inv (h : list ev) (s : state) : Prop := {
    i_configs : forall v c, zget (configs s) v = Some c <-> latest (configured v) h c;
    i_missions : forall v ws, zget (missions s) v = Some ws <-> latest (ordered v) h ws;
    i_keys : NoDup (map fst (distances s));
    i_distances : forall v t d, zget (distances s) v = Some (t, d) <-> reported task h v t d }.

  Lemma latest_fun {A} (says : ev -> option A) h x y : latest says h x -> latest says h y -> x = y.
  Proof. intros X Y. apply follow_latest in X, Y. congruence. Qed.
  Lemma latest_unsaid {A} (says : ev -> option A) h x : latest says h x -> unsaid says h -> False.
  Proof. intros X Y. apply follow_latest in X. apply follow_unsaid in Y. congruence. Qed.
  Lemma inv_remaining h s st d : inv h s -> remaining task h st d <-> d = arrival_distance task s st.
  Proof.
    intros I. unfold arrival_distance. destruct (zget (missions s) (r_id st)) as [ws|] eqn:E.
    - apply (i_missions _ _ I) in E. set (p := follow (S (length ws)) task ws [] (r_current st)).
      assert (A : ahead task ws [] (r_current st) p) by (apply follow_ahead; [constructor|intros ? []|cbn [length]; lia]).
      assert (L : length_from (initialize (r_lat st * deg_to_rad) (r_lon st * deg_to_rad) fresh) (0, 0) p = far st (0, 0) p) by (rewrite <- length_far; reflexivity).
      rewrite L. split.
      + intros [(U & _)|(ws' & p' & W & A' & ->)]; [exfalso; eapply latest_unsaid; eassumption|]. rewrite (latest_fun _ _ _ _ W E) in A'. rewrite (ahead_fun _ _ _ _ _ A _ A'). reflexivity.
      + intros ->. right. exists ws, p. auto.
    - split.
      + intros [(U & ->)|(ws' & p' & W & _)]; [reflexivity|]. apply (i_missions _ _ I) in W. congruence.
      + intros ->. left. split; [|reflexivity]. apply follow_unsaid. destruct (Latest.follow (ordered (r_id st)) h) eqn:F; [|reflexivity]. apply follow_latest in F. apply (i_missions _ _ I) in F. congruence.
  Qed.
  Lemma reported_snoc h e v t d : reported task (h ++ [e]) v t d <->
    match e with Report st a => if Z.eqb (r_id st) v then t = r_time st /\ remaining task h st d else reported task h v t d | _ => reported task h v t d end.
  Proof.
    assert (G : (forall st a, e = Report st a -> r_id st <> v) -> reported task (h ++ [e]) v t d <-> reported task h v t d).
    { intros NE. split; intros (h1 & st & a & h2 & E & V & T & R & N).
      - apply snoc_split in E. destruct E as [(-> & -> & <-)|(h3 & -> & ->)]; [exfalso; exact (NE _ _ eq_refl V)|]. exists h1, st, a, h3. split; [reflexivity|]. split; [exact V|]. split; [exact T|]. split; [exact R|].
        intros st' a' I. apply (N st' a'). apply in_or_app. left. exact I.
      - exists h1, st, a, (h2 ++ [e]). split; [rewrite E, <- app_assoc; reflexivity|]. split; [exact V|]. split; [exact T|]. split; [exact R|].
        intros st' a' I. apply in_app_iff in I. destruct I as [I|[->|[]]]; [apply (N _ _ I)|exact (NE _ _ eq_refl)]. }
    destruct e as [u c|u ws|st a]; try (apply G; intros; discriminate). destruct (Z.eqb_spec (r_id st) v) as [E|E]; [|apply G; intros ? ? [= <- _]; exact E]. split.
    - intros (h1 & st' & a' & h2 & E' & V & T & R & N). apply snoc_split in E'. destruct E' as [(-> & -> & [= -> _])|(h3 & -> & ->)]; [auto|]. exfalso. apply (N st a); [apply in_or_app; right; left; reflexivity|exact E].
    - intros (-> & R). exists h, st, a, []. split; [reflexivity|]. split; [exact E|]. split; [reflexivity|]. split; [exact R|]. intros ? ? [].
  Qed.

  Context (order : list (Z * (Z * R)) -> list (Z * (Z * R))) (order_perm : forall l, Permutation (order l) l).
  Lemma inv_step h s e s' o : inv h s -> step order task s e = Some (s', o) -> inv (h ++ [e]) s'.
  Proof.
    intros I. destruct e as [u c|u ws|st a]; cbn [step].
    - intros [= <- _]. split; cbn [configs missions distances].
      + intros v x. rewrite latest_snoc. cbn [configured]. rewrite zget_set, (Z.eqb_sym u v). destruct (Z.eqb_spec v u); [split; [auto|intros [H|(H & _)]; [exact H|discriminate]]|]. rewrite (i_configs _ _ I). split; [auto|intros [H|(_ & H)]; [discriminate|exact H]].
      + intros v x. rewrite latest_snoc. cbn [ordered]. rewrite (i_missions _ _ I). split; [auto|intros [H|(_ & H)]; [discriminate|exact H]].
      + apply (i_keys _ _ I).
      + intros v t d. rewrite reported_snoc. apply (i_distances _ _ I).
    - intros [= <- _]. split; cbn [configs missions distances].
      + intros v x. rewrite latest_snoc. cbn [configured]. rewrite (i_configs _ _ I). split; [auto|intros [H|(_ & H)]; [discriminate|exact H]].
      + intros v x. rewrite latest_snoc. cbn [ordered]. rewrite zget_set, (Z.eqb_sym u v). destruct (Z.eqb_spec v u); [split; [auto|intros [H|(H & _)]; [exact H|discriminate]]|]. rewrite (i_missions _ _ I). split; [auto|intros [H|(_ & H)]; [discriminate|exact H]].
      + apply (i_keys _ _ I).
      + intros v t d. rewrite reported_snoc. apply (i_distances _ _ I).
    - destruct (if a then control order task s st else Some []) as [out|]; [|discriminate]. intros H.
      assert (E : s' = {| configs := configs s; missions := missions s; distances := zset (distances s) (r_id st) (r_time st, arrival_distance task s st) |}) by congruence. subst s'. clear H. split; cbn [configs missions distances].
      + intros v x. rewrite latest_snoc. cbn [configured]. rewrite (i_configs _ _ I). split; [auto|intros [H|(_ & H)]; [discriminate|exact H]].
      + intros v x. rewrite latest_snoc. cbn [ordered]. rewrite (i_missions _ _ I). split; [auto|intros [H|(_ & H)]; [discriminate|exact H]].
      + apply NoDup_keys_zset, (i_keys _ _ I).
      + intros v t d. rewrite reported_snoc, zget_set, (Z.eqb_sym (r_id st) v). destruct (Z.eqb_spec v (r_id st)); [|apply (i_distances _ _ I)]. rewrite (inv_remaining h s st d I). split; [intros H; split; congruence|intros (-> & ->); reflexivity].
  Qed.
  Lemma inv_run evs : forall h s s' os, inv h s -> run order task s evs = Some (s', os) -> inv (h ++ evs) s'.
  Proof.
    induction evs as [|e evs IH]; intros h s s' os I; cbn [run]; [intros [= <- _]; rewrite app_nil_r; exact I|]. destruct (step order task s e) as [(s1, o)|] eqn:E; [|discriminate].
    destruct (run order task s1 evs) as [(s2, os2)|] eqn:R; [|discriminate]. intros H. assert (s2 = s') by congruence. subst s2.
    replace (h ++ e :: evs) with ((h ++ [e]) ++ evs) by (rewrite <- app_assoc; reflexivity). eapply IH; [eapply inv_step; eassumption|exact R].
  Qed.
  Lemma inv_init : inv [] init.
  Proof.
    split; cbn; try (intros; split; [discriminate|intros H; destruct (latest_nil _ _ H)]); [constructor|]. intros v t d. split; [discriminate|]. intros ([|] & ? & ? & ? & E & _); discriminate.
  Qed.

  (** *** Limits and times *)
  Lemma clip_limits c n : let '(lo, hi, nom) := speed_clip c n in limits c n lo hi nom.
  Proof.
    destruct c as [c|]; cbn [speed_clip]; [|cbn; auto]. unfold limits. fold tiny. set (nom := if Rlt_dec (s_nominal c) tiny then n else s_nominal c).
    split; [unfold nom; destruct (Rlt_dec (s_nominal c) tiny); [left; auto|right; split; [lra|reflexivity]]|]. clearbody nom. split.
    - destruct (Rlt_dec (s_min c) tiny); [right; split; [lra|reflexivity]|]. destruct (Rlt_dec nom (s_min c)); [right; split; [lra|reflexivity]|left; split; [lra|reflexivity]].
    - destruct (Rlt_dec (s_max c) nom); [rewrite Rmax_right by lra; reflexivity|rewrite Rmax_left by lra; reflexivity].
  Qed.
  Lemma limits_fun c n lo hi nom lo' hi' nom' : limits c n lo hi nom -> limits c n lo' hi' nom' -> lo = lo' /\ hi = hi' /\ nom = nom'.
  Proof.
    destruct c as [c|]; cbn [limits]; [|intros (-> & -> & ->) (-> & -> & ->); auto].
    intros (A & B & ->) (A' & B' & ->). assert (nom = nom') by (destruct A as [(A & ->)|(A & ->)], A' as [(A' & ->)|(A' & ->)]; lra). subst nom'.
    destruct B as [(B & ->)|(B & ->)], B' as [(B' & ->)|(B' & ->)]; try contradiction; auto.
  Qed.
  Lemma limits_pos c n lo hi nom : tiny <= n -> limits c n lo hi nom -> tiny <= lo /\ lo <= nom /\ nom <= hi.
  Proof.
    intros N. destruct c as [c|]; cbn [limits]; [|intros (-> & -> & ->); lra]. fold tiny. intros (A & B & ->). assert (tiny <= nom) by (destruct A as [(A & ->)|(A & ->)]; lra).
    pose proof (Rmax_r (s_max c) nom). destruct B as [(B & ->)|(B & ->)]; lra.
  Qed.
  Lemma cut_trunc x : cut x (trunc x).
  Proof.
    unfold cut, trunc. destruct (Rlt_dec x 0) as [N|N]; [right|left].
    - pose proof (floor_frac (- x)) as F. rewrite opp_IZR. lra.
    - pose proof (floor_frac x) as F. lra.
  Qed.
  Lemma cut_fun x a b : cut x a -> cut x b -> a = b.
  Proof.
    assert (H : forall p q, IZR p < IZR q + 1 -> (p <= q)%Z) by (intros p q L; rewrite <- plus_IZR in L; apply lt_IZR in L; lia).
    unfold cut. intros [(X & A)|(X & A)] [(Y & B)|(Y & B)]; try lra; apply Z.le_antisymm; apply H; lra.
  Qed.
  Lemma cut_le x y a b : x <= y -> cut x a -> cut y b -> (a <= b)%Z.
  Proof.
    assert (H : forall p q, IZR p < IZR q + 1 -> (p <= q)%Z) by (intros p q L; rewrite <- plus_IZR in L; apply lt_IZR in L; lia).
    unfold cut. intros L [(X & A)|(X & A)] [(Y & B)|(Y & B)]; apply H; try lra.
    apply Rlt_le_trans with 1; [|].
    - assert (IZR a <= 0); [|lra]. apply IZR_le. assert (IZR a < 0 + 1) by lra. change 0 with (IZR 0) in *. apply H in H0. exact H0.
    - assert (0 <= IZR b); [|lra]. apply IZR_le. apply (H 0%Z b). lra.
  Qed.

  Definition triple (d lo hi nom : R) (dt : Z) : times :=
    {| t_min := trunc (d / hi * 1000 - IZR dt); t_mid := trunc (d / nom * 1000 - IZR dt); t_max := trunc (d / lo * 1000 - IZR dt) |}.
  Lemma triple_takes d lo hi nom dt : takes d lo hi nom dt (triple d lo hi nom dt).
  Proof. split; [|split]; apply cut_trunc. Qed.
  Lemma takes_fun d lo hi nom dt x y : takes d lo hi nom dt x -> takes d lo hi nom dt y -> x = y.
  Proof. intros (A & B & C) (A' & B' & C'). destruct x as [x1 x2 x3], y as [y1 y2 y3]. cbn in *. f_equal; eapply cut_fun; eassumption. Qed.

  (** *** Neighbours *)
  Definition counted (s : state) (st : report) (nom : R) (x : Z * (Z * R)) (y : times) : Prop :=
    let '(v, (t, d)) := x in
    v <> r_id st /\ nom <= d /\ exists c, zget (configs s) v = Some c /\ let '(lo, hi, n) := speed_clip c nom in
      let dt := Z.max 0 (r_time st - t) in y = triple d lo hi n dt /\ (dt < 5000)%Z /\ (1000 < t_mid y)%Z.
  Definition lost (s : state) (st : report) (nom : R) (x : Z * (Z * R)) : Prop :=
    let '(v, (t, d)) := x in v <> r_id st /\ nom <= d /\ zget (configs s) v = None.
  Definition widen (w : window) (y : times) : window :=
    {| RvSpeedModel.earliest := Z.max (RvSpeedModel.earliest w) (t_min y); RvSpeedModel.last := Z.min (RvSpeedModel.last w) (t_max y); wanted := wanted w ++ [t_mid y] |}.

  Lemma neighbour_cases s st nom w x : match neighbour s st nom w x with
    | None => lost s st nom x
    | Some w' => ~ lost s st nom x /\ ((exists y, counted s st nom x y /\ w' = widen w y) \/ (forall y, ~ counted s st nom x y) /\ w' = w)
    end.
  Proof.
    destruct x as (v, (t, d)). cbn [neighbour]. destruct (Rlt_dec d nom) as [D|D].
    { split; [intros (_ & H & _); lra|right]. split; [|reflexivity]. intros y (_ & H & _). lra. }
    destruct (Z.eqb_spec v (r_id st)) as [V|V].
    { split; [intros (H & _); contradiction|right]. split; [|reflexivity]. intros y (H & _). contradiction. }
    destruct (zget (configs s) v) as [c|] eqn:C; [|split; [exact V|split; [lra|exact C]]].
    destruct (speed_clip c nom) as ((lo, hi), n) eqn:S.
    assert (E : forall y, counted s st nom (v, (t, d)) y <-> y = triple d lo hi n (Z.max 0 (r_time st - t)) /\ (Z.max 0 (r_time st - t) < 5000)%Z /\ (1000 < t_mid y)%Z).
    { intros y. split.
      - intros (_ & _ & c' & C' & H). assert (c' = c) by congruence. subst c'. rewrite S in H. exact H.
      - intros H. split; [exact V|]. split; [lra|]. exists c. split; [exact C|]. rewrite S. exact H. }
    assert (NL : ~ lost s st nom (v, (t, d))) by (intros (_ & _ & H); congruence).
    destruct (_ && _)%bool eqn:B; (split; [exact NL|]).
    - apply andb_true_iff in B. destruct B as (B1 & B2). apply Z.ltb_lt in B1, B2. left. eexists. split; [apply E; split; [reflexivity|]; split; [exact B2|exact B1]|].
      unfold widen. cbn [t_min t_mid t_max triple]. f_equal.
      + destruct (Z.ltb_spec (RvSpeedModel.earliest w) (trunc (d / hi * 1000 - IZR (Z.max 0 (r_time st - t))))); lia.
      + destruct (Z.ltb_spec (trunc (d / lo * 1000 - IZR (Z.max 0 (r_time st - t)))) (RvSpeedModel.last w)); lia.
    - right. split; [|reflexivity]. intros y H. apply E in H. destruct H as (-> & H1 & H2). cbn [t_mid triple] in H2. apply Z.ltb_lt in H1, H2. rewrite H1, H2 in B. discriminate.
  Qed.
  Lemma counted_fun s st nom x y y' : counted s st nom x y -> counted s st nom x y' -> y = y'.
  Proof.
    destruct x as (v, (t, d)). intros (_ & _ & c & C & H) (_ & _ & c' & C' & H'). assert (c' = c) by congruence. subst c'. destruct (speed_clip c nom) as ((lo, hi), n). destruct H as (-> & _), H' as (-> & _). reflexivity.
  Qed.
  Lemma neighbours_cases s st nom : forall l w, NoDup (map fst l) -> match neighbours s st nom w l with
    | None => exists x, In x l /\ lost s st nom x
    | Some w' => (forall x, In x l -> ~ lost s st nom x) /\ exists ys : list (Z * times), NoDup (map fst ys) /\ (forall v y, In (v, y) ys <-> exists x, In (v, x) l /\ counted s st nom (v, x) y)
                 /\ w' = fold_left widen (map snd ys) w
    end.
  Proof.
    induction l as [|(v, x) l IH]; intros w N; cbn [neighbours].
    - split; [intros ? []|]. exists []. split; [constructor|]. split; [|reflexivity]. intros v y. split; [intros []|intros (? & [] & _)].
    - inversion N as [|? ? N1 N2]; subst. pose proof (neighbour_cases s st nom w (v, x)) as H. destruct (neighbour s st nom w (v, x)) as [w1|]; [|exists (v, x); split; [left; reflexivity|exact H]].
      destruct H as (NL & H). specialize (IH w1 N2). destruct (neighbours s st nom w1 l) as [w'|]; [|destruct IH as (z & Z1 & Z2); exists z; split; [right; exact Z1|exact Z2]].
      destruct IH as (NL' & ys & K & B & ->). split; [intros z [<-|Z]; auto|].
      assert (NV : forall y, ~ In (v, y) ys).
      { intros y I. apply B in I. destruct I as (x' & I & _). apply N1. change v with (fst (v, x')). apply in_map, I. }
      destruct H as [(y0 & C & ->)|(NC & ->)].
      + exists ((v, y0) :: ys). split; [cbn [map fst]; constructor; [|exact K]; intros I; apply in_map_iff in I; destruct I as ((v', y) & E & I); cbn in E; subst v'; exact (NV _ I)|]. split; [|reflexivity].
        intros u y. split.
        * intros [E|I]; [injection E as <- <-; exists x; split; [left; reflexivity|exact C]|]. apply B in I. destruct I as (x' & I & C'). exists x'. split; [right; exact I|exact C'].
        * intros (x' & [E|I] & C'); [injection E as <- <-; left; f_equal; eapply counted_fun; eassumption|]. right. apply B. exists x'. auto.
      + exists ys. split; [exact K|]. split; [|reflexivity]. intros u y. rewrite B. split.
        * intros (x' & I & C'). exists x'. split; [right; exact I|exact C'].
        * intros (x' & [E|I] & C'); [injection E as <- <-; exfalso; exact (NC _ C')|]. exists x'. auto.
  Qed.

  Lemma counted_counts h s st nom v y : inv h s -> (exists x, In (v, x) (distances s) /\ counted s st nom (v, x) y) <-> counts task h st nom v y.
  Proof.
    intros I. split.
    - intros ((t, d) & X & V & D & c & C & H). pose proof (clip_limits c nom) as L. destruct (speed_clip c nom) as ((lo, hi), n). destruct H as (-> & H1 & H2). split; [exact V|].
      exists t, d, c, lo, hi, n. split; [apply (i_distances _ _ I), zget_In; [apply (i_keys _ _ I)|exact X]|]. split; [exact D|]. split; [apply (i_configs _ _ I), C|]. split; [exact L|]. split; [exact H1|]. split; [apply triple_takes|exact H2].
    - intros (V & t & d & c & lo & hi & n & R & D & C & L & H1 & T & H2). exists (t, d). split; [apply In_zget, (i_distances _ _ I), R|]. split; [exact V|]. split; [exact D|]. exists c. split; [apply (i_configs _ _ I), C|].
      pose proof (clip_limits c nom) as L'. destruct (speed_clip c nom) as ((lo', hi'), n'). destruct (limits_fun _ _ _ _ _ _ _ _ L L') as (-> & -> & ->). split; [eapply takes_fun; [exact T|apply triple_takes]|auto].
  Qed.

  Lemma widen_all : forall ys w, let w' := fold_left widen ys w in
    wanted w' = wanted w ++ map t_mid ys
    /\ (RvSpeedModel.earliest w <= RvSpeedModel.earliest w')%Z /\ (forall y, In y ys -> (t_min y <= RvSpeedModel.earliest w')%Z) /\ (RvSpeedModel.earliest w' = RvSpeedModel.earliest w \/ In (RvSpeedModel.earliest w') (map t_min ys))
    /\ (RvSpeedModel.last w' <= RvSpeedModel.last w)%Z /\ (forall y, In y ys -> (RvSpeedModel.last w' <= t_max y)%Z) /\ (RvSpeedModel.last w' = RvSpeedModel.last w \/ In (RvSpeedModel.last w') (map t_max ys)).
  Proof.
    induction ys as [|y ys IH]; intros w; cbn [fold_left map].
    - rewrite app_nil_r. repeat split; try lia; try (intros ? []); left; reflexivity.
    - specialize (IH (widen w y)). cbv zeta in IH. destruct IH as (A & B & C & D & E & F & G). cbn [widen RvSpeedModel.earliest RvSpeedModel.last wanted] in A, B, D, E, G. cbv zeta.
      split; [rewrite A, <- app_assoc; reflexivity|]. split; [lia|]. split; [intros z [<-|Z]; [lia|apply C, Z]|]. split.
      { destruct D as [D|D]; [|right; right; exact D]. rewrite D. destruct (Z.max_spec (RvSpeedModel.earliest w) (t_min y)) as [(_ & ->)|(_ & ->)]; [right; left; reflexivity|left; reflexivity]. }
      split; [lia|]. split; [intros z [<-|Z]; [lia|apply F, Z]|].
      destruct G as [G|G]; [|right; right; exact G]. rewrite G. destruct (Z.min_spec (RvSpeedModel.last w) (t_max y)) as [(_ & ->)|(_ & ->)]; [left; reflexivity|right; left; reflexivity].
  Qed.
  Lemma fold_add : forall l a, fold_left Z.add l a = (a + total l)%Z.
  Proof. induction l as [|x l IH]; intros a; cbn [fold_left total fold_right]; [lia|]. rewrite IH. unfold total. lia. Qed.
  Lemma meeting_aims own ys : aims (own :: ys) (meeting (fold_left widen ys {| RvSpeedModel.earliest := t_min own; RvSpeedModel.last := t_max own; wanted := [t_mid own] |})).
  Proof.
    set (w := {| RvSpeedModel.earliest := t_min own; RvSpeedModel.last := t_max own; wanted := [t_mid own] |}).
    pose proof (widen_all ys w) as H. cbv zeta in H. set (w' := fold_left widen ys w) in *. destruct H as (A & B & C & D & E & F & G). cbn [w RvSpeedModel.earliest RvSpeedModel.last wanted] in A, B, D, E, G.
    exists (RvSpeedModel.earliest w'), (RvSpeedModel.last w'). split; [destruct D as [->|D]; [left; reflexivity|right; exact D]|]. split; [intros x [<-|X]; [exact B|apply C, X]|].
    split; [destruct G as [->|G]; [left; reflexivity|right; exact G]|]. split; [intros x [<-|X]; [exact E|apply F, X]|].
    unfold meeting. destruct (Z.leb_spec (RvSpeedModel.earliest w') (RvSpeedModel.last w')) as [L|L]; [left; split; [exact L|]|right; split; [exact L|lia]].
    rewrite A, fold_add. cbn [app]. change (t_mid own :: map t_mid ys) with (map t_mid (own :: ys)). rewrite map_length, Z.add_0_l. reflexivity.
  Qed.

  Lemma desired_steers lo hi nom d t : steers lo hi nom d t (desired lo hi nom d t).
  Proof.
    unfold steers, desired, clip. cbv zeta. eexists. split; [|reflexivity]. destruct (Z.ltb_spec 1000 t) as [T|T]; [|right; split; [intros (H & _); lia|reflexivity]].
    destruct (Rlt_dec nom d) as [D|D]; [|right; split; [intros (_ & H); lra|reflexivity]]. left. split; [exact T|]. split; [exact D|]. f_equal. f_equal. field. apply IZR_lt in T. lra.
  Qed.
  Lemma sub_zero x : x = x - IZR 0.
  Proof. lra. Qed.

  (** The vehicle with its limits in the model. *)
  Lemma controlled_clip h s st lo hi nom : inv h s -> controlled h st lo hi nom <->
    exists c n, zget (configs s) (r_id st) = Some (Some c) /\ n = (if Rlt_dec (s_nominal c) tiny then match r_air st with Some a => a | None => r_ground st end else s_nominal c)
      /\ tiny <= n /\ speed_clip (Some c) n = (lo, hi, nom).
  Proof.
    intros I. unfold controlled. fold tiny. split.
    - intros (c & n & C & SI & L & T). exists c. eexists. split; [apply (i_configs _ _ I), C|]. split; [reflexivity|].
      assert (N : nom = (if Rlt_dec (s_nominal c) tiny then match r_air st with Some a => a | None => r_ground st end else s_nominal c)).
      { destruct L as (L & _). fold tiny in L. unfold stand_in in SI. destruct (Rlt_dec (s_nominal c) tiny); destruct L as [(L & ->)|(L & ->)]; try lra. destruct (r_air st); exact SI. }
      rewrite <- N. split; [exact T|]. pose proof (clip_limits (Some c) nom) as L'. destruct (speed_clip (Some c) nom) as ((lo', hi'), nom').
      assert (L2 : limits (Some c) nom lo hi nom). { destruct L as (L & L1). split; [|exact L1]. fold tiny in L |- *. destruct L as [(L & _)|L]; [left; auto|right; exact L]. }
      destruct (limits_fun _ _ _ _ _ _ _ _ L2 L') as (-> & -> & ->). reflexivity.
    - intros (c & n & C & -> & T & S). pose proof (clip_limits (Some c) (if Rlt_dec (s_nominal c) tiny then match r_air st with Some a => a | None => r_ground st end else s_nominal c)) as L. rewrite S in L.
      exists c, (match r_air st with Some a => a | None => r_ground st end). split; [apply (i_configs _ _ I), C|]. split; [unfold stand_in; destruct (r_air st); reflexivity|]. split.
      + destruct L as (L & L1). split; [|exact L1]. fold tiny in L |- *. destruct (Rlt_dec (s_nominal c) tiny); [exact L|]. destruct L as [(L & _)|L]; [lra|right; exact L].
      + destruct (limits_pos _ _ _ _ _ T L) as (A & B & _). lra.
  Qed.
  Lemma controlled_fun h st lo hi nom lo' hi' nom' : controlled h st lo hi nom -> controlled h st lo' hi' nom' -> lo = lo' /\ hi = hi' /\ nom = nom'.
  Proof.
    intros (c & n & C & SI & L & _) (c' & n' & C' & SI' & L' & _). pose proof (latest_fun _ _ _ _ C C') as E. injection E as <-.
    assert (n = n') by (unfold stand_in in *; destruct (r_air st); congruence). subst n'. eapply limits_fun; eassumption.
  Qed.

  Lemma clip_range lo hi x : lo <= hi -> lo <= clip lo hi x <= hi.
  Proof. intros L. unfold clip, Rmax, Rmin. destruct (Rle_dec hi x); destruct (Rle_dec lo _); lra. Qed.

  Context (h : list ev) (s : state) (os : list (list command)).
  Context (reached : run order task init h = Some (s, os)).

  Lemma inv_here : inv h s.
  Proof. apply (inv_run h [] init s os inv_init reached). Qed.

  (** A vehicle at the task gets exactly one command, unless it is no air vehicle or no nominal speed is known: then none. *)
  Theorem C79_commands st s' out : step order task s (Report st true) = Some (s', out) ->
    (exists lo hi nom speed, controlled h st lo hi nom /\ out = [{| c_vehicle := r_id st; c_speed := speed |}])
    \/ (forall lo hi nom, ~ controlled h st lo hi nom) /\ out = [].
  Proof.
    pose proof inv_here as I. cbn [step]. unfold control. destruct (zget (configs s) (r_id st)) as [[c|]|] eqn:C.
    2, 3: intros [= _ <-]; right; split; [|reflexivity]; intros lo hi nom H; apply (controlled_clip _ s _ _ _ _ I) in H; destruct H as (c & n & H & _); congruence.
    set (n := if Rlt_dec (s_nominal c) tiny then match r_air st with Some a => a | None => r_ground st end else s_nominal c). destruct (Rlt_dec n tiny) as [N|N].
    { intros [= _ <-]. right. split; [|reflexivity]. intros lo hi nom H. apply (controlled_clip _ s _ _ _ _ I) in H. destruct H as (c' & n' & C' & E & T & _). assert (c' = c) by congruence. subst c'. fold n in E. lra. }
    destruct (speed_clip (Some c) n) as ((lo, hi), nom) eqn:S. destruct (neighbours _ _ _ _ _) as [w|]; [|discriminate]. intros [= _ <-]. left. exists lo, hi, nom. eexists. split; [|reflexivity].
    apply (controlled_clip _ s _ _ _ _ I). exists c, n. split; [exact C|]. split; [reflexivity|]. split; [lra|exact S].
  Qed.

  (** The speed of the command: the one to be at the meeting when all that count can be, in the middle of what they want. *)
  Theorem C79_speed st s' v speed : step order task s (Report st true) = Some (s', [{| c_vehicle := v; c_speed := speed |}]) ->
    v = r_id st /\ exists lo hi nom d own others t, controlled h st lo hi nom /\ remaining task h st d /\ takes d lo hi nom 0 own
      /\ NoDup (map fst others) /\ (forall u x, In (u, x) others <-> counts task h st nom u x)
      /\ aims (own :: map snd others) t /\ steers lo hi nom d t speed.
  Proof.
    pose proof inv_here as I. cbn [step]. unfold control. destruct (zget (configs s) (r_id st)) as [[c|]|] eqn:C; [|discriminate|discriminate].
    set (n := if Rlt_dec (s_nominal c) tiny then match r_air st with Some a => a | None => r_ground st end else s_nominal c). destruct (Rlt_dec n tiny) as [N|N]; [discriminate|].
    destruct (speed_clip (Some c) n) as ((lo, hi), nom) eqn:S. set (d := arrival_distance task s st).
    assert (CO : controlled h st lo hi nom) by (apply (controlled_clip _ s _ _ _ _ I); exists c, n; split; [exact C|]; split; [reflexivity|]; split; [lra|exact S]).
    set (own := triple d lo hi nom 0).
    assert (E : {| RvSpeedModel.earliest := trunc (d / hi * 1000); RvSpeedModel.last := trunc (d / lo * 1000); wanted := [trunc (d / nom * 1000)] |}
      = {| RvSpeedModel.earliest := t_min own; RvSpeedModel.last := t_max own; wanted := [t_mid own] |}) by (unfold own, triple; cbn [t_min t_mid t_max]; rewrite <- !sub_zero; reflexivity).
    rewrite E. clear E.
    assert (ND : NoDup (map fst (order (distances s)))) by (eapply Permutation_NoDup; [apply Permutation_map, Permutation_sym, order_perm|apply (i_keys _ _ I)]).
    pose proof (neighbours_cases s st nom (order (distances s)) {| RvSpeedModel.earliest := t_min own; RvSpeedModel.last := t_max own; wanted := [t_mid own] |} ND) as H. destruct (neighbours _ _ _ _ _) as [w|]; [|discriminate].
    intros X. assert (V : v = r_id st /\ speed = desired lo hi nom d (meeting w)) by (split; congruence). destruct V as (-> & ->). clear X. split; [reflexivity|].
    destruct H as (_ & ys & K & B & ->). exists lo, hi, nom, d, own, ys. eexists. split; [exact CO|]. split; [apply (inv_remaining _ s _ _ I); reflexivity|]. split; [apply triple_takes|]. split; [exact K|]. split.
    - intros u x. rewrite B. rewrite <- (counted_counts h s st nom u x I). split; intros (y & Y & CY); exists y; (split; [|exact CY]); [apply (Permutation_in _ (order_perm _)), Y|apply (Permutation_in _ (Permutation_sym (order_perm _))), Y].
    - split; [apply meeting_aims|apply desired_steers].
  Qed.

  (** Undefined behaviour exactly if a neighbour is on its way of which the configuration is not known. *)
  Theorem C79_undefined st : step order task s (Report st true) = None <->
    exists lo hi nom, controlled h st lo hi nom /\ exists v t d, v <> r_id st /\ reported task h v t d /\ nom <= d /\ unsaid (configured v) h.
  Proof.
    pose proof inv_here as I.
    assert (ND : NoDup (map fst (order (distances s)))) by (eapply Permutation_NoDup; [apply Permutation_map, Permutation_sym, order_perm|apply (i_keys _ _ I)]).
    assert (LO : forall nom, (exists x, In x (order (distances s)) /\ lost s st nom x) <-> exists v t d, v <> r_id st /\ reported task h v t d /\ nom <= d /\ unsaid (configured v) h).
    { intros nom. split.
      - intros ((v, (t, d)) & X & V & D & U). apply (Permutation_in _ (order_perm _)) in X. exists v, t, d. split; [exact V|]. split; [apply (i_distances _ _ I), zget_In; [apply (i_keys _ _ I)|exact X]|]. split; [exact D|].
        apply follow_unsaid. destruct (Latest.follow (configured v) h) eqn:F; [|reflexivity]. apply follow_latest in F. apply (i_configs _ _ I) in F. congruence.
      - intros (v & t & d & V & R & D & U). exists (v, (t, d)). split; [apply (Permutation_in _ (Permutation_sym (order_perm _))), In_zget, (i_distances _ _ I), R|]. split; [exact V|]. split; [exact D|].
        destruct (zget (configs s) v) as [c|] eqn:C; [|reflexivity]. apply (i_configs _ _ I) in C. exfalso. eapply latest_unsaid; eassumption. }
    cbn [step]. unfold control. split.
    - destruct (zget (configs s) (r_id st)) as [[c|]|] eqn:C; [|discriminate|discriminate].
      set (n := if Rlt_dec (s_nominal c) tiny then match r_air st with Some a => a | None => r_ground st end else s_nominal c). destruct (Rlt_dec n tiny) as [N|N]; [discriminate|].
      destruct (speed_clip (Some c) n) as ((lo, hi), nom) eqn:S. match goal with |- context [neighbours s st nom ?w ?l] => pose proof (neighbours_cases s st nom l w ND) as H; destruct (neighbours s st nom w l) end; [discriminate|]. intros _.
      exists lo, hi, nom. split; [apply (controlled_clip _ s _ _ _ _ I); exists c, n; split; [exact C|]; split; [reflexivity|]; split; [lra|exact S]|]. apply LO, H.
    - intros (lo & hi & nom & CO & LL). apply LO in LL. apply (controlled_clip _ s _ _ _ _ I) in CO. destruct CO as (c & n & -> & -> & T & S).
      set (n := if Rlt_dec (s_nominal c) tiny then match r_air st with Some a => a | None => r_ground st end else s_nominal c) in *. destruct (Rlt_dec n tiny) as [N|N]; [lra|].
      rewrite S. match goal with |- context [neighbours s st nom ?w ?l] => pose proof (neighbours_cases s st nom l w ND) as H; destruct (neighbours s st nom w l) end; [|reflexivity].
      destruct H as (H & _). destruct LL as (x & X & L). exfalso. exact (H x X L).
  Qed.

  (** *** What follows for the speeds *)
  Lemma steers_range lo hi nom d t x : lo <= nom -> nom <= hi -> steers lo hi nom d t x -> lo <= x <= hi.
  Proof. intros A B (a & _ & ->). apply clip_range. lra. Qed.
  Lemma takes_order d lo hi nom dt x : 0 <= d -> 0 < lo -> lo <= nom -> nom <= hi -> takes d lo hi nom dt x -> (t_min x <= t_mid x <= t_max x)%Z.
  Proof.
    intros D L A B (T1 & T2 & T3). assert (Q : forall p q, 0 < p -> p <= q -> d / q <= d / p).
    { intros p q P PQ. apply Rmult_le_compat_l; [exact D|]. apply Rinv_le_contravar; assumption. }
    pose proof (Q lo nom L A). pose proof (Q nom hi (Rlt_le_trans _ _ _ L A) B). split; (eapply cut_le; [|eassumption|eassumption]); lra.
  Qed.
  Lemma clip_mono lo hi x y : x <= y -> clip lo hi x <= clip lo hi y.
  Proof. intros H. unfold clip. apply Rle_max_compat_l, Rle_min_compat_l, H. Qed.
  Lemma clip_id lo hi x : lo <= x -> x <= hi -> clip lo hi x = x.
  Proof. intros A B. unfold clip. rewrite Rmin_right by exact B. apply Rmax_right, A. Qed.

  (** Every speed is within the limits of the vehicle. *)
  Theorem C79_range st s' v speed c : step order task s (Report st true) = Some (s', [{| c_vehicle := v; c_speed := speed |}]) ->
    latest (configured (r_id st)) h (Some c) -> / 10 ^ 4 <= s_min c -> s_min c <= s_nominal c -> s_nominal c <= s_max c -> s_min c <= speed <= s_max c.
  Proof.
    intros H C A B D. apply C79_speed in H. destruct H as (_ & lo & hi & nom & d & own & others & t & (c' & n & C' & _ & L & T) & _ & _ & _ & _ & _ & S).
    pose proof (latest_fun _ _ _ _ C C') as E. injection E as <-. destruct L as (L1 & L2 & ->).
    assert (nom = s_nominal c) by (destruct L1 as [(L1 & _)|(_ & ->)]; lra). subst nom. assert (lo = s_min c) by (destruct L2 as [(_ & ->)|(L2 & _)]; lra). subst lo.
    rewrite Rmax_left in S by exact D. eapply steers_range; [| |exact S]; lra.
  Qed.

  Lemma counts_order st nom u x : tiny <= nom -> counts task h st nom u x -> (t_min x <= t_mid x <= t_max x)%Z /\ (1000 < t_mid x)%Z.
  Proof.
    intros T (_ & t & d & c & lo & hi & n & R & D & _ & L & _ & K & M). split; [|exact M]. apply (limits_pos _ _ _ _ _ T) in L. pose proof tiny_pos. eapply takes_order; [| | | |exact K]; lra.
  Qed.
  Lemma total_le l m : (forall x, In x l -> (x <= m)%Z) -> (total l <= Z.of_nat (length l) * m)%Z.
  Proof. induction l as [|x l IH]; intros H; cbn [total fold_right length]; [lia|]. fold (total l). pose proof (H x (or_introl eq_refl)). specialize (IH (fun y Y => H y (or_intror Y))). lia. Qed.
  Lemma total_ge l m : (forall x, In x l -> (m <= x)%Z) -> (Z.of_nat (length l) * m <= total l)%Z.
  Proof. induction l as [|x l IH]; intros H; cbn [total fold_right length]; [lia|]. fold (total l). pose proof (H x (or_introl eq_refl)). specialize (IH (fun y Y => H y (or_intror Y))). lia. Qed.

  (** If there is a time that is possible for all, the vehicle that would be the last at nominal speeds is not made slower ... *)
  Theorem C79_last st s' v speed : step order task s (Report st true) = Some (s', [{| c_vehicle := v; c_speed := speed |}]) ->
    exists lo hi nom own others, controlled h st lo hi nom /\ (exists d, remaining task h st d /\ takes d lo hi nom 0 own) /\ (forall u x, In (u, x) others <-> counts task h st nom u x)
      /\ ((forall x y, In x (own :: map snd others) -> In y (own :: map snd others) -> (t_min x <= t_max y)%Z) -> (forall x, In x (map snd others) -> (t_mid x <= t_mid own)%Z) -> nom <= speed)
  (** ... and the one that would be the first is not made faster, but for the rounding. *)
      /\ ((forall x y, In x (own :: map snd others) -> In y (own :: map snd others) -> (t_min x <= t_max y)%Z) -> (forall x, In x (map snd others) -> (t_mid own <= t_mid x)%Z) -> speed <= nom + 3 * (nom / 1000)).
  Proof.
    intros H. apply C79_speed in H. destruct H as (_ & lo & hi & nom & d & own & others & t & CO & RD & OW & _ & B & AI & ST).
    exists lo, hi, nom, own, others. split; [exact CO|]. split; [exists d; auto|]. split; [exact B|].
    assert (LP : tiny <= lo /\ lo <= nom /\ nom <= hi).
    { pose proof inv_here as I. apply (controlled_clip _ s _ _ _ _ I) in CO. destruct CO as (c & n & _ & _ & T & S). pose proof (clip_limits (Some c) n) as L. rewrite S in L. apply (limits_pos _ _ _ _ _ T L). }
    pose proof (remaining_pos _ _ _ _ RD) as DP. pose proof tiny_pos as TP. assert (NP : 0 < nom) by lra.
    assert (OO : (t_min own <= t_mid own <= t_max own)%Z) by (eapply takes_order; [| | | |exact OW]; lra).
    assert (LO : forall x, In x (own :: map snd others) -> (t_min x <= t_mid x <= t_max x)%Z).
    { intros x [<-|X]; [exact OO|]. apply in_map_iff in X. destruct X as ((u, x') & <- & X). apply B in X. apply counts_order in X; [apply X|lra]. }
    assert (MID : IZR (t_mid own) <= d / nom * 1000 < IZR (t_mid own) + 1).
    { destruct OW as (_ & M & _). rewrite Rminus_0_r in M. assert (0 <= d / nom) by (apply Rmult_le_pos; [exact DP|left; apply Rinv_0_lt_compat, NP]). destruct M as [(_ & M)|(M & _)]; [exact M|lra]. }
    assert (MN : (0 <= t_mid own)%Z). { destruct MID as (_ & M). apply Z.lt_succ_r. apply lt_IZR. rewrite succ_IZR. assert (0 <= d / nom) by (apply Rmult_le_pos; [exact DP|left; apply Rinv_0_lt_compat, NP]). lra. }
    assert (DN : d = d / nom * nom) by (field; lra).
    destruct AI as (e & f & E1 & E2 & F1 & F2 & AI). set (l := own :: map snd others) in *.
    assert (EF : (forall x y, In x l -> In y l -> (t_min x <= t_max y)%Z) -> t = Z.max e (Z.min f (Z.quot (total (map t_mid l)) (Z.of_nat (length l))))).
    { intros FE. destruct AI as [(_ & AI)|(AI & _)]; [exact AI|]. apply in_map_iff in E1, F1. destruct E1 as (x & <- & X), F1 as (y & <- & Y). specialize (FE x y X Y). lia. }
    assert (LL : (0 < Z.of_nat (length l))%Z) by (unfold l; cbn [length]; lia).
    assert (TN : (0 <= total (map t_mid l))%Z).
    { transitivity (Z.of_nat (length (map t_mid l)) * 0)%Z; [lia|]. apply total_ge. intros x X. apply in_map_iff in X. destruct X as (y & <- & [<-|Y]); [exact MN|].
      apply in_map_iff in Y. destruct Y as ((u, x') & <- & Y). apply B in Y. apply counts_order in Y; [cbn; lia|lra]. }
    rewrite Z.quot_div_nonneg in EF by assumption. destruct ST as (a & AA & ->). split.
    - intros FE LA. specialize (EF FE). assert (TT : (t <= t_mid own)%Z).
      { assert ((total (map t_mid l) / Z.of_nat (length l) <= t_mid own)%Z).
        { apply Z.div_le_upper_bound; [exact LL|]. rewrite <- (map_length t_mid l). apply total_le. intros x X. apply in_map_iff in X. destruct X as (y & <- & [<-|Y]); [lia|apply LA, Y]. }
        assert ((e <= t_mid own)%Z). { apply in_map_iff in E1. destruct E1 as (x & <- & X). specialize (LO x X). destruct X as [<-|X]; [lia|]. specialize (LA x X). lia. }
        lia. }
      assert (nom <= a).
      { destruct AA as [(T1 & D1 & ->)|(_ & ->)]; [|lra]. rewrite <- (clip_id lo hi nom) at 1 by lra. apply clip_mono. apply IZR_lt in T1. apply IZR_le in TT.
        apply Rmult_le_reg_r with (IZR t); [lra|]. replace (1000 * d / IZR t * IZR t) with (1000 * d) by (field; lra). rewrite DN. 
        replace (1000 * (d / nom * nom)) with (nom * (d / nom * 1000)) by ring. apply Rmult_le_compat_l; lra. }
      rewrite <- (clip_id lo hi nom) at 1 by lra. apply clip_mono. lra.
    - intros FE LA. specialize (EF FE). assert (TT : (t_mid own <= t)%Z).
      { assert ((t_mid own <= total (map t_mid l) / Z.of_nat (length l))%Z).
        { apply Z.div_le_lower_bound; [exact LL|]. rewrite <- (map_length t_mid l). apply total_ge. intros x X. apply in_map_iff in X. destruct X as (y & <- & [<-|Y]); [lia|apply LA, Y]. }
        assert ((t_mid own <= f)%Z). { apply in_map_iff in F1. destruct F1 as (x & <- & X). specialize (LO x X). destruct X as [<-|X]; [lia|]. specialize (LA x X). lia. }
        lia. }
      assert (a <= nom + nom / 1000).
      { destruct AA as [(T1 & D1 & ->)|(_ & ->)]; [|lra]. apply IZR_lt in T1. apply IZR_le in TT.
        assert (X : 1000 * d / IZR t <= nom + nom / 1000).
        { apply Rmult_le_reg_r with (IZR t); [lra|]. replace (1000 * d / IZR t * IZR t) with (1000 * d) by (field; lra). rewrite DN.
          replace (1000 * (d / nom * nom)) with (nom * (d / nom * 1000)) by ring. apply Rle_trans with (nom * (IZR t + 1)); [apply Rmult_le_compat_l; lra|].
          replace ((nom + nom / 1000) * IZR t) with (nom * (IZR t + IZR t / 1000)) by field. apply Rmult_le_compat_l; lra. }
        unfold clip. apply Rmax_lub; [lra|]. eapply Rle_trans; [apply Rmin_r|exact X]. }
      unfold clip. apply Rmax_lub; [lra|]. eapply Rle_trans; [apply Rmin_r|]. lra.
  Qed.

  (** Without neighbours that count a vehicle flies at its nominal speed, but for the rounding. *)
  Theorem C79_alone st s' v speed : step order task s (Report st true) = Some (s', [{| c_vehicle := v; c_speed := speed |}]) ->
    exists lo hi nom, controlled h st lo hi nom /\ ((forall u x, ~ counts task h st nom u x) -> nom <= speed <= nom + 3 * (nom / 1000)).
  Proof.
    intros H. apply C79_last in H. destruct H as (lo & hi & nom & own & others & CO & (d & RD & OW) & B & X & Y). exists lo, hi, nom. split; [exact CO|]. intros N.
    assert (others = []) by (destruct others as [|(u, x) l]; [reflexivity|exfalso; apply (N u x), B; left; reflexivity]). subst others.
    assert (OO : (t_min own <= t_mid own <= t_max own)%Z).
    { pose proof inv_here as I. pose proof tiny_pos. apply (controlled_clip _ s _ _ _ _ I) in CO. destruct CO as (c & n & _ & _ & T & S). pose proof (clip_limits (Some c) n) as L. rewrite S in L. apply (limits_pos _ _ _ _ _ T) in L.
      pose proof (remaining_pos _ _ _ _ RD). eapply takes_order; [| | | |exact OW]; lra. }
    split; [apply X|apply Y]; solve [intros x y [<-|[]] [<-|[]]; lia|intros ? []].
  Qed.
End States.
Print Assumptions C79_commands.
Print Assumptions C79_speed.
Print Assumptions C79_undefined.
Print Assumptions C79_range.
Print Assumptions C79_last.
Print Assumptions C79_alone.

(** *** A rendezvous of two *)
Definition here (v t : Z) : report := {| r_id := v; r_time := t; r_lat := 0; r_lon := 0; r_ground := 10; r_air := Some 10; r_current := 1%Z |}.
(** A waypoint [d] meters to the north of there. *)
Definition north (d : R) : point :=
  {| p_lat := d / (meridional (initialize 0 0 fresh) * deg_to_rad); p_lon := 0; p_num := 1%Z; p_next := 1%Z; p_tasks := [7%Z] |}.
Lemma meridional_here : 0 < meridional (initialize 0 0 fresh).
Proof.
  cbn [initialize fresh ready meridional]. unfold den_meridional, root. rewrite sin_0. replace (1 - ecc2 * 0 ^ 2) with 1 by ring. rewrite sqrt_1. destruct (Rle_dec (1 ^ 3) 0); [lra|]. unfold equatorial, ecc2. lra.
Qed.
Lemma north_far v t d : 0 <= d -> far (here v t) (0, 0) [north d] = d.
Proof.
  intros D. cbn [far]. rewrite Rplus_0_r. unfold spot. cbn [here r_lat r_lon north p_lat p_lon]. unfold deg_ne_m at 2 4. cbv zeta. cbn [fst]. replace (0 * deg_to_rad) with 0 by ring.
  pose proof meridional_here as M. unfold deg_ne_m. cbv zeta. cbn [snd fst]. replace (0 * deg_to_rad) with 0 by ring.
  assert (I : forall a b, initialize a b (initialize 0 0 fresh) = initialize 0 0 fresh) by reflexivity. rewrite !I.
  assert (L0 : lat0 (initialize 0 0 fresh) = 0) by reflexivity. assert (L1 : lon0 (initialize 0 0 fresh) = 0) by reflexivity. rewrite L0, L1.
  set (m := meridional (initialize 0 0 fresh)) in *. assert (G : 0 < deg_to_rad) by (unfold deg_to_rad; lra).
  match goal with |- sqrt ?x = d => replace x with (d ^ 2) by (field; split; lra) end. rewrite <- Rsqr_pow2. apply sqrt_Rsqr, D.
Qed.

Definition fix_speeds (lo nom hi : R) : option speeds := Some {| s_nominal := nom; s_min := lo; s_max := hi |}.
Definition pair_of (c2 : list ev) : list ev := [Config 1 (fix_speeds 8 10 10)] ++ c2 ++ [Mission 1 [north 1000]; Mission 2 [north 500]; Report (here 2 1000) false].
Lemma tiny_small : tiny < 1.
Proof. unfold tiny. apply Rmult_lt_reg_r with (10 ^ 4); [lra|]. rewrite Rinv_l by lra. lra. Qed.
Lemma pair_runs c2 : c2 = [] \/ c2 = [Config 2 (fix_speeds 10 10 10)] -> exists s os, run (fun l => l) 7 init (pair_of c2) = Some (s, os).
Proof. intros [-> | ->]; cbn [pair_of run app step]; eauto. Qed.
Lemma pair_ahead d : ahead 7 [north d] [] 1 [north d].
Proof.
  assert (F : first_with [north d] 1 0 (north d)) by (split; [reflexivity|]; split; [reflexivity|]; intros j x J; lia).
  eapply ahead_on; [exact F|left; reflexivity|intros []|]. eapply ahead_again; [exact F|left; reflexivity].
Qed.
Lemma pair_controlled c2 t : c2 = [] \/ c2 = [Config 2 (fix_speeds 10 10 10)] -> controlled (pair_of c2) (here 1 t) 8 10 10.
Proof.
  intros C. pose proof tiny_small as T. exists {| s_nominal := 10; s_min := 8; s_max := 10 |}, 10. split; [destruct C as [-> | ->]; apply follow_latest; reflexivity|]. split; [reflexivity|].
  unfold limits. fold tiny. cbn [s_nominal s_min s_max]. split; [|lra]. split; [right; lra|]. split; [left; lra|]. rewrite Rmax_left; lra.
Qed.
Lemma pair_remaining c2 v t d : c2 = [] \/ c2 = [Config 2 (fix_speeds 10 10 10)] -> v = 1%Z /\ d = 1000 \/ v = 2%Z /\ d = 500 -> remaining 7 (pair_of c2) (here v t) d.
Proof.
  intros C V. right. exists [north d], [north d]. split; [|split; [apply pair_ahead|symmetry; apply north_far; lra]].
  destruct C as [-> | ->], V as [(-> & ->)|(-> & ->)]; apply follow_latest; reflexivity.
Qed.
Lemma pair_reported c2 : c2 = [] \/ c2 = [Config 2 (fix_speeds 10 10 10)] -> reported 7 (pair_of c2) 2 1000 500.
Proof.
  intros C. exists ([Config 1 (fix_speeds 8 10 10)] ++ c2 ++ [Mission 1 [north 1000]; Mission 2 [north 500]]), (here 2 1000), false, []. split; [unfold pair_of; rewrite <- !app_assoc; reflexivity|].
  split; [reflexivity|]. split; [reflexivity|]. split; [|intros ? ? []]. right. exists [north 500], [north 500]. split; [|split; [apply pair_ahead|symmetry; apply north_far; lra]].
  destruct C as [-> | ->]; apply follow_latest; reflexivity.
Qed.
Lemma reported_fun h v t d t' d' : (exists s os, run (fun l => l) 7 init h = Some (s, os)) -> reported 7 h v t d -> reported 7 h v t' d' -> t = t' /\ d = d'.
Proof.
  intros (s & os & R) A B. pose proof (inv_here 7 (fun l => l) h s os R) as I. apply (i_distances _ _ _ I) in A, B. split; congruence.
Qed.
Lemma remaining_fun h st d d' : (exists s os, run (fun l => l) 7 init h = Some (s, os)) -> remaining 7 h st d -> remaining 7 h st d' -> d = d'.
Proof.
  intros (s & os & R) A B. pose proof (inv_here 7 (fun l => l) h s os R) as I. apply (inv_remaining _ _ s _ _ I) in A, B. congruence.
Qed.
Lemma cut_int x z : x = IZR z -> cut x z.
Proof. intros ->. unfold cut. destruct (Rlt_dec (IZR z) 0); [right|left]; lra. Qed.
Definition two_configs : list ev := [Config 2 (fix_speeds 10 10 10)].
Lemma pair_counts u x : counts 7 (pair_of two_configs) (here 1 1000) 10 u x <-> u = 2%Z /\ x = {| t_min := 50000; t_mid := 50000; t_max := 50000 |}.
Proof.
  assert (T : takes 500 10 10 10 0 {| t_min := 50000; t_mid := 50000; t_max := 50000 |}) by (split; [|split]; apply cut_int; cbn [t_min t_mid t_max]; lra).
  assert (L : limits (fix_speeds 10 10 10) 10 10 10 10).
  { pose proof tiny_small. unfold limits, fix_speeds. fold tiny. cbn [s_nominal s_min s_max]. split; [right; lra|]. split; [left; lra|]. rewrite Rmax_left; lra. }
  assert (C : latest (configured 2) (pair_of two_configs) (fix_speeds 10 10 10)) by (apply follow_latest; reflexivity).
  assert (RR : exists s os, run (fun l => l) 7 init (pair_of two_configs) = Some (s, os)) by (apply pair_runs; right; reflexivity).
  pose proof (pair_reported two_configs (or_intror eq_refl)) as RE. split.
  - intros (V & t & d & c & lo & hi & n & R & D & C' & L' & _ & T' & _). assert (u = 2%Z).
    { destruct R as (h1 & st & a & h2 & E & R & _). assert (IN : In (Report st a) (pair_of two_configs)) by (rewrite E; apply in_or_app; right; left; reflexivity).
      cbn in IN. repeat destruct IN as [IN|IN]; try discriminate; [|destruct IN]. injection IN as <- _. exact (eq_sym R). }
    subst u. split; [reflexivity|]. destruct (reported_fun _ _ _ _ _ _ RR R RE) as (-> & ->). rewrite (latest_fun _ _ _ _ C' C) in L'. destruct (limits_fun _ _ _ _ _ _ _ _ L L') as (<- & <- & <-).
    eapply takes_fun; [exact T'|]. exact T.
  - intros (-> & ->). split; [discriminate|]. exists 1000%Z, 500, (fix_speeds 10 10 10), 10, 10, 10. split; [exact RE|]. split; [lra|]. split; [exact C|]. split; [exact L|]. split; [reflexivity|]. split; [exact T|reflexivity].
Qed.

(** The vehicle that will be the last is made slower if there is no time that is possible for all: here one that needs 100 s waits for one
    that needs 50 s and cannot be slower; it aims at 125 s. *)
Theorem C79_center_refuted : ~ forall h s os st s' v speed lo hi nom d own, run (fun l => l) 7 init h = Some (s, os) ->
  step (fun l => l) 7 s (Report st true) = Some (s', [{| c_vehicle := v; c_speed := speed |}]) -> controlled h st lo hi nom -> remaining 7 h st d -> takes d lo hi nom 0 own ->
  (forall u x, counts 7 h st nom u x -> (t_mid x <= t_mid own)%Z) -> nom <= speed.
Proof.
  intros ALL. destruct (pair_runs two_configs (or_intror eq_refl)) as (s & os & RU). assert (RR : exists s os, run (fun l => l) 7 init (pair_of two_configs) = Some (s, os)) by eauto.
  pose proof (pair_controlled two_configs 1000 (or_intror eq_refl)) as CO. pose proof (pair_remaining two_configs 1 1000 1000 (or_intror eq_refl) (or_introl (conj eq_refl eq_refl))) as RE.
  assert (P : forall l : list (Z * (Z * R)), Permutation l l) by (intros; apply Permutation_refl).
  destruct (step (fun l => l) 7 s (Report (here 1 1000) true)) as [(s', out)|] eqn:ST.
  - pose proof (C79_commands 7 (fun l => l) _ _ _ RU _ _ _ ST) as [(q1 & q2 & q3 & speed & _ & ->)|(N & _)]; [|exact (N _ _ _ CO)].
    pose proof (C79_speed 7 (fun l => l) P _ _ _ RU _ _ _ _ ST) as (_ & lo & hi & nom & d & own & others & t & CO' & RE' & TA & ND & B & AI & SE).
    destruct (controlled_fun _ _ _ _ _ _ _ _ CO CO') as (<- & <- & <-). pose proof (remaining_fun _ _ _ _ RR RE RE') as <-.
    assert (T : takes 1000 8 10 10 0 {| t_min := 100000; t_mid := 100000; t_max := 125000 |}) by (split; [|split]; apply cut_int; cbn [t_min t_mid t_max]; lra).
    pose proof (takes_fun _ _ _ _ _ _ _ TA T) as ->.
    assert (X : 10 <= speed). { eapply (ALL _ _ _ _ _ _ _ _ _ _ _ _ RU ST CO RE T). intros u x X. apply pair_counts in X. destruct X as (_ & ->). cbn [t_mid]. lia. }
    assert (IO : In (2%Z, {| t_min := 50000; t_mid := 50000; t_max := 50000 |}) others) by (apply B, pair_counts; auto).
    assert (OI : forall x, In x (map snd others) -> x = {| t_min := 50000; t_mid := 50000; t_max := 50000 |}) by (intros x I; apply in_map_iff in I; destruct I as ((u, y) & <- & I); apply B, pair_counts in I; apply I).
    destruct AI as (e & f & E1 & E2 & F1 & F2 & AI).
    assert (e = 100000%Z). { specialize (E2 _ (or_introl eq_refl)). cbn [t_min] in E2. apply in_map_iff in E1. destruct E1 as (x & <- & [<-|I]); [reflexivity|]. apply OI in I. subst x. cbn [t_min] in *. lia. }
    assert (f = 50000%Z). { assert (I : (f <= 50000)%Z) by (apply (F2 {| t_min := 50000; t_mid := 50000; t_max := 50000 |}); right; apply in_map_iff; exists (2%Z, {| t_min := 50000; t_mid := 50000; t_max := 50000 |}); auto). apply in_map_iff in F1. destruct F1 as (x & <- & [<-|J]); [cbn [t_max] in *; lia|]. apply OI in J. subst x. reflexivity. }
    subst e f. destruct AI as [(L & _)|(_ & ->)]; [lia|]. destruct SE as (a & [(_ & _ & ->)|(N & _)] & ->); [|apply N; split; [reflexivity|lra]].
    replace (1000 * 1000 / IZR (100000 + Z.quot (100000 - 50000) 2)) with 8 in X by (change (100000 + Z.quot (100000 - 50000) 2)%Z with 125000%Z; field).
    rewrite (clip_id 8 10 8) in X by lra. unfold clip in X. rewrite Rmin_right, Rmax_left in X by lra. lra.
  - apply (C79_undefined 7 (fun l => l) P _ _ _ RU) in ST. destruct ST as (lo & hi & nom & CO' & v & t & d & V & RP & D & U). destruct (controlled_fun _ _ _ _ _ _ _ _ CO CO') as (<- & <- & <-).
    destruct RP as (h1 & st & a & h2 & E & RV & _). assert (IN : In (Report st a) (pair_of two_configs)) by (rewrite E; apply in_or_app; right; left; reflexivity).
    cbn in IN. repeat destruct IN as [IN|IN]; try discriminate; [|destruct IN]. injection IN as <- _. cbn in RV. subst v. apply follow_unsaid in U. cbn in U. discriminate.
Qed.
Print Assumptions C79_center_refuted.

(** A report can be undefined behaviour: a neighbour whose configuration is not known is on its way. *)
Theorem C79_defined_refuted : ~ forall h s os st, run (fun l => l) 7 init h = Some (s, os) -> step (fun l => l) 7 s (Report st true) <> None.
Proof.
  intros ALL. destruct (pair_runs [] (or_introl eq_refl)) as (s & os & RU). apply (ALL _ _ _ (here 1 1000) RU). assert (P : forall l : list (Z * (Z * R)), Permutation l l) by (intros; apply Permutation_refl).
  apply (C79_undefined 7 (fun l => l) P _ _ _ RU). exists 8, 10, 10. split; [apply pair_controlled; left; reflexivity|]. exists 2%Z, 1000%Z, 500. split; [discriminate|]. split; [apply pair_reported; left; reflexivity|]. split; [lra|].
  apply follow_unsaid. reflexivity.
Qed.
Print Assumptions C79_defined_refuted.

(** The hypotheses are met: the vehicle of the first refutation is controlled with limits 8 and 10 m/s, and its neighbour counts. *)
Example C79_speed_meets : exists s os s' speed, run (fun l => l) 7 init (pair_of two_configs) = Some (s, os)
  /\ step (fun l => l) 7 s (Report (here 1 1000) true) = Some (s', [{| c_vehicle := 1; c_speed := speed |}])
  /\ counts 7 (pair_of two_configs) (here 1 1000) 10 2 {| t_min := 50000; t_mid := 50000; t_max := 50000 |}
  /\ latest (configured 1) (pair_of two_configs) (fix_speeds 8 10 10).
Proof.
  destruct (pair_runs two_configs (or_intror eq_refl)) as (s & os & RU). pose proof (pair_controlled two_configs 1000 (or_intror eq_refl)) as CO. assert (P : forall l : list (Z * (Z * R)), Permutation l l) by (intros; apply Permutation_refl).
  destruct (step (fun l => l) 7 s (Report (here 1 1000) true)) as [(s', out)|] eqn:ST.
  - pose proof (C79_commands 7 (fun l => l) _ _ _ RU _ _ _ ST) as [(q1 & q2 & q3 & speed & _ & ->)|(N & _)]; [|exfalso; exact (N _ _ _ CO)].
    exists s, os, s', speed. split; [exact RU|]. split; [exact ST|]. split; [apply pair_counts; auto|apply follow_latest; reflexivity].
  - exfalso. apply (C79_undefined 7 (fun l => l) P _ _ _ RU) in ST. destruct ST as (lo & hi & nom & CO' & v & t & d & V & RP & D & U).
    destruct RP as (h1 & st & a & h2 & E & RV & _). assert (IN : In (Report st a) (pair_of two_configs)) by (rewrite E; apply in_or_app; right; left; reflexivity).
    cbn in IN. repeat destruct IN as [IN|IN]; try discriminate; [|destruct IN]. injection IN as <- _. cbn in RV. subst v. apply follow_unsaid in U. cbn in U. discriminate.
Qed.

(** The choice of a setting is the first closest one. *)
From Coq Require Import List ZArith QArith Qabs Qround Bool Lia Lqa Sorted.
From Verif Require Import ZMap Run Latest SensorModel SensorSpec.
Import ListNotations.
Open Scope list_scope.
Open Scope Q_scope.

Lemma qlt_lt : forall a b, qlt a b = true <-> a < b.
Proof.
  intros a b. unfold qlt. rewrite negb_true_iff. split.
  - intros H. apply Qnot_le_lt. intros L. apply Qle_bool_iff in L. congruence.
  - intros H. destruct (Qle_bool b a) eqn:E; [|reflexivity]. apply Qle_bool_iff in E. lra.
Qed.
Lemma qlt_ge : forall a b, qlt a b = false <-> b <= a.
Proof. intros a b. unfold qlt. rewrite negb_false_iff. apply Qle_bool_iff. Qed.
Lemma qle_lt : forall a b, Qle_bool a b = false <-> b < a.
Proof.
  intros a b. split; intros H.
  - apply Qnot_le_lt. intros L. apply Qle_bool_iff in L. congruence.
  - destruct (Qle_bool a b) eqn:E; [|reflexivity]. apply Qle_bool_iff in E. lra.
Qed.

Lemma count_steps : forall lo hi st n, 0 < st ->
  (n < Z.to_nat (Qfloor ((hi - lo) / st) + 1))%nat <-> lo + inject_Z (Z.of_nat n) * st <= hi.
Proof.
  intros lo hi st n P. set (q := (hi - lo) / st).
  assert (E : lo + inject_Z (Z.of_nat n) * st <= hi <-> inject_Z (Z.of_nat n) <= q).
  { unfold q. split; intros H.
    - apply Qle_shift_div_l; [exact P|]. lra.
    - assert (H' : inject_Z (Z.of_nat n) * st <= (hi - lo) / st * st) by (apply Qmult_le_compat_r; lra).
      assert (X : (hi - lo) / st * st == hi - lo) by (field; lra). lra. }
  rewrite E. split; intros H.
  - assert (Z.of_nat n <= Qfloor q)%Z by lia. eapply Qle_trans; [|apply Qfloor_le]. rewrite <- Zle_Qle. exact H0.
  - pose proof (Qlt_floor q) as F. assert (L : inject_Z (Z.of_nat n) < inject_Z (Qfloor q + 1)) by (eapply Qle_lt_trans; eauto).
    rewrite <- Zlt_Qlt in L. lia.
Qed.
Lemma in_steps : forall lo hi st x, 0 < st -> In x (steps lo hi st) <-> reached lo hi st x.
Proof.
  intros lo hi st x P. unfold steps, reached. rewrite in_map_iff. split.
  - intros (n & <- & I). apply in_seq in I. exists n. split; [reflexivity|]. apply count_steps; [exact P|lia].
  - intros (n & -> & L). exists n. split; [reflexivity|]. apply in_seq. apply count_steps in L; [lia|exact P].
Qed.
Lemma steps_sorted : forall lo hi st, 0 < st -> StronglySorted Qlt (steps lo hi st).
Proof.
  intros lo hi st P. unfold steps. generalize (Z.to_nat (Qfloor ((hi - lo) / st) + 1)) as k. intros k.
  assert (X : forall k i, StronglySorted Qlt (map (fun n => lo + inject_Z (Z.of_nat n) * st) (seq i k))); [|apply X].
  clear k. induction k as [|k IH]; intros i; cbn [seq map]; constructor; [apply IH|].
  apply Forall_forall. intros y I. apply in_map_iff in I. destruct I as (n & <- & I). apply in_seq in I.
  assert (inject_Z (Z.of_nat i) < inject_Z (Z.of_nat n)) by (rewrite <- Zlt_Qlt; lia).
  assert (inject_Z (Z.of_nat i) * st < inject_Z (Z.of_nat n) * st) by (apply Qmult_lt_compat_r; assumption). lra.
Qed.
Lemma steps_same : forall lo st, 0 < st -> steps lo lo st = [lo + inject_Z 0 * st].
Proof.
  intros lo st P. unfold steps.
  assert (E : (lo - lo) / st == 0) by (rewrite <- (Qmult_0_l (/ st)); unfold Qdiv; setoid_replace (lo - lo) with 0 by lra; reflexivity).
  rewrite E. reflexivity.
Qed.

Lemma sorted_unique : forall l l', StronglySorted Qlt l -> StronglySorted Qlt l' -> (forall x, In x l <-> In x l') -> l = l'.
Proof.
  induction l as [|a l IH]; intros [|b l'] S S' E; auto.
  - exfalso. apply (E b). left. reflexivity.
  - exfalso. apply (E a). left. reflexivity.
  - inversion S as [|? ? SL FA]; inversion S' as [|? ? SL' FB]; subst. rewrite Forall_forall in FA, FB.
    assert (a = b).
    { destruct (proj1 (E a) (or_introl eq_refl)) as [X|X]; [auto|]. destruct (proj2 (E b) (or_introl eq_refl)) as [Y|Y]; [auto|].
      apply FB in X. apply FA in Y. exfalso. lra. }
    subst b. f_equal. apply IH; auto. intros x. split; intros I.
    + destruct (proj1 (E x) (or_intror I)) as [X|X]; [|exact X]. subst. apply FA in I. exfalso. lra.
    + destruct (proj2 (E x) (or_intror I)) as [X|X]; [|exact X]. subst. apply FB in I. exfalso. lra.
Qed.

Lemma fold_flat_map : forall (A B C : Type) (f : C -> B -> C) (g : A -> list B) l b,
  fold_left f (flat_map g l) b = fold_left (fun b x => fold_left f (g x) b) l b.
Proof. intros A B C f g l. induction l as [|x l IH]; intros b; [reflexivity|]. cbn. rewrite fold_left_app. apply IH. Qed.
Lemma fold_ext : forall (A C : Type) (f g : C -> A -> C) l b, (forall b x, f b x = g b x) -> fold_left f l b = fold_left g l b.
Proof. intros A C f g l. induction l as [|x l IH]; intros b E; [reflexivity|]. cbn. rewrite E. apply IH, E. Qed.
Lemma fold_map : forall (A B C : Type) (f : C -> B -> C) (g : A -> B) l b,
  fold_left f (map g l) b = fold_left (fun b x => f b (g x)) l b.
Proof. intros A B C f g l. induction l as [|x l IH]; intros b; [reflexivity|]. cbn. apply IH. Qed.

Section Choice.
  Context {G : Type} (gsd : Q -> Q -> Q -> Z -> Q) (shape : Q -> Q -> Q -> Q -> G) (deg : Q) (pos : 0 < deg).
  Notation find := (find gsd shape deg).
  Notation setting := (setting deg).
  Notation describes := (describes gsd shape deg).
  Notation best := (best gsd shape deg).

  Lemma step_pos : 0 < 5 * deg.
  Proof. lra. Qed.

  Lemma range_moves : forall g elev lo hi, moves deg g lo hi ->
    range deg g elev = if qlt elev (1 # 1000) then let lo := if Qle_bool elev lo then lo else elev in (lo, lo) else (lo, hi).
  Proof.
    intros g elev lo hi M. unfold moves in M. unfold range, pi. cbv zeta. destruct (m_clamped g).
    - destruct M as (L & top & T & H).
      assert (EL : (if qlt (m_min g * deg) (- (180 * deg)) then - (180 * deg - deg) else m_min g * deg) = lo).
      { destruct (Qlt_le_dec (m_min g * deg) (- (180 * deg))) as [D|D].
        - apply qlt_lt in D. rewrite D. auto.
        - apply qlt_ge in D. rewrite D. auto. }
      assert (ET : (if qlt 0 (m_max g * deg) then - deg else m_max g * deg) = top).
      { destruct (Qlt_le_dec 0 (m_max g * deg)) as [D|D].
        - apply qlt_lt in D. rewrite D. auto.
        - apply qlt_ge in D. rewrite D. auto. }
      assert (EH : (if qlt top lo then lo else top) = hi).
      { destruct (Qlt_le_dec top lo) as [D|D].
        - apply qlt_lt in D. rewrite D. auto.
        - apply qlt_ge in D. rewrite D. auto. }
      rewrite EL, ET, EH. reflexivity.
    - destruct M as (-> & ->). reflexivity.
  Qed.
  Lemma moves_some : forall g, exists lo hi, moves deg g lo hi.
  Proof.
    intros g. unfold moves. destruct (m_clamped g); [|eauto].
    destruct (Qlt_le_dec (m_min g * deg) (- (180 * deg))); destruct (Qlt_le_dec 0 (m_max g * deg));
      match goal with |- exists lo hi, lo = ?L /\ exists top, top = ?T /\ _ =>
        destruct (Qlt_le_dec T L) as [D|D] eqn:E; [exists L, L|exists L, T]; (split; [reflexivity|]); exists T; (split; [reflexivity|]);
        rewrite E; reflexivity end.
  Qed.
  Lemma moves_fun : forall g lo hi lo' hi', moves deg g lo hi -> moves deg g lo' hi' -> lo = lo' /\ hi = hi'.
  Proof.
    intros g lo hi lo' hi' M M'.
    pose proof (range_moves g (1 # 1000) _ _ M) as R. pose proof (range_moves g (1 # 1000) _ _ M') as R'.
    change (qlt (1 # 1000) (1 # 1000)) with false in R, R'. cbv iota in R, R'. rewrite R in R'. injection R' as -> ->. auto.
  Qed.

  Lemma in_elevations : forall g elev x, In x (elevations deg g elev) <-> angle deg g elev x.
  Proof.
    intros g elev x. destruct (moves_some g) as (lo & hi & M). unfold elevations, angle. rewrite (range_moves _ _ _ _ M).
    split.
    - intros I. exists lo, hi. split; [exact M|]. destruct (qlt elev (1 # 1000)) eqn:E; cbv zeta iota in I.
      + apply qlt_lt in E. right. destruct (Qle_bool elev lo) eqn:L.
        * apply Qle_bool_iff in L. left. destruct (qlt lo 0) eqn:N; [|destruct I]. apply qlt_lt in N.
          rewrite steps_same in I by apply step_pos. destruct I as [I|[]]. auto.
        * apply qle_lt in L. right. destruct (qlt elev 0) eqn:N; [|destruct I]. apply qlt_lt in N.
          rewrite steps_same in I by apply step_pos. destruct I as [I|[]]. auto.
      + apply qlt_ge in E. left. destruct (qlt lo 0) eqn:N; [|destruct I]. apply qlt_lt in N. apply in_steps in I; [auto|apply step_pos].
    - intros (lo' & hi' & M' & D). destruct (moves_fun _ _ _ _ _ M M') as (<- & <-). clear M'.
      destruct D as [(E & N & R)|[(E & L & N & ->)|(E & L & N & ->)]].
      + apply qlt_ge in E. rewrite E. apply qlt_lt in N. rewrite N. apply in_steps; [apply step_pos|exact R].
      + apply qlt_lt in E. rewrite E. apply Qle_bool_iff in L. cbv zeta iota. rewrite L. apply qlt_lt in N. rewrite N.
        rewrite steps_same by apply step_pos. left. reflexivity.
      + apply qlt_lt in E. rewrite E. apply qle_lt in L. cbv zeta iota. rewrite L. apply qlt_lt in N. rewrite N.
        rewrite steps_same by apply step_pos. left. reflexivity.
  Qed.
  Lemma elevations_sorted : forall g elev, StronglySorted Qlt (elevations deg g elev).
  Proof.
    intros g elev. unfold elevations. destruct (range deg g elev) as (lo, hi). destruct (qlt lo 0); [|constructor].
    apply steps_sorted, step_pos.
  Qed.
  Lemma in_fovs : forall k x, In x (fovs k) <-> view k x.
  Proof. intros k x. unfold fovs, view. destruct (k_views k); [reflexivity|apply in_steps; lra|reflexivity]. Qed.

  Lemma in_choices : forall ang vw c band g x k v, In (g, x, k, v) (choices ang vw c band) <->
    In (Gimbal g) (c_payloads c) /\ In x (ang g) /\ In (Camera k) (c_payloads c) /\ In (k_id k) (m_holds g)
    /\ (band = AllAny \/ k_band k = band) /\ In v (vw k).
  Proof.
    intros ang vw c band g x k v. unfold choices. rewrite in_flat_map. split.
    - intros (p & I & J). destruct p as [g'| |]; [|destruct J|destruct J].
      apply in_flat_map in J. destruct J as (x' & IX & J). apply in_flat_map in J. destruct J as (id & II & J).
      apply in_flat_map in J. destruct J as (p' & IP & J). destruct p' as [|k'|]; [destruct J| |destruct J].
      destruct ((k_id k' =? id) && ((k_band k' =? band) || (band =? AllAny)))%Z eqn:E; [|destruct J].
      apply in_map_iff in J. destruct J as (v' & J & IV). injection J as <- <- <- <-.
      apply andb_true_iff in E. destruct E as (E & F). apply Z.eqb_eq in E. subst id.
      repeat (split; [assumption|]). split; [|exact IV]. apply orb_true_iff in F.
      destruct F as [F|F]; apply Z.eqb_eq in F; auto.
    - intros (IG & IX & IK & II & B & IV). exists (Gimbal g). split; [exact IG|].
      apply in_flat_map. exists x. split; [exact IX|]. apply in_flat_map. exists (k_id k). split; [exact II|].
      apply in_flat_map. exists (Camera k). split; [exact IK|]. rewrite Z.eqb_refl.
      assert (E : ((k_band k =? band) || (band =? AllAny))%Z = true).
      { apply orb_true_iff. destruct B as [B|B]; [right|left]; apply Z.eqb_eq; exact B. }
      rewrite E. cbn [andb]. apply in_map_iff. eauto.
  Qed.
  Notation all := (fun c band elev => choices (fun g => elevations deg g elev) fovs c band).
  Lemma choices_setting : forall c band elev g x k v, In (g, x, k, v) (all c band elev) <-> setting c band elev g x k v.
  Proof. intros. rewrite in_choices, in_elevations, in_fovs. reflexivity. Qed.

  Lemma lesser_resolution : forall k r, lesser k r <-> r = resolution k.
  Proof.
    intros k r. unfold lesser, resolution. destruct (k_hres k <? k_vres k)%Z eqn:E; [apply Z.ltb_lt in E|apply Z.ltb_ge in E]; lia.
  Qed.
  Lemma ratio_aspect : forall k, ratio k (aspect k).
  Proof.
    intros k. unfold ratio, aspect. destruct (k_vres k =? 0)%Z eqn:E; [apply Z.eqb_eq in E|apply Z.eqb_neq in E]; auto.
  Qed.

  Definition mk (alt : Q) (s : choice) : found :=
    let '(g, x, k, v) := s in
    {| f_camera := k_id k; f_gimbal := m_id g; f_fov := v; f_alt := alt; f_elev := (x / deg)%Q; f_aspect := aspect k;
       f_gsd := gsd alt x v (resolution k); f_band := k_band k; f_shape := shape v (aspect k) x alt |}.
  Lemma mk_describes : forall alt g x k v, describes (mk alt (g, x, k, v)) alt g x k v.
  Proof.
    intros. unfold SensorSpec.describes, mk. cbn. repeat (split; [reflexivity|]). split; [apply ratio_aspect|].
    split; [|split; reflexivity]. exists (resolution k). split; [apply lesser_resolution|]; reflexivity.
  Qed.
  Definition far (alt want : Q) (s : choice) : Q := Qabs (want - f_gsd (mk alt s)).
  Definition try (alt want : Q) (b : option found) (s : choice) : option found :=
    let '(g, x, k, v) := s in consider gsd shape deg alt want x g k b v.
  Lemma try_mk : forall alt want b s, try alt want b s =
    if match b with None => true | Some y => qlt (far alt want s) (Qabs (want - f_gsd y)) end then Some (mk alt s) else b.
  Proof. intros alt want b (((g, x), k), v). reflexivity. Qed.

  Lemma try_all : forall alt want l, match fold_left (try alt want) l None with
    | None => l = []
    | Some f => exists l1 s l2, l = l1 ++ s :: l2 /\ f = mk alt s /\ (forall t, In t l1 -> far alt want s < far alt want t)
        /\ (forall t, In t l2 -> far alt want s <= far alt want t)
    end.
  Proof.
    intros alt want l. induction l as [|t l IH] using rev_ind; [reflexivity|].
    rewrite fold_left_app. cbn [fold_left]. rewrite try_mk. destruct (fold_left (try alt want) l None) as [f|].
    - destruct IH as (l1 & s & l2 & -> & -> & A & B). fold (far alt want s). destruct (qlt (far alt want t) (far alt want s)) eqn:E.
      + apply qlt_lt in E. exists (l1 ++ s :: l2), t, []. split; [reflexivity|]. split; [reflexivity|]. split; [|intros ? []].
        intros u I. apply in_app_or in I. destruct I as [I|[<-|I]]; [apply A in I; lra|exact E|apply B in I; lra].
      + apply qlt_ge in E. exists l1, s, (l2 ++ [t]). rewrite <- app_assoc. split; [reflexivity|]. split; [reflexivity|].
        split; [exact A|]. intros u I. apply in_app_or in I. destruct I as [I|[<-|[]]]; [apply B, I|exact E].
    - subst l. exists [], t, []. split; [reflexivity|]. split; [reflexivity|]. split; intros ? [].
  Qed.

  Lemma fold_choices : forall c band elev alt want,
    fold_left (fun b p => match p with
           | Gimbal g => fold_left (fun b e => cameras gsd shape deg c band alt want e g b) (elevations deg g elev) b
           | _ => b
           end) (c_payloads c) None = fold_left (try alt want) (all c band elev) None.
  Proof.
    intros. unfold choices. rewrite fold_flat_map. apply fold_ext. intros b p. destruct p as [g| |]; [|reflexivity|reflexivity].
    rewrite fold_flat_map. apply fold_ext. clear b. intros b x. unfold cameras. rewrite fold_flat_map. apply fold_ext.
    clear b. intros b id. rewrite fold_flat_map. apply fold_ext. clear b. intros b p. destruct p as [|k|]; [reflexivity| |reflexivity].
    destruct ((k_id k =? id) && ((k_band k =? band) || (band =? AllAny)))%Z; [|reflexivity].
    rewrite fold_map. reflexivity.
  Qed.

  Lemma altitude_if : forall c alt, altitude c alt (if qlt alt (1 # 1000) then c_alt c else alt).
  Proof.
    intros c alt. unfold altitude. destruct (qlt alt (1 # 1000)) eqn:E; [left; apply qlt_lt in E|right; apply qlt_ge in E]; auto.
  Qed.
  Lemma altitude_eq : forall c alt a, altitude c alt a -> a = if qlt alt (1 # 1000) then c_alt c else alt.
  Proof.
    intros c alt a [(E & ->)|(E & ->)]; [apply qlt_lt in E|apply qlt_ge in E]; rewrite E; reflexivity.
  Qed.
  Lemma wanted_if : forall want, wanted want (if qlt want (1 # 1000) then 1000 else want).
  Proof.
    intros want. unfold wanted. destruct (qlt want (1 # 1000)) eqn:E; [left; apply qlt_lt in E|right; apply qlt_ge in E]; auto.
  Qed.
  Lemma wanted_eq : forall want w, wanted want w -> w = if qlt want (1 # 1000) then 1000 else want.
  Proof.
    intros want a [(E & ->)|(E & ->)]; [apply qlt_lt in E|apply qlt_ge in E]; rewrite E; reflexivity.
  Qed.
  Lemma off_far : forall a w g x k v o, off gsd a w x k v o <-> o = far a w (g, x, k, v).
  Proof.
    intros. unfold off, far, mk. cbn [f_gsd]. split.
    - intros (r & L & ->). apply lesser_resolution in L. subst. reflexivity.
    - intros ->. exists (resolution k). split; [apply lesser_resolution|]; reflexivity.
  Qed.

  Lemma find_best : forall c band want alt elev, best c band want alt elev (find c band want alt elev).
  Proof.
    intros. unfold SensorSpec.best, SensorModel.find. cbv zeta.
    pose proof (altitude_if c alt) as A. pose proof (wanted_if want) as W.
    set (a := if qlt alt (1 # 1000) then c_alt c else alt) in *. set (w := if qlt want (1 # 1000) then 1000 else want) in *.
    exists a, w. split; [exact A|]. split; [exact W|]. destruct (Qle_bool 10 a) eqn:T.
    2:{ left. apply qle_lt, T. }
    apply Qle_bool_iff in T. rewrite fold_choices. pose proof (try_all a w (all c band elev)) as K.
    destruct (fold_left (try a w) (all c band elev) None) as [f|].
    - split; [exact T|]. destruct K as (l1 & (((g, x), k), v) & l2 & E & -> & B1 & B2). exists g, x, k, v, (far a w (g, x, k, v)).
      split; [apply choices_setting; rewrite E; apply in_or_app; right; left; reflexivity|].
      split; [apply mk_describes|]. split; [apply (off_far a w g); reflexivity|].
      intros g' x' k' v' o' S O. apply (off_far a w g') in O. subst o'. apply choices_setting in S. rewrite E in S.
      apply in_app_or in S. destruct S as [S|[<-|S]]; [apply B1 in S; lra|lra|apply B2, S].
    - right. intros g x k v S. apply choices_setting in S. rewrite K in S. destruct S.
  Qed.

  Lemma find_first : forall c band want alt elev f a w, altitude c alt a -> wanted want w ->
    find c band want alt elev = Some f ->
    exists l1 s l2, all c band elev = l1 ++ s :: l2 /\ f = mk a s /\ (forall t, In t l1 -> far a w s < far a w t)
        /\ (forall t, In t l2 -> far a w s <= far a w t).
  Proof.
    intros c band want alt elev f a w A W. unfold SensorModel.find. cbv zeta.
    rewrite <- (altitude_eq _ _ _ A), <- (wanted_eq _ _ W). destruct (Qle_bool 10 a); [|discriminate].
    rewrite fold_choices. pose proof (try_all a w (all c band elev)) as K. intros E. cbv beta in K, E. rewrite E in K. exact K.
  Qed.

  Lemma or_one_given : forall (A : Type) (l : list A) x, given l x (or_one l x).
  Proof. intros A [|y l] x; [left; auto|right; split; [discriminate|reflexivity]]. Qed.

  Notation step := (step gsd shape deg).
  Notation state := (fun h => fst (run step init h)).

  Lemma state_keep : forall h v, zget (state h) v = keep (says_conf v) h.
  Proof.
    intros h v. induction h as [|e h IH] using rev_ind; [reflexivity|]. rewrite run_snoc, keep_snoc. cbn [fst]. cbv beta in IH.
    rewrite <- IH. set (s := fst (run step init h)). destruct e as [u c|id l|]; cbn [SensorModel.step fst says_conf].
    - unfold zhas. destruct (zget s u) as [d|] eqn:E.
      + destruct (u =? v)%Z eqn:U; [apply Z.eqb_eq in U; subst; rewrite E; reflexivity|]. destruct (zget s v); reflexivity.
      + rewrite zget_set, (Z.eqb_sym v u). destruct (u =? v)%Z eqn:U; [apply Z.eqb_eq in U; subst; rewrite E; reflexivity|].
        destruct (zget s v); reflexivity.
    - destruct (zget s v); reflexivity.
    - destruct (zget s v); reflexivity.
  Qed.

  Lemma flat_map_prod : forall (A B C : Type) (f : A -> B -> C) l l',
    flat_map (fun a => map (f a) l') l = map (fun ab => f (fst ab) (snd ab)) (list_prod l l').
  Proof.
    intros A B C f l l'. induction l as [|a l IH]; [reflexivity|]. cbn. rewrite map_app, IH, map_map. reflexivity.
  Qed.

  Lemma footprints_reported : forall h q l fs, reported gsd shape deg h l fs ->
    reported gsd shape deg h (q :: l) (footprints gsd shape deg (state h) q ++ fs).
  Proof.
    intros h q l fs R. unfold footprints. rewrite state_keep. destruct (keep (says_conf (q_vehicle q)) h) as [c|] eqn:K.
    2:{ apply rep_unknown; [apply keep_unsaid, K|exact R]. }
    eapply rep_known; [apply keep_earliest, K|apply or_one_given|apply or_one_given|apply or_one_given|apply or_one_given| |exact R].
    match goal with |- Forall2 _ ?A ?B =>
      assert (E : B = map (fun '(band, (want, (alt, elev))) =>
        {| p_request := q_id q; p_vehicle := q_vehicle q; p_found := find c band want alt elev |}) A) end.
    { generalize (or_one (q_bands q) AllAny) as bs, (or_one (q_gsds q) 0) as gs, (or_one (q_alts q) 0) as us, (or_one (q_elevs q) 0) as es.
      intros bs gs us es. induction bs as [|b bs IH]; [reflexivity|]. cbn [flat_map list_prod]. rewrite map_app, <- IH, map_map. f_equal.
      clear IH. induction gs as [|g gs IH]; [reflexivity|]. cbn [flat_map list_prod]. rewrite map_app, <- IH, map_map. f_equal.
      clear IH. induction us as [|u us IH]; [reflexivity|]. cbn [flat_map list_prod]. rewrite map_app, <- IH, map_map. reflexivity. }
    rewrite E. clear E. match goal with |- Forall2 _ ?A _ => generalize A end. intros L. induction L as [|(b, (w, (a, e))) L IH]; constructor; [|exact IH].
    cbn. split; [reflexivity|]. split; [reflexivity|]. apply find_best.
  Qed.
  Lemma flat_reported : forall h l, reported gsd shape deg h l (flat_map (footprints gsd shape deg (state h)) l).
  Proof.
    intros h l. induction l as [|q l IH]; [constructor|]. cbn [flat_map]. apply footprints_reported, IH.
  Qed.
End Choice.

(** C59: view angles are swept in steps of 22.5 degrees. *)
From Coq Require Import List ZArith Lia Bool.
From Verif Require Import Base SearchOptionsModel SearchOptionsSpec.
Import ListNotations.
Open Scope list_scope.
Open Scope Z_scope.

Lemma gea_spec e a b : 0 <= e -> gea e a b = true <-> b <= a + e.
Proof. intros H. unfold gea, eqa. rewrite orb_true_iff, Z.ltb_lt, Z.leb_le. lia. Qed.

Section Sweep.
  Context (u eps : Z) (Hu : 0 < u) (He : 0 <= eps).

  Lemma sweep_loop_in target h : forall fuel cur, In h (sweep_loop u eps fuel target cur) <->
    exists k, 0 <= k < Z.of_nat fuel /\ h = cur + k * inc u /\ h <= target + eps.
  Proof.
    assert (I : 0 < inc u) by (unfold inc; lia).
    induction fuel as [|fuel IH]; intros cur; cbn [sweep_loop].
    - split; [intros []|]. intros (k & K & _). lia.
    - destruct (gea eps target cur) eqn:G; [apply gea_spec in G; [|assumption]|].
      + cbn [In]. rewrite IH. split.
        * intros [<-|(k & K & -> & L)]; [exists 0; lia|]. exists (k + 1). lia.
        * intros (k & K & -> & L). destruct (Z.eq_dec k 0) as [->|N]; [left; lia|]. right. exists (k - 1). lia.
      + assert (N : ~ cur <= target + eps) by (intros N; apply gea_spec in N; [congruence|assumption]).
        split; [intros []|]. intros (k & K & -> & L). nia.
  Qed.

  Lemma sweep_in target start h : In h (sweep u eps target start) <->
    exists k, 0 <= k /\ h = start + k * inc u /\ h <= target + eps.
  Proof.
    assert (I : 0 < inc u) by (unfold inc; lia).
    unfold sweep. rewrite sweep_loop_in. split.
    - intros (k & K & E & L). exists k. lia.
    - intros (k & K & -> & L). exists k. split; [|auto]. split; [lia|].
      pose proof (Z.div_le_lower_bound (target - start + eps) (inc u) k I). lia.
  Qed.

  Lemma sweep_loop_nodup target : forall fuel cur, NoDup (sweep_loop u eps fuel target cur).
  Proof.
    assert (I : 0 < inc u) by (unfold inc; lia).
    induction fuel as [|fuel IH]; intros cur; cbn [sweep_loop]; [constructor|].
    destruct (gea eps target cur); constructor; [|apply IH].
    rewrite sweep_loop_in. intros (k & K & E & _). nia.
  Qed.

  Lemma sweep_nodup target start : NoDup (sweep u eps target start).
  Proof. apply sweep_loop_nodup. Qed.

  Lemma sweep_cover target start x : start <= x <= target -> exists h, In h (sweep u eps target start) /\ h <= x < h + inc u.
  Proof.
    intros X. assert (I : 0 < inc u) by (unfold inc; lia).
    pose proof (Z.div_mod (x - start) (inc u) ltac:(lia)) as D. pose proof (Z.mod_pos_bound (x - start) (inc u) I) as M.
    exists (start + (x - start) / inc u * inc u). split; [|lia]. apply sweep_in. exists ((x - start) / inc u).
    split; [apply Z.div_pos; lia|]. split; [reflexivity|lia].
  Qed.

  Lemma norm0_turns a : exists k, norm0 u eps a = a + k * full u.
  Proof.
    assert (F : 0 < full u) by (unfold full; lia).
    unfold norm0. pose proof (Z.quot_rem' a (full u)) as Q. cbv zeta.
    destruct (_ <? 0); [exists (1 - Z.quot a (full u)); nia|].
    destruct (gea _ _ _); [exists (-1 - Z.quot a (full u)); nia|exists (- Z.quot a (full u)); nia].
  Qed.

  Lemma headings_sweep eps5 w : 0 <= eps5 -> 0 <= az_h w ->
    headings u eps eps5 w = sweep u eps (norm0 u eps (az_c w) + az_h w) (norm0 u eps (az_c w) - az_h w).
  Proof.
    intros H5 HA. unfold headings. cbv zeta.
    replace (gea eps5 _ _) with true by (symmetry; apply gea_spec; lia).
    replace (eqa eps (norm0 u eps (az_c w) + az_h w) (norm0 u eps (az_c w) + az_h w)) with true.
    - cbn. apply app_nil_r.
    - symmetry. unfold eqa. apply Z.leb_le. lia.
  Qed.
End Sweep.

(** The directions tried for a view angle lie within it, and each of its directions is less than 22.5 degrees past one
    of them. *)
Theorem C59_headings : forall u eps eps5 w, 0 < u -> 0 <= eps -> 0 <= eps5 -> 0 <= az_h w ->
  (forall h, In h (headings u eps eps5 w) -> within (720 * u) (az_c w) (az_h w) eps h)
  /\ (forall x, within (720 * u) (az_c w) (az_h w) 0 x ->
        exists h k, In h (headings u eps eps5 w) /\ h <= x + k * (720 * u) < h + 45 * u)
  /\ NoDup (headings u eps eps5 w).
Proof.
  intros u eps eps5 w Hu He H5 HA. rewrite headings_sweep by assumption.
  destruct (norm0_turns u eps Hu (az_c w)) as (j & J). unfold full in J. split; [|split].
  - intros h H. apply sweep_in in H; try assumption. destruct H as (k & K & -> & L). exists (- j).
    unfold inc in *. rewrite J in *. nia.
  - intros x (k & X). destruct (sweep_cover u eps Hu He (norm0 u eps (az_c w) + az_h w) (norm0 u eps (az_c w) - az_h w) (x + (k + j) * (720 * u))) as (h & H & B).
    + rewrite J. nia.
    + exists h, (k + j). split; [exact H|exact B].
  - apply sweep_nodup; assumption.
Qed.
Print Assumptions C59_headings.

(** 90 degrees around north, in half degrees: 315, 337.5, 0, 22.5 and 45 degrees. *)
Example C59_headings_north :
  headings 1 0 0 {| az_c := 720; az_h := 90; el_c := 0; el_h := 0 |} = [-90; -45; 0; 45; 90].
Proof. reflexivity. Qed.

(** The elevations tried for a line lie between -90 and 10 degrees and within the extent around the centre line, which
    is moved into these limits first; for an area between -90 and -1 degree, and the centre line is not moved. *)
Theorem C59_elevations : forall u eps w, 0 < u -> 0 <= eps -> 0 <= el_h w ->
  let c := Z.min (20 * u) (Z.max (-180 * u) (el_c w)) in
  (forall e, In e (elevations_line u eps w) ->
     -180 * u <= e <= 20 * u + eps /\ c - el_h w <= e <= c + el_h w + eps)
  /\ (forall x, -180 * u <= x <= 20 * u -> c - el_h w <= x <= c + el_h w ->
        exists e, In e (elevations_line u eps w) /\ e <= x < e + 45 * u)
  /\ elevations_line u eps w <> []
  /\ (forall e, In e (elevations_area u eps w) ->
        -180 * u <= e <= -2 * u + eps /\ el_c w - el_h w <= e <= el_c w + el_h w + eps)
  /\ (forall x, -180 * u <= x <= -2 * u -> el_c w - el_h w <= x <= el_c w + el_h w ->
        exists e, In e (elevations_area u eps w) /\ e <= x < e + 45 * u)
  /\ NoDup (elevations_line u eps w) /\ NoDup (elevations_area u eps w).
Proof.
  intros u eps w Hu He HE c.
  assert (CL : forall lo a, clamp_low lo a = Z.max lo a) by (intros lo a; unfold clamp_low; destruct (a <? lo) eqn:E; [apply Z.ltb_lt in E|apply Z.ltb_ge in E]; lia).
  assert (CH : forall hi a, clamp_high hi a = Z.min hi a) by (intros hi a; unfold clamp_high; destruct (hi <? a) eqn:E; [apply Z.ltb_lt in E|apply Z.ltb_ge in E]; lia).
  unfold elevations_line, elevations_area. cbv zeta. rewrite !CL, !CH. fold c.
  assert (C : -180 * u <= c <= 20 * u) by (unfold c; lia). clearbody c. clear CL CH.
  split; [|split; [|split; [|split; [|split; [|split]]]]].
  - intros e H. apply sweep_in in H; try assumption. destruct H as (k & K & -> & L). unfold inc in *. nia.
  - intros x X1 X2. destruct (sweep_cover u eps Hu He (Z.min (20 * u) (c + el_h w)) (Z.max (-180 * u) (c - el_h w)) x) as (h & H & B); [lia|].
    exists h. split; [exact H|exact B].
  - destruct (sweep_cover u eps Hu He (Z.min (20 * u) (c + el_h w)) (Z.max (-180 * u) (c - el_h w)) (Z.max (-180 * u) (c - el_h w))) as (h & H & B); [lia|].
    intros E. rewrite E in H. destruct H.
  - intros e H. apply sweep_in in H; try assumption. destruct H as (k & K & -> & L). unfold inc in *. nia.
  - intros x X1 X2. destruct (sweep_cover u eps Hu He (Z.min (-2 * u) (el_c w + el_h w)) (Z.max (-180 * u) (el_c w - el_h w)) x) as (h & H & B); [lia|].
    exists h. split; [exact H|exact B].
  - apply sweep_nodup; assumption.
  - apply sweep_nodup; assumption.
Qed.
Print Assumptions C59_elevations.

(** In half degrees: from -75 to -15 degrees, starting at -75; a view angle above the horizon is of no use for an area. *)
Example C59_elevations_case :
  elevations_line 1 0 {| az_c := 0; az_h := 0; el_c := -90; el_h := 60 |} = [-150; -105; -60]
  /\ elevations_line 1 0 {| az_c := 0; az_h := 0; el_c := 80; el_h := 10 |} = [10]
  /\ elevations_area 1 0 {| az_c := 0; az_h := 0; el_c := 80; el_h := 10 |} = [].
Proof. repeat split. Qed.

(** Without a view angle, and for tasks to fly over a point, the sixteen directions of the compass are tried; for an
    area with the camera 60 degrees down.  For a line one direction is tried, 60 degrees down. *)
Theorem C59_all_round : forall u eps eps5, 0 < u -> 0 <= eps < 45 * u ->
  let compass := map (fun k => 45 * u * k) [0; 1; 2; 3; 4; 5; 6; 7; 8; 9; 10; 11; 12; 13; 14; 15] in
  sweep u eps (full u - inc u) 0 = compass
  /\ looks_point u eps eps5 [] = compass
  /\ looks_area u eps eps5 [] = map (fun az => (az, -120 * u)) compass
  /\ forall az, looks_line u eps eps5 az [] = [(az, -120 * u)].
Proof.
  intros u eps eps5 Hu He compass.
  assert (A : sweep u eps (full u - inc u) 0 = compass).
  { unfold sweep, full, inc. replace ((720 * u - 45 * u - 0 + eps) / (45 * u)) with 15.
    - change (Z.to_nat (15 + 1)) with 16%nat. unfold compass. cbn [sweep_loop map].
      repeat match goal with |- context [gea eps ?a ?b] => replace (gea eps a b) with true by (symmetry; apply gea_spec; unfold inc; lia) end.
      unfold inc. repeat (apply f_equal2; [lia|]). reflexivity.
    - apply Z.div_unique with eps; lia. }
  assert (B : sweep_lt u (full u) 0 = compass).
  { unfold sweep_lt, full, inc. replace ((720 * u - 0) / (45 * u)) with 16.
    - change (Z.to_nat (16 + 1)) with 17%nat. unfold compass. cbn [sweep_lt_loop map].
      repeat match goal with |- context [?a <? 720 * u] => (replace (a <? 720 * u) with true by (symmetry; apply Z.ltb_lt; unfold inc; lia))
        || (replace (a <? 720 * u) with false by (symmetry; apply Z.ltb_ge; unfold inc; lia)) end.
      unfold inc. repeat (apply f_equal2; [lia|]). reflexivity.
    - apply Z.div_unique with 0; lia. }
  split; [exact A|]. split; [exact A|]. split; [unfold looks_area; rewrite B; reflexivity|reflexivity].
Qed.
Print Assumptions C59_all_round.

(** Every view angle is tried with every direction and elevation. *)
Theorem C59_looks : forall u eps eps5 ws az el, ws <> [] ->
  (forall d, In (az, el) (looks_line u eps eps5 d ws)
     <-> exists w, In w ws /\ In az (headings u eps eps5 w) /\ In el (elevations_line u eps w))
  /\ (In (az, el) (looks_area u eps eps5 ws)
     <-> exists w, In w ws /\ In az (headings u eps eps5 w) /\ In el (elevations_area u eps w))
  /\ (In az (looks_point u eps eps5 ws) <-> exists w, In w ws /\ In az (headings u eps eps5 w)).
Proof.
  intros u eps eps5 ws az el N.
  assert (G : forall elev, In (az, el) (looks u eps eps5 elev ws) <-> exists w, In w ws /\ In az (headings u eps eps5 w) /\ In el (elev w)).
  { intros elev. unfold looks. rewrite in_flat_map. split.
    - intros (w & W & H). apply in_flat_map in H. destruct H as (e & E & H). apply in_map_iff in H. destruct H as (a & Q & A).
      injection Q as -> ->. exists w. auto.
    - intros (w & W & A & E). exists w. split; [exact W|]. apply in_flat_map. exists el. split; [exact E|]. apply in_map_iff. exists az. auto. }
  destruct ws as [|w0 ws]; [congruence|]. split; [|split].
  - intros d. apply G.
  - apply G.
  - unfold looks_point. apply in_flat_map.
Qed.
Print Assumptions C59_looks.

(** A view angle of 60 by 0 degrees around east, looking 45 degrees down. *)
Example C59_looks_east :
  looks_line 1 0 0 90 [{| az_c := 180; az_h := 60; el_c := -90; el_h := 0 |}] = [(120, -90); (165, -90); (210, -90)].
Proof. reflexivity. Qed.

(** A view angle all around gives the direction it starts with twice. *)
Theorem C59_same_direction_refuted :
  exists w h h', az_h w = 360 /\ In h (headings 1 0 0 w) /\ In h' (headings 1 0 0 w) /\ h <> h' /\ h' = h + 720.
Proof.
  exists {| az_c := 0; az_h := 360; el_c := 0; el_h := 0 |}, (-360), 360.
  split; [reflexivity|]. split; [vm_compute; tauto|]. split; [vm_compute; tauto|]. split; [discriminate|reflexivity].
Qed.
Print Assumptions C59_same_direction_refuted.

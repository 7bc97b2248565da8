(** What the clock in use knows after any history. *)
From Coq Require Import List ZArith Lia Bool.
Import ListNotations.
From Verif Require Import Run ClockModel ClockSpec ClockCalendar.
Open Scope list_scope.
Open Scope Z_scope.

Lemma cast_unit u t : cast u t = in_unit u t.
Proof. destruct u; reflexivity. Qed.

(** *** Which dates are taken *)
Lemma since_2016_iff r : since_2016 r <-> timegm (minimum_year - 1900) 0 1 0 0 0 * 1000 <= r.
Proof.
  unfold since_2016. split.
  - intros (r0 & M & L). apply moment_iff in M; [|lia]. change (2016 - 1900) with (minimum_year - 1900) in M. change (1 - 1) with 0 in M. lia.
  - intros L. eexists. split; [apply moment_iff; [lia|reflexivity]|]. change (2016 - 1900) with (minimum_year - 1900). change (1 - 1) with 0. lia.
Qed.
Lemma early_iff r : Z.quot r 1000 <? timegm (minimum_year - 1900) 0 1 0 0 0 = true <-> ~ since_2016 r.
Proof.
  rewrite since_2016_iff, Z.ltb_lt. set (T := timegm _ _ _ _ _ _). assert (0 < T) by reflexivity. clearbody T.
  Z.to_euclidean_division_equations. lia.
Qed.
Lemma from_seconds_iff s : (from_seconds s = Some (s * 10 ^ 9) /\ representable s) \/ (from_seconds s = None /\ ~ representable s).
Proof.
  unfold from_seconds, i64, representable. destruct (Z.leb_spec (- 2 ^ 63) (s * 10 ^ 9)), (Z.ltb_spec (s * 10 ^ 9) (2 ^ 63)); cbn [andb]; [left|right..]; (split; [reflexivity|lia]).
Qed.
Lemma cast_ms s : cast Ms (s * 10 ^ 9) = s * 1000.
Proof. unfold cast, nanos. replace (s * 10 ^ 9) with (s * 1000 * 10 ^ 6) by lia. apply Z.quot_mul. discriminate. Qed.

(** The result of [reference], once the arguments are in order. *)
Lemma reference_spec y mo d w h mi s ms : 1 <= mo <= 12 -> 1 <= d <= 31 -> (w < 0 -> 0 <= h <= 23 /\ 0 <= mi <= 59 /\ 0 <= s <= 60) ->
  let t := if w <? 0 then timegm (y - 1900) (mo - 1) d h mi s else timegm (y - 1900) (mo - 1) d 0 0 0 in
  let r := t * 1000 + (if w <? 0 then 0 else w * (7 * 24 * 60 * 60 * 1000)) + ms in
  (fits (t * 1000) r -> since_2016 r -> reference y mo d w h mi s ms = Some (Some r)) /\
  (fits (t * 1000) r -> ~ since_2016 r -> reference y mo d w h mi s ms = Some None) /\
  (~ fits (t * 1000) r -> reference y mo d w h mi s ms = None).
Proof.
  intros M D W t r. unfold reference.
  replace ((0 <? mo) && (mo <? 13) && (0 <? d) && (d <? 32)) with true by (symmetry; rewrite !andb_true_iff, !Z.ltb_lt; lia).
  replace ((w <? 0) && negb ((-1 <? h) && (h <? 24) && (-1 <? mi) && (mi <? 60) && (-1 <? s) && (s <? 61))) with false.
  2:{ symmetry. destruct (Z.ltb_spec w 0) as [L|L]; [|reflexivity]. specialize (W L). cbn [andb]. rewrite negb_false_iff, !andb_true_iff, !Z.ltb_lt. lia. }
  fold t. assert (Q : t * 1000 / 1000 = t) by (apply Z.div_mul; discriminate). unfold fits. rewrite Q.
  destruct (from_seconds_iff t) as [(F & R)|(F & R)]; rewrite F; [|split; [|split]; [tauto|tauto|reflexivity]].
  rewrite cast_ms.
  assert (E : (if w <? 0 then t * 1000 + ms else t * 1000 + w * 7 * 24 * 3600 * 1000 + ms) = r) by (unfold r; destruct (w <? 0); lia).
  rewrite E. destruct (from_seconds_iff (Z.quot r 1000)) as [(F' & R')|(F' & R')]; rewrite F'; [|split; [|split]; [tauto|tauto|reflexivity]].
  pose proof (early_iff r) as EI. destruct (Z.quot r 1000 <? _); (split; [|split]; [intros _ S|intros _ S|tauto]); try reflexivity; exfalso.
  - apply EI; [reflexivity|exact S].
  - assert (N : false = true) by (apply EI; exact S). discriminate.
Qed.
Lemma reference_bad y mo d w h mi s ms : ~ (1 <= mo <= 12 /\ 1 <= d <= 31 /\ (w < 0 -> 0 <= h <= 23 /\ 0 <= mi <= 59 /\ 0 <= s <= 60)) ->
  reference y mo d w h mi s ms = Some None.
Proof.
  intros N. unfold reference. destruct ((0 <? mo) && (mo <? 13) && (0 <? d) && (d <? 32)) eqn:A; [|reflexivity].
  rewrite !andb_true_iff, !Z.ltb_lt in A. destruct (Z.ltb_spec w 0) as [L|L]; cbn [andb]; [|exfalso; apply N; lia].
  destruct ((-1 <? h) && (h <? 24) && (-1 <? mi) && (mi <? 60) && (-1 <? s) && (s <? 61)) eqn:B; [|reflexivity].
  rewrite !andb_true_iff, !Z.ltb_lt in B. exfalso. apply N. lia.
Qed.

Definition calibrates (a : act) : Prop := match a with Calibrate _ _ _ _ _ _ _ | CalibrateWeeks _ _ _ _ _ => True | _ => False end.
Lemma calibration_spec a :
  (forall t r, demands a t r -> fits t r -> since_2016 r -> calibration a = Some (Some r)) /\
  (forall t r, demands a t r -> fits t r -> ~ since_2016 r -> calibration a = Some None) /\
  (forall t r, demands a t r -> ~ fits t r -> calibration a = None) /\
  ((forall t r, ~ demands a t r) -> calibration a = Some None).
Proof.
  destruct a as [y mo d h mi s ms|y mo d w ms|t|t| |u|u|u| ];
    try (split; [intros ? ? D; inversion D|split; [intros ? ? D; inversion D|split; [intros ? ? D; inversion D|reflexivity]]]).
  - cbn [calibration]. unfold minimum_year.
    assert (P : forall t r, demands (Calibrate y mo d h mi s ms) t r ->
      2016 <= y /\ 1 <= mo <= 12 /\ 1 <= d <= 31 /\ (-1 < 0 -> 0 <= h <= 23 /\ 0 <= mi <= 59 /\ 0 <= s <= 60) /\ t = timegm (y - 1900) (mo - 1) d h mi s * 1000 /\ r = t + ms).
    { intros t r H. inversion H; subst. match goal with M : moment _ _ _ _ _ _ _ _ |- _ => apply moment_iff in M; [|assumption] end. repeat split; try lia. }
    split; [|split; [|split]].
    1-3: intros t r DE; destruct (P _ _ DE) as (Y & M & D & W & -> & ->); (destruct (Z.ltb_spec y 2016); [lia|]);
      destruct (reference_spec y mo d (-1) h mi s ms M D W) as (R1 & R2 & R3); cbn [Z.ltb Z.compare] in R1, R2, R3; rewrite !Z.add_0_r in R1, R2, R3; auto.
    intros N. destruct (Z.ltb_spec y 2016) as [L|L]; [reflexivity|]. apply reference_bad. intros (M & D & W). specialize (W eq_refl).
    eapply N. apply by_time; [lia..| |reflexivity]. apply moment_iff; [lia|reflexivity].
  - cbn [calibration].
    assert (P : forall t r, demands (CalibrateWeeks y mo d w ms) t r ->
      0 <= w /\ 1 <= mo <= 12 /\ 1 <= d <= 31 /\ t = timegm (y - 1900) (mo - 1) d 0 0 0 * 1000 /\ r = t + w * (7 * 24 * 60 * 60 * 1000) + ms).
    { intros t r H. inversion H; subst. match goal with M : moment _ _ _ _ _ _ _ _ |- _ => apply moment_iff in M; [|assumption] end. repeat split; try lia. }
    split; [|split; [|split]].
    1-3: intros t r DE; destruct (P _ _ DE) as (Y & M & D & -> & ->); pose proof (reference_spec y mo d w 0 0 0 ms M D ltac:(lia)) as R; cbv zeta in R;
      (destruct (Z.ltb_spec w 0); [lia|]); destruct R as (R1 & R2 & R3); auto.
    intros N. destruct (Z.ltb_spec w 0) as [L|L]; [reflexivity|]. apply reference_bad. intros (M & D & _).
    eapply N. apply by_weeks; [lia..| |reflexivity]. apply moment_iff; [lia|reflexivity].
Qed.
Lemma representable_dec s : {representable s} + {~ representable s}.
Proof. unfold representable. destruct (Z_le_dec (- 2 ^ 63) (s * 10 ^ 9)); [destruct (Z_lt_dec (s * 10 ^ 9) (2 ^ 63)); [left|right]|right]; lia. Qed.
Lemma fits_dec t r : {fits t r} + {~ fits t r}.
Proof. unfold fits. destruct (representable_dec (t / 1000)), (representable_dec (Z.quot r 1000)); tauto. Qed.
Lemma since_2016_dec r : {since_2016 r} + {~ since_2016 r}.
Proof. destruct (Z.quot r 1000 <? timegm (minimum_year - 1900) 0 1 0 0 0) eqn:E; [right; apply early_iff; exact E|left]. apply since_2016_iff. apply Z.ltb_ge in E.
  set (T := timegm _ _ _ _ _ _) in *. assert (0 < T) by reflexivity. clearbody T. Z.to_euclidean_division_equations. lia. Qed.
Lemma demands_ex a : (exists t r, demands a t r) \/ (forall t r, ~ demands a t r).
Proof.
  destruct a as [y mo d h mi s ms|y mo d w ms|t|t| |u|u|u| ]; try (right; intros ? ? H; inversion H; fail).
  - destruct (Z_le_dec 2016 y); [|right; intros ? ? H; inversion H; lia]. destruct (Z_le_dec 1 mo), (Z_le_dec mo 12); try (right; intros ? ? H; inversion H; lia).
    destruct (Z_le_dec 1 d), (Z_le_dec d 31); try (right; intros ? ? H; inversion H; lia). destruct (Z_le_dec 0 h), (Z_le_dec h 23); try (right; intros ? ? H; inversion H; lia).
    destruct (Z_le_dec 0 mi), (Z_le_dec mi 59); try (right; intros ? ? H; inversion H; lia). destruct (Z_le_dec 0 s), (Z_le_dec s 60); try (right; intros ? ? H; inversion H; lia).
    left. do 2 eexists. apply by_time; [lia..| |reflexivity]. apply moment_iff; [lia|reflexivity].
  - destruct (Z_le_dec 1 mo), (Z_le_dec mo 12); try (right; intros ? ? H; inversion H; lia).
    destruct (Z_le_dec 1 d), (Z_le_dec d 31); try (right; intros ? ? H; inversion H; lia). destruct (Z_le_dec 0 w); try (right; intros ? ? H; inversion H; lia).
    left. do 2 eexists. apply by_weeks; [lia..| |reflexivity]. apply moment_iff; [lia|reflexivity].
Qed.
Lemma sets_iff a r : sets a r <-> calibration a = Some (Some r).
Proof.
  destruct (calibration_spec a) as (C1 & C2 & C3 & C4). split.
  - intros (t & D & F & S). apply (C1 t r D F S).
  - intros E. destruct (demands_ex a) as [(t & r' & D)|N]; [|rewrite (C4 N) in E; discriminate].
    destruct (fits_dec t r') as [F|F]; [|rewrite (C3 _ _ D F) in E; discriminate].
    destruct (since_2016_dec r') as [S|S]; [|rewrite (C2 _ _ D F S) in E; discriminate].
    rewrite (C1 _ _ D F S) in E. injection E as ->. exists t. auto.
Qed.
Lemma sets_fun a r r' : sets a r -> sets a r' -> r = r'.
Proof. rewrite !sets_iff. congruence. Qed.
Lemma sets_calibrates a r : sets a r -> calibrates a.
Proof. intros (t & D & _). inversion D; exact I. Qed.

(** *** Lists *)
Lemma snoc_mid {A} (p1 : list A) x p2 p y : p ++ [y] = p1 ++ x :: p2 -> (p2 = [] /\ x = y /\ p1 = p) \/ exists p3, p2 = p3 ++ [y] /\ p = p1 ++ x :: p3.
Proof.
  destruct p2 as [|z p2 _] using rev_ind; intros E.
  - apply app_inj_tail in E. destruct E as (-> & ->). auto.
  - right. change (p1 ++ x :: p2 ++ [z]) with (p1 ++ (x :: p2) ++ [z]) in E. rewrite app_assoc in E. apply app_inj_tail in E. destruct E as (-> & ->). exists p2. auto.
Qed.

(** *** What is known is unique *)
Lemma wished_snoc h e m : wished (h ++ [e]) m <-> match e with SetMode n => m = n | Use _ => wished h m end.
Proof.
  unfold wished. destruct e as [n|a]; split.
  - intros [(h1 & h2 & E & N)|(_ & N)].
    + apply snoc_mid in E. destruct E as [(_ & E & _)|(h3 & -> & _)]; [congruence|]. exfalso. apply (N n). apply in_or_app. right. left. reflexivity.
    + exfalso. apply (N n). apply in_or_app. right. left. reflexivity.
  - intros ->. left. exists h, []. split; [reflexivity|]. intros ? [].
  - intros [(h1 & h2 & E & N)|(E & N)].
    + apply snoc_mid in E. destruct E as [(_ & E & _)|(h3 & -> & ->)]; [discriminate|]. left. exists h1, h3. split; [reflexivity|]. intros n H. apply (N n). apply in_or_app. auto.
    + right. split; [exact E|]. intros n H. apply (N n). apply in_or_app. auto.
  - intros [(h1 & h2 & -> & N)|(E & N)].
    + left. exists h1, (h2 ++ [Use a]). rewrite <- app_assoc. split; [reflexivity|]. intros n H. apply in_app_iff in H. destruct H as [H|[H|[]]]; [exact (N n H)|discriminate].
    + right. split; [exact E|]. intros n H. apply in_app_iff in H. destruct H as [H|[H|[]]]; [exact (N n H)|discriminate].
Qed.
Lemma wished_nil m : wished [] m <-> m = RealTime.
Proof. unfold wished. split; [intros [([|] & h2 & E & _)|(E & _)]; [discriminate|discriminate|exact E]|]. intros ->. right. split; [reflexivity|]. intros ? []. Qed.
Lemma wished_fun h m n : wished h m -> wished h n -> m = n.
Proof.
  revert m n. induction h as [|e h IH] using rev_ind; intros m n; [rewrite !wished_nil; congruence|]. rewrite !wished_snoc. destruct e; [congruence|apply IH].
Qed.
Lemma accesses_nil l : accesses [] l -> l = [].
Proof. intros H. inversion H as [|h ? ? ? E|h ? ? ? ? ? E]; [reflexivity|destruct h; discriminate|destruct h; discriminate]. Qed.
Lemma accesses_snoc h e l : accesses (h ++ [e]) l -> match e with SetMode _ => accesses h l | Use a => exists l' m, l = l' ++ [(m, a)] /\ accesses h l' /\ wished h m end.
Proof.
  intros H. inversion H as [E|h' l' m H' E|h' l' a m H' W E]; subst.
  - destruct h; discriminate.
  - apply app_inj_tail in E. destruct E as (-> & <-). exact H'.
  - apply app_inj_tail in E. destruct E as (-> & <-). exists l', m. auto.
Qed.
Lemma accesses_fun h l k : accesses h l -> accesses h k -> l = k.
Proof.
  revert l k. induction h as [|e h IH] using rev_ind; intros l k A B; [apply accesses_nil in A, B; congruence|].
  apply accesses_snoc in A, B. destruct e; [apply IH; assumption|]. destruct A as (l' & m & -> & A & W), B as (k' & n & -> & B & X).
  rewrite (IH _ _ A B), (wished_fun _ _ _ W X). reflexivity.
Qed.
Lemma suffix_fun (m n : mode) (p p' : list access) q q' : p <> [] -> p' <> [] ->
  q ++ map (pair m) p = q' ++ map (pair n) p' ->
  (forall r k b, q = r ++ [(k, b)] -> k <> m) -> (forall r k b, q' = r ++ [(k, b)] -> k <> n) -> m = n /\ p = p' /\ q = q'.
Proof.
  revert m n p' q q'. induction p as [|a p IH] using rev_ind; intros m n p' q q' P P' E Q Q'; [contradiction|].
  destruct p' as [|a' p' _] using rev_ind; [contradiction|]. rewrite !map_app in E. cbn [map] in E. rewrite !app_assoc in E.
  apply app_inj_tail in E. destruct E as (E & [= <- <-]). split; [reflexivity|].
  destruct p as [|b p] using rev_ind; destruct p' as [|b' p'] using rev_ind.
  - cbn in E. rewrite !app_nil_r in E. auto.
  - exfalso. rewrite map_app in E. cbn [map] in E. rewrite app_nil_r, app_assoc in E. exact (Q _ _ _ E eq_refl).
  - exfalso. rewrite map_app in E. cbn [map] in E. rewrite app_nil_r, app_assoc in E. symmetry in E. exact (Q' _ _ _ E eq_refl).
  - clear IHp IHp'. destruct (IH m m (p' ++ [b']) q q') as (_ & -> & ->); auto; intros H; apply app_eq_nil in H; destruct H; discriminate.
Qed.
Lemma in_use_fun h m n p p' : p <> [] -> p' <> [] -> in_use h m p -> in_use h n p' -> m = n /\ p = p'.
Proof.
  intros P P' (q & A & _ & Q) (q' & A' & _ & Q'). pose proof (accesses_fun _ _ _ A A') as E.
  destruct (suffix_fun _ _ _ _ _ _ P P' E Q Q') as (-> & -> & _). auto.
Qed.

(** A property of each access of which the last counts. *)
Lemma ahead_snoc p a d : ahead (p ++ [a]) d <-> (exists r, sets (what a) r /\ d = r - in_unit Ms (now a)) \/ ((forall r, ~ sets (what a) r) /\ ahead p d).
Proof.
  unfold ahead. split.
  - intros [(p1 & x & p2 & r & E & S & D & N)|(D & N)].
    + apply snoc_mid in E. destruct E as [(-> & -> & ->)|(p3 & -> & ->)]; [left; eauto|right]. split; [intros r'; apply N; apply in_or_app; right; left; reflexivity|].
      left. exists p1, x, p3, r. split; [reflexivity|]. split; [exact S|]. split; [exact D|]. intros b r' B. apply N. apply in_or_app. auto.
    + right. split; [intros r; apply N; apply in_or_app; right; left; reflexivity|]. right. split; [exact D|]. intros b r B. apply N. apply in_or_app. auto.
  - intros [(r & S & D)|(NS & [(p1 & x & p2 & r & -> & S & D & N)|(D & N)])].
    + left. exists p, a, [], r. split; [reflexivity|]. split; [exact S|]. split; [exact D|]. intros ? ? [].
    + left. exists p1, x, (p2 ++ [a]), r. rewrite <- app_assoc. split; [reflexivity|]. split; [exact S|]. split; [exact D|].
      intros b r' B. apply in_app_iff in B. destruct B as [B|[<-|[]]]; auto.
    + right. split; [exact D|]. intros b r' B. apply in_app_iff in B. destruct B as [B|[<-|[]]]; auto.
Qed.
Lemma ahead_nil d : ahead [] d <-> d = 0.
Proof. unfold ahead. split; [intros [([|] & ? & ? & ? & E & _)|(D & _)]; [discriminate|discriminate|exact D]|]. intros ->. right. split; [reflexivity|]. intros ? ? []. Qed.
Lemma ahead_fun p d e : ahead p d -> ahead p e -> d = e.
Proof.
  revert d e. induction p as [|a p IH] using rev_ind; intros d e; [rewrite !ahead_nil; congruence|]. rewrite !ahead_snoc.
  intros [(r & S & ->)|(N & A)] [(r' & S' & ->)|(N' & A')]; [rewrite (sets_fun _ _ _ S S'); reflexivity|destruct (N' _ S)|destruct (N _ S')|apply IH; assumption].
Qed.
Definition puts (a : act) : option Z := match a with SetDiscrete t | ResetDiscrete t => Some t | _ => None end.
Lemma stands_at_snoc p a t : stands_at (p ++ [a]) t <-> match puts (what a) with Some u => t = u | None => stands_at p t end.
Proof.
  assert (PU : forall t, (what a = SetDiscrete t \/ what a = ResetDiscrete t) <-> puts (what a) = Some t).
  { intros u. destruct (what a); cbn; split; try (intros [H|H]; congruence); try congruence; intros [= ->]; auto. }
  unfold stands_at. split.
  - intros [(p1 & x & p2 & E & S & N)|(D & N)].
    + apply snoc_mid in E. destruct E as [(-> & -> & ->)|(p3 & -> & ->)]; [apply PU in S; rewrite S; reflexivity|].
      assert (Q : puts (what a) = None).
      { assert (Q : forall u, puts (what a) <> Some u); [|destruct (puts (what a)) as [u|]; [destruct (Q u eq_refl)|reflexivity]]. intros u Q. apply PU in Q. destruct (N a u ltac:(apply in_or_app; right; left; reflexivity)). tauto. }
      rewrite Q. left. exists p1, x, p3. split; [reflexivity|]. split; [exact S|]. intros b u B. apply N. apply in_or_app. auto.
    + assert (Q : puts (what a) = None).
      { assert (Q : forall u, puts (what a) <> Some u); [|destruct (puts (what a)) as [u|]; [destruct (Q u eq_refl)|reflexivity]]. intros u Q. apply PU in Q. destruct (N a u ltac:(apply in_or_app; right; left; reflexivity)). tauto. }
      rewrite Q. right. split; [exact D|]. intros b r B. apply N. apply in_or_app. auto.
  - destruct (puts (what a)) as [u|] eqn:Q.
    + intros ->. left. exists p, a, []. split; [reflexivity|]. split; [apply PU; reflexivity|]. intros ? ? [].
    + assert (NA : forall u, what a <> SetDiscrete u /\ what a <> ResetDiscrete u).
      { intros u. split; intros H; rewrite H in Q; discriminate. }
      intros [(p1 & x & p2 & -> & S & N)|(D & N)].
      * left. exists p1, x, (p2 ++ [a]). rewrite <- app_assoc. split; [reflexivity|]. split; [exact S|].
        intros b r' B. apply in_app_iff in B. destruct B as [B|[<-|[]]]; auto.
      * right. split; [exact D|]. intros b r' B. apply in_app_iff in B. destruct B as [B|[<-|[]]]; auto.
Qed.
Lemma stands_at_nil t : stands_at [] t <-> t = 0.
Proof. unfold stands_at. split; [intros [([|] & ? & ? & E & _)|(D & _)]; [discriminate|discriminate|exact D]|]. intros ->. right. split; [reflexivity|]. intros ? ? []. Qed.
Lemma stands_at_fun p d e : stands_at p d -> stands_at p e -> d = e.
Proof.
  revert d e. induction p as [|a p IH] using rev_ind; intros d e; [rewrite !stands_at_nil; congruence|]. rewrite !stands_at_snoc.
  destruct (puts (what a)); [congruence|apply IH].
Qed.
Definition resets (a : act) : bool := match a with ResetDiscrete _ => true | _ => false end.
Lemma resets_iff a : resets a = true <-> exists t, a = ResetDiscrete t.
Proof. destruct a; cbn; split; try discriminate; try (intros (? & ?); discriminate); eauto. Qed.
Lemma started_snoc p a u s : p <> [] -> started (p ++ [a]) u s <-> if resets (what a) then s = 0 else started p u s.
Proof.
  intros P. unfold started. destruct (resets (what a)) eqn:R.
  - apply resets_iff in R. destruct R as (t & R). split.
    + intros [(_ & E)|(N & _)]; [exact E|]. destruct (N a t ltac:(apply in_or_app; right; left; reflexivity) R).
    + intros ->. left. split; [|reflexivity]. exists a, t. split; [apply in_or_app; right; left; reflexivity|exact R].
  - assert (NA : forall t, what a <> ResetDiscrete t) by (intros t H; rewrite H in R; discriminate). split.
    + intros [((b & t & B & H) & E)|(N & b & p' & E & S)].
      * apply in_app_iff in B. destruct B as [B|[<-|[]]]; [left; eauto|destruct (NA _ H)].
      * right. split; [intros c t C; apply N; apply in_or_app; auto|]. destruct p as [|c p]; [contradiction|]. injection E as -> E. exists b, p. auto.
    + intros [((b & t & B & H) & E)|(N & b & p' & -> & S)].
      * left. split; [|exact E]. exists b, t. split; [apply in_or_app; auto|exact H].
      * right. split; [intros c t C; apply in_app_iff in C; destruct C as [C|[<-|[]]]; auto|]. exists b, (p' ++ [a]). auto.
Qed.
Lemma started_one a u s : started [a] u s <-> s = if resets (what a) then 0 else in_unit u (made a u).
Proof.
  unfold started. destruct (resets (what a)) eqn:R.
  - apply resets_iff in R. destruct R as (t & R). split; [intros [(_ & E)|(N & _)]; [exact E|destruct (N a t ltac:(left; reflexivity) R)]|].
    intros ->. left. split; [|reflexivity]. exists a, t. split; [left; reflexivity|exact R].
  - assert (NA : forall t, what a <> ResetDiscrete t) by (intros t H; rewrite H in R; discriminate). split.
    + intros [((b & t & [<-|[]] & H) & _)|(_ & b & p' & [= <- _] & S)]; [destruct (NA _ H)|exact S].
    + intros ->. right. split; [intros c t [<-|[]]; auto|]. exists a, []. auto.
Qed.
Lemma started_fun p u s t : started p u s -> started p u t -> s = t.
Proof.
  intros [((a & x & A & R) & ->)|(N & a & p' & -> & ->)] [((b & y & B & R') & ->)|(N' & b & q' & E & ->)]; [reflexivity|destruct (N' _ _ A R)|destruct (N _ _ B R')|].
  injection E as -> _. reflexivity.
Qed.
Lemma settings_snoc p a n : settings (p ++ [a]) n -> (exists r k, n = k + 1 /\ settings p k /\ sets (what a) r) \/ (settings p n /\ forall r, ~ sets (what a) r).
Proof.
  intros H. inversion H as [E|p' a' r k H' S E|p' a' k H' S E]; subst.
  - destruct p; discriminate.
  - apply app_inj_tail in E. destruct E as (-> & ->). left. eauto.
  - apply app_inj_tail in E. destruct E as (-> & ->). right. auto.
Qed.
Lemma settings_nil n : settings [] n -> n = 0.
Proof. intros H. inversion H as [|p ? ? ? ? ? E|p ? ? ? ? E]; [reflexivity|destruct p; discriminate|destruct p; discriminate]. Qed.
Lemma settings_fun p n k : settings p n -> settings p k -> n = k.
Proof.
  revert n k. induction p as [|a p IH] using rev_ind; intros n k A B; [apply settings_nil in A, B; congruence|].
  apply settings_snoc in A, B. destruct A as [(r & i & -> & A & S)|(A & N)], B as [(r' & j & -> & B & S')|(B & N')].
  - rewrite (IH _ _ A B). reflexivity.
  - destruct (N' _ S).
  - destruct (N _ S').
  - apply IH; assumption.
Qed.
Lemma settings_nonneg p n : settings p n -> 0 <= n.
Proof. induction 1; lia. Qed.

(** *** The invariant *)
Definition bounded (n : Z) : Z := Z.min n (2 ^ 64 - 1).
Definition knows (c : clock) (p : list access) : Prop :=
  ahead p (delta c) /\ (exists n, settings p n /\ count c = bounded n) /\ stands_at p (discrete c) /\ forall u, started p u (start c u).
(** A clock before its first access. *)
Definition knows_before (c : clock) (p : list access) (a : access) : Prop :=
  ahead p (delta c) /\ (exists n, settings p n /\ count c = bounded n) /\ stands_at p (discrete c) /\
  forall u s, started (p ++ [a]) u s <-> s = if resets (what a) then 0 else start c u.
Definition inv (h : list ev) (s : state) : Prop :=
  wished h (desired s) /\
  match instance s with
  | None => accesses h []
  | Some c => exists p, p <> [] /\ in_use h (current s) p /\ knows c p
  end.

Lemma calibrate_parts c n r : let c' := fst (calibrate c n r) in
  start c' = start c /\ discrete c' = discrete c /\
  delta c' = match r with Some (Some ref) => ref - in_unit Ms n | _ => delta c end /\
  count c' = match r with Some (Some ref) => if count c <? 2 ^ 64 - 1 then count c + 1 else count c | _ => count c end.
Proof. destruct r as [[r|]|]; cbn; auto. Qed.
Lemma answer_parts m c a : let c' := fst (answer m c a) in
  start c' = (if resets (what a) then fun _ => 0 else start c) /\ discrete c' = match puts (what a) with Some t => t | None => discrete c end /\
  delta c' = match calibration (what a) with Some (Some ref) => ref - in_unit Ms (now a) | _ => delta c end /\
  count c' = match calibration (what a) with Some (Some ref) => if count c <? 2 ^ 64 - 1 then count c + 1 else count c | _ => count c end.
Proof.
  unfold answer. destruct (what a) as [y mo d h mi s ms|y mo d w ms|t|t| |u|u|u| ] eqn:W; cbn [fst resets puts]; try (cbn; auto; fail).
  - apply calibrate_parts.
  - apply calibrate_parts.
Qed.
Lemma knows_answer m c p a : knows_before c p a -> knows (fst (answer m c a)) (p ++ [a]).
Proof.
  intros (A & (n & N & CN) & D & S). destruct (answer_parts m c a) as (E1 & E2 & E3 & E4).
  split; [|split; [|split]].
  - rewrite E3. apply ahead_snoc. destruct (calibration (what a)) as [[r|]|] eqn:C.
    + left. exists r. split; [apply sets_iff; exact C|reflexivity].
    + right. split; [intros r H; apply sets_iff in H; congruence|exact A].
    + right. split; [intros r H; apply sets_iff in H; congruence|exact A].
  - rewrite E4. pose proof (settings_nonneg _ _ N) as N0. destruct (calibration (what a)) as [[r|]|] eqn:C.
    + exists (n + 1). split; [apply (again _ _ r); [exact N|apply sets_iff; exact C]|]. rewrite CN. unfold bounded.
      destruct (Z.ltb_spec (Z.min n (2 ^ 64 - 1)) (2 ^ 64 - 1)); lia.
    + exists n. split; [apply not_now; [exact N|]; intros r H; apply sets_iff in H; congruence|exact CN].
    + exists n. split; [apply not_now; [exact N|]; intros r H; apply sets_iff in H; congruence|exact CN].
  - rewrite E2. apply stands_at_snoc. destruct (puts (what a)); [reflexivity|exact D].
  - intros u. rewrite E1. apply S. destruct (resets (what a)); reflexivity.
Qed.
Lemma knows_more c p a : p <> [] -> knows c p -> knows_before c p a.
Proof.
  intros P (A & N & D & S). split; [exact A|]. split; [exact N|]. split; [exact D|]. intros u s. rewrite (started_snoc _ _ _ _ P).
  destruct (resets (what a)); [reflexivity|]. split; [intros H; apply (started_fun _ _ _ _ H (S u))|intros ->; apply S].
Qed.
Lemma knows_fresh a : knows_before (fresh a) [] a.
Proof.
  split; [apply ahead_nil; reflexivity|]. split; [exists 0; split; [constructor|reflexivity]|]. split; [apply stands_at_nil; reflexivity|].
  intros u s. cbn [app]. rewrite started_one. unfold fresh; cbn [start]. rewrite (cast_unit u (made a u)). reflexivity.
Qed.

Lemma mode_eqb_iff m n : mode_eqb m n = true <-> m = n.
Proof. destruct m, n; cbn; split; congruence. Qed.
(** The clock that answers. *)
Lemma answering h s a : inv h s ->
  exists p, in_use (h ++ [Use a]) (desired s) (p ++ [a]) /\ knows_before (get_instance s a) p a.
Proof.
  intros (W & I). unfold get_instance. destruct (instance s) as [c|].
  - destruct I as (p & P & (q & A & Q0 & Q) & K). destruct (mode_eqb (current s) (desired s)) eqn:M.
    + apply mode_eqb_iff in M. exists p. split; [|apply knows_more; assumption]. exists q. split; [|split; [intros H; apply app_eq_nil in H; destruct H; discriminate|]].
      * rewrite map_app, app_assoc. cbn [map]. rewrite M in A. apply accessed; assumption.
      * rewrite <- M. exact Q.
    + exists []. split; [|apply knows_fresh]. exists (q ++ map (pair (current s)) p). split; [apply accessed; assumption|].
      split; [discriminate|]. intros q' n b E. destruct p as [|x p _] using rev_ind; [contradiction|]. rewrite map_app, app_assoc in E. cbn [map] in E.
      apply app_inj_tail in E. destruct E as (_ & [= <- _]). intros H. apply mode_eqb_iff in H. congruence.
  - exists []. split; [|apply knows_fresh]. exists []. split; [apply (accessed h []); assumption|]. split; [reflexivity|]. intros [|] ? ? E; discriminate.
Qed.
Lemma inv_init : inv [] init.
Proof. split; [apply wished_nil; reflexivity|]. cbn. constructor. Qed.
Lemma inv_step h s e : inv h s -> inv (h ++ [e]) (fst (step s e)).
Proof.
  intros I. destruct e as [m|a].
  - destruct I as (W & I). cbn [step fst]. split; [apply wished_snoc; reflexivity|]. cbn [instance current]. destruct (instance s) as [c|]; [|apply mode_set; exact I].
    destruct I as (p & P & (q & A & Q) & K). exists p. split; [exact P|]. split; [|exact K]. exists q. split; [apply mode_set; exact A|exact Q].
  - destruct (answering h s a I) as (p & U & K). destruct I as (W & _). cbn [step]. pose proof (knows_answer (desired s) _ _ _ K) as KA.
    destruct (answer (desired s) (get_instance s a) a) as (c & o). cbn [fst] in *. split; [apply wished_snoc; exact W|]. cbn [instance current].
    exists (p ++ [a]). split; [intros H; apply app_eq_nil in H; destruct H; discriminate|]. split; assumption.
Qed.
Lemma inv_run h : inv h (fst (run step init h)).
Proof. induction h as [|e h IH] using rev_ind; [apply inv_init|]. rewrite (run_snoc step init h e). cbn [fst]. apply inv_step. exact IH. Qed.

(** What is said at an access. *)
Definition says (h : list ev) (a : access) (o : option Z) : Prop := exists l, snd (run step init (h ++ [Use a])) = l ++ [(Use a, [o])].
Lemma says_answer h a o m p : in_use (h ++ [Use a]) m (p ++ [a]) -> says h a o ->
  exists c, knows_before c p a /\ o = snd (answer m c a).
Proof.
  intros U (l & E). rewrite run_snoc in E. cbn [snd] in E. apply app_inj_tail in E. destruct E as (_ & E). cbn [step] in E.
  destruct (answering h (fst (run step init h)) a (inv_run h)) as (p' & U' & K).
  assert (NE : forall q, q ++ [a] <> []) by (intros q H; apply app_eq_nil in H; destruct H; discriminate).
  destruct (in_use_fun _ _ _ _ _ (NE p) (NE p') U U') as (-> & P).
  apply app_inj_tail in P. destruct P as (-> & _). exists (get_instance (fst (run step init h)) a). split; [exact K|].
  destruct (answer _ _ a) as (c & o'). cbn [snd] in *. injection E as <-. reflexivity.
Qed.
Lemma says_ex h a : exists o, says h a o.
Proof.
  unfold says. rewrite run_snoc. cbn [snd step]. destruct (answer _ _ a) as (c & o). exists o. eexists. reflexivity.
Qed.
Lemma in_use_ex h a : exists m p, in_use (h ++ [Use a]) m (p ++ [a]).
Proof. destruct (answering h _ a (inv_run h)) as (p & U & _). eauto. Qed.

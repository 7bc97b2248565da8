(** C91: where the clock is not what one may expect. *)
From Coq Require Import List ZArith Lia Bool.
Import ListNotations.
From Verif Require Import Run ClockModel ClockSpec ClockCalendar ClockProofs ClockProps.
Open Scope list_scope.
Open Scope Z_scope.

(** A day that its month does not have is taken, and stands for a day of the next month. *)
Theorem C91_day_refuted y mo d n h mi s ms : 2017 <= y <= 2261 -> month_length y mo n -> mo < 12 -> n < d <= 31 ->
  0 <= h <= 23 -> 0 <= mi <= 59 -> 0 <= s <= 60 -> - 2 ^ 31 <= ms < 2 ^ 31 ->
  ~ a_date (y, mo, d) /\ exists r, sets (Calibrate y mo d h mi s ms) r /\ moment y (mo + 1) (d - n) h mi s ms r.
Proof.
  intros Y L M D H MI S MS. pose proof (month_length_range _ _ _ L) as (R & N). split.
  - intros A. inversion A as [? ? ? k L' D']; subst. rewrite (month_length_fun _ _ _ _ L L') in D. lia.
  - destruct (C91_taken y mo d h mi s ms) as (r & T & E); try lia. exists r. split; [exact T|].
    apply moment_iff in E; [|lia]. apply moment_iff; [lia|]. rewrite timegm_number in *. rewrite !number_eq in *.
    pose proof (month_end _ _ _ L) as ME. destruct (Z.eqb_spec mo 12); lia.
Qed.

(** A date after 2262 is in order, and undefined behaviour. *)
Theorem C91_far_refuted y mo d h mi s ms hist a o : 2263 <= y -> 1 <= mo <= 12 -> 1 <= d <= 31 -> 0 <= h <= 23 -> 0 <= mi <= 59 -> 0 <= s <= 60 ->
  what a = Calibrate y mo d h mi s ms -> says hist a o -> o = None.
Proof.
  intros Y M D H MI S W SA. destruct (C91_calibrate _ _ _ SA) as (_ & _ & _ & C); [left; rewrite W; eauto 10|].
  set (t := timegm (y - 1900) (mo - 1) d h mi s). apply (C (t * 1000) (t * 1000 + ms)).
  - rewrite W. apply by_time; try lia. apply moment_iff; [exact M|]. unfold t. lia.
  - intros (F & _). unfold representable in F. rewrite Z.div_mul in F by discriminate.
    pose proof (number_bounds y mo d M D) as B. pose proof (january_le 2263 y ltac:(lia)) as L. change (january 2263) with 107016 in L.
    pose proof (timegm_number y mo d h mi s) as E. fold t in E. clearbody t. lia.
Qed.

(** Hours, minutes and seconds are taken of the system clock and of the difference, each rounded: the sum
    is one less than the hours, minutes or seconds of the time if the two rests make a whole one. *)
Theorem C91_units_refuted h a b x y p d u k : in_use (h ++ [Use a]) RealTime (p ++ [a]) -> in_use (h ++ [Use b]) RealTime (p ++ [b]) -> ahead p d ->
  what a = Epoch u -> per u k -> what b = Epoch Ms -> now a = now b -> 0 <= now a -> 0 <= d -> k <= in_unit Ms (now a) mod k + d mod k ->
  says h a (Some x) -> says h b (Some y) -> x = y / k - 1.
Proof.
  intros U U' A WA K WB N P D R SA SB. pose proof (C91_time _ _ _ _ _ _ U WA SA A) as EX. pose proof (C91_time _ _ _ _ _ _ U' WB SB A) as EY.
  injection EX as ->. injection EY as ->. rewrite <- N. revert P R. generalize (now a). intros t P R. clear - K P R D.
  destruct u; cbn [per] in K; try contradiction; subst k; unfold shift; rewrite ?unit_hr, ?unit_min, ?unit_sec, unit_ms; unfold in_unit in *; Z.to_euclidean_division_equations; lia.
Qed.

(** In discrete time the clock says that it was set, and goes on as before. *)
Lemma in_use_next h m p a b : in_use (h ++ [Use a]) m (p ++ [a]) -> in_use ((h ++ [Use a]) ++ [Use b]) m ((p ++ [a]) ++ [b]).
Proof.
  intros (q & A & _ & Q). pose proof A as A'. apply accesses_snoc in A'. destruct A' as (l & k & E & _ & W). rewrite map_app, app_assoc in E. cbn [map] in E.
  apply app_inj_tail in E. destruct E as (_ & [= <-]). exists q. split; [|split; [intros H; apply app_eq_nil in H; destruct H; discriminate|exact Q]].
  rewrite (map_app _ (p ++ [a])), app_assoc. cbn [map]. apply accessed; [exact A|]. apply wished_snoc. exact W.
Qed.
Theorem C91_discrete_refuted h a b r o o' p t s : in_use (h ++ [Use a]) DiscreteTime (p ++ [a]) -> sets (what a) r -> stands_at p t -> started (p ++ [a]) Ms s ->
  in_64_bits t -> in_64_bits (t + s) -> what b = Epoch Ms -> says h a o -> says (h ++ [Use a]) b o' -> o = Some 1 /\ o' = Some (t + s).
Proof.
  intros U S T ST I1 I2 W SA SB. pose proof (sets_calibrates _ _ S) as CA.
  assert (NP : puts (what a) = None) by (destruct (what a); try contradiction; reflexivity).
  split.
  - apply (C91_calibrate _ _ _ SA); [|exists r; exact S]. unfold asks_to_set. destruct (what a); try contradiction; [left|right]; eauto 10.
  - assert (T' : stands_at (p ++ [a]) t) by (apply stands_at_snoc; rewrite NP; exact T).
    assert (ST' : started ((p ++ [a]) ++ [b]) Ms s).
    { apply started_snoc; [intros H; apply app_eq_nil in H; destruct H; discriminate|]. rewrite W. exact ST. }
    pose proof (C91_discrete _ _ _ _ Ms _ _ (in_use_next _ _ _ _ b U) SB T' ST') as (_ & C & _). rewrite unit_ms in C. apply C; assumption.
Qed.

(** A change of the mode and back forgets how the clock was set. *)
Theorem C91_mode_refuted h a b o : what b = Epoch Ms -> says (h ++ [SetMode DiscreteTime; Use a; SetMode RealTime]) b o -> o = Some (in_unit Ms (now b)).
Proof.
  intros W S. set (h' := h ++ [SetMode DiscreteTime; Use a; SetMode RealTime]) in *.
  assert (E : h' = ((h ++ [SetMode DiscreteTime]) ++ [Use a]) ++ [SetMode RealTime]) by (unfold h'; rewrite <- !app_assoc; reflexivity).
  destruct (in_use_now h' b RealTime) as (p & U); [rewrite E; apply wished_snoc; reflexivity|].
  assert (p = []) as ->.
  { destruct U as (q & A & _ & Q). apply accesses_snoc in A. destruct A as (l & m & EA & A & _). rewrite map_app, app_assoc in EA. cbn [map] in EA.
    apply app_inj_tail in EA. destruct EA as (<- & _). rewrite E in A. apply accesses_snoc in A. apply accesses_snoc in A. destruct A as (l' & m' & EL & _ & W').
    apply wished_snoc in W'. subst m'. destruct p as [|x p _] using rev_ind; [reflexivity|]. exfalso. rewrite map_app, app_assoc in EL. cbn [map] in EL. apply app_inj_tail in EL. destruct EL as (_ & EL). discriminate. }
  rewrite (C91_time _ _ _ _ _ _ U W S (proj2 (ahead_nil 0) eq_refl)). f_equal. unfold shift. rewrite unit_ms. lia.
Qed.

(** *** Cases *)
(** At 00:59 of the system clock the clock is set to 2020-02-29 01:00. *)
Definition at_ (t : Z) (w : act) : access := {| made := fun _ => 0; now := t; what := w |}.
Definition t0 : Z := 59 * 60 * 10 ^ 9.
Definition set_it : access := at_ t0 (Calibrate 2020 2 29 1 0 0 0).
Definition ref : Z := 1582938000000.
Lemma set_it_sets : sets (what set_it) ref.
Proof. apply sets_iff. reflexivity. Qed.
Lemma first_use a b m : in_use [Use a; Use b] m ([a] ++ [b]) <-> m = RealTime.
Proof.
  split.
  - intros (q & A & _). apply (accesses_snoc [Use a] (Use b)) in A. destruct A as (l & k & E & _ & W). rewrite map_app, app_assoc in E. apply app_inj_tail in E.
    destruct E as (_ & [= ->]). apply (wished_snoc [] (Use a)) in W. apply wished_nil in W. exact W.
  - intros ->. exists []. split; [|split; [discriminate|intros [|] ? ? H; discriminate]].
    apply (accessed [Use a] [(RealTime, a)]); [apply (accessed [] []); [constructor|apply wished_nil; reflexivity]|]. apply (wished_snoc [] (Use a)). apply wished_nil. reflexivity.
Qed.
Lemma says_run h a o : last (snd (run step init (h ++ [Use a]))) (Use a, []) = (Use a, [o]) -> says h a o.
Proof.
  intros E. destruct (says_ex h a) as (o' & l & E'). exists l. rewrite E' in *. rewrite last_last in E. injection E as ->. reflexivity.
Qed.
(** The time is right, the hour is that of midnight, and the first second of the start is kept. *)
Example C91_time_case :
  sets (what set_it) ref /\ a_date (2020, 2, 29) /\ moment 2020 2 29 1 0 0 0 ref /\
  in_use [Use set_it; Use (at_ t0 (Epoch Hr))] RealTime ([set_it] ++ [at_ t0 (Epoch Hr)]) /\ ahead [set_it] (ref - 3540000) /\ settings [set_it] 1 /\
  says [Use set_it] (at_ t0 (Epoch Ms)) (Some ref) /\ says [Use set_it] (at_ (t0 + 5 * 10 ^ 6) (Epoch Ms)) (Some (ref + 5)) /\
  says [Use set_it] (at_ t0 (Epoch Hr)) (Some (ref / 3600000 - 1)) /\ 3600000 <= in_unit Ms t0 mod 3600000 + (ref - 3540000) mod 3600000 /\
  says [Use set_it] (at_ t0 (Duration Min)) (Some 59) /\ says [Use set_it] (at_ t0 Count) (Some 1).
Proof.
  split; [exact set_it_sets|]. split; [apply (Valid _ _ _ 29); [apply february_leap; apply leap_year_iff; reflexivity|lia]|]. split; [apply moment_iff; [lia|reflexivity]|].
  split; [apply first_use; reflexivity|]. split; [apply (ahead_snoc []); left; exists ref; split; [exact set_it_sets|reflexivity]|].
  split; [apply (again [] _ ref 0); [constructor|exact set_it_sets]|].
  repeat (split; [first [apply says_run; reflexivity|vm_compute; discriminate]|]). apply says_run; reflexivity.
Qed.
(** Discrete time, as the service for simulations uses it: from 0, as reported. *)
Definition simulated : list ev := [SetMode DiscreteTime; Use (at_ t0 (ResetDiscrete 0)); Use (at_ t0 (SetDiscrete 7200500)); Use set_it].
Example C91_discrete_case :
  says simulated (at_ t0 (Epoch Ms)) (Some 7200500) /\ says simulated (at_ t0 (Epoch Hr)) (Some 2) /\ says simulated (at_ t0 (Duration Us)) (Some 7200500000) /\
  says simulated (at_ t0 (Start Ms)) (Some (ref - 3540000)) /\ says simulated (at_ t0 Discrete) (Some 7200500) /\
  exists p, in_use (simulated ++ [Use (at_ t0 (Epoch Ms))]) DiscreteTime (p ++ [at_ t0 (Epoch Ms)]) /\ stands_at p 7200500 /\ started (p ++ [at_ t0 (Epoch Ms)]) Ms 0.
Proof.
  do 5 (split; [apply says_run; reflexivity|]). exists [at_ t0 (ResetDiscrete 0); at_ t0 (SetDiscrete 7200500); set_it]. split; [|split].
  - exists []. split; [|split; [discriminate|intros [|] ? ? H; discriminate]].
    assert (W : wished [SetMode DiscreteTime] DiscreteTime) by (apply (wished_snoc [] (SetMode DiscreteTime)); reflexivity).
    assert (G : forall h a l, accesses h l -> wished h DiscreteTime -> accesses (h ++ [Use a]) (l ++ [(DiscreteTime, a)]) /\ wished (h ++ [Use a]) DiscreteTime).
    { intros h a l A X. split; [apply accessed; assumption|apply wished_snoc; exact X]. }
    assert (A0 : accesses [SetMode DiscreteTime] []) by (apply (mode_set [] []); constructor).
    destruct (G _ (at_ t0 (ResetDiscrete 0)) _ A0 W) as (A1 & W1). destruct (G _ (at_ t0 (SetDiscrete 7200500)) _ A1 W1) as (A2 & W2). destruct (G _ set_it _ A2 W2) as (A3 & W3).
    exact (proj1 (G _ (at_ t0 (Epoch Ms)) _ A3 W3)).
  - apply (stands_at_snoc [_; _]). cbn. apply (stands_at_snoc [_]). reflexivity.
  - left. split; [|reflexivity]. do 2 eexists. split; [left; reflexivity|reflexivity].
Qed.
(** The GPS weeks since 6 January 1980; 31 April is 1 May; a year that is too early, one that is too far. *)
Example C91_dates_case :
  sets (CalibrateWeeks 1980 1 6 2100 5000) 1586044805000 /\ moment 2020 4 5 0 0 5 0 1586044805000 /\
  sets (Calibrate 2020 4 31 0 0 0 0) 1588291200000 /\ moment 2020 5 1 0 0 0 0 1588291200000 /\
  says [] (at_ t0 (CalibrateWeeks 1980 1 6 1800 0)) (Some 0) /\ says [] (at_ t0 (Calibrate 2300 1 1 0 0 0 0)) None /\
  says [] (at_ t0 (Calibrate 2016 1 1 0 0 0 (-1))) (Some 0).
Proof.
  split; [apply sets_iff; reflexivity|]. split; [apply moment_iff; [lia|reflexivity]|]. split; [apply sets_iff; reflexivity|]. split; [apply moment_iff; [lia|reflexivity]|].
  repeat (split; [apply says_run; reflexivity|]). apply says_run; reflexivity.
Qed.

(** After 2^32 settings the count is 0. *)
Lemma many_settings n b : in_use (repeat (Use set_it) n ++ [Use b]) RealTime (repeat set_it n ++ [b]) /\ settings (repeat set_it n) (Z.of_nat n).
Proof.
  assert (A : forall n, accesses (repeat (Use set_it) n) (map (pair RealTime) (repeat set_it n)) /\ wished (repeat (Use set_it) n) RealTime).
  { clear n. induction n as [|n (A & W)]; [split; [constructor|apply wished_nil; reflexivity]|].
    cbn [repeat]. rewrite !repeat_cons, map_app. cbn [map]. split; [apply accessed; assumption|apply wished_snoc; exact W]. }
  split.
  - destruct (A n) as (A1 & W). exists []. split; [rewrite map_app; cbn [map app]; apply accessed; assumption|]. split; [reflexivity|]. intros [|] ? ? H; discriminate.
  - induction n as [|n IH]; [constructor|]. cbn [repeat]. rewrite repeat_cons. rewrite Nat2Z.inj_succ. apply (again _ _ ref); [exact IH|exact set_it_sets].
Qed.
Theorem C91_count_refuted : exists h a p o, in_use (h ++ [Use a]) RealTime (p ++ [a]) /\ what a = Count /\ settings p (2 ^ 32) /\ says h a o /\ o = Some 0.
Proof.
  destruct (many_settings (Z.to_nat (2 ^ 32)) (at_ t0 Count)) as (U & S). rewrite Z2Nat.id in S by lia. revert U S. generalize (Z.to_nat (2 ^ 32)). intros n U S.
  destruct (says_ex (repeat (Use set_it) n) (at_ t0 Count)) as (o & O). exists (repeat (Use set_it) n), (at_ t0 Count), (repeat set_it n), o.
  split; [exact U|]. split; [reflexivity|]. split; [exact S|]. split; [exact O|].
  destruct (says_answer _ _ _ _ _ U O) as (c & (_ & (k & K & C) & _) & ->). rewrite <- (settings_fun _ _ _ S K) in C. cbn [at_ what answer snd]. rewrite C. reflexivity.
Qed.

Print Assumptions C91_day_refuted.
Print Assumptions C91_far_refuted.
Print Assumptions C91_units_refuted.
Print Assumptions C91_discrete_refuted.
Print Assumptions C91_mode_refuted.
Print Assumptions C91_count_refuted.

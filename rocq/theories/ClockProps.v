(** C91: what the clock of UxAS says. *)
From Coq Require Import List ZArith Lia Bool.
Import ListNotations.
From Verif Require Import Run ClockModel ClockSpec ClockCalendar ClockProofs.
Open Scope list_scope.
Open Scope Z_scope.

Lemma unit_hr t : in_unit Hr (t * 1000000) = Z.quot t (3600 * 1000).
Proof. exact (Z.quot_mul_cancel_r t (3600 * 1000) 1000000 ltac:(discriminate) ltac:(discriminate)). Qed.
Lemma unit_min t : in_unit Min (t * 1000000) = Z.quot t (60 * 1000).
Proof. exact (Z.quot_mul_cancel_r t (60 * 1000) 1000000 ltac:(discriminate) ltac:(discriminate)). Qed.
Lemma unit_sec t : in_unit Sec (t * 1000000) = Z.quot t 1000.
Proof. exact (Z.quot_mul_cancel_r t 1000 1000000 ltac:(discriminate) ltac:(discriminate)). Qed.
Lemma unit_ms t : in_unit Ms (t * 1000000) = t.
Proof. exact (Z.quot_mul t 1000000 ltac:(discriminate)). Qed.
Lemma unit_us t : in_unit Us (t * 1000000) = t * 1000.
Proof. replace (t * 1000000) with (t * 1000 * 1000) by lia. exact (Z.quot_mul (t * 1000) 1000 ltac:(discriminate)). Qed.
Lemma unit_ns t : in_unit Ns (t * 1000000) = t * 1000000.
Proof. exact (Z.quot_1_r (t * 1000000)). Qed.
Lemma offset_shift c u : offset c u = shift u (delta c).
Proof. destruct u; unfold shift; rewrite ?unit_hr, ?unit_min, ?unit_sec, ?unit_ms; reflexivity. Qed.
Lemma i64_spec z : (in_64_bits z -> i64 z = Some z) /\ (~ in_64_bits z -> i64 z = None).
Proof. unfold i64, in_64_bits. destruct (Z.leb_spec (- 2 ^ 63) z), (Z.ltb_spec z (2 ^ 63)); cbn [andb]; split; intros H'; try reflexivity; exfalso; lia. Qed.
Lemma units_spec t u : units t u = i64 (in_unit u (t * 1000000)).
Proof. destruct u; rewrite ?unit_hr, ?unit_min, ?unit_sec, ?unit_ms, ?unit_us, ?unit_ns; reflexivity. Qed.

(** *** Setting the clock *)
(** Exactly the dates that are in order, from 2016 on and within what the system clock can count, are
    taken; the others are refused, and those that the system clock cannot count are undefined behaviour. *)
Theorem C91_calibrate h a o : says h a o -> asks_to_set (what a) ->
  ((exists r, sets (what a) r) -> o = Some 1) /\
  ((forall t r, ~ demands (what a) t r) -> o = Some 0) /\
  (forall t r, demands (what a) t r -> fits t r -> ~ since_2016 r -> o = Some 0) /\
  (forall t r, demands (what a) t r -> ~ fits t r -> o = None).
Proof.
  intros S A. destruct (in_use_ex h a) as (m & p & U). destruct (says_answer _ _ _ _ _ U S) as (c & _ & ->).
  assert (E : answer m c a = calibrate c (now a) (calibration (what a))).
  { unfold answer. destruct A as [(y & mo & d & hh & mi & s & ms & ->)|(y & mo & d & w & ms & ->)]; reflexivity. }
  rewrite E. destruct (calibration_spec (what a)) as (C1 & C2 & C3 & C4). split; [|split; [|split]].
  - intros (r & H). apply sets_iff in H. rewrite H. reflexivity.
  - intros N. rewrite (C4 N). reflexivity.
  - intros t r D F N. rewrite (C2 t r D F N). reflexivity.
  - intros t r D F. rewrite (C3 t r D F). reflexivity.
Qed.

(** A date of the calendar stands for the days since 1 January 1970. *)
Theorem C91_calendar y mo d h mi s ms r : a_date (y, mo, d) ->
  moment y mo d h mi s ms r <-> exists n, day_number (y, mo, d) n /\ r = (((n * 24 + h) * 60 + mi) * 60 + s) * 1000 + ms.
Proof.
  intros A. assert (M : 1 <= mo <= 12) by (inversion A; subst; eapply month_length_range; eassumption).
  rewrite moment_iff by exact M. rewrite timegm_number. split.
  - intros ->. exists (number (y, mo, d)). split; [apply day_number_iff; [exact A|reflexivity]|lia].
  - intros (n & H & ->). apply day_number_iff in H; [|exact A]. lia.
Qed.
Theorem C91_days a : a_date a -> exists n, day_number a n /\ forall k, day_number a k -> k = n.
Proof. intros A. exists (number a). split; [apply day_number_iff; [exact A|reflexivity]|]. intros k K. apply day_number_iff in K; assumption. Qed.

(** Every time of every day from 2017 to 2261 is taken. *)
Lemma number_bounds y m d : 1 <= m <= 12 -> 1 <= d <= 31 -> january y <= number (y, m, d) <= january y + 366.
Proof.
  intros M D. rewrite number_eq. pose proof (extra_range y).
  assert (T : 0 <= table m <= 334).
  { assert (C : m = 1 \/ m = 2 \/ m = 3 \/ m = 4 \/ m = 5 \/ m = 6 \/ m = 7 \/ m = 8 \/ m = 9 \/ m = 10 \/ m = 11 \/ m = 12) by lia.
    repeat (destruct C as [->|C]); try subst m; numbers; lia. }
  destruct (3 <=? m); lia.
Qed.
Lemma january_le y z : y <= z -> january y <= january z.
Proof. intros L. destruct (Z.eq_dec y z) as [->|N]; [lia|]. pose proof (january_lt y z ltac:(lia)). pose proof (extra_range y). lia. Qed.
Theorem C91_taken y mo d h mi s ms : 2017 <= y <= 2261 -> 1 <= mo <= 12 -> 1 <= d <= 31 -> 0 <= h <= 23 -> 0 <= mi <= 59 -> 0 <= s <= 60 ->
  - 2 ^ 31 <= ms < 2 ^ 31 -> exists r, sets (Calibrate y mo d h mi s ms) r /\ moment y mo d h mi s ms r.
Proof.
  intros Y M D H MI S MS. set (t := timegm (y - 1900) (mo - 1) d h mi s). exists (t * 1000 + ms).
  pose proof (number_bounds y mo d M D) as B. pose proof (january_le 2017 y ltac:(lia)) as L1. pose proof (january_le y 2261 ltac:(lia)) as L2.
  change (january 2017) with 17167 in L1. change (january 2261) with 106286 in L2.
  pose proof (timegm_number y mo d h mi s) as E. fold t in E. clearbody t.
  split; [|apply moment_iff; [exact M|]; rewrite timegm_number; lia].
  exists (t * 1000). split; [apply by_time; try lia; apply moment_iff; [exact M|]; rewrite timegm_number; lia|].
  change (2 ^ 31) with 2147483648 in MS. split; [split; unfold representable|].
  - rewrite Z.div_mul by discriminate. lia.
  - assert (Q : - 2147484 <= Z.quot (t * 1000 + ms) 1000 - t <= 2147484) by (Z.to_euclidean_division_equations; lia).
    lia.
  - apply since_2016_iff. change (timegm (minimum_year - 1900) 0 1 0 0 0) with 1451606400. lia.
Qed.

(** *** What the clock answers *)
(** Real time: the system clock, and what the clock is ahead of it. *)
Theorem C91_time h a o p u d : in_use (h ++ [Use a]) RealTime (p ++ [a]) -> what a = Epoch u -> says h a o -> ahead p d ->
  o = Some (in_unit u (now a) + shift u d).
Proof.
  intros U W S A. destruct (says_answer _ _ _ _ _ U S) as (c & (A' & _) & ->). unfold answer. rewrite W. cbn [snd].
  rewrite offset_shift, cast_unit, (ahead_fun _ _ _ A A'). reflexivity.
Qed.
Theorem C91_start h a o m p u d s : in_use (h ++ [Use a]) m (p ++ [a]) -> what a = Start u -> says h a o -> ahead p d -> started (p ++ [a]) u s ->
  o = Some (s + shift u d).
Proof.
  intros U W S A ST. destruct (says_answer _ _ _ _ _ U S) as (c & (A' & _ & _ & S') & ->). unfold answer. rewrite W. cbn [snd].
  rewrite offset_shift, (ahead_fun _ _ _ A A'). apply S' in ST. rewrite W in ST. cbn in ST. rewrite ST. reflexivity.
Qed.
(** Durations do not depend on how the clock is set. *)
Theorem C91_duration h a o p u s : in_use (h ++ [Use a]) RealTime (p ++ [a]) -> what a = Duration u -> says h a o -> started (p ++ [a]) u s ->
  o = Some (in_unit u (now a) - s).
Proof.
  intros U W S ST. destruct (says_answer _ _ _ _ _ U S) as (c & (_ & _ & _ & S') & ->). unfold answer. rewrite W. cbn [snd].
  rewrite cast_unit. apply S' in ST. rewrite W in ST. cbn in ST. rewrite ST. reflexivity.
Qed.
(** Discrete time: what was set last, and the start; neither the system clock nor the calibration counts. *)
Theorem C91_discrete h a o p u t s : in_use (h ++ [Use a]) DiscreteTime (p ++ [a]) -> says h a o -> stands_at p t -> started (p ++ [a]) u s ->
  let x := in_unit u (t * 1000000) in
  (what a = Duration u -> in_64_bits x -> o = Some x) /\
  (what a = Epoch u -> in_64_bits x -> in_64_bits (x + s) -> o = Some (x + s)) /\
  (what a = Duration u -> ~ in_64_bits x -> o = None) /\
  (what a = Epoch u -> ~ (in_64_bits x /\ in_64_bits (x + s)) -> o = None).
Proof.
  intros U S T ST x. destruct (says_answer _ _ _ _ _ U S) as (c & (_ & _ & T' & S') & ->).
  pose proof (stands_at_fun _ _ _ T T') as E. apply S' in ST. unfold answer. destruct (i64_spec x) as (I1 & I2). destruct (i64_spec (x + s)) as (J1 & J2).
  split; [|split; [|split]]; intros W; rewrite W in *; cbn [snd resets] in *; rewrite units_spec, <- E, <- ?ST; fold x.
  - exact I1.
  - intros A B. rewrite (I1 A). apply J1. exact B.
  - exact I2.
  - intros N. assert (D : {in_64_bits x} + {~ in_64_bits x}).
    { unfold in_64_bits. destruct (Z_le_dec (- 2 ^ 63) x); [destruct (Z_lt_dec x (2 ^ 63)); [left|right]|right]; lia. }
    destruct D as [D|D]; [rewrite (I1 D); apply J2; tauto|rewrite (I2 D); reflexivity].
Qed.
Theorem C91_stands h a o m p t : in_use (h ++ [Use a]) m (p ++ [a]) -> what a = Discrete -> says h a o -> stands_at p t -> o = Some t.
Proof.
  intros U W S T. destruct (says_answer _ _ _ _ _ U S) as (c & (_ & _ & T' & _) & ->). unfold answer. rewrite W. cbn [snd]. rewrite (stands_at_fun _ _ _ T T'). reflexivity.
Qed.
(** The number of times that the clock in use was set. *)
Theorem C91_count h a o m p n : in_use (h ++ [Use a]) m (p ++ [a]) -> what a = Count -> says h a o -> settings p n -> n < 2 ^ 32 -> o = Some n.
Proof.
  intros U W S N L. destruct (says_answer _ _ _ _ _ U S) as (c & (_ & (n' & N' & C) & _) & ->). unfold answer. rewrite W. cbn [snd].
  rewrite C, <- (settings_fun _ _ _ N N'). apply settings_nonneg in N. unfold bounded. rewrite Z.min_l by lia. rewrite Z.mod_small by lia. reflexivity.
Qed.

(** Once the clock in real time has been set, it goes on from that time with the system clock, until it
    is set again or the mode changes. *)
Lemma in_use_more h m p h2 : p <> [] -> in_use h m p -> wished h m -> (forall n, In (SetMode n) h2 -> n = m) ->
  wished (h ++ h2) m /\ exists p2, in_use (h ++ h2) m (p ++ p2) /\ forall a, In a p2 <-> In (Use a) h2.
Proof.
  intros P U W. induction h2 as [|e h2 IH] using rev_ind; intros N.
  - rewrite app_nil_r. split; [exact W|]. exists []. rewrite app_nil_r. split; [exact U|]. intros a. split; intros [].
  - destruct IH as (W2 & p2 & (q & A & Q0 & Q) & I2); [intros n H; apply N; apply in_or_app; auto|]. rewrite app_assoc. destruct e as [n|a].
    + assert (n = m) as -> by (apply N; apply in_or_app; right; left; reflexivity). split; [apply wished_snoc; reflexivity|].
      exists p2. split; [exists q; split; [apply mode_set; exact A|auto]|]. intros a. rewrite in_app_iff, I2. split; [auto|intros [H|[H|[]]]; [exact H|discriminate]].
    + split; [apply wished_snoc; exact W2|]. exists (p2 ++ [a]). split.
      * exists q. split; [rewrite app_assoc, map_app, app_assoc; cbn [map]; apply accessed; assumption|]. split; [|exact Q].
        intros H. rewrite app_assoc in H. apply app_eq_nil in H. destruct H. discriminate.
      * intros b. rewrite !in_app_iff, I2. cbn [In]. split; (intros [H|[H|[]]]; [auto|right; left; congruence]).
Qed.
Lemma in_use_now h a m : wished h m -> exists p, in_use (h ++ [Use a]) m (p ++ [a]).
Proof.
  intros W. destruct (in_use_ex h a) as (n & p & U). exists p. destruct U as (q & A & U). assert (n = m) as <-; [|exists q; auto].
  apply accesses_snoc in A. destruct A as (l & k & E & _ & W'). rewrite map_app, app_assoc in E. cbn [map] in E. apply app_inj_tail in E. destruct E as (_ & [= ->]).
  apply (wished_fun _ _ _ W' W).
Qed.
Theorem C91_goes_on h a h2 b r o : wished h RealTime -> sets (what a) r ->
  (forall n, In (SetMode n) h2 -> n = RealTime) -> (forall c s, In (Use c) h2 -> ~ sets (what c) s) ->
  what b = Epoch Ms -> says (h ++ Use a :: h2) b o -> o = Some (r + (in_unit Ms (now b) - in_unit Ms (now a))).
Proof.
  intros W S N NS WB SB. replace (h ++ Use a :: h2) with ((h ++ [Use a]) ++ h2) in SB by (rewrite <- app_assoc; reflexivity).
  destruct (in_use_now h a _ W) as (p & U).
  assert (NE : p ++ [a] <> []) by (intros H; apply app_eq_nil in H; destruct H; discriminate).
  destruct (in_use_more _ _ _ (h2 ++ [Use b]) NE U) as (_ & p2 & U2 & I2).
  { apply wished_snoc. exact W. }
  { intros n H. apply N. apply in_app_iff in H. destruct H as [H|[H|[]]]; [exact H|discriminate]. }
  destruct p2 as [|b' p2 _] using rev_ind; [exfalso; apply (proj2 (I2 b)); apply in_or_app; right; left; reflexivity|].
  rewrite !app_assoc in U2. pose proof U2 as (q & A & _). apply accesses_snoc in A. destruct A as (l & k & E & _). rewrite map_app, app_assoc in E. cbn [map] in E.
  apply app_inj_tail in E. destruct E as (_ & [= <- ->]).
  assert (AH : ahead ((p ++ [a]) ++ p2) (r - in_unit Ms (now a))).
  { left. exists p, a, p2, r. rewrite <- app_assoc. split; [reflexivity|]. split; [exact S|]. split; [reflexivity|]. intros c s C.
    assert (IC : In (Use c) (h2 ++ [Use b])) by (apply I2; apply in_or_app; auto). apply in_app_iff in IC. destruct IC as [IC|[[= <-]|[]]]; [apply (NS _ _ IC)|].
    intros H. apply sets_calibrates in H. rewrite WB in H. exact H. }
  rewrite (C91_time ((h ++ [Use a]) ++ h2) b o ((p ++ [a]) ++ p2) Ms _ U2 WB SB AH). f_equal. unfold shift. rewrite unit_ms. lia.
Qed.

(** Hours, minutes and seconds are those of the time in milliseconds, or one more or less. *)
Theorem C91_units h a b x y p u k : wished h RealTime -> in_use (h ++ [Use a]) RealTime (p ++ [a]) -> what a = Epoch u -> per u k -> what b = Epoch Ms ->
  now a = now b -> 0 <= now a -> says h a (Some x) -> says h b (Some y) -> y / k - 1 <= x <= y / k + 1.
Proof.
  intros W U WA K WB N P SA SB. destruct (says_answer _ _ _ _ _ U SA) as (c & (A & _) & _). pose proof (C91_time _ _ _ _ _ _ U WA SA A) as EX.
  assert (U' : in_use (h ++ [Use b]) RealTime (p ++ [b])).
  { destruct U as (q & AC & Q0 & Q). exists q. split; [|split; [intros H; apply app_eq_nil in H; destruct H; discriminate|exact Q]].
    apply accesses_snoc in AC. destruct AC as (l & m & E & AC & _). rewrite map_app, app_assoc in E. cbn [map] in E. apply app_inj_tail in E. destruct E as (<- & _).
    rewrite map_app, app_assoc. cbn [map]. apply accessed; assumption. }
  pose proof (C91_time _ _ _ _ _ _ U' WB SB A) as EY. injection EX as ->. injection EY as ->. rewrite <- N. generalize (delta c). intros d. clear - K P. revert P. generalize (now a). intros t P.
  destruct u; cbn [per] in K; try contradiction; subst k; unfold shift; rewrite ?unit_hr, ?unit_min, ?unit_sec, unit_ms; unfold in_unit; Z.to_euclidean_division_equations; lia.
Qed.

Print Assumptions C91_calibrate.
Print Assumptions C91_calendar.
Print Assumptions C91_days.
Print Assumptions C91_taken.
Print Assumptions C91_time.
Print Assumptions C91_start.
Print Assumptions C91_duration.
Print Assumptions C91_discrete.
Print Assumptions C91_stands.
Print Assumptions C91_count.
Print Assumptions C91_goes_on.
Print Assumptions C91_units.

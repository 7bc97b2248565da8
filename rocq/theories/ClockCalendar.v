(** The formula of POSIX counts the days of the calendar. *)
From Coq Require Import List ZArith Lia Bool.
Import ListNotations.
From Verif Require Import ClockModel ClockSpec.
Open Scope list_scope.
Open Scope Z_scope.

Lemma leap_year_iff y : leap_year y = true <-> leap y.
Proof.
  unfold leap_year, leap. rewrite andb_true_iff, orb_true_iff, negb_true_iff, !Z.eqb_eq, Z.eqb_neq.
  rewrite <- !Z.mod_divide by discriminate. tauto.
Qed.
Lemma leap_dec y : {leap y} + {~ leap y}.
Proof. destruct (leap_year y) eqn:E; [left; apply leap_year_iff; exact E|right; rewrite <- leap_year_iff; congruence]. Qed.

(** The first of January. *)
Definition january (y : Z) : Z := (y - 1970) * 365 + (y - 1969) / 4 - (y - 1901) / 100 + (y - 1601) / 400.
Definition number (a : date) : Z := let '(y, m, d) := a in january y + yday (y - 1900) (m - 1) d.

Lemma timegm_number y m d h mi s : timegm (y - 1900) (m - 1) d h mi s = number (y, m, d) * 86400 + h * 3600 + mi * 60 + s.
Proof.
  unfold timegm, number, january. replace (y - 1900 - 69) with (y - 1969) by lia. replace (y - 1900 - 1) with (y - 1901) by lia.
  replace (y - 1900 + 299) with (y - 1601) by lia. replace (y - 1900 - 70) with (y - 1970) by lia. lia.
Qed.

Definition extra (y : Z) : Z := if leap_year y then 1 else 0.
Lemma january_succ y : january (y + 1) = january y + 365 + extra y.
Proof.
  unfold january, extra, leap_year.
  destruct (Z.eqb_spec (y mod 4) 0), (Z.eqb_spec (y mod 100) 0), (Z.eqb_spec (y mod 400) 0); cbn [andb orb negb];
    Z.to_euclidean_division_equations; lia.
Qed.
Lemma extra_range y : 0 <= extra y <= 1.
Proof. unfold extra. destruct (leap_year y); lia. Qed.
Lemma january_lt y z : y < z -> january y + 365 + extra y <= january z.
Proof.
  intros L. pattern z. apply Zlt_lower_bound_ind with (z := y + 1); [|lia]. clear z L. intros z IH L.
  destruct (Z.eq_dec z (y + 1)) as [->|N]; [rewrite january_succ; lia|].
  specialize (IH (z - 1) ltac:(lia)). replace z with (z - 1 + 1) by lia. rewrite january_succ. pose proof (extra_range (z - 1)). lia.
Qed.

Lemma extra_leap y : leap y -> extra y = 1.
Proof. intros L. unfold extra. apply leap_year_iff in L. rewrite L. reflexivity. Qed.
Lemma extra_common y : ~ leap y -> extra y = 0.
Proof. intros L. unfold extra. rewrite <- leap_year_iff in L. destruct (leap_year y); [exfalso; auto|reflexivity]. Qed.

Definition table (m : Z) : Z := before_month (m - 1).
Lemma number_eq y m d : number (y, m, d) = january y + table m + (if 3 <=? m then extra y else 0) + d - 1.
Proof.
  unfold number, yday, table, extra. replace (y - 1900 + 1900) with y by lia. replace (2 <=? m - 1) with (3 <=? m) by (destruct (Z.leb_spec 3 m), (Z.leb_spec 2 (m - 1)); lia).
  destruct (3 <=? m); cbn [andb]; lia.
Qed.

Ltac numbers := repeat match goal with
  | |- context [table ?k] => let v := eval vm_compute in (table k) in change (table k) with v
  | |- context [?a <=? ?b] => let v := eval vm_compute in (a <=? b) in change (a <=? b) with v
  | |- context [?a =? ?b] => let v := eval vm_compute in (a =? b) in change (a =? b) with v
  end; cbn iota.
Ltac months H := cbn [In] in H; repeat (destruct H as [<-|H]); try (exfalso; exact H).
Lemma month_length_range y m n : month_length y m n -> 1 <= m <= 12 /\ 28 <= n <= 31.
Proof. intros [? ? H|? ? H|? ?|? ?]; [months H; lia|months H; lia|lia|lia]. Qed.
(** Months follow each other. *)
Lemma month_end y m n : month_length y m n ->
  table m + (if 3 <=? m then extra y else 0) + n =
  if m =? 12 then 365 + extra y else table (m + 1) + (if 3 <=? m + 1 then extra y else 0).
Proof.
  intros [? ? H|? ? H|? N|? L].
  - months H; numbers; lia.
  - months H; numbers; lia.
  - rewrite (extra_common _ N). reflexivity.
  - rewrite (extra_leap _ L). reflexivity.
Qed.

Lemma number_tomorrow a b : tomorrow a b -> number b = number a + 1.
Proof.
  intros [y m d n L D|y m n L M|y]; rewrite !number_eq.
  - lia.
  - apply month_end in L. destruct (Z.eqb_spec m 12); lia.
  - rewrite january_succ. change (table 1) with 0. change (table 12) with 334. change (3 <=? 1) with false. change (3 <=? 12) with true. cbn iota. lia.
Qed.
Lemma tomorrow_date a b : tomorrow a b -> a_date a /\ a_date b.
Proof.
  intros [y m d n L D|y m n L M|y].
  - split; apply (Valid _ _ _ n L); lia.
  - pose proof (month_length_range _ _ _ L) as (M1 & M2). split; [apply (Valid _ _ _ n L); lia|].
    assert (H : exists k, month_length y (m + 1) k /\ 1 <= k).
    { destruct (Z.eq_dec (m + 1) 2) as [->|]; [destruct (leap_dec y); [exists 29|exists 28]; (split; [constructor; assumption|lia])|].
      assert (C : In (m + 1) [1; 3; 5; 7; 8; 10; 12] \/ In (m + 1) [4; 6; 9; 11]) by (cbn [In]; lia).
      destruct C as [C|C]; [exists 31; split; [apply long; exact C|lia]|exists 30; split; [apply short; exact C|lia]]. }
    destruct H as (k & K & G). apply (Valid _ _ _ k K). lia.
  - split; apply (Valid _ _ _ 31); try lia; apply long; cbn; auto 10.
Qed.
Lemma days_number n a b : days n a b -> number b = number a + n /\ 0 <= n /\ a_date a /\ a_date b.
Proof.
  induction 1 as [a A|n a b c D (E & N & A & B) T]; [split; [lia|split; [lia|auto]]|].
  apply number_tomorrow in T as E'. apply tomorrow_date in T. split; [lia|]. split; [lia|]. tauto.
Qed.

Lemma month_length_fun y m n k : month_length y m n -> month_length y m k -> n = k.
Proof.
  intros A B. inversion A as [? ? P|? ? P|? P|? P]; subst; inversion B as [? ? Q|? ? Q|? Q|? Q]; subst; try reflexivity; try contradiction;
    cbn [In] in *; exfalso; lia.
Qed.
Lemma yday_bound y m d n : month_length y m n -> 1 <= d <= n -> january y <= number (y, m, d) < january y + 365 + extra y.
Proof.
  intros L D. rewrite number_eq. pose proof (extra_range y). inversion L as [? ? P|? ? P|? P|? P]; subst; try (apply extra_common in P); try (apply extra_leap in P);
    try (months P); numbers; lia.
Qed.
Lemma table_lt y m k n : month_length y m n -> m < k -> k <= 12 ->
  table m + (if 3 <=? m then extra y else 0) + n <= table k + (if 3 <=? k then extra y else 0).
Proof.
  intros L M K. pose proof (month_end _ _ _ L) as E. pose proof (month_length_range _ _ _ L) as (R & _). pose proof (extra_range y).
  destruct (Z.eqb_spec m 12) as [->|]; [lia|]. rewrite E. clear E L n.
  assert (C : m = 1 \/ m = 2 \/ m = 3 \/ m = 4 \/ m = 5 \/ m = 6 \/ m = 7 \/ m = 8 \/ m = 9 \/ m = 10 \/ m = 11) by lia.
  assert (C' : k = 2 \/ k = 3 \/ k = 4 \/ k = 5 \/ k = 6 \/ k = 7 \/ k = 8 \/ k = 9 \/ k = 10 \/ k = 11 \/ k = 12) by lia.
  repeat (destruct C as [->|C]); try subst m; repeat (destruct C' as [->|C']); try subst k; try lia; numbers; lia.
Qed.
Lemma number_inj a b : a_date a -> a_date b -> number a = number b -> a = b.
Proof.
  intros [y m d n L D] [y' m' d' n' L' D'] E.
  pose proof (yday_bound _ _ _ _ L D) as B. pose proof (yday_bound _ _ _ _ L' D') as B'.
  assert (y = y') as ->.
  { destruct (Z.lt_trichotomy y y') as [T|[T|T]]; [|exact T|]; apply january_lt in T; lia. }
  rewrite !number_eq in E.
  assert (m = m') as ->.
  { pose proof (month_length_range _ _ _ L) as (R & _). pose proof (month_length_range _ _ _ L') as (R' & _).
    destruct (Z.lt_trichotomy m m') as [T|[T|T]]; [|exact T|];
      [pose proof (table_lt _ _ _ _ L T ltac:(lia))|pose proof (table_lt _ _ _ _ L' T ltac:(lia))]; lia. }
  replace d' with d by lia. reflexivity.
Qed.

(** Each date has a next one, so that days can be counted. *)
Lemma tomorrow_ex a : a_date a -> exists b, tomorrow a b.
Proof.
  intros [y m d n L D]. pose proof (month_length_range _ _ _ L) as (R & _).
  destruct (Z.eq_dec d n) as [->|N]; [|eexists; apply (next_day _ _ _ n L); lia].
  destruct (Z.eq_dec m 12) as [->|N]; [|eexists; apply (next_month _ _ _ L); lia].
  assert (n = 31) as -> by (apply (month_length_fun y 12); [exact L|apply long; cbn; auto 10]). eexists. apply next_year.
Qed.
Lemma days_ex a n : a_date a -> 0 <= n -> exists b, days n a b.
Proof.
  intros A N. revert n N. apply natlike_ind; [exists a; constructor; exact A|].
  intros n N (b & H). destruct (tomorrow_ex b) as (c & T); [apply (days_number _ _ _ H)|]. exists c. apply (later _ _ b); assumption.
Qed.
Lemma epoch_date : a_date (1970, 1, 1).
Proof. apply (Valid _ _ _ 31); [apply long; cbn; auto|lia]. Qed.
Lemma days_iff a b n : a_date a -> a_date b -> 0 <= n -> days n a b <-> number b = number a + n.
Proof.
  intros A B N. split; [intros H; apply (days_number _ _ _ H)|]. intros E. destruct (days_ex a n A N) as (c & C).
  pose proof (days_number _ _ _ C) as (E' & _ & _ & C'). assert (b = c) as -> by (apply number_inj; [exact B|exact C'|lia]). exact C.
Qed.
(** The number of a day is what the formula says. *)
Lemma day_number_iff a n : a_date a -> day_number a n <-> n = number a.
Proof.
  intros A. assert (E0 : number (1970, 1, 1) = 0) by reflexivity. unfold day_number. split.
  - intros [H|H]; apply days_number in H; lia.
  - intros ->. destruct (Z_le_gt_dec 0 (number a)); [left|right]; apply days_iff; auto using epoch_date; lia.
Qed.
Lemma first_date y m : 1 <= m <= 12 -> a_date (y, m, 1).
Proof.
  intros M. destruct (Z.eq_dec m 2) as [->|]; [destruct (leap_dec y); [apply (Valid _ _ _ 29)|apply (Valid _ _ _ 28)]; try lia; constructor; assumption|].
  assert (C : In m [1; 3; 5; 7; 8; 10; 12] \/ In m [4; 6; 9; 11]) by (cbn [In]; lia).
  destruct C as [C|C]; [apply (Valid _ _ _ 31); [apply long; exact C|lia]|apply (Valid _ _ _ 30); [apply short; exact C|lia]].
Qed.
Lemma number_day y m d : number (y, m, d) = number (y, m, 1) + (d - 1).
Proof. rewrite !number_eq. lia. Qed.

(** A moment is what [timegm] says. *)
Lemma moment_iff y mo d h mi s ms r : 1 <= mo <= 12 ->
  moment y mo d h mi s ms r <-> r = timegm (y - 1900) (mo - 1) d h mi s * 1000 + ms.
Proof.
  intros M. unfold moment. rewrite timegm_number, number_day. split.
  - intros (n & H & ->). apply day_number_iff in H; [|apply first_date; exact M]. lia.
  - intros ->. exists (number (y, mo, 1)). split; [apply day_number_iff; [apply first_date; exact M|reflexivity]|lia].
Qed.

(** Eleven decimals of pi. *)
From Coq Require Import Reals Lra.
Open Scope R_scope.

Lemma fact_S : forall n, INR (fact (S n)) = INR (S n) * INR (fact n).
Proof. intros n. rewrite fact_simpl, mult_INR. reflexivity. Qed.

Lemma sin_sixth : forall x, 0 <= x <= 1 ->
  x - x ^ 3 / 6 + x ^ 5 / 120 - x ^ 7 / 5040 + x ^ 9 / 362880 - x ^ 11 / 39916800 + x ^ 13 / 6227020800 - x ^ 15 / 1307674368000 <= sin x
  <= x - x ^ 3 / 6 + x ^ 5 / 120 - x ^ 7 / 5040 + x ^ 9 / 362880 - x ^ 11 / 39916800 + x ^ 13 / 6227020800 - x ^ 15 / 1307674368000
     + x ^ 17 / 355687428096000.
Proof.
  intros x (A & B). pose proof PI2_3_2 as P. unfold PI2 in P.
  assert (F1 : INR (fact 1) = 1) by (cbn; ring). assert (F2 : INR (fact 2) = 2) by (rewrite fact_S, F1; cbn; ring).
  assert (F3 : INR (fact 3) = 6) by (rewrite fact_S, F2; cbn; ring). assert (F4 : INR (fact 4) = 24) by (rewrite fact_S, F3; cbn; ring).
  assert (F5 : INR (fact 5) = 120) by (rewrite fact_S, F4; cbn [INR]; ring). assert (F6 : INR (fact 6) = 720) by (rewrite fact_S, F5; cbn [INR]; ring).
  assert (F7 : INR (fact 7) = 5040) by (rewrite fact_S, F6; cbn [INR]; ring). assert (F8 : INR (fact 8) = 40320) by (rewrite fact_S, F7; cbn [INR]; ring).
  assert (F9 : INR (fact 9) = 362880) by (rewrite fact_S, F8; cbn [INR]; ring). assert (F10 : INR (fact 10) = 3628800) by (rewrite fact_S, F9; cbn [INR]; ring).
  assert (F11 : INR (fact 11) = 39916800) by (rewrite fact_S, F10; cbn [INR]; ring). assert (F12 : INR (fact 12) = 479001600) by (rewrite fact_S, F11; cbn [INR]; ring).
  assert (F13 : INR (fact 13) = 6227020800) by (rewrite fact_S, F12; cbn [INR]; ring). assert (F14 : INR (fact 14) = 87178291200) by (rewrite fact_S, F13; cbn [INR]; ring).
  assert (F15 : INR (fact 15) = 1307674368000) by (rewrite fact_S, F14; cbn [INR]; ring). assert (F16 : INR (fact 16) = 20922789888000) by (rewrite fact_S, F15; cbn [INR]; ring).
  assert (F17 : INR (fact 17) = 355687428096000) by (rewrite fact_S, F16; cbn [INR]; ring).
  destruct (sin_bound x 3 A ltac:(lra)) as (L & U).
  unfold sin_approx, sin_term in L, U. cbn [Nat.mul Nat.add sum_f_R0] in L, U.
  rewrite F1, F3, F5, F7, F9, F11, F13, F15 in L. rewrite F1, F3, F5, F7, F9, F11, F13, F15, F17 in U.
  clear F1 F2 F3 F4 F5 F6 F7 F8 F9 F10 F11 F12 F13 F14 F15 F16 F17. split; lra.
Qed.

Lemma PI_bounds : 3.14159265358 < PI < 3.14159265359.
Proof.
  pose proof PI2_3_2 as P. unfold PI2 in P. pose proof PI_4 as Q. pose proof sin_PI6 as S. split.
  - destruct (Rlt_le_dec 3.14159265358 PI) as [H|H]; [exact H|exfalso].
    assert (K : 1 / 2 <= sin (3.14159265358 / 6)). { rewrite <- S. apply sin_incr_1; lra. }
    destruct (sin_sixth (3.14159265358 / 6) ltac:(lra)) as (_ & U). lra.
  - destruct (Rlt_le_dec PI 3.14159265359) as [H|H]; [exact H|exfalso].
    assert (K : sin (3.14159265359 / 6) <= 1 / 2). { rewrite <- S. apply sin_incr_1; lra. }
    destruct (sin_sixth (3.14159265359 / 6) ltac:(lra)) as (L & _). lra.
Qed.

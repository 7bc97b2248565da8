(** The counting functions of Permute.h are exact. *)
From Coq Require Import List ZArith Bool Factorial Lia Znumtheory.
From Verif Require Import PermuteModel PermuteSpec.
Import ListNotations.
Open Scope Z_scope.

Lemma factorial_pos n : 0 < factorial n.
Proof. unfold factorial. pose proof (lt_O_fact (Z.to_nat n)). lia. Qed.

Lemma factorial_0 : factorial 0 = 1.
Proof. reflexivity. Qed.

Lemma factorial_S n : 0 < n -> factorial n = n * factorial (n - 1).
Proof.
  intros H. unfold factorial. replace (Z.to_nat n) with (S (Z.to_nat (n - 1))) by lia.
  cbn [fact]. change (Z.of_nat (S (Z.to_nat (n - 1)) * fact (Z.to_nat (n - 1))) =
    n * Z.of_nat (fact (Z.to_nat (n - 1)))).
  rewrite Nat2Z.inj_mul. f_equal. lia.
Qed.

Global Opaque factorial.

(** Binomial coefficients. *)
Definition bin (n k c : Z) : Prop := c * (factorial k * factorial (n - k)) = factorial n.

Lemma bin_pos n k c : bin n k c -> 0 < c.
Proof.
  unfold bin. pose proof (factorial_pos n). pose proof (factorial_pos k).
  pose proof (factorial_pos (n - k)). intros E.
  assert (0 < factorial k * factorial (n - k)) by (apply Z.mul_pos_pos; assumption).
  nia.
Qed.

Lemma bin_ends n c : c = 0 \/ c = n -> bin n c 1.
Proof.
  unfold bin. intros [-> | ->].
  - rewrite factorial_0, Z.sub_0_r. lia.
  - rewrite Z.sub_diag, factorial_0. lia.
Qed.

Lemma bin_exists_nat (n : nat) : forall k, 0 <= k <= Z.of_nat n -> exists c, bin (Z.of_nat n) k c.
Proof.
  induction n as [|n IH]; intros k H.
  - exists 1. apply bin_ends. lia.
  - destruct (Z.eq_dec k 0) as [->|K0]; [exists 1; apply bin_ends; auto|].
    destruct (Z.eq_dec k (Z.of_nat (S n))) as [->|K1]; [exists 1; apply bin_ends; auto|].
    destruct (IH k) as (c1 & E1); [lia|]. destruct (IH (k - 1)) as (c2 & E2); [lia|].
    exists (c1 + c2). unfold bin in *. rewrite Nat2Z.inj_succ in *. unfold Z.succ in *.
    set (N := Z.of_nat n) in *.
    rewrite (factorial_S (N + 1)) by lia. replace (N + 1 - 1) with N by lia.
    assert (A1 : factorial (N + 1 - k) = (N + 1 - k) * factorial (N - k)).
    { rewrite factorial_S by lia. f_equal. f_equal. lia. }
    assert (A2 : factorial k = k * factorial (k - 1)) by (rewrite factorial_S by lia; reflexivity).
    replace (N - (k - 1)) with (N + 1 - k) in E2 by lia.
    transitivity ((N + 1 - k) * (c1 * (factorial k * factorial (N - k))) +
                  k * (c2 * (factorial (k - 1) * factorial (N + 1 - k)))).
    + rewrite A1, A2. ring.
    + rewrite E1, E2. ring.
Qed.

Lemma bin_exists n k : 0 <= k <= n -> exists c, bin n k c.
Proof.
  intros H. destruct (bin_exists_nat (Z.to_nat n) k) as (c & E); [lia|].
  rewrite Z2Nat.id in E by lia. eauto.
Qed.

Lemma bin_step n k c c' : 0 < k <= n -> bin n (k - 1) c -> bin n k c' -> c * (n - k + 1) = c' * k.
Proof.
  unfold bin. intros H E1 E2.
  assert (A1 : factorial (n - (k - 1)) = (n - k + 1) * factorial (n - k)).
  { rewrite factorial_S by lia. f_equal; [lia|]. f_equal. lia. }
  assert (A2 : factorial k = k * factorial (k - 1)) by (rewrite factorial_S by lia; reflexivity).
  rewrite A1 in E1. rewrite A2 in E2.
  pose proof (factorial_pos (k - 1)). pose proof (factorial_pos (n - k)).
  apply (Z.mul_reg_r _ _ (factorial (k - 1) * factorial (n - k))).
  - apply Z.neq_mul_0. lia.
  - rewrite <- E2 in E1. lia.
Qed.

Lemma bin_unique n k c c' : bin n k c -> bin n k c' -> c = c'.
Proof.
  unfold bin. intros E1 E2. pose proof (factorial_pos k). pose proof (factorial_pos (n - k)).
  apply (Z.mul_reg_r _ _ (factorial k * factorial (n - k))).
  - apply Z.neq_mul_0. lia.
  - congruence.
Qed.

Lemma bin_sym n k c : bin n k c -> bin n (n - k) c.
Proof. unfold bin. replace (n - (n - k)) with k by lia. intros <-. ring. Qed.

Lemma bin_mono n k c c' : 0 < k -> 2 * k <= n -> bin n (k - 1) c -> bin n k c' -> c <= c'.
Proof.
  intros K H E1 E2. pose proof (bin_step n k c c' ltac:(lia) E1 E2).
  pose proof (bin_pos _ _ _ E1). pose proof (bin_pos _ _ _ E2). nia.
Qed.

Lemma gcd_loop_gcd fuel x y :
  0 <= x -> 0 <= y -> (Z.to_nat y < fuel)%nat -> gcd_loop fuel x y = Z.gcd x y.
Proof.
  revert x y; induction fuel as [|fuel IH]; intros x y Hx Hy L; [lia|]. cbn [gcd_loop].
  destruct (Z.eqb_spec y 0) as [->|N].
  - rewrite Z.gcd_0_r. lia.
  - pose proof (Z.mod_pos_bound x y ltac:(lia)).
    rewrite IH by lia. rewrite Z.gcd_comm, Z.gcd_mod by lia. apply Z.gcd_comm.
Qed.

Lemma gcd_gcd x y : 0 <= x -> 0 <= y -> gcd x y = Z.gcd x y.
Proof. intros. unfold gcd. apply gcd_loop_gcd; lia. Qed.

Section Exact.
  Context (max : Z).

  (** The value if it can be represented, else the exception. *)
  Definition bounded (c : Z) : option Z := if c <=? max then Some c else None.

  Lemma times_bounded r t : 0 < t -> times max r t = bounded (r * t).
  Proof.
    intros H. unfold times, bounded.
    destruct (Z.ltb_spec (max / t) r) as [L|L]; destruct (Z.leb_spec (r * t) max) as [M|M]; try reflexivity.
    - exfalso. assert (r <= max / t) by (apply Z.div_le_lower_bound; lia). lia.
    - exfalso. pose proof (Z.mul_div_le max t H). nia.
  Qed.

  Lemma over c c' : max < c -> c <= c' -> bounded c' = None.
  Proof. intros H L. unfold bounded. destruct (Z.leb_spec c' max); [lia|reflexivity]. Qed.

  (** One turn of the combination loop. *)
  Lemma turn n k c c' : 1 < k -> 2 * k <= n -> bin n (k - 1) c -> bin n k c' ->
    let g := gcd c k in times max (c / g) ((n - k + 1) / (k / g)) = bounded c'.
  Proof.
    intros K H E1 E2 g.
    pose proof (bin_pos _ _ _ E1) as P1. pose proof (bin_pos _ _ _ E2) as P2.
    pose proof (bin_step n k c c' ltac:(lia) E1 E2) as S.
    unfold g. rewrite gcd_gcd by lia.
    set (d := Z.gcd c k) in *.
    assert (D0 : 0 < d).
    { pose proof (Z.gcd_nonneg c k). destruct (Z.eq_dec d 0) as [Z0|]; [|unfold d in *; lia].
      apply Z.gcd_eq_0_l in Z0. lia. }
    destruct (Z.gcd_divide_l c k) as (u & U). destruct (Z.gcd_divide_r c k) as (v & W).
    fold d in U, W.
    assert (Ed : Z.gcd (c / d) (k / d) = 1) by (apply Z.gcd_div_gcd; [lia|reflexivity]).
    rewrite U, W, !Z.div_mul in * by lia.
    assert (V0 : 0 < v) by nia.
    assert (S' : u * (n - v * d + 1) = c' * v) by (apply (Z.mul_reg_r _ _ d); lia).
    assert (Dv : (v | n - v * d + 1)).
    { apply (Z.gauss _ u); [exists c'; lia|]. rewrite Z.gcd_comm. exact Ed. }
    destruct Dv as (t & Et). rewrite Et, Z.div_mul by lia.
    assert (C : c' = u * t).
    { apply (Z.mul_reg_r _ _ v); [lia|]. rewrite <- S', Et. ring. }
    rewrite C. apply times_bounded. nia.
  Qed.

  Lemma combination_loop_exact n : forall turns k c c',
    0 < k -> bin n k c -> c <= max ->
    2 * (k + Z.of_nat turns) <= n ->
    bin n (k + Z.of_nat turns) c' ->
    combination_loop max turns (k + 1) (n - k) c = bounded c'.
  Proof.
    induction turns as [|turns IH]; intros k c c' K E M H E'.
    - cbn. replace (k + Z.of_nat 0) with k in * by lia.
      rewrite (bin_unique _ _ _ _ E' E). unfold bounded. destruct (Z.leb_spec c max); [reflexivity|lia].
    - cbn [combination_loop].
      destruct (bin_exists n (k + 1)) as (c1 & E1); [lia|].
      pose proof (turn n (k + 1) c c1) as Q. cbv zeta in Q.
      replace (n - (k + 1) + 1) with (n - k) in Q by lia.
      rewrite Q; [|lia|lia|replace (k + 1 - 1) with k by lia; exact E|exact E1].
      unfold bounded at 1. destruct (Z.leb_spec c1 max) as [L|L].
      + replace (n - k - 1) with (n - (k + 1)) by lia. apply IH; [lia|exact E1|exact L|lia|].
        replace (k + 1 + Z.of_nat turns) with (k + Z.of_nat (S turns)) by lia. exact E'.
      + clear IH Q. symmetry. apply (over c1); [lia|].
        (* monotone from k + 1 to the end *)
        assert (Mono : forall j a b, bin n (k + 1) a -> bin n (k + 1 + Z.of_nat j) b ->
                  2 * (k + 1 + Z.of_nat j) <= n -> a <= b).
        { induction j as [|j IHj]; intros a b Ea Eb Hj.
          - replace (k + 1 + Z.of_nat 0) with (k + 1) in Eb by lia.
            rewrite (bin_unique _ _ _ _ Ea Eb). lia.
          - destruct (bin_exists n (k + 1 + Z.of_nat j)) as (m & Em); [lia|].
            transitivity m; [apply (IHj a m Ea Em); lia|].
            apply (bin_mono n (k + 1 + Z.of_nat (S j))); try lia; [|exact Eb].
            replace (k + 1 + Z.of_nat (S j) - 1) with (k + 1 + Z.of_nat j) by lia. exact Em. }
        apply (Mono turns c1 c' E1); [|lia].
        replace (k + 1 + Z.of_nat turns) with (k + Z.of_nat (S turns)) by lia. exact E'.
  Qed.

  Lemma bin_one n : 1 <= n -> bin n 1 n.
  Proof.
    intros H. unfold bin. rewrite (factorial_S n), (factorial_S 1) by lia.
    change (1 - 1) with 0. rewrite factorial_0. lia.
  Qed.

  Lemma bin_ge n k c : 0 < k -> 2 * k <= n -> bin n k c -> n <= c.
  Proof.
    intros K H E.
    assert (M : forall j c, bin n (1 + Z.of_nat j) c -> 2 * (1 + Z.of_nat j) <= n -> n <= c).
    { induction j as [|j IH]; intros c0 E0 H0.
      - pose proof (bin_unique _ _ _ _ E0 (bin_one n ltac:(lia))). lia.
      - destruct (bin_exists n (1 + Z.of_nat j)) as (m & Em); [lia|].
        transitivity m; [apply IH; [exact Em|lia]|].
        apply (bin_mono n (1 + Z.of_nat (S j))); try lia; [|exact E0].
        replace (1 + Z.of_nat (S j) - 1) with (1 + Z.of_nat j) by lia. exact Em. }
    apply (M (Z.to_nat (k - 1))).
    - replace (1 + Z.of_nat (Z.to_nat (k - 1))) with k by lia. exact E.
    - lia.
  Qed.

  Lemma combination_exact d1 d2 : 0 <= d1 <= max -> 0 <= d2 <= max -> 1 <= max ->
    exists c, bin (d1 + d2) d1 c /\ count_each_combination max d1 d2 = bounded c.
  Proof.
    intros H1 H2 HM.
    assert (G : forall e1 e2, 0 <= e1 <= e2 -> e2 <= max ->
      exists c, bin (e1 + e2) e1 c /\
        (if e1 =? 0 then Some 1 else
         if max - e2 <? e1 then None else
         combination_loop max (Z.to_nat (e1 - 1)) 2 (e1 + e2 - 1) (e1 + e2)) = bounded c).
    { intros e1 e2 E1 E2. destruct (bin_exists (e1 + e2) e1) as (c & C); [lia|].
      exists c. split; [exact C|].
      destruct (Z.eqb_spec e1 0) as [->|N].
      - rewrite (bin_unique _ _ _ _ C (bin_ends (0 + e2) 0 (or_introl eq_refl))).
        unfold bounded. destruct (Z.leb_spec 1 max); [reflexivity|lia].
      - destruct (Z.ltb_spec (max - e2) e1) as [L|L].
        + symmetry. apply (over (e1 + e2)); [lia|]. apply (bin_ge _ e1); [lia|lia|exact C].
        + apply (combination_loop_exact (e1 + e2) (Z.to_nat (e1 - 1)) 1); try lia.
          * apply bin_one. lia.
          * replace (1 + Z.of_nat (Z.to_nat (e1 - 1))) with e1 by lia. exact C. }
    unfold count_each_combination. destruct (Z.ltb_spec d2 d1) as [L|L].
    - destruct (G d2 d1) as (c & C & E); [lia|lia|]. exists c. split; [|exact E].
      apply bin_sym in C. replace (d2 + d1 - d2) with d1 in C by lia. rewrite Z.add_comm. exact C.
    - apply G; lia.
  Qed.

  (** Falling products. *)
  Fixpoint falling (turns : nat) (n : Z) : Z :=
    match turns with
    | O => 1
    | S turns' => n * falling turns' (n - 1)
    end.

  Lemma falling_pos turns n : Z.of_nat turns <= n -> 0 < falling turns n.
  Proof.
    revert n; induction turns as [|turns IH]; intros n H; cbn [falling]; [lia|].
    specialize (IH (n - 1) ltac:(lia)). nia.
  Qed.

  Lemma falling_factorial turns n : Z.of_nat turns <= n ->
    falling turns n * factorial (n - Z.of_nat turns) = factorial n.
  Proof.
    revert n; induction turns as [|turns IH]; intros n H; cbn [falling].
    - replace (n - Z.of_nat 0) with n by lia. lia.
    - rewrite (factorial_S n) by lia. rewrite <- (IH (n - 1)) by lia.
      replace (n - Z.of_nat (S turns)) with (n - 1 - Z.of_nat turns) by lia. ring.
  Qed.

  Lemma product_loop_exact turns n r : Z.of_nat turns <= n -> 0 < r -> r <= max ->
    product_loop max turns n r = bounded (r * falling turns n).
  Proof.
    revert n r; induction turns as [|turns IH]; intros n r H P M; cbn [product_loop falling].
    - rewrite Z.mul_1_r. unfold bounded. destruct (Z.leb_spec r max); [reflexivity|lia].
    - rewrite times_bounded by lia. unfold bounded at 1.
      pose proof (falling_pos turns (n - 1) ltac:(lia)).
      destruct (Z.leb_spec (r * n) max) as [L|L].
      + rewrite IH by nia. f_equal. ring.
      + symmetry. apply (over (r * n)); [lia|nia].
  Qed.

  (** The product of [low]+1 .. [n]. *)
  Definition span (n low : Z) : Z := falling (Z.to_nat (n - low)) n.

  Lemma span_pos n low : 0 <= low -> 0 <= n -> 0 < span n low.
  Proof. intros. apply falling_pos. lia. Qed.

  Lemma span_factorial n low : 0 <= low <= n -> span n low * factorial low = factorial n.
  Proof.
    intros H. unfold span. rewrite <- (falling_factorial (Z.to_nat (n - low)) n) by lia.
    f_equal. f_equal. lia.
  Qed.

  Lemma product_exact n low r : 0 <= low -> 0 <= n -> 0 < r -> r <= max ->
    product max n low r = bounded (r * span n low).
  Proof. intros. unfold product, span. apply product_loop_exact; lia. Qed.

  Lemma bounded_some c r : bounded c = Some r -> r = c /\ c <= max.
  Proof. unfold bounded. destruct (Z.leb_spec c max); [|discriminate]. intros [= ->]. auto. Qed.

  Lemma span_ge n low : 0 <= low < n -> n <= span n low.
  Proof.
    intros H. unfold span. replace (Z.to_nat (n - low)) with (S (Z.to_nat (n - 1 - low))) by lia.
    cbn [falling]. pose proof (falling_pos (Z.to_nat (n - 1 - low)) (n - 1) ltac:(lia)). nia.
  Qed.

  Lemma permutation_exact d1 d2 : 0 <= d1 <= max -> 0 <= d2 <= max -> 1 <= max ->
    exists c, c * factorial d2 = factorial (d1 + d2) /\ count_each_permutation max d1 d2 = bounded c.
  Proof.
    intros H1 H2 HM. exists (span (d1 + d2) d2). split; [apply span_factorial; lia|].
    unfold count_each_permutation. destruct (Z.ltb_spec (max - d2) d1) as [L|L].
    - symmetry. apply (over (d1 + d2)); [lia|]. apply span_ge. lia.
    - rewrite product_exact by lia. f_equal. lia.
  Qed.

  Lemma circular_exact d1 d2 : 0 <= d1 <= max -> 0 <= d2 <= max -> 1 <= max ->
    exists c, (if d1 =? 0 then c = 1 else c * (d1 * factorial d2) = factorial (d1 + d2)) /\
      count_each_circular_permutation max d1 d2 = bounded c.
  Proof.
    intros H1 H2 HM. unfold count_each_circular_permutation.
    destruct (Z.eqb_spec d1 0) as [->|N].
    { exists 1. split; [reflexivity|]. unfold bounded. destruct (Z.leb_spec 1 max); [reflexivity|lia]. }
    destruct (Z.leb_spec d1 d2) as [L|L].
    - destruct (combination_exact d1 d2 H1 H2 HM) as (c & C & E). rewrite E.
      pose proof (bin_pos _ _ _ C) as P. unfold bin in C.
      replace (d1 + d2 - d1) with d2 in C by lia.
      exists (c * span (d1 - 1) 1). split.
      + assert (F : span (d1 - 1) 1 = factorial (d1 - 1)).
        { destruct (Z.eq_dec d1 1) as [->|]; [reflexivity|].
          rewrite <- (span_factorial (d1 - 1) 1) by lia.
          rewrite (factorial_S 1) by lia. change (1 - 1) with 0. rewrite factorial_0. lia. }
        rewrite F, <- C, (factorial_S d1) by lia. ring.
      + unfold bounded at 1. destruct (Z.leb_spec c max) as [M|M].
        * apply product_exact; lia.
        * symmetry. apply (over c); [lia|]. pose proof (span_pos (d1 - 1) 1). nia.
    - pose proof (span_pos (d1 + d2) d1 ltac:(lia) ltac:(lia)) as P1.
      pose proof (span_pos (d1 - 1) d2 ltac:(lia) ltac:(lia)) as P2.
      exists (span (d1 + d2) d1 * span (d1 - 1) d2). split.
      + rewrite <- (span_factorial (d1 + d2) d1) by lia.
        rewrite (factorial_S d1) by lia. rewrite <- (span_factorial (d1 - 1) d2) by lia. ring.
      + destruct (Z.ltb_spec (max - d2) d1) as [M|M].
        * symmetry. apply (over (d1 + d2)); [lia|].
          pose proof (span_ge (d1 + d2) d1 ltac:(lia)). nia.
        * rewrite product_exact by lia. rewrite Z.mul_1_l. unfold bounded at 1.
          destruct (Z.leb_spec (span (d1 + d2) d1) max) as [M'|M'].
          -- apply product_exact; lia.
          -- symmetry. apply (over (span (d1 + d2) d1)); [lia|nia].
  Qed.

  Lemma halves n : 2 <= n ->
    let r := if Z.even n then n / 2 else n in
    let t := if Z.even (n - 1) then (n - 1) / 2 else n - 1 in
    0 < r /\ 0 < t /\ 2 * (r * t) = n * (n - 1).
  Proof.
    intros H. cbv zeta. destruct (Z.even n) eqn:E.
    - assert (E' : Z.even (n - 1) = false).
      { rewrite Z.even_sub. rewrite E. reflexivity. }
      rewrite E'. apply Z.even_spec in E. destruct E as (m & ->).
      rewrite (Z.mul_comm 2 m), Z.div_mul by lia. split; [lia|]. split; [lia|]. ring.
    - assert (E' : Z.even (n - 1) = true).
      { rewrite Z.even_sub. rewrite E. reflexivity. }
      rewrite E'. apply Z.even_spec in E'. destruct E' as (m & Em).
      rewrite Em, (Z.mul_comm 2 m), Z.div_mul by lia.
      destruct (Z.eq_dec n 2) as [->|]; [discriminate|]. split; [lia|]. split; [lia|]. lia.
  Qed.

  Lemma reversible_exact d1 d2 : 0 <= d1 <= max -> 0 <= d2 <= max -> 1 <= max ->
    exists c, c * ((if 1 <? d1 then 2 else 1) * factorial d2) = factorial (d1 + d2) /\
      count_each_reversible_permutation max d1 d2 = bounded c.
  Proof.
    intros H1 H2 HM. unfold count_each_reversible_permutation.
    destruct (Z.ltb_spec 1 d1) as [D|D].
    - set (n := d1 + d2). destruct (halves n) as (R0 & T0 & RT); [lia|].
      set (r := if Z.even n then n / 2 else n) in *.
      set (t := if Z.even (n - 1) then (n - 1) / 2 else n - 1) in *. cbv zeta.
      pose proof (span_pos (n - 2) d2 ltac:(lia) ltac:(lia)) as P.
      exists (r * t * span (n - 2) d2). split.
      + rewrite (factorial_S n), (factorial_S (n - 1)) by lia.
        replace (n - 1 - 1) with (n - 2) by lia.
        rewrite <- (span_factorial (n - 2) d2) by lia.
        transitivity (2 * (r * t) * (span (n - 2) d2 * factorial d2)); [ring|]. rewrite RT. ring.
      + destruct (Z.ltb_spec (max - d2) d1) as [M|M].
        * symmetry. apply (over n); [lia|].
          assert (n <= r * t) by nia. nia.
        * rewrite times_bounded by lia. unfold bounded at 1.
          destruct (Z.leb_spec (r * t) max) as [M'|M'].
          -- apply product_exact; nia.
          -- symmetry. apply (over (r * t)); [lia|nia].
    - destruct (permutation_exact d1 d2 H1 H2 HM) as (c & C & E). exists c.
      split; [rewrite <- C; ring|]. unfold count_each_permutation in E.
      destruct (max - d2 <? d1); exact E.
  Qed.

  Lemma reversible_circular_exact d1 d2 : 0 <= d1 <= max -> 0 <= d2 <= max -> 1 <= max ->
    exists c, (if d1 =? 0 then c = 1 else
               c * ((if 2 <? d1 then 2 else 1) * d1 * factorial d2) = factorial (d1 + d2)) /\
      count_each_reversible_circular_permutation max d1 d2 = bounded c.
  Proof.
    intros H1 H2 HM. unfold count_each_reversible_circular_permutation.
    destruct (combination_exact d1 d2 H1 H2 HM) as (c & C & E). rewrite E.
    pose proof (bin_pos _ _ _ C) as P.
    assert (C' := C). unfold bin in C'. replace (d1 + d2 - d1) with d2 in C' by lia.
    destruct (Z.ltb_spec 3 d1) as [D|D].
    - pose proof (span_pos (d1 - 1) 2 ltac:(lia) ltac:(lia)) as P2.
      exists (c * span (d1 - 1) 2). split.
      + destruct (Z.eqb_spec d1 0); [lia|]. destruct (Z.ltb_spec 2 d1); [|lia].
        rewrite <- C', (factorial_S d1), <- (span_factorial (d1 - 1) 2) by lia.
        rewrite (factorial_S 2), (factorial_S (2 - 1)) by lia. change (2 - 1 - 1) with 0.
        rewrite factorial_0. ring.
      + unfold bounded at 1. destruct (Z.leb_spec c max) as [M|M].
        * apply product_exact; lia.
        * symmetry. apply (over c); [lia|nia].
    - exists c. split.
      + assert (Q : d1 = 0 \/ d1 = 1 \/ d1 = 2 \/ d1 = 3) by lia.
        destruct Q as [-> |[-> |[-> | ->]]]; cbn [Z.eqb Z.ltb Z.compare Pos.compare Pos.compare_cont].
        * exact (bin_unique _ _ _ _ C (bin_ends (0 + d2) 0 (or_introl eq_refl))).
        * rewrite <- C', (factorial_S 1) by lia. change (1 - 1) with 0. rewrite factorial_0. ring.
        * rewrite <- C', (factorial_S 2), (factorial_S (2 - 1)) by lia. change (2 - 1 - 1) with 0.
          rewrite factorial_0. ring.
        * rewrite <- C', (factorial_S 3), (factorial_S (3 - 1)), (factorial_S (3 - 1 - 1)) by lia.
          change (3 - 1 - 1 - 1) with 0. rewrite factorial_0. ring.
      + unfold bounded. destruct (c <=? max); reflexivity.
  Qed.
End Exact.

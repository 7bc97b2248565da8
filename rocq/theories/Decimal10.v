(** Decimal text of numbers: [std::to_string] and the value of a digit string.
    Models the C++ standard library. *)
From Coq Require Import String Ascii List Arith NArith Lia Bool.
From Verif Require Import Base.
Import ListNotations.
Open Scope list_scope.

(** The digit character of a number below ten. *)
Definition digit_char (n : N) : ascii := ascii_of_N (48 + n).

(** [c] is one of '0'..'9'. *)
Definition is_digit (c : ascii) : bool := ((48 <=? N_of_ascii c) && (N_of_ascii c <=? 57))%N.

Fixpoint dec_aux (fuel : nat) (n : N) : str :=
  match fuel with
  | O => []
  | S f => if (n <? 10)%N then [digit_char n]
           else dec_aux f (n / 10)%N ++ [digit_char (n mod 10)%N]
  end.

(** [std::to_string] of a non-negative number. *)
Definition to_string (n : N) : str := dec_aux (S (N.size_nat n)) n.

(** The number a digit string denotes. *)
Definition dec_value (s : str) : N :=
  fold_left (fun acc c => 10 * acc + (N_of_ascii c - 48))%N s 0%N.

Lemma digit_char_value n : (n < 10)%N -> (N_of_ascii (digit_char n) - 48 = n)%N.
Proof.
  intros H. unfold digit_char. rewrite N_ascii_embedding by lia. lia.
Qed.

Lemma digit_char_digit n : (n < 10)%N -> is_digit (digit_char n) = true.
Proof.
  intros H. unfold is_digit, digit_char. rewrite N_ascii_embedding by lia.
  apply andb_true_iff. split; apply N.leb_le; lia.
Qed.

Lemma dec_value_snoc s c :
  dec_value (s ++ [c]) = (10 * dec_value s + (N_of_ascii c - 48))%N.
Proof. unfold dec_value. rewrite fold_left_app. reflexivity. Qed.

Lemma dec_aux_value f : forall n, (n < 10 ^ N.of_nat f)%N -> dec_value (dec_aux f n) = n.
Proof.
  induction f as [|f IH]; intros n L.
  - change (10 ^ N.of_nat 0)%N with 1%N in L. assert (n = 0%N) as -> by lia. reflexivity.
  - cbn [dec_aux]. destruct (N.ltb_spec n 10) as [H|H].
    + change [digit_char n] with ([] ++ [digit_char n]).
      rewrite dec_value_snoc, digit_char_value by auto. reflexivity.
    + rewrite dec_value_snoc, digit_char_value by (apply N.mod_lt; lia).
      rewrite IH.
      * symmetry. apply N.div_mod. lia.
      * rewrite Nat2N.inj_succ, N.pow_succ_r' in L. apply N.div_lt_upper_bound; lia.
Qed.

Lemma size_bound n : (n < 10 ^ N.of_nat (S (N.size_nat n)))%N.
Proof.
  destruct n as [|p]; [reflexivity|].
  assert (H : (Npos p < 2 ^ N.of_nat (N.size_nat (Npos p)))%N).
  { clear. simpl. induction p as [p IH|p IH|].
    - cbn [Pos.size_nat]. rewrite Nat2N.inj_succ, N.pow_succ_r'. lia.
    - cbn [Pos.size_nat]. rewrite Nat2N.inj_succ, N.pow_succ_r'. lia.
    - reflexivity. }
  eapply N.lt_le_trans; [exact H|].
  etransitivity; [apply N.pow_le_mono_l with (b := 10%N); lia|].
  apply N.pow_le_mono_r; lia.
Qed.

Lemma to_string_value n : dec_value (to_string n) = n.
Proof. apply dec_aux_value, size_bound. Qed.

Lemma to_string_inj n m : to_string n = to_string m -> n = m.
Proof. intros H. rewrite <- (to_string_value n), <- (to_string_value m). now f_equal. Qed.

Lemma dec_aux_digits f : forall n, forallb is_digit (dec_aux f n) = true.
Proof.
  induction f as [|f IH]; intros n; auto.
  cbn [dec_aux]. destruct (N.ltb_spec n 10) as [H|H].
  - simpl. rewrite digit_char_digit; auto.
  - rewrite forallb_app, IH. simpl. rewrite digit_char_digit; auto. apply N.mod_lt; lia.
Qed.

Lemma to_string_digits n : forallb is_digit (to_string n) = true.
Proof. apply dec_aux_digits. Qed.

Lemma to_string_nonempty n : to_string n <> [].
Proof.
  unfold to_string. cbn [dec_aux]. destruct (n <? 10)%N; [discriminate|].
  intros H. apply app_eq_nil in H. destruct H; discriminate.
Qed.

(** The notation for task relationships: an action is a 'p' followed by its decimal id;
    an operator is '.', '+' or '|' followed by its operands in parentheses.  Operands are
    separated by spaces; extra spaces are allowed, and after an operand that ends in a
    parenthesis the space may be left out. *)
From Coq Require Import String Ascii List Arith ZArith NArith.
From Verif Require Import Base Decimal10 AlgebraModel SerialSpec.
Import ListNotations.
Open Scope list_scope.

Definition op_char (o : opk) : ascii :=
  match o with Seq => "."%char | Alt => "+"%char | Par => "|"%char end.

Definition is_operator (e : expr) : Prop := match e with Act _ => False | Op _ _ => True end.

Inductive writes : expr -> str -> Prop :=
| w_act d :
    d <> [] -> all_digits d -> (dec_value d < 2 ^ 63)%N ->
    writes (Act (Z.of_N (dec_value d))) ("p"%char :: d)
| w_op o cs body :
    writes_list cs body ->
    writes (Op o cs) (op_char o :: "("%char :: body ++ [")"%char])
with writes_list : list expr -> str -> Prop :=
| wl_nil : writes_list [] []
| wl_last c s : writes c s -> writes_list [c] s
| wl_space cs body : writes_list cs body -> writes_list cs (" "%char :: body)
| wl_cons c s cs body :
    writes c s -> writes_list cs body -> writes_list (c :: cs) (s ++ " "%char :: body)
| wl_cons_op c s cs body :
    is_operator c -> writes c s -> writes_list cs body -> writes_list (c :: cs) (s ++ body).

(** Replacing every action by an expression. *)
Fixpoint bind (g : Z -> expr) (e : expr) : expr :=
  match e with
  | Act a => g a
  | Op o cs => Op o (map (bind g) cs)
  end.

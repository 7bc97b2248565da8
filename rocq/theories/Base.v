(** Common vocabulary: byte strings and the few [std::string] operations used
    all over OpenUxAS.  These model the C++ standard library, not /repo code. *)
From Coq Require Import String Ascii List Arith Lia Bool ZArith.
Import ListNotations.
Open Scope list_scope.

(** A [std::string]: a finite sequence of bytes. *)
Definition str := list ascii.

(** String literals. *)
Definition lit (s : string) : str := list_ascii_of_string s.

(** [std::string::find(char)]: index of the first occurrence
    ([None] stands for [npos]). *)
Fixpoint find_char (c : ascii) (s : str) : option nat :=
  match s with
  | [] => None
  | x :: s' => if Ascii.eqb x c then Some 0
               else match find_char c s' with
                    | Some n => Some (S n)
                    | None => None
                    end
  end.

(** [std::string::find(char, pos)]. *)
Definition find_char_from (c : ascii) (pos : nat) (s : str) : option nat :=
  match find_char c (skipn pos s) with
  | Some n => Some (pos + n)
  | None => None
  end.

(** [std::string::substr(pos, len)] for [pos <= size()]. *)
Definition substr (pos len : nat) (s : str) : str := firstn len (skipn pos s).

(** [p] is a prefix of [s]. *)
Fixpoint is_prefix (p s : str) : bool :=
  match p, s with
  | [], _ => true
  | _ :: _, [] => false
  | a :: p', b :: s' => Ascii.eqb a b && is_prefix p' s'
  end.

(** [std::string::find(str)]: index of the first occurrence of [p] in [s]. *)
Fixpoint find_sub (p s : str) : option nat :=
  if is_prefix p s then Some 0
  else match s with
       | [] => None
       | _ :: s' => match find_sub p s' with
                    | Some n => Some (S n)
                    | None => None
                    end
       end.

(** Equality of strings, as [operator==]. *)
Definition str_eqb (a b : str) : bool :=
  if list_eq_dec ascii_dec a b then true else false.

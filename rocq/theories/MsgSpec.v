(** Specification vocabulary for the message text formats.
    Nothing here refers to the model. *)
From Coq Require Import String Ascii List Arith.
From Verif Require Import Base.
Import ListNotations.
Open Scope list_scope.

(** Pieces joined by a one-byte separator. *)
Fixpoint join (d : ascii) (l : list str) : str :=
  match l with
  | [] => []
  | [x] => x
  | x :: l' => x ++ d :: join d l'
  end.

(** Wire text of an attributed message:
    address $ contentType|descriptor|group|entity|service $ payload. *)
Definition wire_text (address contentType descriptor group entity service payload : str) : str :=
  join "$"%char
    [address; join "|"%char [contentType; descriptor; group; entity; service]; payload].

(** [c] does not occur in [s]. *)
Definition free_of (c : ascii) (s : str) : Prop := ~ In c s.

(** A field is clean if it contains neither delimiter. *)
Definition clean (s : str) : Prop := free_of "$"%char s /\ free_of "|"%char s.

(** [p] occurs in [s]. *)
Definition occurs (p s : str) : Prop := exists a b, s = a ++ p ++ b.

(** [pre] is the text in front of the first occurrence of [p] in [pre ++ p ++ post]. *)
Definition first_occurrence (p pre post : str) : Prop :=
  forall a b, pre ++ p ++ post = a ++ p ++ b -> length pre <= length a.

(** Left-most, non-overlapping replacement of [p] by [q]. *)
Inductive replaced (p q : str) : str -> str -> Prop :=
| replaced_none s : ~ occurs p s -> replaced p q s s
| replaced_some pre post out :
    first_occurrence p pre post ->
    replaced p q post out ->
    replaced p q (pre ++ p ++ post) (pre ++ q ++ out).

(** What is meant by escaping a text for XML. *)
From Coq Require Import List String Ascii.
Import ListNotations.
Open Scope list_scope.

Notation chars s := (list_ascii_of_string s%string).
Definition quote : ascii := Ascii.ascii_of_nat 34.
Definition apos : ascii := Ascii.ascii_of_nat 39.

(** As XML has it: the five characters are written as entities. *)
Definition entity_of (c : ascii) : list ascii :=
  if ascii_dec c "&" then chars "&amp;" else if ascii_dec c "<" then chars "&lt;" else if ascii_dec c ">" then chars "&gt;"
  else if ascii_dec c quote then chars "&quot;" else if ascii_dec c apos then chars "&apos;" else [c].
Definition escaped (t : list ascii) : list ascii := flat_map entity_of t.
(** Only quotes and apostrophes. *)
Definition escaped_quotes (t : list ascii) : list ascii :=
  flat_map (fun c => if ascii_dec c quote then chars "&quot;" else if ascii_dec c apos then chars "&apos;" else [c]) t.

Definition contains (p t : list ascii) : Prop := exists a b, t = a ++ p ++ b.

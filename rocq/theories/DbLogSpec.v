(** What a user expects of the message log.  Nothing here refers to how rows are written. *)
From Coq Require Import String Ascii List NArith.
From Verif Require Import Base Decimal10 DbLogModel.
Import ListNotations.
Open Scope list_scope.

(** A text with no apostrophe and no zero byte. *)
Definition clean (t : str) : Prop := ~ In "'"%char t /\ ~ In Ascii.zero t.

(** The texts of the envelope of a message are clean. *)
Definition clean_envelope (m : message) : Prop :=
  clean (descriptor m) /\ clean (group m) /\ clean (entity m) /\ clean (service m).

(** The row a message is to be found as: the time it was handled at, its type, where it is from,
    and its XML text. *)
Definition row_of (now : N) (m : message) : list str :=
  [to_string now; descriptor m; group m; entity m; service m; xml m].

(** A text with none of the signs that mean something to SQL outside of quotes. *)
Definition harmless (t : str) : Prop :=
  forall c, In c t -> ~ In c [Ascii.zero; "'"%char; """"%char; ";"%char; "["%char; "`"%char;
                              "-"%char; "*"%char].

(** An XML text with one apostrophe in it, as in a name like Earl's, or with a zero byte. *)
Definition spoilt (t : str) : Prop :=
  (exists a b, t = a ++ "'"%char :: b /\ clean a /\ harmless b) \/
  (exists a b, t = a ++ Ascii.zero :: b /\ clean a).

(** The rows the log has for the messages received: one for each message with clean texts, if
    SQLite could write it; none for a message with a spoilt text. *)
Inductive Logged : list event -> list (list str) -> Prop :=
| LNone : Logged [] []
| LRow evs rows e :
    Logged evs rows -> writes (with_ e) = true -> clean_envelope (msg e) -> clean (xml (msg e)) ->
    Logged (evs ++ [e]) (rows ++ [row_of (at_ e) (msg e)])
| LSpoilt evs rows e :
    Logged evs rows -> clean_envelope (msg e) -> spoilt (xml (msg e)) ->
    Logged (evs ++ [e]) rows
| LFull evs rows e :
    Logged evs rows -> writes (with_ e) = false -> Logged (evs ++ [e]) rows.

(** The files of a disk under other names than [p]. *)
Definition others (p : path) (d : disk) : disk :=
  filter (fun x => negb (path_eqb (fst x) p)) d.

(** What is on the disk after the first steps of [es]. *)
Definition disk_after (d : disk) (es : list effect) : disk := fold_left apply es d.

(** What a user expects of the process log.  Nothing here refers to how records are handed on or
    written. *)
From Coq Require Import String Ascii List Bool NArith.
From Verif Require Import Base Decimal10 DbLogModel DbLogSpec LogManagerModel.
Import ListNotations.
Open Scope list_scope.

Definition same (a b : str) : bool := if list_eq_dec ascii_dec a b then true else false.

(** A record of severity [s] is wanted by a logger of threshold [t]. *)
Definition wants (t s : level) : bool :=
  match t, s with
  | Debug, _ => true
  | Info, Debug => false | Info, _ => true
  | Warning, (Debug | Info) => false | Warning, _ => true
  | Error, Error => true | Error, _ => false
  end.

(** What a logger of type [k] and name [n] is to get while the operations [ops] are done, its
    threshold being [t] at first: every record that is severe enough, until it is removed. *)
Fixpoint gets (k n : str) (t : level) (ops : list op) : list record :=
  match ops with
  | [] => []
  | o :: rest =>
      match o with
      | Add _ _ _ works notice =>
          (if works && wants t Info then [{| severity := Info; text := notice |}] else []) ++
          gets k n t rest
      | Log s x =>
          (if wants t s then [{| severity := s; text := x |}] else []) ++ gets k n t rest
      | RemoveByType k' => if same k k' then [] else gets k n t rest
      | RemoveByName n' => if same n n' then [] else gets k n t rest
      | RemoveByBoth k' n' => if same k k' && same n n' then [] else gets k n t rest
      | SetByType k' t' => gets k n (if same k k' then t' else t) rest
      | SetByName n' t' => gets k n (if same n n' then t' else t) rest
      | SetByBoth k' n' t' => gets k n (if same k k' && same n n' then t' else t) rest
      end
  end.

(** How many loggers were added. *)
Fixpoint adds (ops : list op) : nat :=
  match ops with
  | [] => 0
  | Add _ _ _ true _ :: rest => S (adds rest)
  | _ :: rest => adds rest
  end.

(** A text with each double quote and each apostrophe written as an XML entity. *)
Definition quoted (t : str) : str :=
  flat_map (fun c => if Ascii.eqb c """"%char then lit "&quot;"
                     else if Ascii.eqb c "'"%char then lit "&apos;" else [c]) t.

(** Reading such a text, from left to right; [skip] characters belong to the entity before. *)
Fixpoint unquoted (skip : nat) (t : str) : str :=
  match t with
  | [] => []
  | c :: t' =>
      match skip with
      | S k => unquoted k t'
      | O => if is_prefix (lit "&quot;") t then """"%char :: unquoted 5 t'
             else if is_prefix (lit "&apos;") t then "'"%char :: unquoted 5 t'
             else c :: unquoted 0 t'
      end
  end.

(** A text with no such entity in it. *)
Definition no_entity (t : str) : Prop :=
  forall a b, t <> a ++ lit "&quot;" ++ b /\ t <> a ++ lit "&apos;" ++ b.

(** The row of a record. *)
Definition log_row (threads : bool) (r : head_data) : list str :=
  to_string (time r) ::
  (if threads then [thread r] else []) ++
  [match severity (record_of r) with
   | Debug => lit " DEBUG: " | Info => lit " INFO:  "
   | Warning => lit " WARN:  " | Error => lit " ERROR: "
   end; quoted (text (record_of r))].

(** A record SQLite can write as one statement: no zero byte in its text. *)
Definition ordinary (e : entry) : Prop :=
  clean (thread (head e)) /\ ~ In Ascii.zero (text (record_of (head e))) /\
  writes (luck_of e) = true.

(** [f] is one of the files [ps]. *)
Definition among (ps : list path) (f : path * option (list (list str))) : bool :=
  existsb (path_eqb (fst f)) ps.

Definition outside (ps : list path) (d : disk) : disk := filter (fun f => negb (among ps f)) d.
Definition inside (ps : list path) (d : disk) : disk := filter (among ps) d.

(** The rows of files, one file after the other. *)
Definition rows_of (d : disk) : list (list str) :=
  flat_map (fun f => match snd f with Some l => l | None => [] end) d.

(** The rows [rows] in files of [l] rows each: all but the last are full, the last is not. *)
Definition divided (l : nat) (rows : list (list str)) (files : list (list (list str))) : Prop :=
  exists full rest, files = full ++ [rest] /\ concat files = rows /\
    Forall (fun f => length f = l) full /\ length rest < l.

(** The log of the process (Utilities/UxAS_LogManager.h and .cpp) and the database logger it uses
    (Utilities/UxAS_HeadLogDataDatabaseLogger.cpp with UxAS_XmlUtil.h): loggers are added, removed
    and given severity thresholds, and a record goes to every logger whose threshold it reaches;
    a database logger escapes the text and puts the record in as a row (DbLogModel).

    Every operation holds the mutex while it works, so a run of many threads is a list of
    operations.  The record is one text: the arguments of a log call put together.  The compile
    time switches of UxAS_Log.h, the console logger's output, the first creation of the single
    instance, and exceptions thrown by a logger are left out. *)
From Coq Require Import String Ascii List Bool NArith.
From Verif Require Import Base Decimal10 DbLogModel.
Import ListNotations.
Open Scope list_scope.

(** UxAS_LogSeverityLevel.h:29-35. *)
Inductive level := Debug | Info | Warning | Error.
Definition rank (l : level) : N :=
  match l with Debug => 1 | Info => 2 | Warning => 3 | Error => 4 end%N.

(** A logger in the list: its type, its name, its threshold (UxAS_LoggerBase.h:195-204).
    [number] says when it was added; it is not in the code and nothing depends on it. *)
Record sink := { kind : str; name : str; threshold : level; number : nat }.

(** The loggers and how many were ever added. *)
Record manager := { sinks : list sink; added : nat }.
Definition no_loggers : manager := {| sinks := []; added := 0 |}.

(** A record as a logger gets it. *)
Record record := { severity : level; text : str }.

(** The operations; [works] says whether the logger asked for is of a known type, can be
    configured and can open its stream (UxAS_LogManager.cpp:76-84). *)
Inductive op :=
| Add (n k : str) (t : level) (works : bool) (notice : str)
| RemoveByType (k : str) | RemoveByName (n : str) | RemoveByBoth (k n : str)
| SetByType (k : str) (t : level) | SetByName (n : str) (t : level)
| SetByBoth (k n : str) (t : level)
| Log (s : level) (t : str).

(** UxAS_LogManager.h:105-134 and 165-186: the threshold of the manager itself is Debug and is
    never changed, every record passes it. *)
Definition output (r : record) (m : manager) : list (nat * record) :=
  map (fun s => (number s, r))
      (filter (fun s => (rank (threshold s) <=? rank (severity r))%N) (sinks m)).

(** UxAS_LogManager.cpp:154-206. *)
Definition remove (k n : str) (byKind byName : bool) (m : manager) : manager :=
  {| sinks := filter (fun s => negb (
       if byKind && byName then str_eqb (kind s) k && str_eqb (name s) n
       else if byKind then str_eqb (kind s) k
       else if byName then str_eqb (name s) n else false)) (sinks m);
     added := added m |}.

(** UxAS_LogManager.cpp:209-247. *)
Definition set_level (k n : str) (t : level) (byKind byName : bool) (m : manager) : manager :=
  {| sinks := map (fun s =>
       if (if byKind && byName then str_eqb (kind s) k && str_eqb (name s) n
           else if byKind then str_eqb (kind s) k
           else if byName then str_eqb (name s) n else false)
       then {| kind := kind s; name := name s; threshold := t; number := number s |}
       else s) (sinks m);
     added := added m |}.

(** UxAS_LogManager.cpp:72-151 and UxAS_LogManager.h:105-134. *)
Definition step (m : manager) (o : op) : manager * list (nat * record) :=
  match o with
  | Add n k t works notice =>
      if works
      then let m' := {| sinks := sinks m ++ [{| kind := k; name := n; threshold := t;
                                                number := added m |}];
                        added := S (added m) |} in
           (m', output {| severity := Info; text := notice |} m')
      else (m, [])
  | RemoveByType k => (remove k [] true false m, [])
  | RemoveByName n => (remove [] n false true m, [])
  | RemoveByBoth k n => (remove k n true true m, [])
  | SetByType k t => (set_level k [] t true false m, [])
  | SetByName n t => (set_level [] n t false true m, [])
  | SetByBoth k n t => (set_level k n t true true m, [])
  | Log s t => (m, output {| severity := s; text := t |} m)
  end.

(** * The text of a record in a database log *)

(** [std::string::rfind] of a character, and [replace] of it: the text before the last one, the
    new text, the text after. *)
Fixpoint replace_last (c : ascii) (new t : str) : option str :=
  match t with
  | [] => None
  | x :: t' => match replace_last c new t' with
               | Some r => Some (x :: r)
               | None => if Ascii.eqb x c then Some (new ++ t') else None
               end
  end.

(** A loop of UxAS_XmlUtil.h:40-49 and its like, [fuel] times at most: [None] if it is still going
    on. *)
Fixpoint replace_loop (fuel : nat) (c : ascii) (new t : str) : option str :=
  match fuel with
  | O => None
  | S f => match replace_last c new t with
           | None => Some t
           | Some t' => replace_loop f c new t'
           end
  end.

(** UxAS_XmlUtil.h:39-60; one round for each character is enough, see
    [LogManagerProofs.replace_loop_all]. *)
Definition escapeXmlQuoteApostropheChars (t : str) : option str :=
  match replace_loop (S (length t)) dquote (lit "&quot;") t with
  | Some t1 => replace_loop (S (length t1)) apostrophe (lit "&apos;") t1
  | None => None
  end.

(** UxAS_XmlUtil.h:63-93, [fuel] rounds of each loop at most. *)
Definition escapeXmlAmpersandLessThanGreaterThanChars (fuel : nat) (t : str) : option str :=
  match replace_loop fuel "&" (lit "&amp;") t with
  | None => None
  | Some t1 => match replace_loop fuel "<" (lit "&lt;") t1 with
               | None => None
               | Some t2 => replace_loop fuel ">" (lit "&gt;") t2
               end
  end.

(** * The rows of a database log *)

(** UxAS_LogManager.h:48-58. *)
Definition level_text (l : level) : str :=
  match l with
  | Debug => lit " DEBUG: " | Info => lit " INFO:  "
  | Warning => lit " WARN:  " | Error => lit " ERROR: "
  end.

(** A record with its time and the id of the thread it is from (UxAS_LoggerBase.h:33-41). *)
Record head_data := { time : N; thread : str; record_of : record }.

(** The columns time_ms, threadId if thread ids are logged, severityLevel and text
    (UxAS_HeadLogDataDatabaseLogger.cpp:48-66). *)
Definition log_columns (threads : bool) : list column :=
  if threads then [NotNull; NotNull; NotNull; NotNull] else [NotNull; NotNull; NotNull].

(** UxAS_HeadLogDataDatabaseLogger.cpp:87-92. *)
Definition head_text (threads : bool) (r : head_data) : option str :=
  match escapeXmlQuoteApostropheChars (text (record_of r)) with
  | None => None
  | Some msg =>
      Some (lit "'" ++ to_string (time r) ++ lit "','" ++
            (if threads then thread r ++ lit "','" else []) ++
            level_text (severity (record_of r)) ++ lit "','" ++ msg ++ lit "'")
  end.

(** A record given to a database log, with what the surroundings do. *)
Record entry := { head : head_data; luck_of : luck }.

Section Log.
  Context (other : str -> option (list (list str) -> list (list str))).

  (** UxAS_HeadLogDataDatabaseLogger.cpp:85-94.  The clock read for the name of a next file is
      taken to be the time of the record.  No effect and no state if escaping does not end. *)
  Definition put (threads : bool) (h : option helper) (e : entry) : option helper * list effect :=
    match h, head_text threads (head e) with
    | Some h, Some values => insert other (time (head e)) (luck_of e) values h
    | _, _ => (None, [])
    end.
End Log.

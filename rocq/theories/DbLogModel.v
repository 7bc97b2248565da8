(** The message log of MessageLoggerDataService (Services/MessageLoggerDataService.cpp) and the
    database log writer below it (Utilities/UxAS_DatabaseLoggerHelper.cpp,
    UxAS_DatabaseLogger.cpp, UxAS_FileLogger.cpp, UxAS_LoggerBase.h): a log file is opened, each
    row is put in by one SQL statement in a transaction of its own, and after a number of rows
    the next file is begun.  What is on the disk is the effect of a list of steps (a file removed,
    made, given its table, given rows), so a crash may be put between any two of them.

    SQLite is modelled as far as the statements of the log go: a statement is text; a text whose
    quotes do not close is refused; a list of tuples of quoted strings and NULL is stored if it
    fits the columns; what any other text does is left open (the parameter [other]).  Column
    affinity (a text of digits becomes a number in an INTEGER column) is left out, and so is the
    number SQLite gives each row: the id column is given as NULL, no row is ever removed, so the
    number of a row is its place.  The clock, and whether SQLite can open a file, make the table and write a row, are
    inputs.  A transaction is taken to be atomic.  Left out: console messages, closing that fails
    (a destructor does not throw), more than four thousand million files, the file name as text
    (it is the pair of the number of the file and the time put into its name). *)
From Coq Require Import String Ascii List Bool NArith ZArith.
From Verif Require Import Base Decimal10.
Import ListNotations.
Open Scope list_scope.

(** * SQLite reads a statement *)

Definition apostrophe : ascii := "'"%char.
Definition dquote : ascii := """"%char.
Definition nul : ascii := Ascii.zero.

(** What the tokens of a text come to: every quote is closed, one is not, or there is a comment,
    a second statement or another kind of quote (not modelled further).  Models SQLite's
    tokenizer (sqlite3GetToken), not /repo code. *)
Inductive lexed := Plain | Illegal | Strange.
Inductive mode := Out | InQuote | InDouble.

Definition is (c d : ascii) : bool := Ascii.eqb c d.
Definition next_is (c : ascii) (t : str) : bool := match t with d :: _ => is d c | [] => false end.

(** SQLite's tokenizer, not /repo code: a doubled apostrophe within quotes closes and opens them
    again. *)
Fixpoint lex (m : mode) (t : str) : lexed :=
  match t with
  | [] => match m with Out => Plain | _ => Illegal end
  | c :: t' =>
      match m with
      | InQuote => lex (if is c apostrophe then Out else InQuote) t'
      | InDouble => lex (if is c dquote then Out else InDouble) t'
      | Out =>
          if is c apostrophe then lex InQuote t'
          else if is c dquote then lex InDouble t'
          else if is c ";" || is c "[" || is c "`" then Strange
          else if is c "-" && next_is "-" t' then Strange
          else if is c "/" && next_is "*" t' then Strange
          else lex Out t'
      end
  end.

(** A value of a tuple. *)
Inductive value := Null | Text (t : str).

(** Where SQLite's parser is in the tuples after VALUES; not /repo code. *)
Inductive place :=
| WantValue (row : list value) (rows : list (list value))
| InText (s : str) (row : list value) (rows : list (list value))
| Closed (s : str) (row : list value) (rows : list (list value))
| InWord (w : str) (row : list value) (rows : list (list value))
| Done (rows : list (list value))
| Again (rows : list (list value))
| Off.

Definition is_null_word (w : str) : bool := str_eqb w (lit "NULL").
Definition is_capital (c : ascii) : bool :=
  (65 <=? N_of_ascii c)%N && (N_of_ascii c <=? 90)%N.

(** SQLite's grammar of the VALUES clause, for tuples of strings and NULL without blanks; not
    /repo code. *)
Definition read_char (p : place) (c : ascii) : place :=
  match p with
  | WantValue row rows =>
      if is c apostrophe then InText [] row rows
      else if is_capital c then InWord [c] row rows else Off
  | InText s row rows =>
      if is c apostrophe then Closed s row rows else InText (s ++ [c]) row rows
  | Closed s row rows =>
      if is c apostrophe then InText (s ++ [c]) row rows
      else if is c "," then WantValue (row ++ [Text s]) rows
      else if is c ")" then Done (rows ++ [row ++ [Text s]]) else Off
  | InWord w row rows =>
      if is_capital c then InWord (w ++ [c]) row rows
      else if negb (is_null_word w) then Off
      else if is c "," then WantValue (row ++ [Null]) rows
      else if is c ")" then Done (rows ++ [row ++ [Null]]) else Off
  | Done rows => if is c "," then Again rows else Off
  | Again rows => if is c "(" then WantValue [] rows else Off
  | Off => Off
  end.

Definition read_tuples (t : str) : option (list (list value)) :=
  match fold_left read_char t (WantValue [] []) with Done rows => Some rows | _ => None end.

(** A column of the table: the key SQLite numbers itself, or one that must not be NULL. *)
Inductive column := Key | NotNull.
Inductive fitting := Fits (row : list str) | Misfit | OwnKey.

(** How a tuple fits the columns (SQLite, not /repo code): NULL for the key is a new number,
    NULL elsewhere or a wrong number of values is an error. *)
Fixpoint fit (cols : list column) (row : list value) : fitting :=
  match cols, row with
  | [], [] => Fits []
  | Key :: cols', Null :: row' => fit cols' row'
  | Key :: _, Text _ :: _ => OwnKey
  | NotNull :: cols', Text t :: row' =>
      match fit cols' row' with Fits r => Fits (t :: r) | x => x end
  | _, _ => Misfit
  end.

Inductive result := Stored (rows : list (list str)) | Refused | Open_.

Fixpoint fit_all (cols : list column) (rows : list (list value)) : result :=
  match rows with
  | [] => Stored []
  | row :: rows' =>
      match fit cols row, fit_all cols rows' with
      | Fits r, Stored l => Stored (r :: l)
      | Misfit, Stored _ => Refused
      | Fits _, Refused => Refused
      | Misfit, Refused => Refused
      | _, _ => Open_
      end
  end.

(** [SQLite::Database::exec] takes a C string: it ends at the first zero byte. *)
Fixpoint c_string (t : str) : str :=
  match t with [] => [] | c :: t' => if is c nul then [] else c :: c_string t' end.

Section Log.
  (** What SQLite makes of any other text: a change of the rows of the table, or an error. *)
  Context (other : str -> option (list (list str) -> list (list str))).

  (** The statement "INSERT INTO … VALUES (" + values + ")" (UxAS_DatabaseLoggerHelper.cpp:134)
      from the opening bracket of the values on. *)
  Definition execute (cols : list column) (values : str) :
    option (list (list str) -> list (list str)) :=
    let t := c_string (values ++ [")"%char]) in
    match lex Out t with
    | Illegal => None
    | Strange => other t
    | Plain =>
        match read_tuples t with
        | Some rows => match fit_all cols rows with
                       | Stored l => Some (fun table => table ++ l)
                       | Refused => None
                       | Open_ => other t
                       end
        | None => other t
        end
    end.

  (** * The disk *)

  (** A log file: its number and the time in its name, if any
      (UxAS_DatabaseLoggerHelper.cpp:64-65). *)
  Definition path := (N * option N)%type.
  Definition path_eqb (p q : path) : bool :=
    (fst p =? fst q)%N &&
    match snd p, snd q with
    | Some a, Some b => (a =? b)%N | None, None => true | _, _ => false
    end.

  (** The files in the order they were made; a file without its table is [None]. *)
  Definition disk := list (path * option (list (list str))).

  (** What a log does to the disk, or to a text file: line [l] in file [n]. *)
  Inductive effect :=
  | Remove (p : path) | Create (p : path) | MakeTable (p : path)
  | Commit (p : path) (f : list (list str) -> list (list str)) | Line (n : N) (l : str).

  Definition on_file (p : path) (f : option (list (list str)) -> option (list (list str)))
             (d : disk) : disk :=
    map (fun x => if path_eqb (fst x) p then (fst x, f (snd x)) else x) d.

  Definition apply (d : disk) (e : effect) : disk :=
    match e with
    | Remove p => filter (fun x => negb (path_eqb (fst x) p)) d
    | Create p => d ++ [(p, None)]
    | MakeTable p => on_file p (fun _ => Some []) d
    | Commit p f => on_file p (option_map f) d
    | Line _ _ => d
    end.

  (** * The log writer *)

  (** The fields of DatabaseLoggerHelper (UxAS_DatabaseLoggerHelper.h:60-80) that matter. *)
  Record helper := { limit : N; stamped : bool; cols : list column;
                     file_count : N; count : N; opened : bool; db : option path }.

  (** UxAS_DatabaseLoggerHelper.cpp:36-52 and the initial values at
      UxAS_DatabaseLoggerHelper.h:68-75.  The check of the table definition always succeeds for
      the two definitions in the code. *)
  Definition configured (limit : N) (stamped : bool) (cols : list column) : helper :=
    {| limit := limit; stamped := stamped; cols := cols; file_count := 0; count := 1;
       opened := false; db := None |}.

  (** How opening a file goes: well, the file cannot be opened, or its table cannot be made. *)
  Inductive opening := Opens | NoFile | NoTable.

  (** UxAS_DatabaseLoggerHelper.cpp:55-94. *)
  Definition openStream (now : N) (o : opening) (h : helper) : helper * list effect * bool :=
    let n := (file_count h + 1)%N in
    let p := (n, if stamped h then Some now else None) in
    let h' d ok := {| limit := limit h; stamped := stamped h; cols := cols h; file_count := n;
                      count := count h; opened := ok; db := d |} in
    match o with
    | Opens => (h' (Some p) true, [Remove p; Create p; MakeTable p], true)
    | NoFile => (h' (db h) (opened h), [Remove p], false)
    | NoTable => (h' (Some p) (opened h), [Remove p; Create p], false)
    end.

  (** UxAS_DatabaseLoggerHelper.cpp:97-121. *)
  Definition closeStream (h : helper) : helper :=
    {| limit := limit h; stamped := stamped h; cols := cols h; file_count := file_count h;
       count := count h; opened := opened h; db := None |}.

  Definition with_count (n : N) (h : helper) : helper :=
    {| limit := limit h; stamped := stamped h; cols := cols h; file_count := file_count h;
       count := n; opened := opened h; db := db h |}.

  (** UxAS_DatabaseLoggerHelper.cpp:154-182. *)
  Definition closeAndOpenStream (now : N) (o : opening) (h : helper) : helper * list effect :=
    if (limit h <? count h)%N
    then let '(h', es, _) := openStream now o (closeStream h) in (with_count 1 h', es)
    else (h, []).

  (** What the surroundings do while a row is put in: whether SQLite can write it, how opening a
      first file and a next file goes. *)
  Record luck := { writes : bool; first : opening; next : opening }.

  (** UxAS_DatabaseLoggerHelper.cpp:124-151.  [None] is the end of the process: with no database
      object the transaction is begun on a null pointer. *)
  Definition insert (now : N) (k : luck) (values : str) (h : helper) :
    option helper * list effect :=
    let '(h1, es1, ok) := if opened h then (h, [], true) else openStream now (first k) h in
    if negb ok then (Some h1, es1) else
    match db h1 with
    | None => (None, es1)
    | Some p =>
        match (if writes k then execute (cols h1) values else None) with
        | None => (Some h1, es1)
        | Some f =>
            let h2 := with_count ((count h1 + 1) mod (2 ^ 32))%N h1 in
            let (h3, es3) := closeAndOpenStream now (next k) h2 in
            (Some h3, es1 ++ Commit p f :: es3)
        end
    end.

  (** * The text log *)

  (** The fields of FileLogger (UxAS_FileLogger.h:78-84, UxAS_LoggerBase.h:200-202). *)
  Record text_log := { t_limit : N; t_thread : bool; t_files : N; t_count : N }.

  (** UxAS_FileLogger.cpp:40-50, for a file that can be opened. *)
  Definition text_open (f : text_log) : text_log :=
    {| t_limit := t_limit f; t_thread := t_thread f; t_files := t_files f + 1;
       t_count := t_count f |}.

  (** UxAS_FileLogger.cpp:73-97 and 100-124: the lines go to the file that is open; after more
      than the limit the next one is begun. *)
  Definition text_put (lines : list str) (f : text_log) : text_log * list effect :=
    let n := (t_count f + 1)%N in
    let f' := if (t_limit f <? n)%N
              then {| t_limit := t_limit f; t_thread := t_thread f; t_files := t_files f + 1;
                      t_count := 1 |}
              else {| t_limit := t_limit f; t_thread := t_thread f; t_files := t_files f;
                      t_count := n |} in
    (f', map (Line (t_files f)) lines).

  (** * The message log service *)

  (** A message as the service gets it: the attributes of its envelope and its XML text. *)
  Record message := { descriptor : str; group : str; entity : str; service : str;
                      attributes : str; xml : str }.

  (** MessageLoggerDataService.h:104-109. *)
  Record logger := { isDatabaseLogger : bool; isFileLogger : bool; db_limit : N; file_limit : N;
                     database : option helper; file : option text_log }.

  (** MessageLoggerDataService.h:104-107. *)
  Definition fresh : logger :=
    {| isDatabaseLogger := true; isFileLogger := false; db_limit := (2 ^ 32 - 1)%N;
       file_limit := 0; database := None; file := None |}.

  (** MessageLoggerDataService.cpp:53-82; [attr] is the attribute LogFileMessageCountLimit.  The
      subscriptions are C05/C06. *)
  Definition configure (attr : option N) (s : logger) : logger :=
    match attr with
    | Some n =>
        if (0 <? n)%N && (n <=? 2 ^ 32 - 1)%N
        then {| isDatabaseLogger := isDatabaseLogger s; isFileLogger := isFileLogger s;
                db_limit := db_limit s; file_limit := n; database := database s;
                file := file s |}
        else s
    | None => s
    end.

  (** The columns id, time_ms, descriptor, groupID, entityID, serviceID, xml
      (MessageLoggerDataService.cpp:98-109). *)
  Definition msg_columns : list column :=
    [Key; NotNull; NotNull; NotNull; NotNull; NotNull; NotNull].

  (** MessageLoggerDataService.cpp:85-150; the boolean is what it returns.  The limit of the text
      log is given where the thread flag is expected (line 132), so its limit is the default. *)
  Definition initialize (now : N) (stamp : bool) (o : opening) (s : logger) :
    logger * list effect * bool :=
    let '(d, es, ok) :=
      if isDatabaseLogger s
      then let '(h, es, ok) := openStream now o (configured (db_limit s) stamp msg_columns) in
           (Some h, es, ok)
      else (database s, [], true) in
    let f :=
      if isFileLogger s
      then Some (text_open {| t_limit := 2000; t_thread := negb (file_limit s =? 0)%N;
                              t_files := 0; t_count := 1 |})
      else file s in
    ({| isDatabaseLogger := isDatabaseLogger s; isFileLogger := isFileLogger s;
        db_limit := db_limit s; file_limit := file_limit s; database := d; file := f |}, es, ok).

  (** The text of MessageLoggerDataService.cpp:161-167. *)
  Definition row_text (now : N) (m : message) : str :=
    lit "NULL,'" ++ to_string now ++ lit "','" ++ descriptor m ++ lit "','" ++ group m ++
    lit "','" ++ entity m ++ lit "','" ++ service m ++ lit "','" ++ xml m ++ lit "'".

  (** UxAS_LoggerBase.h:104-130, for a line of its own; the thread id is left out. *)
  Definition time_lines (now : N) (t : str) : list str :=
    [lit "<MessageData UtcTimeSinceEpoch_ms=""" ++ to_string now ++ lit """/>";
     lit "<!-- " ++ t ++ lit " -->"].

  (** MessageLoggerDataService.cpp:153-179.  [None] is the end of the process. *)
  Definition process (now : N) (k : luck) (m : message) (s : logger) :
    option logger * list effect :=
    let '(d, es) :=
      match database s with
      | Some h => let (h', es) := insert now k (row_text now m) h in (option_map Some h', es)
      | None => (Some None, [])
      end in
    match d with
    | None => (None, es)
    | Some d' =>
        let '(f, es') :=
          match file s with
          | Some f => let (f1, e1) := text_put (time_lines now (attributes m)) f in
                      let (f2, e2) := text_put [xml m] f1 in (Some f2, e1 ++ e2)
          | None => (None, [])
          end in
        (Some {| isDatabaseLogger := isDatabaseLogger s; isFileLogger := isFileLogger s;
                 db_limit := db_limit s; file_limit := file_limit s; database := d'; file := f |},
         es ++ es')
    end.

  (** A received message, with the time and how things go while it is handled. *)
  Record event := { at_ : N; with_ : luck; msg : message }.

  Definition step (s : option logger) (e : event) : option logger * list effect :=
    match s with
    | None => (None, [])
    | Some s => process (at_ e) (with_ e) (msg e) s
    end.
End Log.

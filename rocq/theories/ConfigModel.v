(** Model of the configuration (Utilities/UxAS_ConfigurationManager.cpp and .h): loading and unloading (94-171), the default of a service
    (172-198), the enabled bridges and services (200-260) and the values for the entity (262-404).

    A document is the list of its top nodes as pugixml gives them; text and comments are nodes with an empty name.  Whether a text can be
    parsed is decided by pugixml, so that a load is given the document or none.  How pugixml turns the value of an attribute into an
    unsigned number is a parameter; into a truth value it looks at the first character.  Left out: directories, the start time, and utility
    nodes (with AFRL_INTERNAL_ENABLED only).  Of the loggers only the level set last is kept; see [LogManagerModel]. *)
From Coq Require Import List NArith String Ascii Bool.
From Verif Require Import Decimal10.
Import ListNotations.
Open Scope string_scope.

Inductive node := Node (name : string) (attrs : list (string * string)) (kids : list node).
Definition nd_name (x : node) : string := let 'Node s _ _ := x in s.
Definition nd_attrs (x : node) : list (string * string) := let 'Node _ a _ := x in a.
Definition nd_kids (x : node) : list node := let 'Node _ _ k := x in k.

(** pugixml: the first child with a name, the first attribute with a name *)
Definition child (l : list node) (s : string) : option node := List.find (fun x => nd_name x =? s) l.
Definition attribute (x : node) (s : string) : option string :=
  match List.find (fun a => fst a =? s) (nd_attrs x) with Some a => Some (snd a) | None => None end.
(** pugixml, xml_attribute::as_bool: 1*, t*, T*, y*, Y* *)
Definition as_bool (s : string) : bool :=
  match s with
  | String c _ => existsb (Ascii.eqb c) ["1"; "t"; "T"; "y"; "Y"]%char
  | EmptyString => false
  end.

Inductive level := Debug | Info | Warning | Error.
(** UxAS_LogSeverityLevel.h:40-43 *)
Definition level_of (s : string) : option level :=
  if s =? "DEBUG" then Some Debug else if s =? "INFO" then Some Info else if s =? "WARN" then Some Warning else if s =? "ERROR" then Some Error else None.

Record config := {
  base : list node; loaded : bool;
  bridges : list node; bridges_built : bool;
  services : list node; services_built : bool;
  entity : N; kind : string;
  console : option level; main_db : option level; main_file : option level;
  delay : N; duration : N; thread : bool; stamp : bool
}.
(** UxAS_ConfigurationManager.cpp:44-61 and .h: the members as they start *)
Definition fresh : config :=
  {| base := []; loaded := false; bridges := []; bridges_built := false; services := []; services_built := false;
     entity := 0; kind := ""; console := None; main_db := None; main_file := None; delay := 0; duration := 4294967295;
     thread := false; stamp := true |}.

Section Config.
  Context (as_uint : string -> N).

  (** UxAS_ConfigurationManager.cpp:262-404 *)
  Definition set_entity (c : config) (doc : list node) : config * bool :=
    match child doc "UxAS" with
    | None => (c, true)
    | Some u =>
        match attribute u "EntityID" with
        | None => (c, false)
        | Some i =>
            let id := as_uint i in
            match attribute u "EntityType" with
            | None =>
                ({| base := base c; loaded := loaded c; bridges := bridges c; bridges_built := bridges_built c; services := services c;
                    services_built := services_built c; entity := id; kind := kind c; console := console c; main_db := main_db c;
                    main_file := main_file c; delay := delay c; duration := duration c; thread := thread c; stamp := stamp c |}, false)
            | Some t =>
                let con := match attribute u "ConsoleLoggerSeverityLevel" with Some s => level_of s | None => None end in
                let fil := match attribute u "MainFileLoggerSeverityLevel" with Some s => level_of s | None => None end in
                ({| base := base c; loaded := loaded c; bridges := bridges c; bridges_built := bridges_built c; services := services c;
                    services_built := services_built c; entity := id; kind := t;
                    console := match con with Some l => Some l | None => console c end;
                    main_db := match fil with Some Debug => Some Info | Some l => Some l | None => main_db c end;
                    main_file := match fil with Some l => Some l | None => main_file c end;
                    delay := match attribute u "StartDelay_ms" with Some s => as_uint s | None => delay c end;
                    duration := match attribute u "RunDuration_s" with Some s => as_uint s | None => duration c end;
                    thread := match attribute u "isLoggingThreadId" with Some s => as_bool s | None => thread c end;
                    stamp := match attribute u "isDataTimestamp" with Some s => as_bool s | None => stamp c end |}, true)
            end
        end
    end.

  Definition with_base (c : config) (d : list node) (l b s : bool) : config :=
    {| base := d; loaded := l; bridges := bridges c; bridges_built := b; services := services c; services_built := s;
       entity := entity c; kind := kind c; console := console c; main_db := main_db c; main_file := main_file c;
       delay := delay c; duration := duration c; thread := thread c; stamp := stamp c |}.

  (** UxAS_ConfigurationManager.cpp:118-171, for the base file or text; [None] if it cannot be read or parsed *)
  Definition load (c : config) (text : option (list node)) : config * bool :=
    let c1 := if loaded c then with_base c [] false false false else c in
    match text with
    | None => (with_base c1 [] false (bridges_built c1) (services_built c1), false)
    | Some d =>
        let c2 := with_base c1 d true (bridges_built c1) (services_built c1) in
        let '(c3, ok) := set_entity c2 d in
        if ok then (c3, true) else (with_base c3 (base c3) false (bridges_built c3) (services_built c3), false)
    end.

  (** UxAS_ConfigurationManager.cpp:94-116 *)
  Definition unload (c : config) : config :=
    {| base := []; loaded := false; bridges := []; bridges_built := false; services := []; services_built := false;
       entity := entity c; kind := kind c; console := console c; main_db := main_db c; main_file := main_file c;
       delay := delay c; duration := duration c; thread := thread c; stamp := stamp c |}.

  (** UxAS_ConfigurationManager.cpp:238-260 *)
  Definition populate (c : config) (name : string) : node :=
    Node "UxAS" [("FormatVersion", "1.0"); ("EntityID", string_of_list_ascii (to_string (entity c))); ("EntityType", kind c)]
      (match child (base c) "UxAS" with Some u => List.filter (fun x => nd_name x =? name) (nd_kids u) | None => [] end).

  (** UxAS_ConfigurationManager.cpp:200-217 *)
  Definition get_bridges (c : config) : config * option node :=
    let c1 := if loaded c && negb (bridges_built c) then
      {| base := base c; loaded := loaded c; bridges := [populate c "Bridge"]; bridges_built := true; services := services c;
         services_built := services_built c; entity := entity c; kind := kind c; console := console c; main_db := main_db c;
         main_file := main_file c; delay := delay c; duration := duration c; thread := thread c; stamp := stamp c |} else c in
    (c1, child (bridges c1) "UxAS").
  (** UxAS_ConfigurationManager.cpp:219-236 *)
  Definition get_services (c : config) : config * option node :=
    let c1 := if loaded c && negb (services_built c) then
      {| base := base c; loaded := loaded c; bridges := bridges c; bridges_built := bridges_built c; services := [populate c "Service"];
         services_built := true; entity := entity c; kind := kind c; console := console c; main_db := main_db c;
         main_file := main_file c; delay := delay c; duration := duration c; thread := thread c; stamp := stamp c |} else c in
    (c1, child (services c1) "UxAS").
  (** UxAS_ConfigurationManager.cpp:172-198: the node that is printed *)
  Definition default_service (c : config) (type : string) : option node :=
    if loaded c then
      match child (base c) "UxAS" with
      | Some u => List.find (fun x => (nd_name x =? "Service") &&
                    ((type =? "") || (type =? match attribute x "Type" with Some s => s | None => "" end))) (nd_kids u)
      | None => None
      end
    else None.

  (** What can be asked of the configuration. *)
  Inductive request := Load (text : option (list node)) | Unload | AskBridges | AskServices.
  Definition step (c : config) (r : request) : config :=
    match r with
    | Load t => fst (load c t)
    | Unload => unload c
    | AskBridges => fst (get_bridges c)
    | AskServices => fst (get_services c)
    end.
  Definition after (rs : list request) : config := fold_left step rs fresh.
End Config.

(** Model of the program's start (src/cpp/UxAS_Main.cpp): the command line (85-123) and the steps from the configuration to the end (185-290).

    A command line is the list of the words after the name of the program; the word behind the last one is the null pointer.  Whether a step
    succeeds is given by the surroundings, a configuration by its run duration or none if it cannot be loaded.  What goes on in the steps
    and while the services run is modelled elsewhere ([ConfigModel], [ServiceMgrModel], [BridgeMgrModel]).  Left out: the loggers, the text
    of the version, the network server not being made (make_unique never gives null), the destruction of objects when main returns early. *)
From Coq Require Import String Ascii ZArith NArith Bool List.
From Verif Require Import Base Decimal10.
Import ListNotations.
Open Scope list_scope.

(** What the program does, as far as its user can tell. *)
Inductive act :=
| Version | Refused (word : str) | LoadConfig (path : str) | ConfigureServer | StartServer | ConfigureServices | StartServices | StartBridges
| RunServices (seconds : Z) | EndServices | EndServer.
Inductive ending := Returns (code : Z) | Undefined.

(** The results of the steps (UxAS_Main.cpp:188, 213, 223, 236, 246, 259). *)
Record surroundings := {
  w_load : str -> option Z; w_server_configured : bool; w_server_started : bool;
  w_services_configured : bool; w_services_started : bool; w_bridges : bool }.

(** UxAS_Main.cpp:42-44: ARG_CFG_PATH, ARG_VERSION, ARG_RUN_UNTIL; 85: the default path *)
Definition arg_cfg : str := lit "-cfgPath".
Definition arg_version : str := lit "-version".
Definition arg_until : str := lit "-runUntil".
Definition default_cfg : str := lit "cfg.xml".

(** UxAS_Main.cpp:98: [std::atoi].  White space, a sign, digits; the rest is ignored.  A value that is no int is undefined behaviour. *)
Definition is_space (c : ascii) : bool := let n := N_of_ascii c in ((n =? 32) || ((9 <=? n) && (n <=? 13)))%N.
Fixpoint skip_space (s : str) : str := match s with c :: s' => if is_space c then skip_space s' else s | [] => [] end.
Fixpoint digits_value (acc : Z) (s : str) : Z :=
  match s with
  | c :: s' => if is_digit c then digits_value (10 * acc + (Z.of_N (N_of_ascii c) - 48)) s' else acc
  | [] => acc
  end%Z.
Definition atoi (s : str) : option Z :=
  let v := match skip_space s with
           | "-"%char :: s' => (- digits_value 0 s')%Z
           | "+"%char :: s' => digits_value 0 s'
           | s' => digits_value 0 s'
           end in
  if ((-2147483648 <=? v) && (v <=? 2147483647))%Z then Some v else None.

(** UxAS_Main.cpp:86: [uint32_t runUntil_sec] *)
Definition to_u32 (z : Z) : Z := (z mod 4294967296)%Z.

Inductive parsed := Stop (e : ending) | Go (cfg : str) (until : Z).

(** UxAS_Main.cpp:88-123: the loop over the words *)
Fixpoint arguments (l : list str) (cfg : str) (until : Z) : list act * parsed :=
  match l with
  | [] => ([], Go cfg until)
  | a :: l' =>
      if str_eqb a arg_cfg then match l' with v :: l'' => arguments l'' v until | [] => ([], Stop Undefined) end
      else if str_eqb a arg_until then
        match l' with
        | v :: l'' => match atoi v with Some z => arguments l'' cfg (to_u32 z) | None => ([], Stop Undefined) end
        | [] => ([], Stop Undefined)
        end
      else if str_eqb a arg_version then let (acts, p) := arguments l' cfg until in (Version :: acts, p)
      else ([Refused a], Stop (Returns (-1)))
  end.

(** UxAS_Main.cpp:185-290: a step that fails ends the program with its code *)
Definition steps (w : surroundings) (cfg : str) (until : Z) : list act * ending :=
  match w_load w cfg with
  | None => ([LoadConfig cfg], Returns 100)
  | Some configured =>
    if negb (w_server_configured w) then ([LoadConfig cfg; ConfigureServer], Returns 210)
    else if negb (w_server_started w) then ([LoadConfig cfg; ConfigureServer; StartServer], Returns 220)
    else if negb (w_services_configured w) then ([LoadConfig cfg; ConfigureServer; StartServer; ConfigureServices], Returns 400)
    else if negb (w_services_started w) then ([LoadConfig cfg; ConfigureServer; StartServer; ConfigureServices; StartServices], Returns 410)
    else if negb (w_bridges w) then ([LoadConfig cfg; ConfigureServer; StartServer; ConfigureServices; StartServices; StartBridges], Returns 300)
    else ([LoadConfig cfg; ConfigureServer; StartServer; ConfigureServices; StartServices; StartBridges;
           RunServices (if (until =? 0)%Z then configured else until); EndServices; EndServer], Returns 0)
  end.

(** UxAS_Main.cpp:62-293: [main] *)
Definition main (w : surroundings) (l : list str) : list act * ending :=
  match arguments l default_cfg 0 with
  | (acts, Stop e) => (acts, e)
  | (acts, Go cfg until) => let (acts', e) := steps w cfg until in (acts ++ acts', e)
  end.

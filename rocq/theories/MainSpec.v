(** What a user of the program expects of its command line and its start. *)
From Coq Require Import String Ascii ZArith NArith List.
From Verif Require Import Base MainModel.
Import ListNotations.
Open Scope list_scope.

(** What can be chosen on the command line, and how it is written. *)
Inductive choice := Config (path : str) | Until (text : str) | ShowVersion.
Definition words (c : choice) : list str :=
  match c with Config p => [lit "-cfgPath"; p] | Until t => [lit "-runUntil"; t] | ShowVersion => [lit "-version"] end.
Definition line (cs : list choice) : list str := flat_map words cs.
Definition is_option (s : str) : Prop := s = lit "-cfgPath" \/ s = lit "-runUntil" \/ s = lit "-version".

(** A number written in decimal digits. *)
Inductive numeral : str -> Z -> Prop :=
| numeral_digit d : (0 <= d <= 9)%Z -> numeral [ascii_of_N (Z.to_N (48 + d))] d
| numeral_more s n d : numeral s n -> (0 <= d <= 9)%Z -> numeral (s ++ [ascii_of_N (Z.to_N (48 + d))]) (10 * n + d).

(** The path chosen last, "cfg.xml" if none is. *)
Definition path_chosen (cs : list choice) (p : str) : Prop :=
  (exists l1 l2, cs = l1 ++ Config p :: l2 /\ forall q, ~ In (Config q) l2) \/ (p = lit "cfg.xml" /\ forall q, ~ In (Config q) cs).
(** The duration chosen last, 0 if none is: 0 stands for the one of the configuration. *)
Definition time_chosen (cs : list choice) (n : Z) : Prop :=
  (exists l1 t l2, cs = l1 ++ Until t :: l2 /\ numeral t n /\ forall q, ~ In (Until q) l2) \/ (n = 0%Z /\ forall q, ~ In (Until q) cs).
(** Durations are written as numbers, up to the greatest int. *)
Definition in_range (c : choice) : Prop := match c with Until t => exists n, numeral t n /\ (n <= 2147483647)%Z | _ => True end.
Definition versions (cs : list choice) (acts : list act) : Prop := length acts = length (filter (fun c => match c with ShowVersion => true | _ => false end) cs) /\ Forall (eq Version) acts.

(** The steps in their order, with the code that a failure gives. *)
Definition plan (p : str) : list (act * Z) :=
  [(LoadConfig p, 100%Z); (ConfigureServer, 210%Z); (StartServer, 220%Z); (ConfigureServices, 400%Z); (StartServices, 410%Z); (StartBridges, 300%Z)].
Definition fine (w : surroundings) (a : act) : Prop :=
  match a with
  | LoadConfig p => exists d, w_load w p = Some d
  | ConfigureServer => w_server_configured w = true | StartServer => w_server_started w = true
  | ConfigureServices => w_services_configured w = true | StartServices => w_services_started w = true
  | StartBridges => w_bridges w = true
  | _ => True
  end.
(** Each step is taken only when all before it went well; the first that fails ends the program with its code; if none does, the services run and then all is ended. *)
Inductive started (w : surroundings) (p : str) (n : Z) : list act -> ending -> Prop :=
| started_fails done a code rest : plan p = done ++ (a, code) :: rest -> Forall (fine w) (map fst done) -> ~ fine w a ->
    started w p n (map fst done ++ [a]) (Returns code)
| started_well d secs : Forall (fine w) (map fst (plan p)) -> w_load w p = Some d -> (n = 0%Z -> secs = d) -> (n <> 0%Z -> secs = n) ->
    started w p n (map fst (plan p) ++ [RunServices secs; EndServices; EndServer]) (Returns 0).

(** What is done last, but for words, paths and times. *)
Definition same_step (a b : act) : Prop :=
  match a, b with
  | Refused _, Refused _ | LoadConfig _, LoadConfig _ | ConfigureServer, ConfigureServer | StartServer, StartServer
  | ConfigureServices, ConfigureServices | StartServices, StartServices | StartBridges, StartBridges | EndServer, EndServer => True
  | _, _ => False
  end.

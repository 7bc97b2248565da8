(** What the automation diagram service should leave on the disk, from the messages it
    received alone. *)
From Coq Require Import String Ascii List ZArith NArith Bool.
From Verif Require Import Base Decimal10 FormulaModel Latest DiagramModel.
Import ListNotations.
Open Scope list_scope.

(** What a message says about the entity, task, ... with an id. *)
Definition says_entity (id : Z) (e : event) : option str :=
  match e with EvEntity i t => if (i =? id)%Z then Some t else None | _ => None end.
Definition says_zone (id : Z) (e : event) : option str :=
  match e with EvZone i t => if (i =? id)%Z then Some t else None | _ => None end.
Definition says_area (id : Z) (e : event) : option str :=
  match e with EvArea i t => if (i =? id)%Z then Some t else None | _ => None end.
Definition says_line (id : Z) (e : event) : option str :=
  match e with EvLine i t => if (i =? id)%Z then Some t else None | _ => None end.
Definition says_point (id : Z) (e : event) : option str :=
  match e with EvPoint i t => if (i =? id)%Z then Some t else None | _ => None end.
Definition says_task (id : Z) (e : event) : option task :=
  match e with EvTask t => if (t_id t =? id)%Z then Some t else None | _ => None end.
Definition says_region (id : Z) (e : event) : option region :=
  match e with EvRegion g => if (g_id g =? id)%Z then Some g else None | _ => None end.
Definition says_request (id : Z) (e : event) : option request :=
  match e with EvRequest q => if (q_id q =? id)%Z then Some q else None | _ => None end.
(** The request or (None) a response to it. *)
Definition says_about (id : Z) (e : event) : option (option request) :=
  match e with
  | EvRequest q => if (q_id q =? id)%Z then Some (Some q) else None
  | EvResponse r _ => if (r_id r =? id)%Z then Some None else None
  | _ => None
  end.

(** The entities of a request: those listed, or all heard of if none is listed. *)
Definition wanted (h : list event) (q : request) (id : Z) : Prop :=
  In id (q_entities q) \/ (q_entities q = [] /\ exists t, latest (says_entity id) h t).

(** The first planning state for an entity. *)
Definition planned_state (q : request) (id : Z) (p : planned) : Prop :=
  exists l1 l2, q_planning q = l1 ++ p :: l2 /\ pl_entity p = id /\
                forall p', In p' l1 -> pl_entity p' <> id.

Definition named (word : string) (id : Z) : str := lit word ++ to_string_Z id ++ lit ".xml".

(** What a task refers to: the word of the file, the id, and what is said about it. *)
Definition refers (k : taskKind) : option (string * Z * (event -> option str)) :=
  match k with
  | AngledAreaSearch id => Some ("AreaOfInterest_Id_"%string, id, says_area id)
  | ImpactLineSearch id => Some ("LineOfInterest_Id_"%string, id, says_line id)
  | ImpactPointSearch id => Some ("PointOfInterest_Id_"%string, id, says_point id)
  | PatternSearch id => Some ("PointOfInterest_Id_"%string, id, says_point id)
  | WatchTask id => Some ("WatchedEntity_Id_"%string, id, says_entity id)
  | BlockadeTask id => Some ("BlockedEntity_Id_"%string, id, says_entity id)
  | OtherTask => None
  end.

(** The inputs of the request [q] after the messages [h]: names of files and their texts. *)
Inductive input (h : list event) (q : request) : str -> str -> Prop :=
| input_planned id p :
    wanted h q id -> planned_state q id p -> input h q (named "EntityState_Id_" id) (pl_text p)
| input_state id t :
    wanted h q id -> (forall p, ~ planned_state q id p) -> latest (says_entity id) h t ->
    input h q (named "EntityState_Id_" id) t
| input_task id t :
    In id (q_tasks q) -> latest (says_task id) h t -> input h q (named "Task_Id_" id) (t_text t)
| input_place id t word i says text :
    In id (q_tasks q) -> latest (says_task id) h t -> refers (t_kind t) = Some (word, i, says) ->
    (0 < i)%Z -> latest says h text -> input h q (named word i) text
| input_keep_in g i text :
    (0 < q_region q)%Z -> latest (says_region (q_region q)) h g -> In i (g_keepIn g) ->
    latest (says_zone i) h text -> input h q (named "ZoneKeepIn_Id_" i) text
| input_keep_out g i text :
    (0 < q_region q)%Z -> latest (says_region (q_region q)) h g -> In i (g_keepOut g) ->
    latest (says_zone i) h text -> input h q (named "ZoneKeepOut_Id_" i) text.

Definition script_names : list str :=
  map lit ["PlotAutomationDiagram.py"; "ProcessUniqueAutomationResponse.py"; "ProcessTasks.py";
           "ProcessEntityStates.py"; "ProcessZones.py"]%string.

(** All that is saved: the inputs, the response and the scripts. *)
Inductive saved (script : str -> str) (h : list event) (q : request) (r : response)
  : str -> str -> Prop :=
| saved_input n t : input h q n t -> saved script h q r n t
| saved_response : saved script h q r (named "UniqueAutomationResponse_Id_" (r_id r)) (r_text r)
| saved_script n : In n script_names -> saved script h q r n (script n).

(** A name with a number: four digits and an underscore. *)
Definition numbered (name : str) (n : N) : Prop :=
  exists digits rest, name = digits ++ "_"%char :: rest /\ length digits = 4%nat /\
    Forall (fun c => In c (lit "0123456789")) digits /\ dec_value digits = n.

(** The largest number of a directory is [n]; 0 if there is none. *)
Definition largest (fs : fsys) (n : N) : Prop :=
  (n = 0%N \/ exists name files, In (name, NDir files) fs /\ numbered name n) /\
  forall name files m, In (name, NDir files) fs -> numbered name m -> (m <= n)%N.

(** What can be on the disk if the computer stops while [ops] are done: some of them, in
    order, and possibly the beginning of the text of the next file. *)
Definition crashed (fs : fsys) (ops : list op) (fs' : fsys) : Prop :=
  exists ops1 ops2, ops = ops1 ++ ops2 /\
    (fs' = apply_all fs ops1 \/
     exists dir name t1 t2 ops3, ops2 = Write dir name (t1 ++ t2) :: ops3 /\
       fs' = apply_all fs (ops1 ++ [Write dir name t1])).

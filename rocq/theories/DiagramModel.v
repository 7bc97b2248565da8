(** AutomationDiagramDataService (Services/AutomationDiagramDataService.cpp) and the making of
    numbered directories (Utilities/FileSystemUtilities.cpp, bCreateUniqueDirectory): the
    inputs and the result of an automation request are saved to a directory of their own.

    Messages are represented by the ids that are looked at and by the text that [toXML] gives
    for them; the state written for a planning position (an EntityState made from it) is given
    with the planning state.  The clock reading that goes into the name of a directory is part
    of the message.  Making directories and writing files never fails except where a file has
    the place of the directory.  Only the directory of the service is represented: a list of
    the names in it, with the files of each subdirectory.  What is printed, the times that are
    only printed and the contents of the five scripts (parameters) are left out. *)
From Coq Require Import String Ascii List Arith ZArith NArith Bool.
From Verif Require Import Base Decimal10 ZMap FormulaModel.
Import ListNotations.
Open Scope list_scope.

(** *** The directory of the service *)

(** What a name in the directory stands for: a plain file or a directory with files (name and
    text). *)
Inductive node :=
| NFile
| NDir (files : list (str * str)).

Definition fsys := list (str * node).

(** [boost::filesystem::exists] and following a path. *)
Fixpoint look {A} (l : list (str * A)) (name : str) : option A :=
  match l with
  | [] => None
  | (n, x) :: l' => if str_eqb n name then Some x else look l' name
  end.

(** Making a name stand for something. *)
Definition put {A} (l : list (str * A)) (name : str) (x : A) : list (str * A) :=
  (name, x) :: filter (fun p => negb (str_eqb (fst p) name)) l.

(** What is done to the disk. *)
Inductive op :=
| Mkdir (name : str)
| Write (dir name text : str).

(** [create_directories]; [std::ofstream] opened for writing, which makes the file empty first,
    and does nothing if the directory is not there. *)
Definition apply (fs : fsys) (o : op) : fsys :=
  match o with
  | Mkdir name => put fs name (NDir [])
  | Write dir name text =>
      match look fs dir with
      | Some (NDir files) => put fs dir (NDir (put files name text))
      | _ => fs
      end
  end.

Definition apply_all (fs : fsys) (ops : list op) : fsys := fold_left apply ops fs.

(** *** Numbered directories *)

(** FileSystemUtilities.cpp:222-224 and 231: the name matches four digits, '_' and anything;
    Constants_FileSystem.h:46 for the four. *)
Definition is_numbered (name : str) : bool :=
  match name with
  | a :: b :: c :: d :: u :: _ =>
      is_digit a && is_digit b && is_digit c && is_digit d && Ascii.eqb u "_"
  | _ => false
  end.

(** FileSystemUtilities.cpp:236: [std::stoi] of the first four characters. *)
Definition number (name : str) : N := dec_value (firstn 4 name).

(** FileSystemUtilities.cpp:217-248: the largest number of a directory, at least 0. *)
Definition maxNumber (fs : fsys) : N :=
  fold_left (fun m (e : str * node) =>
               match snd e with
               | NDir _ => if is_numbered (fst e) && (m <? number (fst e))%N
                           then number (fst e) else m
               | NFile => m
               end) fs 0%N.

(** [std::setfill('0') << std::setw(4)]. *)
Definition pad4 (n : N) : str :=
  repeat "0"%char (4 - length (to_string n)) ++ to_string n.

(** FileSystemUtilities.cpp:249-259: the name of the new directory. *)
Definition newName (fs : fsys) (prefix time : str) : str :=
  pad4 (maxNumber fs + 1) ++ lit "_" ++ prefix ++ lit "_" ++ time.

(** FileSystemUtilities.cpp:260 with 266-294, [bCreateDirectory]: nothing is done if the name
    is there already. *)
Definition createDirectory (fs : fsys) (name : str) : list op :=
  match look fs name with Some _ => [] | None => [Mkdir name] end.

(** *** The messages *)

(** PlanningState: the entity and the text of the EntityState made from it. *)
Record planned := { pl_entity : Z; pl_text : str }.

(** UniqueAutomationRequest with its original request. *)
Record request := {
  q_id : Z;
  q_entities : list Z;
  q_planning : list planned;
  q_tasks : list Z;
  q_region : Z
}.

(** The kinds of tasks that are told apart, with the id of the place or entity they refer to
    (AutomationDiagramDataService.cpp:312, 335, 355, 375, 395, 415). *)
Inductive taskKind :=
| AngledAreaSearch (area : Z)
| ImpactLineSearch (line : Z)
| ImpactPointSearch (point : Z)
| PatternSearch (point : Z)
| WatchTask (entity : Z)
| BlockadeTask (entity : Z)
| OtherTask.

Record task := { t_id : Z; t_kind : taskKind; t_text : str }.

Record region := { g_id : Z; g_keepIn : list Z; g_keepOut : list Z }.

Record response := { r_id : Z; r_text : str }.

Inductive event :=
| EvEntity (id : Z) (text : str)
| EvRequest (q : request)
| EvZone (id : Z) (text : str)
| EvTask (t : task)
| EvRegion (g : region)
| EvResponse (r : response) (now : str)
| EvArea (id : Z) (text : str)
| EvLine (id : Z) (text : str)
| EvPoint (id : Z) (text : str)
| EvOther.

(** AutomationDiagramDataService.h:149-157, the members. *)
Record data := {
  d_entities : zmap str;
  d_requests : zmap request;
  d_zones : zmap str;
  d_tasks : zmap task;
  d_regions : zmap region;
  d_areas : zmap str;
  d_lines : zmap str;
  d_points : zmap str
}.
Definition data0 : data :=
  {| d_entities := []; d_requests := []; d_zones := []; d_tasks := []; d_regions := [];
     d_areas := []; d_lines := []; d_points := [] |}.

(** *** The files *)

(** The name of a file: a word, the id and the ending. *)
Definition fileName (word : string) (id : Z) : str := lit word ++ to_string_Z id ++ lit ".xml".

(** A file if there is something under the id. *)
Definition found (word : string) (m : zmap str) (id : Z) : list (str * str) :=
  match zget m id with Some text => [(fileName word id, text)] | None => [] end.

(** AutomationDiagramDataService.cpp:263-301: the first planning state of the entity, else its
    last state. *)
Definition entityFiles (d : data) (q : request) (id : Z) : list (str * str) :=
  match find (fun p => (pl_entity p =? id)%Z) (q_planning q) with
  | Some p => [(fileName "EntityState_Id_" id, pl_text p)]
  | None => found "EntityState_Id_" (d_entities d) id
  end.

(** AutomationDiagramDataService.cpp:311-434: what the task refers to, if its id is positive. *)
Definition referred (d : data) (k : taskKind) : list (str * str) :=
  let get word m id := if (0 <? id)%Z then found word m id else [] in
  match k with
  | AngledAreaSearch id => get "AreaOfInterest_Id_"%string (d_areas d) id
  | ImpactLineSearch id => get "LineOfInterest_Id_"%string (d_lines d) id
  | ImpactPointSearch id | PatternSearch id => get "PointOfInterest_Id_"%string (d_points d) id
  | WatchTask id => get "WatchedEntity_Id_"%string (d_entities d) id
  | BlockadeTask id => get "BlockedEntity_Id_"%string (d_entities d) id
  | OtherTask => []
  end.

(** AutomationDiagramDataService.cpp:303-440. *)
Definition taskFiles (d : data) (id : Z) : list (str * str) :=
  match zget (d_tasks d) id with
  | Some t => (fileName "Task_Id_" id, t_text t) :: referred d (t_kind t)
  | None => []
  end.

(** AutomationDiagramDataService.cpp:441-482. *)
Definition regionFiles (d : data) (id : Z) : list (str * str) :=
  if (0 <? id)%Z then
    match zget (d_regions d) id with
    | Some g => flat_map (found "ZoneKeepIn_Id_" (d_zones d)) (g_keepIn g)
                ++ flat_map (found "ZoneKeepOut_Id_" (d_zones d)) (g_keepOut g)
    | None => []
    end
  else [].

Section Service.
Context (entity : N) (script : str -> str).

(** AutomationDiagramDataService.cpp:504-533, [SavePythonScripts]. *)
Definition scriptFiles : list (str * str) :=
  map (fun n => (lit n, script (lit n)))
    ["PlotAutomationDiagram.py"; "ProcessUniqueAutomationResponse.py"; "ProcessTasks.py";
     "ProcessEntityStates.py"; "ProcessZones.py"]%string.

(** AutomationDiagramDataService.cpp:245-246. *)
Definition prefix : str := lit "AutomationDiagram_ID" ++ pad4 entity.

(** AutomationDiagramDataService.cpp:255-261: an empty list of entities is filled, in the
    request that is kept, with the entities heard of. *)
Definition filled (d : data) (q : request) : request :=
  match q_entities q with
  | [] => {| q_id := q_id q; q_entities := map fst (d_entities d); q_planning := q_planning q;
             q_tasks := q_tasks q; q_region := q_region q |}
  | _ => q
  end.

(** AutomationDiagramDataService.cpp:263-489: the files in the order in which they are
    written. *)
Definition files (d : data) (q : request) (r : response) : list (str * str) :=
  flat_map (entityFiles d q) (q_entities q) ++ flat_map (taskFiles d) (q_tasks q)
  ++ regionFiles d (q_region q)
  ++ [(fileName "UniqueAutomationResponse_Id_" (r_id r), r_text r)] ++ scriptFiles.

(** AutomationDiagramDataService.cpp:234-502, [ProcessUniqueAutomationResponse]. *)
Definition processResponse (d : data) (fs : fsys) (r : response) (now : str) : data * list op :=
  match zget (d_requests d) (r_id r) with
  | None => (d, [])
  | Some q =>
      let q' := filled d q in
      let name := newName fs prefix now in
      ({| d_entities := d_entities d; d_requests := zset (d_requests d) (r_id r) q';
          d_zones := d_zones d; d_tasks := d_tasks d; d_regions := d_regions d;
          d_areas := d_areas d; d_lines := d_lines d; d_points := d_points d |},
       createDirectory fs name ++ map (fun f => Write name (fst f) (snd f)) (files d q' r))
  end.

(** AutomationDiagramDataService.cpp:130-232, [processReceivedLmcpMessage]: the data and what
    is done to the disk. *)
Definition handle (d : data) (fs : fsys) (e : event) : data * list op :=
  match e with
  | EvEntity id text =>
      ({| d_entities := zset (d_entities d) id text; d_requests := d_requests d;
          d_zones := d_zones d; d_tasks := d_tasks d; d_regions := d_regions d;
          d_areas := d_areas d; d_lines := d_lines d; d_points := d_points d |}, [])
  | EvRequest q =>
      ({| d_entities := d_entities d; d_requests := zset (d_requests d) (q_id q) q;
          d_zones := d_zones d; d_tasks := d_tasks d; d_regions := d_regions d;
          d_areas := d_areas d; d_lines := d_lines d; d_points := d_points d |}, [])
  | EvZone id text =>
      ({| d_entities := d_entities d; d_requests := d_requests d;
          d_zones := zset (d_zones d) id text; d_tasks := d_tasks d; d_regions := d_regions d;
          d_areas := d_areas d; d_lines := d_lines d; d_points := d_points d |}, [])
  | EvTask t =>
      ({| d_entities := d_entities d; d_requests := d_requests d;
          d_zones := d_zones d; d_tasks := zset (d_tasks d) (t_id t) t; d_regions := d_regions d;
          d_areas := d_areas d; d_lines := d_lines d; d_points := d_points d |}, [])
  | EvRegion g =>
      ({| d_entities := d_entities d; d_requests := d_requests d;
          d_zones := d_zones d; d_tasks := d_tasks d; d_regions := zset (d_regions d) (g_id g) g;
          d_areas := d_areas d; d_lines := d_lines d; d_points := d_points d |}, [])
  | EvResponse r now => processResponse d fs r now
  | EvArea id text =>
      ({| d_entities := d_entities d; d_requests := d_requests d;
          d_zones := d_zones d; d_tasks := d_tasks d; d_regions := d_regions d;
          d_areas := zset (d_areas d) id text; d_lines := d_lines d; d_points := d_points d |}, [])
  | EvLine id text =>
      ({| d_entities := d_entities d; d_requests := d_requests d;
          d_zones := d_zones d; d_tasks := d_tasks d; d_regions := d_regions d;
          d_areas := d_areas d; d_lines := zset (d_lines d) id text; d_points := d_points d |}, [])
  | EvPoint id text =>
      ({| d_entities := d_entities d; d_requests := d_requests d;
          d_zones := d_zones d; d_tasks := d_tasks d; d_regions := d_regions d;
          d_areas := d_areas d; d_lines := d_lines d; d_points := zset (d_points d) id text |}, [])
  | EvOther => (d, [])
  end.

(** The service on a disk. *)
Definition dstep (s : data * fsys) (e : event) : (data * fsys) * list op :=
  let (d, ops) := handle (fst s) (snd s) e in
  ((d, apply_all (snd s) ops), ops).
End Service.

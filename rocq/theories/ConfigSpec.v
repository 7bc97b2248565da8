(** What is meant by a configuration, and by the settings it gives. *)
From Coq Require Import List NArith String Ascii.
From Verif Require Import Decimal10 ConfigModel.
Import ListNotations.
Open Scope string_scope.
Open Scope list_scope.

(** The first of a list with a property. *)
Definition first {A : Type} (P : A -> Prop) (l : list A) (x : A) : Prop :=
  exists l1 l2, l = l1 ++ x :: l2 /\ P x /\ forall y, In y l1 -> ~ P y.
Definition none {A : Type} (P : A -> Prop) (l : list A) : Prop := forall y, In y l -> ~ P y.
Definition gives (x : node) (a v : string) : Prop := first (fun p => fst p = a) (nd_attrs x) (a, v).
Definition lacks (x : node) (a : string) : Prop := none (fun p => fst p = a) (nd_attrs x).

(** The document has the element [u] of the name UxAS. *)
Definition describes (d : list node) (u : node) : Prop := first (fun x => nd_name x = "UxAS") d u.
(** It names an entity. *)
Definition complete (u : node) (i t : string) : Prop := gives u "EntityID" i /\ gives u "EntityType" t.

(** [k] are the elements of [l] of a name, in order. *)
Inductive named (s : string) : list node -> list node -> Prop :=
| named_nil : named s [] []
| named_in : forall x l k, nd_name x = s -> named s l k -> named s (x :: l) (x :: k)
| named_out : forall x l k, nd_name x <> s -> named s l k -> named s (x :: l) k.

(** An answer: the entity and the elements of a name in [u]. *)
Definition answer (u : node) (s : string) (id : N) (t : string) (a : node) : Prop :=
  exists k, a = Node "UxAS" [("FormatVersion", "1.0"); ("EntityID", string_of_list_ascii (to_string id)); ("EntityType", t)] k /\ named s (nd_kids u) k.

(** A text that stands for yes. *)
Definition truth (v : string) : Prop := exists c r, v = String c r /\ In c ["1"; "t"; "T"; "y"; "Y"]%char.

(** Only questions are put. *)
Definition question (r : request) : Prop := r = AskBridges \/ r = AskServices.
(** [s] is among the names of levels. *)
Inductive level_name : string -> level -> Prop :=
| ln_debug : level_name "DEBUG" Debug
| ln_info : level_name "INFO" Info
| ln_warn : level_name "WARN" Warning
| ln_error : level_name "ERROR" Error.

(** The request loads a document that names an entity and gives [v] for [a]. *)
Definition told (a : string) (r : request) (v : string) : Prop :=
  exists d u i t, r = Load (Some d) /\ describes d u /\ complete u i t /\ gives u a v.
Definition told_level (a : string) (r : request) (l : level) : Prop := exists s, told a r s /\ level_name s l.
(** The request loads a document that gives a number for the entity, with a type or without. *)
Definition told_id (r : request) (i : string) : Prop := exists d u, r = Load (Some d) /\ describes d u /\ gives u "EntityID" i.
(** [v] was told by the last of the requests that tell something; nothing was told. *)
Definition last_told {V : Type} (tells : request -> V -> Prop) (rs : list request) (v : V) : Prop :=
  exists r1 r r2, rs = r1 ++ r :: r2 /\ tells r v /\ forall r', In r' r2 -> forall v', ~ tells r' v'.
Definition never_told {V : Type} (tells : request -> V -> Prop) (rs : list request) : Prop := forall r, In r rs -> forall v, ~ tells r v.

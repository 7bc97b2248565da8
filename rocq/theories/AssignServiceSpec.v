(** What is expected of the assignment service, in terms of the messages received and sent. *)
From Coq Require Import List ZArith Bool Permutation.
From Verif Require Import Base Run AlgebraModel AlgebraSpec FormulaSpec AssignModel AssignSpec
  AssignServiceModel.
Import ListNotations.
Open Scope list_scope.
Open Scope Z_scope.

(** A history with the messages sent at each step. *)
Definition trace := list (event * list out).

(** The automation request a message belongs to. *)
Definition about (e : event) : Z :=
  match e with
  | EvRequest q => q_id q
  | EvOptions o => po_request o
  | EvMatrix i _ => i
  end.

(** What a history says about the request [i]: the last request, the last matrix, and the
    last options for each task. *)
Definition last_request (i : Z) (h : list event) : option request :=
  fold_left (fun a e => match e with
                        | EvRequest q => if q_id q =? i then Some q else a
                        | _ => a
                        end) h None.

Definition last_matrix (i : Z) (h : list event) : option (list costEntry) :=
  fold_left (fun a e => match e with
                        | EvMatrix j m => if j =? i then Some m else a
                        | _ => a
                        end) h None.

Definition last_options (i k : Z) (h : list event) : option planOptions :=
  fold_left (fun a e => match e with
                        | EvOptions o => if (po_request o =? i) && (po_task o =? k) then Some o else a
                        | _ => a
                        end) h None.

(** All that is needed for the request [i] is there. *)
Definition complete (i : Z) (h : list event) : Prop :=
  exists q m, last_request i h = Some q /\ last_matrix i h = Some m /\ q_tasks q <> [] /\
    forall k, In k (q_tasks q) -> last_options i k h <> None.

(** The messages received since something was last sent for the request [i]. *)
Definition fresh (i : Z) (t : trace) : list event :=
  fold_left (fun a x => if (about (fst x) =? i) && negb (match snd x with [] => true | _ => false end)
                        then [] else a ++ [fst x]) t [].

(** The steps at which something was sent for the request [i]. *)
Definition results (i : Z) (t : trace) : list (list out) :=
  filter (fun o => negb (match o with [] => true | _ => false end))
    (map snd (filter (fun x => about (fst x) =? i) t)).

(** Messages about the request [i] are not repeated: one request, one matrix, and for each
    task one options message. *)
Definition once (i : Z) (h : list event) : Prop :=
  NoDup (flat_map (fun e => match e with
    | EvRequest q => if q_id q =? i then [None] else []
    | EvMatrix j _ => if j =? i then [Some None] else []
    | EvOptions o => if po_request o =? i then [Some (Some (po_task o))] else []
    end) h).

(** [os] are the options messages for request [i] in [h], one for each task heard of. *)
Definition offered (i : Z) (h : list event) (os : list planOptions) : Prop :=
  NoDup (map po_task os) /\
  forall o, In o os <-> last_options i (po_task o) h = Some o.

(** The text of every task offered says how its options may be combined: [comp] gives the
    expressions.  Option ids are small enough to be packed and are among those offered. *)
Definition told (os : list planOptions) (comp : Z -> expr) : Prop :=
  forall o, In o os ->
    is_operator (comp (po_task o)) /\ writes (comp (po_task o)) (po_composition o) /\
    forall a, In a (actions (comp (po_task o))) ->
      0 <= optionId (po_task o) a < 2 ^ 63 /\
      exists o' x, In o' os /\ In x (po_options o') /\
        optionId (to_task x) (to_option x) = optionId (po_task o) a.

(** The options of a task, by number. *)
Definition named (k : Z) (e : expr) : expr := bind (fun a => Act (optionId k a)) e.

(** What the relationships of the request mean: each task stands for its options.  Without
    relationships all tasks offered are to be done, in any order. *)
Definition meaning (relations : str) (os : list planOptions) (comp : Z -> expr) (alg : expr) : Prop :=
  match relations with
  | [] => alg = Op Par (map (fun o => named (po_task o) (comp (po_task o))) os)
  | _ => exists rel, writes rel relations /\ is_operator rel /\
           incl (actions rel) (map po_task os) /\
           alg = bind (fun k => named k (comp k)) rel
  end.

(** The tasks of one vehicle in a summary, in order, with the times of completion. *)
Definition tour (v : Z) (ts : list taskAssignment) : list (Z * Z) :=
  map (fun t => (optionId (ta_task t) (ta_option t), ta_completed t))
      (filter (fun t => ta_vehicle t =? v) ts).

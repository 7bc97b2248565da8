(** What is expected of the other TCP transport. *)
From Coq Require Import List Ascii.
From Verif Require Import Base TcpLinkModel TcpLinkSpec.
Import ListNotations.
Open Scope list_scope.

(** The data that arrive, in order. *)
Definition data_of (x : packet) : str := match x with Pair _ d => d | Lone _ => [] end.
(** The client has told something. *)
Definition heard (c : str) (xs : list packet) : Prop := exists d, In (Pair c d) xs.
(** A blank packet tells that a client connects or disconnects: after an even number of them it is not connected. *)
Definition blanks (c : str) (xs : list packet) : nat := length (filter (fun x => match x with Pair id [] => if list_eq_dec ascii_dec id c then true else false | _ => false end) xs).
(** The results that are there. *)
Definition given {A : Type} (os : list (option A)) : list A := flat_map (fun o => match o with Some a => [a] | None => [] end) os.

(** What is put in frames: messages, and texts that are none. *)
Inductive item := Msg (l : letter) | Junk (t : str).
Definition raw (i : item) : str := match i with Msg l => text l | Junk t => t end.
Definition proper (i : item) : Prop := match i with Msg l => well_formed l | Junk t => forall l, well_formed l -> t <> text l end.
Definition letters (is : list item) : list letter := flat_map (fun i => match i with Msg l => [l] | Junk _ => [] end) is.

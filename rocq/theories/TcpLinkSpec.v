(** What is expected of the way of messages through the TCP bridge. *)
From Coq Require Import List Ascii String Arith.
From Verif Require Import Base MsgSpec MsgModel TcpLinkModel.
Import ListNotations.
Open Scope list_scope.

(** A peer that connects or disconnects is told by a blank packet: it is connected if there was an odd number of them. *)
Definition blank_from (c : str) (e : event) : nat :=
  match e with FromOutside (Pair id []) => if list_eq_dec ascii_dec id c then 1 else 0 | _ => 0 end.
Definition connected (c : str) (es : list event) : Prop := Nat.Odd (list_sum (map (blank_from c) es)).
(** The data that arrived, in order. *)
Definition arrived (es : list event) : list str :=
  flat_map (fun e => match e with FromOutside (Pair _ (x :: d)) => [x :: d] | _ => [] end) es.

(** A message as its sender means it. *)
Record letter := mkLetter { address : str; content : str; descriptor : str; group : str; entity : str; service : str; payload : str }.
Definition text (l : letter) : str := wire_text (address l) (content l) (descriptor l) (group l) (entity l) (service l) (payload l).
Definition well_formed (l : letter) : Prop :=
  free_of "$" (address l) /\ clean (content l) /\ clean (descriptor l) /\ clean (group l) /\ clean (entity l) /\ clean (service l) /\
  content l <> [] /\ descriptor l <> [] /\ entity l <> [] /\ service l <> [] /\ payload l <> [].
(** A message of the program carries it. *)
Definition carries (m : aamsg) (l : letter) : Prop :=
  aam_valid m = true /\ aam_getString m = text l /\ aam_address m = address l /\ aam_payload m = payload l /\
  exists t, aam_attrs m = Some t /\ at_contentType t = content l /\ at_descriptor t = descriptor l /\ at_group t = group l /\
    at_entity t = entity l /\ at_service t = service l.

(** What the internal network is to get of a letter: nothing if its address is blocked; else the letter with its address replaced
    by its alias and, if messages are to look like those of the entity itself, with the bridge as its sender. *)
Inductive renamed (al : list (str * str)) (a : str) : str -> Prop :=
| to_alias al1 a' al2 : al = al1 ++ (a, a') :: al2 -> ~ In a (map fst al1) -> renamed al a a'
| no_alias : ~ In a (map fst al) -> renamed al a a.
Inductive comes_in (su : setup) (l : letter) : list letter -> Prop :=
| kept_out : In (address l) (su_block su) -> comes_in su l []
| comes a : ~ In (address l) (su_block su) -> renamed (su_alias su) (address l) a ->
    comes_in su l [if su_self su then mkLetter a (content l) (descriptor l) (list_ascii_of_string "TcpBridge") (su_entity su) (su_network su) (payload l)
                   else mkLetter a (content l) (descriptor l) (group l) (entity l) (service l) (payload l)].

(** A setup as [configure] leaves it: the ids are no empty texts and no alias is for the empty address. *)
Definition configured (su : setup) : Prop :=
  su_entity su <> [] /\ su_network su <> [] /\ Forall (fun p => fst p <> []) (su_alias su).

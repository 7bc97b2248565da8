(** What is expected of the serial bridge. *)
From Coq Require Import String Ascii List.
From Verif Require Import Base MsgSpec MsgModel TcpLinkModel TcpLinkSpec.
Import ListNotations.
Open Scope list_scope.

(** What the internal network is to get of a letter that was read from the line. *)
Inductive read_in (su : setup) (l : letter) : list letter -> Prop :=
| read_blocked : In (address l) (su_block su) -> read_in su l []
| read_comes : ~ In (address l) (su_block su) ->
    read_in su l [if su_self su then mkLetter (address l) (content l) (descriptor l) (list_ascii_of_string "SerialBridge") (su_entity su) (su_network su) (payload l)
                  else l].

(** What is to be written to the line for a letter of the internal network: those of the own entity that are not blocked. *)
Inductive written_out (su : setup) (l : letter) : list letter -> Prop :=
| own_written : entity l = su_entity su -> ~ In (address l) (su_block su) -> written_out su l [l]
| other_not : entity l <> su_entity su -> written_out su l []
| blocked_not : In (address l) (su_block su) -> written_out su l [].

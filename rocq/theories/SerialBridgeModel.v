(** Model of the serial bridge between the internal network and a line: LmcpObjectNetworkSerialBridge.cpp:147-247
    ([processReceivedSerializedLmcpMessage], [executeSerialReceiveProcessing]).

    Left out: the line itself and its failures (what was read is given, what is written is taken away), waiting, the end of the
    bridge and logging.  Of [setup] the aliases are not used. *)
From Coq Require Import List Bool Ascii String.
From Verif Require Import Base SerialModel MsgModel TcpLinkModel.
Import ListNotations.
Open Scope list_scope.

(** LmcpObjectNetworkSerialBridge.cpp:156-184: what is written to the line for a message of the internal network.
    [None]: a null pointer is dereferenced *)
Definition serial_write (su : setup) (m : aamsg) : option str :=
  match aam_attrs m with
  | None => None
  | Some t =>
      Some (if str_eqb (su_entity su) (at_entity t)
            then if existsb (str_eqb (aam_address m)) (su_block su) then [] else createSentinelized (aam_getString m)
            else [])
  end.
(** All messages of the internal network, one after the other *)
Fixpoint serial_written (su : setup) (ms : list aamsg) : option str :=
  match ms with
  | [] => Some []
  | m :: ms' => match serial_write su m, serial_written su ms' with Some a, Some b => Some (a ++ b) | _, _ => None end
  end.

(** LmcpObjectNetworkSerialBridge.cpp:211-230 and ZeroMqAddressedAttributedMessageSender.cpp:98-175: what goes on the internal
    network for a text that was found; the outer [None]: a null pointer is dereferenced *)
Definition serial_text (su : setup) (t : str) : option (option aamsg) :=
  let (m, ok) := setAamFromDelimitedString new_aam t in
  if ok then
    if existsb (str_eqb (aam_address m)) (su_block su) then Some None
    else match (if su_self su then option_map fst (aam_updateSource m (lit "SerialBridge") (su_entity su) (su_network su)) else Some m) with
         | None => None
         | Some m1 => Some (if aam_valid m1 then Some m1 else None)
         end
  else Some None.
(** The texts of one read; an exception (235) comes after them *)
Fixpoint serial_texts (su : setup) (ts : list str) : option (list aamsg) :=
  match ts with
  | [] => Some []
  | t :: ts' =>
      match serial_text su t, serial_texts su ts' with
      | Some o, Some ms => Some (match o with Some m => m :: ms | None => ms end)
      | _, _ => None
      end
  end.
(** LmcpObjectNetworkSerialBridge.cpp:194-246, [executeSerialReceiveProcessing], for all that is read: the buffer afterwards and
    the messages put on the internal network.  An exception ends only the round. *)
Fixpoint serial_run (su : setup) (b : sbuf) (reads : list str) : option (sbuf * list aamsg) :=
  match reads with
  | [] => Some (b, [])
  | c :: reads' =>
      match (match c with [] => (b, [], false) | _ => pump (S (List.length (sb_data b ++ c))) b c end) with
      | (b', ts, _) =>
          match serial_texts su ts, serial_run su b' reads' with
          | Some ms, Some (b'', ms') => Some (b'', ms ++ ms')
          | _, _ => None
          end
      end
  end.

(** Model of the way of messages through the TCP bridge: the list of clients (Communications/ZeroMq/Receivers/SetArrayClientList.cpp,
    ZmqTcpReceiver.cpp), sending to them (Senders/ZmqTcpSender.cpp, MsgSenderSentinel.cpp), the thread in between
    (Proxy/ZmqProxy.cpp), taking messages out of the data that came in (Receivers/MsgReceiverSentinel.cpp,
    ZmqAttributedMsgSenderReceiver.cpp) and the loop of the bridge (LmcpObjectNetworkTcpBridge.cpp:200-255).

    Left out: the sockets themselves (a packet that arrived is given, one that is sent is taken away), their set-up, pointers
    that are null from the beginning, the end of the bridge ([m_isTerminate]) and logging.  The order in which the clients get a
    message is that of their connecting, not of their identities. *)
From Coq Require Import List Bool Ascii String.
From Verif Require Import Base SerialModel MsgModel.
Import ListNotations.
Open Scope list_scope.

(** SetArrayClientList.cpp:16-19: [find] in the set of clients, used at ZmqTcpReceiver.cpp:52 *)
Definition has_client (cs : list str) (c : str) : bool := existsb (str_eqb c) cs.
(** SetArrayClientList.cpp:21-24 *)
Definition addClient (cs : list str) (c : str) : list str * bool := if has_client cs c then (cs, false) else (cs ++ [c], true).
(** SetArrayClientList.cpp:26-29 *)
Definition removeClient (cs : list str) (c : str) : list str * bool :=
  (filter (fun x => negb (str_eqb x c)) cs, has_client cs c).

(** What a socket of the kind "stream" gives: the identity of the peer and its data, or a message without more to come *)
Inductive packet := Pair (id data : str) | Lone (m : str).

(** ZmqTcpReceiver.cpp:22-67, [receive]: the clients afterwards and the data *)
Definition tcp_receive (cs : list str) (p : packet) : list str * str :=
  match p with
  | Lone _ => (cs, [])
  | Pair id [] => (if has_client cs id then fst (removeClient cs id) else fst (addClient cs id), [])
  | Pair id data => (cs, data)
  end.
(** ZmqTcpSender.cpp:21-40, [send]: what is sent to whom *)
Definition tcp_send (server : bool) (peer : str) (cs : list str) (m : str) : list (str * str) :=
  if server then map (fun c => (c, m)) cs else [(peer, m)].

(** ZmqProxy.cpp:23-44: a message of the bridge or a packet from outside is there; the clients, all that was sent to the outside
    and all that was passed on to the bridge *)
Inductive event := FromBridge (m : str) | FromOutside (p : packet).
Record proxy := mkProxy { px_clients : list str; px_sent : list (str * str); px_passed : list str }.
Definition new_proxy : proxy := mkProxy [] [] [].
(** ZmqProxy.cpp:32-42 *)
Definition proxy_step (server : bool) (peer : str) (x : proxy) (e : event) : proxy :=
  match e with
  | FromBridge m => mkProxy (px_clients x) (px_sent x ++ tcp_send server peer (px_clients x) m) (px_passed x)
  | FromOutside p =>
      let (cs, r) := tcp_receive (px_clients x) p in
      mkProxy cs (px_sent x) (match r with [] => px_passed x | _ => px_passed x ++ [r] end)
  end.
Definition proxy_run (server : bool) (peer : str) (es : list event) : proxy := fold_left (proxy_step server peer) es new_proxy.

(** MsgSenderSentinel.cpp:22-32 and ZmqAttributedMsgSenderReceiver.cpp:74-78, [send]: what the thread in between is given *)
Definition bridge_send (m : aamsg) : event := FromBridge (createSentinelized (aam_getString m)).

(** MsgReceiverSentinel.cpp:34-39: the texts pushed after a packet, and whether an exception ended it.
    [fuel]: as for [SerialModel.drain] *)
Fixpoint pump (fuel : nat) (b : sbuf) (chunk : str) : sbuf * list str * bool :=
  match fuel with
  | O => (b, [], false)
  | S f =>
      match getNextPayload b chunk with
      | (b', Thrown) => (b', [], true)
      | (b', Returned []) => (b', [], false)
      | (b', Returned p) => let '(b'', ps, t) := pump f b' [] in (b'', p :: ps, t)
      end
  end.

(** How a call of [receive] ends: it waits for a packet, it returns a message (that may be invalid), or it throws *)
Inductive got := Waits | Gets (m : aamsg) | Throws.

(** ZmqAttributedMsgSenderReceiver.cpp:85-90: the queued texts are tried one after the other until one can be read *)
Fixpoint first_valid (m : aamsg) (q : list str) : aamsg * option (list str) :=
  match q with
  | [] => (m, None)
  | t :: q' => let m' := fst (setAamFromDelimitedString m t) in
               if aam_valid m' then (m', Some q') else first_valid m' q'
  end.

(** ZmqAttributedMsgSenderReceiver.cpp:81-93, [receive], with MsgReceiverSentinel.cpp:19-48 in it: [m] is the message so far, [q]
    the queue of texts, [b] the buffer, [inbox] the packets that wait.  What is left of them, and how the call ends.  If a packet
    gives no text, [receive] of the sentinel returns the empty text and the loop ends. *)
Fixpoint receive (m : aamsg) (q : list str) (b : sbuf) (inbox : list str) : (list str * sbuf * list str) * got :=
  match first_valid m q with
  | (m', Some q') => ((q', b, inbox), Gets m')
  | (m', None) =>
      match inbox with
      | [] => (([], b, []), Waits)
      | c :: inbox' =>
          match pump (S (List.length (sb_data b ++ c))) b c with
          | (b', ps, true) => ((ps, b', inbox'), Throws)
          | (b', [], false) => (([], b', inbox'), Gets m')
          | (b', ps, false) => receive m' ps b' inbox'
          end
      end
  end.

(** LmcpObjectNetworkTcpBridge.h:131-147: the addresses that are not let in, [m_isConsideredSelfGenerated], the texts of the ids
    of the bridge, and the aliases *)
Record setup := mkSetup { su_block : list str; su_self : bool; su_entity : str; su_network : str; su_alias : list (str * str) }.

(** [std::map::find] of the aliases *)
Definition alias_of (su : setup) (a : str) : option str :=
  option_map snd (find (fun p => str_eqb (fst p) a) (su_alias su)).

(** LmcpObjectNetworkTcpBridge.cpp:222-243 and ZeroMqAddressedAttributedMessageSender.cpp:98-175: what goes on the internal
    network of a message; a message that is not valid is not sent.  The outer [None]: a null pointer is dereferenced *)
Definition let_in (su : setup) (m : aamsg) : option (option aamsg) :=
  if existsb (str_eqb (aam_address m)) (su_block su) then Some None
  else
    match (if su_self su then option_map fst (aam_updateSource m (lit "TcpBridge") (su_entity su) (su_network su)) else Some m) with
    | None => None
    | Some m1 =>
        match (match alias_of su (aam_address m1) with Some a => option_map fst (aam_updateAddress m1 a) | None => Some m1 end) with
        | None => None
        | Some m2 => Some (if aam_valid m2 then Some m2 else None)
        end
    end.

(** How the loop stands when all packets were taken: it waits for more, an exception ended it (252-254), or undefined behaviour *)
Inductive state := Waiting | Ended | Crashed.

(** LmcpObjectNetworkTcpBridge.cpp:200-255, [executeTcpReceiveProcessing], until it waits: the messages put on the internal
    network.  [fuel] bounds the rounds; each takes a text of the queue or a packet. *)
Fixpoint bridge_loop (fuel : nat) (su : setup) (q : list str) (b : sbuf) (inbox : list str) : list aamsg * state :=
  match fuel with
  | O => ([], Waiting)
  | S f =>
      match receive new_aam q b inbox with
      | (_, Waits) => ([], Waiting)
      | (_, Throws) => ([], Ended)
      | ((q', b', inbox'), Gets m) =>
          match let_in su m with
          | None => ([], Crashed)
          | Some None => bridge_loop f su q' b' inbox'
          | Some (Some m') => let (ms, s) := bridge_loop f su q' b' inbox' in (m' :: ms, s)
          end
      end
  end.
Definition bridge_run (su : setup) (inbox : list str) : list aamsg * state :=
  bridge_loop (S (List.length (List.concat inbox) + List.length inbox)) su [] new_sbuf inbox.

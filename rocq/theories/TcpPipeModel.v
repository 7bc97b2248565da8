(** Model of the other TCP transport of messages (Communications/ZeroMqAddressedAttributedMessageTcpReceiverSender.cpp, behind
    LmcpObjectMessageTcpReceiverSenderPipe.cpp): taking the next message (32-208) and sending one (220-255).

    What waits at the socket is a list of packets; a poll finds one exactly if there is one (its time limit is left out).  The loop over
    the texts in the buffer is [pump] of [TcpLinkModel]; an exception in it is caught and ends only the loop.  Left out: a socket that is
    not initialized or of another kind, frames that are null, the lock, memory that is not freed and logging.  The identity of the server that a
    client asks the socket for (246-247, kept in static variables of all instances) is a parameter. *)
From Coq Require Import List Bool Ascii String.
From Verif Require Import Base SerialModel MsgModel TcpLinkModel.
Import ListNotations.
Open Scope list_scope.

(** ZeroMqAddressedAttributedMessageTcpReceiverSender.h:79-84: m_receiveTcpDataBuffer, m_recvdMsgs, m_clients *)
Record pipe := { p_clients : list str; p_buffer : sbuf; p_queue : list aamsg }.
Definition new_pipe : pipe := {| p_clients := []; p_buffer := new_sbuf; p_queue := [] |}.

(** ZeroMqAddressedAttributedMessageTcpReceiverSender.cpp:178-192: the texts that are messages *)
Fixpoint parse_all (ts : list str) : list aamsg :=
  match ts with
  | [] => []
  | t :: ts' => let (m, ok) := setAamFromDelimitedString new_aam t in if ok then m :: parse_all ts' else parse_all ts'
  end.

(** The same file, 113-151 and 155-171: a client that is not known yet is put in, at a blank packet too; none is taken out *)
Definition known (cs : list str) (c : str) : list str := if has_client cs c then cs else cs ++ [c].

(** The same file, 202-207: the first of the queue, if any *)
Definition first_out (cs : list str) (b : sbuf) (q : list aamsg) : pipe * option aamsg :=
  match q with
  | m :: q' => ({| p_clients := cs; p_buffer := b; p_queue := q' |}, Some m)
  | [] => ({| p_clients := cs; p_buffer := b; p_queue := [] |}, None)
  end.

(** The same file, 32-208 ([getNextMessage]): the pipe afterwards, what still waits at the socket and the message if there is one *)
Definition get (p : pipe) (pend : list packet) : pipe * list packet * option aamsg :=
  match p_queue p with
  | m :: q => ({| p_clients := p_clients p; p_buffer := p_buffer p; p_queue := q |}, pend, Some m)
  | [] =>
      match pend with
      | [] => (p, [], None)
      | Lone _ :: pend' => (p, pend', None)
      | Pair id [] :: pend' => ({| p_clients := known (p_clients p) id; p_buffer := p_buffer p; p_queue := [] |}, pend', None)
      | Pair id d :: pend' =>
          let '(b', ts, _) := pump (S (List.length (sb_data (p_buffer p) ++ d))) (p_buffer p) d in
          let (p', o) := first_out (known (p_clients p) id) b' (parse_all ts) in (p', pend', o)
      end
  end.

(** [getNextMessage] (32-208) called [n] times, one call after the other *)
Fixpoint calls (n : nat) (p : pipe) (pend : list packet) : pipe * list packet * list (option aamsg) :=
  match n with
  | O => (p, pend, [])
  | S n' => let '(p', pend', o) := get p pend in let '(p'', pend'', os) := calls n' p' pend' in (p'', pend'', o :: os)
  end.

(** The same file, 220-255 ([sendAddressedAttributedMessage]): the identities and data given to the socket; [sid] is the identity of the server *)
Definition send (server : bool) (sid : str) (p : pipe) (m : aamsg) : list (str * str) :=
  let s := createSentinelized (aam_getString m) in
  if server then map (fun c => (c, s)) (p_clients p) else [(sid, s)].

(** Model of the internal message bus as one client sees it:
    src/cpp/Communications/TransportReceiverBase.cpp,
    src/cpp/Communications/ZeroMqReceiverBase.cpp,
    src/cpp/Communications/ZeroMqAddressedAttributedMessageReceiver.cpp,
    the subscription functions of src/cpp/Communications/LmcpObjectNetworkClientBase.cpp and
    src/cpp/Communications/LmcpObjectNetworkServer.cpp (the hub).

    Modelled as libzmq documents it: a SUB socket accepts a message when one of its subscriptions is a
    prefix of the message, and keeps what it accepted in order.  Simplified: a subscription is in
    effect at once (libzmq forwards it to the publisher asynchronously) and no message is dropped at
    the high water mark.  Messages have one part, as s_isZeroMqMultipartMessage is false
    (UxAS_ConfigurationManager.cpp:45) and nothing sets it. *)
From Coq Require Import String Ascii List Arith NArith Bool.
From Verif Require Import Base MsgModel Decimal10.
Import ListNotations.
Open Scope list_scope.

Record client := {
  entity : str;                (* m_entityIdString *)
  service : str;               (* m_serviceIdString *)
  staged : list str;           (* m_preStartLmcpSubscriptionAddresses *)
  created : bool;              (* initializeNetworkClient was called *)
  started : bool;              (* m_isThreadStarted *)
  addresses : list str;        (* m_subscriptionAddresses *)
  socket : list str;           (* the subscriptions of the SUB socket *)
  queue : list str;            (* what the SUB socket holds *)
  recvd : list aamsg;          (* m_recvdMsgs *)
  hung : bool                  (* the client is in an endless loop *)
}.

Inductive event :=
| Add (a : str)            (* addSubscriptionAddress *)
| Remove (a : str)         (* removeSubscriptionAddress *)
| RemoveAll                (* removeAllSubscriptionAddresses *)
| Init                     (* initializeNetworkClient, the start of initializeAndStart *)
| Start                    (* the thread of the client starts *)
| Bus (text : str)         (* the hub publishes a message *)
| Get.                     (* getNextMessage *)

Inductive out :=
| Got (m : aamsg)
| Null.

Definition set_staged (c : client) (l : list str) : client :=
  {| entity := entity c; service := service c; staged := l; created := created c; started := started c;
     addresses := addresses c; socket := socket c; queue := queue c; recvd := recvd c; hung := hung c |}.
Definition set_subs (c : client) (a s : list str) : client :=
  {| entity := entity c; service := service c; staged := staged c; created := created c; started := started c;
     addresses := a; socket := s; queue := queue c; recvd := recvd c; hung := hung c |}.
Definition set_flags (c : client) (cr st h : bool) : client :=
  {| entity := entity c; service := service c; staged := staged c; created := cr; started := st;
     addresses := addresses c; socket := socket c; queue := queue c; recvd := recvd c; hung := h |}.
Definition set_queue (c : client) (q : list str) (r : list aamsg) : client :=
  {| entity := entity c; service := service c; staged := staged c; created := created c; started := started c;
     addresses := addresses c; socket := socket c; queue := q; recvd := r; hung := hung c |}.

Definition mem (a : str) (l : list str) : bool := existsb (str_eqb a) l.
Definition erase (a : str) (l : list str) : list str := filter (fun x => negb (str_eqb a x)) l.

(** The fields of a client (LmcpObjectNetworkClientBase.h:480-520) before configuration. *)
Definition init (e s : str) : client :=
  {| entity := e; service := s; staged := []; created := false; started := false;
     addresses := []; socket := []; queue := []; recvd := []; hung := false |}.

(** TransportReceiverBase::addSubscriptionAddress (20-31) with
    ZeroMqReceiverBase::addSubscriptionAddressToSocket (61-71); the socket is a SUB socket. *)
Definition receiver_add (c : client) (a : str) : client :=
  if mem a (addresses c) then c else set_subs c (a :: addresses c) (a :: socket c).

(** TransportReceiverBase::removeSubscriptionAddress (33-44) with
    removeSubscriptionAddressFromSocket (73-83). *)
Definition receiver_remove (c : client) (a : str) : client :=
  if mem a (addresses c) then set_subs c (erase a (addresses c)) (erase a (socket c)) else c.

(** LmcpObjectNetworkClientBase::addSubscriptionAddress (163-194). *)
Definition addSubscriptionAddress (c : client) (a : str) : client :=
  if started c then receiver_add c a
  else if mem a (staged c) then c else set_staged c (a :: staged c).

(** LmcpObjectNetworkClientBase::removeSubscriptionAddress (196-222). *)
Definition removeSubscriptionAddress (c : client) (a : str) : client :=
  if started c then receiver_remove c a else set_staged c (erase a (staged c)).

(** LmcpObjectNetworkClientBase::removeAllSubscriptionAddresses (224-247) with
    TransportReceiverBase::removeAllSubscriptionAddresses (46-58): the loop over the addresses does
    not advance. *)
Definition removeAllSubscriptionAddresses (c : client) : client :=
  if started c then
    match addresses c with
    | [] => c
    | _ => set_flags c (created c) (started c) true
    end
  else set_staged c [].

(** LmcpObjectNetworkClientBase::initializeNetworkClient (249-274). *)
Definition initializeNetworkClient (c : client) : client :=
  fold_left receiver_add (staged c) (set_flags c true (started c) (hung c)).

(** The part of getNextMessage that treats one message (127-152). *)
Definition receive (e s : str) (text : str) : list aamsg :=
  let '(m, ok) := setAamFromDelimitedString new_aam text in
  if ok then
    match aam_attrs m with
    | Some t => if negb (str_eqb e (at_entity t)) || negb (str_eqb s (at_service t)) then [m] else []
    | None => []
    end
  else [].

(** ZeroMqAddressedAttributedMessageReceiver::getNextMessage (26-165), not a stream.  When no message
    arrives within the poll time the call returns null. *)
Definition getNextMessage (c : client) : client * out :=
  match recvd c with
  | m :: r => (set_queue c (queue c) r, Got m)
  | [] =>
      match queue c with
      | [] => (c, Null)
      | text :: q =>
          match receive (entity c) (service c) text with
          | m :: r => (set_queue c q r, Got m)
          | [] => (set_queue c q [], Null)
          end
      end
  end.

Definition step (c : client) (ev : event) : client * list out :=
  if hung c then (c, [])
  else
    match ev with
    | Add a => (addSubscriptionAddress c a, [])
    | Remove a => (removeSubscriptionAddress c a, [])
    | RemoveAll => (removeAllSubscriptionAddresses c, [])
    | Init => (if created c then c else initializeNetworkClient c, [])
    | Start => (if created c then set_flags c true true false else c, [])
    | Bus text =>
        (if created c && existsb (fun p => is_prefix p text) (socket c)
         then set_queue c (queue c ++ [text]) (recvd c) else c, [])
    | Get => if created c then let (c', o) := getNextMessage c in (c', [o]) else (c, [])
    end.

(** LmcpObjectNetworkServer::executeNetworkServer (78-106), one turn: the hub receives with its own ids,
    the service id being 1 (LmcpObjectNetworkServer.h:112), and publishes what it received. *)
Definition hub (e : str) (text : str) : list str :=
  map aam_getString (receive e (to_string 1) text).

(** LmcpObjectNetworkClientBase.h:137-141. *)
Definition getEntityCastAddress (e : N) : str := lit "eid" ++ to_string e.
(** h:150-154. *)
Definition getEntityServicesCastAllAddress (e : N) : str := getEntityCastAddress e ++ lit ".sidall".
(** h:163-167; ids are not negative. *)
Definition getNetworkClientUnicastAddress (e n : N) : str := getEntityCastAddress e ++ lit ".sid" ++ to_string n.

(** The subscriptions every client makes (LmcpObjectNetworkClientBase.cpp:67-75). *)
Definition killService : str := lit "uxas.messages.uxnative.KillService".
Definition own_subscriptions (e n : N) : list str :=
  [getNetworkClientUnicastAddress e n; getEntityServicesCastAllAddress e; killService].

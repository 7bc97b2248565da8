(** Model of the filters of the bridges between entities,
    src/cpp/Communications/LmcpObjectNetwork{SubscribePush,PublishPull,Serial,Tcp,ZeroMqZyre}Bridge.cpp
    and ImpactSubscribePushBridge.cpp.

    The transports are not modelled: a message that one bridge exports may be imported by any other.
    The subscriptions of a bridge are not modelled either: a bridge may export any message of the bus of
    its entity, any number of times.  Both allow more than the code does.  Ids are numbers and addresses
    are told apart without spelling them out (NetModel has the spelling). *)
From Coq Require Import List ZArith Bool.
Import ListNotations.
Open Scope list_scope.
Open Scope Z_scope.

Inductive addr := Unicast (entity service : Z) | Topic (k : Z).

Definition addr_eqb (a b : addr) : bool :=
  match a, b with
  | Unicast e s, Unicast e' s' => (e =? e') && (s =? s')
  | Topic k, Topic k' => k =? k'
  | _, _ => false
  end.

(** The source attributes of an AddressedAttributedMessage; the rest is [body]. *)
Record msg := { to : addr; entity : Z; service : Z; body : Z }.

Inductive kind := SubscribePush | PublishPull | Serial | Tcp | Zyre | Impact.

(** The members the filters use: m_entityId, m_networkId, m_isConsideredSelfGenerated,
    m_messageAddressToAlias (TCP only) and m_externalID (Impact only). *)
Record bridge := {
  b_entity : Z; b_id : Z; b_kind : kind; b_self : bool;
  b_alias : list (addr * addr); b_external : Z }.

(** The default of m_isConsideredSelfGenerated: SubscribePush h:132, PublishPull h:131, Serial h:144,
    Tcp h:144, Zyre h:253, Impact h:141. *)
Definition default_self (k : kind) : bool :=
  match k with Serial | Tcp => true | _ => false end.

(** m_nonImportForwardAddresses and m_nonExportForwardAddresses hold the unicast address of the bridge
    (SubscribePush 109-110, PublishPull 91-92, Serial 95-96, Tcp 117-118, Zyre 146-147, Impact 122-123). *)
Definition own_address (b : bridge) (a : addr) : bool := addr_eqb a (Unicast (b_entity b) (b_id b)).

(** The self filter of a receiver with these ids
    (ZeroMqAddressedAttributedMessageReceiver::getNextMessage 140-146). *)
Definition own_message (b : bridge) (m : msg) : bool := (entity m =? b_entity b) && (service m =? b_id b).

(** A message of the bus of the entity on its way out: processReceivedSerializedLmcpMessage
    (SubscribePush 167-191, PublishPull 135-160, Serial 144-186, Tcp 156-197, Zyre 190-255, Impact 206-258). *)
Definition export (b : bridge) (m : msg) : option msg :=
  if own_message b m then None
  else
    match b_kind b with
    | Tcp | Impact => if own_address b (to m) then None else Some m
    | SubscribePush | PublishPull | Serial | Zyre =>
        if entity m =? b_entity b then if own_address b (to m) then None else Some m else None
    end.

(** updateSourceAttributes. *)
Definition resource (m : msg) (e s : Z) : msg := {| to := to m; entity := e; service := s; body := body m |}.

(** TCP 231-235. *)
Definition alias (b : bridge) (a : addr) : addr :=
  match find (fun p => addr_eqb (fst p) a) (b_alias b) with Some p => snd p | None => a end.

(** A message from outside on its way in (SubscribePush 196-236, PublishPull 163-203, Serial 189-236,
    Tcp 201-252, Zyre 407-447, Impact 261-305).  SubscribePush and PublishPull receive through a
    receiver with the self filter.  Impact builds a new message addressed to the type of its content
    (here [Topic (body m)]). *)
Definition accept (b : bridge) (m : msg) : option msg :=
  let relabel m := if b_self b then resource m (b_entity b) (b_id b) else m in
  match b_kind b with
  | SubscribePush | PublishPull =>
      if own_message b m || own_address b (to m) then None else Some (relabel m)
  | Serial => if own_address b (to m) then None else Some (relabel m)
  | Tcp =>
      if own_address b (to m) then None
      else let m := relabel m in
           Some {| to := alias b (to m); entity := entity m; service := service m; body := body m |}
  | Zyre =>
      if entity m =? b_entity b then None
      else if own_address b (to m) then None else Some (relabel m)
  | Impact =>
      Some {| to := Topic (body m); entity := if b_self b then b_entity b else b_external b;
              service := b_id b; body := body m |}
  end.

(** A message on the bus of an entity, with the bridges it came in through, the latest first. *)
Record copy := { on : Z; what : msg; via : list bridge }.

Inductive event :=
| Publish (e : Z) (m : msg)              (* a client of entity e sends m *)
| Inject (b : bridge) (m : msg)          (* m reaches b from a system that is no UxAS entity *)
| Cross (c : copy) (b b' : bridge).      (* b exports c and b' imports it *)

Definition step (s : list copy) (ev : event) : list copy :=
  match ev with
  | Publish e m => {| on := e; what := m; via := [] |} :: s
  | Inject b m =>
      match accept b m with
      | Some m' => {| on := b_entity b; what := m'; via := [b] |} :: s
      | None => s
      end
  | Cross c b b' =>
      match (if on c =? b_entity b then export b (what c) else None) with
      | Some m =>
          match accept b' m with
          | Some m' => {| on := b_entity b'; what := m'; via := b' :: via c |} :: s
          | None => s
          end
      | None => s
      end
  end.

Definition run (evs : list event) : list copy := fold_left step evs [].

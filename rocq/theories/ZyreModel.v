(** Model of the peers of a Zyre bridge, /repo/src/cpp/Communications/
    LmcpObjectNetworkZeroMqZyreBridge.cpp:107-403 with ZeroMqZyreBridge.cpp:204-352: which peers are
    connected, which addresses they want, to which addresses the bridge subscribes on the local
    network, and to whom a local message is sent.  What is imported from peers is in BridgeModel.

    Simplifications: peers (Zyre UUIDs), labels and entity ids are integers; addresses are lists of
    character codes; a header is given by its values, the list of addresses being the result of
    splitting the header's value (305; see C05); that the handlers run in the thread of Zyre and
    change the subscriptions of the socket of the bridge's thread is not modelled, handlers and
    local messages exclude each other by [m_mutex] (224, 264, 354). *)
From Coq Require Import List ZArith Bool.
From Verif Require Import ZMap Run.
Import ListNotations.
Open Scope list_scope.
Open Scope Z_scope.

Definition addr := list Z.
Definition addr_dec : forall a b : addr, {a = b} + {a <> b} := list_eq_dec Z.eq_dec.
Definition aeq (a b : addr) : bool := if addr_dec a b then true else false.
Definition ain (a : addr) (l : list addr) : bool := existsb (aeq a) l.

(** [std::string::compare(0, n, p) == 0] on the first [n = p.size()] characters,
    LmcpObjectNetworkZeroMqZyreBridge.cpp:228-229 *)
Fixpoint prefix (p a : addr) : bool :=
  match p, a with
  | [], _ => true
  | x :: p', y :: a' => (x =? y) && prefix p' a'
  | _ :: _, [] => false
  end.

(** Events: a peer enters, with the entity id of its header, [None] if it is no number, its label
    and the addresses it wants; a peer leaves; a message arrives from the local network. *)
Inductive ev :=
| Enter (u : Z) (id : option Z) (label : Z) (wants : list addr)
| Exit (u : Z)
| Local (source : Z) (a : addr) (m : Z).

Inductive out :=
| Join (id label : Z)          (* EntityJoin broadcast on the local network *)
| Leave (id label : Z)         (* EntityExit *)
| Whisper (u : Z) (m : Z).     (* the message is sent to a peer *)

(** LmcpObjectNetworkZeroMqZyreBridge.h:232-253, TransportReceiverBase.h (the subscriptions), and
    whether the thread of Zyre still runs. *)
Record st := {
  peers : zmap (Z * Z);              (* m_remoteEntityTypeIdsByZyreUuids: id and label *)
  table : list (addr * list Z);      (* m_remoteZyreUuidsBySubscriptionAddress *)
  subs : list addr;                  (* m_subscriptionAddresses *)
  alive : bool
}.

Section Zyre.
  (** The own entity id; the subscriptions of any client (LmcpObjectNetworkClientBase.cpp:66-75) and
      those configured (107-176); the addresses not exported (221); the iteration order of the
      table. *)
  Context (entity : Z) (base configured noExport : list addr).
  Context (ord : list (addr * list Z) -> list (addr * list Z)).

  (** LmcpObjectNetworkZeroMqZyreBridge.cpp:107-176 *)
  Definition init : st := {| peers := []; table := []; subs := base ++ configured; alive := true |}.

  (** [unordered_map::find] *)
  Fixpoint lookup (t : list (addr * list Z)) (a : addr) : option (list Z) :=
    match t with
    | [] => None
    | (b, us) :: t' => if aeq a b then Some us else lookup t' a
    end.

  (** TransportReceiverBase.cpp:20-44 *)
  Definition subscribe (s : list addr) (a : addr) : list addr := if ain a s then s else a :: s.
  Definition unsubscribe (s : list addr) (a : addr) : list addr := filter (fun b => negb (aeq a b)) s.

  (** LmcpObjectNetworkZeroMqZyreBridge.cpp:315-338, one address of a peer that enters. *)
  Definition want (u : Z) (x : list (addr * list Z) * list addr) (a : addr) :=
    let (t, s) := x in
    match lookup t a with
    | None => ((a, [u]) :: t, subscribe s a)
    | Some _ => (map (fun y => if aeq a (fst y) then (fst y, zadd u (snd y)) else y) t, s)
    end.

  (** LmcpObjectNetworkZeroMqZyreBridge.cpp:257-348.  An entity id that is no number throws (271),
      which ends the thread (ZeroMqZyreBridge.cpp:348-351); [std::unordered_map::find] of the header
      never fails since every key is looked up and stored, possibly empty (ZeroMqZyreBridge.cpp:239-245). *)
  Definition enter (s : st) (u : Z) (id : option Z) (label : Z) (wants : list addr) : st * list out :=
    match id with
    | None => ({| peers := peers s; table := table s; subs := subs s; alive := false |}, [])
    | Some i =>
        if i =? entity then (s, [])
        else
          let (t, ss) := fold_left (want u) wants (table s, subs s) in
          ({| peers := zset (peers s) u (i, label); table := t; subs := ss; alive := true |}, [Join i label])
    end.

  (** LmcpObjectNetworkZeroMqZyreBridge.cpp:356-383, one entry of the table. *)
  Definition drop (u : Z) (y : addr * list Z) (x : list (addr * list Z) * list addr) :=
    let (t, s) := x in
    match zrem u (snd y) with
    | [] => (t, if ain (fst y) configured then s else unsubscribe s (fst y))
    | us => ((fst y, us) :: t, s)
    end.

  (** LmcpObjectNetworkZeroMqZyreBridge.cpp:350-403.  [std::stoi] of an id that does not fit an int
      throws (391), before the peer is removed, and ends the thread. *)
  Definition exit (s : st) (u : Z) : st * list out :=
    let (t, ss) := fold_right (drop u) ([], subs s) (table s) in
    match zget (peers s) u with
    | None => ({| peers := peers s; table := t; subs := ss; alive := true |}, [])
    | Some (i, label) =>
        if i <? 2147483648
        then ({| peers := zdel (peers s) u; table := t; subs := ss; alive := true |}, [Leave i label])
        else ({| peers := peers s; table := t; subs := ss; alive := false |}, [])
    end.

  (** LmcpObjectNetworkZeroMqZyreBridge.cpp:225-242: the peers, each once. *)
  Definition targets (t : list (addr * list Z)) (a : addr) : list Z :=
    fold_left (fun l y => if prefix (fst y) a then fold_left (fun l u => if zin u l then l else l ++ [u]) (snd y) l
                          else l) t [].

  (** LmcpObjectNetworkZeroMqZyreBridge.cpp:189-255; only messages of an address subscribed to
      arrive (ZeroMQ, see NetModel). *)
  Definition local (s : st) (source : Z) (a : addr) (m : Z) : list out :=
    if existsb (fun p => prefix p a) (subs s) then
      if (source =? entity) && negb (ain a noExport)
      then map (fun u => Whisper u m) (targets (ord (table s)) a) else []
    else [].

  Definition step (s : st) (e : ev) : st * list out :=
    match e with
    | Enter u id label wants => if alive s then enter s u id label wants else (s, [])
    | Exit u => if alive s then exit s u else (s, [])
    | Local source a m => (s, local s source a m)
    end.

  Definition history (evs : list ev) : list (ev * list out) := snd (run step init evs).
  (** The subscriptions after the events. *)
  Definition subscriptions (evs : list ev) : list addr := subs (fst (run step init evs)).
End Zyre.

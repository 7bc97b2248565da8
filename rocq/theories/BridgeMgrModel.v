(** Model of the bridges (Communications/LmcpObjectNetworkBridgeManager.cpp): starting those of the configuration (89-130), asking them to
    end (48-67), letting go of those that ended (69-88), bridges for tests (132-175), and of a bridge what is set by
    LmcpObjectNetworkClientBase.cpp (34-39, 49-75) and how it takes a message to end (380-395).

    Whether a bridge can be configured and started is decided by the bridge and the network, so it is a parameter that may depend on its
    number and its element.  Starting the bridges is one step: no other client is made meanwhile.  An end by other means than a message
    is possible at any time.  The elements are those of [ConfigModel]; subscriptions are as in [NetModel]. *)
From Coq Require Import List NArith String Bool.
From Verif Require Import Base Decimal10 NetModel ConfigModel.
Import ListNotations.
Open Scope string_scope.
Open Scope list_scope.
Open Scope N_scope.

(** UINT32_MAX *)
Definition max32 : N := 4294967295.
Definition wrap32 (n : N) : N := n mod 4294967296.

(** What is kept of a bridge: m_entityId, m_networkId, m_networkIdString, m_networkClientTypeName, the addresses subscribed to. *)
Record bridge := { g_entity : N; g_net : N; g_text : str; g_type : string; g_subs : list str }.

(** LmcpObjectNetworkBridgeManager.cpp:187-213: the kinds of bridges *)
Definition kinds : list string :=
  ["LmcpObjectNetworkSerialBridge"; "LmcpObjectNetworkTcpBridge"; "LmcpObjectNetworkSubscribePushBridge";
   "LmcpObjectNetworkPublishPullBridge"; "LmcpObjectNetworkZeroMqZyreBridge"; "ImpactSubscribePushBridge"].

(** LmcpObjectNetworkClientBase.cpp:34-39, 49-75: a bridge once it is made and configured *)
Definition configured (me id : N) (type : string) : bridge :=
  {| g_entity := me; g_net := id; g_text := to_string id; g_type := type; g_subs := own_subscriptions me id |}.

(** LmcpObjectNetworkBridgeManager.cpp:220-229: a bridge for tests is given another entity and number; the text of the number stays *)
Definition renumbered (b : bridge) (e n : N) : bridge :=
  {| g_entity := e; g_net := n; g_text := g_text b; g_type := g_type b;
     g_subs := getNetworkClientUnicastAddress e n ::
       filter (fun a => negb (str_eqb a (getNetworkClientUnicastAddress (g_entity b) (g_net b)))) (g_subs b) |}.

(** LmcpObjectNetworkClientBase.cpp:382-395, for a message KillService with the number [id] sent to [a] *)
Definition obeys (b : bridge) (m : str * N) : bool :=
  existsb (fun p => is_prefix p (fst m)) (g_subs b) && str_eqb (g_text b) (to_string (snd m)).

Record mgr := { next : N; running : list (N * bridge); started : bool; ended : list N }.
(** LmcpObjectNetworkBridgeManager.h and LmcpObjectNetworkClientBase.cpp:32: the first number *)
Definition idle : mgr := {| next := 10; running := []; started := false; ended := [] |}.

Section Manager.
  Context (works : N -> node -> bool) (me : N).

  (** LmcpObjectNetworkBridgeManager.cpp:173-258: the bridge, if any, and the next number *)
  Definition create (nx : N) (x : node) (e n : N) : option bridge * N :=
    if (nd_name x =? "Bridge")%string then
      let type := match attribute x "Type" with Some s => s | None => "" end in
      if existsb (String.eqb type) kinds then
        let b := configured me nx type in
        let b' := if (e <? max32) && (n <? max32) then renumbered b e n else b in
        ((if works nx x then Some b' else None), wrap32 (nx + 1))
      else (None, nx)
    else (None, nx).

  (** std::unordered_map::emplace: the bridge before stays *)
  Definition emplace (l : list (N * bridge)) (b : bridge) : list (N * bridge) :=
    if existsb (fun p => fst p =? wrap32 (g_net b))%N l then l else l ++ [(wrap32 (g_net b), b)].

  (** LmcpObjectNetworkBridgeManager.cpp:98-117, the loop *)
  Fixpoint begin_all (nx : N) (l : list (N * bridge)) (xs : list node) : N * list (N * bridge) :=
    match xs with
    | [] => (nx, l)
    | x :: t => match create nx x max32 max32 with
                | (Some b, nx') => begin_all nx' (emplace l b) t
                | (None, nx') => begin_all nx' l t
                end
    end.

  (** LmcpObjectNetworkBridgeManager.cpp:89-130; [None] if no bridges are enabled *)
  Definition initialize (s : mgr) (enabled : option node) : mgr * bool :=
    if started s then (s, false)
    else match enabled with
         | Some a => let '(nx, l) := begin_all (next s) (running s) (nd_kids a) in
                     ({| next := nx; running := l; started := true; ended := ended s |}, true)
         | None => ({| next := next s; running := running s; started := true; ended := ended s |}, true)
         end.

  Definition has_ended (s : mgr) (n : N) : bool := existsb (N.eqb n) (ended s).

  (** LmcpObjectNetworkBridgeManager.cpp:48-67: the messages KillService, each with its address *)
  Definition terminate_all (s : mgr) : list (str * N) :=
    map (fun p => (getNetworkClientUnicastAddress (g_entity (snd p)) (g_net (snd p)), g_net (snd p)))
      (filter (fun p => negb (has_ended s (fst p))) (running s)).

  (** LmcpObjectNetworkBridgeManager.cpp:69-88: how many run and how many ended are added to the counts *)
  Definition remove_terminated (s : mgr) (run fin : N) : mgr * (N * N) :=
    let keep := filter (fun p => negb (has_ended s (fst p))) (running s) in
    let gone := filter (fun p => has_ended s (fst p)) (running s) in
    ({| next := next s; running := keep; started := started s; ended := ended s |},
     (run + N.of_nat (List.length keep), fin + N.of_nat (List.length gone))).

  (** LmcpObjectNetworkBridgeManager.cpp:132-175, for the elements of the document *)
  Fixpoint test_bridges (nx : N) (xs : list node) (e n : N) (l : list (N * bridge)) : N * list (N * bridge) :=
    match xs with
    | [] => (nx, l)
    | x :: t => if (nd_name x =? "Bridge")%string then
                  match create nx x e n with
                  | (Some b, nx') => test_bridges nx' t e (wrap32 (n + 1)) (emplace l b)
                  | (None, nx') => test_bridges nx' t e (wrap32 (n + 1)) l
                  end
                else test_bridges nx t e n l
    end.

  (** What happens: the bridges are started, another client is made, a running bridge ends, those that ended are let go. *)
  Inductive event := Initialize (enabled : option node) | Client | Ends (n : N) | Remove.
  Definition step (s : mgr) (ev : event) : mgr :=
    match ev with
    | Initialize a => fst (initialize s a)
    | Client => {| next := wrap32 (next s + 1); running := running s; started := started s; ended := ended s |}
    | Ends n => if existsb (fun p => fst p =? n)%N (running s)
                then {| next := next s; running := running s; started := started s; ended := n :: ended s |} else s
    | Remove => fst (remove_terminated s 0 0)
    end.
  Definition after (h : list event) : mgr := fold_left step h idle.
End Manager.

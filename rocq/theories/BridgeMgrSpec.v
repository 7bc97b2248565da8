(** What is meant by the bridges of a configuration. *)
From Coq Require Import List NArith String.
From Verif Require Import ConfigModel ConfigSpec BridgeMgrModel.
Import ListNotations.
Open Scope string_scope.
Open Scope list_scope.
Open Scope N_scope.

Definition bridge_kind (t : string) : Prop :=
  t = "LmcpObjectNetworkSerialBridge" \/ t = "LmcpObjectNetworkTcpBridge" \/ t = "LmcpObjectNetworkSubscribePushBridge" \/
  t = "LmcpObjectNetworkPublishPullBridge" \/ t = "LmcpObjectNetworkZeroMqZyreBridge" \/ t = "ImpactSubscribePushBridge".
(** An element for a bridge of a known kind. *)
Definition for_bridge (x : node) : Prop := nd_name x = "Bridge" /\ exists t, gives x "Type" t /\ bridge_kind t.

(** The bridges that are tried, in order, with numbers from [n] on; the number after them. *)
Inductive tried : N -> list node -> list (N * node) -> N -> Prop :=
| tried_end n : tried n [] [] n
| tried_other n x xs l n' : ~ for_bridge x -> tried n xs l n' -> tried n (x :: xs) l n'
| tried_one n x xs l n' : for_bridge x -> tried ((n + 1) mod 2 ^ 32) xs l n' -> tried n (x :: xs) ((n, x) :: l) n'.

(** The same for tests: the elements for bridges of any kind are numbered from [k] on. *)
Inductive tested : N -> N -> list node -> list (N * N * node) -> Prop :=
| tested_end n k : tested n k [] []
| tested_other n k x xs l : nd_name x <> "Bridge" -> tested n k xs l -> tested n k (x :: xs) l
| tested_unknown n k x xs l : nd_name x = "Bridge" -> ~ for_bridge x -> tested n (k + 1) xs l -> tested n k (x :: xs) l
| tested_one n k x xs l : for_bridge x -> tested ((n + 1) mod 2 ^ 32) (k + 1) xs l -> tested n k (x :: xs) ((k, n, x) :: l).

(** The bridges are not started in [h]. *)
Definition not_begun (h : list event) : Prop := forall a, ~ In (Initialize a) h.
(** Bridge [n] ended and those that ended were let go later. *)
Definition let_go (n : N) (h : list event) : Prop := exists u v w, h = u ++ Ends n :: v ++ Remove :: w.
Definition number_of (s : mgr) (n : N) : Prop := exists b, In (n, b) (running s).

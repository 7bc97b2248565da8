(** Ways of meeting at given places. *)
From Coq Require Import String Ascii List ZArith Permutation.
From Verif Require Import Base AlgebraModel AlgebraSpec FormulaSpec RendezvousModel.
Import ListNotations.
Open Scope list_scope.
Open Scope Z_scope.

(** Place [i] is for every vehicle or for vehicle [v]. *)
Definition suits (states : list Z) (v : Z) (i : nat) : Prop := nth_error states i = Some 0 \/ nth_error states i = Some v.

(** The places for a vehicle, in order. *)
Definition places (states : list Z) (v : Z) (l : list nat) : Prop :=
  NoDup l /\ (forall i, In i l <-> suits states v i) /\ (forall a b i j, l = a ++ i :: b -> In j b -> (i < j)%nat).

(** One option for every vehicle at every place for it, numbered from 10 on. *)
Definition complete (l : list option_) (eligible : list Z) (states : list Z) : Prop :=
  map o_id l = map (fun n => 10 + Z.of_nat n) (seq 0 (length l))
  /\ NoDup (map (fun x => (o_vehicle x, o_state x)) l)
  /\ forall v i, In (v, i) (map (fun x => (o_vehicle x, o_state x)) l) <-> In v eligible /\ suits states v i.

(** A way for [k] vehicles to meet: different vehicles, of which one goes to its first place, one to its second, up to its last. *)
Definition meeting (eligible states : list Z) (k : nat) (w : list (Z * nat)) : Prop :=
  NoDup (map fst w) /\ Permutation (map snd w) (seq 0 k)
  /\ forall v j, In (v, j) w -> In v eligible /\ exists l i, places states v l /\ nth_error l j = Some i.

(** The actions are the options of the vehicles at those places. *)
Definition done_by (l : list option_) (states : list Z) (t : list Z) (w : list (Z * nat)) : Prop :=
  Forall2 (fun a p => exists x ps, In x l /\ o_id x = a /\ o_vehicle x = fst p /\ places states (fst p) ps
                                   /\ nth_error ps (snd p) = Some (o_state x)) t w.

(** The text writes an expression, possibly with a space behind it. *)
Definition reads (c : str) (e : expr) : Prop := exists s, writes e s /\ (c = s \/ c = s ++ [" "%char]).

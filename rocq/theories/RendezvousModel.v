(** Model of the options that a rendezvous offers, /repo/src/cpp/Tasks/RendezvousTask.cpp:188-346
    (buildTaskPlanOptions, without the parts for AFRL_INTERNAL_ENABLED), called for each request of the task.

    The eligible vehicles come in groups of the same speed and altitude, in the order in which the map of groups is gone through.
    The order in which the map of options by vehicle is gone through is a parameter.  Of a rendezvous state only the vehicle it is for
    counts; options name its position in the list.  It is taken that fewer than 256 vehicles have options, so the counters of one byte
    do not wrap; option numbers are unbounded.  An index that is out of range throws an exception: then nothing is published,
    as the loop of the service catches it and goes on with the next message (LmcpObjectNetworkClientBase.cpp:313-316). *)
From Coq Require Import String Ascii List ZArith Bool.
From Verif Require Import Base FormulaModel.
Import ListNotations.
Open Scope list_scope.
Open Scope Z_scope.

Record option_ := { o_id : Z; o_vehicle : Z; o_state : nat }.

(** 193: the first number of an option (TaskServiceBase.cpp:51). *)
Definition first_option : Z := 10.

(** 208-217, 250-253: the options of one vehicle for the states from number [i] on, each either for any vehicle or for one. *)
Fixpoint of_vehicle (v : Z) (i : nat) (states : list Z) (o : Z) : list option_ :=
  match states with
  | [] => []
  | p :: states => if (p =? 0) || (p =? v) then {| o_id := o; o_vehicle := v; o_state := i |} :: of_vehicle v (S i) states (o + 1)
                   else of_vehicle v (S i) states o
  end.

(** 202-257: the loops over the vehicles. *)
Fixpoint of_vehicles (vs : list Z) (states : list Z) (o : Z) : list option_ :=
  match vs with
  | [] => []
  | v :: vs => let l := of_vehicle v 0 states o in l ++ of_vehicles vs states (o + Z.of_nat (length l))
  end.
Definition options (groups : list (list Z)) (states : list Z) : list option_ := of_vehicles (concat groups) states first_option.

(** 252: what is entered for a vehicle. *)
Definition ids (l : list option_) (v : Z) : list Z := map o_id (filter (fun x => o_vehicle x =? v) l).

(** 259-277: the check for consistency; the result is [rStateSize]. *)
Fixpoint consistent (k r : nat) (sizes : list nat) : option nat :=
  match sizes with
  | [] => Some r
  | n :: sizes => if Nat.eqb r n then consistent k r sizes
                  else if Nat.eqb r 1 && Nat.eqb n k then consistent k n sizes else None
  end.

(** The last element of a list with a property, with what is before and behind it. *)
Fixpoint split_last {A} (p : A -> bool) (l : list A) : option (list A * A * list A) :=
  match l with
  | [] => None
  | x :: l => match split_last p l with
              | Some (a, y, b) => Some (x :: a, y, b)
              | None => if p x then Some ([], x, l) else None
              end
  end.

(** [std::next_permutation] of the C++ library for an order, without the reset after the last one; with the order turned round it is
    [std::prev_permutation]. *)
Fixpoint next_by {A} (lt : A -> A -> bool) (l : list A) : option (list A) :=
  match l with
  | [] => None
  | x :: t => match next_by lt t with
              | Some t' => Some (x :: t')
              | None => match split_last (lt x) t with
                        | Some (a, y, b) => Some (y :: rev (a ++ x :: b))
                        | None => None
                        end
              end
  end.
Definition next_order : list nat -> option (list nat) := next_by Nat.ltb.
Definition prev_mask : list bool -> option (list bool) := next_by (fun a b => a && negb b).

(** 330-338: the inner loop, from a mask on; [n] is how far the counter is from its limit, which the loop meets only after a turn. *)
Fixpoint masks (n : nat) (m : list bool) : list (list bool) :=
  m :: match n with
       | O => []
       | S n => if Nat.eqb n 0 then [] else match prev_mask m with Some m' => masks n m' | None => [] end
       end.

(** 325-339: the outer loop; each turn is a mask of vehicles with an order of the states. *)
Fixpoint turns (fuel n : nat) (mask : list bool) (order : list nat) : list (list bool * list nat) :=
  let ms := masks n mask in
  map (fun m => (m, order)) ms
  ++ match fuel with
     | O => []
     | S fuel => if Nat.leb n (length ms) then [] else
                 match next_order order with Some order' => turns fuel (n - length ms) mask order' | None => [] end
     end.

(** 328-329: [k] ones cut to [n] places or filled with zeros. *)
Definition first_mask (n k : nat) : list bool := firstn n (repeat true k ++ repeat false n).

(** 311, 320-322. *)
Definition limit : nat := 64.
Definition all_turns (n k : nat) : list (list bool * list nat) := turns limit limit (first_mask n k) (seq 0 k).

(** 332-335: the options of one turn: those vehicles that are marked, each with the next of the states; no result if an index is out of
    range. *)
Fixpoint pick (vss : list (list Z)) (mask : list bool) (order : list nat) : option (list Z) :=
  match vss, mask with
  | os :: vss, true :: mask =>
    match order with
    | [] => None
    | s :: order => match nth_error os s, pick vss mask order with Some o, Some l => Some (o :: l) | _, _ => None end
    end
  | _ :: vss, false :: mask => pick vss mask order
  | _, _ => Some []
  end.
Fixpoint picks (vss : list (list Z)) (ts : list (list bool * list nat)) : option (list (list Z)) :=
  match ts with
  | [] => Some []
  | (m, o) :: ts => match pick vss m o, picks vss ts with Some l, Some ls => Some (l :: ls) | _, _ => None end
  end.

(** 297-300, 331-336: a group of options that are done one after the other. *)
Definition group (l : list Z) : str := lit ".( " ++ concat (map (fun o => lit "p" ++ to_string_Z o ++ lit " ") l) ++ lit ")".

(** 289-341: the composition. *)
Definition composition (k r : nat) (vss : list (list Z)) : option str :=
  if Nat.eqb r 1 && Nat.eqb k (length vss) then
    match picks vss [(repeat true k, repeat 0%nat k)] with Some [l] => Some (group l) | _ => None end
  else
    match picks vss (all_turns (length vss) k) with
    | Some ls => Some (lit "+( " ++ concat (map (fun l => group l ++ lit " ") ls) ++ lit ") ")
    | None => None
    end.

Section Order.
  (** The order in which the map from vehicles to their options is gone through. *)
  Context (order : list Z -> list Z).

  (** The vehicles with options. *)
  Definition vehicles (l : list option_) : list Z := nodup Z.eq_dec (map o_vehicle l).

  (** 188-346: the message, or nothing. *)
  Definition offer (groups : list (list Z)) (states : list Z) (k : nat) : option (list option_ * str) :=
    let l := options groups states in
    let vss := map (ids l) (order (vehicles l)) in
    match consistent k 1 (map (@length Z) vss) with
    | None => Some ([], [])
    | Some r => match composition k r vss with Some c => Some (l, c) | None => None end
    end.
End Order.

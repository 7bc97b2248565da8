(** What is configured. *)
From Coq Require Import List ZArith Bool.
From Verif Require Import SendMsgModel.
Import ListNotations.
Open Scope Z_scope.

Definition is_u32 (x : Z) : Prop := 0 <= x <= 4294967295.

Definition good (e : entry) : Prop :=
  (forall x, a_time e = Some x -> is_u32 x) /\ (forall x, a_period e = Some x -> is_u32 x) /\
  (forall x, a_times e = Some x -> is_u32 x).

(** How often an entry is to be sent: with a period, the given number of times, but at least once; by
    default 2^32-1 times.  Otherwise once. *)
Definition expected (e : entry) : Z :=
  match a_time e, a_period e with
  | None, Some _ => match a_times e with Some n => Z.max 1 n | None => 4294967295 end
  | _, _ => 1
  end.

(** When it is due for the (j+1)-th time, in milliseconds from the start. *)
Definition due (e : entry) (j : Z) : Z :=
  match a_time e, a_period e with
  | Some t, _ => t
  | None, Some p => j * p
  | None, None => 0
  end.

(** The times at which the message of the i-th entry was sent. *)
Definition sends_of (i : nat) (o : list (Z * nat)) : list Z :=
  map fst (filter (fun p => Nat.eqb (snd p) i) o).

(** What thinning a line means, in terms of places only. *)
From Coq Require Import Reals List ZArith.
Import ListNotations.
Open Scope R_scope.

Notation place := (R * R)%type.

Definition away (a b : place) : R := sqrt ((fst b - fst a) ^ 2 + (snd b - snd a) ^ 2).

(** A micrometre. *)
Definition tiny : R := / 10 ^ 6.

(** The place that is [t] of the way from [a] to [c]. *)
Definition along (a c : place) (t : R) : place := (fst a + t * (fst c - fst a), snd a + t * (snd c - snd a)).

(** How far [b] is from the straight line through [a] and [c]; nothing if it is at one of them, and if these two are at the same
    place the distance from it. *)
Inductive off (a b c : place) : R -> Prop :=
| off_at : away a b < tiny \/ away b c < tiny -> off a b c 0
| off_loop : tiny <= away a b -> tiny <= away b c -> away a c < tiny -> off a b c (away a b)
| off_line d : tiny <= away a b -> tiny <= away b c -> tiny <= away a c ->
    (forall t, d <= away b (along a c t)) -> (exists t, d = away b (along a c t)) -> off a b c d.

(** Who goes from [a] over [b] to [c] turns by [t] at [b]. *)
Definition turns (a b c : place) (t : R) : Prop :=
  - PI <= t <= PI /\
  exists h r s, 0 < r /\ 0 < s /\ fst b = fst a + r * cos h /\ snd b = snd a + r * sin h /\
                fst c = fst b + s * cos (h - t) /\ snd c = snd b + s * sin (h - t).

(** [b] hardly matters between [a] and [c]: it is at one of them, or the turn is less than a tenth of a degree and [b] less than
    a metre off. *)
Definition slight (a b c : place) : Prop :=
  away a b < tiny \/ away b c < tiny \/
  ((exists t, turns a b c t /\ Rabs t < PI / 1800) /\ (exists d, off a b c d /\ d < 1)).

(** A way along a line is the list of the positions of its points in the line.  Some of the points of the line, in their order. *)
Fixpoint rising (ks : list nat) : Prop :=
  match ks with i :: ((j :: _) as r) => (i < j)%nat /\ rising r | _ => True end.

(** From the first point of a line to the last. *)
Definition spans (n : nat) (ks : list nat) : Prop := hd_error ks = Some 0%nat /\ hd_error (rev ks) = Some (n - 1)%nat /\ rising ks.

(** The length of the way over some points. *)
Fixpoint way (l : list place) : R := match l with a :: ((b :: _) as r) => away a b + way r | _ => 0 end.

Section Line.
  Context (n : nat) (line : nat -> place) (stays : nat -> bool).

  (** The largest distance of a point of the line between two positions from the straight line between them. *)
  Definition loss (i k : nat) (e : R) : Prop :=
    (exists j, (i < j < k)%nat /\ off (line i) (line j) (line k) e) /\
    forall j d, (i < j < k)%nat -> off (line i) (line j) (line k) d -> d <= e.

  (** In a way [l1 ++ [i; j; k] ++ l2] leaving out [j] loses [e]. *)
  Inductive costs (ks : list nat) : list nat -> nat -> R -> Prop :=
  | costs_at l1 i j k l2 e : ks = l1 ++ [i; j; k] ++ l2 -> stays j = false -> loss i k e -> costs ks (l1 ++ [i; k] ++ l2) j e.

  (** One point is left out: the first of those that lose least. *)
  Definition drop (ks ks' : list nat) : Prop :=
    exists j e, costs ks ks' j e /\
      forall ks2 j2 e2, costs ks ks2 j2 e2 -> e <= e2 /\ ((j2 < j)%nat -> e < e2).

  (** As long as there are more than [most], if there is one to leave out. *)
  Inductive drops (most : Z) : list nat -> list nat -> Prop :=
  | drops_few ks : (Z.of_nat (length ks) <= most)%Z -> drops most ks ks
  | drops_none ks : (forall l1 i j k l2, ks = l1 ++ [i; j; k] ++ l2 -> stays j = true) -> drops most ks ks
  | drops_step ks ks' ks2 : (most < Z.of_nat (length ks))%Z -> drop ks ks' -> drops most ks' ks2 -> drops most ks ks2.
End Line.

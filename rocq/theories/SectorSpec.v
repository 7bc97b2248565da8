(** What a sector pattern is for, in metres north and east. *)
From Coq Require Import Reals List ZArith.
Import ListNotations.
Open Scope R_scope.

(** The point at the fraction [t] of the way from [a] to [b]. *)
Definition on_way (a b : R * R) (t : R) : R * R := (fst a + t * (fst b - fst a), snd a + t * (snd b - snd a)).

(** Somewhere on the way from [a] to [b], [p] is [ahead] metres ahead and [aside] metres to the side. *)
Definition passes (a b p : R * R) (ahead aside : R) : Prop :=
  a <> b /\
  let n := fst b - fst a in let e := snd b - snd a in let len := sqrt (n * n + e * e) in
  exists t, 0 <= t <= 1 /\ let q := on_way a b t in
    ((fst p - fst q) * n + (snd p - snd q) * e) / len = ahead /\
    Rabs ((fst p - fst q) * e - (snd p - snd q) * n) / len = aside.

(** No further than [r] away. *)
Definition within (c p : R * R) (r : R) : Prop := (fst p - fst c) ^ 2 + (snd p - snd c) ^ 2 <= r ^ 2.

(** The compass course, in radians, from [a] to [b]. *)
Definition compass (a b : R * R) (c : R) : Prop :=
  let len := sqrt ((fst b - fst a) * (fst b - fst a) + (snd b - snd a) * (snd b - snd a)) in
  0 < len /\ fst b - fst a = len * cos c /\ snd b - snd a = len * sin c.

(** Half a turn, to eleven decimals. *)
Definition half_turn : R := 3.14159265359.

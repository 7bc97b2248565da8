(** Where the target of an overwatch task should be taken to be. *)
From Coq Require Import Reals List ZArith.
From Verif Require Import FlatEarthModel OverwatchModel.
Import ListNotations.
Open Scope R_scope.

(** The states of the target that count: not those near latitude and longitude zero. *)
Inductive counted (v : Z) : list ev -> list track -> Prop :=
| none : counted v [] []
| one h l k : counted v h l -> 1 / 100 <= Rabs (lat k) \/ 1 / 100 <= Rabs (lon k) -> counted v (h ++ [Seen v k]) (l ++ [k])
| near_zero h l k : counted v h l -> Rabs (lat k) < 1 / 100 -> Rabs (lon k) < 1 / 100 -> counted v (h ++ [Seen v k]) l
| other h l u k : counted v h l -> u <> v -> counted v (h ++ [Seen u k]) l
| ask h l t : counted v h l -> counted v (h ++ [Ask t]) l.

(** The last one: [known] is what was known at the beginning. *)
Definition newest (known : option track) (l : list track) (k : track) : Prop := (exists l', l = l' ++ [k]) \/ l = [] /\ known = Some k.
(** [w] are the last four, or all if there are less. *)
Definition recent (l w : list track) : Prop := exists l', l = l' ++ w /\ (length w <= 4)%nat /\ (l' = [] \/ length w = 4%nat).

(** The converter with its origin at [p], see C73. *)
Definition around (p : track) : earth := initialize (lat p * deg_to_rad) (lon p * deg_to_rad) fresh.
(** Meters to the north and to the east from [p] to [c]. *)
Definition moved (p c : track) : R * R := snd (deg_ne_m (lat c) (lon c) (around p)).

(** [u] is the direction of [d], up to a billionth; east if [d] is zero. *)
Definition size (d : R * R) : R := sqrt (fst d ^ 2 + snd d ^ 2).
Definition near (u w : R * R) : Prop := size (fst u - fst w, snd u - snd w) <= / 10 ^ 9.
Definition toward (d u : R * R) : Prop :=
  exists w, size w = 1 /\ d = (size d * fst w, size d * snd w) /\ (size d = 0 -> w = (0, 1)) /\ near u w.
(** Speed in meters per second and direction of a way [d] that takes [dt] milliseconds. *)
Definition motion (d : R * R) (dt : Z) (x : R * (R * R)) : Prop := fst x * IZR dt = 1000 * size d /\ toward d (snd x).

(** The movements between the states of a window that starts with [p]: those that take 10 to 4000 milliseconds; a state that is too early is
    left out.  [way] says how the way from one state to the next is computed. *)
Inductive motions (way : track -> track -> R * R) : track -> list track -> list (R * (R * R)) -> Prop :=
| done p : motions way p [] []
| too_early p c w l : (time c - time p < 10)%Z -> motions way p w l -> motions way p (c :: w) l
| too_late p c w l : (4000 < time c - time p)%Z -> motions way c w l -> motions way p (c :: w) l
| usable p c w l x : (10 <= time c - time p <= 4000)%Z -> motion (way p c) (time c - time p) x -> motions way c w l -> motions way p (c :: w) (x :: l).

Definition sum (l : list R) : R := fold_right Rplus 0 l.
(** The mean of some movements: the mean speed, and the direction of the sum of the directions; north if this is zero. *)
Definition mean (l : list (R * (R * R))) (x : R * (R * R)) : Prop :=
  l <> [] /\ fst x * INR (length l) = sum (map fst l)
  /\ let s := (sum (map (fun y => fst (snd y)) l), sum (map (fun y => snd (snd y)) l)) in
     exists w, size w = 1 /\ s = (size s * fst w, size s * snd w) /\ (size s = 0 -> w = (1, 0)) /\ near (snd x) w.

(** The movement that is expected from a window; none if there are no movements in it. *)
Definition expected (way : track -> track -> R * R) (w : list track) (x : R * (R * R)) : Prop :=
  exists l, match w with [] => l = [] | p :: rest => motions way p rest l end /\ (l = [] /\ fst x = 0 \/ mean l x).

(** [q] is the place of the target [dt] milliseconds after it was at [k], when it moves as expected. *)
Definition predicted (way : track -> track -> R * R) (k : track) (w : list track) (dt : Z) (q : R * R) : Prop :=
  (dt <= 100)%Z /\ q = (lat k, lon k)
  \/ (100 < dt)%Z /\ exists x, expected way w x /\ let d := fst x * IZR dt / 1000 in q = m_ll_deg (d * fst (snd x)) (d * snd (snd x)) (around k).

(** What the way is taken to be: too far to the west by the way to the north. *)
Definition skewed (p c : track) : R * R := (fst (moved p c), snd (moved p c) - fst (moved p c)).

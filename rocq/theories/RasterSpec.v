(** What an area search is for, in metres north and east. *)
From Coq Require Import Reals List ZArith.
From Verif Require Import RasterModel.
Import ListNotations.
Open Scope R_scope.

(** [b] follows [a] on the boundary; the first point follows the last one. *)
Definition next (ps : list (R * R)) (a b : R * R) : Prop :=
  (exists l r, ps = l ++ a :: b :: r) \/ (exists l, ps = l ++ [a] /\ hd_error ps = Some b).

(** Positive if [q] is to the left of the way from [a] to [b], for someone who looks at a map. *)
Definition left_of (a b q : R * R) : R := (snd b - snd a) * (fst q - fst a) - (fst b - fst a) * (snd q - snd a).

(** No side has points of the boundary to both sides: a convex polygon, passed counterclockwise or clockwise. *)
Definition convex (ps : list (R * R)) : Prop :=
  (forall a b q, next ps a b -> In q ps -> 0 <= left_of a b q) \/ (forall a b q, next ps a b -> In q ps -> left_of a b q <= 0).

(** The place is in the area: it is a mean of points of the boundary. *)
Inductive mean : list (R * R) -> R -> R * R -> Prop :=
| m_nil : mean [] 0 (0, 0)
| m_cons p ps w t s : 0 <= w -> mean ps t s -> mean (p :: ps) (w + t) (w * fst p + fst s, w * snd p + snd s).
Definition inside (ps : list (R * R)) (q : R * R) : Prop := mean ps 1 q.

(** How far a place is along and to the right of the direction with the angle [h] from north. *)
Definition along (h : R) (q : R * R) : R := fst q * cos h + snd q * sin h.
Definition across (h : R) (q : R * R) : R := snd q * cos h - fst q * sin h.

(** The area reaches from [w] to [e] across the direction [h]. *)
Definition reaches (h : R) (ps : list (R * R)) (w e : R) : Prop :=
  (forall p, In p ps -> w <= across h p <= e) /\ (exists p, In p ps /\ across h p = w) /\ (exists p, In p ps /\ across h p = e).

(** The place of the lane with number [i], counted from 0, across the direction of the lanes: from the west or from the east end of an
    area that reaches from [w] to [e]; an area that is narrower than [narrow] lanes gets its middle. *)
Definition lane (narrow : R) (west : bool) (w e width : R) (i : nat) : R :=
  (if Rlt_dec (e - w) (narrow * width) then (w + e) / 2 else if west then w + width / 2 else e - width / 2)
  + INR i * (if west then width else - width).

(** A leg is in the lane at [x], to within half a metre. *)
Definition in_the_lane (h x : R) (start stop : R * R) : Prop :=
  Rabs (across h start - x) <= 1 / 2 /\ Rabs (across h stop - x) <= 1 / 2.

(** The sensor looks at what is [trail] to [lead] before the vehicle: a leg up, or down, that begins with the leading edge
    before [q], if not more than half a metre behind it, and ends with the trailing edge behind it. *)
Definition sweeps_over (h lead trail : R) (up : bool) (start stop q : R * R) : Prop :=
  if up then along h start + lead - 1 / 2 <= along h q <= along h stop + trail + 1 / 2
  else along h stop - trail - 1 / 2 <= along h q <= along h start - lead + 1 / 2.

(** Lanes below which an area is narrow, whether the first lane is at the west end, whether it is flown upwards: the CMASI area search;
    the angled one for the four corners, which the number of the option selects. *)
Inductive scheme : service -> R -> bool -> bool -> Prop :=
| s_cmasi : scheme Cmasi 2 true true
| s_south_west i : Z.rem i 4 = 1%Z -> scheme (Angled i) (10 / 11) true true
| s_south_east i : Z.rem i 4 = 2%Z -> scheme (Angled i) (10 / 11) false true
| s_north_west i : Z.rem i 4 = 3%Z -> scheme (Angled i) (10 / 11) true false
| s_north_east i : Z.rem i 4 = 0%Z -> scheme (Angled i) (10 / 11) false false.

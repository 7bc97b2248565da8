(** Model of how a line search thins the line it is given, before it offsets the points: DPSS/DpssUtilities.cpp ([PreProcessPath],
    [ComputeSeperation], [RemoveZeroLengthSegments]), DPSS/PlanQuickly.cpp, and the calls of
    CmasiLineSearchTaskService.cpp:286-326 and ImpactLineSearchTaskService.cpp:300-340.

    Coordinates are real numbers and [dPi] is pi.  Left out: rounding, overflow of the number of waypoints, the identifiers of
    the points, and the copy of the thinned line that [PreProcessPath] keeps for later. *)
From Coq Require Import Reals List ZArith Bool.
From Verif Require Import RouteExtModel.
Import ListNotations.
Open Scope R_scope.

(** DpssDataTypes.h:22-60, xyPoint; [fixed]: attributes other than [None].  The tasks put the north into [x], the east into [y]. *)
Record point := { px : R; py : R; pz : R; fixed : bool }.

(** DpssDataTypes.h:48, dist *)
Definition dist (p q : point) : R := sqrt ((px p - px q) * (px p - px q) + (py p - py q) * (py p - py q)).

(** DpssUtilities.cpp:405-453, ComputeSeperation: the turn, and the separation *)
Definition separation (a b c : point) : R * R :=
  let q1x := px b - px a in let q1y := py b - py a in
  let q1len := sqrt (q1x * q1x + q1y * q1y) in
  if Rlt_dec q1len (/ 10 ^ 6) then (0, 0) else
  let q2x := px c - px b in let q2y := py c - py b in
  let q2len := sqrt (q2x * q2x + q2y * q2y) in
  if Rlt_dec q2len (/ 10 ^ 6) then (0, 0) else
  let beta := atan2 q1y q1x - atan2 q2y q2x in
  let beta := if Rlt_dec beta (- PI) then beta + 2 * PI else beta in
  let beta := if Rlt_dec PI beta then beta - 2 * PI else beta in
  let q3x := px c - px a in let q3y := py c - py a in
  let q3len := sqrt (q3x * q3x + q3y * q3y) in
  (beta, if Rlt_dec q3len (/ 10 ^ 6) then q1len else Rabs (q1x * q3y - q3x * q1y) / q3len).

(** DpssUtilities.cpp:157-158: whether the middle one of three points is removed *)
Definition extraneous (a b c : point) : bool :=
  let (beta, sep) := separation a b c in
  if Rlt_dec (Rabs beta) (PI / 180 * / 10) then if Rlt_dec sep 1 then true else false else false.

(** DpssUtilities.cpp:154-164, the loop: what remains behind [a], where [b] follows on [a] *)
Fixpoint thin (a b : point) (rest : list point) : list point :=
  match rest with
  | [] => [b]
  | c :: r => if extraneous a b c then thin a c r else b :: thin b c r
  end.

(** DpssUtilities.cpp:136-169, PreProcessPath *)
Definition preprocess (ps : list point) : list point :=
  match ps with a :: b :: r => a :: thin a b r | _ => ps end.

(** PlanQuickly.cpp: an entry of [xyPoints], [effect] and [m_QuickPlanIndices], three vectors of the same length *)
Record entry := { spot : point; effect : R; index : nat }.

Definition origin : point := {| px := 0; py := 0; pz := 0; fixed := false |}.

(** PlanQuickly.cpp:26-35 *)
Definition entry_of (road : list point) (k : nat) : entry :=
  let p i := nth i road origin in
  {| spot := p k;
     effect := if Nat.ltb 0 k && Nat.ltb (S k) (length road) then snd (separation (p (k - 1)%nat) (p k) (p (S k))) else 0;
     index := k |}.

Definition entries (road : list point) : list entry := map (entry_of road) (seq 0 (length road)).

(** PlanQuickly.cpp:41-67, both loops: [l] begins with the entry [i], the last entry is not looked at *)
Fixpoint least (l : list entry) (i : nat) (best : option (nat * R)) : option (nat * R) :=
  match l with
  | e :: ((_ :: _) as r) =>
      least r (S i)
        (if fixed (spot e) then best
         else match best with
              | None => Some (i, effect e)
              | Some (_, m) => if Rlt_dec (effect e) m then Some (i, effect e) else best
              end)
  | _ => best
  end.

(** std::vector::erase *)
Definition erase {A} (i : nat) (l : list A) : list A := firstn i l ++ skipn (S i) l.

Definition update {A} (i : nat) (x : A) (l : list A) : list A := firstn i l ++ x :: skipn (S i) l.

(** PlanQuickly.cpp:80-86 and 90-96: the largest separation of [b] and the points of the road between the places [i] and [k] *)
Definition deviation (road : list point) (a b c : point) (i k : nat) : R :=
  fold_left (fun m p => let s := snd (separation a p c) in if Rlt_dec m s then s else m)
            (firstn (k - S i) (skipn (S i) road)) (snd (separation a b c)).

(** PlanQuickly.cpp:78-87 for [j], and 88-97 for [j + 1] *)
Definition refresh (road : list point) (j : nat) (l : list entry) : list entry :=
  if Nat.ltb 0 j && Nat.ltb (S j) (length l) then
    match nth_error l (j - 1)%nat, nth_error l j, nth_error l (S j) with
    | Some a, Some b, Some c =>
        update j {| spot := spot b; effect := deviation road (spot a) (spot b) (spot c) (index a) (index c); index := index b |} l
    | _, _, _ => l
    end
  else l.

(** PlanQuickly.cpp:37-97, the loop; [fuel]: no more passes than there are points *)
Fixpoint prune (fuel : nat) (road : list point) (most : Z) (l : list entry) : list entry :=
  match fuel with
  | O => l
  | S f =>
      if Z.ltb most (Z.of_nat (length l)) then
        match least (tl l) 1 None with
        | None => l
        | Some (i, _) => prune f road most (refresh road (i - 1) (refresh road i (erase i l)))
        end
      else l
  end.

(** PlanQuickly.cpp:15-98; with less than two points there is no entry to remove *)
Definition plan_quickly (ps : list point) (most : Z) : list point :=
  if Nat.ltb (length ps) 2 then ps else map spot (prune (length ps) ps most (entries ps)).

(** DpssUtilities.cpp:361-371, the loop of RemoveZeroLengthSegments: what remains behind [q] (the code subtracts [q->y] twice) *)
Fixpoint squeeze (q : point) (rs : list point) : list point :=
  match rs with
  | [] => []
  | r :: t => let ax := px r - py q in let ay := py r - py q in
              if Rlt_dec (sqrt (ax * ax + ay * ay)) (/ 10 ^ 10) then squeeze q t else r :: squeeze r t
  end.

(** DpssUtilities.cpp:351-372, RemoveZeroLengthSegments *)
Definition remove_zero (ps : list point) : list point := match ps with q :: rs => q :: squeeze q rs | [] => [] end.

(** CmasiLineSearchTaskService.cpp:289-296 *)
Fixpoint road_length (ps : list point) : R :=
  match ps with a :: ((b :: _) as r) => dist b a + road_length r | _ => 0 end.

(** CmasiLineSearchTaskService.cpp:298-299 *)
Definition most_waypoints (ps : list point) : Z :=
  let n := Int_part (road_length ps / 200) in if Z.ltb n 2 then 2%Z else n.

(** CmasiLineSearchTaskService.cpp:286-320 and PlanOffset.cpp:17: the points from which the way is made *)
Definition thinned_line (ps : list point) : list point :=
  remove_zero (plan_quickly (preprocess ps) (most_waypoints ps)).

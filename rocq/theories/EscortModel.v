(** Model of where an escort goes, /repo/src/cpp/Tasks/EscortTaskService.cpp:111-524 (processRecievedLmcpMessageDynamicTask,
    calculateTargetLocation, CalculateTargetPoint, DistanceToLine, FlipLine), with the segments of
    /repo/src/cpp/DPSS/DpssDataTypes.cpp:62-149, in real numbers.

    That a location is asked for is an event; what is done with it is modelled elsewhere (DynModel).  A state of the supported entity that is
    known when the task is configured is one before all other events, as are known missions and lines.  The converter of coordinates is the
    one for the whole program: that another service uses it is an event.  The unqualified abs of line 182 is the one for doubles or the
    one for integers, depending on the headers of the compiler: both are covered.  Altitudes are left out. *)
From Coq Require Import Reals List ZArith.
From Verif Require Import ZMap FlatEarthModel RouteExtModel.
Import ListNotations.
Open Scope R_scope.

Definition pt := (R * R)%type.

(** DpssDataTypes.h:37-63, for east and north. *)
Definition sub (p q : pt) : pt := (fst p - fst q, snd p - snd q).
Definition add (p q : pt) : pt := (fst p + fst q, snd p + snd q).
Definition scale (p : pt) (k : R) : pt := (fst p * k, snd p * k).
Definition len (p : pt) : R := sqrt (fst p * fst p + snd p * snd p).
Definition dist (p q : pt) : R := sqrt ((fst q - fst p) ^ 2 + (snd q - snd p) ^ 2).

Definition tiny : R := / 10 ^ 10.

(** DpssDataTypes.cpp:69-78 (Segment::side) of the segment from [a] to [b]. *)
Definition side (a b t : pt) : Z :=
  let q := sub t a in let r := sub b a in
  let d := fst r * snd q - fst q * snd r in
  if Rlt_dec (Rabs d) tiny then 0%Z else if Rlt_dec 0 d then 1%Z else (-1)%Z.
(** 80-89 (Segment::swathSide). *)
Definition swath_side (a b p : pt) : Z :=
  let v := sub b a in let w := (- snd v, fst v) in
  let sa := side a (add a w) p in let sb := side b (add b w) p in
  if (Z.leb sa 0 && Z.leb 0 sb)%bool then 0%Z else if Z.ltb 0 sa then 1%Z else (-1)%Z.
(** 102-118 (Segment::intersectPoint). *)
Definition intersect_point (a b sa sb : pt) : option pt :=
  let a1 := snd b - snd a in let b1 := fst a - fst b in let c1 := fst b * snd a - fst a * snd b in
  let a2 := snd sb - snd sa in let b2 := fst sa - fst sb in let c2 := fst sb * snd sa - fst sa * snd sb in
  let denom := a1 * b2 - a2 * b1 in
  if Rlt_dec (Rabs denom) tiny then None else Some ((b1 * c2 - b2 * c1) / denom, (a2 * c1 - a1 * c2) / denom).
(** 120-133 (Segment::closestPoint). *)
Definition closest_point (a b t : pt) : pt :=
  let v := sub b a in
  match intersect_point a b t (add t (- snd v, fst v)) with
  | None => a
  | Some c => match swath_side a b c with 1%Z => a | (-1)%Z => b | _ => c end
  end.
(** 62-67 (Segment::distToClosestPoint). *)
Definition dist_to_closest (a b t : pt) : R := len (sub (closest_point a b t) t).
(** 141-149 (Segment::angle). *)
Definition angle (a b : pt) : R := let q := sub b a in if Rlt_dec (len q) (/ 10 ^ 6) then 0 else atan2 (snd q) (fst q).

(** The task: the entity that is escorted, the line it follows or 0, waypoints it follows, and the distance ahead of it. *)
Record task := { supported : Z; route : Z; prescribed : list pt; standoff : R }.
Record track := { lat : R; lon : R; heading : R; speed : R }.

(** Places are latitude and longitude. *)
Inductive ev :=
| Seen (v : Z) (k : track)
| Response (ms : list (Z * list pt))
| Mission (v : Z) (ws : list pt)
| FollowPath (v : Z) (ws : list pt)
| Line (id : Z) (ps : list pt)
| Elsewhere (la lo : R)
| Ask.

Record state := { last : option track; missions : zmap (list pt); lines : zmap (list pt); converter : earth }.
Definition init : state := {| last := None; missions := []; lines := []; converter := fresh |}.

(** Convert.h:117-126. *)
Definition half_pi : R := 314159265359 / 10 ^ 11 / 2.

(** 310-324, 461-475, 493-507: how far the heading is from that of a segment, in degrees. *)
Definition heading_delta (h : R) (a b : pt) : R :=
  let sh := (half_pi - angle a b) * rad_to_deg in
  let sh := if Rlt_dec sh 0 then sh + 360 else sh in
  let d := h - sh in
  let d := if Rlt_dec 180 d then d - 360 else d in
  if Rlt_dec d (-180) then d + 360 else d.

(** The function fmod of the C library. *)
Definition fmod (a b : R) : R := let q := a / b in a - (if Rle_dec 0 q then IZR (Int_part q) else - IZR (Int_part (- q))) * b.
(** 293-298. *)
Definition wrap (h : R) : R := let h := fmod h 360 in if Rlt_dec h 0 then h + 360 else h.

(** Consecutive points with the index of the first one. *)
Fixpoint legs (i : nat) (ps : list pt) : list (nat * (pt * pt)) :=
  match ps with
  | p :: ((q :: _) as rest) => (i, (p, q)) :: legs (S i) rest
  | _ => []
  end.

(** A loop for the least distance, of what is wanted only: -1 if there is none.  (Used in 300-335, 424-433, 455-482, 485-514.) *)
Definition least {A : Type} (d : A -> R) (want : A -> bool) (xs : list A) : R * option A :=
  fold_left (fun acc x => if Rlt_dec (fst acc) 0 then (if want x then (d x, Some x) else acc)
                          else if Rlt_dec (d x) (fst acc) then (if want x then (d x, Some x) else acc) else acc) xs (-1, None).

Definition leg_dist (t : pt) (x : nat * (pt * pt)) : R := dist_to_closest (fst (snd x)) (snd (snd x)) t.
Definition below (x y : R) : bool := if Rlt_dec x y then true else false.

(** 300-335: the point on the path, and where the segment starts and ends; both 0 if there is none. *)
Definition project (t : pt) (h sp : R) (ps : list pt) : pt * nat * nat :=
  match snd (least (leg_dist t) (fun x => (below (Rabs (heading_delta h (fst (snd x)) (snd (snd x)))) 90 || below (Rabs sp) 1)%bool) (legs 0 ps)) with
  | None => (t, 0%nat, 0%nat)
  | Some (i, (a, b)) => (closest_point a b t, i, S i)
  end.

(** 339-366 and 370-397: from [p] to [n] and on, for distance [d]; [acc] is the distance from the start to [n]. *)
Fixpoint walk (d acc : R) (p n : pt) (rest : list pt) : pt :=
  let stop := if Rle_dec d acc then
                let back := acc - d in let v := sub p n in
                if Rlt_dec (/ 10 ^ 2) (len v) then (if Rle_dec back (len v + 1) then add (scale v (back / len v)) n else n) else n
              else n in
  match rest with
  | [] => stop
  | m :: rest => if Rlt_dec acc d then walk d (acc + dist n m) n m rest else stop
  end.
(** The same from the first point on; the point itself where the code has undefined behaviour for an empty path. *)
Definition walk_from (d : R) (p : pt) (ps : list pt) : pt := match ps with [] => p | n :: rest => walk d (dist p n) p n rest end.

(** 337-398: ahead on the path, or backwards. *)
Definition displaced (d : R) (t : pt) (h sp : R) (ps : list pt) : pt :=
  let '(p, i, j) := project t h sp ps in
  if Rle_dec (- (1 / 100)) d then walk_from d p (skipn j ps) else walk_from (Rabs d) p (rev (firstn (S i) ps)).

(** 408-436 (DistanceToLine). *)
Definition distance_to_line (t : pt) (ps : list pt) : R := fst (least (leg_dist t) (fun _ => true) (legs 0 ps)).

(** 438-524 (FlipLine); the second loop goes over the segments of the reversed line. *)
Definition least_along (t : pt) (h : R) (ps : list pt) : R := fst (least (leg_dist t) (fun x => below (Rabs (heading_delta h (fst (snd x)) (snd (snd x)))) 90) (legs 0 ps)).
Definition flip_line (t : pt) (h : R) (ps : list pt) : bool :=
  let forward := least_along t h ps in let reverse := least_along t h (rev ps) in
  if Rlt_dec reverse 0 then false else (below 0 forward && below reverse forward)%bool.

(** 220-258: whether to reverse the line of one who does not move.  [total] is the variable totallength. *)
Fixpoint at_rest (t : pt) (mind total minl : R) (ps : list pt) : bool :=
  match ps with
  | p :: ((q :: _) as rest) =>
    let l := len (sub q p) in
    let total := total + l in
    let d := dist_to_closest p q t in
    if (below mind 0 || below d mind)%bool then at_rest t d (total + l) (total + dist t p) rest else at_rest t mind (total + l) minl rest
  | _ => (below 1 total && below (1 / 2) (minl / total))%bool
  end.

Section Order.
  (** The order of the hash table of lines, the absolute value for integers or for doubles. *)
  Context (order : zmap (list pt) -> list (Z * list pt)) (whole : bool).

  (** 182: abs of a double that is converted to an integer is below 0.1 if the double is between -1 and 1. *)
  Definition at_entity (d : R) : bool := if whole then below (Rabs (d - / 1000)) 1 else below (Rabs (d - / 1000)) (1 / 10).

  (** 224-235, 279-291, 410-422, 440-452: points in meters. *)
  Definition spot (e : earth) (x : pt) : pt := let p := snd (deg_ne_m (fst x) (snd x) e) in (snd p, fst p).

  (** 203-215: the nearest line. *)
  Definition nearest_line (e : earth) (t : pt) (ls : list (Z * list pt)) : Z :=
    snd (fold_left (fun acc x => let d := distance_to_line t (map (spot e) (snd x)) in
                                 if (below 0 d && (below (fst acc) 0 || below d (fst acc)))%bool then (d, fst x) else acc) ls (-1, 0%Z)).

  (** 187-274: the path, and the converter. *)
  Definition path (t : task) (s : state) (k : track) : earth * list pt :=
    if Z.eqb (route t) 0 then
      match zget (missions s) (supported t) with
      | Some ws => (converter s, ws)
      | None =>
        match prescribed t with
        | [] =>
          match lines s with
          | [] => (converter s, [])
          | _ =>
            let e := fst (deg_ne_m (lat k) (lon k) (converter s)) in
            let x := spot e (lat k, lon k) in
            let id := nearest_line e x (order (lines s)) in
            if Z.eqb id 0 then (e, []) else
            match zget (lines s) id with
            | None => (e, [])
            | Some ps =>
              let qs := map (spot e) ps in
              let back := if Rlt_dec (Rabs (speed k)) 1 then at_rest x (-1) 0 0 qs else flip_line x (heading k) qs in
              (e, if back then rev ps else ps)
            end
          end
        | ws => (converter s, ws)
        end
      end
    else (converter s, match zget (lines s) (route t) with Some ps => ps | None => [] end).

  (** 179-406 (CalculateTargetPoint): the converter and the place. *)
  Definition target (t : task) (s : state) (k : track) : earth * pt :=
    if at_entity (standoff t) then (converter s, (lat k, lon k))
    else
      match path t s k with
      | (e, []) => (e, (lat k, lon k))
      | (e, ps) =>
        let e := fst (deg_ne_m (lat k) (lon k) e) in
        let q := displaced (standoff t) (spot e (lat k, lon k)) (wrap (heading k)) (speed k) (map (spot e) ps) in
        (e, m_ll_deg (snd q) (fst q) e)
      end.

  (** 111-175: events, and the place that is given to one who asks. *)
  Definition step (t : task) (s : state) (e : ev) : state * list pt :=
    match e with
    | Seen v k => (if Z.eqb v (supported t) then {| last := Some k; missions := missions s; lines := lines s; converter := converter s |} else s, [])
    | Response ms => ({| last := last s; missions := fold_left (fun m x => zset m (fst x) (snd x)) ms (missions s); lines := lines s; converter := converter s |}, [])
    | Mission v ws | FollowPath v ws => ({| last := last s; missions := zset (missions s) v ws; lines := lines s; converter := converter s |}, [])
    | Line id ps => ({| last := last s; missions := missions s; lines := zset (lines s) id ps; converter := converter s |}, [])
    | Elsewhere la lo => ({| last := last s; missions := missions s; lines := lines s; converter := fst (deg_ne_m la lo (converter s)) |}, [])
    | Ask =>
      match last s with
      | None => (s, [])
      | Some k => let '(c, q) := target t s k in ({| last := last s; missions := missions s; lines := lines s; converter := c |}, [q])
      end
    end.
  Definition run (t : task) (s : state) (evs : list ev) : state := fold_left (fun s e => fst (step t s e)) evs s.
End Order.

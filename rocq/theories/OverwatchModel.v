(** Model of where the target of an overwatch task is taken to be, /repo/src/cpp/Tasks/OverwatchTaskService.cpp:55-241
    (configureDynamicTask, processRecievedLmcpMessageDynamicTask, calculateTargetLocation), in real numbers.

    That a location is asked for is an event, with the time of the vehicle that asks; what is done with it is modelled elsewhere (DynModel).
    The logs in files are left out, as are altitudes.  The estimation of movement is always on and the window has four states, as nothing
    sets these members (OverwatchTaskService.h:174, 176); so what the target says about its own movement is not used. *)
From Coq Require Import Reals List ZArith.
From Verif Require Import FlatEarthModel RouteExtModel.
Import ListNotations.
Open Scope R_scope.

(** Time in milliseconds; latitude and longitude in degrees. *)
Record track := { time : Z; lat : R; lon : R }.
Inductive ev := Seen (v : Z) (k : track) | Ask (now : Z).
Record state := { last : option track; window : list track }.

(** 78-86: with the state that is known when the task is configured. *)
Definition init (known : option track) : state := {| last := known; window := [] |}.

(** 102: a place near latitude and longitude zero does not count. *)
Definition valid (k : track) : bool := if Rlt_dec (Rabs (lat k)) (1 / 100) then (if Rlt_dec (Rabs (lon k)) (1 / 100) then false else true) else true.
(** 120-122: the window of four states. *)
Definition push (w : list track) (k : track) : list track := let w := w ++ [k] in skipn (length w - 4) w.

(** Convert.h:117-126. *)
Definition half_pi : R := 314159265359 / 10 ^ 11 / 2.
(** 178-190: speed and heading from one state to the next. *)
Definition sample (p c : track) : R * R :=
  let dt := IZR (time c - time p) / 1000 in
  let '(e, (pn, pe)) := deg_ne_m (lat p) (lon p) fresh in
  let '(e, (cn, ce)) := deg_ne_m (lat c) (lon c) e in
  let dn := cn - pn in
  let de := ce - cn in
  (sqrt (dn * dn + de * de) / dt, half_pi - atan2 dn de).

(** 169-196: the samples of a window that starts with [p]; the comparisons with 0.01 and 4 seconds are in milliseconds. *)
Fixpoint samples (p : track) (w : list track) : list (R * R) :=
  match w with
  | [] => []
  | c :: w =>
    let dt := (time c - time p)%Z in
    if Z.ltb dt 10 then samples p w
    else if Z.ltb 4000 dt then samples c w
    else sample p c :: samples c w
  end.
Definition total (f : R * R -> R) (l : list (R * R)) : R := fold_left (fun a x => a + f x) l 0.

(** 153-205: speed and course in degrees. *)
Definition movement (w : list track) : R * R :=
  match w with
  | p :: ((_ :: _) as rest) =>
    let l := samples p rest in
    match l with
    | [] => (0, 0)
    | _ => (total fst l / INR (length l), atan2 (total (fun x => sin (snd x)) l) (total (fun x => cos (snd x)) l) * rad_to_deg)
    end
  | _ => (0, 0)
  end.

(** 207-219. *)
Definition ahead (k : track) (dt : Z) (m : R * R) : R * R :=
  if Z.ltb 100 dt then
    let '(e, (n, w)) := deg_ne_m (lat k) (lon k) fresh in
    m_ll_deg (n + fst m * IZR dt / 1000 * cos (snd m * deg_to_rad)) (w + fst m * IZR dt / 1000 * sin (snd m * deg_to_rad)) e
  else (lat k, lon k).

(** 96-125 and 133-240; [None] is the null pointer. *)
Definition step (watched : Z) (s : state) (e : ev) : state * list (option (R * R)) :=
  match e with
  | Seen v k => (if (Z.eqb v watched && valid k)%bool then {| last := Some k; window := push (window s) k |} else s, [])
  | Ask now =>
    (s, [match last s with
         | None => None
         | Some k => let dt := (now - time k)%Z in if Z.ltb 15000 dt then None else Some (ahead k dt (movement (window s)))
         end])
  end.
Definition run (watched : Z) (s : state) (evs : list ev) : state := fold_left (fun s e => fst (step watched s e)) evs s.

(** Model of the extension of routes, /repo/src/cpp/Utilities/RouteExtension.cpp (whole file), in real numbers.

    The constant 3.14159265359 of the code is taken as pi; they differ by less than a millionth of a millionth.  The number of full
    circles is not limited to 32 bits.  The bisection is cut off after 28 rounds, which gives no result instead of going on; it is
    proved that it never gets so far.  Turn radii and distances that are not positive, for which the code divides by zero, are modelled
    but nothing is said about them. *)
From Coq Require Import Reals List ZArith.
From Verif Require Import FlatEarthModel.
Import ListNotations.
Open Scope R_scope.

(** RouteExtension.h:18-34 (DubinsWaypoint): a leg ends at [lx], [ly]; [ldir] is 1 for a turn to the left, -1 for one to the right around
    [ltx], [lty], and 0 for a straight leg. *)
Record leg := { lx : R; ly : R; llen : R; ltx : R; lty : R; ldir : Z }.

(** The function atan2 of the C library. *)
Definition atan2 (y x : R) : R :=
  if Rlt_dec 0 x then atan (y / x)
  else if Rlt_dec x 0 then (if Rle_dec 0 y then atan (y / x) + PI else atan (y / x) - PI)
  else if Rlt_dec 0 y then PI / 2 else if Rlt_dec y 0 then - (PI / 2) else 0.

(** The function fmod of the C library, for arguments that are not negative. *)
Definition fmod (a b : R) : R := a - IZR (Int_part (a / b)) * b.

(** 208-221 (SingleArcLen, SingleStraightLen, SingleBubbleExtensionError). *)
Definition single_arc (th r : R) : R := 4 * r * th.
Definition single_straight (th r : R) : R := 4 * r * sin th.
Definition single_error (th len r : R) : R := len + single_straight th r - single_arc th r.

(** 251-289 (SlideArcLen, SlideStraightLen, SlideExtensionError). *)
Definition slide_arc (th r : R) : R :=
  let init := 3 * PI / 2 * r in
  let onto := th * r in
  let gam := acos (1 - sin th) in
  let del := PI / 2 + gam + th in
  init + onto + del * r + gam * r.
Definition slide_straight (th r : R) : R :=
  2 * r + 2 * r * cos th + 2 * r * sqrt (1 - (1 - sin th) * (1 - sin th)).
Definition slide_error (th len r : R) : R := len + slide_straight th r - slide_arc th r.

(** 227, 295. *)
Definition eps : R := / 10 ^ 8.

(** 239: both are negative or both are not. *)
Definition same_sign (a b : R) : bool :=
  if Rlt_dec a 0 then (if Rlt_dec b 0 then true else false) else (if Rlt_dec b 0 then false else true).

(** 230-248, 298-316: the loop of both searches. *)
Fixpoint bisect (fuel : nat) (f : R -> R) (lo hi flo : R) : option R :=
  if Rlt_dec (lo + eps) hi then
    match fuel with
    | O => None
    | S k => let mid := 1 / 2 * lo + 1 / 2 * hi in
             if same_sign flo (f mid) then bisect k f mid hi (f mid) else bisect k f lo mid flo
    end
  else Some lo.

(** 225-249 (SingleBubbleBisectionSearch), 293-317 (SlideBisectionSearch). *)
Definition single_search (len r : R) : option R :=
  let f th := single_error th len r in bisect 28 f 0 (PI / 2) (f 0).
Definition slide_search (len r : R) : option R :=
  let f th := slide_error th len r in bisect 28 f 0 (PI / 2) (f 0).

(** 185-206 (RequiredSegmentLength). *)
Definition required (len r : R) : option R :=
  if Rlt_dec len (2 * r * (PI - 2)) then option_map (fun th => single_straight th r) (single_search len r)
  else if Rlt_dec len (2 * PI * r) then option_map (fun th => slide_straight th r) (slide_search len r)
  else Some (fmod len (2 * PI * r) / 2).

(** 336-340, 354-358, 371-375: [n] quarters of a circle to the left around [tx], [ty]; the two loops for full circles are one here. *)
Fixpoint quarters (n : nat) (r tx ty x y psi : R) : list leg * (R * R * R) :=
  match n with
  | O => ([], (x, y, psi))
  | S n => let x' := - y + ty + tx in let y' := x - tx + ty in
           let (w, s) := quarters n r tx ty x' y' (psi + PI / 2) in
           ({| lx := x'; ly := y'; llen := PI / 2 * r; ltx := tx; lty := ty; ldir := 1 |} :: w, s)
  end.

(** 319-379 (BuildRaceTrack). *)
Definition race_track (n : nat) (t r : R) (s e : R * R) : list leg :=
  let psi := atan2 (snd e - snd s) (fst e - fst s) in
  let x := fst s in let y := snd s in
  let '(w0, (x, y, psi)) := quarters (4 * n) r (x - r * sin psi) (y + r * cos psi) x y psi in
  let x := x + t * cos psi in let y := y + t * sin psi in
  let l1 := {| lx := x; ly := y; llen := t; ltx := 0; lty := 0; ldir := 0 |} in
  let '(w2, (x, y, psi)) := quarters 2 r (x - r * sin psi) (y + r * cos psi) x y psi in
  let x := x + t * cos psi in let y := y + t * sin psi in
  let l3 := {| lx := x; ly := y; llen := t; ltx := 0; lty := 0; ldir := 0 |} in
  let '(w4, _) := quarters 2 r (x - r * sin psi) (y + r * cos psi) x y psi in
  w0 ++ [l1] ++ w2 ++ [l3] ++ w4.

(** 392-398, 417-422 and so on: the end of a turn to the left by the angle [a]. *)
Definition left_x (r x psi a : R) : R := x - r * sin psi + r * cos (psi - PI / 2 + a).
Definition left_y (r y psi a : R) : R := y + r * cos psi + r * sin (psi - PI / 2 + a).

(** 402-407, 411-414 and so on: the end of a turn to the right by the angle [a]. *)
Definition right_x (r x psi a : R) : R := x + r * sin psi + r * cos (psi + PI / 2 - a).
Definition right_y (r y psi a : R) : R := y - r * cos psi + r * sin (psi + PI / 2 - a).

(** 381-425 (BuildSingleBubble). *)
Definition single_bubble (th r : R) (s e : R * R) : list leg :=
  let psi := atan2 (snd e - snd s) (fst e - fst s) in
  let x := fst s in let y := snd s in
  let tx := x - r * sin psi in let ty := y + r * cos psi in
  let x1 := left_x r x psi th in let y1 := left_y r y psi th in
  let psi1 := psi + th in
  let tx1 := x1 + r * sin psi1 in let ty1 := y1 - r * cos psi1 in
  let x2 := right_x r x1 psi1 th in let y2 := right_y r y1 psi1 th in
  let psi2 := psi1 - th in
  let x3 := right_x r x2 psi2 th in let y3 := right_y r y2 psi2 th in
  let psi3 := psi2 - th in
  let tx3 := x3 - r * sin psi3 in let ty3 := y3 + r * cos psi3 in
  let x4 := left_x r x3 psi3 th in let y4 := left_y r y3 psi3 th in
  [ {| lx := x1; ly := y1; llen := th * r; ltx := tx; lty := ty; ldir := 1 |};
    {| lx := x2; ly := y2; llen := th * r; ltx := tx1; lty := ty1; ldir := -1 |};
    {| lx := x3; ly := y3; llen := th * r; ltx := tx1; lty := ty1; ldir := -1 |};
    {| lx := x4; ly := y4; llen := th * r; ltx := tx3; lty := ty3; ldir := 1 |} ].

(** 427-496 (BuildSlideBack). *)
Definition slide_back (th r : R) (s e : R * R) : list leg :=
  let psi := atan2 (snd e - snd s) (fst e - fst s) in
  let x := fst s in let y := snd s in
  let gam := PI / 2 in
  let tx := x - r * sin psi in let ty := y + r * cos psi in
  let x1 := left_x r x psi gam in let y1 := left_y r y psi gam in
  let psi1 := psi + gam in
  let tx1 := x1 + r * sin psi1 in let ty1 := y1 - r * cos psi1 in
  let x2 := right_x r x1 psi1 gam in let y2 := right_y r y1 psi1 gam in
  let psi2 := psi1 - gam in
  let x3 := right_x r x2 psi2 gam in let y3 := right_y r y2 psi2 gam in
  let psi3 := psi2 - gam in
  let x4 := right_x r x3 psi3 th in let y4 := right_y r y3 psi3 th in
  let psi4 := psi3 - th in
  let del := acos (1 - sin th) in
  let gam4 := PI / 2 + del + th in
  let tx4 := x4 - r * sin psi4 in let ty4 := y4 + r * cos psi4 in
  let x5 := left_x r x4 psi4 gam4 in let y5 := left_y r y4 psi4 gam4 in
  let psi5 := psi4 + gam4 in
  let gam5 := acos (1 - sin th) in
  let tx5 := x5 + r * sin psi5 in let ty5 := y5 - r * cos psi5 in
  let x6 := right_x r x5 psi5 gam5 in let y6 := right_y r y5 psi5 gam5 in
  [ {| lx := x1; ly := y1; llen := gam * r; ltx := tx; lty := ty; ldir := 1 |};
    {| lx := x2; ly := y2; llen := gam * r; ltx := tx1; lty := ty1; ldir := -1 |};
    {| lx := x3; ly := y3; llen := gam * r; ltx := tx1; lty := ty1; ldir := -1 |};
    {| lx := x4; ly := y4; llen := th * r; ltx := tx1; lty := ty1; ldir := -1 |};
    {| lx := x5; ly := y5; llen := gam4 * r; ltx := tx4; lty := ty4; ldir := 1 |};
    {| lx := x6; ly := y6; llen := gam5 * r; ltx := tx5; lty := ty5; ldir := -1 |} ].

(** 161-183 (ExtendSegment). *)
Definition extend_segment (s e : R * R) (len r : R) : option (list leg) :=
  if Rlt_dec len (2 * r * (PI - 2)) then option_map (fun th => single_bubble th r s e) (single_search len r)
  else if Rlt_dec len (2 * PI * r) then option_map (fun th => slide_back th r s e) (slide_search len r)
  else Some (race_track (Z.to_nat (Int_part (len / 2 / PI / r) - 1)) (fmod len (2 * PI * r) / 2) r s e).

(** 131-143: [m] points that follow [vx], [vy] around [tx], [ty]. *)
Fixpoint around (m : nat) (gam tx ty vx vy : R) : list (R * R) :=
  match m with
  | O => []
  | S m => let x := cos gam * vx + sin gam * vy in let y := - sin gam * vx + cos gam * vy in
           (x + tx, y + ty) :: around m gam tx ty x y
  end.

(** 113-158, for one leg: the points without their numbers, which are overwritten later. *)
Definition discretize_leg (d : R) (w : leg) : list (R * R) :=
  (if Z.eqb (ldir w) 0 then [] else
     let r := sqrt ((lx w - ltx w) * (lx w - ltx w) + (ly w - lty w) * (ly w - lty w)) in
     let dx := lx w - ltx w in let dy := ly w - lty w in
     let th := IZR (ldir w) * llen w / r in
     let vx := cos th * dx + sin th * dy in
     let vy := - sin th * dx + cos th * dy in
     let m := (Int_part (llen w / d) - 1)%Z in
     if Z.ltb 0 m then around (Z.to_nat m) (- IZR (ldir w) * llen w / r / (IZR m + 1)) (ltx w) (lty w) vx vy else [])
  ++ [(lx w, ly w)].

(** A waypoint; [other] stands for all other fields, which are only copied. *)
Record waypoint := { wlat : R; wlon : R; wspeed : R; wnum : Z; wnext : Z; wother : Z }.

(** 76-80, 137-140: a copy at another place, given in meters. *)
Definition placed (e : earth) (b : waypoint) (p : R * R) : waypoint :=
  let ll := m_ll_deg (snd p) (fst p) e in
  {| wlat := fst ll; wlon := snd ll; wspeed := wspeed b; wnum := wnum b; wnext := wnext b; wother := wother b |}.

(** 107-159 (DiscretizeExtension). *)
Definition discretize (d : R) (e : earth) (b : waypoint) (w : list leg) : list waypoint :=
  map (placed e b) (flat_map (discretize_leg d) w).

(** 95-100: numbers from [n] on; the last waypoint is its own successor. *)
Fixpoint renumber (n : Z) (ws : list waypoint) : list waypoint :=
  match ws with
  | [] => []
  | w :: ws =>
    let nx := match ws with [] => n | _ => (n + 1)%Z end in
    {| wlat := wlat w; wlon := wlon w; wspeed := wspeed w; wnum := n; wnext := nx; wother := wother w |} :: renumber (n + 1) ws
  end.

(** 24-26, 37-38: east and north of a waypoint in meters. *)
Definition place (e : earth) (w : waypoint) : R * R :=
  let p := snd (deg_ne_m (wlat w) (wlon w) e) in (snd p, fst p).

(** 51: the length of a segment. *)
Definition seg_len (a b : R * R) : R :=
  sqrt ((fst b - fst a) * (fst b - fst a) + (snd b - snd a) * (snd b - snd a)).

(** The segment that is found: its index, its length, the length to add there and the length this needs. *)
Record found := { findex : nat; fcleared : R; flen : R; fmin : R }.

(** 35-63: the loop over the segments; [vel], [len] and [minlen] are carried along. *)
Fixpoint scan (e : earth) (ms : Z) (r : R) (i : nat) (start : R * R) (vel len minlen : R) (best : found) (ws : list waypoint)
  : option found :=
  match ws with
  | [] => Some best
  | w :: ws =>
    let stop := place e w in
    match (if Rlt_dec (/ 10 ^ 4) (Rabs (vel - wspeed w)) then
             if Rlt_dec (/ 10 ^ 4) (wspeed w) then
               let len := (IZR ms + 0) / 1000 * wspeed w in
               option_map (fun m => (wspeed w, len, m)) (required len r)
             else Some (vel, len, minlen)
           else Some (vel, len, minlen)) with
    | None => None
    | Some (vel, len, minlen) =>
      let l := seg_len start stop in
      let best := if Rle_dec minlen l then if Rlt_dec (fcleared best) l then
                    {| findex := i; fcleared := l; flen := len; fmin := minlen |} else best else best in
      scan e ms r (S i) stop vel len minlen best ws
    end
  end.

(** 11-105 (ExtendPath); the result says whether the route was extended, and gives the route.  No result stands for a search that goes on
    too long.  The index that is found is always one of a segment, so the branch without two waypoints is never taken (C75_longest). *)
Definition extend_path (wps : list waypoint) (ms : Z) (r d : R) : option (bool * list waypoint) :=
  match wps with
  | [] | [_] => Some (false, wps)
  | w0 :: rest =>
    if Rlt_dec (wspeed w0) (/ 10 ^ 4) then Some (false, wps) else
    let len := (IZR ms + 0) / 1000 * wspeed w0 in
    match required len r with
    | None => None
    | Some minlen =>
      let e := fst (deg_ne_m (wlat w0) (wlon w0) fresh) in
      match scan e ms r 0 (place e w0) (wspeed w0) len minlen {| findex := 0; fcleared := 0; flen := 0; fmin := 0 |} rest with
      | None => None
      | Some best =>
        if Rlt_dec (/ 10 ^ 4) (fcleared best) then
          match nth_error wps (findex best), nth_error wps (S (findex best)) with
          | Some a, Some b =>
            let pa := place e a in let pb := place e b in
            let forward := (fcleared best - fmin best) / 2 / fcleared best in
            let p := (fst pa + (fst pb - fst pa) * forward, snd pa + (snd pb - snd pa) * forward) in
            let m := placed e b p in
            match extend_segment p pb (flen best) r with
            | None => None
            | Some legs =>
              Some (true, firstn (S (findex best)) wps
                          ++ renumber (wnum b) (m :: discretize d e m legs ++ skipn (S (findex best)) wps))
            end
          | _, _ => Some (false, wps)
          end
        else Some (false, wps)
      end
    end
  end.

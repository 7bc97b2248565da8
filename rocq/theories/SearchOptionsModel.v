(** Model of the options that the search tasks, the loiter and must-fly tasks and the watch tasks publish, with their
    composition:
    - which vehicles count, /repo/src/cpp/Tasks/TaskServiceBase.cpp:307-321 and 502-526;
    - CmasiLineSearchTaskService.cpp:113-240, 429-582 and ImpactLineSearchTaskService.cpp:144-255, 367-520;
    - CmasiAreaSearchTaskService.cpp:197-361, AngledAreaSearchTaskService.cpp:254-340,
      PatternSearchTaskService.cpp:282-365;
    - CmasiPointSearchTaskService.cpp:79-256 and ImpactPointSearchTaskService.cpp:115-375;
    - LoiterTaskService.cpp:77-108, MustFlyTaskService.cpp:92-133 (without the closed AFRL_INTERNAL_ENABLED part);
    - BlockadeTaskService.cpp:124-200 and MultiVehicleWatchTaskService.cpp:124-193;
    - the angles of Includes/Constants/Convert.h:181-203 and 229-243.

    Angles are whole multiples of a unit of which [2 * u] are one degree, and sums of angles are exact; the
    tolerances of the comparisons are parameters.  Whether a line can be flown along for a view angle is decided by
    an external planner: [fwd] and [rev] say so for a group and a view angle.  Places and headings of the options
    are left out, and costs except those of the point searches. Option numbers are unbounded.  A speed counts in
    tenths of m/s, as rounded; a standoff distance in mm. *)
From Coq Require Import String Ascii List ZArith Bool.
From Verif Require Import Base Run FormulaModel.
Import ListNotations.
Open Scope list_scope.
Open Scope Z_scope.

(** *** Vehicles *)

(** Vehicles of the same speed and altitude. *)
Record group := { speed : Z; altitude : Z; vehicles : list Z }.

(** A configuration with the speed to one decimal place and the altitude, rounded; a request with its vehicles. *)
Inductive ev := Config (id sp alt : Z) | Ask (entities : list Z).

(** TaskServiceBase.cpp:315-319: operator[] of [m_speedAltitudeVsEligibleEntityIds], and push_back of a new id. *)
Fixpoint enrol (gs : list group) (id sp alt : Z) : list group :=
  match gs with
  | [] => [{| speed := sp; altitude := alt; vehicles := [id] |}]
  | g :: gs' => if (speed g =? sp) && (altitude g =? alt)
                then (if existsb (Z.eqb id) (vehicles g) then g
                      else {| speed := sp; altitude := alt; vehicles := vehicles g ++ [id] |}) :: gs'
                else g :: enrol gs' id sp alt
  end.

(** 505-526: an entry of [m_speedAltitudeVsEligibleEntityIdsRequested] appears with its first vehicle. *)
Definition requested (gs : list group) (entities : list Z) : list group :=
  match entities with
  | [] => gs
  | _ => filter (fun g => negb (match vehicles g with [] => true | _ => false end))
           (map (fun g => {| speed := speed g; altitude := altitude g;
                             vehicles := filter (fun v => existsb (Z.eqb v) entities) (vehicles g) |}) gs)
  end.

(** 307-321 and 502-526; [eligible] are the eligible entities of the task.  The output are the groups of the request,
    in the order of the hash table, as options are made of them. *)
Definition step (ord : list group -> list group) (eligible : list Z) (gs : list group) (e : ev) : list group * list (list group) :=
  match e with
  | Config id sp alt =>
      (if match eligible with [] => true | _ => existsb (Z.eqb id) eligible end then enrol gs id sp alt else gs, [])
  | Ask entities => (gs, [ord (requested gs entities)])
  end.

(** *** Angles *)

(** A view angle: centre lines and half the extents. *)
Record wedge := { az_c : Z; az_h : Z; el_c : Z; el_h : Z }.

Section Angles.
  Context (u eps eps5 : Z).
  (** dPiO8, dTwoPi *)
  Definition inc : Z := 45 * u.
  Definition full : Z := 720 * u.

  (** Convert.h:181-203, enGreaterEqual and enEqual *)
  Definition eqa (e a b : Z) : bool := Z.abs (a - b) <=? e.
  Definition gea (e a b : Z) : bool := (b <? a) || eqa e a b.

  (** Convert.h:229-243 with the reference 0 *)
  Definition norm0 (a : Z) : Z :=
    let m := Z.rem a full in
    if m <? 0 then m + full else if gea eps m full then m - full else m.

  (** The loops [while (bCompareDouble(target, current, enGreaterEqual)) { ...; current += increment; }] *)
  Fixpoint sweep_loop (fuel : nat) (target cur : Z) : list Z :=
    match fuel with
    | O => []
    | S fuel' => if gea eps target cur then cur :: sweep_loop fuel' target (cur + inc) else []
    end.
  Definition sweep (target start : Z) : list Z := sweep_loop (Z.to_nat ((target - start + eps) / inc + 1)) target start.
  (** CmasiAreaSearchTaskService.cpp:272-287: the same with enGreater *)
  Fixpoint sweep_lt_loop (fuel : nat) (target cur : Z) : list Z :=
    match fuel with
    | O => []
    | S fuel' => if cur <? target then cur :: sweep_lt_loop fuel' target (cur + inc) else []
    end.
  Definition sweep_lt (target start : Z) : list Z := sweep_lt_loop (Z.to_nat ((target - start) / inc + 1)) target start.

  (** CmasiLineSearchTaskService.cpp:165-208, and alike in the others *)
  Definition headings (w : wedge) : list Z :=
    let c := norm0 (az_c w) in
    let start := c - az_h w in
    let end_ := c + az_h w in
    let target := if gea eps5 end_ start then end_ else full in
    sweep target start
    ++ (if negb (eqa eps end_ target) && eqa eps target full then sweep end_ 0 else []).

  (** CmasiLineSearchTaskService.cpp:141-162 *)
  Definition clamp_low (lo a : Z) : Z := if a <? lo then lo else a.
  Definition clamp_high (hi a : Z) : Z := if hi <? a then hi else a.
  Definition elevations_line (w : wedge) : list Z :=
    let lo := -180 * u in let hi := 20 * u in
    let c := clamp_high hi (clamp_low lo (el_c w)) in
    sweep (clamp_high hi (c + el_h w)) (clamp_low lo (c - el_h w)).
  (** CmasiAreaSearchTaskService.cpp:213-228 *)
  Definition elevations_area (w : wedge) : list Z :=
    let lo := -180 * u in let hi := -2 * u in
    sweep (clamp_high hi (el_c w + el_h w)) (clamp_low lo (el_c w - el_h w)).

  (** The view angles, in the order of the loops: azimuth and elevation. *)
  Definition looks (elev : wedge -> list Z) (ws : list wedge) : list (Z * Z) :=
    flat_map (fun w => flat_map (fun el => map (fun az => (az, el)) (headings w)) (elev w)) ws.
  (** CmasiLineSearchTaskService.cpp:139-226 and .h:165-166; ImpactLineSearchTaskService.cpp:157-240 and .h:159-160 *)
  Definition looks_line (default_az : Z) (ws : list wedge) : list (Z * Z) :=
    match ws with [] => [(default_az, -120 * u)] | _ => looks elevations_line ws end.
  (** CmasiAreaSearchTaskService.cpp:211-288 *)
  Definition looks_area (ws : list wedge) : list (Z * Z) :=
    match ws with [] => map (fun az => (az, -120 * u)) (sweep_lt full 0) | _ => looks elevations_area ws end.
  (** CmasiPointSearchTaskService.cpp:89-139 *)
  Definition looks_point (ws : list wedge) : list Z :=
    match ws with [] => sweep (full - inc) 0 | _ => flat_map headings ws end.
End Angles.

(** *** Options *)

(** [o_back]: along the line backwards; [o_cost] in ms, 0 where costs are left out. *)
Record option_ := { o_id : Z; o_for : list Z; o_look : Z * Z; o_back : bool; o_cost : Z }.

(** TaskServiceBase.cpp:51 *)
Definition first_option : Z := 10.

(** ["p" + std::to_string(id) + " "] *)
Definition name (id : Z) : str := lit "p" ++ to_string_Z id ++ lit " ".

(** What [isCalculateOption] does: success, the new value of [optionId], the options stored, [algebraString]. *)
Record calc := { c_ok : bool; c_id : Z; c_opts : list option_; c_text : str }.
(** [optionId], the options so far, the composition so far *)
Record acc := { a_id : Z; a_opts : list option_; a_text : str }.
Definition start : acc := {| a_id := first_option; a_opts := []; a_text := lit "+(" |}.

(** The callers: [if (isCalculateOption(...)) { compositionString += algebraString + " "; optionId++; }] *)
Definition offer (a : acc) (f : Z -> calc) : acc :=
  let r := f (a_id a) in
  if c_ok r
  then {| a_id := c_id r + 1; a_opts := a_opts a ++ c_opts r; a_text := a_text a ++ c_text r ++ lit " " |}
  else {| a_id := c_id r; a_opts := a_opts a ++ c_opts r; a_text := a_text a |}.
Definition offer_all (fs : list (Z -> calc)) : list option_ * str :=
  let a := fold_left offer fs start in (a_opts a, a_text a ++ lit ")").

(** CmasiLineSearchTaskService.cpp:355-582; [points]: the line has more than one point. *)
Definition calc_cmasi_line (points both : bool) (fwd rev : group -> Z * Z -> bool) (g : group) (k : Z * Z) (id : Z) : calc :=
  if points && fwd g k then
    let o1 := {| o_id := id; o_for := vehicles g; o_look := k; o_back := false; o_cost := 0 |} in
    if both then
      if rev g k then
        let o2 := {| o_id := id + 1; o_for := vehicles g; o_look := k; o_back := true; o_cost := 0 |} in
        {| c_ok := true; c_id := id + 2; c_opts := [o1; o2]; c_text := lit "+(" ++ name id ++ name (id + 1) ++ lit ")" |}
      else {| c_ok := false; c_id := id + 1; c_opts := [o1]; c_text := lit "+(" ++ name id |}
    else {| c_ok := true; c_id := id + 1; c_opts := [o1]; c_text := lit "+(" ++ name id ++ lit ")" |}
  else {| c_ok := false; c_id := id; c_opts := []; c_text := [] |}.
(** 113-240; the nested loops are flattened *)
Definition cmasi_line (points both : bool) (fwd rev : group -> Z * Z -> bool) (ks : list (Z * Z)) (gs : list group) : list option_ * str :=
  offer_all (flat_map (fun g => map (calc_cmasi_line points both fwd rev g) ks) gs).

(** ImpactLineSearchTaskService.cpp:345-520: both ways must be possible *)
Definition calc_impact_line (points both : bool) (fwd rev : group -> Z * Z -> bool) (g : group) (k : Z * Z) (id : Z) : calc :=
  if points && (fwd g k && rev g k) then
    let o1 := {| o_id := id; o_for := vehicles g; o_look := k; o_back := false; o_cost := 0 |} in
    if both then
      let o2 := {| o_id := id + 1; o_for := vehicles g; o_look := k; o_back := true; o_cost := 0 |} in
      {| c_ok := true; c_id := id + 1; c_opts := [o1; o2]; c_text := lit "+(" ++ name id ++ name (id + 1) ++ lit ")" |}
    else {| c_ok := true; c_id := id; c_opts := [o1]; c_text := lit "+(" ++ name id ++ lit ")" |}
  else {| c_ok := false; c_id := id; c_opts := []; c_text := [] |}.
(** 144-255 *)
Definition impact_line (points both : bool) (fwd rev : group -> Z * Z -> bool) (ks : list (Z * Z)) (gs : list group) : list option_ * str :=
  offer_all (flat_map (fun g => map (calc_impact_line points both fwd rev g) ks) gs).

(** CmasiAreaSearchTaskService.cpp:320-361 *)
Fixpoint calc_area_loop (k : Z * Z) (vs : list Z) (id : Z) : Z * list option_ * str :=
  match vs with
  | [] => (id, [], [])
  | v :: vs' =>
      let '(id', l, s) := calc_area_loop k vs' (id + 1) in
      (id', {| o_id := id; o_for := [v]; o_look := k; o_back := false; o_cost := 0 |} :: l, name id ++ s)
  end.
Definition calc_area (g : group) (k : Z * Z) (id : Z) : calc :=
  let '(id', l, s) := calc_area_loop k (vehicles g) id in {| c_ok := true; c_id := id'; c_opts := l; c_text := s |}.
(** 197-290 *)
Definition area (ks : list (Z * Z)) (gs : list group) : list option_ * str :=
  offer_all (flat_map (fun g => map (calc_area g) ks) gs).
(** 293-315: the requests for footprints, per option: the option and the vehicle, which is the first one of the group
    of the option. (The order, that of a hash table, is left out.) *)
Definition footprint (g : group) (o : option_) : Z * option Z := (o_id o, hd_error (vehicles g)).
Fixpoint footprints_loop (id : Z) (fs : list (group * (Z -> calc))) : list (Z * option Z) :=
  match fs with
  | [] => []
  | (g, f) :: fs' => let r := f id in map (footprint g) (c_opts r) ++ footprints_loop (if c_ok r then c_id r + 1 else c_id r) fs'
  end.
Definition area_footprints (ks : list (Z * Z)) (gs : list group) : list (Z * option Z) :=
  footprints_loop first_option (flat_map (fun g => map (fun k => (g, calc_area g k)) ks) gs).

(** PatternSearchTaskService.cpp:336-365: the loop ends after the first vehicle *)
Definition calc_pattern (k : Z * Z) (g : group) (id : Z) : calc :=
  match vehicles g with
  | [] => {| c_ok := true; c_id := id; c_opts := []; c_text := [] |}
  | v :: _ => {| c_ok := true; c_id := id + 1;
                 c_opts := [{| o_id := id; o_for := [v]; o_look := k; o_back := false; o_cost := 0 |}]; c_text := name id |}
  end.
(** 282-306 *)
Definition pattern (u : Z) (gs : list group) : list option_ * str := offer_all (map (calc_pattern (0, -120 * u)) gs).

(** AngledAreaSearchTaskService.cpp:308-340 *)
Definition calc_angled (k : Z * Z) (v : Z) (id : Z) : calc :=
  {| c_ok := true; c_id := id; c_opts := [{| o_id := id; o_for := [v]; o_look := k; o_back := false; o_cost := 0 |}]; c_text := name id |}.
(** 254-305; [sw] is the normalised sweep angle *)
Definition angled (u sw : Z) (gs : list group) : list option_ * str :=
  offer_all (flat_map (fun g => flat_map (fun v => repeat (calc_angled (sw, -120 * u) v) 4) (vehicles g)) gs).

(** The composition of the tasks below is written from the options: CmasiPointSearchTaskService.cpp:141-148 *)
Definition compose (l : list option_) : str := lit "+(" ++ concat (map (fun o => name (o_id o)) l) ++ lit ")".

(** CmasiPointSearchTaskService.cpp:226-244 and ImpactPointSearchTaskService.cpp:347-363, the loop over the groups *)
Fixpoint point_groups (cost : Z -> Z) (h : Z) (gs : list group) (id : Z) : Z * list option_ :=
  match gs with
  | [] => (id, [])
  | g :: gs' =>
      let '(id', l) := point_groups cost h gs' (id + 1) in
      (id', {| o_id := id; o_for := vehicles g; o_look := (h, 0); o_back := false;
               o_cost := if 0 <? speed g then cost (speed g) else 0 |} :: l)
  end.
(** CmasiPointSearchTaskService.cpp:160-256, ImpactPointSearchTaskService.cpp:190-375; a standoff distance of a
    millionth of a mm, which counts as 0 there, is left out *)
Definition calc_point (standoff : Z) (cost : Z -> Z) (gs : list group) (h : Z) (id : Z) : Z * list option_ :=
  if standoff <=? 0
  then (id, [{| o_id := id; o_for := flat_map vehicles gs; o_look := (h, 0); o_back := false; o_cost := 0 |}])
  else point_groups cost h gs id.
Fixpoint point_loop (standoff : Z) (cost : Z -> Z) (gs : list group) (hs : list Z) (id : Z) : list option_ :=
  match hs with
  | [] => []
  | h :: hs' => let '(id', l) := calc_point standoff cost gs h id in l ++ point_loop standoff cost gs hs' (id' + 1)
  end.

(** CmasiPointSearchTaskService.cpp:232: [standoff / speed * 1000.0], for mm and tenths of m/s *)
Definition cost_cmasi (standoff sp : Z) : Z := Z.quot (10 * standoff) sp.
(** 79-158 *)
Definition cmasi_point (standoff : Z) (hs : list Z) (gs : list group) : list option_ * str :=
  let l := point_loop standoff (cost_cmasi standoff) gs hs first_option in (l, compose l).

(** ImpactPointSearchTaskService.cpp:353: [static_cast<int32_t>(standoff) / speed], a double that is cut off to whole
    numbers by setCost *)
Definition cost_impact (standoff sp : Z) : Z := Z.quot (10 * Z.quot standoff 1000) sp.
(** 115-197 *)
Definition impact_point (standoff : Z) (hs : list Z) (gs : list group) : list option_ * str :=
  let l := point_loop standoff (cost_impact standoff) gs (if standoff <? 0 then [0] else hs) first_option in (l, compose l).

(** LoiterTaskService.cpp:77-108; [own] are the eligible entities of the task *)
Definition loiter (own : list Z) : list option_ * str :=
  let l := [{| o_id := first_option; o_for := own; o_look := (0, 0); o_back := false; o_cost := 0 |}] in (l, compose l).

(** MustFlyTaskService.cpp:92-113, cost 1 *)
Fixpoint must_fly_loop (own : list Z) (hs : list Z) (id : Z) : list option_ :=
  match hs with
  | [] => []
  | h :: hs' => {| o_id := id; o_for := own; o_look := (h, 0); o_back := false; o_cost := 1 |} :: must_fly_loop own hs' (id + 1)
  end.
(** 64-133 *)
Definition must_fly (u eps : Z) (own : list Z) : list option_ * str :=
  let l := must_fly_loop own (sweep u eps (full u - inc u) 0) first_option in (l, compose l).

(** BlockadeTaskService.cpp:173-200; [known]: a state of the entity to be blocked or watched has come *)
Definition calc_watch (known : bool) (v : Z) : bool * list option_ :=
  if known then (true, [{| o_id := v; o_for := [v]; o_look := (0, 0); o_back := false; o_cost := 0 |}]) else (false, []).
(** 124-171, MultiVehicleWatchTaskService.cpp:124-170; [n], the number of vehicles wanted, is not used.  [None]: nothing
    is published. *)
Definition watch (known : bool) (n : Z) (gs : list group) : option (list option_ * str) :=
  let vs := flat_map vehicles gs in
  let rs := map (calc_watch known) vs in
  if forallb fst rs
  then Some (flat_map snd rs, lit ".(" ++ concat (map name vs) ++ lit ")")
  else None.

(** Model of RoutePlannerService, /repo/src/cpp/Services/RoutePlannerService.cpp:86-641 and 709-890: zones, operating regions,
    vehicles, the polygons in which routes are planned, and requests for route plans.

    Parameters: the outline made of a boundary ([outline], LinearizeBoundary and the removal of redundant points, [None]
    if it is not a simple polygon), the merging and shifting of polygons ([merge]), the removal of redundant points
    ([trim]), the checks on polygons other than their direction ([fits]), whether a point is in the polygons
    ([inside]), the way found between two points ([way]), its length ([len]) and the comparison of zones by the
    generated code ([same]).  Points are whole millimetres north and east; the conversion from latitude and longitude
    is left out.  Altitude type and turn type are left out.  The order in which vehicles and regions are visited
    does not matter: each pair of a region and a vehicle has an entry of its own.  Release build: region 0 is added
    for surface vehicles (334-341). *)
From Coq Require Import List ZArith QArith Bool.
From Verif Require Import ZMap.
Import ListNotations.
Open Scope list_scope.
Open Scope Z_scope.

(** East and north. *)
Definition point := (Z * Z)%type.
Definition poly := list point.

(** /repo/src/cpp/VisilibityLib/visilibity.cpp:1678-1687 (Polygon::area): twice the signed area. *)
Definition cross (a b : point) : Z := fst a * snd b - fst b * snd a.
Fixpoint chain (a : point) (l : list point) (last : point) : Z :=
  match l with [] => cross a last | b :: l' => cross a b + chain b l' last end.
Definition area (p : poly) : Z := match p with [] => 0 | a :: l => chain a l a end.

(** Point ordering and visilibity.cpp:2010-2029 (enforce_standard_form): the smallest point comes first. *)
Definition before (a b : point) : bool := (fst a <? fst b) || ((fst a =? fst b) && (snd a <? snd b)).
Fixpoint least (p : poly) (m : point) : point :=
  match p with [] => m | a :: l => least l (if before a m then a else m) end.
Definition peqb (a b : point) : bool := (fst a =? fst b) && (snd a =? snd b).
Fixpoint turn_to (fuel : nat) (m : point) (p : poly) : poly :=
  match fuel, p with
  | S f, a :: l => if peqb a m then p else turn_to f m (l ++ [a])
  | _, _ => p
  end.
Definition standard (p : poly) : poly :=
  match p with [] => [] | a :: _ => turn_to (length p) (least p a) p end.

Section AirPlan.
  (** Boundaries of zones. *)
  Context {B : Type}.

  (** KeepInZone, KeepOutZone: padding in millimetres, affected aircraft. *)
  Record zone := { z_bound : B; z_pad : Z; z_for : list Z }.
  (** OperatingRegion without its id. *)
  Record region := { g_ins : list Z; g_outs : list Z }.

  Inductive skind := SGeneric | SAir | SGround | SSurface | SOther.
  (** [CAir exact]: whether the type is AirVehicleConfiguration itself (isAirVehicleConfiguration, 297) and not one
      derived from it (151).  A surface vehicle has a water area. *)
  Inductive ckind := CGeneric | CAir (exact : bool) | CGround | CSurface (water : Z) | COther.
  Record vstate := { v_place : point; v_speed : Q; v_alt : Z }.
  Record conf := { c_kind : ckind; c_speed : Q; c_alt : Z }.

  Record route := { r_id : Z; r_start : option point; r_end : option point }.
  Record request := { q_id : Z; q_vehicle : Z; q_region : Z; q_task : Z; q_cost_only : bool; q_routes : list route }.
  Record wp := { w_num : Z; w_next : Z; w_place : point; w_alt : Z; w_speed : Q }.
  (** The cost is [None] if it is not set. *)
  Record plan := { p_id : Z; p_cost : option Z; p_points : list wp }.
  Record response := { a_id : Z; a_vehicle : Z; a_region : Z; a_task : Z; a_plans : list plan }.

  Inductive ev :=
  | State (v : Z) (k : skind) (x : vstate)
  | Conf (v : Z) (c : conf)
  | Water (z : Z) (b : B)
  | KeepIn (z : Z) (x : zone)
  | KeepOut (z : Z) (x : zone)
  | Region (r : Z) (g : region)
  | Request (sender : Z * Z) (q : request)
  | Other.
  Inductive out := Send (to : Z * Z) (a : response).

  Context (outline : B -> option poly) (merge : list (poly * Z) -> option (list poly)) (trim : poly -> poly)
          (fits : list poly -> bool) (inside : list poly -> point -> bool)
          (way : list poly -> point -> point -> list point) (len : list point -> Q)
          (same : zone -> zone -> bool).

  (** RoutePlannerService.h:143-156; the visibility graphs are filled and cleared together with the environments. *)
  Record st := {
    states : zmap vstate;            (* m_entityStates *)
    confs : zmap conf;               (* m_entityConfigurations *)
    ins : zmap zone;                 (* m_keepInZones *)
    outs : zmap zone;                (* m_keepOutZones *)
    regions : zmap region;           (* m_operatingRegions *)
    airs : list Z;                   (* m_airVehicles *)
    surfaces : list Z;               (* m_surfaceVehicles *)
    waters : zmap B;                 (* m_waterZones *)
    envs : zmap (zmap (list poly))   (* m_environments: region, vehicle *)
  }.
  (** At first nothing is known. *)
  Definition init : st :=
    {| states := []; confs := []; ins := []; outs := []; regions := []; airs := []; surfaces := []; waters := [];
       envs := [] |}.

  (** 402-412, 501-511: whether a zone applies to the vehicle. *)
  Definition applies (v : Z) (z : zone) : bool :=
    existsb (fun a => a =? v) (z_for z) || match z_for z with [] => true | _ => false end.

  (** 397-433, 495-532: the outlines of the listed zones that are known and apply, with their padding. *)
  Fixpoint listed (zs : zmap zone) (v : Z) (clip : Z -> Z) (ids : list Z) : list (poly * Z) :=
    match ids with
    | [] => []
    | i :: ids' =>
        match zget zs i with
        | Some z =>
            if applies v z
            then match outline (z_bound z) with
                 | Some p => (if area p <? 0 then rev p else p, clip (z_pad z)) :: listed zs v clip ids'
                 | None => listed zs v clip ids'
                 end
            else listed zs v clip ids'
        | None => listed zs v clip ids'
        end
    end.

  (** visilibity.cpp:1806-1827: the signs of the offsets must agree. *)
  Fixpoint signs (d : Z) (l : list Z) : bool :=
    match l with
    | [] => true
    | x :: l' => if d =? 0 then signs (Z.sgn x) l' else (Z.sgn x =? d) && signs d l'
    end.

  (** visilibity.cpp:1801-1844 (offset_polygons) *)
  Definition offset (l : list (poly * Z)) : option (list poly) :=
    match l with
    | [] => Some []
    | (p, d) :: l' => if signs (Z.sgn d) (map snd l') then merge l else None
    end.

  (** 479-492, 565-576: holes run clockwise, rims counterclockwise. *)
  Definition hole (p : poly) : poly := let q := trim p in standard (if 0 <? area q then rev q else q).
  Definition rim (p : poly) : poly := let q := trim p in standard (if area q <? 0 then rev q else q).

  (** 578-589: the first one of the largest area. *)
  Fixpoint largest (m : poly) (l : list poly) : poly :=
    match l with
    | [] => m
    | p :: l' => largest (if Z.abs (area m) <? Z.abs (area p) then p else m) l'
    end.

  (** 435-467: the least and greatest coordinates. *)
  Definition bounds (l : list point) : option (point * point) :=
    match l with
    | [] => None
    | a :: l' => Some (fold_left (fun b p => ((Z.min (fst (fst b)) (fst p), Z.min (snd (fst b)) (snd p)),
                                              (Z.max (fst (snd b)) (fst p), Z.max (snd (snd b)) (snd p)))) l' (a, a))
    end.

  (** 594-618: 50 km around all of the outlines. *)
  Definition box (l : list (poly * Z)) : option poly :=
    match bounds (flat_map fst l) with
    | None => None
    | Some ((x0, y0), (x1, y1)) =>
        let d := 50000000 in
        let p := [(x1 + d, y1 + d); (x1 + d, y0 - d); (x0 - d, y0 - d); (x0 - d, y1 + d)] in
        Some (standard (if area p <? 0 then rev p else p))
    end.

  (** visilibity.cpp:2278-2358 (Environment::is_valid): the directions are checked here, the rest is [fits]. *)
  Definition valid (l : list poly) : bool :=
    match l with
    | [] => false
    | p :: hs => fits l && (0 <? area p) && forallb (fun h => area h <? 0) hs
    end.

  (** 376-641 (BuildVehicleSpecificRegion): the polygons of a region for a vehicle; [None] if nothing is saved. *)
  Definition build (i o : zmap zone) (g : region) (v : Z) (water : option B) : option (list poly) :=
    let avoid := listed o v (Z.max 0) (g_outs g) in
    match offset avoid with
    | None => None
    | Some grown =>
        let holes := map hole grown in
        let stay := listed i v (Z.min 0) (g_ins g)
                    ++ match water with
                       | Some b => match outline b with
                                   | Some p => [(if area p <? 0 then rev p else p, 0)]
                                   | None => []
                                   end
                       | None => []
                       end in
        let outer := match offset stay with
                     | Some (p :: ps) => Some (largest (rim p) (map rim ps))
                     | _ => match g_ins g with [] => box avoid | _ => None end
                     end in
        let l := match outer with Some p => p :: holes | None => holes end in
        if valid l then Some l else None
    end.

  (** The state with other environments. *)
  Definition with_envs (s : st) (e : zmap (zmap (list poly))) : st :=
    {| states := states s; confs := confs s; ins := ins s; outs := outs s; regions := regions s; airs := airs s;
       surfaces := surfaces s; waters := waters s; envs := e |}.

  (** The environments of a region, 798-801. *)
  Definition inner (e : zmap (zmap (list poly))) (r : Z) : zmap (list poly) :=
    match zget e r with Some m => m | None => [] end.

  (** 620-640: a valid environment is saved. *)
  Definition build_vehicle (s : st) (r : Z) (g : region) (v : Z) (water : option B) : st :=
    match build (ins s) (outs s) g v water with
    | Some l => with_envs s (zset (envs s) r (zset (inner (envs s) r) v l))
    | None => s
    end.

  (** 272-283: the water area of a surface vehicle.  The stored configuration is taken for one of a surface vehicle
      without a check; here the water area is unknown if it is not one. *)
  Definition water_of (s : st) (v : Z) : option B :=
    match zget (confs s) v with
    | Some c => match c_kind c with CSurface a => zget (waters s) a | _ => None end
    | None => None
    end.

  (** 250-284 (BuildVisibilityRegion) *)
  Definition build_region (s : st) (r : Z) (g : region) : st :=
    let s0 := with_envs s (match zget (envs s) r with Some _ => zset (envs s) r [] | None => envs s end) in
    let s1 := fold_left (fun s v => build_vehicle s r g v None) (airs s) s0 in
    fold_left (fun s v => build_vehicle s r g v (water_of s v)) (surfaces s) s1.

  (** 286-343 (UpdateRegions) for a vehicle: all regions, and region 0 if [zero] and there is none. *)
  Definition update_vehicle (s : st) (v : Z) (water : option B) (zero : bool) : st :=
    let s1 := fold_left (fun s rg => build_vehicle s (fst rg) (snd rg) v water) (regions s) s in
    if zero && negb (zhas (regions s) 0)
    then build_vehicle s1 0 {| g_ins := []; g_outs := [] |} v water
    else s1.

  (** 344-373 (UpdateRegions) for a zone. *)
  Definition update_zone (s : st) (lists : region -> list Z) (z : Z) : st :=
    fold_left (fun s rg => if zin z (lists (snd rg)) then build_region s (fst rg) (snd rg) else s) (regions s) s.

  (** Entries of the maps and sets, 110-246. *)
  Definition put_state (s : st) (v : Z) (x : vstate) : st :=
    {| states := zset (states s) v x; confs := confs s; ins := ins s; outs := outs s; regions := regions s;
       airs := airs s; surfaces := surfaces s; waters := waters s; envs := envs s |}.
  Definition put_conf (s : st) (v : Z) (c : conf) : st :=
    {| states := states s; confs := zset (confs s) v c; ins := ins s; outs := outs s; regions := regions s;
       airs := airs s; surfaces := surfaces s; waters := waters s; envs := envs s |}.
  Definition add_air (s : st) (v : Z) : st :=
    {| states := states s; confs := confs s; ins := ins s; outs := outs s; regions := regions s;
       airs := zadd v (airs s); surfaces := surfaces s; waters := waters s; envs := envs s |}.
  Definition add_surface (s : st) (v : Z) : st :=
    {| states := states s; confs := confs s; ins := ins s; outs := outs s; regions := regions s;
       airs := airs s; surfaces := zadd v (surfaces s); waters := waters s; envs := envs s |}.
  Definition put_water (s : st) (z : Z) (b : B) : st :=
    {| states := states s; confs := confs s; ins := ins s; outs := outs s; regions := regions s;
       airs := airs s; surfaces := surfaces s; waters := zset (waters s) z b; envs := envs s |}.
  Definition put_in (s : st) (z : Z) (x : zone) : st :=
    {| states := states s; confs := confs s; ins := zset (ins s) z x; outs := outs s; regions := regions s;
       airs := airs s; surfaces := surfaces s; waters := waters s; envs := envs s |}.
  Definition put_out (s : st) (z : Z) (x : zone) : st :=
    {| states := states s; confs := confs s; ins := ins s; outs := zset (outs s) z x; regions := regions s;
       airs := airs s; surfaces := surfaces s; waters := waters s; envs := envs s |}.
  Definition put_region (s : st) (r : Z) (g : region) : st :=
    {| states := states s; confs := confs s; ins := ins s; outs := outs s; regions := zset (regions s) r g;
       airs := airs s; surfaces := surfaces s; waters := waters s; envs := envs s |}.

  (** operator== of two operating regions. *)
  Definition same_region (a b : region) : bool :=
    (if list_eq_dec Z.eq_dec (g_ins a) (g_ins b) then true else false)
    && (if list_eq_dec Z.eq_dec (g_outs a) (g_outs b) then true else false).

  (** The conversion to [int64_t], towards zero. *)
  Definition trunc (q : Q) : Z := Z.quot (Qnum q) (Z.pos (Qden q)).

  (** Comparison of numbers. *)
  Definition qlt (a b : Q) : bool := negb (Qle_bool b a).

  (** 713-742: speed and altitude. *)
  Definition speed_alt (s : st) (v : Z) : Q * Z :=
    let now := match zget (states s) v with Some x => (v_speed x, v_alt x) | None => ((-1 # 1)%Q, 0) end in
    match zget (confs s) v with
    | Some c => if match zget (states s) v with None => true | Some _ => false end || qlt (fst now) (1 # 10)
                then (c_speed c, c_alt c) else now
    | None => now
    end.

  (** 819-842, 854-882: waypoints numbered from 1, the last one followed by itself. *)
  Fixpoint waypoints (n : Z) (sp : Q) (al : Z) (l : list point) : list wp :=
    match l with
    | [] => []
    | p :: l' => {| w_num := n; w_next := match l' with [] => n | _ => n + 1 end; w_place := p; w_alt := al;
                    w_speed := sp |} :: waypoints (n + 1) sp al l'
    end.

  (** 817, 852 *)
  Definition cost (l sp : Q) : Z := trunc (l / sp * 1000)%Q.

  (** 761-789: the given place or else that of the vehicle. *)
  Definition place (s : st) (v : Z) (p : option point) : option point :=
    match p with
    | Some x => Some x
    | None => match zget (states s) v with Some x => Some (v_place x) | None => None end
    end.

  (** 752-886 *)
  Definition plan_route (s : st) (q : request) (r : route) : plan :=
    let (sp, al) := speed_alt s (q_vehicle q) in
    let none := {| p_id := r_id r; p_cost := None; p_points := [] |} in
    if qlt sp (1 # 10000) then none
    else
      match place s (q_vehicle q) (r_start r), place s (q_vehicle q) (r_end r) with
      | Some a, Some b =>
          match zget (inner (envs s) (q_region q)) (q_vehicle q) with
          | Some env =>
              if inside env a && inside env b
              then let l := way env a b in
                   {| p_id := r_id r; p_cost := Some (cost (len l) sp);
                      p_points := if q_cost_only q then [] else waypoints 1 sp al l |}
              else none
          | None =>
              {| p_id := r_id r; p_cost := Some (cost (len [a; b]) sp);
                 p_points := if q_cost_only q then [] else waypoints 1 sp al [a; b] |}
          end
      | _, _ => none
      end.

  (** 709-890 (HandleRoutePlanRequestMsg) *)
  Definition answer (s : st) (q : request) : response :=
    {| a_id := q_id q; a_vehicle := q_vehicle q; a_region := q_region q; a_task := q_task q;
       a_plans := map (plan_route s q) (q_routes q) |}.

  (** 86-247 (processReceivedLmcpMessage) *)
  Definition step (s : st) (e : ev) : st * list out :=
    match e with
    | Request sender q =>                                                        (* 90-107 *)
        (s, if zin (q_vehicle q) (airs s) || zin (q_vehicle q) (surfaces s) then [Send sender (answer s q)] else [])
    | State v k x =>
        (match k with
         | SGeneric | SGround => put_state s v x                                 (* 108-113, 126-132 *)
         | SAir =>                                                               (* 114-125 *)
             let s1 := put_state s v x in
             add_air (if zin v (airs s) then s1 else update_vehicle s1 v None false) v
         | SSurface =>                                                           (* 133-144 *)
             let s1 := put_state s v x in
             add_surface (if zin v (surfaces s) then s1 else update_vehicle s1 v None false) v
         | SOther => s
         end, [])
    | Conf v c =>
        (match c_kind c with
         | CGeneric | CGround => put_conf s v c                                  (* 145-150, 163-169 *)
         | CAir exact =>                                                         (* 151-162 *)
             let s1 := put_conf s v c in
             add_air (if zin v (airs s) || negb exact then s1 else update_vehicle s1 v None false) v
         | CSurface a =>                                                         (* 170-181 *)
             let s1 := if zhas (confs s) v then s else update_vehicle s v (zget (waters s) a) true in
             add_surface (put_conf s1 v c) v
         | COther => s
         end, [])
    | Water z b =>                                                               (* 182-199 *)
        (fold_left (fun s vc => match c_kind (snd vc) with
                                | CSurface a => if a =? z then update_vehicle s (fst vc) (zget (waters s) a) true else s
                                | _ => s
                                end) (confs s) (put_water s z b), [])
    | KeepIn z x =>                                                              (* 200-213 *)
        (put_in (match zget (ins s) z with
                 | Some y => if same y x then s else update_zone s g_ins z
                 | None => s
                 end) z x, [])
    | KeepOut z x =>                                                             (* 214-227 *)
        (put_out (match zget (outs s) z with
                  | Some y => if same y x then s else update_zone s g_outs z
                  | None => s
                  end) z x, [])
    | Region r g =>                                                              (* 228-245 *)
        (match zget (regions s) r with
         | Some g0 => if same_region g0 g then s else build_region s r g
         | None => build_region (put_region s r g) r g
         end, [])
    | Other => (s, [])
    end.
End AirPlan.
Arguments zone : clear implicits.
Arguments ev : clear implicits.
Arguments st : clear implicits.

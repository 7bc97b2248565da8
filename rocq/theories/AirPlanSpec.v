(** What a history of messages says about zones, regions and vehicles, which polygons a region has for a vehicle, when
    they are made anew, and what a plan promises. *)
From Coq Require Import List ZArith QArith.
From Verif Require Import Latest AirPlanModel.
Import ListNotations.
Open Scope list_scope.
Open Scope Z_scope.

Section Spec.
  Context {B : Type}.

  Definition says_state (v : Z) (e : ev B) : option vstate :=
    match e with
    | State u k x => if u =? v then match k with SOther => None | _ => Some x end else None
    | _ => None
    end.
  Definition says_conf (v : Z) (e : ev B) : option conf :=
    match e with
    | Conf u c => if u =? v then match c_kind c with COther => None | _ => Some c end else None
    | _ => None
    end.
  Definition says_in (z : Z) (e : ev B) : option (zone B) :=
    match e with KeepIn y x => if y =? z then Some x else None | _ => None end.
  Definition says_out (z : Z) (e : ev B) : option (zone B) :=
    match e with KeepOut y x => if y =? z then Some x else None | _ => None end.
  Definition says_region (r : Z) (e : ev B) : option region :=
    match e with Region y g => if y =? r then Some g else None | _ => None end.
  Definition says_water (z : Z) (e : ev B) : option B :=
    match e with Water y b => if y =? z then Some b else None | _ => None end.

  (** Messages that tell of an air or a surface vehicle. *)
  Definition is_air (v : Z) (e : ev B) : Prop :=
    (exists x, e = State v SAir x) \/ (exists c b, e = Conf v c /\ c_kind c = CAir b).
  Definition is_surface (v : Z) (e : ev B) : Prop :=
    (exists x, e = State v SSurface x) \/ (exists c a, e = Conf v c /\ c_kind c = CSurface a).
  Definition air (h : list (ev B)) (v : Z) : Prop := exists e, In e h /\ is_air v e.
  Definition surface (h : list (ev B)) (v : Z) : Prop := exists e, In e h /\ is_surface v e.
  Definition known (h : list (ev B)) (v : Z) : Prop := air h v \/ surface h v.

  (** A vehicle is an air vehicle or a surface vehicle throughout; configurations of a surface vehicle are of that
      kind. *)
  Definition flies (h : list (ev B)) (v : Z) : Prop := forall e, In e h -> ~ is_surface v e.
  Definition floats (h : list (ev B)) (v : Z) : Prop :=
    forall e, In e h -> ~ is_air v e
      /\ forall c, e = Conf v c -> c_kind c = COther \/ exists a, c_kind c = CSurface a.
  Definition one_kind (h : list (ev B)) (v : Z) : Prop := flies h v \/ floats h v.

  (** Polygons. *)

  Definition affects (z : zone B) (v : Z) : Prop := z_for z = [] \/ In v (z_for z).

  (** The same corners counterclockwise. *)
  Definition ccw (p q : poly) : Prop := (q = p /\ 0 <= area p) \/ (q = rev p /\ area p < 0).

  Context (outline : B -> option poly) (merge : list (poly * Z) -> option (list poly)) (trim : poly -> poly)
          (fits : list poly -> bool).

  (** The outlines of listed zones that count for a vehicle: those known to [know], affecting it, with an outline;
      [pad] bounds the padding. *)
  Inductive outlines (know : Z -> option (zone B)) (v : Z) (pad : Z -> Z) : list Z -> list (poly * Z) -> Prop :=
  | no_zone : outlines know v pad [] []
  | unknown_zone : forall i ids l, know i = None -> outlines know v pad ids l -> outlines know v pad (i :: ids) l
  | other_zone : forall i z ids l, know i = Some z -> ~ affects z v \/ outline (z_bound z) = None ->
      outlines know v pad ids l -> outlines know v pad (i :: ids) l
  | counted_zone : forall i z p q ids l, know i = Some z -> affects z v -> outline (z_bound z) = Some p -> ccw p q ->
      outlines know v pad ids l -> outlines know v pad (i :: ids) ((q, pad (z_pad z)) :: l).

  (** Only to be widened, only to be narrowed. *)
  Definition widen (d : Z) : Z := if d <? 0 then 0 else d.
  Definition narrow (d : Z) : Z := if 0 <? d then 0 else d.

  (** Polygons can be shifted together only if after a shifted one all are shifted in the same direction. *)
  Definition agree (l : list (poly * Z)) : Prop :=
    forall l1 p d l2 q d' l3, l = l1 ++ (p, d) :: l2 ++ (q, d') :: l3 -> (0 < d -> 0 < d') /\ (d < 0 -> d' < 0).
  Definition shifted (l : list (poly * Z)) (m : list poly) : Prop :=
    (l = [] /\ m = []) \/ (l <> [] /\ agree l /\ merge l = Some m).

  (** [q] is [p] without redundant corners, reversed if it does not run in direction [dir] (1 counterclockwise, -1
      clockwise), begun at its first least corner. *)
  Definition less (a b : point) : Prop := fst a < fst b \/ (fst a = fst b /\ snd a < snd b).
  Definition begun (p q : poly) : Prop :=
    (p = [] /\ q = [])
    \/ exists l1 a l2, p = l1 ++ a :: l2 /\ q = a :: l2 ++ l1
         /\ (forall b, In b l1 -> less a b) /\ (forall b, In b l2 -> ~ less b a).
  Definition run_as (dir : Z) (p q : poly) : Prop :=
    (0 <= dir * area (trim p) /\ begun (trim p) q) \/ (dir * area (trim p) < 0 /\ begun (rev (trim p)) q).

  (** 50 km around all corners of all polygons. *)
  Definition around (l : list (poly * Z)) (q : poly) : Prop :=
    exists x0 x1 y0 y1,
      let corner p := exists o d, In (o, d) l /\ In p o in
      (forall p, corner p -> x0 <= fst p <= x1 /\ y0 <= snd p <= y1)
      /\ (exists p, corner p /\ fst p = x0) /\ (exists p, corner p /\ fst p = x1)
      /\ (exists p, corner p /\ snd p = y0) /\ (exists p, corner p /\ snd p = y1)
      /\ let d := 50000000 in
         q = [(x0 - d, y0 - d); (x1 + d, y0 - d); (x1 + d, y1 + d); (x0 - d, y1 + d)].

  (** The polygons of a region for a vehicle: a rim and holes. *)
  Definition makes (kin kout : Z -> option (zone B)) (g : region) (v : Z) (water : option B) (l : list poly) : Prop :=
    exists avoid grown holes stay stay' r,
      outlines kout v widen (g_outs g) avoid
      /\ shifted avoid grown
      /\ Forall2 (run_as (-1)) grown holes
      /\ outlines kin v narrow (g_ins g) stay'
      /\ (match water with
          | Some b => match outline b with Some p => exists q, ccw p q /\ stay = stay' ++ [(q, 0)] | None => stay = stay' end
          | None => stay = stay'
          end)
      /\ ((exists m rs l1 l2, shifted stay m /\ Forall2 (run_as 1) m rs /\ rs = l1 ++ r :: l2
             /\ (forall x, In x l1 -> Z.abs (area x) < Z.abs (area r))
             /\ (forall x, In x l2 -> Z.abs (area x) <= Z.abs (area r)))
          \/ ((forall m, shifted stay m -> m = []) /\ g_ins g = [] /\ around avoid r))
      /\ l = r :: holes /\ fits l = true /\ 0 < area r /\ Forall (fun h => area h < 0) holes.

  (** The zones a history tells of. *)
  Definition told (says : Z -> ev B -> option (zone B)) (h : list (ev B)) (k : Z -> option (zone B)) : Prop :=
    forall z, match k z with Some x => latest (says z) h x | None => unsaid (says z) h end.
  Definition made (h : list (ev B)) (g : region) (v : Z) (water : option B) (m : option (list poly)) : Prop :=
    exists kin kout, told says_in h kin /\ told says_out h kout
      /\ match m with Some l => makes kin kout g v water l | None => forall l, ~ makes kin kout g v water l end.

  (** The water area of a surface vehicle. *)
  Definition water_area (h : list (ev B)) (v : Z) (w : option B) : Prop :=
    match w with
    | Some b => exists c a, latest (says_conf v) h c /\ c_kind c = CSurface a /\ latest (says_water a) h b
    | None => forall c a b, latest (says_conf v) h c -> c_kind c = CSurface a -> ~ latest (says_water a) h b
    end.

  (** The region as first told; region 0 is there for surface vehicles in any case. *)
  Definition region_or_zero (h : list (ev B)) (r : Z) (g : region) : Prop :=
    earliest (says_region r) h g
    \/ (r = 0 /\ unsaid (says_region 0) h /\ g = {| g_ins := []; g_outs := [] |}).

  Context (same : zone B -> zone B -> bool).

  (** When message [e] after history [h] makes the planner make the polygons of region [r] for vehicle [v] anew, from
      which region and water area; [true] if the old ones are given up in any case. *)
  Inductive occasion (h : list (ev B)) (e : ev B) (r v : Z) : bool -> region -> option B -> Prop :=
  | new_region : forall g w, e = Region r g -> (forall g0, earliest (says_region r) h g0 -> g0 <> g) ->
      known h v -> water_area h v w -> occasion h e r v true g w
  | changed_in : forall z x y g w, e = KeepIn z x -> latest (says_in z) h y -> same y x = false ->
      earliest (says_region r) h g -> In z (g_ins g) -> known h v -> water_area h v w -> occasion h e r v true g w
  | changed_out : forall z x y g w, e = KeepOut z x -> latest (says_out z) h y -> same y x = false ->
      earliest (says_region r) h g -> In z (g_outs g) -> known h v -> water_area h v w -> occasion h e r v true g w
  | first_air_state : forall x g, e = State v SAir x -> ~ air h v -> earliest (says_region r) h g ->
      occasion h e r v false g None
  | first_surface_state : forall x g, e = State v SSurface x -> ~ surface h v -> earliest (says_region r) h g ->
      occasion h e r v false g None
  | first_air_conf : forall c g, e = Conf v c -> c_kind c = CAir true -> ~ air h v -> earliest (says_region r) h g ->
      occasion h e r v false g None
  | first_surface_conf : forall c a g w, e = Conf v c -> c_kind c = CSurface a -> unsaid (says_conf v) h ->
      region_or_zero h r g ->
      (match w with Some b => latest (says_water a) h b | None => unsaid (says_water a) h end) ->
      occasion h e r v false g w
  | new_water : forall c a b g, e = Water a b -> latest (says_conf v) h c -> c_kind c = CSurface a ->
      region_or_zero h r g -> occasion h e r v false g (Some b).

  (** The polygons of region [r] for vehicle [v] after a history, if there are any. *)
  Inductive environment (r v : Z) : list (ev B) -> option (list poly) -> Prop :=
  | env_start : environment r v [] None
  | env_anew : forall h e g w m m0, occasion h e r v true g w -> made h g v w m -> environment r v h m0 ->
      environment r v (h ++ [e]) m
  | env_try : forall h e g w l m0, occasion h e r v false g w -> made h g v w (Some l) -> environment r v h m0 ->
      environment r v (h ++ [e]) (Some l)
  | env_fail : forall h e g w m0, occasion h e r v false g w -> made h g v w None -> environment r v h m0 ->
      environment r v (h ++ [e]) m0
  | env_kept : forall h e m0, (forall b g w, ~ occasion h e r v b g w) -> environment r v h m0 ->
      environment r v (h ++ [e]) m0.

  (** Plans. *)

  Context (inside : list poly -> point -> bool) (way : list poly -> point -> point -> list point)
          (len : list point -> Q).

  (** Speed and altitude of a vehicle: as last told of its state, unless it hardly moves or no state is known and it
      has a configuration. *)
  Definition travels (h : list (ev B)) (v : Z) (sp : Q) (al : Z) : Prop :=
    (exists x, latest (says_state v) h x /\ v_speed x = sp /\ v_alt x = al
       /\ ((1 # 10 <= sp)%Q \/ unsaid (says_conf v) h))
    \/ (exists c, latest (says_conf v) h c /\ c_speed c = sp /\ c_alt c = al
          /\ forall x, latest (says_state v) h x -> (v_speed x < 1 # 10)%Q).

  (** A place of a route: the one given, or else that of the vehicle. *)
  Definition at_place (h : list (ev B)) (v : Z) (o : option point) (p : point) : Prop :=
    o = Some p \/ (o = None /\ exists x, latest (says_state v) h x /\ v_place x = p).

  (** Whole milliseconds for a way at a speed, rounded towards zero. *)
  Definition takes (l sp : Q) (c : Z) : Prop :=
    let t := (l / sp * 1000)%Q in
    ((0 <= t)%Q -> (inject_Z c <= t)%Q /\ (t < inject_Z (c + 1))%Q)
    /\ ((t <= 0)%Q -> (t <= inject_Z c)%Q /\ (inject_Z (c - 1) < t)%Q).

  (** A plan along points. *)
  Definition along (p : plan) (cost_only : bool) (sp : Q) (al : Z) (l : list point) : Prop :=
    (exists c, p_cost p = Some c /\ takes (len l) sp c)
    /\ if cost_only then p_points p = []
       else length (p_points p) = length l
            /\ forall k x, nth_error l k = Some x -> exists w, nth_error (p_points p) k = Some w
                 /\ w_num w = Z.of_nat k + 1 /\ w_next w = Z.min (Z.of_nat k + 2) (Z.of_nat (length l))
                 /\ w_place w = x /\ w_alt w = al /\ w_speed w = sp.
  Definition nothing (p : plan) : Prop := p_cost p = None /\ p_points p = [].

  Definition planned (h : list (ev B)) (q : request) (m : option (list poly)) (r : route) (p : plan) : Prop :=
    p_id p = r_id r
    /\ ((nothing p
         /\ ((forall sp al, travels h (q_vehicle q) sp al -> (sp < 1 # 10000)%Q)
             \/ (forall a, ~ at_place h (q_vehicle q) (r_start r) a)
             \/ (forall b, ~ at_place h (q_vehicle q) (r_end r) b)))
        \/ exists sp al a b, travels h (q_vehicle q) sp al /\ (1 # 10000 <= sp)%Q
             /\ at_place h (q_vehicle q) (r_start r) a /\ at_place h (q_vehicle q) (r_end r) b
             /\ match m with
                | None => along p (q_cost_only q) sp al [a; b]
                | Some l => (inside l a = true /\ inside l b = true /\ along p (q_cost_only q) sp al (way l a b))
                            \/ ((inside l a = false \/ inside l b = false) /\ nothing p)
                end).
End Spec.

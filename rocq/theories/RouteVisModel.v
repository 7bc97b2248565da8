(** Model of RoutePlannerVisibilityService, /repo/src/cpp/Services/RoutePlannerVisibilityService.cpp:156-452:
    zones, operating regions, vehicle configurations and requests for route plans.

    Parameters: a position ([P]), the graph made from a list of polygons ([make], [None] if the polygons cannot be
    expanded and merged; C54 and C55 are about what it contains), the length found in it ([length], C54) and the
    waypoints listed for it ([points]).  Entity states and RouteRequest messages do nothing here.  Turn radii and
    headings are left out: they enter the waypoints only. *)
From Coq Require Import List ZArith QArith Qround Bool.
From Verif Require Import ZMap.
Import ListNotations.
Open Scope list_scope.
Open Scope Z_scope.

(** The kinds of configuration told apart, RoutePlannerVisibilityService.cpp:206-208 and 596; an air vehicle has a
    nominal speed. *)
Inductive kind := Air (speed : Q) | Surface | Ground.

Section Model.
  Context {P G W : Type}.

  (** A zone as kept, :258-262: its id, whether it is one to stay in, its corners and its padding. *)
  Record zone := { z_id : Z; z_in : bool; z_points : list P; z_pad : Q }.

  Record route := { r_id : Z; r_start : P; r_end : P }.
  Record request := { q_id : Z; q_vehicle : Z; q_region : Z; q_task : Z; q_cost_only : bool; q_routes : list route }.
  Record plan := { p_id : Z; p_cost : Z; p_points : list W }.
  Record response := { a_id : Z; a_vehicle : Z; a_region : Z; a_task : Z; a_plans : list plan }.

  (** Messages; a zone of unknown geometry has no points (:454-546). *)
  Inductive ev :=
  | Config (id : Z) (k : kind)
  | Zone (id : Z) (keep_in : bool) (points : option (list P)) (pad : Q)
  | Region (id : Z) (ins outs : list Z)
  | Request (from : Z * Z) (q : request)
  | Other.
  Inductive out := Send (to : Z * Z) (a : response).

  Context (make : list zone -> option G) (length : G -> P -> P -> Z) (points : G -> P -> P -> list W).

  Record state := {
    configs : zmap kind;     (* m_idVsEntityConfiguration *)
    speeds : zmap Q;         (* m_idVsPlannerParameters *)
    zones : zmap zone;       (* m_idVsBoundary *)
    graphs : zmap G          (* m_operatingIdVsBaseVisibilityGraph *)
  }.

  (** The [int] parameter of VisibilityGraph.h:211. *)
  Definition int_of (i : Z) : Z := (i + 2147483648) mod 4294967296 - 2147483648.

  (** VisibilityGraph.h:211-248: a polygon with the same id is replaced. *)
  Fixpoint add_polygon (ps : list zone) (z : zone) : list zone :=
    match ps with
    | [] => [z]
    | p :: ps' => if int_of (z_id p) =? int_of (z_id z) then z :: ps' else p :: add_polygon ps' z
    end.

  (** :279-307 and 311-338: [None] if a zone is not known. *)
  Fixpoint collect (zs : zmap zone) (ids : list Z) (ps : list zone) : option (list zone) :=
    match ids with
    | [] => Some ps
    | i :: ids' =>
        match zget zs i with
        | None => None
        | Some z => collect zs ids' (match z_points z with [] => ps | _ => add_polygon ps z end)
        end
    end.

  (** :267-373 *)
  Definition region (s : state) (id : Z) (ins outs : list Z) : state :=
    match collect (zones s) ins [] with
    | None => s
    | Some ps =>
        match collect (zones s) outs ps with
        | None => s
        | Some ps' =>
            match make ps' with
            | None => s
            | Some g => {| configs := configs s; speeds := speeds s; zones := zones s; graphs := zset (graphs s) id g |}
            end
        end
    end.

  (** :156-169 *)
  Definition init : state := region {| configs := []; speeds := []; zones := []; graphs := [] |} 0 [] [].

  (** :590-614 *)
  Definition speed_of (k : kind) : Q := match k with Air v => v | _ => 0 end.

  (** The conversion to [int64_t], towards zero. *)
  Definition trunc (q : Q) : Z := Z.quot (Qnum q) (Z.pos (Qden q)).

  (** :427-429 *)
  Definition cost (l : Z) (v : Q) : Z :=
    trunc ((if Qle_bool v 0 then 0 else inject_Z l / v) * 1000)%Q.

  (** :410-444 *)
  Definition plan_route (g : G) (v : Q) (cost_only : bool) (r : route) : plan :=
    {| p_id := r_id r; p_cost := cost (length g (r_start r) (r_end r)) v;
       p_points := if cost_only then [] else points g (r_start r) (r_end r) |}.

  (** :384-452 *)
  Definition answer (s : state) (q : request) : option response :=
    match zget (speeds s) (q_vehicle q), zget (graphs s) (q_region q) with
    | Some v, Some g =>
        Some {| a_id := q_id q; a_vehicle := q_vehicle q; a_region := q_region q; a_task := q_task q;
                a_plans := map (plan_route g v (q_cost_only q)) (q_routes q) |}
    | _, _ => None
    end.

  (** :171-242 *)
  Definition step (s : state) (e : ev) : state * list out :=
    match e with
    | Config i k => ({| configs := zset (configs s) i k; speeds := zset (speeds s) i (speed_of k);
                        zones := zones s; graphs := graphs s |}, [])
    | Zone i b (Some ps) pad =>
        ({| configs := configs s; speeds := speeds s;
            zones := zset (zones s) i {| z_id := i; z_in := b; z_points := ps; z_pad := pad |}; graphs := graphs s |}, [])
    | Zone _ _ None _ => (s, [])
    | Region i ins outs => (region s i ins outs, [])
    | Request from q =>
        (s, match zget (configs s) (q_vehicle q) with
            | Some Ground | None => []
            | Some _ => match answer s q with Some a => [Send from a] | None => [] end
            end)
    | Other => (s, [])
    end.
End Model.
Arguments zone : clear implicits.
Arguments ev : clear implicits.
Arguments request : clear implicits.
Arguments route : clear implicits.
Arguments response : clear implicits.
Arguments plan : clear implicits.
Arguments out : clear implicits.
Arguments state : clear implicits.

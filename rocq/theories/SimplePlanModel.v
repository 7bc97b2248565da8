(** Model of the simple waypoint plan manager, /repo/src/cpp/Services/SimpleWaypointPlanManagerService.cpp:78-178
    (processReceivedLmcpMessage, handleSingleWaypointPlan), in real numbers.

    The converter of coordinates is the one for the whole program: that another service uses it is an event.  Fields of missions and
    waypoints that the code does not touch are kept as one value.  States have a location, and air vehicles a nominal flight profile.
    Numbers of waypoints are not limited to 64 bits. *)
From Coq Require Import Reals List ZArith.
From Verif Require Import ZMap FlatEarthModel RouteExtModel.
Import ListNotations.
Open Scope R_scope.

Record waypoint := { number : Z; next : Z; lat : R; lon : R; fields : Z }.
Record mission := { vehicle : Z; points : list waypoint; content : Z }.

(** Nominal speed, and the largest bank angle in degrees if it is an air or a surface vehicle. *)
Record config := { speed : R; banking : option R }.

Inductive ev :=
| State (v : Z) (la lo : R)
| Config (v : Z) (c : config)
| Response (ms : list mission)
| Elsewhere (la lo : R).

Record state := { configs : zmap config; states : zmap (R * R); converter : earth }.
Definition init : state := {| configs := []; states := []; converter := fresh |}.

Definition gravity : R := 980665 / 10 ^ 5.

(** 120, 124-151. *)
Definition turn_radius (s : state) (v : Z) : R :=
  match zget (configs s) v with
  | None => 30000
  | Some c =>
    let phi := match banking c with Some b => b | None => 45 end in
    let phi := Rabs phi in
    let phi := if Rlt_dec phi 1 then 1 else phi in
    let phi := if Rlt_dec 89 phi then 89 else phi in
    speed c * speed c / (gravity * tan (phi * deg_to_rad))
  end.

(** 153-177: the two waypoints for one, and the converter afterwards. *)
Definition single (s : state) (v : Z) (w : waypoint) : earth * list waypoint :=
  let r := turn_radius s v in
  let '(e, p) := deg_ne_m (lat w) (lon w) (converter s) in
  let '(e, heading) := match zget (states s) v with
                       | None => (e, 0)
                       | Some x => let '(e, q) := deg_ne_m (fst x) (snd x) e in (e, atan2 (snd p - snd q) (fst p - fst q))
                       end in
  let ll := m_ll_deg (fst p + 2 * r * cos heading) (snd p + 2 * r * sin heading) e in
  (e, [{| number := number w; next := number w + 1; lat := lat w; lon := lon w; fields := fields w |};
       {| number := number w + 1; next := next w; lat := fst ll; lon := snd ll; fields := fields w |}]).

(** 94-109: the first mission of the vehicle. *)
Fixpoint mission_of (v : Z) (ms : list mission) : option mission :=
  match ms with
  | [] => None
  | m :: ms => if Z.eqb (vehicle m) v then Some m else mission_of v ms
  end.

(** 79-112 (processReceivedLmcpMessage): the missions that are sent. *)
Definition step (v : Z) (s : state) (e : ev) : state * list mission :=
  match e with
  | State u la lo => ({| configs := configs s; states := zset (states s) u (la, lo); converter := converter s |}, [])
  | Config u c => ({| configs := zset (configs s) u c; states := states s; converter := converter s |}, [])
  | Elsewhere la lo => ({| configs := configs s; states := states s; converter := fst (deg_ne_m la lo (converter s)) |}, [])
  | Response ms =>
    match mission_of v ms with
    | None => (s, [])
    | Some m =>
      match points m with
      | [w] => let '(c, ws) := single s v w in
               ({| configs := configs s; states := states s; converter := c |}, [{| vehicle := vehicle m; points := ws; content := content m |}])
      | _ => (s, [m])
      end
    end
  end.
Definition run (v : Z) (s : state) (evs : list ev) : state := fold_left (fun s e => fst (step v s e)) evs s.

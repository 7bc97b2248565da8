(** Model of SensorManagerService, /repo/src/cpp/Services/SensorManagerService.cpp:103-371: which camera, gimbal angle and
    field of view are chosen for a footprint request.

    Parameters: the ground sample distance at an altitude, angle, field of view and resolution ([gsd], 263-264 and
    300-304), the shape of the footprint ([shape], 342-371, see FootprintModel.v) and the radians in a degree ([deg]).
    Numbers are rational and not rounded; [abs] (305, 307) is the absolute value. *)
From Coq Require Import List ZArith QArith Qabs Qround Bool.
From Verif Require Import ZMap.
Import ListNotations.
Open Scope list_scope.
Open Scope Z_scope.

(** WavelengthBand: 0 is AllAny. *)
Definition AllAny : Z := 0.

(** FOVOperationMode and the fields it selects. *)
Inductive views := Discrete (l : list Q) | Continuous (lo hi : Q) | NoView.
Record camera := { k_id : Z; k_band : Z; k_hres : Z; k_vres : Z; k_views : views }.
(** Angles in degrees. *)
Record gimbal := { m_id : Z; m_min : Q; m_max : Q; m_clamped : bool; m_holds : list Z }.
Inductive payload := Gimbal (g : gimbal) | Camera (k : camera) | OtherPayload.
Record conf := { c_alt : Q; c_payloads : list payload }.

(** FootprintRequest *)
Record ask := { q_id : Z; q_vehicle : Z; q_bands : list Z; q_gsds : list Q; q_alts : list Q; q_elevs : list Q }.

Inductive ev := Conf (v : Z) (c : conf) | Requests (id : Z) (l : list ask) | Other.

(** Comparison of numbers. *)
Definition qlt (a b : Q) : bool := negb (Qle_bool b a).

Section Sensor.
  Context {G : Type}.

  (** SensorFootprint without its ids. *)
  Record found := { f_camera : Z; f_gimbal : Z; f_fov : Q; f_alt : Q; f_elev : Q; f_aspect : Q; f_gsd : Q; f_band : Z;
                    f_shape : G }.
  (** [None]: the ground sample distance is 0 and the other fields have their initial values. *)
  Record footprint := { p_request : Z; p_vehicle : Z; p_found : option found }.
  Inductive out := Response (id : Z) (l : list footprint).

  Context (gsd : Q -> Q -> Q -> Z -> Q) (shape : Q -> Q -> Q -> Q -> G) (deg : Q).
  Definition pi : Q := 180 * deg.

  (** Values from [lo] to [hi] in steps, 261-262 and 291-293; the sum of steps is written as a multiple. *)
  Definition steps (lo hi step : Q) : list Q :=
    map (fun n => lo + inject_Z (Z.of_nat n) * step)%Q (seq 0 (Z.to_nat (Qfloor ((hi - lo) / step) + 1))).

  (** 241-258: lowest and highest elevation in radians. *)
  Definition range (g : gimbal) (elev : Q) : Q * Q :=
    let lo := if qlt (m_min g * deg) (- pi) then (- (pi - deg))%Q else (m_min g * deg)%Q in
    let hi := if qlt 0 (m_max g * deg) then (- deg)%Q else (m_max g * deg)%Q in
    let hi := if qlt hi lo then lo else hi in
    let (lo, hi) := if m_clamped g then (lo, hi) else ((- (pi - deg))%Q, (- deg)%Q) in
    if qlt elev (1 # 1000)
    then let lo := if Qle_bool elev lo then lo else elev in (lo, lo)
    else (lo, hi).

  (** 259-262 *)
  Definition elevations (g : gimbal) (elev : Q) : list Q :=
    let (lo, hi) := range g elev in if qlt lo 0 then steps lo hi (5 * deg) else [].

  (** 284-298: fields of view in degrees. *)
  Definition fovs (k : camera) : list Q :=
    match k_views k with Discrete l => l | Continuous lo hi => steps lo hi 5 | NoView => [] end.

  (** 278-282 *)
  Definition aspect (k : camera) : Q :=
    if k_vres k =? 0 then 1%Q else (inject_Z (k_hres k) / inject_Z (k_vres k))%Q.
  Definition resolution (k : camera) : Z := if k_hres k <? k_vres k then k_hres k else k_vres k.

  (** 299-325: the new setting is taken if it is the first or closer to what is desired than the last one. *)
  Definition consider (alt want elev : Q) (g : gimbal) (k : camera) (b : option found) (fov : Q) : option found :=
    let d := gsd alt elev fov (resolution k) in
    if match b with
       | None => true
       | Some x => qlt (Qabs (want - d)) (Qabs (want - f_gsd x))
       end
    then Some {| f_camera := k_id k; f_gimbal := m_id g; f_fov := fov; f_alt := alt; f_elev := (elev / deg)%Q;
                 f_aspect := aspect k; f_gsd := d; f_band := k_band k;
                 f_shape := shape fov (aspect k) elev alt |}
    else b.

  (** 266-331: the cameras on a gimbal. *)
  Definition cameras (c : conf) (band : Z) (alt want elev : Q) (g : gimbal) (b : option found) : option found :=
    fold_left (fun b id =>
      fold_left (fun b p =>
        match p with
        | Camera k =>
            if (k_id k =? id) && ((k_band k =? band) || (band =? AllAny))
            then fold_left (consider alt want elev g k) (fovs k) b
            else b
        | _ => b
        end) (c_payloads c) b) (m_holds g) b.

  (** 210-340 (FindSensorFootPrint) *)
  Definition find (c : conf) (band : Z) (want alt elev : Q) : option found :=
    let alt := if qlt alt (1 # 1000) then c_alt c else alt in
    let want := if qlt want (1 # 1000) then 1000%Q else want in
    if Qle_bool 10 alt
    then fold_left (fun b p =>
           match p with
           | Gimbal g => fold_left (fun b e => cameras c band alt want e g b) (elevations g elev) b
           | _ => b
           end) (c_payloads c) None
    else None.

  (** 144-183: an empty list stands for one value. *)
  Definition or_one {A : Type} (l : list A) (x : A) : list A := match l with [] => [x] | _ => l end.

  (** 136-203: the footprints of a request, in the order of the loops. *)
  Definition footprints (s : zmap conf) (q : ask) : list footprint :=
    match zget s (q_vehicle q) with
    | None => []
    | Some c =>
        flat_map (fun band => flat_map (fun want => flat_map (fun alt => map (fun elev =>
          {| p_request := q_id q; p_vehicle := q_vehicle q; p_found := find c band want alt elev |})
          (or_one (q_elevs q) 0%Q)) (or_one (q_alts q) 0%Q)) (or_one (q_gsds q) 0%Q)) (or_one (q_bands q) AllAny)
    end.

  (** 147 (SensorManagerService.h): the configurations; none at first. *)
  Definition init : zmap conf := [].

  (** 103-129 (processReceivedLmcpMessage).  [insert] leaves an entry that is there as it is. *)
  Definition step (s : zmap conf) (e : ev) : zmap conf * list out :=
    match e with
    | Conf v c => (if zhas s v then s else zset s v c, [])
    | Requests id l => (s, [Response id (flat_map (footprints s) l)])
    | Other => (s, [])
    end.
End Sensor.

(** Which settings of cameras and gimbals a vehicle has, and which footprints are to be reported. *)
From Coq Require Import List ZArith QArith Qabs Sorted.
From Verif Require Import Latest SensorModel.
Import ListNotations.
Open Scope list_scope.
Open Scope Q_scope.

Definition says_conf (v : Z) (e : ev) : option conf :=
  match e with Conf u c => if Z.eqb u v then Some c else None | _ => None end.

Section Spec.
  Context {G : Type} (gsd : Q -> Q -> Q -> Z -> Q) (shape : Q -> Q -> Q -> Q -> G) (deg : Q).

  (** [x] is reached from [lo] in whole steps without passing [hi]. *)
  Definition reached (lo hi step x : Q) : Prop := exists n : nat, x = lo + inject_Z (Z.of_nat n) * step /\ x <= hi.

  (** From where to where a gimbal is moved, in radians: a clamped one between its limits, but not above 1 degree below
      the horizon if its upper limit is above, and not lower than half a turn; one that is not clamped from 1 degree
      below the horizon in front to 1 degree below it behind. *)
  Definition moves (g : gimbal) (lo hi : Q) : Prop :=
    if m_clamped g
    then (if Qlt_le_dec (m_min g * deg) (- (180 * deg)) then lo = - (180 * deg - deg) else lo = m_min g * deg)
         /\ exists top, (if Qlt_le_dec 0 (m_max g * deg) then top = - deg else top = m_max g * deg)
              /\ (if Qlt_le_dec top lo then hi = lo else hi = top)
    else lo = - (180 * deg - deg) /\ hi = - deg.

  (** The angles tried when [elev] is asked for: all, if it is at least 0.001; otherwise just that one or, if it is too
      low, the lowest.  Nothing is tried that does not point down. *)
  Definition angle (g : gimbal) (elev x : Q) : Prop :=
    exists lo hi, moves g lo hi
      /\ ((1 # 1000 <= elev /\ lo < 0 /\ reached lo hi (5 * deg) x)
          \/ (elev < 1 # 1000 /\ elev <= lo /\ lo < 0 /\ x = lo + inject_Z 0 * (5 * deg))
          \/ (elev < 1 # 1000 /\ lo < elev /\ elev < 0 /\ x = elev + inject_Z 0 * (5 * deg))).

  Definition view (k : camera) (x : Q) : Prop :=
    match k_views k with
    | Discrete l => In x l
    | Continuous lo hi => reached lo hi 5 x
    | NoView => False
    end.

  (** A camera on a gimbal of the vehicle that sees the wavelength, an angle and a field of view. *)
  Definition setting (c : conf) (band : Z) (elev : Q) (g : gimbal) (x : Q) (k : camera) (fov : Q) : Prop :=
    In (Gimbal g) (c_payloads c) /\ angle g elev x /\ In (Camera k) (c_payloads c) /\ In (k_id k) (m_holds g)
    /\ (band = AllAny \/ k_band k = band) /\ view k fov.

  (** Everything that is tried, in order: gimbals as listed, angles from below, cameras as the gimbal lists them and fields
      of view as listed or from below. *)
  Definition choice := (gimbal * Q * camera * Q)%type.
  Definition choices (ang : gimbal -> list Q) (vw : camera -> list Q) (c : conf) (band : Z) : list choice :=
    flat_map (fun p => match p with
      | Gimbal g => flat_map (fun x => flat_map (fun id => flat_map (fun p' => match p' with
          | Camera k => if (Z.eqb (k_id k) id && (Z.eqb (k_band k) band || Z.eqb band AllAny))%bool
                        then map (fun v => (g, x, k, v)) (vw k) else []
          | _ => []
          end) (c_payloads c)) (m_holds g)) (ang g)
      | _ => []
      end) (c_payloads c).
  Definition angles_from_below (elev : Q) (ang : gimbal -> list Q) : Prop :=
    forall g, StronglySorted Qlt (ang g) /\ forall x, In x (ang g) <-> angle g elev x.
  Definition views_in_order (vw : camera -> list Q) : Prop :=
    forall k, match k_views k with
              | Discrete l => vw k = l
              | _ => StronglySorted Qlt (vw k) /\ forall x, In x (vw k) <-> view k x
              end.

  Definition lesser (k : camera) (r : Z) : Prop := (r = k_hres k \/ r = k_vres k) /\ (r <= k_hres k)%Z /\ (r <= k_vres k)%Z.
  Definition ratio (k : camera) (a : Q) : Prop :=
    (k_vres k = 0%Z /\ a = 1) \/ (k_vres k <> 0%Z /\ a = inject_Z (k_hres k) / inject_Z (k_vres k)).

  (** Altitude and ground sample distance asked for. *)
  Definition altitude (c : conf) (alt a : Q) : Prop := (alt < 1 # 1000 /\ a = c_alt c) \/ (1 # 1000 <= alt /\ a = alt).
  Definition wanted (want w : Q) : Prop := (want < 1 # 1000 /\ w = 1000) \/ (1 # 1000 <= want /\ w = want).

  (** The distance from the wanted ground sample distance. *)
  Definition off (a w x : Q) (k : camera) (fov : Q) (o : Q) : Prop := exists r, lesser k r /\ o = Qabs (w - gsd a x fov r).

  (** The footprint of a setting. *)
  Definition describes (f : @found G) (a : Q) (g : gimbal) (x : Q) (k : camera) (fov : Q) : Prop :=
    f_camera f = k_id k /\ f_gimbal f = m_id g /\ f_fov f = fov /\ f_alt f = a /\ f_elev f = x / deg
    /\ ratio k (f_aspect f) /\ (exists r, lesser k r /\ f_gsd f = gsd a x fov r) /\ f_band f = k_band k
    /\ f_shape f = shape fov (f_aspect f) x a.

  (** What is reported for a wavelength, ground sample distance, altitude and elevation. *)
  Definition best (c : conf) (band : Z) (want alt elev : Q) (f : option (@found G)) : Prop :=
    exists a w, altitude c alt a /\ wanted want w
      /\ match f with
         | None => a < 10 \/ forall g x k fov, ~ setting c band elev g x k fov
         | Some f => 10 <= a /\ exists g x k fov o, setting c band elev g x k fov /\ describes f a g x k fov /\ off a w x k fov o
             /\ forall g' x' k' fov' o', setting c band elev g' x' k' fov' -> off a w x' k' fov' o' -> o <= o'
         end.

  (** An empty list stands for the value [x]. *)
  Definition given {A : Type} (l : list A) (x : A) (l' : list A) : Prop := (l = [] /\ l' = [x]) \/ (l <> [] /\ l' = l).

  (** The footprints reported for the requests of a message: none for a vehicle whose configuration is not known; one
      for each choice of wavelength, ground sample distance, altitude and elevation, the last changing fastest. *)
  Inductive reported (h : list ev) : list ask -> list (@footprint G) -> Prop :=
  | rep_nil : reported h [] []
  | rep_unknown : forall q l fs, unsaid (says_conf (q_vehicle q)) h -> reported h l fs -> reported h (q :: l) fs
  | rep_known : forall q l fs c bands gsds alts elevs gs, earliest (says_conf (q_vehicle q)) h c ->
      given (q_bands q) AllAny bands -> given (q_gsds q) 0 gsds -> given (q_alts q) 0 alts -> given (q_elevs q) 0 elevs ->
      Forall2 (fun '(band, (want, (alt, elev))) p =>
                 p_request p = q_id q /\ p_vehicle p = q_vehicle q /\ best c band want alt elev (p_found p))
              (list_prod bands (list_prod gsds (list_prod alts elevs))) gs ->
      reported h l fs -> reported h (q :: l) (gs ++ fs).
End Spec.

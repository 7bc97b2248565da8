(** Theorems about sensor footprints.  See SensorSpec.v for what they speak of. *)
From Coq Require Import List ZArith QArith Qabs Bool Lia Lqa Sorted.
From Verif Require Import ZMap Run Latest SensorModel SensorSpec SensorProofs.
Import ListNotations.
Open Scope list_scope.
Open Scope Q_scope.

Section Props.
  Context {G : Type} (gsd : Q -> Q -> Q -> Z -> Q) (shape : Q -> Q -> Q -> Q -> G) (deg : Q) (pos : 0 < deg).
  Notation step := (step gsd shape deg).
  Notation state := (fun h => fst (run step init h)).
  Notation setting := (setting deg).
  Notation describes := (describes gsd shape deg).
  Notation reported := (reported gsd shape deg).

  (** Each message with requests is answered at once, with the footprints of all of its requests in order. *)
  Theorem C71_answered : forall h id l,
    exists fs, snd (step (state h) (Requests id l)) = [Response id fs] /\ reported h l fs.
  Proof.
    intros h id l. eexists. split; [reflexivity|]. apply flat_reported. exact pos.
  Qed.

  (** Nothing else is sent. *)
  Theorem C71_only : forall h id fs, In (Response id fs) (sent (snd (run step init h))) ->
    exists h1 l h2, h = h1 ++ Requests id l :: h2 /\ reported h1 l fs.
  Proof.
    intros h id fs. induction h as [|e h IH] using rev_ind; [intros []|]. rewrite run_snoc. cbn [snd]. rewrite sent_snoc.
    intros I. apply in_app_or in I. destruct I as [I|I].
    - destruct (IH I) as (h1 & l & h2 & -> & R). exists h1, l, (h2 ++ [e]). split; [rewrite <- app_assoc; reflexivity|exact R].
    - destruct e as [v c|id' l|]; [destruct I| |destruct I].
      destruct (C71_answered h id' l) as (fs' & E & R). cbv beta in E. rewrite E in I. destruct I as [I|[]]. injection I as -> ->.
      exists h, l, []. auto.
  Qed.

  (** A footprint that is found is that of the first one of the closest settings. *)
  Theorem C71_first : forall c band want alt elev f ang vw a w,
    find gsd shape deg c band want alt elev = Some f ->
    angles_from_below deg elev ang -> views_in_order vw -> altitude c alt a -> wanted want w ->
    exists l1 g x k v l2 o, choices ang vw c band = l1 ++ (g, x, k, v) :: l2 /\ describes f a g x k v /\ off gsd a w x k v o
      /\ forall g' x' k' v' o', In (g', x', k', v') l1 -> off gsd a w x' k' v' o' -> o < o'.
  Proof.
    intros c band want alt elev f ang vw a w F AN VW A W.
    destruct (find_first gsd shape deg c band want alt elev f a w A W F) as (l1 & (((g, x), k), v) & l2 & E & -> & B1 & B2).
    assert (EQ : choices ang vw c band = choices (fun g => elevations deg g elev) fovs c band).
    { assert (EA : forall g, ang g = elevations deg g elev).
      { intros g'. destruct (AN g') as (S & I). apply sorted_unique; [exact S|apply elevations_sorted, pos|].
        intros y. rewrite I. symmetry. apply in_elevations, pos. }
      assert (EV : forall k, vw k = fovs k).
      { intros k'. specialize (VW k'). unfold fovs. destruct (k_views k') as [l|lo hi|] eqn:K; [exact VW| |].
        - destruct VW as (S & I). apply sorted_unique; [exact S|apply steps_sorted; lra|].
          intros y. rewrite I. unfold view. rewrite K. symmetry. apply in_steps. lra.
        - destruct VW as (S & I). destruct (vw k') as [|y l]; [reflexivity|]. exfalso.
          specialize (I y). unfold view in I. rewrite K in I. apply I. left. reflexivity. }
      unfold choices. apply flat_map_ext. intros [g'| |]; try reflexivity. rewrite EA. apply flat_map_ext. intros y.
      apply flat_map_ext. intros i. apply flat_map_ext. intros [|k'|]; try reflexivity. rewrite EV. reflexivity. }
    exists l1, g, x, k, v, l2, (far gsd shape deg a w (g, x, k, v)). split; [rewrite EQ; exact E|].
    split; [apply mk_describes|]. split; [apply (off_far gsd shape deg a w g); reflexivity|].
    intros g' x' k' v' o' I O. apply (off_far gsd shape deg a w g') in O. subst o'. apply B1, I.
  Qed.

  (** If the angle is left open by a value of at least 0.001, the camera points down and within the limits of a clamped gimbal
      with sensible limits. *)
  Theorem C71_within : forall g elev x, 1 # 1000 <= elev -> m_clamped g = true ->
    -(180) <= m_min g -> m_min g <= m_max g -> m_max g <= 0 -> angle deg g elev x -> m_min g * deg <= x <= m_max g * deg.
  Proof.
    intros g elev x E C A B D (lo & hi & M & K). unfold moves in M. rewrite C in M. destruct M as (L & top & T & H).
    assert (P1 : -(180) * deg <= m_min g * deg) by (apply Qmult_le_compat_r; lra).
    assert (P2 : m_min g * deg <= m_max g * deg) by (apply Qmult_le_compat_r; lra).
    assert (P3 : m_max g * deg <= 0 * deg) by (apply Qmult_le_compat_r; lra).
    destruct (Qlt_le_dec (m_min g * deg) (- (180 * deg))); [exfalso; lra|]. subst lo.
    destruct (Qlt_le_dec 0 (m_max g * deg)); [exfalso; lra|]. subst top.
    destruct (Qlt_le_dec (m_max g * deg) (m_min g * deg)); [exfalso; lra|]. subst hi.
    destruct K as [(_ & _ & n & X & Y)|[(Z & _)|(Z & _)]]; [|exfalso; lra|exfalso; lra].
    split; [|exact Y]. rewrite X. assert (0 <= inject_Z (Z.of_nat n)) by (change 0 with (inject_Z 0); rewrite <- Zle_Qle; lia).
    assert (0 <= inject_Z (Z.of_nat n) * (5 * deg)) by (apply Qmult_le_0_compat; lra). lra.
  Qed.

  (** A request that leaves the elevations open is never answered with a footprint, whatever the vehicle. *)
  Theorem C71_open_elevation_refuted : forall h q l, q_elevs q = [] -> forall f, 
    In f (footprints gsd shape deg (state h) q) -> p_found f = None /\ snd (step (state h) (Requests l [q])) =
      [Response l (footprints gsd shape deg (state h) q)].
  Proof.
    intros h q l E f I. split; [|cbn; rewrite app_nil_r; reflexivity].
    unfold footprints in I. destruct (zget (fst (run step init h)) (q_vehicle q)) as [c|]; [|destruct I].
    apply in_flat_map in I. destruct I as (band & _ & I). apply in_flat_map in I. destruct I as (want & _ & I).
    apply in_flat_map in I. destruct I as (alt & _ & I). rewrite E in I. destruct I as [<-|[]]. cbn [p_found].
    pose proof (find_best gsd shape deg pos c band want alt 0) as (a & w & _ & _ & B).
    destruct (find gsd shape deg c band want alt 0) as [x|]; [|reflexivity]. exfalso.
    destruct B as (_ & g & y & k & v & o & (_ & (lo & hi & _ & [(K & _)|[(_ & K & K' & _)|(_ & _ & K & _)]]) & _) & _); lra.
  Qed.
End Props.
Print Assumptions C71_answered.
Print Assumptions C71_only.
Print Assumptions C71_first.
Print Assumptions C71_within.
Print Assumptions C71_open_elevation_refuted.

(** A vehicle with two cameras on a gimbal that moves from 60 to 30 degrees below the horizon.  The ground sample distance is
    taken to be the field of view by the angle below the horizon. *)
Definition Gsd (alt elev fov : Q) (r : Z) : Q := alt * fov / (- elev) / inject_Z r.
Definition Deg : Q := 1 # 60.
Definition drone : conf := {| c_alt := 100; c_payloads := [
  Gimbal {| m_id := 1; m_min := -(60); m_max := -(30); m_clamped := true; m_holds := [2; 3]%Z |};
  Camera {| k_id := 2; k_band := 1; k_hres := 640; k_vres := 480; k_views := Discrete [10; 20] |};
  Camera {| k_id := 3; k_band := 2; k_hres := 640; k_vres := 480; k_views := Continuous 10 21 |}] |}.
Definition ask_for (bands : list Z) (gsds elevs : list Q) : ask :=
  {| q_id := 7; q_vehicle := 1; q_bands := bands; q_gsds := gsds; q_alts := []; q_elevs := elevs |}.
Notation Step := (step Gsd (fun _ _ _ _ => tt) Deg).

(** What matters of a footprint, in lowest terms. *)
Definition summary (o : list (@out unit)) : list (option (Z * Q * Q * Q)) :=
  flat_map (fun '(Response _ l) => map (fun p => match p_found p with
    | Some f => Some (f_camera f, Qred (f_fov f), Qred (f_elev f), Qred (f_gsd f)) | None => None end) l) o.

(** Wavelengths 1 and 2, a sample distance of 3 and the largest, open angle; then an angle of half a radian, and one lower
    than the gimbal can be turned; then a vehicle that is not known. *)
Example footprint_example :
  let s := fst (run Step init [Conf 1 drone]) in
  summary (snd (Step s (Requests 4 [ask_for [1; 2]%Z [3; 0] [1]]))) =
    [Some (2%Z, 10, -(40), 25 # 8); Some (2%Z, 20, -(30), 25 # 3); Some (3%Z, 15, -(60), 25 # 8); Some (3%Z, 20, -(30), 25 # 3)]
  /\ summary (snd (Step s (Requests 4 [ask_for [] [3] [-(3 # 4); -(2)]]))) =
       [Some (2%Z, 10, -(45), 25 # 9); Some (3%Z, 15, -(60), 25 # 8)]
  /\ summary (snd (Step init (Requests 4 [ask_for [] [] [1]]))) = [].
Proof. vm_compute. repeat split. Qed.

(** The angle may be above the upper limit of the gimbal. *)
Theorem C71_limit_refuted :
  let s := fst (run Step init [Conf 1 drone]) in
  summary (snd (Step s (Requests 4 [ask_for [] [] [-(1 # 10)]]))) = [Some (2%Z, 20, -(6), 125 # 3)].
Proof. vm_compute. reflexivity. Qed.

(** A new configuration of a vehicle is not used. *)
Theorem C71_changed_refuted : exists c' : conf,
  snd (Step (fst (run Step init [Conf 1 drone; Conf 1 c'])) (Requests 4 [ask_for [] [] [1]]))
    = snd (Step (fst (run Step init [Conf 1 drone])) (Requests 4 [ask_for [] [] [1]]))
  /\ snd (Step (fst (run Step init [Conf 1 c'])) (Requests 4 [ask_for [] [] [1]]))
    <> snd (Step (fst (run Step init [Conf 1 drone])) (Requests 4 [ask_for [] [] [1]])).
Proof.
  exists {| c_alt := 100; c_payloads := [] |}. split; [vm_compute; reflexivity|vm_compute; discriminate].
Qed.
Print Assumptions C71_limit_refuted.
Print Assumptions C71_changed_refuted.

(** The requests of the examples are of the kind the theorems speak of. *)
Example within_met : angle Deg {| m_id := 1; m_min := -(60); m_max := -(30); m_clamped := true; m_holds := [] |} 1 (-(60) * Deg + inject_Z 2 * (5 * Deg)).
Proof. apply in_elevations; [reflexivity|]. vm_compute. right. right. left. reflexivity. Qed.

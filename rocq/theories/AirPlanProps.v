(** Theorems about the zones that count for a vehicle and the plans it is given.  See AirPlanSpec.v for what they speak
    of. *)
From Coq Require Import List ZArith QArith Bool Lia.
From Verif Require Import ZMap Run Latest AirPlanModel AirPlanSpec AirPlanBuild AirPlanProofs AirPlanEnv AirPlanUnique AirPlanAnswer.
From Verif Require RegionModel.
Import ListNotations.
Open Scope list_scope.
Open Scope Z_scope.

Section Props.
  Context {B : Type} (outline : B -> option poly) (merge : list (poly * Z) -> option (list poly)) (trim : poly -> poly)
          (fits : list poly -> bool) (inside : list poly -> point -> bool)
          (way : list poly -> point -> point -> list point) (len : list point -> Q)
          (same : zone B -> zone B -> bool).
  Notation step := (step outline merge trim fits inside way len same).
  Notation state := (fun h => fst (run step init h)).
  Notation made := (made outline merge trim fits).
  Notation makes := (makes outline merge trim fits).
  Notation environment := (environment outline merge trim fits same).
  Notation planned := (planned inside way len).

  (** At every moment there is exactly one answer to which polygons a vehicle has in a region. *)
  Theorem C69_environment : forall h r v, one_kind h v ->
    exists m, environment r v h m /\ forall m', environment r v h m' -> m' = m.
  Proof.
    intros h r v OK. pose proof (environment_run outline merge trim fits inside way len same h r v OK) as E. cbv beta in E.
    eexists. split; [exact E|]. intros m' E'. eapply environment_fun; eauto.
  Qed.

  (** Known zones make at most one list of polygons for a region and a vehicle, and if they make none the vehicle has
      none. *)
  Theorem C69_made : forall h g v w, exists m, made h g v w m /\ forall m', made h g v w m' -> m' = m.
  Proof.
    intros h g v w. destruct (made_known outline merge trim fits h g v w) as (m & M). exists m. split; [exact M|].
    intros m' M'. apply made_eq in M. apply made_eq in M'. congruence.
  Qed.

  (** A region told after its zones and not changed since, of whose zones none has been told of since: an air vehicle
      has the polygons made of its zones, whenever the vehicle was first heard of. *)
  Theorem C69_settled : forall h1 r g h2 v m,
    let h := h1 ++ Region r g :: h2 in
    (forall g', ~ In (Region r g') h1) -> (forall g', In (Region r g') h2 -> g' = g) ->
    (forall z x, In (KeepIn z x) h2 -> ~ In z (g_ins g)) -> (forall z x, In (KeepOut z x) h2 -> ~ In z (g_outs g)) ->
    flies h v -> air h v -> (forall c, In (Conf v c) h -> c_kind c <> CAir false) ->
    environment r v h m -> made h g v None m.
  Proof.
    intros h1 r g h2 v m h U RG QI QO F A C E.
    destruct (settled outline merge trim fits inside way len same h1 r g v) with (h2 := h2) as (m' & E' & M & _); auto.
    - intros e I. destruct e as [| | | | |r' g'| |]; cbn; try reflexivity. destruct (r' =? r) eqn:X; [|reflexivity].
      apply Z.eqb_eq in X. subst. destruct (U _ I).
    - split; assumption.
    - rewrite (environment_fun _ _ _ _ _ _ _ _ _ _ E E'). apply M, A.
  Qed.

  (** Polygons are a rim that runs counterclockwise and holes that run clockwise, and pass all checks. *)
  Theorem C69_shape : forall h r v l, environment r v h (Some l) ->
    exists rim holes, l = rim :: holes /\ 0 < area rim /\ Forall (fun x => area x < 0) holes /\ fits l = true.
  Proof.
    intros h r v l E. remember (Some l) as m eqn:EM. revert l EM.
    assert (X : forall h g v w l, made h g v w (Some l) ->
      exists rim holes, l = rim :: holes /\ 0 < area rim /\ Forall (fun x => area x < 0) holes /\ fits l = true).
    { intros h0 g v0 w l (ki & ko & _ & _ & a & gr & hs & s & s' & rm & M). destruct M as (_ & _ & _ & _ & _ & _ & -> & F & P & N).
      exists rm, hs. auto. }
    induction E as [|h e g w m m0 O M E IH|h e g w l0 m0 O M E IH|h e g w m0 O M E IH|h e m0 N E IH]; intros l EM; subst; try discriminate; eauto.
    injection EM as ->. eauto.
  Qed.

  (** A request for a vehicle that is known is answered to its sender, with a plan for each route, in order. *)
  Theorem C70_answer : forall h sender q m, one_kind h (q_vehicle q) -> known h (q_vehicle q) ->
    environment (q_region q) (q_vehicle q) h m ->
    exists a, snd (step (state h) (Request sender q)) = [Send sender a]
      /\ a_id a = q_id q /\ a_vehicle a = q_vehicle q /\ a_region a = q_region q /\ a_task a = q_task q
      /\ Forall2 (planned h q m) (q_routes q) (a_plans a).
  Proof.
    intros h sender q m OK K E.
    pose proof (environment_run outline merge trim fits inside way len same h (q_region q) (q_vehicle q) OK) as E'.
    pose proof (inv_run outline merge trim fits inside way len same h) as I. cbv beta in *.
    set (s := fst (run step init h)) in *. clearbody s.
    rewrite (environment_fun _ _ _ _ _ _ _ _ _ _ E E'). exists (answer inside way len s q).
    cbn [AirPlanModel.step snd]. split.
    - assert (Z0 : zin (q_vehicle q) (airs s) || zin (q_vehicle q) (surfaces s) = true).
      { apply orb_true_iff. rewrite !zin_In, (i_airs _ _ I), (i_surfaces _ _ I). exact K. }
      rewrite Z0. reflexivity.
    - repeat (split; [reflexivity|]). unfold answer. cbn [a_plans]. induction (q_routes q) as [|r l IH]; constructor; [|exact IH].
      apply plan_planned. exact I.
  Qed.

  (** A request for a vehicle that is not known is not answered. *)
  Theorem C70_silent : forall h sender q, ~ known h (q_vehicle q) -> snd (step (state h) (Request sender q)) = [].
  Proof.
    intros h sender q K. pose proof (inv_run outline merge trim fits inside way len same h) as I. cbv beta in *.
    set (s := fst (run step init h)) in *. cbn [AirPlanModel.step snd].
    destruct (zin (q_vehicle q) (airs s) || zin (q_vehicle q) (surfaces s)) eqn:Z0; [|reflexivity].
    exfalso. apply K. apply orb_true_iff in Z0. rewrite !zin_In, (i_airs _ _ I), (i_surfaces _ _ I) in Z0. exact Z0.
  Qed.

  (** Nothing else is ever sent: after any history, each message sent answers a request of the history. *)
  Theorem C70_only : forall h to a, In (Send to a) (sent (snd (run step init h))) ->
    exists h1 q h2, h = h1 ++ Request to q :: h2 /\ known h1 (q_vehicle q)
      /\ snd (step (state h1) (Request to q)) = [Send to a].
  Proof.
    intros h to a. induction h as [|e h IH] using rev_ind; [intros []|]. rewrite run_snoc. cbn [snd]. rewrite sent_snoc.
    intros I. apply in_app_or in I. destruct I as [I|I].
    - destruct (IH I) as (h1 & q & h2 & -> & R). exists h1, q, (h2 ++ [e]). split; [rewrite <- app_assoc; reflexivity|exact R].
    - destruct e as [u k x|u c|z b|z x|z x|r g|sender q|]; try destruct I.
      pose proof (inv_run outline merge trim fits inside way len same h) as V. cbv beta in V.
      set (s := fst (run step init h)) in *. cbn [AirPlanModel.step snd] in I.
      destruct (zin (q_vehicle q) (airs s) || zin (q_vehicle q) (surfaces s)) eqn:Z0; [|destruct I].
      destruct I as [I|[]]. injection I as -> <-. exists h, q, []. split; [reflexivity|]. split.
      + apply orb_true_iff in Z0. rewrite !zin_In, (i_airs _ _ V), (i_surfaces _ _ V) in Z0. exact Z0.
      + fold s. cbn [AirPlanModel.step snd]. rewrite Z0. reflexivity.
  Qed.

  (** Requests do not change later answers. *)
  Theorem C70_reads : forall h1 h2 sender q e,
    snd (step (state (h1 ++ Request sender q :: h2)) e) = snd (step (state (h1 ++ h2)) e).
  Proof.
    intros h1 h2 sender q e.
    assert (X : fst (run step init (h1 ++ Request sender q :: h2)) = fst (run step init (h1 ++ h2))); [|cbv beta; rewrite X; reflexivity].
    induction h2 as [|x h2 IH] using rev_ind.
    - rewrite app_nil_r, run_snoc. reflexivity.
    - change (Request sender q :: h2 ++ [x]) with ((Request sender q :: h2) ++ [x]). rewrite !app_assoc, !run_snoc. cbn [fst].
      rewrite IH. reflexivity.
  Qed.
End Props.
Print Assumptions C69_environment.
Print Assumptions C69_made.
Print Assumptions C69_settled.
Print Assumptions C69_shape.
Print Assumptions C70_answer.
Print Assumptions C70_silent.
Print Assumptions C70_only.
Print Assumptions C70_reads.

(** A world to try them in: boundaries are polygons, which are neither merged nor shifted; ways go by a corner of the
    first hole. *)
Definition merge' (l : list (poly * Z)) : option (list poly) := Some (map fst l).
Definition way' (l : list poly) (a b : point) : list point :=
  match l with _ :: (c :: _) :: _ => [a; c; b] | _ => [a; b] end.
Definition len' (l : list point) : Q := inject_Z (Z.of_nat (length l) - 1).
Definition same' (x y : zone poly) : bool := false.
Definition Step := step (B := poly) Some merge' (fun p => p) (fun _ => true) (fun _ _ => true) way' len' same'.
Definition Made := made (B := poly) Some merge' (fun p => p) (fun _ => true).
Definition Environment := environment (B := poly) Some merge' (fun p => p) (fun _ => true) same'.

(** A square, and zones of it. *)
Definition square (x y : Z) : poly := [(x, y); (x + 10, y); (x + 10, y + 10); (x, y + 10)].
Definition hole_of (x y : Z) : poly := [(x, y); (x, y + 10); (x + 10, y + 10); (x + 10, y)].
Definition zn (x y : Z) : zone poly := {| z_bound := square x y; z_pad := 0; z_for := [] |}.
Definition frame (x0 y0 x1 y1 : Z) : poly :=
  let d := 50000000 in [(x0 - d, y0 - d); (x1 + d, y0 - d); (x1 + d, y1 + d); (x0 - d, y1 + d)].
Definition reg (i o : list Z) : region := {| g_ins := i; g_outs := o |}.
Definition here : vstate := {| v_place := (0, 0); v_speed := 20; v_alt := 100 |}.
Definition ask : request := {| q_id := 5; q_vehicle := 1; q_region := 9; q_task := 3; q_cost_only := false;
  q_routes := [{| r_id := 4; r_start := None; r_end := Some (100, 100) |}] |}.

Definition settled_h : list (ev poly) := [KeepOut 7 (zn 20 30); Region 9 (reg [] [7]); State 1 SAir here].

Lemma environment_calc : forall h r v m, one_kind h v -> look (fst (run Step init h)) r v = m -> Environment r v h m.
Proof. intros h r v m OK <-. apply (environment_run (B := poly) Some merge' (fun p => p) (fun _ => true) (fun _ _ => true) way' len' same'). exact OK. Qed.
Ltac flying := intros e I; cbn [In] in I;
  repeat (destruct I as [<-|I]; [intros [(x & X)|(c & a & X & Y)]; discriminate || (injection X as <-; discriminate)|]); destruct I.

(** The region has a hole for its zone, the plan goes round it and can be read off the state. *)
Example settled_example : flies settled_h 1 /\ air settled_h 1
  /\ Environment 9 1 settled_h (Some [frame 20 30 30 40; hole_of 20 30])
  /\ Made settled_h (reg [] [7]) 1 None (Some [frame 20 30 30 40; hole_of 20 30])
  /\ snd (Step (fst (run Step init settled_h)) (Request (8, 9) ask)) =
       [Send (8, 9) {| a_id := 5; a_vehicle := 1; a_region := 9; a_task := 3;
          a_plans := [{| p_id := 4; p_cost := Some 100;
            p_points := [{| w_num := 1; w_next := 2; w_place := (0, 0); w_alt := 100; w_speed := 20 |};
                         {| w_num := 2; w_next := 3; w_place := (20, 30); w_alt := 100; w_speed := 20 |};
                         {| w_num := 3; w_next := 3; w_place := (100, 100); w_alt := 100; w_speed := 20 |}] |}] |}].
Proof.
  assert (F : flies settled_h 1) by flying.
  split; [exact F|]. split; [eexists; split; [right; right; left; reflexivity|left; eauto]|].
  split; [apply environment_calc; [left; exact F|vm_compute; reflexivity]|].
  split; [apply made_eq; vm_compute; reflexivity|vm_compute; reflexivity].
Qed.

(** The hypotheses of [C69_settled] hold there. *)
Example settled_met : Made settled_h (reg [] [7]) 1 None (Some [frame 20 30 30 40; hole_of 20 30]).
Proof.
  destruct settled_example as (F & A & E & _).
  apply (C69_settled (B := poly) Some merge' (fun p => p) (fun _ => true) (fun _ _ => true) way' len' same'
    [KeepOut 7 (zn 20 30)] 9 (reg [] [7]) [State 1 SAir here] 1); try assumption; cbn; intros;
  repeat match goal with H : _ \/ _ |- _ => destruct H | H : False |- _ => destruct H end; try discriminate.
  intros [X|[]]; discriminate.
Qed.

(** One would expect the polygons of a vehicle to be made of the region and the zones as last told. *)
Definition current (h : list (ev poly)) (r v : Z) : Prop :=
  forall g m, latest (says_region r) h g -> Environment r v h m -> Made h g v None m.

Lemma not_current : forall h r v g, flies h v -> latest (says_region r) h g ->
  look (fst (run Step init h)) r v <> build (B := poly) Some merge' (fun p => p) (fun _ => true) (table ins_of h) (table outs_of h) g v None ->
  ~ current h r v.
Proof.
  intros h r v g F L N C. assert (E : Environment r v h (look (fst (run Step init h)) r v)).
  { apply environment_calc; [left; exact F|reflexivity]. }
  apply (C _ _ L) in E. apply made_eq in E. exact (N E).
Qed.
Ltac is_latest := apply follow_latest; vm_compute; reflexivity.

(** A zone told after its region does not count. *)
Definition late_h : list (ev poly) := [Region 9 (reg [] [7]); State 1 SAir here; KeepOut 7 (zn 20 30)].
Theorem C69_late_refuted : flies late_h 1 /\ air late_h 1 /\ Environment 9 1 late_h None /\ ~ current late_h 9 1.
Proof.
  assert (F : flies late_h 1) by flying. split; [exact F|].
  split; [eexists; split; [right; left; reflexivity|left; eauto]|].
  split; [apply environment_calc; [left; exact F|vm_compute; reflexivity]|].
  apply (not_current _ _ _ (reg [] [7])); [exact F|is_latest|vm_compute; discriminate].
Qed.

(** A zone that moves counts where it was before. *)
Definition moved_h : list (ev poly) :=
  [KeepOut 7 (zn 20 30); Region 9 (reg [] [7]); State 1 SAir here; KeepOut 7 (zn 50 60)].
Theorem C69_moved_refuted : flies moved_h 1 /\ air moved_h 1
  /\ Environment 9 1 moved_h (Some [frame 20 30 30 40; hole_of 20 30]) /\ ~ current moved_h 9 1.
Proof.
  assert (F : flies moved_h 1) by flying. split; [exact F|].
  split; [eexists; split; [right; right; left; reflexivity|left; eauto]|].
  split; [apply environment_calc; [left; exact F|vm_compute; reflexivity]|].
  apply (not_current _ _ _ (reg [] [7])); [exact F|is_latest|vm_compute; discriminate].
Qed.

(** For a vehicle that appears later a region is what it was when it was first told. *)
Definition grown_h : list (ev poly) :=
  [KeepOut 7 (zn 20 30); Region 9 (reg [] [7]); KeepOut 8 (zn 50 60); Region 9 (reg [] [7; 8]); State 1 SAir here].
Theorem C69_grown_refuted : flies grown_h 1 /\ air grown_h 1
  /\ Environment 9 1 grown_h (Some [frame 20 30 30 40; hole_of 20 30]) /\ ~ current grown_h 9 1.
Proof.
  assert (F : flies grown_h 1) by flying. split; [exact F|].
  split; [eexists; split; [right; right; right; right; left; reflexivity|left; eauto]|].
  split; [apply environment_calc; [left; exact F|vm_compute; reflexivity]|].
  apply (not_current _ _ _ (reg [] [7; 8])); [exact F|is_latest|vm_compute; discriminate].
Qed.

(** The regions in that history are just those that the service that collects zones into a region sends. *)
Example grown_by_service :
  let z i := {| RegionModel.z_id := i; RegionModel.z_start := 0; RegionModel.z_end := 0; RegionModel.z_padding := 0 |} in
  sent (snd (run (RegionModel.step 0) RegionModel.init [RegionModel.EvKeepOut (z 7); RegionModel.EvKeepOut (z 8)]))
  = [RegionModel.OutRegion [] [7]; RegionModel.OutRegion [] [7; 8]].
Proof. vm_compute. reflexivity. Qed.

(** A vehicle whose configuration is of a type derived from that of air vehicles is taken for known and has no
    polygons. *)
Definition derived_h : list (ev poly) :=
  [KeepOut 7 (zn 20 30); Region 9 (reg [] [7]); Conf 1 {| c_kind := CAir false; c_speed := 20; c_alt := 100 |}; State 1 SAir here].
Theorem C69_derived_refuted : flies derived_h 1 /\ air derived_h 1 /\ Environment 9 1 derived_h None /\ ~ current derived_h 9 1.
Proof.
  assert (F : flies derived_h 1) by flying. split; [exact F|].
  split; [eexists; split; [right; right; right; left; reflexivity|left; eauto]|].
  split; [apply environment_calc; [left; exact F|vm_compute; reflexivity]|].
  apply (not_current _ _ _ (reg [] [7])); [exact F|is_latest|vm_compute; discriminate].
Qed.

(** The order in which a region lists its zones matters: a zone to be widened cannot come before one that is not. *)
Definition wide (x y : Z) : zone poly := {| z_bound := square x y; z_pad := 5; z_for := [] |}.
Theorem C69_padding_refuted :
  let h := [KeepOut 7 (wide 20 30); KeepOut 8 (zn 50 60)] in
  Made h (reg [] [8; 7]) 1 None (Some [frame 20 30 60 70; hole_of 50 60; hole_of 20 30])
  /\ Made h (reg [] [7; 8]) 1 None None.
Proof. split; apply made_eq; vm_compute; reflexivity. Qed.

(** A zone to stay in that is meant for another vehicle takes away the zones to avoid. *)
Theorem C69_other_refuted :
  let h := [KeepIn 5 {| z_bound := square 0 0; z_pad := 0; z_for := [2] |}; KeepOut 7 (zn 20 30)] in
  Made h (reg [] [7]) 1 None (Some [frame 20 30 30 40; hole_of 20 30]) /\ Made h (reg [5] [7]) 1 None None.
Proof. split; apply made_eq; vm_compute; reflexivity. Qed.

(** A vehicle without polygons is sent straight through the zone it should avoid. *)
Theorem C69_straight_refuted :
  snd (Step (fst (run Step init late_h)) (Request (8, 9) ask)) =
       [Send (8, 9) {| a_id := 5; a_vehicle := 1; a_region := 9; a_task := 3;
          a_plans := [{| p_id := 4; p_cost := Some 50;
            p_points := [{| w_num := 1; w_next := 2; w_place := (0, 0); w_alt := 100; w_speed := 20 |};
                         {| w_num := 2; w_next := 2; w_place := (100, 100); w_alt := 100; w_speed := 20 |}] |}] |}].
Proof. vm_compute. reflexivity. Qed.
Print Assumptions C69_late_refuted.
Print Assumptions C69_moved_refuted.
Print Assumptions C69_grown_refuted.
Print Assumptions C69_derived_refuted.
Print Assumptions C69_padding_refuted.
Print Assumptions C69_other_refuted.
Print Assumptions C69_straight_refuted.

(** A request for a vehicle nobody told of, and one for a vehicle without a place. *)
Example silent_example : ~ known [KeepOut 7 (zn 20 30)] 1
  /\ snd (Step (fst (run Step init [KeepOut 7 (zn 20 30)])) (Request (8, 9) ask)) = [].
Proof.
  split; [|vm_compute; reflexivity].
  intros [(e & [<-|[]] & [(x & X)|(c & b & X & _)])|(e & [<-|[]] & [(x & X)|(c & b & X & _)])]; discriminate.
Qed.
Example placeless_example :
  snd (Step (fst (run Step init [Conf 1 {| c_kind := CAir true; c_speed := 20; c_alt := 100 |}])) (Request (8, 9) ask)) =
       [Send (8, 9) {| a_id := 5; a_vehicle := 1; a_region := 9; a_task := 3;
          a_plans := [{| p_id := 4; p_cost := None; p_points := [] |}] |}].
Proof. vm_compute. reflexivity. Qed.

(** A surface vehicle in its water area. *)
Definition boat_h : list (ev poly) :=
  [Water 3 (square 0 0); Conf 1 {| c_kind := CSurface 3; c_speed := 20; c_alt := 0 |}].
Example boat_example : floats boat_h 1 /\ Environment 0 1 boat_h (Some [square 0 0]).
Proof.
  assert (F : floats boat_h 1).
  { intros e [<-|[<-|[]]]; (split; [intros [(x & X)|(c & b & X & Y)]; try discriminate; injection X as <-; discriminate|]); intros c X; try discriminate.
    injection X as <-. right. eexists. reflexivity. }
  split; [exact F|]. apply environment_calc; [right; exact F|vm_compute; reflexivity].
Qed.

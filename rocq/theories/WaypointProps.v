(** C26 and C27: cutting missions into segments and serving them. *)
From Coq Require Import List ZArith Bool Lia FinFun.
From Verif Require Import Run WaypointModel WaypointSpec WaypointProofs WaypointServe WaypointInv.
Import ListNotations.
Open Scope list_scope.
Open Scope Z_scope.

(** * C26 *)

(** If the overlap is at least 2 and less than half the segment length, a mission is cut into
    segments of the full length that overlap by exactly the configured number, each starts by
    heading for its second waypoint, and command ids are not repeated. *)
Theorem C26_cut c ids wps old :
  0 < c_vehicle c -> 2 <= c_overlap c -> 2 * c_overlap c < c_serve c -> wps <> [] ->
  (forall w, In w wps -> 0 <= w_num w) ->
  exists segs ids',
    initPlan c ids wps old = (true, segs, ids') /\
    segmented (Z.to_nat (c_serve c)) (fun o => Z.of_nat o = c_overlap c) wps (map s_wps segs) /\
    Forall (fun g => heading (s_wps g) = Some (s_first g)) segs /\
    NoDup (map s_cmd segs) /\ (forall g, In g segs -> ids <= s_cmd g < ids').
Proof.
  intros VP V2 VN NE NN.
  destruct (init_ok c ids wps old VP V2 ltac:(lia) NE NN) as (segs & E & I & S & H).
  exists segs, (ids + Z.of_nat (length segs) + 1). split; [exact E|]. split; [|split; [|split]].
  - eapply segmented_weaken; [exact S|]. intros o. cbn beta. lia.
  - apply H. lia.
  - rewrite I. apply Injective_map_NoDup; [|apply seq_NoDup]. intros a b. lia.
  - intros g G. apply (in_map s_cmd) in G. rewrite I in G. apply in_map_iff in G.
    destruct G as (k & <- & G). apply in_seq in G. lia.
Qed.

(** So for every configured overlap: one below 2 counts as 2. *)
Theorem C26_configured vehicle serve overlap ids wps old :
  0 < vehicle -> 4 < serve -> 2 * overlap < serve -> wps <> [] -> (forall w, In w wps -> 0 <= w_num w) ->
  exists segs ids',
    initPlan (configured vehicle serve overlap) ids wps old = (true, segs, ids') /\
    segmented (Z.to_nat serve) (fun o => Z.of_nat o = Z.max 2 overlap) wps (map s_wps segs).
Proof.
  intros VP S4 SO NE NN.
  assert (O : c_overlap (configured vehicle serve overlap) = Z.max 2 overlap).
  { unfold configured. cbn [c_overlap]. destruct (Z.ltb_spec overlap 2); lia. }
  destruct (C26_cut (configured vehicle serve overlap) ids wps old) as (segs & ids' & E & S & _);
    [exact VP|rewrite O; lia|rewrite O; cbn [configured c_serve]; lia|exact NE|exact NN|].
  exists segs, ids'. split; [exact E|]. rewrite O in S. exact S.
Qed.

(** Up to an overlap two below the segment length, no waypoint is lost and segments still
    overlap, but possibly by less than configured. *)
Theorem C26_cover c ids wps old :
  0 < c_vehicle c -> 2 <= c_overlap c -> c_overlap c + 2 <= c_serve c -> wps <> [] ->
  (forall w, In w wps -> 0 <= w_num w) ->
  exists segs ids',
    initPlan c ids wps old = (true, segs, ids') /\
    segmented (Z.to_nat (c_serve c)) (fun o => 1 <= Z.of_nat o <= c_overlap c) wps (map s_wps segs).
Proof.
  intros VP V2 VN NE NN.
  destruct (init_ok c ids wps old VP V2 VN NE NN) as (segs & E & I & S & H).
  exists segs, (ids + Z.of_nat (length segs) + 1). split; [exact E|].
  eapply segmented_weaken; [exact S|]. intros o. cbn beta. lia.
Qed.

(** What [segmented] means for single waypoints: each segment is a part of the mission and
    every waypoint of the mission is in a segment. *)
Theorem C26_parts c ids wps old :
  0 < c_vehicle c -> 2 <= c_overlap c -> c_overlap c + 2 <= c_serve c -> wps <> [] ->
  (forall w, In w wps -> 0 <= w_num w) ->
  exists segs ids',
    initPlan c ids wps old = (true, segs, ids') /\
    (forall g, In g segs -> part (s_wps g) wps /\ s_wps g <> []) /\
    (forall w, In w wps -> exists g, In g segs /\ In w (s_wps g)).
Proof.
  intros VP V2 VN NE NN.
  destruct (init_ok c ids wps old VP V2 VN NE NN) as (segs & E & I & S & H).
  exists segs, (ids + Z.of_nat (length segs) + 1). split; [exact E|]. split.
  - intros g G. apply (in_map s_wps) in G. split; [eapply segmented_part; eauto|].
    eapply segmented_ne; eauto.
  - intros w W. destruct (segmented_cover _ _ _ _ S w W) as (g & G & X).
    apply in_map_iff in G. destruct G as (g' & <- & G). eauto.
Qed.

(** A negative length serves the whole mission as one segment. *)
Theorem C26_unlimited c ids wps old :
  0 < c_vehicle c -> c_serve c < 0 -> wps <> [] -> (forall w, In w wps -> 0 <= w_num w) ->
  exists g ids', initPlan c ids wps old = (true, [g], ids') /\ s_wps g = wps.
Proof.
  intros VP SN NE NN. destruct wps as [|x p]; [easy|].
  unfold initPlan. destruct (Z.ltb_spec 0 (c_vehicle c)); [|lia].
  assert (G : forall p st, (forall w, In w p -> 0 <= w_num w) ->
     let st' := fold_left (cutStep c) p st in
     s_wps (l_one st') = s_wps (l_one st) ++ p /\ l_done st' = l_done st /\ l_ok st' = l_ok st /\
     (p <> [] -> (s_wps (l_one st) <> [] -> 0 <= s_first (l_one st)) -> 0 <= s_first (l_one st'))).
  { clear p NE NN. induction p as [|y p IH]; intros st NN.
    - cbn. rewrite app_nil_r. do 3 (split; [auto|]). intros K. now contradiction K.
    - cbn [fold_left].
      assert (Y : 0 <= w_num y) by (apply NN; left; auto).
      destruct (IH (cutStep c st y)) as (A & B & D & E); [intros w I; apply NN; right; auto|].
      cbn zeta. rewrite A, B, D. clear A B D.
      assert (S1 : s_wps (l_one (cutStep c st y)) = s_wps (l_one st) ++ [y] /\
                   l_done (cutStep c st y) = l_done st /\ l_ok (cutStep c st y) = l_ok st /\
                   ((s_wps (l_one st) <> [] -> 0 <= s_first (l_one st)) ->
                    0 <= s_first (l_one (cutStep c st y)))).
      { unfold cutStep. destruct (Z.ltb_spec (c_serve c) 0); [|lia].
        cbn [orb l_one l_done l_ok]. unfold size. cbn [push s_wps].
        destruct (Z.leb_spec (Z.of_nat (length (s_wps (l_one st) ++ [y]))) 2) as [Q|Q];
          cbn [push setFirst s_wps s_first].
        - auto.
        - do 3 (split; [auto|]). intros K. apply K. destruct (s_wps (l_one st)); cbn in *; [lia|discriminate]. }
      destruct S1 as (A & B & D & F). rewrite A, B, D. split; [now rewrite <- app_assoc|].
      split; [auto|]. split; [auto|]. intros _ K. specialize (F K).
      destruct p as [|z p]; [exact F|]. apply E; [discriminate|]. auto. }
  set (st0 := {| l_one := fresh ids |}).
  destruct (G (x :: p) st0 NN) as (A & B & D & E). cbn zeta in *.
  set (st := fold_left (cutStep c) (x :: p) st0) in *.
  assert (F : 0 <= s_first (l_one st)).
  { apply E; [discriminate|]. cbn. easy. }
  destruct (Z.leb_spec 0 (s_first (l_one st))); [|lia].
  rewrite B, D. cbn [st0 l_done l_ok app andb negb].
  exists (l_one st), (l_ids st). split; [reflexivity|]. rewrite A. reflexivity.
Qed.

(** Waypoints 1 to [k], and a configuration for vehicle 400. *)
Definition wps (k : nat) : list wp :=
  map (fun i => {| w_num := Z.of_nat i; w_data := 0 |}) (seq 1 k).
Definition nums (gs : list seg) : list (list Z) := map (fun g => map w_num (s_wps g)) gs.

Lemma flyable_wps k : (0 < k)%nat -> flyable (wps k).
Proof.
  intros K. unfold wps. split; [|split].
  - destruct k; [lia|discriminate].
  - rewrite map_map. apply Injective_map_NoDup; [|apply seq_NoDup]. intros a b. cbn. lia.
  - intros w W. apply in_map_iff in W. destruct W as (i & <- & _). cbn. lia.
Qed.

Example C26_example :
  let '(ok, segs, _) := initPlan (configured 400 5 2) 1 (wps 10) [] in
  ok = true /\ nums segs = [[1; 2; 3; 4; 5]; [4; 5; 6; 7; 8]; [7; 8; 9; 10]] /\
  map s_first segs = [2; 5; 8] /\ map s_cmd segs = [1; 2; 3].
Proof. vm_compute. auto. Qed.

(** With an overlap one below the length, which the configuration allows, the last waypoint
    of a mission is lost although success is reported. *)
Theorem C26_overlap_refuted :
  exists segs ids,
    flyable (wps 5) /\ initPlan (configured 400 3 2) 1 (wps 5) [] = (true, segs, ids) /\
    exists w, In w (wps 5) /\ forall g, In g segs -> ~ In w (s_wps g).
Proof.
  eexists _, _. split; [|split; [vm_compute; reflexivity|]].
  - apply flyable_wps. lia.
  - exists {| w_num := 5; w_data := 0 |}. split; [cbn; auto 10|].
    intros g G W. cbn in G. destruct G as [<-|[<-|[]]]; cbn in W; intuition discriminate.
Qed.

(** With an overlap equal to the length, a segment is longer than configured. *)
Theorem C26_length_refuted :
  exists segs ids g,
    initPlan (configured 400 3 3) 1 (wps 9) [] = (true, segs, ids) /\ In g segs /\
    3 < Z.of_nat (length (s_wps g)).
Proof. eexists _, _, _. split; [vm_compute; reflexivity|]. split; [right; left; reflexivity|]. cbn. lia. Qed.

(** With a length of 4 and an overlap of 2, segments do not always overlap by 2, and one sends
    the vehicle back to its first waypoint. *)
Theorem C26_uneven_refuted :
  let '(ok, segs, _) := initPlan (configured 400 4 2) 1 (wps 9) [] in
  ok = true /\ nums segs = [[1; 2; 3; 4]; [3; 4; 5; 6]; [6; 7; 8; 9]] /\ map s_first segs = [2; 4; 6].
Proof. vm_compute. auto. Qed.

(** * C27 *)

(** The mission commands sent in a history. *)
Definition commands (c : cfg) (evs : list event) : list seg := sent (snd (run (wstep c) winit evs)).

Section C27.
  Context (c : cfg) (VP : 0 < c_vehicle c) (V2 : 2 <= c_overlap c)
          (VN : c_overlap c + 3 <= c_serve c).

  Let v := c_vehicle c.

  (** Whenever the timer expires, the last command sent holds the waypoint the vehicle was last
      known to head for, and the one after it, so the vehicle never runs out of waypoints. *)
  Theorem C27_current evs M w :
    sensible v evs -> position v evs = (M, Some w) ->
    exists pre g, commands c (evs ++ [EvTimer]) = pre ++ [g] /\
      part (s_wps g) M /\ Z.of_nat (length (s_wps g)) <= c_serve c /\
      In w (map w_num (s_wps g)) /\
      (forall x y, w_num x = w -> follows M x y -> follows (s_wps g) x y).
  Proof.
    intros SE PO. destruct (inv_run c VP V2 VN evs SE) as ([ID NX GD PP LE SO] & _).
    unfold v in *. rewrite PO in PP. cbn [fst snd] in PP.
    destruct PP as [(_ & X & _)|(w' & E & _ & [CU IN (g & C & CC & pre & g' & EL & EW)])]; [easy|].
    injection E as <-. destruct CU as [F S H A L].
    exists pre, g'. unfold commands. rewrite run_snoc. cbn [snd wstep]. rewrite sent_snoc.
    split; [exact EL|]. rewrite EW. destruct (choose_some _ _ _ C) as (G & GW).
    split; [eapply segmented_part; [exact S|now apply in_map]|].
    split; [apply (in_map s_wps) in G; apply (segmented_length c _ _ _ S) in G; unfold nn in G; lia|].
    split; [auto|]. intros x y <- FO.
    destruct (choose_follows _ _ _ _ x y S (ovl2 c V2 VN) (proj1 (proj2 F)) FO) as (h & C' & _ & FH).
    congruence.
  Qed.

  (** After a new mission, the command sent is its first part, and the vehicle is sent to the
      second waypoint. *)
  Theorem C27_start evs e x M :
    sensible v (evs ++ [e]) -> mission_of v e = [x :: M] ->
    exists pre g r, commands c (evs ++ [e; EvTimer]) = pre ++ [g] /\ x :: M = s_wps g ++ r /\
      heading (s_wps g) = Some (s_first g).
  Proof.
    intros SE ME. replace (evs ++ [e; EvTimer]) with ((evs ++ [e]) ++ [EvTimer])
      by (rewrite <- app_assoc; reflexivity).
    destruct (inv_run c VP V2 VN evs) as (I & _); [intros e' m X; apply SE; apply in_or_app; auto|].
    assert (F : flyable (x :: M)).
    { destruct (SE e (x :: M)) as [?|?]; [apply in_or_app; right; left; auto|rewrite ME; left; auto|easy|auto]. }
    unfold commands. rewrite !run_snoc. cbn [fst snd wstep]. rewrite !sent_snoc.
    set (s := fst (run (wstep c) winit evs)) in *. set (t := snd (run (wstep c) winit evs)) in *.
    destruct (newMission_next c VP V2 VN s x M) as (g & r & G & R & H); [apply I|auto|].
    exists (sent t), g, r. split; [|auto].
    unfold v in ME. destruct (the_kind c e s) as [m K1 K2|w K1 K2|K1|k K1 K2 K3].
    - rewrite K2. cbn [fst snd]. assert (m = x :: M) by congruence. subst m. rewrite G.
      now rewrite app_nil_r.
    - subst e. discriminate.
    - subst e. discriminate.
    - congruence.
  Qed.

  (** Every command sent is a part of the last mission (other than empty ones), no longer than
      configured; it holds a waypoint the vehicle has reported or the first one of the mission,
      and sends the vehicle there. *)
  Theorem C27_sent evs t1 e o t2 g :
    sensible v evs -> snd (run (wstep c) winit evs) = t1 ++ (e, o) :: t2 -> In g o ->
    let M := plan v (map fst t1) in
    e = EvTimer /\ o = [g] /\ part (s_wps g) M /\ Z.of_nat (length (s_wps g)) <= c_serve c /\
    exists w, (In w (flat_map (report_of v) (map fst t1)) \/ hd_error (map w_num M) = Some w) /\
              In w (map w_num (s_wps g)) /\ aims g w.
  Proof.
    intros SE H I.
    assert (HE := f_equal (map fst) H). rewrite run_events, map_app in HE.
    apply run_split in H. destruct H as (s & R & _ & EO). cbn [fst snd] in EO.
    assert (SE1 : sensible v (map fst t1)).
    { intros e' m X. apply SE. rewrite HE. apply in_or_app. auto. }
    destruct (inv_run c VP V2 VN _ SE1) as ([ID NX GD PP LE SO] & _). rewrite R in *. cbn [fst snd] in *.
    destruct (the_kind c e s) as [m K1 K2|w K1 K2|K1|k K1 K2 K3].
    - rewrite K2 in EO. cbn in EO. subst o. easy.
    - rewrite K2 in EO. cbn in EO. subst o. easy.
    - subst e. cbn [wstep snd] in EO. destruct (p_next s) as [g'|] eqn:G; subst o; [|easy].
      destruct I as [->|[]]. destruct (GD g eq_refl) as (w & A & B & C & D & E).
      split; [auto|]. split; [auto|]. split; [exact B|]. split; [unfold nn in C; lia|].
      exists w. auto.
    - rewrite K3 in EO. cbn in EO. subst o. easy.
  Qed.

  (** If the vehicle never reports a waypoint before its current one, command ids grow strictly,
      over all missions. *)
  Theorem C27_once evs a g b h :
    sensible v evs -> forward v evs -> commands c evs = a ++ g :: b -> In h b -> s_cmd g < s_cmd h.
  Proof.
    intros SE F E I. destruct (inv_run c VP V2 VN evs SE) as ([ID NX GD PP LE SO] & _).
    exact (prefix_tail _ _ (fun g h => s_cmd g < s_cmd h) (SO F) a g b h E I).
  Qed.
End C27.

(** A history: a mission of 12 waypoints, flown up to waypoint 6, then a new mission. *)
Definition flight : list event :=
  [EvMission 400 (wps 12); EvTimer; EvState 400 2; EvTimer; EvState 400 5; EvTimer;
   EvState 401 9; EvState 400 6; EvTimer; EvIds 3; EvResponse [(401, []); (400, wps 3)]; EvTimer].

Example C27_example :
  sensible 400 flight /\ forward 400 flight /\
  position 400 (firstn 8 flight) = (wps 12, Some 6) /\
  map (fun g => (s_cmd g, s_first g)) (commands (configured 400 5 2) flight) = [(1, 2); (2, 5); (9, 2)] /\
  nums (commands (configured 400 5 2) flight) = [[1; 2; 3; 4; 5]; [4; 5; 6; 7; 8]; [1; 2; 3]].
Proof.
  split; [|split; [|vm_compute; auto]].
  - intros e m E M. cbn in E. repeat destruct E as [<-|E]; try easy; cbn in M; intuition (subst; auto).
    + right. apply (flyable_wps 12). lia.
    + right. apply (flyable_wps 3). lia.
  - intros a w b w0 E P I. unfold flight in E.
    repeat (destruct a as [|? a]; [try discriminate E; injection E as ? ?; subst; vm_compute in P; injection P as <-|
            try discriminate E; injection E as <- E]); try discriminate.
    + exists [], [2; 3; 4; 5; 6; 7; 8; 9; 10; 11; 12]. vm_compute. auto 20.
    + exists [1], [3; 4; 5; 6; 7; 8; 9; 10; 11; 12]. vm_compute. auto 20.
    + exists [1; 2; 3; 4], [6; 7; 8; 9; 10; 11; 12]. vm_compute. auto 20.
Qed.

(** Without that, a vehicle that goes back and forth is sent the same command again. *)
Theorem C27_resend_refuted :
  exists evs g, sensible 400 evs /\
    commands (configured 400 5 2) evs = [g; g] /\ 0 < s_cmd g.
Proof.
  exists [EvMission 400 (wps 12); EvTimer; EvState 400 6; EvState 400 1; EvTimer].
  eexists. split; [|split; [vm_compute; reflexivity|reflexivity]].
  intros e m E M. cbn in E. repeat destruct E as [<-|E]; try easy; cbn in M; intuition (subst; auto).
  right. apply (flyable_wps 12). lia.
Qed.

(** An empty mission stops the service from sending anything more, while the vehicle still
    flies the commands it has. *)
Theorem C27_empty_mission_refuted :
  nums (commands (configured 400 5 2)
     [EvMission 400 (wps 12); EvTimer; EvMission 400 []; EvState 400 5; EvTimer; EvState 400 6; EvTimer])
  = [[1; 2; 3; 4; 5]].
Proof. vm_compute. reflexivity. Qed.

Print Assumptions C26_cut.
Print Assumptions C26_cover.
Print Assumptions C26_parts.
Print Assumptions C26_unlimited.
Print Assumptions C26_configured.
Print Assumptions C26_overlap_refuted.
Print Assumptions C26_length_refuted.
Print Assumptions C26_uneven_refuted.
Print Assumptions C27_current.
Print Assumptions C27_start.
Print Assumptions C27_sent.
Print Assumptions C27_once.
Print Assumptions C27_resend_refuted.
Print Assumptions C27_empty_mission_refuted.

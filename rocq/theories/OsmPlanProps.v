(** Theorems about the route plans of the ground planner (C64). *)
From Coq Require Import List ZArith Lia Bool.
From Verif Require Import ZMap Run Latest AStarModel AStarSpec AStarProps OsmMapModel OsmMapSpec OsmMapProofs OsmMapBuild OsmMapFacts OsmMapProps OsmWayProofs OsmWayProps
  OsmNearModel OsmNearProps OsmPlanModel OsmPlanSpec OsmPlanProofs.
Import ListNotations.
Open Scope list_scope.
Open Scope Z_scope.

(** The nominal speed a message gives for a vehicle *)
Definition gives_speed (v : Z) (e : message) : option Z := match e with Config id s => if id =? v then Some s else None | _ => None end.

Section Plan.
  Context (dist : pos -> pos -> Z) (ord : list Z -> list Z) (cells : list (Z * pos) -> list (Z * pos)) (both : bool) (choose : list (Z * Z) -> Z).

  Lemma state_speed fuel m v : forall h, zget (fst (run (step dist cells both choose fuel m) [] h)) v = follow (gives_speed v) h.
  Proof.
    induction h as [|e h IH] using rev_ind; [reflexivity|]. rewrite run_snoc, follow_snoc. cbn [fst].
    set (st := fst (run (step dist cells both choose fuel m) [] h)) in *. clearbody st. destruct e as [id s|src r]; cbn [step gives_speed fst].
    - destruct (Z.eqb_spec id v) as [->|N]; [rewrite zget_set_same; reflexivity|rewrite zget_set_other by congruence; exact IH].
    - destruct (zget st (r_vehicle r)); exact IH.
  Qed.

  Lemma plan_routes_each fuel m speed co : forall qs ps, plan_routes dist cells both choose fuel m speed co qs = Some ps ->
    Forall2 (fun q p => plan_route dist cells both choose fuel m speed co q = Some p) qs ps.
  Proof.
    induction qs as [|q qs IH]; intros ps E; cbn [plan_routes] in E; [injection E as <-; constructor|].
    destruct (plan_route _ _ _ _ _ _ _ _ q) as [p|] eqn:P; [|discriminate]. destruct (plan_routes _ _ _ _ _ _ _ _ qs) as [l|]; [|discriminate].
    injection E as <-. constructor; [exact P|apply IH; reflexivity].
  Qed.

  Lemma plan_route_id fuel m speed co q p : plan_route dist cells both choose fuel m speed co q = Some p -> n_id p = q_id q.
  Proof.
    unfold plan_route. destruct m as [m|]; [|intros E; injection E as <-; reflexivity].
    destruct (closest _ _ _ (q_from q)) as [(a, l1)|]; [|intros E; injection E as <-; reflexivity].
    destruct (closest _ _ _ (q_to q)) as [(b, l2)|]; [|intros E; injection E as <-; reflexivity].
    destruct (shortest _ _ _ _ _ _ _); intros E; try discriminate; injection E as <-; reflexivity.
  Qed.

  (** C64: a request is answered, once and to its sender, exactly if a ground vehicle of this id has been configured;
      the answer repeats the ids of the request and has one plan for each of its routes, in order. *)
  Theorem C64_answered : forall fuel m h t1 src r outs t2,
    snd (run (step dist cells both choose fuel m) [] h) = t1 ++ (Request src r, outs) :: t2 ->
    let before := map fst t1 in
    (unsaid (gives_speed (r_vehicle r)) before /\ outs = [])
    \/ exists v ans, latest (gives_speed (r_vehicle r)) before v /\ outs = [Answer src ans]
       /\ forall a, ans = Some a ->
            a_id a = r_id r /\ a_task a = r_task r /\ a_region a = r_region r /\ a_vehicle a = r_vehicle r
            /\ map n_id (a_plans a) = map q_id (r_routes r).
  Proof.
    intros fuel m h t1 src r outs t2 E. cbv zeta. destruct (run_split _ _ _ _ _ _ E) as (st & R & _ & O). cbn [fst snd] in O.
    pose proof (state_speed fuel m (r_vehicle r) (map fst t1)) as SP. rewrite R in SP. cbn [fst] in SP. cbn [step] in O.
    destruct (zget st (r_vehicle r)) as [v|] eqn:G.
    - right. exists v. cbn [snd] in O. eexists. split; [apply follow_latest; symmetry; exact SP|]. split; [exact O|]. intros a A.
      destruct (plan_routes _ _ _ _ _ _ _ _ _) as [ps|] eqn:P; [|discriminate]. injection A as <-. cbn [a_id a_task a_region a_vehicle a_plans].
      repeat (split; [reflexivity|]). apply plan_routes_each in P. clear O. induction P as [|q p qs ps Q P IH]; [reflexivity|]. cbn [map]. rewrite IH.
      rewrite (plan_route_id _ _ _ _ _ _ Q). reflexivity.
    - left. split; [apply follow_unsaid; symmetry; exact SP|exact O].
  Qed.

  (** C64: configurations are not answered. *)
  Theorem C64_quiet : forall fuel m h t1 id s outs t2,
    snd (run (step dist cells both choose fuel m) [] h) = t1 ++ (Config id s, outs) :: t2 -> outs = [].
  Proof. intros fuel m h t1 id s outs t2 E. destruct (run_split _ _ _ _ _ _ E) as (st & R & _ & O). exact O. Qed.

  Context (dist_ok : metric dist) (ord_ok : forall l, ord l = l \/ ord l = rev l) (cells_ok : forall l x, In x (cells l) <-> In x l) (choose_best : best_of choose).
  Context (ws : list way) (ns : list (Z * option pos)) (pos_of : Z -> pos) (good : good_file ws ns pos_of).
  Context (m : road_map) (BM : build dist ord ws ns = Built m).

  Lemma closest_picked p a d : closest dist cells (junction_places m) p = Some (a, d) -> picked dist pos_of ws p a /\ d = dist p (pos_of a).
  Proof using dist_ok ord_ok cells_ok good BM.
    intros E. destruct (C63_square dist cells cells_ok (junction_places m) p a d E) as (k & q & K & I & Q & D & MN & _).
    apply (places_In dist dist_ok ord ord_ok ws ns pos_of good m BM) in I. destruct I as (J & ->). split; [|exact D]. split; [exact J|].
    exists k. split; [exact K|]. split; [exact Q|]. intros c JC QC. rewrite <- D. apply (MN c); [|exact QC].
    apply (places_In dist dist_ok ord ord_ok ws ns pos_of good m BM). auto.
  Qed.

  Lemma closest_remote p : closest dist cells (junction_places m) p = None -> remote pos_of ws p.
  Proof using dist_ok ord_ok cells_ok good BM.
    intros E c J Q. apply (proj1 (C63_none dist cells cells_ok (junction_places m) p) E (c, pos_of c)); [|exact Q].
    apply (places_In dist dist_ok ord ord_ok ws ns pos_of good m BM). auto.
  Qed.

  Lemma plan_route_ok fuel speed co q pl : plan_route dist cells both choose fuel (Some m) speed co q = Some pl -> planned dist pos_of ws speed co q pl.
  Proof using dist_ok ord_ok cells_ok choose_best good BM.
    intros E. split; [apply (plan_route_id _ _ _ _ _ _ E)|]. unfold plan_route in E.
    destruct (closest dist cells (junction_places m) (q_from q)) as [(a, l1)|] eqn:CA.
    2:{ injection E as <-. cbn. split; [reflexivity|]. left. apply closest_remote, CA. }
    destruct (closest dist cells (junction_places m) (q_to q)) as [(b, l2)|] eqn:CB.
    2:{ injection E as <-. cbn. split; [reflexivity|]. right. left. apply closest_remote, CB. }
    destruct (closest_picked _ _ _ CA) as (PA & ->). destruct (closest_picked _ _ _ CB) as (PB & ->).
    destruct (shortest dist both choose fuel m a b) as [| |len path|] eqn:S; try discriminate.
    - injection E as <-. cbn. split; [reflexivity|]. right. right. exists a, b. split; [exact PA|]. split; [exact PB|].
      apply (C62_none dist dist_ok ord ord_ok both choose choose_best ws ns pos_of good m fuel a b BM (proj1 PA) (proj1 PB) S).
    - injection E as <-. cbn [n_cost n_points]. split; [reflexivity|].
      destruct (C62_way dist dist_ok ord ord_ok both choose choose_best ws ns pos_of good m fuel a b len path BM S) as (d & B & ND & LE).
      exists a, b, path, d. split; [exact PA|]. split; [exact PB|]. split; [exact ND|]. split; [exact B|]. split; [change (dist (q_from q) (pos_of a) + d + dist (q_to q) (pos_of b) <= dist (q_from q) (pos_of a) + dist (q_to q) (pos_of b) + 1000 * len + 999 * (Z.of_nat (length path) - 1)); lia|].
      destruct co; [reflexivity|].
      destruct (expand_spec dist dist_ok ord ord_ok ws ns pos_of good m BM a path b d B) as (H1 & H2 & H3 & H4 & H5).
      exists (expand (m_table m) path). split; [|split; [exact H1|split; [exact H2|split; [exact H3|exact H4]]]].
      assert (K : forall n, In n (expand (m_table m) path) -> zget (positions (m_nodes m)) n = Some (pos_of n)).
      { intros n N. assert (R : exists r, road ws r /\ In n r).
        { destruct (H5 n N) as [->|R]; [|exact R]. cbn in H1. injection H1 as ->. apply on_road. apply junction_on_road, PA. }
        destruct R as (r & R & I). apply (node_pos dist dist_ok ord ord_ok ws ns pos_of good m BM n r R I). }
      destruct (open_path speed m pos_of path [q_from q] (add_point speed [] (q_from q)) K) as (qs & q0 & EQ & EL).
      { exists [], (q_from q). split; reflexivity. }
      rewrite EL, add_last_ending. split; [|split].
      + rewrite ending_pos, <- EQ. reflexivity.
      + apply ending_numbered.
      + intros w W. apply (ending_speed _ _ _ _ _ W).
  Qed.

  (** C64: the plans lead from the place where the route starts along roads to the place where it ends; their speed is
      the last nominal speed of the vehicle, at least 1 m/s. *)
  Theorem C64_plans : forall fuel h t1 src r a t2,
    snd (run (step dist cells both choose fuel (Some m)) [] h) = t1 ++ (Request src r, [Answer src (Some a)]) :: t2 ->
    exists v, latest (gives_speed (r_vehicle r)) (map fst t1) v /\ Forall2 (planned dist pos_of ws (Z.max 1000 v) (r_cost_only r)) (r_routes r) (a_plans a).
  Proof using dist_ok ord_ok cells_ok choose_best good BM.
    intros fuel h t1 src r a t2 E. destruct (run_split _ _ _ _ _ _ E) as (st & R & _ & O). cbn [fst snd] in O.
    pose proof (state_speed fuel (Some m) (r_vehicle r) (map fst t1)) as SP. rewrite R in SP. cbn [fst] in SP. cbn [step] in O.
    destruct (zget st (r_vehicle r)) as [v|] eqn:G; [|discriminate]. exists v. split; [apply follow_latest; symmetry; exact SP|].
    cbn [snd] in O. injection O as O. replace (if v <? 1000 then 1000 else v) with (Z.max 1000 v) in O by (destruct (Z.ltb_spec v 1000); lia).
    destruct (plan_routes _ _ _ _ _ _ _ _ _) as [ps|] eqn:P; [|discriminate]. injection O as ->. cbn [a_plans]. apply plan_routes_each in P.
    clear E. induction P as [|q p qs ps Q P IH]; [constructor|]. constructor; [apply (plan_route_ok _ _ _ _ _ Q)|exact IH].
  Qed.

  (** C64: if from each junction a road leads to another one, the service comes to an answer. *)
  Theorem C64_comes : (forall a, junction ws a -> exists c s, section_between ws a c s) ->
    forall speed co qs, exists n, forall fuel, (n <= fuel)%nat -> plan_routes dist cells both choose fuel (Some m) speed co qs <> None.
  Proof using dist_ok ord_ok cells_ok choose_best good BM.
    intros SEC speed co. assert (ONE : forall q, exists n, forall fuel, (n <= fuel)%nat -> plan_route dist cells both choose fuel (Some m) speed co q <> None).
    { intros q. unfold plan_route. destruct (closest dist cells (junction_places m) (q_from q)) as [(a, l1)|] eqn:CA; [|exists O; discriminate].
      destruct (closest dist cells (junction_places m) (q_to q)) as [(b, l2)|] eqn:CB; [|exists O; discriminate].
      destruct (closest_picked _ _ _ CA) as ((JA & _) & _). destruct (closest_picked _ _ _ CB) as ((JB & _) & _).
      assert (X : exists i j, zget (index (m_nodes m)) a = Some i /\ zget (index (m_nodes m)) b = Some j).
      { rewrite (built_is dist dist_ok ord ord_ok ws ns pos_of good m BM). cbn [m_nodes the_map].
        rewrite (idx_known ws ns pos_of good a JA), (idx_known ws ns pos_of good b JB). eauto. }
      destruct X as (i & j & EA & EB).
      destruct (C62_found dist dist_ok ord ord_ok both choose choose_best ws ns pos_of good m a b i j BM EA EB (SEC a JA)) as (n & N).
      exists n. intros fuel F. destruct (N fuel F) as [(_ & len & ids & ->)|(_ & ->)]; discriminate. }
    induction qs as [|q qs (n1 & N1)]; [exists O; discriminate|]. destruct (ONE q) as (n2 & N2). exists (max n1 n2). intros fuel F. cbn [plan_routes].
    specialize (N1 fuel ltac:(lia)). specialize (N2 fuel ltac:(lia)). destruct (plan_route _ _ _ _ _ _ _ _ q); [|congruence].
    destruct (plan_routes _ _ _ _ _ _ _ _ qs); [discriminate|congruence].
  Qed.
End Plan.

(** A request on the map of the ring *)
Definition ring_request : request :=
  {| r_id := 4; r_task := 5; r_region := 6; r_vehicle := 400; r_cost_only := false;
     r_routes := [{| q_id := 1; q_from := (-3000, 0); q_to := (1000000, -4000) |}; {| q_id := 2; q_from := (-3000000, 0); q_to := (0, 0) |}] |}.

Example plan_example : exists m a, build taxi (fun l => l) ring_ways ring_nodes = Built m
  /\ snd (run (step taxi (fun l => l) true first_best 30 (Some m)) [] [Request 9 ring_request; Config 400 500; Config 401 7000; Request 9 ring_request])
     = [(Request 9 ring_request, []); (Config 400 500, []); (Config 401 7000, []); (Request 9 ring_request, [Answer 9 (Some a)])]
  /\ map n_cost (a_plans a) = [Some (1007000, 1000); None]
  /\ map (fun p => map (fun w => (p_num w, p_next w, p_pos w)) (n_points p)) (a_plans a)
     = [[(1, 2, (-3000, 0)); (2, 3, (0, 0)); (3, 4, (500000, 0)); (4, 5, (1000000, 0)); (5, 6, (1000000, 0)); (6, 7, (1000000, -1000));
         (7, 8, (1000000, -1000)); (8, 8, (1000000, -4000))]; []].
Proof. do 2 eexists. split; [vm_compute; reflexivity|]. split; [vm_compute; reflexivity|]. split; vm_compute; reflexivity. Qed.

(** C64: the cost need not be that of the way in the plan: of two roads between the same junctions the graph takes the
    shorter one and the plan the one that comes first in the file. *)
Theorem C64_cost_refuted : exists ws ns pos_of m q pl, good_file ws ns pos_of /\ build taxi (fun l => l) ws ns = Built m
  /\ plan_route taxi (fun l => l) true first_best 20 (Some m) 1000 false q = Some pl
  /\ n_cost pl = Some (10000, 1000) /\ map p_pos (n_points pl) = [(0, 0); (0, 0); (10000, 500000); (10000, 0); (10000, 0); (10000, 0)].
Proof.
  set (f := fun n : Z => if n =? 1 then (0, 0) else if n =? 2 then (10000, 0) else (10000, 500000)).
  exists [{| w_id := 7; w_road := true; w_nodes := [1; 3; 2] |}; {| w_id := 8; w_road := true; w_nodes := [1; 2] |}],
    (map (fun n => (n, Some (f n))) [1; 2; 3]), f. eexists. exists {| q_id := 1; q_from := (0, 0); q_to := (10000, 0) |}. eexists.
  split; [|split; [vm_compute; reflexivity|split; [vm_compute; reflexivity|split; vm_compute; reflexivity]]].
  split; [|split; [|split]].
  - cbn. repeat constructor; cbn; intuition congruence.
  - intros w I R. cbn in I. destruct I as [<-|[<-|[]]]; cbn; congruence.
  - cbn. repeat constructor; cbn; intuition congruence.
  - intros l n (w & I & R & <-) N. cbn in I. destruct I as [<-|[<-|[]]]; cbn in N; repeat (destruct N as [<-|N]; [cbn; auto 10|]); destruct N.
Qed.

Print Assumptions C64_answered.
Print Assumptions C64_quiet.
Print Assumptions C64_plans.
Print Assumptions C64_comes.
Print Assumptions C64_cost_refuted.

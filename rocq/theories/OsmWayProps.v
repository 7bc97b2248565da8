(** Theorems about the ways found in the road map (C62). *)
From Coq Require Import List ZArith Lia Bool.
From Verif Require Import ZMap AStarModel AStarSpec AStarProps OsmMapModel OsmMapSpec OsmMapProofs OsmMapBuild OsmMapFacts OsmMapProps OsmWayProofs.
Import ListNotations.
Open Scope list_scope.
Open Scope Z_scope.

Section Way.
  Context (dist : pos -> pos -> Z) (dist_ok : metric dist) (ord : list Z -> list Z) (ord_ok : forall l, ord l = l \/ ord l = rev l).
  Context (both : bool) (choose : list (Z * Z) -> Z) (choose_best : best_of choose).
  Context (ws : list way) (ns : list (Z * option pos)) (pos_of : Z -> pos) (good : good_file ws ns pos_of).

  (** C62: the way that is found leads from junction to junction over sections of roads, from the start to the end,
      and passes no junction twice; driving it takes less than the reported metres and one more for each section. *)
  Theorem C62_way : forall m fuel a b len ids, build dist ord ws ns = Built m -> shortest dist both choose fuel m a b = Way len ids ->
    exists d, by_sections dist pos_of ws a ids b d /\ NoDup ids /\ d <= 1000 * len + 999 * (Z.of_nat (length ids) - 1).
  Proof using dist_ok ord_ok choose_best good.
    intros m fuel a b len ids E S. destruct (C61_junctions dist ord ws ns m E) as (J & _).
    rewrite (build_good dist dist_ok ord ord_ok ws ns pos_of good) in E. injection E as <-. unfold shortest in S. cbn [m_nodes m_edges the_map] in *.
    destruct (zget (index (ld ws ns)) a) as [i|] eqn:EA; [|discriminate]. destruct (zget (index (ld ws ns)) b) as [j|] eqn:EB; [|discriminate].
    assert (JA : junction ws a) by (apply J; congruence). assert (JB : junction ws b) by (apply J; congruence).
    rewrite (idx_known ws ns pos_of good a JA) in EA. injection EA as <-. rewrite (idx_known ws ns pos_of good b JB) in EB. injection EB as <-.
    rewrite (pos_known ws ns pos_of good b JB) in S. destruct (_ <=? _); [discriminate|].
    destruct (search _ _ _ _ _ _ _) as [d s| |] eqn:F; try discriminate.
    destruct (C60_nearly_shortest _ _ both choose choose_best (edge_pos dist dist_ok ord ord_ok ws ns pos_of) (idx ws ns a) (idx ws ns b) 1 ltac:(lia)
                (drops dist dist_ok ord ord_ok ws ns pos_of good (pos_of b)) (guess_goal dist dist_ok ord ws ns pos_of good b JB) fuel d s F) as (l & len' & T & ND & R & LE & _).
    rewrite T in S. destruct (route_sections dist dist_ok ord ord_ok ws ns pos_of good _ _ _ _ R a b JA JB eq_refl eq_refl) as (ids' & d' & N & M & B & LE').
    rewrite N in S. injection S as <- <-. exists d'. split; [exact B|]. split; [|lia]. rewrite M in ND. apply NoDup_map_inv in ND. exact ND.
  Qed.

  (** C62: the reported length is at most that of any way in the graph, and one metre for each of its edges; *)
  Theorem C62_nearly_shortest_graph : forall m fuel a b len ids i j, build dist ord ws ns = Built m -> shortest dist both choose fuel m a b = Way len ids ->
    zget (index (m_nodes m)) a = Some i -> zget (index (m_nodes m)) b = Some j ->
    forall l' len', route (m_edges m) i l' j len' -> len <= len' + (Z.of_nat (length l') - 1).
  Proof using dist_ok ord_ok choose_best good.
    intros m fuel a b len ids i j E S EA EB. destruct (C61_junctions dist ord ws ns m E) as (J & _).
    rewrite (build_good dist dist_ok ord ord_ok ws ns pos_of good) in E. injection E as <-. unfold shortest in S. rewrite EA, EB in S. cbn [m_nodes m_edges the_map] in *.
    assert (JA : junction ws a) by (apply J; congruence). assert (JB : junction ws b) by (apply J; congruence).
    rewrite (idx_known ws ns pos_of good b JB) in EB. injection EB as <-.
    rewrite (pos_known ws ns pos_of good b JB) in S. destruct (_ <=? _); [discriminate|].
    destruct (search _ _ _ _ _ _ _) as [d s| |] eqn:F; try discriminate.
    destruct (C60_nearly_shortest _ _ both choose choose_best (edge_pos dist dist_ok ord ord_ok ws ns pos_of) i (idx ws ns b) 1 ltac:(lia)
                (drops dist dist_ok ord ord_ok ws ns pos_of good (pos_of b)) (guess_goal dist dist_ok ord ws ns pos_of good b JB) fuel d s F) as (l & len'' & T & _ & _ & _ & BD).
    rewrite T in S. destruct (names _ _); [|discriminate]. injection S as <- <-. intros l' len' R. specialize (BD l' len' R). lia.
  Qed.

  (** so, if the lengths of the edges are those of the sections, driving it takes at most as long as driving any other
      way, and one metre for each section of both. *)
  Theorem C62_nearly_shortest : forall m fuel a b len ids, short_roads ord ws -> build dist ord ws ns = Built m ->
    shortest dist both choose fuel m a b = Way len ids ->
    exists d, by_sections dist pos_of ws a ids b d
      /\ forall l' d', by_sections dist pos_of ws a l' b d' -> d <= d' + 999 * (Z.of_nat (length ids) - 1) + 1000 * (Z.of_nat (length l') - 1).
  Proof using dist_ok ord_ok choose_best good.
    intros m fuel a b len ids SR E S. destruct (C62_way m fuel a b len ids E S) as (d & B & _ & LE). exists d. split; [exact B|].
    intros l' d' B'. destruct (sections_route dist dist_ok ord ord_ok ws ns pos_of SR a l' b d' B') as (len' & R & LE').
    assert (X : exists i j, zget (index (m_nodes m)) a = Some i /\ zget (index (m_nodes m)) b = Some j).
    { unfold shortest in S. destruct (zget _ a) as [i|]; [|discriminate]. destruct (zget _ b) as [j|]; [|discriminate]. eauto. }
    destruct X as (i & j & EA & EB). destruct (C61_junctions dist ord ws ns m E) as (J & _).
    assert (JA : junction ws a) by (apply J; congruence). assert (JB : junction ws b) by (apply J; congruence).
    pose proof (C62_nearly_shortest_graph m fuel a b len ids i j E S EA EB) as G.
    rewrite (build_good dist dist_ok ord ord_ok ws ns pos_of good) in E. injection E as <-. cbn [m_nodes m_edges the_map] in *.
    rewrite (idx_known ws ns pos_of good a JA) in EA. injection EA as <-. rewrite (idx_known ws ns pos_of good b JB) in EB. injection EB as <-.
    specialize (G _ _ R). rewrite map_length in G. lia.
  Qed.

  (** C62: the search ends, and from a junction with a section it finds a way exactly if one can drive there. *)
  Theorem C62_found : forall m a b i j, build dist ord ws ns = Built m ->
    zget (index (m_nodes m)) a = Some i -> zget (index (m_nodes m)) b = Some j ->
    (exists c s, section_between ws a c s) ->
    exists n, forall fuel, (n <= fuel)%nat ->
      (drive ws a b /\ exists len ids, shortest dist both choose fuel m a b = Way len ids)
      \/ (~ drive ws a b /\ shortest dist both choose fuel m a b = NoWay).
  Proof using dist_ok ord_ok choose_best good.
    intros m a b i j E EA EB (c & s & S). pose proof (C61_connected dist ord ord_ok ws ns dist_ok pos_of good m a b i j E EA EB) as C.
    destruct (C61_junctions dist ord ws ns m E) as (J & _).
    destruct (proj2 (C61_edges dist ord ord_ok ws ns dist_ok pos_of good (fun x => negb (pl (flags ws) x)) m
       ltac:(intros x; rewrite <- not_junction; destruct (pl (flags ws) x); cbn; split; congruence) E) a c s S) as (i' & k & w & EI & _ & LK).
    rewrite (build_good dist dist_ok ord ord_ok ws ns pos_of good) in E. injection E as <-. unfold shortest. rewrite EA, EB. cbn [m_nodes m_edges the_map] in *.
    assert (JA : junction ws a) by (apply J; congruence). assert (JB : junction ws b) by (apply J; congruence).
    assert (i' = i) as -> by congruence. pose proof (linked_range dist ord ws ns pos_of i k w LK) as RG. apply Z.leb_gt in RG. rewrite RG.
    rewrite (idx_known ws ns pos_of good a JA) in EA. injection EA as <-. rewrite (idx_known ws ns pos_of good b JB) in EB. injection EB as <-.
    rewrite (pos_known ws ns pos_of good b JB).
    pose proof (edge_pos dist dist_ok ord ord_ok ws ns pos_of) as W. pose proof (drops dist dist_ok ord ord_ok ws ns pos_of good (pos_of b)) as G.
    pose proof (guess_goal dist dist_ok ord ws ns pos_of good b JB) as H.
    destruct (C60_ends _ _ both choose choose_best W (idx ws ns a) (idx ws ns b) 1 ltac:(lia) G H) as (n & N). exists n. intros fuel F. specialize (N fuel F).
    pose proof (C60_found _ _ both choose choose_best W (idx ws ns a) (idx ws ns b) 1 ltac:(lia) G H fuel N) as FD. rewrite C in FD.
    destruct (search _ _ _ _ _ _ _) as [d st| |] eqn:Q; [| |congruence].
    - left. split; [apply FD; eauto|].
      destruct (C60_nearly_shortest _ _ both choose choose_best W (idx ws ns a) (idx ws ns b) 1 ltac:(lia) G H fuel d st Q) as (l & len' & T & _ & R & _).
      rewrite T. destruct (route_sections dist dist_ok ord ord_ok ws ns pos_of good _ _ _ _ R a b JA JB eq_refl eq_refl) as (ids' & d' & -> & _). eauto.
    - right. split; [|reflexivity]. intros D. apply FD in D. destruct D as (? & ? & ?). discriminate.
  Qed.
  (** C62: that there is no way is only said if one cannot drive there. *)
  Theorem C62_none : forall m fuel a b, build dist ord ws ns = Built m -> junction ws a -> junction ws b ->
    shortest dist both choose fuel m a b = NoWay -> ~ drive ws a b.
  Proof using dist_ok ord_ok choose_best good.
    intros m fuel a b E JA JB S D.
    assert (X : exists i j, zget (index (m_nodes m)) a = Some i /\ zget (index (m_nodes m)) b = Some j).
    { pose proof (build_good dist dist_ok ord ord_ok ws ns pos_of good) as Q. rewrite E in Q. injection Q as ->. cbn [m_nodes the_map].
      rewrite (idx_known ws ns pos_of good a JA), (idx_known ws ns pos_of good b JB). eauto. }
    destruct X as (i & j & EA & EB). pose proof (proj2 (C61_connected dist ord ord_ok ws ns dist_ok pos_of good m a b i j E EA EB) D) as R.
    rewrite (build_good dist dist_ok ord ord_ok ws ns pos_of good) in E. injection E as <-. unfold shortest in S. rewrite EA, EB in S. cbn [m_nodes m_edges the_map] in *.
    rewrite (idx_known ws ns pos_of good b JB) in EB. injection EB as <-. rewrite (idx_known ws ns pos_of good a JA) in EA. injection EA as <-.
    rewrite (pos_known ws ns pos_of good b JB) in S. destruct (_ <=? _); [discriminate|].
    pose proof (edge_pos dist dist_ok ord ord_ok ws ns pos_of) as W. pose proof (drops dist dist_ok ord ord_ok ws ns pos_of good (pos_of b)) as G.
    pose proof (guess_goal dist dist_ok ord ws ns pos_of good b JB) as H.
    pose proof (C60_found _ _ both choose choose_best W (idx ws ns a) (idx ws ns b) 1 ltac:(lia) G H fuel) as FD.
    destruct (search _ _ _ _ _ _ _) as [d st| |] eqn:Q; [| |discriminate].
    - destruct (C60_nearly_shortest _ _ both choose choose_best W (idx ws ns a) (idx ws ns b) 1 ltac:(lia) G H fuel d st Q) as (l & len' & T & _ & R' & _).
      rewrite T in S. destruct (route_sections dist dist_ok ord ord_ok ws ns pos_of good _ _ _ _ R' a b JA JB eq_refl eq_refl) as (ids' & d' & N & _). rewrite N in S. discriminate.
    - destruct (proj2 (FD ltac:(discriminate)) R) as (? & ? & ?). discriminate.
  Qed.
End Way.

(** Two ways from 1 to 5: over 3, with the inner nodes 2 and 6, and over 4. *)
Definition ring_ways : list way :=
  [{| w_id := 7; w_road := true; w_nodes := [1; 2; 3; 6; 5] |}; {| w_id := 8; w_road := true; w_nodes := [1; 4] |};
   {| w_id := 9; w_road := true; w_nodes := [4; 5] |}; {| w_id := 10; w_road := true; w_nodes := [3; 7] |}].
Definition ring_pos (n : Z) : pos :=
  if n =? 1 then (0, 0) else if n =? 2 then (500000, 0) else if n =? 3 then (1000000, 0) else if n =? 4 then (700000, -100000)
  else if n =? 5 then (1000000, 5000) else if n =? 6 then (1000000, 2000) else (1000000, -1000).
Definition ring_nodes : list (Z * option pos) := map (fun n => (n, Some (ring_pos n))) [1; 2; 3; 4; 5; 6; 7].

Example ring_good : good_file ring_ways ring_nodes ring_pos.
Proof.
  split; [|split; [|split]].
  - cbn. repeat constructor; cbn; intuition congruence.
  - intros w I R. cbn in I. repeat (destruct I as [<-|I]; [cbn; congruence|]). destruct I.
  - cbn. repeat constructor; cbn; intuition congruence.
  - intros l n (w & I & R & <-) N. cbn in I. repeat (destruct I as [<-|I]; [cbn in N; repeat (destruct N as [<-|N]; [cbn; auto 10|]); destruct N|]). destruct I.
Qed.

Example ring_way : exists m, build taxi (fun l => l) ring_ways ring_nodes = Built m
  /\ shortest taxi true first_best 20 m 1 7 = Way 1001 [1; 3; 7] /\ shortest taxi true first_best 20 m 7 1 = Way 1001 [7; 3; 1]
  /\ drive ring_ways 1 7.
Proof.
  eexists. split; [vm_compute; reflexivity|]. split; [vm_compute; reflexivity|]. split; [vm_compute; reflexivity|].
  apply drive_on with 3; [apply drive_on with 2; [apply drive_on with 1; [apply drive_there|]|]|].
  - exists [1; 2; 3; 6; 5]. split; [eexists; split; [left; reflexivity|split; reflexivity]|]. left. exists [], [3; 6; 5]. reflexivity.
  - exists [1; 2; 3; 6; 5]. split; [eexists; split; [left; reflexivity|split; reflexivity]|]. left. exists [1], [6; 5]. reflexivity.
  - exists [3; 7]. split; [eexists; split; [do 3 right; left; reflexivity|split; reflexivity]|]. left. exists [], []. reflexivity.
Qed.

(** C62: a section that comes after one with inner nodes counts too much, so the way that is found may be longer than
    another one by more than a metre for each section; here 1205 m instead of 1005 m. *)
Theorem C62_shortest_refuted : exists ws ns pos_of m len ids d l' d',
  good_file ws ns pos_of /\ build taxi (fun l => l) ws ns = Built m /\ shortest taxi true first_best 20 m 1 5 = Way len ids
  /\ by_sections taxi pos_of ws 1 ids 5 d /\ by_sections taxi pos_of ws 1 l' 5 d' /\ length ids = 3%nat /\ length l' = 3%nat /\ d = 1205000 /\ d' = 1005000.
Proof.
  exists ring_ways, ring_nodes, ring_pos. eexists. exists 1205, [1; 4; 5], 1205000, [1; 3; 5], 1005000.
  split; [exact ring_good|]. split; [vm_compute; reflexivity|]. split; [vm_compute; reflexivity|].
  assert (J : forall n, In n [1; 3; 4; 5] -> junction ring_ways n) by (intros n N; apply pl_spec; cbn in N; repeat (destruct N as [<-|N]; [vm_compute; reflexivity|]); destruct N).
  assert (NJ : forall n, In n [2; 6] -> ~ junction ring_ways n) by (intros n N Q; apply pl_spec in Q; revert Q; cbn in N; repeat (destruct N as [<-|N]; [vm_compute; discriminate|]); destruct N).
  assert (R7 : road ring_ways [1; 2; 3; 6; 5]) by (eexists; split; [left; reflexivity|split; reflexivity]).
  assert (R8 : road ring_ways [1; 4]) by (eexists; split; [right; left; reflexivity|split; reflexivity]).
  assert (R9 : road ring_ways [4; 5]) by (eexists; split; [do 2 right; left; reflexivity|split; reflexivity]).
  split; [|split; [|repeat split]].
  - change 1205000 with (length_of taxi ring_pos [1; 4] + (length_of taxi ring_pos [4; 5] + 0)).
    apply by_leg with 4; [|apply by_leg with 5; [|apply by_end]].
    + left. exists [1; 4], [], [], []. repeat split; auto; try (apply J; cbn; tauto); intros x [].
    + left. exists [4; 5], [], [], []. repeat split; auto; try (apply J; cbn; tauto); intros x [].
  - change 1005000 with (length_of taxi ring_pos [1; 2; 3] + (length_of taxi ring_pos [3; 6; 5] + 0)).
    apply by_leg with 3; [|apply by_leg with 5; [|apply by_end]].
    + left. exists [1; 2; 3; 6; 5], [2], [], [6; 5]. repeat split; auto; try (apply J; cbn; tauto); intros x [<-|[]]; apply NJ; cbn; tauto.
    + left. exists [1; 2; 3; 6; 5], [6], [1; 2], []. repeat split; auto; try (apply J; cbn; tauto); intros x [<-|[]]; apply NJ; cbn; tauto.
Qed.

(** A file all whose edges have the right lengths *)
Definition bow_ways : list way := [{| w_id := 7; w_road := true; w_nodes := [1; 2; 3] |}; {| w_id := 8; w_road := true; w_nodes := [1; 4; 3] |}; {| w_id := 9; w_road := true; w_nodes := [3; 5] |}].
Definition bow_pos (n : Z) : pos := if n =? 2 then (5000, 700000) else if n =? 4 then (5000, 900000) else (n * 10000, 0).
Definition bow_nodes : list (Z * option pos) := map (fun n => (n, Some (bow_pos n))) [1; 2; 3; 4; 5].
Example bow_short : short_roads (fun l => l) bow_ways /\ good_file bow_ways bow_nodes bow_pos
  /\ exists m, build taxi (fun l => l) bow_ways bow_nodes = Built m /\ shortest taxi false first_best 20 m 1 5 = Way 1450 [1; 3; 5].
Proof.
  split; [|split; [|eexists; split; [vm_compute; reflexivity|vm_compute; reflexivity]]].
  - intros r l1 l l2 a b (w & I & R & <-) E S x X.
    assert (J : junction bow_ways 1) by (apply pl_spec; vm_compute; reflexivity).
    assert (L : exists y z t, l = y :: z :: t).
    { assert (G : forall a mid b, exists y z t, a :: mid ++ [b] = y :: z :: t :> list Z) by (intros u [|v mid] b0; cbn; eauto).
      destruct S as [(? & mid & ? & ? & _ & _ & -> & _)|(? & mid & ? & ? & _ & _ & Q & _)]; [apply G|].
      destruct l as [|y [|z t]]; [discriminate| |eauto]. cbn in Q. destruct mid; discriminate. }
    destruct L as (y & z & t & ->). cbn in I.
    repeat (destruct I as [<-|I]; [cbn in E; destruct l1 as [|u [|v l1]]; [destruct X| |];
      [injection E as <- E; destruct X as [<-|[]]; try exact J; destruct t; discriminate
      |exfalso; injection E as _ E; destruct l1 as [|? [|? ?]]; discriminate]|]). destruct I.
  - split; [|split; [|split]].
    + cbn. repeat constructor; cbn; intuition congruence.
    + intros w I R. cbn in I. repeat (destruct I as [<-|I]; [cbn; congruence|]). destruct I.
    + cbn. repeat constructor; cbn; intuition congruence.
    + intros l n (w & I & R & <-) N. cbn in I. repeat (destruct I as [<-|I]; [cbn in N; repeat (destruct N as [<-|N]; [cbn; auto 10|]); destruct N|]). destruct I.
Qed.

(** C62: from a junction without a section the search can read beyond the end of its tables; here from node 3, which
    is a road of its own. *)
Theorem C62_range_refuted : exists ws ns pos_of m, good_file ws ns pos_of /\ build taxi (fun l => l) ws ns = Built m
  /\ forall both choose fuel, shortest taxi both choose fuel m 3 1 = Astray.
Proof.
  exists [{| w_id := 7; w_road := true; w_nodes := [1; 2] |}; {| w_id := 8; w_road := true; w_nodes := [3] |}], (map (fun n => (n, Some (n, n))) [1; 2; 3]), (fun n => (n, n)).
  eexists. split; [|split; [vm_compute; reflexivity|intros; reflexivity]].
  split; [|split; [|split]].
  - cbn. repeat constructor; cbn; intuition congruence.
  - intros w I R. cbn in I. repeat (destruct I as [<-|I]; [cbn; congruence|]). destruct I.
  - cbn. repeat constructor; cbn; intuition congruence.
  - intros l n (w & I & R & <-) N. cbn in I. repeat (destruct I as [<-|I]; [cbn in N; repeat (destruct N as [<-|N]; [cbn; auto 10|]); destruct N|]). destruct I.
Qed.

Print Assumptions C62_way.
Print Assumptions C62_nearly_shortest_graph.
Print Assumptions C62_nearly_shortest.
Print Assumptions C62_found.
Print Assumptions C62_none.
Print Assumptions C62_shortest_refuted.
Print Assumptions C62_range_refuted.

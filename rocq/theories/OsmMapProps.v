(** Theorems about the road map of the ground route planner (C61). *)
From Coq Require Import List ZArith Lia Bool.
From Verif Require Import ZMap AStarModel AStarSpec OsmMapModel OsmMapSpec OsmMapProofs OsmMapBuild OsmMapFacts.
Import ListNotations.
Open Scope list_scope.
Open Scope Z_scope.

Section Map.
  Context (dist : pos -> pos -> Z) (ord : list Z -> list Z) (ord_ok : forall l, ord l = l \/ ord l = rev l).
  Context (ws : list way) (ns : list (Z * option pos)).

  (** C61: the nodes between which ways are planned are the junctions of the file, each with a number of its own. *)
  Theorem C61_junctions : forall m, build dist ord ws ns = Built m ->
    (forall n, zget (index (m_nodes m)) n <> None <-> junction ws n /\ In n (map fst ns))
    /\ forall a b i, zget (index (m_nodes m)) a = Some i -> zget (index (m_nodes m)) b = Some i -> a = b.
  Proof using.
    intros m E. assert (L : m_nodes m = load (flags ws) ns).
    { unfold build in E. destruct (cut_all _ _ _ _ _ _ _) as [(t & [|])|]; [|discriminate|discriminate].
      destruct (walk_all _ _ _ _ _ _) as [st|]; [|discriminate]. destruct (k_ok st); [|discriminate]. injection E as <-. reflexivity. }
    rewrite L. pose proof (load_spec (flags ws) ns) as S. split.
    - intros n. rewrite <- (li_known _ _ _ S), (li_planning _ _ _ S), <- pl_spec. unfold pl.
      destruct (zget (flags ws) n) as [[|]|]; split; intros (H & I); split; congruence || assumption.
    - intros a b i A B. apply (li_index _ _ _ S) in A, B. destruct A as (A & _), B as (B & _). congruence.
  Qed.

  (** C61: if a node of a road has no position in the file the service crashes. *)
  Theorem C61_missing_node : forall l n, road ws l -> In n l -> (forall p, ~ In (n, Some p) ns) -> build dist ord ws ns = Crash.
  Proof using ord_ok.
    intros l n (w & W & R & <-) I NP. unfold build.
    assert (C : forall ids t, In (w_id w) ids -> cut_all dist ord (flags ws) (positions (load (flags ws) ns)) ws t ids = None).
    2:{ rewrite C; [reflexivity|]. unfold highways. apply in_map. apply filter_In. auto. }
    assert (PN : zget (positions (load (flags ws) ns)) n = None).
    { destruct (zget (positions (load (flags ws) ns)) n) as [p|] eqn:E; [|reflexivity]. exfalso. apply (NP p). apply (li_pos _ _ _ (load_spec (flags ws) ns) n p E). }
    assert (K : forall t, cut dist (flags ws) (positions (load (flags ws) ns)) (w_id w) None t (way_nodes ord ws (w_id w)) = None).
    { intros t. set (c := flat_map (fun w' => if w_road w' && (w_id w' =? w_id w) then w_nodes w' else []) ws).
      assert (IN : forall x, In x c -> exists w', In w' ws /\ w_road w' = true /\ In x (w_nodes w')).
      { intros x X. apply in_flat_map in X. destruct X as (w' & W' & X). destruct (w_road w' && (w_id w' =? w_id w)) eqn:Q; [|destruct X].
        apply andb_true_iff in Q. exists w'. tauto. }
      assert (NC : In n c). { apply in_flat_map. exists w. rewrite R, Z.eqb_refl. auto. }
      assert (IO : forall x, In x (ord c) <-> In x c) by (intros x; destruct (ord_ok c) as [->| ->]; [tauto|symmetry; apply in_rev]).
      apply cut_crash with n.
      - apply IO, NC.
      - exact PN.
      - intros x X. apply IO, IN in X. destruct X as (w' & W' & R' & X). destruct (flags_spec ws x) as (_ & F).
        destruct F as (b & E & _); [apply on_road; exists (w_nodes w'); split; [exists w'; auto|exact X]|]. rewrite E. discriminate.
      - right. assert (HJ : forall x, hd_error c = Some x \/ hd_error (rev c) = Some x -> zget (flags ws) x = Some true).
        { assert (G : forall L, (forall v, In v L -> In v ws) -> forall x,
              hd_error (flat_map (fun w' => if w_road w' && (w_id w' =? w_id w) then w_nodes w' else []) L) = Some x
              \/ hd_error (rev (flat_map (fun w' => if w_road w' && (w_id w' =? w_id w) then w_nodes w' else []) L)) = Some x -> junction ws x).
          { induction L as [|v L IH]; intros S x; [cbn; intros [H|H]; discriminate|]. cbn [flat_map].
            specialize (IH (fun u U => S u (or_intror U)) x).
            destruct (w_road v && (w_id v =? w_id w)) eqn:Q; [|exact IH]. apply andb_true_iff in Q. destruct Q as (Q & _).
            assert (RV : road ws (w_nodes v)) by (exists v; split; [apply S; left; reflexivity|auto]).
            set (rest := flat_map _ L) in *. intros [H|H].
            - destruct (w_nodes v) as [|y r] eqn:EV; [apply IH; left; exact H|]. cbn in H. injection H as ->. left. exists (x :: r). split; [exact RV|left; reflexivity].
            - rewrite rev_app_distr in H. destruct (rev rest) as [|y r] eqn:ER.
              + left. exists (w_nodes v). split; [exact RV|right; exact H].
              + apply IH. right. exact H. }
          intros x X. apply (G ws (fun v V => V)) in X. apply pl_spec in X. unfold pl in X. destruct (zget (flags ws) x) as [[|]|]; try discriminate. reflexivity. }
        unfold way_nodes. fold c. destruct (ord c) as [|x r] eqn:E.
        + exfalso. pose proof (proj2 (IO n) NC) as Q. try rewrite E in Q. exact Q.
        + exists x. split; [reflexivity|]. apply HJ. destruct (ord_ok c) as [O|O]; rewrite O in E; [left|right]; rewrite E; reflexivity. }
    induction ids as [|id ids IH]; intros t H; [destruct H|]. cbn [cut_all]. destruct (Z.eq_dec id (w_id w)) as [->|N].
    - rewrite K. reflexivity.
    - destruct H as [H|H]; [congruence|]. destruct (cut _ _ _ _ _ _ _) as [(t1 & ok)|]; [|reflexivity]. rewrite IH by exact H. reflexivity.
  Qed.

  Context (dist_ok : metric dist) (pos_of : Z -> pos) (good : good_file ws ns pos_of).

  (** C61: otherwise, if the roads have ids of their own, the map is built. *)
  Theorem C61_builds : exists m, build dist ord ws ns = Built m.
  Proof using ord_ok dist_ok good. exists (the_map dist ord ws ns pos_of). apply build_good; assumption. Qed.

  (** C61: the recorded sections lead along a road from one junction to the next and have its length; there is one
      for every two junctions that are next to each other, *)
  Theorem C61_sections : forall m, build dist ord ws ns = Built m ->
    (forall a b s, tget (m_table m) (a, b) = Some s -> section_between ws a b (s_nodes s) /\ s_dist s = length_of dist pos_of (s_nodes s))
    /\ forall a b l, section_between ws a b l -> exists s, tget (m_table m) (a, b) = Some s.
  Proof using ord_ok dist_ok good.
    intros m. rewrite (build_good dist dist_ok ord ord_ok ws ns pos_of good). intros E. injection E as <-. cbn [m_table the_map].
    pose proof (tab_ok dist ord ws pos_of) as T. split.
    - intros a b s H. destruct (to_sound _ _ _ _ T a b s H) as (p & I & D & C). apply all_pieces_In in I. destruct I as (w & W & _ & I).
      pose proof (piece_section ord ord_ok ws w p W I) as S. destruct C as [(-> & -> & ->)|(-> & -> & ->)].
      + split; [exact S|exact D].
      + split; [apply section_rev, S|]. rewrite length_of_rev by exact dist_ok. exact D.
    - intros a b l S. destruct (section_piece ord ord_ok ws a b l S) as (w & p & W & I & _ & C).
      assert (IA : In (w_id w, p) (all_pieces ord ws)) by (apply all_pieces_In; eauto).
      destruct (to_all _ _ _ _ T _ _ IA) as (T1 & T2).
      destruct C as [(<- & <-)|(<- & <-)]; [destruct (tget _ (p_first p, p_last p)); [eauto|congruence]|destruct (tget _ (p_last p, p_first p)); [eauto|congruence]].
  Qed.

  (** and the way back is the way there. *)
  Theorem C61_mirror : forall m, build dist ord ws ns = Built m ->
    forall a b s, a <> b -> tget (m_table m) (a, b) = Some s ->
    exists s', tget (m_table m) (b, a) = Some s' /\ s_nodes s' = rev (s_nodes s) /\ s_dist s' = s_dist s /\ s_way s' = s_way s.
  Proof using ord_ok dist_ok good.
    intros m. rewrite (build_good dist dist_ok ord ord_ok ws ns pos_of good). intros E. injection E as <-. cbn [m_table the_map].
    apply (to_mirror _ _ _ _ (tab_ok dist ord ws pos_of)).
  Qed.

  (** C61: the edges of the graph are the sections.  The length of an edge is that of the section, together with all
      hops to inner nodes that come before it on the same road, rounded down to metres. *)
  Theorem C61_edges : forall inner m, (forall x, inner x = true <-> ~ junction ws x) -> build dist ord ws ns = Built m ->
    (forall i j len, In (i, j, len) (m_edges m) -> exists a b l r l1 l2,
       zget (index (m_nodes m)) a = Some i /\ zget (index (m_nodes m)) b = Some j
       /\ road ws r /\ ord r = l1 ++ l ++ l2 /\ hd_error l = Some a /\ section_between ws a b l
       /\ len = (length_of dist pos_of l + inner_hops dist pos_of inner (l1 ++ [a])) / 1000)
    /\ forall a b l, section_between ws a b l -> exists i j len,
       zget (index (m_nodes m)) a = Some i /\ zget (index (m_nodes m)) b = Some j /\ linked (m_edges m) i j len.
  Proof using ord_ok dist_ok good.
    intros inner m IN. rewrite (build_good dist dist_ok ord ord_ok ws ns pos_of good). intros E. injection E as <-. cbn [m_table m_edges m_nodes the_map].
    split.
    - intros i j len H. destruct (edge_spec dist ord ord_ok ws ns pos_of i j len H) as (w & a & b & p & l1 & l2 & W & IP & P & O & -> & -> & ->).
      pose proof P as (mid & EP & FA & FB & FM).
      exists a, b, p, (w_nodes w), l1, l2. split; [apply (idx_known ws ns pos_of good); apply pl_spec, FA|].
      split; [apply (idx_known ws ns pos_of good); apply pl_spec, FB|]. split; [apply road_In; eauto|]. split; [exact O|].
      split; [rewrite EP; reflexivity|]. split; [apply (piece_section_at ord ord_ok ws w a b p l1 l2); assumption|].
      do 2 f_equal. assert (X : forall x, negb (pl (flags ws) x) = inner x).
      { intros x. pose proof (IN x) as Q. rewrite <- not_junction in Q. destruct (pl (flags ws) x), (inner x); cbn; try reflexivity; destruct Q as (Q1 & Q2); [discriminate (Q1 eq_refl)|discriminate (Q2 eq_refl)]. }
      generalize (l1 ++ [a]). clear - X. intros l. induction l as [|y l IH]; [reflexivity|]. destruct l as [|z l]; [reflexivity|].
      change (inner_hops dist pos_of (fun x => negb (pl (flags ws) x)) (y :: z :: l)) with ((if negb (pl (flags ws) z) then dist (pos_of y) (pos_of z) else 0) + inner_hops dist pos_of (fun x => negb (pl (flags ws) x)) (z :: l)).
      rewrite IH, X. reflexivity.
    - intros a b l S. destruct (section_piece ord ord_ok ws a b l S) as (w & p & W & I & _ & C).
      destruct (piece_linked dist ord ws ns pos_of w p W I) as (len & L). exists (idx ws ns a), (idx ws ns b), len.
      assert (JJ : junction ws a /\ junction ws b) by (destruct S as [(? & ? & ? & ? & _ & _ & _ & A & B & _)|(? & ? & ? & ? & _ & _ & _ & A & B & _)]; auto).
      destruct JJ as (JA & JB). split; [apply (idx_known ws ns pos_of good), JA|]. split; [apply (idx_known ws ns pos_of good), JB|].
      destruct C as [(<- & <-)|(<- & <-)]; [exact L|]. destruct L; [right|left]; assumption.
  Qed.

  (** C61: so an edge is not shorter than its section, *)
  Theorem C61_lengths : forall m, build dist ord ws ns = Built m ->
    forall i j len, In (i, j, len) (m_edges m) -> exists a b l r l1 l2,
      zget (index (m_nodes m)) a = Some i /\ zget (index (m_nodes m)) b = Some j
      /\ road ws r /\ ord r = l1 ++ l ++ l2 /\ section_between ws a b l
      /\ length_of dist pos_of l / 1000 <= len
      /\ ((forall x, In x l1 -> junction ws x) -> len = length_of dist pos_of l / 1000).
  Proof using ord_ok dist_ok good.
    intros m E i j len H.
    destruct (proj1 (C61_edges (fun x => negb (pl (flags ws) x)) m ltac:(intros x; rewrite <- not_junction; destruct (pl (flags ws) x); cbn; split; congruence) E) i j len H)
      as (a & b & l & r & l1 & l2 & A & B & R & O & HD & S & ->).
    exists a, b, l, r, l1, l2. split; [exact A|]. split; [exact B|]. split; [exact R|]. split; [exact O|]. split; [exact S|]. split.
    - apply Z.div_le_mono; [lia|]. pose proof (inner_hops_pos dist dist_ok pos_of (fun x => negb (pl (flags ws) x)) (l1 ++ [a])). lia.
    - intros J. replace (inner_hops dist pos_of (fun x => negb (pl (flags ws) x)) (l1 ++ [a])) with 0; [f_equal; lia|]. symmetry.
      assert (J' : forall x, In x (l1 ++ [a]) -> pl (flags ws) x = true).
      { intros x I. apply pl_spec. apply in_app_iff in I. destruct I as [I|[<-|[]]]; [apply J, I|].
        destruct S as [(? & ? & ? & ? & _ & _ & _ & JA & _)|(? & ? & ? & ? & _ & _ & _ & _ & JA & _)]; exact JA. }
      revert J'. generalize (l1 ++ [a]). clear. intros l. induction l as [|y l IH]; intros J; [reflexivity|]. destruct l as [|z l]; [reflexivity|].
      change (inner_hops dist pos_of (fun x => negb (pl (flags ws) x)) (y :: z :: l)) with ((if negb (pl (flags ws) z) then dist (pos_of y) (pos_of z) else 0) + inner_hops dist pos_of (fun x => negb (pl (flags ws) x)) (z :: l)).
      rewrite IH by (intros x I; apply J; right; exact I). rewrite (J z) by (right; left; reflexivity). reflexivity.
  Qed.

  (** C61: two junctions are connected in the graph exactly if one can drive from one to the other. *)
  Theorem C61_connected : forall m a b i j, build dist ord ws ns = Built m ->
    zget (index (m_nodes m)) a = Some i -> zget (index (m_nodes m)) b = Some j ->
    ((exists l len, route (m_edges m) i l j len) <-> drive ws a b).
  Proof using ord_ok dist_ok good.
    intros m a b i j E A B. destruct (C61_junctions m E) as (J & _).
    assert (JA : junction ws a) by (apply J; congruence). assert (JB : junction ws b) by (apply J; congruence).
    rewrite (build_good dist dist_ok ord ord_ok ws ns pos_of good) in E. injection E as <-. cbn [m_edges m_nodes the_map] in *.
    rewrite (idx_known ws ns pos_of good a JA) in A. rewrite (idx_known ws ns pos_of good b JB) in B. injection A as <-. injection B as <-.
    apply (conn_iff dist ord ord_ok ws ns pos_of good a b JA JB).
  Qed.
End Map.

(** Distances along the axes; a metric *)
Definition taxi (p q : pos) : Z := Z.abs (fst p - fst q) + Z.abs (snd p - snd q).
Lemma taxi_metric : metric taxi.
Proof. unfold metric, taxi. repeat split; intros; lia. Qed.

(** A road 1-2-3-4-5 with a side road 3-6; a kilometre between the nodes up to 3, a metre between the others. *)
Definition sample_ways : list way :=
  [{| w_id := 7; w_road := true; w_nodes := [1; 2; 3; 4; 5] |}; {| w_id := 8; w_road := true; w_nodes := [3; 6] |};
   {| w_id := 9; w_road := false; w_nodes := [2; 6] |}].
Definition sample_pos (n : Z) : pos := if n <=? 3 then ((n - 1) * 1000000, 0) else if n =? 6 then (2000000, 5000) else (2000000 + (n - 3) * 1000, 0).
Definition sample_nodes : list (Z * option pos) := map (fun n => (n, Some (sample_pos n))) [1; 2; 3; 4; 5; 6].

Example sample_good : good_file sample_ways sample_nodes sample_pos.
Proof.
  split; [|split; [|split]].
  - cbn. repeat constructor; cbn; intuition congruence.
  - intros w I R. cbn in I. destruct I as [<-|[<-|[<-|[]]]]; cbn; congruence.
  - cbn. repeat constructor; cbn; intuition congruence.
  - intros l n (w & I & R & <-) N. cbn in I. destruct I as [<-|[<-|[<-|[]]]]; cbn in N; try discriminate;
      repeat (destruct N as [<-|N]; [cbn; auto 10|]); destruct N.
Qed.

Example sample_built : exists m, build taxi (fun l => l) sample_ways sample_nodes = Built m
  /\ m_edges m = [(1, 2, 2000); (2, 3, 1002); (2, 4, 5)]
  /\ map fst (m_table m) = [(1, 3); (3, 1); (3, 5); (5, 3); (3, 6); (6, 3)]
  /\ option_map s_nodes (tget (m_table m) (5, 3)) = Some [5; 4; 3].
Proof. eexists. split; [vm_compute; reflexivity|]. split; [|split]; vm_compute; reflexivity. Qed.

(** C61: edges need not have the length of their sections: a section of 2 m that comes after one with an inner
    node gets a length of 1002 m. *)
Theorem C61_length_refuted : exists ws ns pos_of m s,
  good_file ws ns pos_of /\ build taxi (fun l => l) ws ns = Built m
  /\ zget (index (m_nodes m)) 3 = Some 2 /\ zget (index (m_nodes m)) 5 = Some 3
  /\ (forall len, linked (m_edges m) 2 3 len -> len = 1002)
  /\ tget (m_table m) (3, 5) = Some s /\ s_dist s = 2000.
Proof.
  exists sample_ways, sample_nodes, sample_pos. eexists. eexists. split; [exact sample_good|]. split; [vm_compute; reflexivity|].
  split; [vm_compute; reflexivity|]. split; [vm_compute; reflexivity|]. split; [|split; vm_compute; reflexivity].
  intros len [H|H]; cbn in H; repeat (destruct H as [H|H]; [injection H; intros; lia|]); destruct H.
Qed.

(** C61: of two roads that join the same junctions only the first is recorded; the graph has both, so the shorter
    length may go with the longer road. *)
Theorem C61_parallel_refuted : exists ws ns pos_of m s,
  good_file ws ns pos_of /\ build taxi (fun l => l) ws ns = Built m
  /\ zget (index (m_nodes m)) 1 = Some 1 /\ zget (index (m_nodes m)) 2 = Some 2
  /\ linked (m_edges m) 1 2 10 /\ tget (m_table m) (1, 2) = Some s /\ s_dist s = 1010000 /\ s_nodes s = [1; 3; 2].
Proof.
  set (f := fun n : Z => if n =? 1 then (0, 0) else if n =? 2 then (10000, 0) else (10000, 500000)).
  exists [{| w_id := 7; w_road := true; w_nodes := [1; 3; 2] |}; {| w_id := 8; w_road := true; w_nodes := [1; 2] |}],
    (map (fun n => (n, Some (f n))) [1; 2; 3]), f.
  eexists. eexists. split; [|split; [vm_compute; reflexivity|]].
  - split; [|split; [|split]].
    + cbn. repeat constructor; cbn; intuition congruence.
    + intros w I R. cbn in I. destruct I as [<-|[<-|[]]]; cbn; congruence.
    + cbn. repeat constructor; cbn; intuition congruence.
    + intros l n (w & I & R & <-) N. cbn in I. destruct I as [<-|[<-|[]]]; cbn in N; repeat (destruct N as [<-|N]; [cbn; auto 10|]); destruct N.
  - split; [vm_compute; reflexivity|]. split; [vm_compute; reflexivity|]. split; [left; vm_compute; auto|].
    split; [vm_compute; reflexivity|]. split; vm_compute; reflexivity.
Qed.

(** C61: two pieces of road with the same id in a row stop the service. *)
Theorem C61_same_id_refuted : exists ws ns, (forall l n, road ws l -> In n l -> exists p, In (n, Some p) ns)
  /\ build taxi (fun l => l) ws ns = Crash.
Proof.
  exists [{| w_id := 7; w_road := true; w_nodes := [1; 2] |}; {| w_id := 7; w_road := true; w_nodes := [2; 3] |}],
    (map (fun n => (n, Some (n, n))) [1; 2; 3]).
  split; [|vm_compute; reflexivity].
  intros l n (w & I & R & <-) N. exists (n, n). cbn in I. destruct I as [<-|[<-|[]]]; cbn in N; repeat (destruct N as [<-|N]; [cbn; auto 10|]); destruct N.
Qed.

Print Assumptions C61_junctions.
Print Assumptions C61_missing_node.
Print Assumptions C61_builds.
Print Assumptions C61_sections.
Print Assumptions C61_mirror.
Print Assumptions C61_edges.
Print Assumptions C61_lengths.
Print Assumptions C61_connected.
Print Assumptions C61_length_refuted.
Print Assumptions C61_parallel_refuted.
Print Assumptions C61_same_id_refuted.

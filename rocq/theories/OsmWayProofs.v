(** Lemmas about ways in the road map. *)
From Coq Require Import List ZArith Lia Bool.
From Verif Require Import ZMap AStarModel AStarSpec OsmMapModel OsmMapSpec OsmMapProofs OsmMapBuild OsmMapFacts.
Import ListNotations.
Open Scope list_scope.
Open Scope Z_scope.

Section Ways.
  Context (dist : pos -> pos -> Z) (dist_ok : metric dist) (ord : list Z -> list Z) (ord_ok : forall l, ord l = l \/ ord l = rev l).

  Lemma piece_edges_fwd pos_of idx f : forall l c a mid r0 p,
    c = a :: mid -> f a = true -> (forall x, In x mid -> f x = false) -> In p (pieces f (Some c) l) ->
    exists l1 l2, c ++ l = l1 ++ p ++ l2
      /\ In (idx (p_first p), idx (p_last p), (length_of dist pos_of p + (r0 + inner_hops dist pos_of (fun x => negb (f x)) (l1 ++ [p_first p]))) / 1000)
            (piece_edges dist pos_of idx r0 (pieces f (Some c) l)).
  Proof using.
    induction l as [|n r IH]; intros c a mid r0 p -> FA FM I; [destruct I|]. cbn [pieces] in *. destruct (f n) eqn:F.
    - cbn [piece_edges]. destruct I as [<-|I].
      + exists [], r. split; [cbn; rewrite <- app_assoc; reflexivity|]. left. cbn [app inner_hops]. do 2 f_equal. lia.
      + rewrite removelast_last.
        destruct (IH [n] n [] (r0 + length_of dist pos_of (a :: mid)) p eq_refl F ltac:(intros x []) I) as (l1 & l2 & E & J).
        exists ((a :: mid) ++ l1), l2. split; [rewrite <- app_assoc, <- E; reflexivity|]. right.
        destruct (pieces_sound f r (Some [n]) n [] (or_intror (conj eq_refl (conj F (fun x (X : In x []) => match X with end)))) p I) as (a' & b' & P & _).
        pose proof (piece_ends _ _ _ _ P) as (PF & _).
        assert (H : exists t, l1 ++ [p_first p] = n :: t).
        { rewrite PF. destruct P as (m & -> & _). destruct l1 as [|z l1]; cbn [app] in E; injection E as E0 E'; [exists []|exists (l1 ++ [a'])]; cbn; congruence. }
        destruct H as (t & H). rewrite <- app_assoc, H in *. rewrite inner_hops_app by discriminate. rewrite F. cbn [negb].
        rewrite (inner_hops_all dist pos_of _ a mid) by (intros x X; rewrite (FM x X); reflexivity).
        match goal with |- In (_, _, ?u) _ => match type of J with In (_, _, ?v) _ => replace u with v; [exact J|] end end. f_equal. lia.
    - destruct (IH (a :: mid ++ [n]) a (mid ++ [n]) r0 p eq_refl FA) as (l1 & l2 & E & J); [|exact I|].
      { intros x X. apply in_app_iff in X. destruct X as [X|[<-|[]]]; auto. }
      exists l1, l2. split; [rewrite <- E; cbn; rewrite <- app_assoc; reflexivity|exact J].
  Qed.

  Lemma length_of_ends pos_of : forall mid a b, dist (pos_of a) (pos_of b) <= length_of dist pos_of (a :: mid ++ [b]).
  Proof using dist_ok.
    destruct dist_ok as (P & _ & _ & T). induction mid as [|x mid IH]; intros a b; [cbn; lia|].
    change (length_of dist pos_of (a :: (x :: mid) ++ [b])) with (dist (pos_of a) (pos_of x) + length_of dist pos_of (x :: mid ++ [b])).
    specialize (IH x b). specialize (T (pos_of a) (pos_of x) (pos_of b)). lia.
  Qed.

  Lemma section_ends pos_of ws a b l : section_between ws a b l -> dist (pos_of a) (pos_of b) <= length_of dist pos_of l.
  Proof using dist_ok.
    intros [(r & mid & l1 & l2 & _ & _ & -> & _)|(r & mid & l1 & l2 & _ & _ & E & _)]; [apply length_of_ends|].
    rewrite <- (length_of_rev dist dist_ok), E. destruct dist_ok as (_ & _ & S & _). rewrite S. apply length_of_ends.
  Qed.

  Lemma section_junctions ws a b l : section_between ws a b l -> junction ws a /\ junction ws b.
  Proof using. intros [(? & ? & ? & ? & _ & _ & _ & A & B & _)|(? & ? & ? & ? & _ & _ & _ & A & B & _)]; auto. Qed.

  Lemma inner_none pos_of g : forall l, (forall x, In x l -> g x = false) -> inner_hops dist pos_of g l = 0.
  Proof using.
    induction l as [|y l IH]; intros J; [reflexivity|]. destruct l as [|z l]; [reflexivity|].
    change (inner_hops dist pos_of g (y :: z :: l)) with ((if g z then dist (pos_of y) (pos_of z) else 0) + inner_hops dist pos_of g (z :: l)).
    rewrite IH by (intros x I; apply J; right; exact I). rewrite (J z) by (right; left; reflexivity). reflexivity.
  Qed.

  Section File.
    Context (ws : list way) (ns : list (Z * option pos)) (pos_of : Z -> pos) (good : good_file ws ns pos_of).
    Notation ixn := (idx ws ns).
    Notation edges := (the_edges dist ord ws ns pos_of).
    Notation the_map := (the_map dist ord ws ns pos_of).

    Lemma linked_section i j w : linked edges i j w -> exists a b s, i = ixn a /\ j = ixn b /\ section_between ws a b s /\ length_of dist pos_of s / 1000 <= w.
    Proof using dist_ok ord_ok.
      assert (G : forall i j w, In (i, j, w) edges -> exists a b s, i = ixn a /\ j = ixn b /\ section_between ws a b s /\ length_of dist pos_of s / 1000 <= w).
      { clear i j w. intros i j w I. destruct (edge_spec dist ord ord_ok ws ns pos_of i j w I) as (wy & a & b & p & l1 & l2 & W & IP & P & E & EI & EJ & ->).
        exists a, b, p. split; [exact EI|]. split; [exact EJ|]. split; [apply (piece_section_at ord ord_ok ws wy a b p l1 l2); assumption|].
        apply Z.div_le_mono; [lia|]. pose proof (inner_hops_pos dist dist_ok pos_of (fun x => negb (pl (flags ws) x)) (l1 ++ [a])). lia. }
      intros [L|L]; [exact (G _ _ _ L)|]. destruct (G _ _ _ L) as (a & b & s & A & B & S & D). exists b, a, (rev s).
      split; [exact B|]. split; [exact A|]. split; [apply section_rev, S|]. rewrite (length_of_rev dist dist_ok). exact D.
    Qed.

    Lemma short_edge a b l : short_roads ord ws -> section_between ws a b l -> linked edges (ixn a) (ixn b) (length_of dist pos_of l / 1000).
    Proof using dist_ok ord_ok.
      intros SR S. destruct (section_piece ord ord_ok ws a b l S) as (w & p & W & I & EP & C).
      assert (F : exists l1 l2, ord (w_nodes w) = l1 ++ p ++ l2
        /\ In (ixn (p_first p), ixn (p_last p), (length_of dist pos_of p + inner_hops dist pos_of (fun x => negb (pl (flags ws) x)) (l1 ++ [p_first p])) / 1000) edges).
      { unfold cuts in I. pose proof (ends_planning ord ord_ok ws w W) as (H & _). destruct (ord (w_nodes w)) as [|n r] eqn:O; [destruct I|]. cbn [pieces] in I.
        rewrite (H n eq_refl) in I. destruct (piece_edges_fwd pos_of ixn (pl (flags ws)) r [n] n [] 0 p eq_refl (H n eq_refl) ltac:(intros x []) I) as (l1 & l2 & E & J).
        exists l1, l2. split; [exact E|]. unfold the_edges. apply in_flat_map. exists w. split; [exact W|]. unfold cuts. rewrite O. cbn [pieces]. rewrite (H n eq_refl).
        exact J. }
      destruct F as (l1 & l2 & O & J).
      pose proof (piece_section ord ord_ok ws w p W I) as SP.
      rewrite inner_none in J.
      2:{ intros x X. apply in_app_iff in X. destruct X as [X|[<-|[]]].
          - assert (Q : junction ws x) by (apply (SR (w_nodes w) l1 p l2 (p_first p) (p_last p)); [apply road_In; eauto|exact O|exact SP|exact X]). apply pl_spec in Q. rewrite Q. reflexivity.
          - destruct (section_junctions _ _ _ _ SP) as (Q & _). apply pl_spec in Q. rewrite Q. reflexivity. }
      rewrite Z.add_0_r in J. assert (EL : length_of dist pos_of p = length_of dist pos_of l) by (destruct EP as [->| ->]; [reflexivity|apply (length_of_rev dist dist_ok)]).
      rewrite EL in J. destruct C as [(<- & <-)|(<- & <-)]; [left|right]; exact J.
    Qed.

    Lemma guess_at p n : junction ws n -> guess dist the_map p (ixn n) = dist p (pos_of n) / 1000.
    Proof using good.
      intros J. unfold guess. cbn [m_nodes OsmMapBuild.the_map]. rewrite (idx_back ws ns pos_of good n J).
      pose proof (junction_on_road ws n J) as H. apply on_road in H. destruct H as (l & R & I). apply road_In in R. destruct R as (w & W & <-).
      destruct (node_facts ws ns pos_of good w n W I) as (_ & -> & _). reflexivity.
    Qed.

    Lemma pos_known n : junction ws n -> zget (positions (ld ws ns)) n = Some (pos_of n).
    Proof using good.
      intros J. pose proof (junction_on_road ws n J) as H. apply on_road in H. destruct H as (l & R & I). apply road_In in R. destruct R as (w & W & <-).
      apply (node_facts ws ns pos_of good w n W I).
    Qed.

    Lemma drops p : guess_drops edges (guess dist the_map p) 1.
    Proof using dist_ok ord_ok good.
      intros i j w L. destruct (linked_section i j w L) as (a & b & s & -> & -> & S & D). destruct (section_junctions _ _ _ _ S) as (JA & JB).
      rewrite !guess_at by assumption. pose proof (section_ends pos_of ws a b s S) as X. destruct dist_ok as (_ & _ & SY & T).
      specialize (T p (pos_of b) (pos_of a)). rewrite (SY (pos_of b)) in T.
      assert (Y : dist p (pos_of a) / 1000 <= (dist p (pos_of b) + length_of dist pos_of s) / 1000) by (apply Z.div_le_mono; lia).
      pose proof (Z.div_mod (dist p (pos_of b)) 1000). pose proof (Z.div_mod (length_of dist pos_of s) 1000). pose proof (Z.div_mod (dist p (pos_of b) + length_of dist pos_of s) 1000).
      pose proof (Z.mod_pos_bound (dist p (pos_of b)) 1000). pose proof (Z.mod_pos_bound (length_of dist pos_of s) 1000). pose proof (Z.mod_pos_bound (dist p (pos_of b) + length_of dist pos_of s) 1000). lia.
    Qed.

    Lemma guess_goal b : junction ws b -> guess dist the_map (pos_of b) (ixn b) = 0.
    Proof using dist_ok good. intros J. rewrite guess_at by exact J. destruct dist_ok as (_ & R & _). rewrite R. reflexivity. Qed.

    Lemma route_sections : forall i l j len, route edges i l j len -> forall a b, junction ws a -> junction ws b -> i = ixn a -> j = ixn b ->
      exists ids d, names (back (ld ws ns)) l = Some ids /\ l = map ixn ids /\ by_sections dist pos_of ws a ids b d
        /\ d <= 1000 * len + 999 * (Z.of_nat (length ids) - 1).
    Proof using dist_ok ord_ok good.
      induction 1 as [i|i k j w l len L R IH]; intros a b JA JB EA EB.
      - assert (a = b) as -> by (apply (idx_inj ws ns pos_of good); congruence). subst i. exists [b], 0. cbn [names]. rewrite (idx_back ws ns pos_of good b JB).
        split; [reflexivity|]. split; [reflexivity|]. split; [constructor|cbn; lia].
      - destruct (linked_section i k w L) as (a' & c & s & EI & EK & S & D). destruct (section_junctions _ _ _ _ S) as (JA' & JC).
        assert (a' = a) as -> by (apply (idx_inj ws ns pos_of good); congruence). subst i k.
        destruct (IH c b JC JB eq_refl EB) as (ids & d & N & M & B & LE). exists (a :: ids), (length_of dist pos_of s + d).
        cbn [names map]. rewrite (idx_back ws ns pos_of good a JA), N, M. split; [reflexivity|]. split; [reflexivity|].
        split; [apply by_leg with c; assumption|]. cbn [length]. rewrite Nat2Z.inj_succ.
        pose proof (Z.div_mod (length_of dist pos_of s) 1000). pose proof (Z.mod_pos_bound (length_of dist pos_of s) 1000). lia.
    Qed.

    Lemma sections_route : short_roads ord ws -> forall a l b d, by_sections dist pos_of ws a l b d ->
      exists len, route edges (ixn a) (map ixn l) (ixn b) len /\ 1000 * len <= d.
    Proof using dist_ok ord_ok.
      intros SR. induction 1 as [a|a b c s l d S B IH].
      - exists 0. split; [constructor|lia].
      - destruct IH as (len & R & LE). exists (length_of dist pos_of s / 1000 + len). split; [|pose proof (Z.mul_div_le (length_of dist pos_of s) 1000); lia].
        cbn [map]. apply route_more with (ixn b); [apply short_edge; assumption|exact R].
    Qed.

    Lemma linked_range i j w : linked edges i j w -> i < vertex_count the_map.
    Proof using.
      unfold vertex_count. cbn [m_edges m_nodes OsmMapBuild.the_map]. generalize (Z.of_nat (length (planning (ld ws ns)))). intros z.
      assert (G : forall (es : list (Z * Z * Z)) i j w, In (i, j, w) es -> Z.max i j < fold_right (fun e acc => let '(a, b, _) := e in Z.max acc (1 + Z.max a b)) z es).
      { induction es as [|((x, y), v) es IH]; intros i' j' w' H; [destruct H|]. cbn [fold_right]. destruct H as [H|H]; [injection H as <- <- <-; lia|]. specialize (IH _ _ _ H). lia. }
      intros [L|L]; specialize (G _ _ _ _ L); lia.
    Qed.
  End File.
End Ways.

(** Lemmas about the route plans of the ground planner. *)
From Coq Require Import List ZArith Lia Bool.
From Verif Require Import ZMap AStarModel AStarSpec AStarProps OsmMapModel OsmMapSpec OsmMapProofs OsmMapBuild OsmMapFacts OsmMapProps OsmWayProofs OsmWayProps
  OsmNearModel OsmNearProps OsmPlanModel OsmPlanSpec.
Import ListNotations.
Open Scope list_scope.
Open Scope Z_scope.

(** *** Waypoints *)

Fixpoint opened (v k : Z) (ps : list pos) : list waypoint :=
  match ps with [] => [] | p :: r => {| p_num := k; p_next := k + 1; p_pos := p; p_speed := v |} :: opened v (k + 1) r end.

Lemma opened_app v : forall a k b, opened v k (a ++ b) = opened v k a ++ opened v (k + Z.of_nat (length a)) b.
Proof.
  induction a as [|p a IH]; intros k b; [cbn; f_equal; lia|]. cbn [app opened length]. rewrite IH, Nat2Z.inj_succ. do 3 f_equal. lia.
Qed.
Lemma opened_length v : forall ps k, length (opened v k ps) = length ps.
Proof. induction ps as [|p ps IH]; intros k; cbn; [reflexivity|]. rewrite IH. reflexivity. Qed.
Lemma opened_pos v : forall ps k, map p_pos (opened v k ps) = ps.
Proof. induction ps as [|p ps IH]; intros k; cbn; [reflexivity|]. rewrite IH. reflexivity. Qed.
Lemma opened_nth v : forall ps k i w, nth_error (opened v k ps) i = Some w -> p_num w = k + Z.of_nat i /\ p_next w = k + Z.of_nat i + 1 /\ p_speed w = v.
Proof.
  induction ps as [|p ps IH]; intros k i w; [destruct i; discriminate|]. destruct i as [|i]; cbn [opened nth_error].
  - intros E. injection E as <-. cbn. lia.
  - intros E. apply IH in E. lia.
Qed.

(** Waypoints whose last has this next *)
Definition ending (v fin : Z) (ps : list pos) (p : pos) : list waypoint :=
  opened v 1 ps ++ [{| p_num := Z.of_nat (length ps) + 1; p_next := fin; p_pos := p; p_speed := v |}].

Lemma add_point_nil v p : add_point v [] p = ending v 0 [] p.
Proof. reflexivity. Qed.
Lemma add_point_ending v fin ps p q : add_point v (ending v fin ps p) q = ending v 0 (ps ++ [p]) q.
Proof.
  unfold add_point, ending. rewrite rev_app_distr. cbn [rev app]. rewrite rev_involutive. rewrite opened_app. cbn [opened p_num p_pos p_speed].
  rewrite <- app_assoc. cbn [app]. rewrite !app_length, opened_length. cbn [length].
  replace (1 + Z.of_nat (length ps)) with (Z.of_nat (length ps) + 1) by lia.
  replace (Z.of_nat (length ps + 1) + 1) with (Z.of_nat (length ps) + 1 + 1) by lia. reflexivity.
Qed.
Lemma add_last_ending v fin ps p q : add_last v (ending v fin ps p) q = ending v (Z.of_nat (length (ps ++ [p])) + 1) (ps ++ [p]) q.
Proof.
  unfold add_last. rewrite add_point_ending. unfold ending at 1. rewrite rev_app_distr. cbn [rev app p_num p_pos p_speed]. rewrite rev_involutive. reflexivity.
Qed.

Lemma ending_numbered v ps p : numbered (ending v (Z.of_nat (length ps) + 1) ps p).
Proof.
  intros i w E. unfold ending in *. rewrite app_length, opened_length. cbn [length].
  destruct (Nat.lt_ge_cases i (length ps)) as [L|L].
  - rewrite nth_error_app1 in E by (rewrite opened_length; exact L). apply opened_nth in E. destruct E as (A & B & _).
    rewrite (proj2 (Nat.eqb_neq _ _)) by lia. lia.
  - rewrite nth_error_app2 in E by (rewrite opened_length; exact L). rewrite opened_length in E. destruct (i - length ps)%nat as [|j] eqn:D.
    + cbn in E. injection E as <-. cbn [p_num p_next]. assert (i = length ps) as -> by lia. rewrite (proj2 (Nat.eqb_eq _ _)) by lia. lia.
    + cbn in E. destruct j; discriminate.
Qed.
Lemma ending_speed v fin ps p w : In w (ending v fin ps p) -> p_speed w = v.
Proof.
  unfold ending. rewrite in_app_iff. intros [H|[<-|[]]]; [|reflexivity]. apply In_nth_error in H. destruct H as (i & H). apply opened_nth in H. tauto.
Qed.
Lemma ending_pos v fin ps p : map p_pos (ending v fin ps p) = ps ++ [p].
Proof. unfold ending. rewrite map_app, opened_pos. reflexivity. Qed.

(** Adding points one after the other, seen as positions *)
Definition open_at (v : Z) (ps : list pos) (l : list waypoint) : Prop := exists qs q, ps = qs ++ [q] /\ l = ending v 0 qs q.
Lemma open_add v ps l p : open_at v ps l -> open_at v (ps ++ [p]) (add_point v l p).
Proof. intros (qs & q & -> & ->). exists (qs ++ [q]), p. split; [reflexivity|apply add_point_ending]. Qed.

Lemma open_nodes v pm pos_of : forall ids ps l, (forall n, In n ids -> zget pm n = Some (pos_of n)) -> open_at v ps l ->
  open_at v (ps ++ map pos_of ids) (add_nodes v pm l ids).
Proof.
  induction ids as [|n ids IH]; intros ps l K O; cbn [add_nodes map].
  - rewrite app_nil_r. exact O.
  - rewrite (K n (or_introl eq_refl)). specialize (IH (ps ++ [pos_of n]) (add_point v l (pos_of n)) (fun x X => K x (or_intror X)) (open_add _ _ _ _ O)).
    rewrite <- app_assoc in IH. exact IH.
Qed.

(** The nodes of a path *)
Fixpoint expand (t : table) (path : list Z) : list Z :=
  match path with
  | [] => []
  | a :: r => match r with
              | [] => [a]
              | b :: _ => (match tget t (a, b) with Some s => s_nodes s | None => [] end) ++ expand t r
              end
  end.

Lemma open_path v m pos_of : forall path ps l, (forall n, In n (expand (m_table m) path) -> zget (positions (m_nodes m)) n = Some (pos_of n)) ->
  open_at v ps l -> open_at v (ps ++ map pos_of (expand (m_table m) path)) (add_path v m l path).
Proof.
  induction path as [|a path IH]; intros ps l K O; [cbn; rewrite app_nil_r; exact O|]. destruct path as [|b r].
  - cbn [expand add_path]. apply open_nodes; [exact K|exact O].
  - change (add_path v m l (a :: b :: r)) with (add_path v m (match tget (m_table m) (a, b) with Some s => add_nodes v (positions (m_nodes m)) l (s_nodes s) | None => l end) (b :: r)).
    change (expand (m_table m) (a :: b :: r)) with ((match tget (m_table m) (a, b) with Some s => s_nodes s | None => [] end) ++ expand (m_table m) (b :: r)) in *.
    rewrite map_app, app_assoc. apply IH; [intros n N; apply K, in_app_iff; right; exact N|].
    destruct (tget (m_table m) (a, b)) as [s|]; [|rewrite app_nil_r; exact O]. apply open_nodes; [intros n N; apply K, in_app_iff; left; exact N|exact O].
Qed.

(** *** Sections *)

Lemma stretch_next ws a b l x y : stretch ws a b l -> next_in l x y -> neighbours ws x y.
Proof.
  intros (r & mid & l1 & l2 & R & E & _) (k1 & k2 & K). exists r. split; [exact R|]. left. exists (l1 ++ k1), (k2 ++ l2).
  rewrite E, K, <- !app_assoc. reflexivity.
Qed.
Lemma section_next ws a b l x y : section_between ws a b l -> next_in l x y -> neighbours ws x y.
Proof.
  intros [S|S] N; [exact (stretch_next ws a b l x y S N)|].
  assert (N' : next_in (rev l) y x). { destruct N as (k1 & k2 & ->). exists (rev k2), (rev k1). rewrite rev_app_distr. cbn [rev]. rewrite <- !app_assoc. reflexivity. }
  destruct (stretch_next ws b a (rev l) y x S N') as (r & R & C). exists r. tauto.
Qed.
Lemma section_shape ws a b l : section_between ws a b l -> exists mid, l = a :: mid ++ [b].
Proof.
  intros [(r & mid & l1 & l2 & _ & _ & E & _)|(r & mid & l1 & l2 & _ & _ & E & _)]; [eauto|].
  exists (rev mid). apply (f_equal (@rev Z)) in E. rewrite rev_involutive in E. cbn [rev] in E. rewrite rev_app_distr in E. exact E.
Qed.
Lemma section_road ws a b l x : section_between ws a b l -> In x l -> exists r, road ws r /\ In x r.
Proof.
  intros [(r & mid & l1 & l2 & R & E & _)|(r & mid & l1 & l2 & R & E & _)] I; exists r; (split; [exact R|]); rewrite E; apply in_app_iff; right; apply in_app_iff; left; [exact I|].
  apply in_rev in I. exact I.
Qed.

Lemma length_of_app dist pos_of : forall l1 x l2, length_of dist pos_of (l1 ++ x :: l2) = length_of dist pos_of (l1 ++ [x]) + length_of dist pos_of (x :: l2).
Proof.
  induction l1 as [|a l1 IH]; intros x l2; [cbn [app length_of]; lia|]. destruct l1 as [|b l1].
  - cbn [app]. change (length_of dist pos_of (a :: x :: l2)) with (dist (pos_of a) (pos_of x) + length_of dist pos_of (x :: l2)).
    cbn [length_of]. lia.
  - specialize (IH x l2). cbn [app] in *. change (length_of dist pos_of (a :: b :: l1 ++ x :: l2)) with (dist (pos_of a) (pos_of b) + length_of dist pos_of (b :: l1 ++ x :: l2)).
    change (length_of dist pos_of (a :: b :: l1 ++ [x])) with (dist (pos_of a) (pos_of b) + length_of dist pos_of (b :: l1 ++ [x])). lia.
Qed.

Lemma next_in_cut (l1 l2 : list Z) x y : next_in (l1 ++ l2) x y -> next_in l1 x y \/ next_in l2 x y \/ (hd_error (rev l1) = Some x /\ hd_error l2 = Some y).
Proof.
  revert l2. induction l1 as [|a l1 IH]; intros l2 (k1 & k2 & E); [right; left; exists k1, k2; exact E|]. destruct k1 as [|c k1]; cbn [app] in E.
  - injection E as E1 E2. subst a. destruct l1 as [|b l1]; cbn [app] in E2.
    + right. right. rewrite E2. split; reflexivity.
    + injection E2 as E2 E3. subst b. left. exists [], l1. reflexivity.
  - injection E as E1 E2. subst c. destruct (IH l2) as [(u & v & H)|[H|(H1 & H2)]]; [exists k1, k2; exact E2| | |].
    + left. exists (a :: u), v. rewrite H. reflexivity.
    + right. left. exact H.
    + right. right. split; [|exact H2]. cbn [rev]. destruct (rev l1) as [|z r]; [discriminate|exact H1].
Qed.

Section File.
  Context (dist : pos -> pos -> Z) (dist_ok : metric dist) (ord : list Z -> list Z) (ord_ok : forall l, ord l = l \/ ord l = rev l).
  Context (ws : list way) (ns : list (Z * option pos)) (pos_of : Z -> pos) (good : good_file ws ns pos_of).
  Context (m : road_map) (BM : build dist ord ws ns = Built m).

  Lemma built_is : m = the_map dist ord ws ns pos_of.
  Proof using dist_ok ord_ok good BM. pose proof (build_good dist dist_ok ord ord_ok ws ns pos_of good) as E. rewrite BM in E. injection E as ->. reflexivity. Qed.

  (** The nodes of a way over sections *)
  Lemma expand_spec : forall a path b d, by_sections dist pos_of ws a path b d ->
    let nodes := expand (m_table m) path in
    hd_error nodes = Some a /\ hd_error (rev nodes) = Some b /\ along_roads ws nodes /\ by_sections dist pos_of ws a path b (length_of dist pos_of nodes)
    /\ (forall n, In n nodes -> path = [n] \/ exists r, road ws r /\ In n r).
  Proof using dist_ok ord_ok good BM.
    destruct (C61_sections dist ord ord_ok ws ns dist_ok pos_of good m BM) as (T1 & T2). cbv zeta.
    induction 1 as [a|a b c s l len S B IH].
    - cbn. split; [reflexivity|]. split; [reflexivity|]. split; [|split; [constructor|intros n [<-|[]]; left; reflexivity]].
      intros x y (k1 & k2 & E). exfalso. destruct k1 as [|? [|? ?]]; discriminate.
    - destruct (T2 a b s S) as (e & E). destruct (T1 a b e E) as (SE & DE). destruct IH as (H1 & H2 & H3 & H4 & H5).
      assert (L : exists r, l = b :: r) by (destruct B; eauto). destruct L as (r & ->).
      change (expand (m_table m) (a :: b :: r)) with ((match tget (m_table m) (a, b) with Some s => s_nodes s | None => [] end) ++ expand (m_table m) (b :: r)).
      rewrite E. destruct (section_shape _ _ _ _ SE) as (mid & EM). set (Y := expand (m_table m) (b :: r)) in *. clearbody Y.
      destruct Y as [|x X]; [discriminate|]. cbn in H1. injection H1 as ->.
      split; [rewrite EM; reflexivity|]. split.
      { rewrite rev_app_distr. destruct (rev (b :: X)) as [|z t]; [discriminate|exact H2]. }
      split; [|split].
      + intros u v N. destruct (next_in_cut _ _ _ _ N) as [N1|[N1|(N1 & N2)]].
        * right. exact (section_next _ _ _ _ _ _ SE N1).
        * apply H3, N1.
        * left. cbn in N2. rewrite EM in N1. change (a :: mid ++ [b]) with ((a :: mid) ++ [b]) in N1. rewrite rev_app_distr in N1. cbn in N1. congruence.
      + rewrite length_of_app. assert (Q : length_of dist pos_of (s_nodes e ++ [b]) = length_of dist pos_of (s_nodes e)).
        { rewrite EM. rewrite <- (app_comm_cons (mid ++ [b]) [b] a). rewrite <- app_assoc. cbn [app].
          change (a :: mid ++ [b; b]) with ((a :: mid) ++ b :: [b]). rewrite length_of_app. cbn [app length_of]. destruct dist_ok as (_ & R & _). rewrite R. lia. }
        rewrite Q. apply by_leg with b; [exact SE|exact H4].
      + intros n N. right. apply in_app_iff in N. destruct N as [N|N].
        * exact (section_road _ _ _ _ _ SE N).
        * destruct (H5 n N) as [Q|Q]; [|exact Q]. injection Q as -> _.
          apply (section_road _ a n (s_nodes e) n SE). rewrite EM. right. apply in_app_iff. right. left. reflexivity.
  Qed.

  Lemma places_In n p : In (n, p) (junction_places m) <-> junction ws n /\ p = pos_of n.
  Proof using dist_ok ord_ok good BM.
    unfold junction_places. rewrite in_flat_map. destruct (C61_junctions dist ord ws ns m BM) as (J & _).
    assert (PL : forall x, In x (planning (m_nodes m)) <-> zget (index (m_nodes m)) x <> None).
    { rewrite built_is. cbn [m_nodes the_map]. apply (li_known _ _ _ (load_spec (flags ws) ns)). }
    assert (PS : forall x, junction ws x -> zget (positions (m_nodes m)) x = Some (pos_of x)).
    { rewrite built_is. cbn [m_nodes the_map]. apply (pos_known ws ns pos_of good). }
    split.
    - intros (x & I & H). apply PL in I. apply J in I. destruct I as (I & _). rewrite (PS x I) in H. destruct H as [H|[]]. injection H as <- <-. auto.
    - intros (JN & ->). exists n. rewrite (PS n JN). split; [|left; reflexivity]. apply PL. rewrite built_is. cbn [m_nodes the_map].
      rewrite (idx_known ws ns pos_of good n JN). discriminate.
  Qed.

  Lemma node_pos n r : road ws r -> In n r -> zget (positions (m_nodes m)) n = Some (pos_of n).
  Proof using dist_ok ord_ok good BM.
    intros R I. rewrite built_is. cbn [m_nodes the_map]. apply road_In in R. destruct R as (w & W & <-). apply (node_facts ws ns pos_of good w n W I).
  Qed.
End File.

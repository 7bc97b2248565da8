(** Theorems about the lines along roads (C66). *)
From Coq Require Import List ZArith Lia Bool.
From Verif Require Import ZMap AStarModel AStarSpec AStarProps OsmMapModel OsmMapSpec OsmMapProofs OsmMapBuild OsmMapFacts OsmMapProps OsmWayProofs OsmWayProps
  OsmNearModel OsmNearProps OsmPlanModel OsmPlanSpec OsmPlanProofs OsmEgressModel OsmEgressProps OsmRoadModel OsmRoadProofs.
Import ListNotations.
Open Scope list_scope.
Open Scope Z_scope.

(** ** Specification *)

Section Spec.
  Context (dist : pos -> pos -> Z) (pos_of : Z -> pos) (ws : list way).

  Definition road_node (n : Z) : Prop := exists l, road ws l /\ In n l.
  (** A road node closest to a place, of those in some square around it *)
  Definition nearest (p : pos) (n : Z) : Prop :=
    road_node n /\ exists k, 1 <= k <= 10 /\ in_square k p (pos_of n)
      /\ forall c, road_node c -> in_square k p (pos_of c) -> dist p (pos_of n) <= dist p (pos_of c).
  (** No road is near. *)
  Definition deserted (p : pos) : Prop := forall c, road_node c -> ~ in_square 10 p (pos_of c).

  (** A line along roads from [s] or the node before it, over [e]; it ends there, unless [e] is a junction or the node
      next to [s]. *)
  Definition drawn (s e : Z) (l : list Z) : Prop :=
    along_roads ws l /\ (hd_error l = Some s \/ exists x r, l = x :: s :: r) /\ In e l
    /\ (hd_error (rev l) = Some e \/ junction ws e \/ neighbours ws e s).

  (** A node on a section that comes back to where it starts *)
  Definition looped (n : Z) : Prop := exists a l, section_between ws a a l /\ In n l.
  (** A node all whose sections have another one between the same junctions *)
  Definition lost (n : Z) : Prop := forall a b l, section_between ws a b l -> In n l -> exists l', section_between ws a b l' /\ l' <> l.

  (** The lines for the items: one, or none if there is a reason *)
  Inductive answered : list item -> list line -> Prop :=
  | ans_nil : answered [] []
  | ans_line : forall q qs s e l ls, nearest (i_from q) s -> nearest (i_to q) e -> drawn s e l -> answered qs ls ->
      answered (q :: qs) ((i_id q, l) :: ls)
  | ans_skip : forall q qs s e ls, nearest (i_from q) s -> nearest (i_to q) e -> lost s \/ lost e \/ looped s \/ ~ drive ws s e -> answered qs ls ->
      answered (q :: qs) ls.
End Spec.

(** ** Proofs *)

Lemma same_edge_some : forall ks1 ks2 k, same_edge ks1 ks2 = Some k -> In k ks1 /\ In k ks2.
Proof.
  induction ks1 as [|(a, b) ks1 IH]; intros ks2 k E; [discriminate|]. cbn [same_edge fst snd] in E. destruct (existsb _ ks2) eqn:X.
  - injection E as <-. apply existsb_exists in X. destruct X as ((c, d) & I & X). cbn [fst snd] in X. apply andb_true_iff in X. rewrite !Z.eqb_eq in X. destruct X as (-> & ->).
    split; [left; reflexivity|exact I].
  - destruct (IH _ _ E) as (A & B). split; [right; exact A|exact B].
Qed.
Lemma same_edge_none : forall ks1 ks2 k, same_edge ks1 ks2 = None -> In k ks1 -> ~ In k ks2.
Proof.
  induction ks1 as [|k' ks1 IH]; intros ks2 k E I; [destruct I|]. cbn [same_edge] in E. destruct (existsb _ ks2) eqn:X; [discriminate|]. destruct I as [->|I]; [|exact (IH _ _ E I)].
  intros J. rewrite <- not_true_iff_false in X. apply X. apply existsb_exists. exists k. split; [exact J|]. rewrite !Z.eqb_refl. reflexivity.
Qed.

Section Road.
  Context (dist : pos -> pos -> Z) (dist_ok : metric dist) (ord : list Z -> list Z) (ord_ok : forall l, ord l = l \/ ord l = rev l).
  Context (cells : list (Z * pos) -> list (Z * pos)) (cells_ok : forall l x, In x (cells l) <-> In x l).
  Context (seg_ord : list (Z * Z) -> list (Z * Z)) (seg_ok : forall l x, In x (seg_ord l) <-> In x l).
  Context (both : bool) (choose : list (Z * Z) -> Z) (choose_best : best_of choose).
  Context (ws : list way) (ns : list (Z * option pos)) (pos_of : Z -> pos) (good : good_file ws ns pos_of).
  Context (ids_pos : forall l n, road ws l -> In n l -> 0 < n).
  Context (m : road_map) (BM : build dist ord ws ns = Built m).

  Lemma all_places_In n p : In (n, p) (all_places m) <-> road_node ws n /\ p = pos_of n.
  Proof using dist_ok ord_ok good BM.
    unfold all_places. rewrite in_flat_map. split.
    - intros (x & _ & H). destruct (zget (positions (m_nodes m)) x) as [q|] eqn:E; [|destruct H]. destruct H as [H|[]]. injection H as -> ->.
      assert (R : road_node ws n).
      { apply on_road. destruct (Nat.lt_ge_cases 0 (passes ws n)) as [L|L]; [exact L|exfalso]. rewrite (built_is dist dist_ok ord ord_ok ws ns pos_of good m BM) in E. cbn [m_nodes the_map] in E.
        destruct (li_pos _ _ _ (load_spec (flags ws) ns) n p E) as (_ & F). apply F. apply flags_spec. lia. }
      split; [exact R|]. destruct R as (r & R & I). pose proof (node_pos dist dist_ok ord ord_ok ws ns pos_of good m BM n r R I). congruence.
    - intros ((r & R & I) & ->). pose proof (node_pos dist dist_ok ord ord_ok ws ns pos_of good m BM n r R I) as E. exists n. split; [|rewrite E; left; reflexivity].
      clear -E. revert E. generalize (positions (m_nodes m)). intros l. induction l as [|(k, v) l IH]; [discriminate|]. cbn [zget map fst]. destruct (Z.eqb_spec k n) as [->|N]; [left; reflexivity|right; auto].
  Qed.

  Lemma closest_nearest p a d : closest dist cells (all_places m) p = Some (a, d) -> nearest dist pos_of ws p a.
  Proof using dist_ok ord_ok cells_ok good BM.
    intros E. destruct (C63_square dist cells cells_ok (all_places m) p a d E) as (k & q & K & I & Q & D & MN & _).
    apply all_places_In in I. destruct I as (J & ->). split; [exact J|]. exists k. split; [exact K|]. split; [exact Q|]. intros c JC QC. rewrite <- D. apply (MN c); [|exact QC].
    apply all_places_In. auto.
  Qed.
  Lemma closest_deserted p : closest dist cells (all_places m) p = None -> deserted pos_of ws p.
  Proof using dist_ok ord_ok cells_ok good BM.
    intros E c J Q. apply (proj1 (C63_none dist cells cells_ok (all_places m) p) E (c, pos_of c)); [|exact Q]. apply all_places_In. auto.
  Qed.

  Lemma segment k n : In k (segments_of (m_table m) n) -> exists s, tget (m_table m) k = Some s /\ In n (s_nodes s).
  Proof using BM.
    intros I. apply segments_In in I. destruct I as (s & I & N). exists s. split; [exact (uniq_built dist ord ws ns m BM k s I)|exact N].
  Qed.
  Lemma no_segment n : segments_of (m_table m) n = [] -> lost ws n.
  Proof using dist_ok ord_ok good BM.
    intros E a b l S I. destruct (C61_sections dist ord ord_ok ws ns dist_ok pos_of good m BM) as (T1 & T2). destruct (T2 a b l S) as (s & T). exists (s_nodes s).
    split; [apply (T1 a b s T)|]. intros <-. assert (X : In (a, b) (segments_of (m_table m) n)) by (apply segments_In; exists s; split; [apply tget_In, T|exact I]). rewrite E in X. exact X.
  Qed.
  Lemma seg_nil l : seg_ord l = [] -> l = [].
  Proof using seg_ok. intros E. destruct l as [|x l]; [reflexivity|]. exfalso. apply (in_nil (a := x)). rewrite <- E. apply seg_ok. left. reflexivity. Qed.
  Lemma seg_cons l k r : seg_ord l = k :: r -> In k l.
  Proof using seg_ok. intros E. apply seg_ok. rewrite E. left. reflexivity. Qed.

  Lemma put_known id l : (forall n, In n l -> road_node ws n) -> put_line m id l = Some [(id, l)].
  Proof using dist_ok ord_ok good BM.
    intros K. unfold put_line. rewrite (proj2 (forallb_forall _ _)); [reflexivity|]. intros n I. destruct (K n I) as (r & R & J).
    unfold zhas. rewrite (node_pos dist dist_ok ord ord_ok ws ns pos_of good m BM n r R J). reflexivity.
  Qed.

  Lemma along_nodes l : along_roads ws l -> (exists x, In x l /\ road_node ws x) -> forall n, In n l -> road_node ws n.
  Proof using.
    intros A X. assert (ONE : forall x y, (x = y \/ neighbours ws x y) -> (road_node ws x <-> road_node ws y)).
    { intros x y [->|(r & R & [(k1 & k2 & ->)|(k1 & k2 & ->)])]; [tauto| |]; split; intros _; (eexists; split; [exact R|apply in_app_iff; right; cbn; auto]). }
    induction l as [|a l IH]; intros n I; [destruct I|]. destruct l as [|b l].
    - destruct X as (x & [<-|[]] & X). destruct I as [<-|[]]. exact X.
    - assert (A' : along_roads ws (b :: l)) by (intros y z (k1 & k2 & K); apply A; exists (a :: k1), k2; rewrite K; reflexivity).
      assert (AB : road_node ws a <-> road_node ws b) by (apply ONE, A; exists [], l; reflexivity).
      assert (X' : exists x, In x (b :: l) /\ road_node ws x). { destruct X as (x & [<-|XI] & X); [exists b; split; [left; reflexivity|tauto]|exists x; auto]. }
      specialize (IH A' X'). destruct I as [<-|I]; [apply AB, IH; left; reflexivity|apply IH, I].
  Qed.

  (** *** The best of some ways *)

  Definition cost_of (fuel : nat) (p q : pos) (ab : Z * Z) (len : Z) : Z := len + Z.quot (to_end dist m p (fst ab) + to_end dist m q (snd ab)) 1000.
  Lemma try_ways fuel p q : forall abs acc res, fold_left (try_way dist both choose fuel m p q) abs (Some acc) = Some res ->
    match res with
    | None => acc = None /\ forall ab, In ab abs -> road_way dist both choose fuel m (fst ab) (snd ab) = NoWay
    | Some (c, path) =>
        (acc = Some (c, path) \/ exists ab len, In ab abs /\ road_way dist both choose fuel m (fst ab) (snd ab) = Way len path /\ c = cost_of fuel p q ab len)
        /\ (forall c0 p0, acc = Some (c0, p0) -> c <= c0)
    end
    /\ forall ab, In ab abs -> road_way dist both choose fuel m (fst ab) (snd ab) = NoWay
         \/ exists len ids c path, road_way dist both choose fuel m (fst ab) (snd ab) = Way len ids /\ res = Some (c, path) /\ c <= cost_of fuel p q ab len.
  Proof using.
    assert (NONE : forall abs, fold_left (try_way dist both choose fuel m p q) abs None = None) by (induction abs; auto).
    induction abs as [|ab abs IH]; intros acc res E.
    - cbn in E. injection E as <-. split; [|intros ab []]. destruct acc as [(c, path)|]; [|split; [reflexivity|intros ab []]]. split; [left; reflexivity|]. intros c0 p0 H. injection H as <- <-. lia.
    - cbn [fold_left] in E. unfold try_way at 2 in E. fold (cost_of fuel p q ab) in E.
      destruct (road_way dist both choose fuel m (fst ab) (snd ab)) as [| |len ids|] eqn:R; [rewrite NONE in E; discriminate| | |rewrite NONE in E; discriminate].
      + destruct (IH _ _ E) as (A & B). split; [|intros x [<-|I]; [left; exact R|exact (B x I)]]. destruct res as [(c, path)|].
        * destruct A as ([A|(x & len & I & A)] & C); (split; [|exact C]); [left; exact A|right; exists x, len; split; [right; exact I|exact A]].
        * destruct A as (A & C). split; [exact A|]. intros x [<-|I]; [exact R|exact (C x I)].
      + change (len + Z.quot (to_end dist m p (fst ab) + to_end dist m q (snd ab)) 1000) with (cost_of fuel p q ab len) in E.
        assert (TAKE : fold_left (try_way dist both choose fuel m p q) abs (Some (Some (cost_of fuel p q ab len, ids))) = Some res -> (forall c0 p0, acc = Some (c0, p0) -> cost_of fuel p q ab len < c0) ->
          match res with
          | None => acc = None /\ forall x, In x (ab :: abs) -> road_way dist both choose fuel m (fst x) (snd x) = NoWay
          | Some (c, path) => (acc = Some (c, path) \/ exists x len, In x (ab :: abs) /\ road_way dist both choose fuel m (fst x) (snd x) = Way len path /\ c = cost_of fuel p q x len)
              /\ (forall c0 p0, acc = Some (c0, p0) -> c <= c0)
          end /\ forall x, In x (ab :: abs) -> road_way dist both choose fuel m (fst x) (snd x) = NoWay
               \/ exists len ids c path, road_way dist both choose fuel m (fst x) (snd x) = Way len ids /\ res = Some (c, path) /\ c <= cost_of fuel p q x len).
        { intros E' LT. destruct (IH _ _ E') as (A & B). destruct res as [(c, path)|]; [|destruct A; discriminate]. destruct A as (A & C).
          specialize (C _ _ eq_refl). split.
          - split; [right|intros c0 p0 H; specialize (LT _ _ H); lia]. destruct A as [A|(x & len' & I & A)]; [|exists x, len'; split; [right; exact I|exact A]].
            injection A as <- <-. exists ab, len. split; [left; reflexivity|]. auto.
          - intros x [<-|I]; [right|exact (B x I)]. exists len, ids, c, path. auto. }
        destruct acc as [(c0, p0)|]; [|apply TAKE; [exact E|discriminate]].
        destruct (Z.ltb_spec (cost_of fuel p q ab len) c0) as [L|L]; [apply TAKE; [exact E|intros ? ? H; injection H as <- <-; exact L]|]. clear TAKE.
        destruct (IH _ _ E) as (A & B). destruct res as [(c, path)|]; [|destruct A; discriminate]. destruct A as (A & C). specialize (C _ _ eq_refl) as C'. split.
        * split; [|exact C]. destruct A as [A|(x & len' & I & A)]; [left; exact A|right; exists x, len'; split; [right; exact I|exact A]].
        * intros x [<-|I]; [right|exact (B x I)]. exists len, ids, c, path. split; [exact R|]. split; [reflexivity|lia].
  Qed.

  Lemma road_way_by fuel a b len ids : junction ws a -> road_way dist both choose fuel m a b = Way len ids ->
    exists d, by_sections dist pos_of ws a ids b d /\ NoDup ids /\ d <= 1000 * len + 999 * (Z.of_nat (length ids) - 1).
  Proof using dist_ok ord_ok choose_best good BM.
    unfold road_way. intros J. destruct (Z.eqb_spec a b) as [->|N].
    - intros E. injection E as <- <-. exists 0. split; [constructor|]. split; [constructor; [intros []|constructor]|cbn; lia].
    - apply (C62_way dist dist_ok ord ord_ok both choose choose_best ws ns pos_of good m fuel a b len ids BM).
  Qed.
  Lemma road_way_none fuel a b : junction ws a -> junction ws b -> road_way dist both choose fuel m a b = NoWay -> ~ drive ws a b.
  Proof using dist_ok ord_ok choose_best good BM.
    unfold road_way. intros JA JB. destruct (Z.eqb_spec a b) as [->|N]; [discriminate|].
    apply (C62_none dist dist_ok ord ord_ok both choose choose_best ws ns pos_of good m fuel a b BM JA JB).
  Qed.

  (** *** Long lines *)

  Lemma other_way a b t : tget (m_table m) (a, b) = Some t -> exists t', tget (m_table m) (b, a) = Some t' /\ forall n, In n (s_nodes t) -> In n (s_nodes t').
  Proof using dist_ok ord_ok good BM.
    intros E. destruct (Z.eq_dec a b) as [->|N]; [exists t; auto|].
    destruct (C61_mirror dist ord ord_ok ws ns dist_ok pos_of good m BM a b t N E) as (t' & E' & R & _). exists t'. split; [exact E'|]. intros n I. rewrite R, <- in_rev. exact I.
  Qed.

  Lemma long_line_ok k1 k2 t1 t2 s e ids d x y : tget (m_table m) k1 = Some t1 -> In s (s_nodes t1) -> tget (m_table m) k2 = Some t2 -> In e (s_nodes t2) ->
    fst k1 <> snd k1 \/ s = x -> x = fst k1 \/ x = snd k1 -> y = fst k2 \/ y = snd k2 -> by_sections dist pos_of ws x ids y d -> NoDup ids ->
    exists l1 l2, long_line m k1 k2 s e ids = (l1 ++ expand (m_table m) ids ++ l2, true)
      /\ (forall n, In n l1 -> In n (s_nodes t1)) /\ (forall n, In n l2 -> In n (s_nodes t2))
      /\ hd_error (l1 ++ expand (m_table m) ids ++ l2) = Some s /\ along_roads ws (l1 ++ expand (m_table m) ids ++ l2)
      /\ In e (l1 ++ expand (m_table m) ids ++ l2)
      /\ (hd_error (rev (l1 ++ expand (m_table m) ids ++ l2)) = Some e \/ junction ws e).
  Proof using dist_ok ord_ok good BM ids_pos.
    intros T1 S T2 E NL X Y B ND. destruct k1 as (a1, b1), k2 as (a2, b2). cbn [fst snd] in *.
    assert (JX : junction ws x). { pose proof (section_junctions ws a1 b1 _ (sec dist dist_ok ord ord_ok ws ns pos_of good m BM _ _ T1)) as (JA & JB). destruct X as [->| ->]; assumption. }
    assert (HI : exists r, ids = x :: r) by (inversion B; eauto). destruct HI as (r & EI).
    assert (LB : List.last ids x = y).
    { clear -B. assert (G : forall z, List.last ids z = y). { induction B as [a|a b c s l len S B IH]; intros z; [reflexivity|]. inversion B; subst; exact (IH z). } apply G. }
    set (o1 := if b1 =? x then a1 else b1).
    assert (F : exists t, tget (m_table m) (o1, x) = Some t /\ In s (s_nodes t) /\ (o1 <> x \/ s = x) /\ forall n, In n (s_nodes t) -> In n (s_nodes t1)).
    { unfold o1. destruct (Z.eqb_spec b1 x) as [->|N].
      - exists t1. split; [exact T1|]. split; [exact S|]. split; [exact NL|auto].
      - assert (x = a1) as -> by (destruct X; congruence). destruct (C61_mirror dist ord ord_ok ws ns dist_ok pos_of good m BM a1 b1 t1 ltac:(congruence) T1) as (t' & E' & R & _).
        exists t'. split; [exact E'|]. split; [rewrite R, <- in_rev; exact S|]. split; [left; exact N|]. intros n I. rewrite R, <- in_rev in I. exact I. }
    destruct F as (t & TF & SF & OX & FI).
    assert (LF : let l := on_segment (m_table m) (o1, x) false s x in hd_error l = Some s /\ hd_error (rev l) = Some x /\ along_roads ws l /\ forall n, In n l -> In n (s_nodes t)).
    { destruct (Z.eq_dec o1 x) as [OE|ON]; [|exact (leg_first dist dist_ok ord ord_ok ws ns pos_of good ids_pos m BM o1 x t s TF SF ON)].
      destruct OX as [OX|OX]; [congruence|]. subst s. rewrite OE in *. rewrite (leg_all dist dist_ok ord ord_ok ws ns pos_of good ids_pos m BM x x t x TF (or_introl eq_refl)).
      pose proof (sec dist dist_ok ord ord_ok ws ns pos_of good m BM _ _ TF) as ST. destruct (section_shape _ _ _ _ ST) as (mid & Q). cbn [fst snd] in Q. cbv zeta.
      split; [rewrite Q; reflexivity|]. split; [rewrite Q; cbn [rev]; rewrite rev_app_distr; reflexivity|]. split; [exact (along_section _ _ _ _ ST)|auto]. }
    destruct LF as (F1 & F2 & F3 & F4).
    set (o2 := if y =? a2 then b2 else a2).
    assert (L : exists t, tget (m_table m) (y, o2) = Some t /\ In e (s_nodes t) /\ (forall n, In n (s_nodes t) -> In n (s_nodes t2))).
    { unfold o2. destruct (Z.eqb_spec y a2) as [->|N]; [exists t2; auto|]. assert (y = b2) as -> by (destruct Y; congruence).
      destruct (C61_mirror dist ord ord_ok ws ns dist_ok pos_of good m BM a2 b2 t2 ltac:(congruence) T2) as (t' & E' & R & _).
      exists t'. split; [exact E'|]. split; [rewrite R, <- in_rev; exact E|]. intros n I. rewrite R, <- in_rev in I. exact I. }
    destruct L as (u & TL & EL & LI). destruct (leg_last dist dist_ok ord ord_ok ws ns pos_of good ids_pos m BM y o2 u e TL EL) as (L1 & L2 & L3 & L4 & L5).
    destruct (legs_expand dist dist_ok ord ord_ok ws ns pos_of good ids_pos m BM x ids x y d B ND (or_introl eq_refl) JX) as (k & LK & EK).
    destruct (expand_spec dist dist_ok ord ord_ok ws ns pos_of good m BM x ids y d B) as (E1 & E2 & E3 & _).
    assert (LL : long_line m (a1, b1) (a2, b2) s e ids = (on_segment (m_table m) (o1, x) false s x ++ k ++ on_segment (m_table m) (y, o2) false y e, true)).
    { unfold long_line. rewrite EI at 1. rewrite LB, LK. cbn [fst snd]. fold o1 o2. destruct (on_segment (m_table m) (o1, x) false s x); [discriminate|].
      destruct (on_segment (m_table m) (y, o2) false y e); [discriminate|]. reflexivity. }
    rewrite LL. set (first := on_segment (m_table m) (o1, x) false s x) in *. set (fin := on_segment (m_table m) (y, o2) false y e) in *. clearbody first fin.
    destruct fin as [|y' fin]; [discriminate|]. cbn in L1. injection L1 as ->. destruct first as [|s' first]; [discriminate|]. cbn in F1. injection F1 as ->.
    exists (s :: first), fin. assert (EQ : k ++ y :: fin = expand (m_table m) ids ++ fin) by (rewrite <- EK, <- app_assoc; reflexivity). rewrite EQ.
    assert (ALL : along_roads ws ((s :: first) ++ expand (m_table m) ids ++ fin)).
    { apply (along_join ws _ _ x); [exact F3| |exact F2|].
      - rewrite <- EQ. apply along_app; [rewrite EK; exact E3|exact L2].
      - destruct (expand (m_table m) ids); [discriminate|exact E1]. }
    split; [reflexivity|]. split; [intros n I; apply FI, F4, I|]. split; [intros n I; apply LI, L5; right; exact I|]. split; [reflexivity|]. split; [exact ALL|]. split.
    - rewrite <- EQ. apply in_app_iff. right. apply in_app_iff. right. exact L3.
    - rewrite <- EQ. destruct L4 as [->|L4].
      + right. pose proof (section_junctions ws y o2 _ (sec dist dist_ok ord ord_ok ws ns pos_of good m BM _ _ TL)) as (JA & _). exact JA.
      + left. rewrite !rev_app_distr. destruct (rev (y :: fin)); [discriminate|exact L4].
  Qed.

  (** *** One item *)

  (** The ends of the sections that a line runs between, and the way from one to the other *)
  Definition over (p q : pos) (s e : Z) (l : list Z) : Prop :=
    (exists a b c, section_between ws a b c /\ In s c /\ In e c)
    \/ exists a1 b1 c1 a2 b2 c2 x y ids d l1 nodes l2,
         section_between ws a1 b1 c1 /\ In s c1 /\ section_between ws a2 b2 c2 /\ In e c2 /\ (x = a1 \/ x = b1) /\ (y = a2 \/ y = b2)
         /\ by_sections dist pos_of ws x ids y d /\ l = l1 ++ nodes ++ l2
         /\ (forall n, In n l1 -> In n c1) /\ (forall n, In n l2 -> In n c2) /\ hd_error nodes = Some x /\ hd_error (rev nodes) = Some y
         /\ by_sections dist pos_of ws x ids y (length_of dist pos_of nodes)
         /\ (short_roads ord ws -> forall x' y' ids' d', x' = a1 \/ x' = b1 -> y' = a2 \/ y' = b2 -> by_sections dist pos_of ws x' ids' y' d' ->
               dist p (pos_of x) + d + dist q (pos_of y)
               <= dist p (pos_of x') + d' + dist q (pos_of y') + 999 * Z.of_nat (length ids) + 1000 * (Z.of_nat (length ids') - 1)).

  Lemma by_drive a ids b d : by_sections dist pos_of ws a ids b d -> drive ws a b.
  Proof using. induction 1 as [a|a b c s l len S B IH]; [constructor|]. apply (drive_trans ws a b c); [|exact IH]. apply (section_drive ws a b s b S). destruct (section_shape _ _ _ _ S) as (mid & ->). right. apply in_app_iff. right. left. reflexivity. Qed.

  Lemma way_bound fuel a b len ids : short_roads ord ws -> road_way dist both choose fuel m a b = Way len ids ->
    forall l' d', by_sections dist pos_of ws a l' b d' -> 1000 * len <= d' + 1000 * (Z.of_nat (length l') - 1).
  Proof using dist_ok ord_ok choose_best good BM.
    intros SR W l' d' B'. destruct (sections_route dist dist_ok ord ord_ok ws ns pos_of SR a l' b d' B') as (len' & R & LE').
    assert (LP : (1 <= length l')%nat) by (inversion B'; cbn; lia).
    assert (D0 : 0 <= d'). { clear -B' dist_ok. induction B' as [|a b c s l len S B IH]; [lia|]. pose proof (section_ends dist dist_ok pos_of ws a b s S). destruct dist_ok as (P & _). specialize (P (pos_of a) (pos_of b)). lia. }
    unfold road_way in W. destruct (Z.eqb_spec a b) as [->|N]; [injection W as <- <-; lia|].
    assert (X : exists i j, zget (index (m_nodes m)) a = Some i /\ zget (index (m_nodes m)) b = Some j).
    { unfold shortest in W. destruct (zget _ a) as [i|]; [|discriminate]. destruct (zget _ b) as [j|]; [|discriminate]. eauto. }
    destruct X as (i & j & EA & EB). destruct (C61_junctions dist ord ws ns m BM) as (J & _).
    assert (JA : junction ws a) by (apply J; congruence). assert (JB : junction ws b) by (apply J; congruence).
    pose proof (C62_nearly_shortest_graph dist dist_ok ord ord_ok both choose choose_best ws ns pos_of good m fuel a b len ids i j BM W EA EB) as G.
    rewrite (built_is dist dist_ok ord ord_ok ws ns pos_of good m BM) in *. cbn [m_nodes m_edges the_map] in *.
    rewrite (idx_known ws ns pos_of good a JA) in EA. injection EA as <-. rewrite (idx_known ws ns pos_of good b JB) in EB. injection EB as <-.
    specialize (G _ _ R). rewrite map_length in G. lia.
  Qed.

  Lemma road_item_ok fuel q o : road_item dist cells seg_ord both choose fuel m q = o ->
    match o with
    | Stuck => True
    | Fail => deserted pos_of ws (i_from q) \/ deserted pos_of ws (i_to q) \/ exists s, nearest dist pos_of ws (i_from q) s /\ looped ws s
    | Lines ls => exists s e, nearest dist pos_of ws (i_from q) s /\ nearest dist pos_of ws (i_to q) e
        /\ ((ls = [] /\ (lost ws s \/ lost ws e \/ looped ws s \/ ~ drive ws s e))
            \/ exists l, ls = [(i_id q, l)] /\ drawn ws s e l /\ over (i_from q) (i_to q) s e l)
    end.
  Proof using dist_ok ord_ok cells_ok seg_ok choose_best good BM ids_pos.
    intros <-. unfold road_item.
    destruct (closest dist cells (all_places m) (i_from q)) as [(s, ds)|] eqn:CS; [|left; apply closest_deserted, CS].
    destruct (closest dist cells (all_places m) (i_to q)) as [(e, de)|] eqn:CE; [|right; left; apply closest_deserted, CE].
    apply closest_nearest in CS, CE.
    destruct (seg_ord (segments_of (m_table m) s)) as [|k1 r1] eqn:K1.
    { exists s, e. split; [exact CS|]. split; [exact CE|]. left. split; [reflexivity|]. left. apply no_segment, seg_nil, K1. }
    destruct (seg_ord (segments_of (m_table m) e)) as [|k2 r2] eqn:K2.
    { exists s, e. split; [exact CS|]. split; [exact CE|]. left. split; [reflexivity|]. right. left. apply no_segment, seg_nil, K2. }
    destruct (same_edge (k1 :: r1) (k2 :: r2)) as [k|] eqn:SE.
    - apply same_edge_some in SE. rewrite <- K1, <- K2 in SE. destruct SE as (I1 & I2). apply (seg_ok (segments_of (m_table m) s)) in I1. apply (seg_ok (segments_of (m_table m) e)) in I2. apply segment in I1, I2.
      destruct I1 as (t & T & IS). destruct I2 as (t' & T' & IE). assert (t' = t) as -> by congruence. clear T'. destruct k as (a, b). cbn [fst snd].
      pose proof (sec dist dist_ok ord ord_ok ws ns pos_of good m BM _ _ T) as S. cbn [fst snd] in S.
      pose proof (sec_pos dist dist_ok ord ord_ok ws ns pos_of good ids_pos m BM _ _ s T IS) as SP. pose proof (sec_pos dist dist_ok ord ord_ok ws ns pos_of good ids_pos m BM _ _ e T IE) as EP.
      assert (ONE : forall a b t, tget (m_table m) (a, b) = Some t -> In s (s_nodes t) -> In e (s_nodes t) -> on_segment (m_table m) (a, b) true s e <> [] ->
        drawn ws s e (on_segment (m_table m) (a, b) true s e)).
      { clear a b t T IS IE S. intros a b t T IS IE. unfold on_segment. rewrite T. pose proof (sec dist dist_ok ord ord_ok ws ns pos_of good m BM _ _ T) as S. cbn [fst snd] in S.
        destruct (s_nodes t) as [|n0 r] eqn:EN; [congruence|]. intros NE. destruct (extra_line s e SP EP (n0 :: r) n0 eq_refl IE NE) as (x & p & EQ & X & NX & EI & EL). rewrite EQ.
        split; [|split; [right; eauto|split; [exact EI|]]].
        - intros y z (k1' & k2' & K). destruct k1' as [|c k1']; cbn [app] in K.
          + injection K as <- <- <-. destruct X as [X|X]; [left; exact X|right]. exact (section_next ws a b _ _ _ S X).
          + injection K as <- K. right. apply (section_next ws a b _ _ _ S). apply NX. exists k1', k2'. exact K.
        - destruct EL as [EL|EL]; [left; exact EL|right; right]. exact (section_next ws a b _ _ _ S EL). }
      assert (OV : forall l, over (i_from q) (i_to q) s e l) by (intros l; left; exists a, b, (s_nodes t); auto).
      assert (PUT : forall l, l <> [] -> drawn ws s e l -> lines_of (put_line m (i_id q) l) = Lines [(i_id q, l)]).
      { intros l _ (A & _ & IE' & _). rewrite put_known; [reflexivity|]. apply (along_nodes l A). exists e. split; [exact IE'|]. apply CE. }
      destruct (on_segment (m_table m) (a, b) true s e) as [|n1 l1] eqn:O1.
      + destruct (Z.eq_dec a b) as [->|NAB].
        * rewrite O1. exists s, e. split; [exact CS|]. split; [exact CE|]. left. split; [reflexivity|]. right. right. left. exists b, (s_nodes t). auto.
        * destruct (C61_mirror dist ord ord_ok ws ns dist_ok pos_of good m BM a b t NAB T) as (t' & T' & R & _).
          assert (NE : on_segment (m_table m) (b, a) true s e <> []).
          { destruct (section_shape _ _ _ _ S) as (mid & Q). pose proof (section_NoDup ws a b _ S NAB) as ND.
            unfold on_segment in O1 |- *. rewrite T in O1. rewrite T', R. rewrite Q in O1. destruct (rev (s_nodes t)) as [|n1 r] eqn:RV; [apply (f_equal (@length Z)) in RV; rewrite rev_length, Q in RV; discriminate|].
            destruct (extra_either s e (s_nodes t) a n1 SP EP ND IS IE) as [H|H]; [rewrite Q; reflexivity|rewrite RV; reflexivity| |].
            - exfalso. apply H. rewrite Q. exact O1.
            - rewrite RV in H. exact H. }
          pose proof (ONE b a t' T' ltac:(rewrite R, <- in_rev; exact IS) ltac:(rewrite R, <- in_rev; exact IE) NE) as D.
          destruct (on_segment (m_table m) (b, a) true s e) as [|n2 l2] eqn:O2; [congruence|]. rewrite PUT; [|discriminate|exact D].
          exists s, e. split; [exact CS|]. split; [exact CE|]. right. exists (n2 :: l2). auto.
      + pose proof (ONE a b t T IS IE ltac:(rewrite O1; discriminate)) as D. rewrite O1 in D. rewrite PUT; [|discriminate|exact D].
        exists s, e. split; [exact CS|]. split; [exact CE|]. right. exists (n1 :: l1). auto.
    - apply seg_cons in K1, K2. apply segment in K1, K2. destruct K1 as (t1 & T1 & IS). destruct K2 as (t2 & T2 & IE).
      pose proof (sec dist dist_ok ord ord_ok ws ns pos_of good m BM _ _ T1) as S1. pose proof (sec dist dist_ok ord ord_ok ws ns pos_of good m BM _ _ T2) as S2.
      pose proof (section_junctions ws _ _ _ S1) as (JA1 & JB1). pose proof (section_junctions ws _ _ _ S2) as (JA2 & JB2).
      destruct (fold_left _ _ _) as [res|] eqn:FL; [|exact I]. apply try_ways in FL. destruct FL as (R & ALL). destruct res as [(c, path)|].
      + destruct R as ([R|(ab & len & IA & W & C)] & _); [discriminate|].
        assert (XY : (fst ab = fst k1 \/ fst ab = snd k1) /\ (snd ab = fst k2 \/ snd ab = snd k2)) by (cbn in IA; destruct IA as [<-|[<-|[<-|[<-|[]]]]]; cbn; auto).
        destruct XY as (X & Y). assert (JX : junction ws (fst ab)) by (destruct X as [-> | ->]; assumption).
        destruct (road_way_by fuel _ _ _ _ JX W) as (d & B & ND & LE). destruct path as [|front r]; [inversion B|].
        assert (C1 : (fst k1 = snd k1 /\ s <> fst ab) \/ (fst k1 <> snd k1 \/ s = fst ab)) by (destruct (Z.eq_dec (fst k1) (snd k1)), (Z.eq_dec s (fst ab)); auto).
        destruct C1 as [(LP & NS)|OK].
        * assert (LO : looped ws s) by (exists (fst k1), (s_nodes t1); split; [rewrite LP at 2; exact S1|exact IS]).
          assert (EF : front = fst ab) by (inversion B; reflexivity). subst front.
          assert (LL : long_line m k1 k2 s e (fst ab :: r) = ([], false)); [|rewrite LL; right; right; exists s; auto].
          unfold long_line. destruct k1 as (a1, b1). cbn [fst snd] in *. subst b1. assert (FA : fst ab = a1) by (destruct X; assumption). rewrite FA in *. rewrite Z.eqb_refl.
          unfold on_segment at 1. rewrite T1. destruct (section_shape _ _ _ _ S1) as (mid & Q).
          assert (SP : 0 < s) by exact (sec_pos dist dist_ok ord ord_ok ws ns pos_of good ids_pos m BM _ _ s T1 IS).
          assert (AP : 0 < a1) by (apply (sec_pos dist dist_ok ord ord_ok ws ns pos_of good ids_pos m BM _ _ a1 T1); rewrite Q; left; reflexivity).
          rewrite Q. cbn [scan]. rewrite s_leb by exact SP. cbn [orb]. rewrite (proj2 (Z.eqb_neq a1 s)) by congruence. rewrite (proj2 (Z.ltb_lt 0 a1)) by exact AP. rewrite Z.eqb_refl. reflexivity.
        * destruct (long_line_ok k1 k2 t1 t2 s e (front :: r) d (fst ab) (snd ab) T1 IS T2 IE OK X Y B ND) as (l1 & l2 & LL & I1 & I2 & H1 & H2 & H3 & H4).
          rewrite LL. set (l := l1 ++ expand (m_table m) (front :: r) ++ l2) in *.
          rewrite put_known; [|apply (along_nodes l H2); exists e; split; [exact H3|apply CE]]. exists s, e. split; [exact CS|]. split; [exact CE|]. right. exists l. split; [reflexivity|].
          split; [split; [exact H2|split; [left; exact H1|split; [exact H3|destruct H4 as [H4|H4]; auto]]]|]. right.
          destruct (expand_spec dist dist_ok ord ord_ok ws ns pos_of good m BM _ _ _ d B) as (E1 & E2 & E3 & E4 & _).
          exists (fst k1), (snd k1), (s_nodes t1), (fst k2), (snd k2), (s_nodes t2), (fst ab), (snd ab), (front :: r), d, l1, (expand (m_table m) (front :: r)), l2.
          do 13 (split; [first [assumption|reflexivity]|]). intros SR x' y' ids' d' X' Y' B'.
          assert (IA' : In (x', y') [(fst k1, fst k2); (fst k1, snd k2); (snd k1, fst k2); (snd k1, snd k2)]) by (destruct X' as [-> | ->], Y' as [-> | ->]; cbn; auto).
          assert (JX' : junction ws x') by (destruct X' as [-> | ->]; assumption). assert (JY' : junction ws y') by (destruct Y' as [-> | ->]; assumption).
          assert (JY : junction ws (snd ab)) by (destruct Y as [-> | ->]; assumption).
          destruct (ALL _ IA') as [NW|(len' & ids'' & c' & path' & W' & EQ & LEc)]; [exfalso; exact (road_way_none fuel x' y' JX' JY' NW (by_drive _ _ _ _ B'))|].
          injection EQ as <- <-. cbn [fst snd] in W'. pose proof (way_bound fuel x' y' len' ids'' SR W' ids' d' B') as WB. rewrite C in LEc. unfold cost_of in LEc. cbn [fst snd] in LEc.
          assert (TE : forall p n, junction ws n -> to_end dist m p n = dist p (pos_of n)).
          { intros p n J. unfold to_end. rewrite (built_is dist dist_ok ord ord_ok ws ns pos_of good m BM). cbn [m_nodes the_map]. rewrite (pos_known ws ns pos_of good n J). reflexivity. }
          rewrite !TE in LEc by assumption. destruct dist_ok as (P & _).
          pose proof (P (i_from q) (pos_of (fst ab))). pose proof (P (i_to q) (pos_of (snd ab))). pose proof (P (i_from q) (pos_of x')). pose proof (P (i_to q) (pos_of y')).
          revert LEc LE WB. generalize (Z.of_nat (length (front :: r))), (Z.of_nat (length ids')). intros n1 n2 LEc LE WB.
          Z.to_euclidean_division_equations. lia.
      + destruct R as (_ & R). exists s, e. split; [exact CS|]. split; [exact CE|]. left. split; [reflexivity|]. right. right. right. intros D.
        apply (road_way_none fuel (fst k1) (fst k2) JA1 JA2 (R (fst k1, fst k2) (or_introl eq_refl))).
        apply (drive_trans ws _ s); [apply (section_drive ws _ _ _ _ S1 IS)|]. apply (drive_trans ws _ e); [exact D|]. apply drive_sym. apply (section_drive ws _ _ _ _ S2 IE).
  Qed.

  (** C66: a request gets an answer with its id, to its sender, with a line for each item for which there is one; or
      none, if for an item no road is near or the start is on a closed section. *)
  Theorem C66_answered : forall fuel sender id qs out, answer_points dist cells seg_ord both choose fuel (Some m) sender id qs = Some out ->
    (exists ls, out = [(sender, (id, ls))] /\ answered dist pos_of ws qs ls)
    \/ (out = [] /\ exists q, In q qs /\ (deserted pos_of ws (i_from q) \/ deserted pos_of ws (i_to q)
                                          \/ exists s, nearest dist pos_of ws (i_from q) s /\ looped ws s)).
  Proof using dist_ok ord_ok cells_ok seg_ok choose_best good BM ids_pos.
    intros fuel sender id qs out E. unfold answer_points in E.
    assert (G : match road_items dist cells seg_ord both choose fuel m qs with
                | Stuck => True
                | Fail => exists q, In q qs /\ (deserted pos_of ws (i_from q) \/ deserted pos_of ws (i_to q) \/ exists s, nearest dist pos_of ws (i_from q) s /\ looped ws s)
                | Lines ls => answered dist pos_of ws qs ls
                end).
    { clear E. induction qs as [|q qs IH]; cbn [road_items]; [constructor|]. pose proof (road_item_ok fuel q _ eq_refl) as Q.
      destruct (road_item dist cells seg_ord both choose fuel m q) as [| |l]; [exact I|exists q; split; [left; reflexivity|exact Q]|].
      destruct (road_items dist cells seg_ord both choose fuel m qs) as [| |k]; [exact I|destruct IH as (q' & I' & IH); exists q'; split; [right; exact I'|exact IH]|].
      destruct Q as (s & e & NS & NE & [(-> & Q)|(l' & -> & D & _)]); cbn [app]; [exact (ans_skip dist pos_of ws q qs s e k NS NE Q IH)|exact (ans_line dist pos_of ws q qs s e l' k NS NE D IH)]. }
    destruct (road_items dist cells seg_ord both choose fuel m qs) as [| |ls]; [discriminate| |]; injection E as <-; [right; auto|left; eauto].
  Qed.

  (** C66: a line lies on one section, or leads over the ends of the sections of its first and last node for which the
      way and the distances of the places from them are shortest, but for a metre each. *)
  Theorem C66_short : forall fuel sender id q l, answer_points dist cells seg_ord both choose fuel (Some m) sender id [q] = Some [(sender, (id, [(i_id q, l)]))] ->
    exists s e, nearest dist pos_of ws (i_from q) s /\ nearest dist pos_of ws (i_to q) e /\ over (i_from q) (i_to q) s e l.
  Proof using dist_ok ord_ok cells_ok seg_ok choose_best good BM ids_pos.
    intros fuel sender id q l E. unfold answer_points in E. cbn [road_items] in E. pose proof (road_item_ok fuel q _ eq_refl) as Q.
    destruct (road_item dist cells seg_ord both choose fuel m q) as [| |ls]; try discriminate. injection E as E. rewrite app_nil_r in E. subst ls.
    destruct Q as (s & e & NS & NE & [(H & _)|(l' & H & _ & O)]); [discriminate|]. injection H as <-. exists s, e. auto.
  Qed.

  (** C66: and the service comes to an answer. *)
  Theorem C66_comes : forall sender id qs, exists n, forall fuel, (n <= fuel)%nat -> answer_points dist cells seg_ord both choose fuel (Some m) sender id qs <> None.
  Proof using dist_ok ord_ok cells_ok seg_ok choose_best good BM.
    intros sender id qs.
    assert (WAY : forall a b, (exists c s, section_between ws a c s) -> junction ws b -> exists n, forall fuel, (n <= fuel)%nat ->
      road_way dist both choose fuel m a b = NoWay \/ exists len ids, road_way dist both choose fuel m a b = Way len ids).
    { intros a b SA JB. unfold road_way. destruct (a =? b); [exists O; eauto|]. destruct SA as (c & s & SA). pose proof (section_junctions ws a c s SA) as (JA & _).
      assert (X : exists i j, zget (index (m_nodes m)) a = Some i /\ zget (index (m_nodes m)) b = Some j).
      { rewrite (built_is dist dist_ok ord ord_ok ws ns pos_of good m BM). cbn [m_nodes the_map]. rewrite (idx_known ws ns pos_of good a JA), (idx_known ws ns pos_of good b JB). eauto. }
      destruct X as (i & j & EA & EB). destruct (C62_found dist dist_ok ord ord_ok both choose choose_best ws ns pos_of good m a b i j BM EA EB ltac:(eauto)) as (n & N).
      exists n. intros fuel F. destruct (N fuel F) as [(_ & len & ids & ->)|(_ & ->)]; eauto. }
    assert (WAYS : forall p q abs, (forall ab, In ab abs -> (exists c s, section_between ws (fst ab) c s) /\ junction ws (snd ab)) -> exists n, forall fuel, (n <= fuel)%nat ->
      forall acc, fold_left (try_way dist both choose fuel m p q) abs (Some acc) <> None).
    { intros p q. induction abs as [|ab abs IH]; intros H; [exists O; discriminate|]. destruct (IH (fun x X => H x (or_intror X))) as (n1 & N1).
      destruct (H ab (or_introl eq_refl)) as (H1 & H2). destruct (WAY _ _ H1 H2) as (n2 & N2). exists (max n1 n2). intros fuel F acc. cbn [fold_left]. unfold try_way at 2.
      destruct (N2 fuel ltac:(lia)) as [->|(len & ids & ->)]; [apply N1; lia|]. destruct acc as [(c0, p0)|]; [destruct (_ <? c0)|]; apply N1; lia. }
    assert (ONE : forall q, exists n, forall fuel, (n <= fuel)%nat -> road_item dist cells seg_ord both choose fuel m q <> Stuck).
    { intros q. unfold road_item.
      destruct (closest dist cells (all_places m) (i_from q)) as [(s, ds)|]; [|exists O; discriminate]. destruct (closest dist cells (all_places m) (i_to q)) as [(e, de)|]; [|exists O; discriminate].
      destruct (seg_ord (segments_of (m_table m) s)) as [|k1 r1] eqn:K1; [exists O; discriminate|]. destruct (seg_ord (segments_of (m_table m) e)) as [|k2 r2] eqn:K2; [exists O; discriminate|].
      assert (LO : forall o, lines_of o <> Stuck) by (intros [?|]; discriminate).
      destruct (same_edge (k1 :: r1) (k2 :: r2)) as [k|]; [exists O; intros fuel _; destruct (match on_segment _ k _ _ _ with [] => _ | _ => _ end); [discriminate|apply LO]|].
      apply seg_cons in K1, K2. apply segment in K1, K2. destruct K1 as (t1 & T1 & _). destruct K2 as (t2 & T2 & _).
      pose proof (sec dist dist_ok ord ord_ok ws ns pos_of good m BM _ _ T1) as S1. pose proof (sec dist dist_ok ord ord_ok ws ns pos_of good m BM _ _ T2) as S2. pose proof (section_junctions ws _ _ _ S2) as (JA2 & JB2).
      destruct (WAYS (i_from q) (i_to q) [(fst k1, fst k2); (fst k1, snd k2); (snd k1, fst k2); (snd k1, snd k2)]) as (n & N).
      { intros ab H. cbn in H. destruct H as [<-|[<-|[<-|[<-|[]]]]]; cbn [fst snd]; split; try assumption; eauto using section_rev. }
      exists n. intros fuel F. specialize (N fuel F None). destruct (fold_left _ _ _) as [[(c, path)|]|]; [|discriminate|congruence].
      destruct path; [discriminate|]. destruct (long_line m k1 k2 s e _) as (l, [|]); [apply LO|discriminate]. }
    assert (ALL : exists n, forall fuel, (n <= fuel)%nat -> road_items dist cells seg_ord both choose fuel m qs <> Stuck).
    { induction qs as [|q qs (n1 & N1)]; [exists O; discriminate|]. destruct (ONE q) as (n2 & N2). exists (max n1 n2). intros fuel F. cbn [road_items].
      specialize (N1 fuel ltac:(lia)). specialize (N2 fuel ltac:(lia)). destruct (road_item _ _ _ _ _ _ _ _); [congruence|discriminate|].
      destruct (road_items _ _ _ _ _ _ _ _); [congruence|discriminate|discriminate]. }
    destruct ALL as (n & N). exists n. intros fuel F. specialize (N fuel F). unfold answer_points. destruct (road_items _ _ _ _ _ _ _ _); [congruence|discriminate|discriminate].
  Qed.
End Road.

(** C66: without a map the answer is empty, and its id is not that of the request. *)
Theorem C66_no_map : forall dist cells seg_ord both choose fuel sender id qs,
  answer_points dist cells seg_ord both choose fuel None sender id qs = Some [(sender, (0, []))].
Proof. reflexivity. Qed.

(** A street of six nodes *)
Definition street_pos (n : Z) : pos := (n * 10000, 0).
Definition street_nodes : list (Z * option pos) := map (fun n => (n, Some (street_pos n))) [1; 2; 3; 4; 5; 6].
Definition street : list way := [{| w_id := 7; w_road := true; w_nodes := [1; 2; 3; 4; 5; 6] |}].
Definition street3 : list way :=
  [{| w_id := 7; w_road := true; w_nodes := [1; 2; 3] |}; {| w_id := 8; w_road := true; w_nodes := [3; 4; 5] |}; {| w_id := 9; w_road := true; w_nodes := [5; 6] |}].
(** A street that ends in a circle *)
Definition circle_pos (n : Z) : pos := if n =? 1 then (0, 0) else if n =? 2 then (10000, 10000) else if n =? 3 then (20000, 0) else if n =? 4 then (-10000, 0) else (-20000, 0).
Definition circle_nodes : list (Z * option pos) := map (fun n => (n, Some (circle_pos n))) [1; 2; 3; 4; 5].
Definition circle : list way := [{| w_id := 7; w_road := true; w_nodes := [1; 2; 3; 1] |}; {| w_id := 8; w_road := true; w_nodes := [1; 4; 5] |}].

Lemma good_plain ws ids f : NoDup (map w_id (filter w_road ws)) -> (forall w, In w ws -> w_road w = true -> w_id w <> -1) -> NoDup ids ->
  (forall w, In w ws -> w_road w = true -> forall n, In n (w_nodes w) -> In n ids) -> good_file ws (map (fun n => (n, Some (f n))) ids) f.
Proof.
  intros A B C D. split; [exact A|]. split; [exact B|]. split; [rewrite map_map; cbn [fst]; rewrite map_id; exact C|].
  intros l n (w & I & R & <-) N. apply (in_map (fun n => (n, Some (f n)))). exact (D w I R n N).
Qed.
Ltac good_tac := apply good_plain;
  [cbn; repeat constructor; cbn; intuition congruence|intros w I R; cbn in I; repeat (destruct I as [<-|I]; [cbn; congruence|]); destruct I
  |repeat constructor; cbn; intuition congruence
  |intros w I R n N; cbn in I; repeat (destruct I as [<-|I]; [cbn in N |- *; intuition congruence|]); destruct I].
Lemma street_good : good_file street street_nodes street_pos.
Proof. good_tac. Qed.
Lemma street3_good : good_file street3 street_nodes street_pos.
Proof. good_tac. Qed.
Lemma circle_good : good_file circle circle_nodes circle_pos.
Proof. good_tac. Qed.

Definition at_node (f : Z -> pos) (id a b : Z) : item := {| i_id := id; i_from := f a; i_to := f b |}.

Example points_example : exists m m3, build taxi (fun l => l) street street_nodes = Built m /\ build taxi (fun l => l) street3 street_nodes = Built m3
  /\ answer_points taxi (fun l => l) (fun l => l) true first_best 40 (Some m) 9 4 [at_node street_pos 1 2 4; at_node street_pos 2 5 2]
     = Some [(9, (4, [(1, [1; 2; 3; 4]); (2, [6; 5; 4; 3; 2])]))]
  /\ answer_points taxi (fun l => l) (fun l => l) true first_best 40 (Some m3) 9 4 [at_node street_pos 1 2 4] = Some [(9, (4, [(1, [2; 3; 3; 3; 4; 4])]))]
  /\ answer_points taxi (fun l => l) (fun l => l) true first_best 40 (Some m3) 9 4 [at_node street_pos 1 2 4; at_node (fun _ => (9000000, 0)) 2 2 4] = Some [].
Proof. do 2 eexists. split; [vm_compute; reflexivity|]. split; [vm_compute; reflexivity|]. split; [vm_compute; reflexivity|]. split; [vm_compute; reflexivity|vm_compute; reflexivity]. Qed.

(** C66: from a node to the one next to it the line may run the other way, to the end of the section. *)
Theorem C66_next_refuted : exists ws ns pos_of m, good_file ws ns pos_of /\ build taxi (fun l => l) ws ns = Built m
  /\ answer_points taxi (fun l => l) (fun l => l) true first_best 40 (Some m) 9 4 [at_node pos_of 1 4 3] = Some [(9, (4, [(1, [3; 4; 5; 6])]))].
Proof. exists street, street_nodes, street_pos. eexists. split; [exact street_good|]. split; [vm_compute; reflexivity|vm_compute; reflexivity]. Qed.

(** C66: to a junction the line may run past it, and further to the next one. *)
Theorem C66_junction_refuted : exists ws ns pos_of m, good_file ws ns pos_of /\ build taxi (fun l => l) ws ns = Built m
  /\ answer_points taxi (fun l => l) (@rev (Z * Z)) true first_best 40 (Some m) 9 4 [at_node pos_of 1 2 5] = Some [(9, (4, [(1, [2; 3; 3; 3; 4; 5; 5; 6])]))].
Proof. exists street3, street_nodes, street_pos. eexists. split; [exact street3_good|]. split; [vm_compute; reflexivity|vm_compute; reflexivity]. Qed.

(** C66: an item that starts on a closed section leaves the whole request without an answer, although there is a way. *)
Theorem C66_circle_refuted : exists ws ns pos_of m, good_file ws ns pos_of /\ build taxi (fun l => l) ws ns = Built m /\ drive ws 2 4
  /\ answer_points taxi (fun l => l) (fun l => l) true first_best 40 (Some m) 9 4 [at_node pos_of 1 4 5] = Some [(9, (4, [(1, [1; 4; 5])]))]
  /\ answer_points taxi (fun l => l) (fun l => l) true first_best 40 (Some m) 9 4 [at_node pos_of 1 4 5; at_node pos_of 2 2 4] = Some [].
Proof.
  exists circle, circle_nodes, circle_pos. eexists. split; [exact circle_good|]. split; [vm_compute; reflexivity|]. split; [|split; [vm_compute; reflexivity|vm_compute; reflexivity]].
  apply drive_on with 1; [apply drive_on with 2; [constructor|]|].
  - exists [1; 2; 3; 1]. split; [eexists; split; [left; reflexivity|split; reflexivity]|]. right. exists [], [3; 1]. reflexivity.
  - exists [1; 4; 5]. split; [eexists; split; [right; left; reflexivity|split; reflexivity]|]. left. exists [], [5]. reflexivity.
Qed.

Print Assumptions C66_answered.
Print Assumptions C66_short.
Print Assumptions C66_comes.
Print Assumptions C66_no_map.
Print Assumptions C66_next_refuted.
Print Assumptions C66_junction_refuted.
Print Assumptions C66_circle_refuted.

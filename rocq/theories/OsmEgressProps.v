(** Theorems about the roads that leave a circle (C65). *)
From Coq Require Import List ZArith Lia Bool.
From Verif Require Import ZMap OsmMapModel OsmMapSpec OsmMapProofs OsmMapBuild OsmMapFacts OsmMapProps OsmNearModel OsmNearProps OsmPlanModel OsmPlanSpec OsmPlanProofs OsmEgressModel.
Import ListNotations.
Open Scope list_scope.
Open Scope Z_scope.

(** ** Specification *)

(** [x] lies on or outside the circle and [y] on or inside it. *)
Definition leaves (dist : pos -> pos -> Z) (pos_of : Z -> pos) (center : pos) (radius x y : Z) : Prop :=
  radius <= dist center (pos_of x) /\ dist center (pos_of y) <= radius.
(** Within the square around the circle *)
Definition boxed (center : pos) (radius : Z) (p : pos) : Prop := Z.abs (fst p - fst center) <= radius /\ Z.abs (snd p - snd center) <= radius.
(** Next to each other, in one order or the other *)
Definition beside (l : list Z) (x y : Z) : Prop := next_in l x y \/ next_in l y x.

(** ** Proofs *)

Lemma add_once_In l n x : In x (add_once l n) <-> In x l \/ x = n.
Proof.
  unfold add_once. destruct (zin n l) eqn:E.
  - apply zin_In in E. split; [auto|intros [H| ->]; assumption].
  - rewrite in_app_iff. cbn. intuition.
Qed.
Lemma NoDup_add_once l n : NoDup l -> NoDup (add_once l n).
Proof.
  intros N. unfold add_once. destruct (zin n l) eqn:E; [exact N|]. apply NoDup_rev in N. rewrite <- (rev_involutive (l ++ [n])). apply NoDup_rev.
  rewrite rev_app_distr. cbn. constructor; [|exact N]. rewrite <- in_rev. intros H. apply zin_In in H. congruence.
Qed.

Section Cross.
  Context (dist : pos -> pos -> Z) (pos_of : Z -> pos) (ps : zmap pos) (center : pos) (radius : Z).

  Lemma cross_In l a b x : zget ps a = Some (pos_of a) -> zget ps b = Some (pos_of b) ->
    (In x (cross dist ps center radius l a b) <-> In x l \/ (x = a /\ leaves dist pos_of center radius a b) \/ (x = b /\ leaves dist pos_of center radius b a)).
  Proof.
    intros A B. unfold cross, leaves. rewrite A, B. set (d1 := dist center (pos_of a)). set (d2 := dist center (pos_of b)).
    destruct (((radius <=? d1) && (d2 <=? radius)) || ((d1 <=? radius) && (radius <=? d2))) eqn:C.
    - apply orb_true_iff in C. rewrite !andb_true_iff, !Z.leb_le in C.
      destruct (Z.ltb_spec d2 d1) as [L|L]; [|destruct (Z.ltb_spec d1 d2) as [L2|L2]]; rewrite ?add_once_In; intuition (subst; try lia; auto).
    - apply orb_false_iff in C. rewrite !andb_false_iff, !Z.leb_gt in C. intuition lia.
  Qed.
  Lemma NoDup_cross l a b : NoDup l -> NoDup (cross dist ps center radius l a b).
  Proof.
    intros N. unfold cross. destruct (zget ps a); [|exact N]. destruct (zget ps b); [|exact N]. destruct (_ || _); [|exact N].
    destruct (_ <? _); [apply NoDup_add_once, N|]. destruct (_ <? _); repeat apply NoDup_add_once; exact N.
  Qed.

  Lemma cross_all_In x : forall nodes l, (forall n, In n nodes -> zget ps n = Some (pos_of n)) ->
    (In x (cross_all dist ps center radius l nodes) <-> In x l \/ exists y, beside nodes x y /\ leaves dist pos_of center radius x y).
  Proof.
    induction nodes as [|a nodes IH]; intros l K.
    - cbn. split; [auto|]. intros [H|(y & [(k1 & k2 & E)|(k1 & k2 & E)] & _)]; [exact H|destruct k1; discriminate|destruct k1; discriminate].
    - destruct nodes as [|b r].
      + cbn. split; [auto|]. intros [H|(y & [(k1 & k2 & E)|(k1 & k2 & E)] & _)]; [exact H|destruct k1 as [|? [|? ?]]; discriminate|destruct k1 as [|? [|? ?]]; discriminate].
      + change (cross_all dist ps center radius l (a :: b :: r)) with (cross_all dist ps center radius (cross dist ps center radius l a b) (b :: r)).
        rewrite IH by (intros n N; apply K; right; exact N). rewrite cross_In by (apply K; cbn; auto). split.
        * intros [[H|[(-> & L)|(-> & L)]]|(y & B & L)]; [auto|right; exists b|right; exists a|right; exists y]; (split; [|exact L]).
          -- left. exists [], r. reflexivity.
          -- right. exists [], r. reflexivity.
          -- destruct B as [(k1 & k2 & E)|(k1 & k2 & E)]; [left|right]; exists (a :: k1), k2; rewrite E; reflexivity.
        * intros [H|(y & B & L)]; [auto|]. destruct B as [(k1 & k2 & E)|(k1 & k2 & E)]; (destruct k1 as [|c k1]; cbn [app] in E; [injection E as E1 E2 E3|injection E as E1 E2]).
          -- left. right. left. subst. auto.
          -- right. exists y. split; [left; exists k1, k2; exact E2|exact L].
          -- left. right. right. subst. auto.
          -- right. exists y. split; [right; exists k1, k2; exact E2|exact L].
  Qed.
  Lemma NoDup_cross_all : forall nodes l, NoDup l -> NoDup (cross_all dist ps center radius l nodes).
  Proof.
    induction nodes as [|a nodes IH]; intros l N; [exact N|]. destruct nodes as [|b r]; [exact N|].
    change (cross_all dist ps center radius l (a :: b :: r)) with (cross_all dist ps center radius (cross dist ps center radius l a b) (b :: r)).
    apply IH, NoDup_cross, N.
  Qed.
End Cross.

Lemma tget_In t : forall k s, tget t k = Some s -> In (k, s) t.
Proof.
  induction t as [|((a, b), e) t IH]; intros (x, y) s H; [discriminate|]. cbn [tget fst snd] in H. destruct ((a =? x) && (b =? y)) eqn:E.
  - injection H as <-. apply andb_true_iff in E. rewrite !Z.eqb_eq in E. destruct E as (-> & ->). left. reflexivity.
  - right. apply IH, H.
Qed.

Lemma segments_In t n k : In k (segments_of t n) <-> exists s, In (k, s) t /\ In n (s_nodes s).
Proof.
  unfold segments_of. rewrite in_flat_map. split.
  - intros ((k', s) & I & H). apply in_flat_map in H. destruct H as (x & X & H). destruct (Z.eqb_spec x n) as [->|N]; [|destruct H].
    destruct H as [<-|[]]. exists s. auto.
  - intros (s & I & N). exists (k, s). split; [exact I|]. apply in_flat_map. exists n. split; [exact N|]. rewrite Z.eqb_refl. left. reflexivity.
Qed.

Section File.
  Context (dist : pos -> pos -> Z) (dist_ok : metric dist) (ord : list Z -> list Z) (ord_ok : forall l, ord l = l \/ ord l = rev l).
  Context (set_ord : list Z -> list Z) (set_ok : forall l x, In x (set_ord l) <-> In x l).
  Context (seg_ord : list (Z * Z) -> list (Z * Z)) (seg_ok : forall l x, In x (seg_ord l) <-> In x l).
  Context (ws : list way) (ns : list (Z * option pos)) (pos_of : Z -> pos) (good : good_file ws ns pos_of).
  Context (m : road_map) (BM : build dist ord ws ns = Built m) (center : pos) (radius : Z).

  Lemma section_known k s : tget (m_table m) k = Some s -> forall n, In n (s_nodes s) -> zget (positions (m_nodes m)) n = Some (pos_of n).
  Proof using dist_ok ord_ok good BM.
    intros E n N. destruct k as (a, b). destruct (C61_sections dist ord ord_ok ws ns dist_ok pos_of good m BM) as (T1 & _). destruct (T1 a b s E) as (S & _).
    destruct (section_road _ _ _ _ n S N) as (r & R & I). apply (node_pos dist dist_ok ord ord_ok ws ns pos_of good m BM n r R I).
  Qed.

  Lemma extent_is x : extent x = Z.quot x 100000.
  Proof. unfold extent. rewrite Z.quot_quot by lia. reflexivity. Qed.

  Lemma crossings_In x : In x (crossings dist set_ord seg_ord m center radius) <->
    exists n k s, In n (in_extent m center radius) /\ In k (segments_of (m_table m) n) /\ tget (m_table m) k = Some s
      /\ exists y, beside (s_nodes s) x y /\ leaves dist pos_of center radius x y.
  Proof using dist_ok ord_ok set_ok seg_ok good BM.
    unfold crossings.
    assert (IN : forall ks l, In x (fold_left (fun l k => match tget (m_table m) k with Some s => cross_all dist (positions (m_nodes m)) center radius l (s_nodes s) | None => l end) ks l)
                 <-> In x l \/ exists k s, In k ks /\ tget (m_table m) k = Some s /\ exists y, beside (s_nodes s) x y /\ leaves dist pos_of center radius x y).
    { induction ks as [|k ks IH]; intros l; cbn [fold_left].
      - split; [auto|intros [H|(k & s & [] & _)]; exact H].
      - rewrite IH. destruct (tget (m_table m) k) as [s|] eqn:E.
        + rewrite (cross_all_In dist pos_of) by (apply (section_known k s E)). split.
          * intros [[H|(y & H)]|(k' & s' & K & H)]; [auto|right; exists k, s; split; [left; reflexivity|split; [exact E|exists y; exact H]]|right; exists k', s'; split; [right; exact K|exact H]].
          * intros [H|(k' & s' & [<-|K] & E' & H)]; [auto|left; right; replace s with s' by congruence; exact H|right; exists k', s'; auto].
        + split; [intros [H|(k' & s' & K & H)]; [auto|right; exists k', s'; split; [right; exact K|exact H]]|].
          intros [H|(k' & s' & [<-|K] & E' & H)]; [auto|congruence|right; exists k', s'; auto]. }
    assert (OUT : forall nl l, In x (fold_left (fun l n => fold_left (fun l k => match tget (m_table m) k with Some s => cross_all dist (positions (m_nodes m)) center radius l (s_nodes s) | None => l end) (seg_ord (segments_of (m_table m) n)) l) nl l)
                  <-> In x l \/ exists n k s, In n nl /\ In k (segments_of (m_table m) n) /\ tget (m_table m) k = Some s /\ exists y, beside (s_nodes s) x y /\ leaves dist pos_of center radius x y).
    { induction nl as [|n nl IH]; intros l; cbn [fold_left].
      - split; [auto|intros [H|(n & k & s & [] & _)]; exact H].
      - rewrite IH, IN. split.
        + intros [[H|(k & s & K & H)]|(n' & k & s & N & H)]; [auto|right; exists n, k, s; split; [left; reflexivity|split; [apply seg_ok, K|exact H]]|right; exists n', k, s; split; [right; exact N|exact H]].
        + intros [H|(n' & k & s & [<-|N] & K & H)]; [auto|left; right; exists k, s; split; [apply seg_ok, K|exact H]|right; exists n', k, s; auto]. }
    rewrite OUT. split.
    - intros [[]|(n & k & s & N & H)]. exists n, k, s. split; [apply set_ok, N|exact H].
    - intros (n & k & s & N & H). right. exists n, k, s. split; [apply set_ok, N|exact H].
  Qed.

  (** C65: a request is answered once, to its sender, with its id and a heading for each place.  Each place is a node on
      or outside the circle, no two are the same, and next to it on a road is a node on or inside it. *)
  Theorem C65_places : forall sender id,
    exists r, answer_egress dist set_ord seg_ord (Some m) sender {| g_id := id; g_center := center; g_radius := radius |} = [(sender, r)]
      /\ e_id r = id /\ length (e_headings r) = length (e_nodes r) /\ NoDup (e_nodes r)
      /\ forall x, In x (e_nodes r) -> exists y, neighbours ws x y /\ leaves dist pos_of center radius x y.
  Proof using dist_ok ord_ok set_ok seg_ok good BM.
    intros sender id. eexists. split; [reflexivity|]. cbn [e_id e_headings e_nodes egress g_id g_center g_radius]. split; [reflexivity|]. split; [apply map_length|]. split.
    - unfold crossings. assert (G : forall nl l, NoDup l -> NoDup (fold_left (fun l n => fold_left (fun l k => match tget (m_table m) k with Some s => cross_all dist (positions (m_nodes m)) center radius l (s_nodes s) | None => l end) (seg_ord (segments_of (m_table m) n)) l) nl l)).
      { induction nl as [|n nl IH]; intros l N; [exact N|]. cbn [fold_left]. apply IH. generalize (seg_ord (segments_of (m_table m) n)). intros ks. revert l N.
        induction ks as [|k ks IHk]; intros l N; [exact N|]. cbn [fold_left]. apply IHk. destruct (tget (m_table m) k); [apply NoDup_cross_all, N|exact N]. }
      apply G. constructor.
    - intros x X. apply crossings_In in X. destruct X as (n & (a, b) & s & _ & _ & E & y & B & L). exists y. split; [|exact L].
      destruct (C61_sections dist ord ord_ok ws ns dist_ok pos_of good m BM) as (T1 & _). destruct (T1 a b s E) as (S & _).
      destruct B as [B|B]; [exact (section_next _ _ _ _ _ _ S B)|]. destruct (section_next _ _ _ _ _ _ S B) as (r & R & C). exists r. tauto.
  Qed.

  (** C65: all such nodes are found on a section between two junctions one of which is in the square around the circle,
      unless another road joins the same junctions. *)
  Theorem C65_complete : forall a b l x y, section_between ws a b l -> (forall l', section_between ws a b l' -> l' = l) ->
    boxed center radius (pos_of a) -> beside l x y -> leaves dist pos_of center radius x y ->
    In x (crossings dist set_ord seg_ord m center radius).
  Proof using dist_ok ord_ok set_ok seg_ok good BM.
    intros a b l x y S U (BX & BY) B L. apply crossings_In. destruct (C61_sections dist ord ord_ok ws ns dist_ok pos_of good m BM) as (T1 & T2).
    destruct (T2 a b l S) as (s & E). destruct (T1 a b s E) as (S' & _). apply U in S'. exists a, (a, b), s.
    assert (J : junction ws a) by (destruct S as [(? & ? & ? & ? & _ & _ & _ & A & _)|(? & ? & ? & ? & _ & _ & _ & _ & A & _)]; exact A).
    split; [|split; [|split; [exact E|exists y; rewrite S'; auto]]].
    - unfold in_extent. apply in_map_iff. exists (a, pos_of a). split; [reflexivity|]. apply filter_In. split.
      + apply (places_In dist dist_ok ord ord_ok ws ns pos_of good m BM). auto.
      + cbn [snd]. unfold node_cell. rewrite !extent_is, !andb_true_iff, !Z.leb_le. repeat split; apply Z.quot_le_mono; lia.
    - apply segments_In. exists s. split; [apply tget_In, E|]. rewrite S'. destruct (section_shape _ _ _ _ S) as (mid & ->). left. reflexivity.
  Qed.
End File.

(** The side road of the sample and the road to 5 leave a circle of 3 m around node 3; the road to 2 leaves it, too. *)
Example egress_example : exists m, build taxi (fun l => l) sample_ways sample_nodes = Built m
  /\ answer_egress taxi (fun l => l) (fun l => l) (Some m) 8 {| g_id := 4; g_center := (2000000, 0); g_radius := 1500 |}
     = [(8, {| e_id := 4; e_headings := [0; 0; 0]; e_nodes := [6; 5; 2] |})].
Proof. eexists. split; vm_compute; reflexivity. Qed.

(** C65: a road through the circle whose junctions lie outside of the square is not seen. *)
Theorem C65_through_refuted : exists ws ns pos_of m l x y, good_file ws ns pos_of /\ build taxi (fun l => l) ws ns = Built m
  /\ section_between ws 1 4 l /\ (forall l', section_between ws 1 4 l' -> l' = l) /\ beside l x y /\ leaves taxi pos_of (0, 0) 100000 x y
  /\ crossings taxi (fun l => l) (fun l => l) m (0, 0) 100000 = [].
Proof.
  set (f := fun n : Z => if n =? 1 then (-500000, 0) else if n =? 4 then (500000, 0) else if n =? 2 then (-200000, 0) else (1000, 0)).
  exists [{| w_id := 7; w_road := true; w_nodes := [1; 2; 3; 4] |}], (map (fun n => (n, Some (f n))) [1; 2; 3; 4]), f. eexists. exists [1; 2; 3; 4], 2, 3.
  split; [|split; [vm_compute; reflexivity|split; [|split; [|split; [|split; [|vm_compute; reflexivity]]]]]].
  - split; [|split; [|split]].
    + cbn. repeat constructor; cbn; intuition congruence.
    + intros w I R. cbn in I. destruct I as [<-|[]]; cbn; congruence.
    + cbn. repeat constructor; cbn; intuition congruence.
    + intros l n (w & I & R & <-) N. cbn in I. destruct I as [<-|[]]; cbn in N; repeat (destruct N as [<-|N]; [cbn; auto 10|]); destruct N.
  - left. exists [1; 2; 3; 4], [2; 3], [], []. split; [eexists; split; [left; reflexivity|split; reflexivity]|]. split; [reflexivity|]. split; [reflexivity|].
    split; [apply pl_spec; vm_compute; reflexivity|]. split; [apply pl_spec; vm_compute; reflexivity|].
    intros x [<-|[<-|[]]] J; apply pl_spec in J; vm_compute in J; discriminate.
  - intros l' [(r & mid & l1 & l2 & (w & I & R & <-) & E & E2 & _)|(r & mid & l1 & l2 & (w & I & R & <-) & E & E2 & _)]; cbn in I; destruct I as [<-|[]]; cbn in E.
    + subst l'. destruct l1 as [|? [|? [|? [|? [|? ?]]]]]; cbn in E; try discriminate; injection E as E; try discriminate.
      rewrite <- app_assoc in E. cbn in E. destruct mid as [|? [|? [|? [|? ?]]]]; cbn in E; try discriminate; injection E; intros; subst; try discriminate; reflexivity.
    + exfalso. rewrite E2 in E. destruct l1 as [|? [|? [|? [|? [|? ?]]]]]; cbn in E; try discriminate; injection E as E; try discriminate.
      intros. destruct mid as [|? [|? [|? [|? ?]]]]; cbn in *; discriminate.
  - left. exists [1], [4]. reflexivity.
  - split; vm_compute; discriminate.
Qed.

Print Assumptions C65_places.
Print Assumptions C65_complete.
Print Assumptions C65_through_refuted.

(** What the road map is made of. *)
From Coq Require Import List ZArith Lia Bool.
From Verif Require Import ZMap AStarModel AStarSpec OsmMapModel OsmMapSpec OsmMapProofs.
Import ListNotations.
Open Scope list_scope.
Open Scope Z_scope.

Section Build.
  Context (dist : pos -> pos -> Z) (dist_ok : metric dist) (ord : list Z -> list Z).
  Context (ord_ok : forall l, ord l = l \/ ord l = rev l).

  Lemma length_of_snoc f c n : c <> [] -> length_of dist f (c ++ [n]) = length_of dist f c + dist (f (last c 0)) (f n).
  Proof.
    induction c as [|a c IH]; intros N; [congruence|]. destruct c as [|b c]; [cbn; lia|].
    change ((a :: b :: c) ++ [n]) with (a :: (b :: c) ++ [n]).
    change (length_of dist f (a :: (b :: c) ++ [n])) with (dist (f a) (f b) + length_of dist f ((b :: c) ++ [n])).
    rewrite IH by discriminate. change (length_of dist f (a :: b :: c)) with (dist (f a) (f b) + length_of dist f (b :: c)).
    change (last (a :: b :: c) 0) with (last (b :: c) 0). lia.
  Qed.

  Lemma length_of_rev f l : length_of dist f (rev l) = length_of dist f l.
  Proof.
    destruct dist_ok as (_ & _ & SY & _). induction l as [|a l IH]; [reflexivity|]. cbn [rev]. destruct l as [|b l]; [reflexivity|].
    rewrite length_of_snoc.
    - rewrite IH. replace (last (rev (b :: l)) 0) with b by (cbn [rev]; rewrite last_last; reflexivity). rewrite SY. cbn [length_of]. lia.
    - cbn [rev]. destruct (rev l); discriminate.
  Qed.

  Lemma length_of_pos f l : 0 <= length_of dist f l.
  Proof.
    destruct dist_ok as (P & _). induction l as [|a l IH]; [reflexivity|]. destruct l as [|b l]; [reflexivity|].
    change (length_of dist f (a :: b :: l)) with (dist (f a) (f b) + length_of dist f (b :: l)). specialize (P (f a) (f b)). lia.
  Qed.

  (** *** The table of sections *)
  Definition put_piece (pos_of : Z -> pos) (id : Z) (t : table) (p : list Z) : table :=
    tput (tput t (p_first p, p_last p) {| s_nodes := p; s_way := id; s_dist := length_of dist pos_of p |})
      (p_last p, p_first p) {| s_nodes := rev p; s_way := id; s_dist := length_of dist pos_of p |}.

  Definition cur_nodes (cur : option (Z * list Z * pos * Z)) : option (list Z) :=
    match cur with Some (_, c, _, _) => Some c | None => None end.

  Lemma cut_spec fl ps id pos_of : forall l cur t,
    (forall n, In n l -> zget fl n <> None /\ zget ps n = Some (pos_of n)) ->
    match cur with None => True | Some (a, c, prev, d) => hd_error c = Some a /\ prev = pos_of (last c 0) /\ d = length_of dist pos_of c end ->
    cut dist fl ps id cur t l = Some (fold_left (put_piece pos_of id) (pieces (pl fl) (cur_nodes cur) l) t, true).
  Proof.
    induction l as [|n r IH]; intros cur t A C; [reflexivity|]. cbn [cut].
    destruct (A n (or_introl eq_refl)) as (F & P). rewrite P.
    assert (A' : forall x, In x r -> zget fl x <> None /\ zget ps x = Some (pos_of x)) by (intros x I; apply A; right; exact I).
    destruct (zget fl n) as [[|]|] eqn:FN; [| |congruence].
    - assert (PL : pl fl n = true) by (unfold pl; rewrite FN; reflexivity).
      destruct cur as [(((a, c), prev), d)|].
      + destruct C as (HD & -> & ->). assert (NC : c <> []) by (destruct c; discriminate).
        rewrite IH; [|exact A'|cbn; auto]. cbn [cur_nodes pieces]. rewrite PL. cbn [fold_left]. do 3 f_equal.
        unfold put_piece. assert (HF : p_first (c ++ [n]) = a) by (destruct c; [discriminate|cbn in HD |- *; congruence]).
        assert (HL : p_last (c ++ [n]) = n) by apply last_last. rewrite HF, HL, length_of_snoc by exact NC. reflexivity.
      + rewrite IH; [|exact A'|cbn; auto]. cbn [cur_nodes pieces]. rewrite PL. reflexivity.
    - assert (PL : pl fl n = false) by (unfold pl; rewrite FN; reflexivity).
      destruct cur as [(((a, c), prev), d)|].
      + destruct C as (HD & -> & ->). assert (NC : c <> []) by (destruct c; discriminate).
        rewrite IH; [|exact A'|].
        * cbn [cur_nodes pieces]. rewrite PL. reflexivity.
        * split; [destruct c; [congruence|exact HD]|]. rewrite last_last. split; [reflexivity|]. rewrite length_of_snoc by exact NC. reflexivity.
      + rewrite IH; [|exact A'|exact C]. cbn [cur_nodes pieces]. rewrite PL. reflexivity.
  Qed.

  (** A node without position *)
  Lemma cut_crash fl ps id n : forall l cur t, In n l -> zget ps n = None -> (forall x, In x l -> zget fl x <> None) ->
    (cur <> None \/ exists x, hd_error l = Some x /\ zget fl x = Some true) -> cut dist fl ps id cur t l = None.
  Proof.
    induction l as [|m r IH]; intros cur t I N F C; [destruct I|]. cbn [cut].
    pose proof (F m (or_introl eq_refl)) as FM. destruct (zget fl m) as [[|]|] eqn:E; [| |congruence].
    - destruct (zget ps m) as [p|] eqn:P; [|reflexivity].
      assert (In n r) by (destruct I as [->|I]; [congruence|exact I]).
      destruct cur as [(((a, c), prev), d)|]; apply IH; auto; try (intros x J; apply F; right; exact J); left; discriminate.
    - destruct cur as [(((a, c), prev), d)|].
      + destruct (zget ps m) as [p|] eqn:P; [|reflexivity]. apply IH; auto; [destruct I as [->|I]; [congruence|exact I]|intros x J; apply F; right; exact J|left; discriminate].
      + destruct C as [C|(x & X & Y)]; [congruence|]. injection X as ->. congruence.
  Qed.

  (** *** The edges *)
  Fixpoint piece_edges (pos_of : Z -> pos) (idx : Z -> Z) (running : Z) (ps : list (list Z)) : list (Z * Z * Z) :=
    match ps with
    | [] => []
    | p :: r => (idx (p_first p), idx (p_last p), (length_of dist pos_of p + running) / 1000)
                :: piece_edges pos_of idx (running + length_of dist pos_of (removelast p)) r
    end.

  Section Walk.
    Context (ld : loaded) (f : Z -> bool) (pos_of : Z -> pos) (idx : Z -> Z) (id : Z).

    Lemma walk_open : forall l c a r0 st, hd_error c = Some a ->
      (forall n, In n l -> zin n (planning ld) = f n /\ zget (positions ld) n = Some (pos_of n) /\ (f n = true -> zget (index ld) n = Some (idx n))) ->
      k_way st = id -> k_start st = idx a ->
      exists ks, walk dist ld id (r0 + length_of dist pos_of c) (Some (pos_of (last c 0))) st l
        = Some {| k_way := id; k_start := ks; k_edges := k_edges st ++ piece_edges pos_of idx r0 (pieces f (Some c) l); k_ok := k_ok st |}.
    Proof using dist_ok.
      destruct dist_ok as (_ & D0 & SY & _).
      induction l as [|n r IH]; intros c a r0 st HD A KW KS.
      - exists (k_start st). cbn. rewrite app_nil_r. rewrite <- KW. destruct st; reflexivity.
      - destruct (A n (or_introl eq_refl)) as (PN & P & X).
        assert (A' : forall x, In x r -> zin x (planning ld) = f x /\ zget (positions ld) x = Some (pos_of x) /\ (f x = true -> zget (index ld) x = Some (idx x)))
          by (intros x I; apply A; right; exact I).
        assert (NC : c <> []) by (destruct c; discriminate).
        cbn [walk pieces]. rewrite PN, P. destruct (f n) eqn:F.
        + rewrite KW, Z.eqb_refl. cbn [negb]. rewrite (X eq_refl).
          destruct (IH [n] n (r0 + length_of dist pos_of c)
                      {| k_way := id; k_start := idx n; k_edges := k_edges st ++ [(k_start st, idx n, (dist (pos_of n) (pos_of (last c 0)) + (r0 + length_of dist pos_of c)) / 1000)]; k_ok := k_ok st |})
            as (ks & E); auto.
          cbn [length_of last] in E. rewrite Z.add_0_r in E. exists ks. rewrite E. cbn [k_edges k_ok piece_edges]. rewrite <- app_assoc. cbn [app].
          rewrite removelast_last. unfold p_last. rewrite last_last. replace (p_first (c ++ [n])) with a by (destruct c; [discriminate|cbn in HD |- *; congruence]).
          rewrite length_of_snoc by exact NC. rewrite KS, (SY (pos_of n)).
          replace (dist (pos_of (last c 0)) (pos_of n) + (r0 + length_of dist pos_of c))
            with (length_of dist pos_of c + dist (pos_of (last c 0)) (pos_of n) + r0) by lia. reflexivity.
        + destruct (IH (c ++ [n]) a r0 st) as (ks & E); auto; [destruct c; [congruence|exact HD]|].
          exists ks. rewrite <- E. rewrite length_of_snoc, last_last by exact NC. rewrite (SY (pos_of n)). f_equal. lia.
    Qed.

    Lemma walk_spec l st :
      (forall n, In n l -> zin n (planning ld) = f n /\ zget (positions ld) n = Some (pos_of n) /\ (f n = true -> zget (index ld) n = Some (idx n))) ->
      (forall n, hd_error l = Some n -> f n = true) -> k_way st <> id ->
      exists ks kw, walk dist ld id 0 None st l
        = Some {| k_way := kw; k_start := ks; k_edges := k_edges st ++ piece_edges pos_of idx 0 (pieces f None l); k_ok := k_ok st |}
        /\ (kw = id \/ kw = k_way st).
    Proof using dist_ok.
      intros A H KW. destruct l as [|n r].
      - exists (k_start st), (k_way st). cbn. rewrite app_nil_r. split; [destruct st; reflexivity|auto].
      - destruct (A n (or_introl eq_refl)) as (PN & P & X). cbn [walk pieces]. rewrite PN, P, (H n eq_refl).
        rewrite (proj2 (Z.eqb_neq id (k_way st))) by congruence. cbn [negb]. rewrite (X (H n eq_refl)).
        destruct (walk_open r [n] n 0 {| k_way := id; k_start := idx n; k_edges := k_edges st; k_ok := k_ok st |}) as (ks & E); auto.
        + intros x I. apply A. right. exact I.
        + exists ks, id. cbn [length_of last] in E. rewrite Z.add_0_r in E. rewrite E. auto.
    Qed.
  End Walk.

  (** *** All roads *)
  Definition roads (ws : list way) : list way := filter w_road ws.
  Lemma roads_In ws w : In w (roads ws) <-> In w ws /\ w_road w = true.
  Proof. apply filter_In. Qed.

  Lemma way_nodes_one ws w : NoDup (map w_id (roads ws)) -> In w (roads ws) -> way_nodes ord ws (w_id w) = ord (w_nodes w).
  Proof.
    intros N I. unfold way_nodes. f_equal. unfold roads in *. induction ws as [|x ws IH]; [destruct I|]. cbn [filter flat_map] in *.
    destruct (w_road x) eqn:R; cbn [andb app]; [|apply IH; assumption].
    cbn [map] in N. inversion N as [|? ? N1 N2]; subst. destruct I as [<-|I].
    - rewrite Z.eqb_refl. assert (E : flat_map (fun w => if w_road w && (w_id w =? w_id x) then w_nodes w else []) ws = []).
      { clear - N1. induction ws as [|y ws IH]; [reflexivity|]. cbn [filter flat_map] in *. destruct (w_road y) eqn:RY; cbn [andb app].
        - destruct (w_id y =? w_id x) eqn:E; [apply Z.eqb_eq in E; exfalso; apply N1; left; congruence|]. cbn. apply IH. intros I. apply N1. right. exact I.
        - apply IH. exact N1. }
      rewrite E, app_nil_r. reflexivity.
    - destruct (w_id x =? w_id w) eqn:E; [apply Z.eqb_eq in E; exfalso; apply N1; rewrite E; apply in_map; exact I|]. apply IH; assumption.
  Qed.

  Lemma In_ord x l : In x (ord l) <-> In x l.
  Proof. destruct (ord_ok l) as [->| ->]; [tauto|symmetry; apply in_rev]. Qed.

  Lemma next_ord l a b : next_in (ord l) a b -> next_in l a b \/ next_in l b a.
  Proof. destruct (ord_ok l) as [->| ->]; [auto|]. intros H. right. apply next_in_rev. exact H. Qed.
  Lemma next_ord' l a b : next_in l a b -> next_in (ord l) a b \/ next_in (ord l) b a.
  Proof. destruct (ord_ok l) as [->| ->]; [auto|]. intros H. right. apply next_in_rev in H. exact H. Qed.

  Lemma ord_ends (f : Z -> bool) l : (forall n, hd_error l = Some n \/ hd_error (rev l) = Some n -> f n = true) ->
    (forall n, hd_error (ord l) = Some n -> f n = true) /\ (forall n, hd_error (rev (ord l)) = Some n -> f n = true).
  Proof. intros H. destruct (ord_ok l) as [->| ->]; [|rewrite rev_involutive]; split; intros n E; apply H; auto. Qed.

  Section File.
    Context (ws : list way) (ns : list (Z * option pos)) (pos_of : Z -> pos) (good : good_file ws ns pos_of).

    Definition ld : loaded := load (flags ws) ns.
    Definition idx (n : Z) : Z := match zget (index ld) n with Some i => i | None => 0 end.
    Definition cuts (w : way) : list (list Z) := pieces (pl (flags ws)) None (ord (w_nodes w)).
    Definition the_table : table := fold_left (fun t w => fold_left (put_piece pos_of (w_id w)) (cuts w) t) (roads ws) [].
    Definition the_edges : list (Z * Z * Z) := flat_map (fun w => piece_edges pos_of idx 0 (cuts w)) (roads ws).
    Definition the_map : road_map := {| m_nodes := ld; m_table := the_table; m_edges := the_edges |}.

    Lemma road_In l : road ws l <-> exists w, In w (roads ws) /\ w_nodes w = l.
    Proof.
      unfold road. split.
      - intros (w & I & R & E). exists w. split; [apply roads_In; auto|exact E].
      - intros (w & I & E). apply roads_In in I. exists w. tauto.
    Qed.

    Lemma node_facts w n : In w (roads ws) -> In n (w_nodes w) ->
      zget (flags ws) n <> None /\ zget (positions ld) n = Some (pos_of n) /\ zin n (planning ld) = pl (flags ws) n
      /\ (pl (flags ws) n = true -> zget (index ld) n = Some (idx n)).
    Proof.
      intros W I. destruct good as (_ & _ & ND & HP). pose proof (load_spec (flags ws) ns) as L. fold ld in L.
      assert (R : road ws (w_nodes w)) by (apply road_In; eauto).
      assert (F : zget (flags ws) n <> None).
      { destruct (flags_spec ws n) as (_ & F2). destruct F2 as (b & E & _); [apply on_road; eauto|]. rewrite E. discriminate. }
      pose proof (HP _ n R I) as P. assert (PN : In n (map fst ns)) by (apply in_map_iff; exists (n, Some (pos_of n)); auto).
      split; [exact F|]. split; [|split].
      - pose proof (li_have _ _ _ L n _ P F) as H. destruct (zget (positions ld) n) as [q|] eqn:E; [|congruence].
        destruct (li_pos _ _ _ L n q E) as (Q & _). f_equal.
        assert (Some q = Some (pos_of n)) by (clear - ND P Q; induction ns as [|(k, v) l IH]; [destruct P|]; inversion ND; subst; destruct P as [P|P], Q as [Q|Q];
          [congruence|injection P as -> ->; exfalso; apply H1; apply in_map_iff; exists (n, Some q); auto|injection Q as -> ->; exfalso; apply H1; apply in_map_iff; exists (n, Some (pos_of n)); auto|apply IH; assumption]).
        congruence.
      - destruct (pl (flags ws) n) eqn:E.
        + apply zin_In. apply (li_planning _ _ _ L). split; [|exact PN]. unfold pl in E. destruct (zget (flags ws) n) as [[|]|]; try discriminate; reflexivity.
        + apply zin_false. intros H. apply (li_planning _ _ _ L) in H. destruct H as (H & _). unfold pl in E. rewrite H in E. discriminate.
      - intros E. assert (H : In n (planning ld)).
        { apply (li_planning _ _ _ L). split; [|exact PN]. unfold pl in E. destruct (zget (flags ws) n) as [[|]|]; try discriminate; reflexivity. }
        apply (li_known _ _ _ L) in H. unfold idx. destruct (zget (index ld) n); congruence.
    Qed.

    Lemma ends_planning w : In w (roads ws) ->
      (forall n, hd_error (ord (w_nodes w)) = Some n -> pl (flags ws) n = true) /\ (forall n, hd_error (rev (ord (w_nodes w))) = Some n -> pl (flags ws) n = true).
    Proof.
      intros W. apply ord_ends. intros n H. apply pl_spec. left. exists (w_nodes w). split; [apply road_In; eauto|exact H].
    Qed.

    Lemma build_cut : forall rs t, (forall w, In w rs -> In w (roads ws)) ->
      cut_all dist ord (flags ws) (positions ld) ws t (map w_id rs) = Some (fold_left (fun t w => fold_left (put_piece pos_of (w_id w)) (cuts w) t) rs t, true).
    Proof.
      induction rs as [|w rs IH]; intros t S; [reflexivity|]. cbn [map cut_all].
      rewrite way_nodes_one; [|apply good|apply S; left; reflexivity].
      rewrite cut_spec with (pos_of := pos_of); [| |exact I].
      - rewrite IH by (intros x X; apply S; right; exact X). reflexivity.
      - intros n I. apply (proj1 (In_ord _ _)) in I. destruct (node_facts w n (S w (or_introl eq_refl)) I) as (A & B & _). auto.
    Qed.

    Lemma build_walk : forall rs st, (forall w, In w rs -> In w (roads ws)) -> NoDup (map w_id rs) -> ~ In (k_way st) (map w_id rs) ->
      exists ks kw, walk_all dist ord ld ws st (map w_id rs)
        = Some {| k_way := kw; k_start := ks; k_edges := k_edges st ++ flat_map (fun w => piece_edges pos_of idx 0 (cuts w)) rs; k_ok := k_ok st |}.
    Proof.
      induction rs as [|w rs IH]; intros st S N K.
      - exists (k_start st), (k_way st). cbn. rewrite app_nil_r. destruct st; reflexivity.
      - cbn [map walk_all] in *. inversion N as [|? ? N1 N2]; subst. pose proof (S w (or_introl eq_refl)) as W.
        rewrite way_nodes_one; [|apply good|exact W].
        destruct (walk_spec ld (pl (flags ws)) pos_of idx (w_id w) (ord (w_nodes w)) st) as (ks & kw & E & KW).
        + intros n I. apply (proj1 (In_ord _ _)) in I. destruct (node_facts w n W I) as (A & B & C & D). auto.
        + apply ends_planning, W.
        + intros H. apply K. left. congruence.
        + rewrite E. destruct (IH {| k_way := kw; k_start := ks; k_edges := k_edges st ++ piece_edges pos_of idx 0 (cuts w); k_ok := k_ok st |}) as (ks' & kw' & E').
          * intros x X. apply S. right. exact X.
          * exact N2.
          * cbn [k_way]. destruct KW as [->| ->]; [exact N1|]. intros H. apply K. right. exact H.
          * exists ks', kw'. unfold cuts in *. rewrite E'. cbn [k_edges k_ok flat_map]. rewrite <- app_assoc. reflexivity.
    Qed.

    Lemma build_good : build dist ord ws ns = Built the_map.
    Proof using ord_ok dist_ok good.
      unfold build. fold ld. unfold highways. fold (roads ws). rewrite build_cut by auto.
      destruct (build_walk (roads ws) {| k_way := -1; k_start := -1; k_edges := []; k_ok := true |}) as (ks & kw & E).
      - auto.
      - apply good.
      - cbn [k_way]. intros I. apply in_map_iff in I. destruct I as (w & E & I). apply roads_In in I.
        destruct good as (_ & NI & _). apply (NI w); tauto.
      - rewrite E. reflexivity.
    Qed.
  End File.
End Build.

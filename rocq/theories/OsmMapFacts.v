(** Sections, edges and connections of the road map. *)
From Coq Require Import List ZArith Lia Bool.
From Verif Require Import ZMap AStarModel AStarSpec OsmMapModel OsmMapSpec OsmMapProofs OsmMapBuild.
Import ListNotations.
Open Scope list_scope.
Open Scope Z_scope.

Lemma tget_app t k e : tget (t ++ [e]) k = match tget t k with Some s => Some s
  | None => if (fst (fst e) =? fst k) && (snd (fst e) =? snd k) then Some (snd e) else None end.
Proof.
  induction t as [|((a, b), s) t IH]; cbn [app tget].
  - destruct e as ((a, b), s). reflexivity.
  - destruct ((a =? fst k) && (b =? snd k)); [reflexivity|exact IH].
Qed.

Lemma tget_tput t k s k' : tget (tput t k s) k' = match tget t k' with Some x => Some x
  | None => if (fst k =? fst k') && (snd k =? snd k') then Some s else None end.
Proof.
  unfold tput. destruct (tget t k) eqn:E.
  - destruct (tget t k') eqn:E'; [reflexivity|]. destruct (_ && _) eqn:Q; [|reflexivity].
    apply andb_true_iff in Q. destruct Q as (Q1 & Q2). apply Z.eqb_eq in Q1, Q2. destruct k, k'. cbn in *. congruence.
  - rewrite tget_app. reflexivity.
Qed.

Section Facts.
  Context (dist : pos -> pos -> Z) (dist_ok : metric dist) (ord : list Z -> list Z).
  Context (ord_ok : forall l, ord l = l \/ ord l = rev l).

  (** *** The table *)
  Definition put_all (pos_of : Z -> pos) (all : list (Z * list Z)) : table :=
    fold_left (fun t e => put_piece dist pos_of (fst e) t (snd e)) all [].

  Record table_ok (pos_of : Z -> pos) (all : list (Z * list Z)) (t : table) : Prop := {
    to_sound : forall a b s, tget t (a, b) = Some s -> exists p, In (s_way s, p) all /\ s_dist s = length_of dist pos_of p
      /\ ((a = p_first p /\ b = p_last p /\ s_nodes s = p) \/ (a = p_last p /\ b = p_first p /\ s_nodes s = rev p));
    to_all : forall id p, In (id, p) all -> tget t (p_first p, p_last p) <> None /\ tget t (p_last p, p_first p) <> None;
    to_mirror : forall a b s, a <> b -> tget t (a, b) = Some s ->
      exists s', tget t (b, a) = Some s' /\ s_nodes s' = rev (s_nodes s) /\ s_dist s' = s_dist s /\ s_way s' = s_way s
  }.

  Lemma put_all_ok pos_of all : table_ok pos_of all (put_all pos_of all).
  Proof.
    unfold put_all. induction all as [|(id, p) all IH] using rev_ind.
    { constructor; cbn; [discriminate|intros ? ? []|discriminate]. }
    rewrite fold_left_app. cbn [fold_left fst snd]. set (t := fold_left (fun (t : table) (e : Z * list Z) => put_piece dist pos_of (fst e) t (snd e)) all []) in *. clearbody t. destruct IH as [SO AL MI].
    unfold put_piece. set (x := p_first p). set (y := p_last p).
    assert (G : forall k, tget (tput (tput t (x, y) {| s_nodes := p; s_way := id; s_dist := length_of dist pos_of p |})
                  (y, x) {| s_nodes := rev p; s_way := id; s_dist := length_of dist pos_of p |}) k
                = match tget t k with Some s => Some s | None =>
                    if (x =? fst k) && (y =? snd k) then Some {| s_nodes := p; s_way := id; s_dist := length_of dist pos_of p |}
                    else if (y =? fst k) && (x =? snd k) then Some {| s_nodes := rev p; s_way := id; s_dist := length_of dist pos_of p |} else None end).
    { intros k. rewrite !tget_tput. cbn [fst snd]. destruct (tget t k); [reflexivity|]. destruct ((x =? fst k) && (y =? snd k)); reflexivity. }
    constructor.
    - intros a b s. rewrite G. cbn [fst snd]. destruct (tget t (a, b)) as [s0|] eqn:T.
      + intros E. injection E as <-. destruct (SO a b s0 T) as (q & I & D & C). exists q. split; [apply in_app_iff; auto|auto].
      + destruct ((x =? a) && (y =? b)) eqn:Q1; [|destruct ((y =? a) && (x =? b)) eqn:Q2; [|discriminate]]; intros E; injection E as <-; exists p; cbn [s_way s_dist s_nodes].
        * apply andb_true_iff in Q1. destruct Q1 as (Q1 & Q2). apply Z.eqb_eq in Q1, Q2. split; [apply in_app_iff; right; left; reflexivity|]. split; [reflexivity|]. left. auto.
        * apply andb_true_iff in Q2. destruct Q2 as (Q2 & Q3). apply Z.eqb_eq in Q2, Q3. split; [apply in_app_iff; right; left; reflexivity|]. split; [reflexivity|]. right. auto.
    - intros id' q I. apply in_app_iff in I. rewrite !G. cbn [fst snd]. destruct I as [I|[I|[]]].
      + destruct (AL id' q I) as (A & B). destruct (tget t (p_first q, p_last q)); [|congruence]. destruct (tget t (p_last q, p_first q)); [|congruence]. split; discriminate.
      + injection I as <- <-. fold x y. rewrite !Z.eqb_refl. cbn [andb]. split.
        * destruct (tget t (x, y)); discriminate.
        * destruct (tget t (y, x)); [discriminate|]. destruct ((x =? y) && (y =? x)); discriminate.
    - intros a b s N. rewrite !G. cbn [fst snd]. destruct (tget t (a, b)) as [s0|] eqn:T.
      + intros E. injection E as <-. destruct (MI a b s0 N T) as (s' & -> & M). exists s'. auto.
      + assert (T' : tget t (b, a) = None).
        { destruct (tget t (b, a)) as [s0|] eqn:T'; [|reflexivity]. destruct (MI b a s0 (not_eq_sym N) T') as (s' & E & _). congruence. }
        rewrite T'. destruct ((x =? a) && (y =? b)) eqn:Q1; [|destruct ((y =? a) && (x =? b)) eqn:Q2; [|discriminate]]; intros E; injection E as <-; cbn [s_way s_dist s_nodes].
        * apply andb_true_iff in Q1. destruct Q1 as (Q1 & Q2). apply Z.eqb_eq in Q1, Q2. rewrite Q1, Q2, !Z.eqb_refl.
          rewrite (proj2 (Z.eqb_neq a b) N). cbn [andb]. eexists. split; [reflexivity|]. auto.
        * apply andb_true_iff in Q2. destruct Q2 as (Q2 & Q3). apply Z.eqb_eq in Q2, Q3. rewrite Q2, Q3, !Z.eqb_refl. cbn [andb].
          eexists. split; [reflexivity|]. cbn [s_nodes s_dist s_way]. rewrite rev_involutive. auto.
  Qed.

  (** *** Lengths *)
  Lemma inner_hops_app pos_of g c n l : c <> [] -> inner_hops dist pos_of g (c ++ n :: l) = inner_hops dist pos_of g c + (if g n then dist (pos_of (last c 0)) (pos_of n) else 0) + inner_hops dist pos_of g (n :: l).
  Proof.
    induction c as [|a c IH]; intros N; [congruence|]. destruct c as [|b c].
    - cbn [app last]. cbn [inner_hops]. destruct (g n); lia.
    - change ((a :: b :: c) ++ n :: l) with (a :: (b :: c) ++ n :: l).
      change (inner_hops dist pos_of g (a :: (b :: c) ++ n :: l)) with ((if g b then dist (pos_of a) (pos_of b) else 0) + inner_hops dist pos_of g ((b :: c) ++ n :: l)).
      rewrite IH by discriminate. change (inner_hops dist pos_of g (a :: b :: c)) with ((if g b then dist (pos_of a) (pos_of b) else 0) + inner_hops dist pos_of g (b :: c)).
      change (last (a :: b :: c) 0) with (last (b :: c) 0). lia.
  Qed.

  Lemma inner_hops_all pos_of g a c : (forall x, In x c -> g x = true) -> inner_hops dist pos_of g (a :: c) = length_of dist pos_of (a :: c).
  Proof.
    revert a. induction c as [|b c IH]; intros a A; [reflexivity|].
    change (inner_hops dist pos_of g (a :: b :: c)) with ((if g b then dist (pos_of a) (pos_of b) else 0) + inner_hops dist pos_of g (b :: c)).
    rewrite (A b (or_introl eq_refl)), IH by (intros x I; apply A; right; exact I). reflexivity.
  Qed.

  Lemma inner_hops_pos pos_of g l : 0 <= inner_hops dist pos_of g l.
  Proof.
    destruct dist_ok as (P & _). induction l as [|a l IH]; [reflexivity|]. destruct l as [|b l]; [reflexivity|].
    change (inner_hops dist pos_of g (a :: b :: l)) with ((if g b then dist (pos_of a) (pos_of b) else 0) + inner_hops dist pos_of g (b :: l)).
    specialize (P (pos_of a) (pos_of b)). destruct (g b); lia.
  Qed.

  Lemma piece_ends f a b p : is_piece f a b p -> p_first p = a /\ p_last p = b.
  Proof. intros (mid & -> & _). split; [reflexivity|]. unfold p_last. change (a :: mid ++ [b]) with ((a :: mid) ++ [b]). apply last_last. Qed.

  Lemma piece_edges_open pos_of idx f : forall l c a mid r0 i j len,
    c = a :: mid -> f a = true -> (forall x, In x mid -> f x = false) ->
    In (i, j, len) (piece_edges dist pos_of idx r0 (pieces f (Some c) l)) ->
    exists a' b' p l1 l2, c ++ l = l1 ++ p ++ l2 /\ is_piece f a' b' p /\ i = idx a' /\ j = idx b'
      /\ len = (length_of dist pos_of p + (r0 + inner_hops dist pos_of (fun x => negb (f x)) (l1 ++ [a']))) / 1000
      /\ In p (pieces f (Some c) l).
  Proof.
    induction l as [|n r IH]; intros c a mid r0 i j len -> FA FM I; [destruct I|]. cbn [pieces] in *. destruct (f n) eqn:F.
    - cbn [piece_edges] in I. assert (PC : is_piece f a n ((a :: mid) ++ [n])) by (exists mid; auto).
      destruct (piece_ends _ _ _ _ PC) as (E1 & E2). destruct I as [I|I].
      + injection I as EI EJ EL. exists a, n, ((a :: mid) ++ [n]), [], r. split; [cbn; rewrite <- app_assoc; reflexivity|].
        split; [exact PC|]. split; [rewrite <- EI; exact (f_equal idx E1)|]. split; [rewrite <- EJ; exact (f_equal idx E2)|].
        split; [rewrite <- EL; cbn [app inner_hops]; do 2 f_equal; lia|left; reflexivity].
      + rewrite removelast_last in I.
        destruct (IH [n] n [] (r0 + length_of dist pos_of (a :: mid)) i j len) as (a' & b' & p & l1 & l2 & E & P & EI & EJ & EL & IP); auto; [intros x []|].
        exists a', b', p, ((a :: mid) ++ l1), l2. split; [rewrite <- app_assoc, <- E; reflexivity|]. split; [exact P|]. split; [exact EI|]. split; [exact EJ|].
        split; [|right; exact IP]. rewrite EL. f_equal. f_equal.
        assert (H : exists t, l1 ++ [a'] = n :: t).
        { destruct P as (m & -> & _). destruct l1 as [|z l1]; cbn [app] in E.
          - injection E as E0 E'. exists []. cbn. congruence.
          - injection E as E0 E'. exists (l1 ++ [a']). cbn. congruence. }
        destruct H as (t & H). rewrite <- app_assoc, H. rewrite inner_hops_app by discriminate. rewrite F. cbn [negb].
        rewrite (inner_hops_all _ _ a mid) by (intros x J; rewrite (FM x J); reflexivity). lia.
    - destruct (IH (a :: mid ++ [n]) a (mid ++ [n]) r0 i j len) as (a' & b' & p & l1 & l2 & E & Q); auto.
      { intros x J. apply in_app_iff in J. destruct J as [J|[<-|[]]]; auto. }
      exists a', b', p, l1, l2. split; [rewrite <- E; cbn; rewrite <- app_assoc; reflexivity|exact Q].
  Qed.

  Lemma piece_edges_sound pos_of idx f l i j len : (forall n, hd_error l = Some n -> f n = true) ->
    In (i, j, len) (piece_edges dist pos_of idx 0 (pieces f None l)) ->
    exists a' b' p l1 l2, l = l1 ++ p ++ l2 /\ is_piece f a' b' p /\ i = idx a' /\ j = idx b'
      /\ len = (length_of dist pos_of p + inner_hops dist pos_of (fun x => negb (f x)) (l1 ++ [a'])) / 1000
      /\ In p (pieces f None l).
  Proof.
    intros H I. destruct l as [|n r]; [destruct I|]. cbn [pieces] in *. rewrite (H n eq_refl) in *.
    destruct (piece_edges_open pos_of idx f r [n] n [] 0 i j len) as (a' & b' & p & l1 & l2 & Q); auto; [intros x []|].
    exists a', b', p, l1, l2. exact Q.
  Qed.

  Lemma piece_edges_all pos_of idx : forall ps r0 p, In p ps -> exists len, In (idx (p_first p), idx (p_last p), len) (piece_edges dist pos_of idx r0 ps).
  Proof.
    induction ps as [|q ps IH]; intros r0 p I; [destruct I|]. cbn [piece_edges]. destruct I as [->|I]; [eexists; left; reflexivity|].
    destruct (IH (r0 + length_of dist pos_of (removelast q)) p I) as (len & J). exists len. right. exact J.
  Qed.

  (** *** Driving *)
  Lemma drive_trans ws a b c : drive ws a b -> drive ws b c -> drive ws a c.
  Proof. intros A. induction 1; [exact A|]. eapply drive_on; [apply IHdrive, A|exact H0]. Qed.
  Lemma neighbours_sym ws a b : neighbours ws a b -> neighbours ws b a.
  Proof. intros (l & R & [H|H]); exists l; auto. Qed.
  Lemma drive_sym ws a b : drive ws a b -> drive ws b a.
  Proof.
    induction 1; [constructor|]. apply drive_trans with b; [|exact IHdrive]. apply drive_on with c; [constructor|apply neighbours_sym; assumption].
  Qed.
  Lemma drive_along ws l : (forall x y, next_in l x y -> neighbours ws x y) -> forall x, In x l -> drive ws (hd 0 l) x.
  Proof.
    induction l as [|a l IH]; intros N x I; [destruct I|]. cbn [hd]. destruct I as [->|I]; [constructor|].
    destruct l as [|b l]; [destruct I|]. apply drive_trans with b.
    - apply drive_on with a; [constructor|]. apply N. exists [], l. reflexivity.
    - apply (IH (fun x y H => N x y (match H with ex_intro _ l1 (ex_intro _ l2 E) => ex_intro _ (a :: l1) (ex_intro _ l2 (f_equal (cons a) E)) end)) x I).
  Qed.

  Lemma next_in_app l l1 l2 a b : next_in l a b -> next_in (l1 ++ l ++ l2) a b.
  Proof. intros (x & y & ->). exists (l1 ++ x), (y ++ l2). rewrite <- !app_assoc. reflexivity. Qed.
  Lemma next_in_In l a b : next_in l a b -> In a l /\ In b l.
  Proof. intros (x & y & ->). rewrite !in_app_iff. cbn. tauto. Qed.

  Section File.
    Context (ws : list way) (ns : list (Z * option pos)) (pos_of : Z -> pos) (good : good_file ws ns pos_of).
    Notation f := (pl (flags ws)).
    Notation ixn := (idx ws ns).
    Notation cutw := (cuts ord ws).
    Notation tab := (the_table dist ord ws pos_of).
    Notation edges := (the_edges dist ord ws ns pos_of).

    Definition all_pieces : list (Z * list Z) := flat_map (fun w => map (pair (w_id w)) (cutw w)) (roads ws).

    Lemma all_pieces_In id p : In (id, p) all_pieces <-> exists w, In w (roads ws) /\ w_id w = id /\ In p (cutw w).
    Proof.
      unfold all_pieces. rewrite in_flat_map. split.
      - intros (w & W & I). apply in_map_iff in I. destruct I as (q & E & I). injection E as E ->. exists w. auto.
      - intros (w & W & <- & I). exists w. split; [exact W|]. apply in_map_iff. exists p. auto.
    Qed.

    Lemma tab_put : tab = put_all pos_of all_pieces.
    Proof.
      unfold the_table, put_all, all_pieces. generalize (@nil (Z * Z * section)). induction (roads ws) as [|w rs IH]; intros t; [reflexivity|].
      cbn [fold_left flat_map]. rewrite fold_left_app. rewrite IH. f_equal. generalize (cutw w). clear. intros ps. revert t.
      induction ps as [|p ps IH]; intros t; [reflexivity|]. cbn [fold_left map]. apply IH.
    Qed.

    Lemma tab_ok : table_ok pos_of all_pieces tab.
    Proof. rewrite tab_put. apply put_all_ok. Qed.

    Lemma cuts_spec w p : In w (roads ws) -> In p (cutw w) ->
      exists a b, is_piece f a b p /\ exists l1 l2, ord (w_nodes w) = l1 ++ p ++ l2.
    Proof.
      intros W I. destruct (pieces_sound f (ord (w_nodes w)) None 0 [] (or_introl eq_refl) p I) as (a & b & P & l1 & l2 & E).
      exists a, b. split; [exact P|]. exists l1, l2. exact E.
    Qed.

    Lemma not_junction x : f x = false <-> ~ junction ws x.
    Proof. rewrite <- pl_spec. destruct (f x); split; intros H; congruence. Qed.

    Lemma piece_section_at w a b p l1 l2 : In w (roads ws) -> is_piece f a b p -> ord (w_nodes w) = l1 ++ p ++ l2 -> section_between ws a b p.
    Proof.
      intros W (mid & -> & FA & FB & FM) E. apply pl_spec in FA, FB.
      assert (FM' : forall x, In x mid -> ~ junction ws x) by (intros x I; apply not_junction, FM, I).
      assert (R : road ws (w_nodes w)) by (apply road_In; eauto).
      destruct (ord_ok (w_nodes w)) as [O|O]; rewrite O in E.
      - left. exists (w_nodes w), mid, l1, l2. auto 7.
      - right. exists (w_nodes w), (rev mid), (rev l2), (rev l1). split; [exact R|].
        split; [rewrite <- (rev_involutive (w_nodes w)), E, !rev_app_distr, <- app_assoc; reflexivity|].
        split; [cbn [rev]; rewrite rev_app_distr; reflexivity|]. split; [exact FB|]. split; [exact FA|]. intros x I. apply FM'. apply in_rev. exact I.
    Qed.

    Lemma piece_section w p : In w (roads ws) -> In p (cutw w) -> section_between ws (p_first p) (p_last p) p.
    Proof.
      intros W I. destruct (cuts_spec w p W I) as (a & b & P & l1 & l2 & E). destruct (piece_ends _ _ _ _ P) as (-> & ->).
      apply (piece_section_at w a b p l1 l2); assumption.
    Qed.

    Lemma section_rev a b l : section_between ws a b l -> section_between ws b a (rev l).
    Proof. intros [H|H]; [right; rewrite rev_involutive; exact H|left; exact H]. Qed.

    Lemma stretch_piece a b l : stretch ws a b l -> exists w, In w (roads ws) /\ (In l (cutw w) \/ In (rev l) (cutw w)) /\ p_first l = a /\ p_last l = b.
    Proof.
      intros (r & mid & l1 & l2 & R & E & -> & JA & JB & JM). apply road_In in R. destruct R as (w & W & <-). exists w. split; [exact W|].
      apply pl_spec in JA, JB. assert (FM : forall x, In x mid -> f x = false) by (intros x I; apply not_junction, JM, I).
      split; [|apply piece_ends with f; exists mid; auto]. destruct (ord_ok (w_nodes w)) as [O|O].
      - left. apply (pieces_complete f (ord (w_nodes w)) None a b mid l1 l2); auto. cbn [app]. rewrite O. exact E.
      - right. cbn [rev]. rewrite rev_app_distr. cbn [rev app]. apply (pieces_complete f (ord (w_nodes w)) None b a (rev mid) (rev l2) (rev l1)); auto.
        + intros x I. apply FM. apply in_rev. exact I.
        + cbn [app]. rewrite O, E, !rev_app_distr. cbn [rev]. rewrite rev_app_distr. cbn [rev app]. rewrite <- !app_assoc. cbn [app]. rewrite <- app_assoc. reflexivity.
    Qed.

    Lemma rev_ends (l : list Z) : l <> [] -> p_first (rev l) = p_last l /\ p_last (rev l) = p_first l.
    Proof.
      intros N. split.
      - unfold p_first, p_last. destruct (rev l) as [|z t] eqn:E; [apply (f_equal (@length Z)) in E; rewrite rev_length in E; destruct l; [congruence|discriminate]|].
        symmetry. apply last_hd_rev. rewrite E. reflexivity.
      - unfold p_first, p_last. destruct l as [|a l]; [congruence|]. cbn [rev hd]. apply last_last.
    Qed.

    Lemma section_piece a b l : section_between ws a b l ->
      exists w p, In w (roads ws) /\ In p (cutw w) /\ (p = l \/ p = rev l) /\ ((p_first p = a /\ p_last p = b) \/ (p_first p = b /\ p_last p = a)).
    Proof.
      assert (G : forall a b l, stretch ws a b l ->
         exists w p, In w (roads ws) /\ In p (cutw w) /\ (p = l \/ p = rev l) /\ ((p_first p = a /\ p_last p = b) \/ (p_first p = b /\ p_last p = a))).
      { clear a b l. intros a b l H. destruct (stretch_piece a b l H) as (w & W & I & A & B).
        assert (N : l <> []) by (destruct H as (? & ? & ? & ? & _ & _ & -> & _); discriminate).
        destruct (rev_ends l N) as (A' & B'). destruct I as [I|I]; [exists w, l|exists w, (rev l)]; (split; [exact W|]); (split; [exact I|]); (split; [auto|]).
        - left. auto.
        - right. split; congruence. }
      intros [H|H]; [apply G, H|]. destruct (G _ _ _ H) as (w & p & W & I & P & Q). exists w, p. split; [exact W|]. split; [exact I|].
      rewrite rev_involutive in P. split; tauto.
    Qed.

    (** *** Indices *)
    Lemma idx_known n : junction ws n -> zget (index (ld ws ns)) n = Some (ixn n).
    Proof.
      intros J. pose proof (junction_on_road ws n J) as H. apply on_road in H. destruct H as (l & R & I). apply road_In in R. destruct R as (w & W & <-).
      apply (node_facts ws ns pos_of good w n W I). apply pl_spec, J.
    Qed.
    Lemma idx_back n : junction ws n -> zget (back (ld ws ns)) (ixn n) = Some n.
    Proof. intros J. apply (li_index _ _ _ (load_spec (flags ws) ns)). apply idx_known, J. Qed.
    Lemma idx_inj a b : junction ws a -> junction ws b -> ixn a = ixn b -> a = b.
    Proof. intros A B E. apply idx_back in A, B. congruence. Qed.

    (** *** Edges *)
    Lemma edge_spec i j len : In (i, j, len) edges -> exists w a b p l1 l2, In w (roads ws) /\ In p (cutw w) /\ is_piece f a b p /\ ord (w_nodes w) = l1 ++ p ++ l2
      /\ i = ixn a /\ j = ixn b /\ len = (length_of dist pos_of p + inner_hops dist pos_of (fun x => negb (f x)) (l1 ++ [a])) / 1000.
    Proof.
      intros I. unfold the_edges in I. apply in_flat_map in I. destruct I as (w & W & I).
      destruct (piece_edges_sound pos_of ixn f (ord (w_nodes w)) i j len) as (a & b & p & l1 & l2 & E & P & EI & EJ & EL & IP); [|exact I|].
      - apply (ends_planning ord ord_ok ws w W).
      - exists w, a, b, p, l1, l2. auto 8.
    Qed.

    Lemma piece_edge w p : In w (roads ws) -> In p (cutw w) -> exists len, In (ixn (p_first p), ixn (p_last p), len) edges.
    Proof.
      intros W I. destruct (piece_edges_all pos_of ixn (cutw w) 0 p I) as (len & J). exists len. unfold the_edges. apply in_flat_map. exists w. auto.
    Qed.

    Lemma edge_pos i j len : In (i, j, len) edges -> 0 <= len.
    Proof.
      intros I. destruct (edge_spec i j len I) as (w & a & b & p & l1 & l2 & _ & _ & _ & _ & _ & _ & ->). apply Z.div_pos; [|lia].
      pose proof (length_of_pos dist dist_ok pos_of p). pose proof (inner_hops_pos pos_of (fun x => negb (f x)) (l1 ++ [a])). lia.
    Qed.

    (** *** Connections *)
    Definition conn (a b : Z) : Prop := exists l len, route edges (ixn a) l (ixn b) len.
    Lemma conn_refl a : conn a a.
    Proof. exists [ixn a], 0. constructor. Qed.
    Lemma conn_step a b c len : conn a b -> linked edges (ixn b) (ixn c) len -> conn a c.
    Proof.
      intros (l & k & R) L. assert (J : forall x l y len, route edges x l y len -> forall z w, linked edges y z w -> exists l' len', route edges x l' z len').
      { clear. induction 1 as [a|a b c w l len L P IH]; intros z x X.
        - exists [a; z], (x + 0). apply route_more with z; [exact X|constructor].
        - destruct (IH z x X) as (l' & len' & Q). exists (a :: l'), (w + len'). apply route_more with b; assumption. }
      apply (J _ _ _ _ R _ _ L).
    Qed.

    Lemma piece_linked w p : In w (roads ws) -> In p (cutw w) -> exists len, linked edges (ixn (p_first p)) (ixn (p_last p)) len.
    Proof. intros W I. destruct (piece_edge w p W I) as (len & J). exists len. left. exact J. Qed.

    Lemma piece_conn a w p : In w (roads ws) -> In p (cutw w) -> (conn a (p_first p) \/ conn a (p_last p)) -> conn a (p_first p) /\ conn a (p_last p).
    Proof.
      intros W I. destruct (piece_linked w p W I) as (len & L). intros [C|C]; split; auto.
      - apply conn_step with (p_first p) len; assumption.
      - apply conn_step with (p_last p) len; [assumption|]. destruct L; [right|left]; assumption.
    Qed.

    Lemma piece_drive w p : In w (roads ws) -> In p (cutw w) -> forall x, In x p -> drive ws (p_first p) x.
    Proof.
      intros W I. apply drive_along. intros x y N. destruct (cuts_spec w p W I) as (a & b & P & l1 & l2 & E).
      exists (w_nodes w). split; [apply road_In; eauto|]. apply (next_ord ord ord_ok). rewrite E. apply next_in_app, N.
    Qed.

    Lemma piece_In_last f0 a b p : is_piece f0 a b p -> In a p /\ In b p.
    Proof. intros (mid & -> & _). split; [left; reflexivity|right; apply in_app_iff; right; left; reflexivity]. Qed.

    Lemma linked_drive a' b len : junction ws a' -> linked edges (ixn a') b len -> exists b', junction ws b' /\ b = ixn b' /\ drive ws a' b'.
    Proof.
      intros J L. assert (G : forall i j len, In (i, j, len) edges -> exists x y, junction ws x /\ junction ws y /\ i = ixn x /\ j = ixn y /\ drive ws x y).
      { clear - good ord_ok. intros i j len I. destruct (edge_spec i j len I) as (w & a & b & p & l1 & l2 & W & IP & P & E & EI & EJ & _).
        exists a, b. pose proof P as (mid & EP & FA & FB & _). split; [apply pl_spec, FA|]. split; [apply pl_spec, FB|]. split; [exact EI|]. split; [exact EJ|].
        destruct (piece_ends _ _ _ _ P) as (PF & _). rewrite <- PF. apply (piece_drive w p W IP). apply (piece_In_last _ _ _ _ P). }
      destruct L as [L|L]; destruct (G _ _ _ L) as (x & y & JX & JY & EX & EY & D).
      - apply idx_inj in EX; auto. subst. exists y. auto.
      - apply idx_inj in EY; auto. subst. exists x. split; [exact JX|]. split; [reflexivity|]. apply drive_sym, D.
    Qed.

    Lemma route_drive : forall i l j len, route edges i l j len -> forall a b, junction ws a -> junction ws b -> i = ixn a -> j = ixn b -> drive ws a b.
    Proof.
      induction 1 as [i|i k j w l len L R IH]; intros a b JA JB EA EB.
      - assert (a = b) as -> by (apply idx_inj; congruence). constructor.
      - subst i. destruct (linked_drive a k w JA L) as (c & JC & -> & D). apply drive_trans with c; [exact D|]. apply (IH c b); auto.
    Qed.

    Lemma mids_In f0 a b p x : is_piece f0 a b p -> In x p -> f0 x = false -> In x (mids p).
    Proof.
      intros (mid & -> & FA & FB & FM) I F. unfold mids. cbn [tl]. rewrite removelast_last. destruct I as [->|I]; [congruence|].
      apply in_app_iff in I. destruct I as [I|[->|[]]]; [exact I|congruence].
    Qed.

    Lemma flat_map_once {A} (g : A -> list Z) x : forall L p q, In p L -> In q L -> In x (g p) -> In x (g q) ->
      (count_occ Z.eq_dec (flat_map g L) x <= 1)%nat -> p = q.
    Proof.
      induction L as [|y L IH]; intros p q P Q XP XQ C; [destruct P|]. cbn [flat_map] in C. rewrite count_occ_app in C.
      assert (H : forall r, In r L -> In x (g r) -> (1 <= count_occ Z.eq_dec (flat_map g L) x)%nat).
      { intros r R X. apply (count_occ_In Z.eq_dec). apply in_flat_map. exists r. auto. }
      destruct P as [->|P], Q as [->|Q]; [reflexivity| | |].
      - apply (count_occ_In Z.eq_dec) in XP. specialize (H q Q XQ). lia.
      - apply (count_occ_In Z.eq_dec) in XQ. specialize (H p P XP). lia.
      - apply IH; auto. lia.
    Qed.

    Lemma inner_once w p w' p' x : In w (roads ws) -> In p (cutw w) -> In w' (roads ws) -> In p' (cutw w') -> In x p -> In x p' -> f x = false -> p = p'.
    Proof.
      intros W P W' P' X X' F.
      destruct (cuts_spec w p W P) as (a & b & PC & _). destruct (cuts_spec w' p' W' P') as (a' & b' & PC' & _).
      apply (flat_map_once mids x (flat_map cutw (roads ws))).
      - apply in_flat_map. eauto.
      - apply in_flat_map. eauto.
      - apply (mids_In f a b); assumption.
      - apply (mids_In f a' b'); assumption.
      - assert (E : forall L, (forall v, In v L -> In v (roads ws)) -> (count_occ Z.eq_dec (flat_map mids (flat_map cutw L)) x <= count_occ Z.eq_dec (flat_map w_nodes L) x)%nat).
        { clear - F ord_ok. induction L as [|v L IH]; intros S; [cbn; lia|]. cbn [flat_map]. rewrite flat_map_app, !count_occ_app.
          pose proof (IH (fun u U => S u (or_intror U))) as H. destruct (ends_planning ord ord_ok ws v (S v (or_introl eq_refl))) as (H1 & H2).
          unfold cuts at 1. rewrite pieces_inner by assumption.
          assert (count_occ Z.eq_dec (filter (fun x => negb (f x)) (ord (w_nodes v))) x <= count_occ Z.eq_dec (w_nodes v) x)%nat.
          { assert (CO : count_occ Z.eq_dec (ord (w_nodes v)) x = count_occ Z.eq_dec (w_nodes v) x).
            { destruct (ord_ok (w_nodes v)) as [->| ->]; [reflexivity|]. apply count_occ_rev. }
            rewrite <- CO. generalize (ord (w_nodes v)). intros l. induction l as [|y l IHl]; [cbn; lia|]. cbn [filter].
            destruct (negb (f y)); cbn [count_occ]; destruct (Z.eq_dec y x); lia. }
          lia. }
        specialize (E (roads ws) (fun v V => V)). assert (PE : flat_map (fun w => if w_road w then w_nodes w else []) ws = flat_map w_nodes (roads ws)).
        { clear. unfold roads. induction ws as [|v l IH]; [reflexivity|]. cbn [flat_map filter]. destruct (w_road v); cbn [flat_map]; rewrite IH; reflexivity. }
        rewrite <- PE in E. fold (passes ws x) in E.
        assert (~ junction ws x) by (apply not_junction; exact F). assert (passes ws x <= 1)%nat by (destruct (Nat.le_gt_cases 2 (passes ws x)); [exfalso; apply H; right; assumption|lia]).
        lia.
    Qed.

    Lemma piece_planning w p x : In w (roads ws) -> In p (cutw w) -> In x p -> f x = true -> x = p_first p \/ x = p_last p.
    Proof.
      intros W P X F. destruct (cuts_spec w p W P) as (a & b & PC & _). destruct (piece_ends _ _ _ _ PC) as (-> & ->).
      destruct PC as (mid & -> & FA & FB & FM). destruct X as [X|X]; [auto|]. apply in_app_iff in X. destruct X as [X|[X|[]]]; [|auto].
      rewrite (FM x X) in F. discriminate.
    Qed.

    Lemma drive_conn a : junction ws a -> forall b, drive ws a b ->
      (forall w p, In w (roads ws) -> In p (cutw w) -> In b p -> conn a (p_first p) /\ conn a (p_last p))
      /\ (b = a \/ exists w p, In w (roads ws) /\ In p (cutw w) /\ In b p).
    Proof.
      intros JA b D. induction D as [a|a b c D IH N].
      - split; [|auto]. intros w p W P I. apply (piece_conn a w p W P).
        destruct (piece_planning w p a W P I (proj2 (pl_spec ws a) JA)) as [E|E]; rewrite <- E; [left|right]; apply conn_refl.
      - specialize (IH JA). destruct IH as (IH & _). destruct N as (l & R & N). apply road_In in R. destruct R as (w0 & W0 & <-).
        assert (C : exists p0, In p0 (cutw w0) /\ In b p0 /\ In c p0).
        { destruct (ends_planning ord ord_ok ws w0 W0) as (H1 & H2).
          assert (N' : next_in (ord (w_nodes w0)) b c \/ next_in (ord (w_nodes w0)) c b) by (destruct N as [N|N]; apply (next_ord' ord ord_ok) in N; tauto).
          destruct N' as [N'|N']; destruct (pieces_cover f _ _ _ H1 H2 N') as (p & I & NP); apply next_in_In in NP; exists p; tauto. }
        destruct C as (p0 & P0 & B0 & C0). destruct (IH w0 p0 W0 P0 B0) as (C1 & C2).
        split; [|right; eauto]. intros w p W P I. destruct (f c) eqn:F.
        + assert (CC : conn a c) by (destruct (piece_planning w0 p0 c W0 P0 C0 F) as [E|E]; rewrite E; assumption).
          apply (piece_conn a w p W P). destruct (piece_planning w p c W P I F) as [E|E]; rewrite <- E; auto.
        + rewrite (inner_once w p w0 p0 c W P W0 P0 I C0 F). auto.
    Qed.

    Lemma conn_iff a b : junction ws a -> junction ws b -> (conn a b <-> drive ws a b).
    Proof.
      intros JA JB. split.
      - intros (l & len & R). apply (route_drive _ _ _ _ R a b); auto.
      - intros D. destruct (drive_conn a JA b D) as (C & [->|(w & p & W & P & I)]); [apply conn_refl|].
        destruct (C w p W P I) as (C1 & C2). destruct (piece_planning w p b W P I (proj2 (pl_spec ws b) JB)) as [E|E]; rewrite E; assumption.
    Qed.
  End File.
End Facts.

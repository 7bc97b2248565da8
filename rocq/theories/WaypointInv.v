(** The invariant of the waypoint plan manager over its histories. *)
From Coq Require Import List ZArith Bool Lia.
From Verif Require Import Run WaypointModel WaypointSpec WaypointProofs WaypointServe.
Import ListNotations.
Open Scope list_scope.
Open Scope Z_scope.

Lemma init_ok c ids wps old :
  0 < c_vehicle c -> 2 <= c_overlap c -> c_overlap c + 2 <= c_serve c -> wps <> [] ->
  (forall w, In w wps -> 0 <= w_num w) ->
  exists segs,
    initPlan c ids wps old = (true, segs, ids + Z.of_nat (length segs) + 1) /\
    map s_cmd segs = map (fun k => ids + Z.of_nat k) (seq 0 (length segs)) /\
    segmented (Z.to_nat (c_serve c))
      (fun o => o = Z.to_nat (c_overlap c) \/
                o = Z.to_nat (c_serve c - c_overlap c - 1) /\
                (o < Z.to_nat (c_overlap c))%nat) wps (map s_wps segs) /\
    (c_overlap c + 3 <= c_serve c ->
       Forall (fun g => heading (s_wps g) = Some (s_first g)) segs).
Proof.
  intros VP V2 VN NE NN.
  set (n := Z.to_nat (c_serve c)). set (v := Z.to_nat (c_overlap c)).
  destruct wps as [|x p]; [easy|].
  assert (LI := linv_run n v ltac:(lia) ltac:(lia) c ltac:(lia) ltac:(lia) ids x p NN).
  unfold initPlan. destruct (Z.ltb_spec 0 (c_vehicle c)); [|lia].
  set (st := fold_left _ _ _) in *.
  destruct LI as [(o & C & OL & OV & OLE & TW) LN NE1 F0 T2 HD OK ID NX].
  destruct (Z.leb_spec 0 (s_first (l_one st))); [|lia].
  exists (l_done st ++ [l_one st]). rewrite OK, app_length. cbn [length].
  split; [|split; [|split]].
  - rewrite NX. cbn [andb]. f_equal; [|lia]. f_equal.
    destruct (l_done st); reflexivity.
  - replace (length (l_done st) + 2)%nat with ((length (l_done st) + 1) + 1)%nat in ID by lia.
    rewrite seq_app, map_app in ID. cbn [seq map] in ID.
    replace (map s_cmd (l_done st) ++ [s_cmd (l_one st); s_cmd (l_two st)])
      with ((map s_cmd (l_done st) ++ [s_cmd (l_one st)]) ++ [s_cmd (l_two st)]) in ID
      by (rewrite <- app_assoc; reflexivity).
    apply app_inj_tail in ID. destruct ID as (ID & _). now rewrite map_app.
  - rewrite map_app. cbn [map].
    eapply (cutn_segmented n v ltac:(lia) ltac:(lia)); [exact C|left; reflexivity| | |exact NE1|exact LN].
    + intros o1 H1. unfold next. lia.
    + intros o1 H1. lia.
  - intros V3. destruct (HD ltac:(lia)) as (H1 & H2). apply Forall_app. auto.
Qed.

Lemma segmented_weaken {A} n (P Q : nat -> Prop) (l : list A) gs :
  segmented n P l gs -> (forall o, P o -> Q o) -> segmented n Q l gs.
Proof. intros S H. induction S; constructor; auto. Qed.


(** * Choosing segments in order *)

Section Order.
  Context (n : nat) (P : nat -> Prop) (P2 : forall o, P o -> (2 <= o)%nat).

  Lemma segmented_suffix {A} (a : list (list A)) : forall l g b,
    segmented n P l (a ++ g :: b) ->
    exists l1 l2, l = l1 ++ l2 /\ segmented n P l2 (g :: b).
  Proof.
    induction a as [|h a IH]; intros l g b S.
    - exists [], l. auto.
    - inversion S as [|a0 c l0 gs L PC N NA S' E1 E2].
      + destruct a; discriminate.
      + subst. destruct (IH _ _ _ S') as (l1 & l2 & E & S2).
        exists (a0 ++ l1), l2. split; [now rewrite E, <- app_assoc|auto].
  Qed.

  Lemma segmented_cover_tl {A} (l : list A) gs :
    segmented n P l gs -> forall x, In x (tl l) -> exists g, In g gs /\ In x (tl g).
  Proof.
    induction 1 as [l N L|a c l gs L PC N NA S IH]; intros x I.
    - exists l. cbn. auto.
    - rewrite app_assoc in I. rewrite tl_app in I by (destruct a; easy).
      apply in_app_or in I. destruct I as [I|I].
      + exists (a ++ c). cbn. auto.
      + destruct (IH x) as (g & G & X); [|exists g; cbn; auto].
        apply P2 in PC. rewrite tl_app by (destruct c; cbn in PC; [lia|easy]).
        apply in_or_app. auto.
  Qed.

  (** Command ids grow along the segments. *)
  Definition ascending (segs : list seg) : Prop :=
    forall a g b h, segs = a ++ g :: b -> In h b -> s_cmd g < s_cmd h.

  Lemma ascending_inj segs g h :
    ascending segs -> In g segs -> In h segs -> s_cmd g = s_cmd h -> g = h.
  Proof.
    intros A G H E. apply in_split in G. destruct G as (a & b & G).
    rewrite G in H. apply in_app_or in H. destruct H as [H|[H|H]]; [|auto|].
    - apply in_split in H. destruct H as (p & q & ->). rewrite <- app_assoc in G. cbn in G.
      exfalso. assert (s_cmd h < s_cmd g); [|lia].
      apply (A p h (q ++ g :: b) g G). apply in_or_app. right. left. auto.
    - exfalso. specialize (A _ _ _ _ G H). lia.
  Qed.

  Lemma ascending_seq i segs :
    map s_cmd segs = map (fun k => i + Z.of_nat k) (seq 0 (length segs)) -> ascending segs.
  Proof.
    generalize O. induction segs as [|g0 segs IH]; intros m E a g b h G I.
    - destruct a; discriminate.
    - cbn [length seq map] in E. injection E as E0 E. destruct a as [|a0 a].
      + cbn in G. injection G as -> ->. apply (in_map s_cmd) in I. rewrite E in I.
        apply in_map_iff in I. destruct I as (k & K & I). apply in_seq in I. lia.
      + cbn in G. injection G as -> G. eapply IH; eauto.
  Qed.

  (** The segment chosen for the waypoint at the start of a mission is the first one. *)
  Lemma choose_start x l g segs :
    segmented n P (x :: l) (map s_wps (g :: segs)) -> NoDup (map w_num (x :: l)) ->
    choose (w_num x) (g :: segs) = Some g /\ exists r, x :: l = s_wps g ++ r.
  Proof.
    intros S ND. split.
    - apply choose_head.
      + cbn [map] in S. inversion S as [|a c l0 gs L PC N NA S' E1 E2].
        * left. auto.
        * destruct a as [|x' a]; [easy|]. cbn in E1. injection E1 as -> _. left. auto.
      + intros h H NF. cbn [map] in S, ND. unfold nonfirst in NF.
        apply in_map_iff in NF. destruct NF as (y & E & Y).
        assert (I : incl (tl (s_wps h)) (tl (x :: l))).
        { eapply segmented_tl; [exact S|]. right. now apply in_map. }
        inversion ND as [|? ? N _]. apply N. rewrite <- E. apply in_map. now apply I.
    - cbn [map] in S. inversion S as [|a c l0 gs L PC N NA S' E1 E2].
      + exists []. now rewrite app_nil_r.
      + exists l0. now rewrite <- app_assoc.
  Qed.

  Lemma choose_mono l segs w w' g g' :
    segmented n P l (map s_wps segs) -> ascending segs -> NoDup (map w_num l) ->
    along l w w' -> choose w segs = Some g -> choose w' segs = Some g' -> s_cmd g <= s_cmd g'.
  Proof.
    intros S AS ND (p & q & E & W) C C'.
    destruct (choose_some _ _ _ C) as (G & GW).
    apply in_split in G. destruct G as (a & b & G).
    assert (H : nonfirst w g \/ a = []).
    { destruct (in_dec Z.eq_dec w (map w_num (tl (s_wps g)))) as [H|H]; [auto|right].
      destruct a as [|h a _] using rev_ind; [auto|exfalso].
      assert (Y : exists k, In k segs /\ nonfirst w k).
      { rewrite G, <- app_assoc in S. rewrite map_app in S. cbn [app map] in S.
        destruct (segmented_suffix _ _ _ _ S) as (l1 & l2 & _ & S2).
        inversion S2 as [|a0 c l0 gs L PC N NA S' E1 E2].
        exists h. split; [rewrite G; apply in_or_app; left; apply in_or_app; right; left; auto|].
        unfold nonfirst. rewrite <- E2, tl_app, map_app by auto. apply in_or_app. right.
        apply in_map_iff in GW. destruct GW as (y & <- & GW). apply in_map.
        assert (E3 : exists r, c ++ l0 = s_wps g ++ r).
        { inversion S'; [exists []; now rewrite app_nil_r|]. exists l3. now rewrite <- app_assoc. }
        destruct E3 as (r & E3). apply P2 in PC.
        destruct (s_wps g) as [|y0 sg] eqn:ESG; [easy|]. cbn in H, GW.
        destruct GW as [->|GW]; [|exfalso; apply H; now apply in_map].
        destruct c; [cbn in PC; lia|]. cbn in E3. injection E3 as -> _. left. auto. }
      destruct Y as (k & K & NF). destruct (choose_ge _ _ _ K NF) as (a1 & h1 & b1 & Q1 & Q2 & Q3).
      assert (h1 = g) by congruence. subst h1.
      (* the chosen one is not first in the list and w is its first waypoint *)
      assert (NG : choose w segs = Some g -> nonfirst w g \/ forall k, In k segs -> ~ nonfirst w k).
      { clear. induction segs as [|h segs IH] using rev_ind; [discriminate|]. rewrite choose_snoc.
        destruct (isin w (tl (s_wps h))) eqn:I.
        - intros X. injection X as ->. left. now apply isin_In.
        - apply isin_false in I. destruct (choose w segs) as [h'|] eqn:CH.
          + intros X. injection X as ->. destruct (IH eq_refl) as [Y|Y]; [auto|right].
            intros k K. apply in_app_or in K. destruct K as [K|[<-|[]]]; auto.
          + destruct (isin w (s_wps h)); [|discriminate]. intros _. right.
            intros k K. apply in_app_or in K. destruct K as [K|[<-|[]]]; [|auto].
            intros NF. destruct (choose_ge _ _ _ K NF) as (? & ? & ? & _ & Z & _). congruence. }
      destruct (NG C) as [Y|Y]; [auto|]. now apply (Y k). }
    destruct H as [H| ->].
    - rewrite G, map_app in S. cbn [map] in S.
      destruct (segmented_suffix _ _ _ _ S) as (l1 & l2 & EL & S2).
      assert (W2 : In w' (map w_num (tl l2))).
      { assert (I : In w (map w_num (tl l2))).
        { unfold nonfirst in H. apply in_map_iff in H. destruct H as (y & <- & H). apply in_map.
          eapply segmented_tl; [exact S2|left; reflexivity|auto]. }
        destruct l2 as [|z l2]; [easy|]. cbn [tl] in *.
        rewrite EL, map_app in E, ND. cbn [map] in E, ND.
        assert (E' : (map w_num l1 ++ [w_num z]) ++ map w_num l2 = p ++ w :: q)
          by (rewrite <- app_assoc; exact E).
        assert (ND' : NoDup ((map w_num l1 ++ [w_num z]) ++ map w_num l2))
          by (rewrite <- app_assoc; exact ND).
        apply app_eq_app in E'. destruct E' as (r & [(E1 & E2)|(E1 & E2)]).
        - destruct r as [|w0 r].
          + cbn in E2. rewrite <- E2. exact W.
          + exfalso. cbn in E2. injection E2 as <- E2.
            eapply (NoDup_app_out n P _ _ w ND'); [|exact I]. rewrite E1.
            apply in_or_app. right. left. auto.
        - rewrite E2. apply in_or_app. right. exact W. }
      apply in_map_iff in W2. destruct W2 as (y & <- & Y).
      destruct (segmented_cover_tl _ _ S2 y Y) as (k0 & K & YK).
      change (s_wps g :: map s_wps b) with (map s_wps (g :: b)) in K.
      apply in_map_iff in K. destruct K as (k & <- & K).
      assert (KN : nonfirst (w_num y) k) by (unfold nonfirst; now apply in_map).
      assert (KS : In k segs) by (rewrite G; apply in_or_app; right; exact K).
      destruct (choose_ge _ _ _ KS KN) as (a1 & h1 & b1 & Q1 & Q2 & Q3).
      assert (h1 = g') by congruence. subst h1.
      assert (s_cmd g <= s_cmd k).
      { destruct K as [->|K]; [lia|]. specialize (AS _ _ _ _ G K). lia. }
      assert (s_cmd k <= s_cmd g').
      { destruct Q3 as [->|Q3]; [lia|]. apply in_split in Q3. destruct Q3 as (p1 & q1 & ->).
        rewrite <- app_assoc in Q1. cbn in Q1. assert (s_cmd k < s_cmd g'); [|lia].
        apply (AS _ _ _ g' Q1). apply in_or_app. right. left. auto. }
      lia.
    - destruct (choose_some _ _ _ C') as (G' & _). rewrite G in G'. destruct G' as [<-|G']; [lia|].
      specialize (AS _ _ _ _ G G'). lia.
  Qed.
End Order.

(** * Histories *)

Section Hist.
  Context (c : cfg) (VP : 0 < c_vehicle c) (V2 : 2 <= c_overlap c)
          (VN : c_overlap c + 3 <= c_serve c).

  Let v := c_vehicle c.

  Definition ovl (o : nat) : Prop :=
    o = Z.to_nat (c_overlap c) \/
    o = Z.to_nat (c_serve c - c_overlap c - 1) /\ (o < Z.to_nat (c_overlap c))%nat.

  Lemma ovl2 o : ovl o -> (2 <= o)%nat.
  Proof. unfold ovl. lia. Qed.

  Definition nn : nat := Z.to_nat (c_serve c).

  Inductive kind (e : event) (s : wstate) : Prop :=
  | kMission m : mission_of v e = [m] -> wstep c s e = (newMission c m s, []) -> kind e s
  | kReport w : e = EvState v w -> wstep c s e = (getCurrent w s, []) -> kind e s
  | kTimer : e = EvTimer -> kind e s
  | kIds k : mission_of v e = [] -> report_of v e = [] ->
      wstep c s e = ({| p_segs := p_segs s; p_cur := p_cur s; p_next := p_next s;
                        p_ids := p_ids s + Z.of_nat k |}, []) -> kind e s.

  Lemma the_kind e s : kind e s.
  Proof.
    destruct e as [v' w|ms|v' m| |k].
    - destruct (v' =? v) eqn:E.
      + apply Z.eqb_eq in E as ->. eapply kReport; [reflexivity|]. cbn [wstep]. unfold v.
        now rewrite Z.eqb_refl.
      + apply (kIds _ _ 0%nat); cbn [mission_of report_of wstep]; unfold v in *; rewrite ?E; auto.
        rewrite Z.add_0_r. now destruct s.
    - cbn [wstep]. destruct (find (fun m => fst m =? c_vehicle c) ms) as [m|] eqn:F.
      + apply (kMission _ _ (snd m)); cbn [mission_of wstep]; unfold v; rewrite F; auto.
      + apply (kIds _ _ 0%nat); cbn [mission_of report_of wstep]; unfold v; rewrite ?F; auto.
        rewrite Z.add_0_r. now destruct s.
    - destruct (v' =? v) eqn:E.
      + apply (kMission _ _ m); cbn [mission_of wstep]; unfold v in *; rewrite E; auto.
      + apply (kIds _ _ 0%nat); cbn [mission_of report_of wstep]; unfold v in *; rewrite ?E; auto.
        rewrite Z.add_0_r. now destruct s.
    - now apply kTimer.
    - now apply (kIds _ _ k).
  Qed.

  Definition pending (s : wstate) : list seg := match p_next s with Some g => [g] | None => [] end.

  Lemma position_snoc evs e : position v (evs ++ [e]) = at_ v (position v evs) e.
  Proof. unfold position. now rewrite fold_left_app. Qed.

  Lemma plan_snoc evs e :
    plan v (evs ++ [e]) = match mission_of v e with (_ :: _) as m :: _ => m | _ => plan v evs end.
  Proof. unfold plan. now rewrite fold_left_app. Qed.

  (** The segments are those of the mission. *)
  Record cut (M : list wp) (s : wstate) : Prop := {
    c_fly : flyable M;
    c_seg : segmented nn ovl M (map s_wps (p_segs s));
    c_head : Forall (fun g => heading (s_wps g) = Some (s_first g)) (p_segs s);
    c_asc : ascending (p_segs s);
    c_lt : forall g, In g (p_segs s) -> s_cmd g < p_ids s
  }.

  Record on (M : list wp) (w : Z) (s : wstate) (out : list seg) : Prop := {
    o_cut : cut M s;
    o_in : In w (map w_num M);
    o_cur : exists g, choose w (p_segs s) = Some g /\ p_cur s = s_cmd g /\
              exists pre g', out ++ pending s = pre ++ [g'] /\ s_wps g' = s_wps g
  }.

  Definition good (evs : list event) (g : seg) : Prop :=
    exists w, (In w (flat_map (report_of v) evs) \/ hd_error (map w_num (plan v evs)) = Some w) /\
              part (s_wps g) (plan v evs) /\ (length (s_wps g) <= nn)%nat /\
              In w (map w_num (s_wps g)) /\ aims g w.

  Record inv (evs : list event) (s : wstate) (t : list (event * list seg)) : Prop := {
    i_ids : 0 <= p_cur s < p_ids s;
    i_next : forall g, p_next s = Some g -> s_cmd g = p_cur s;
    i_good : forall g, p_next s = Some g -> good evs g;
    i_pos : (fst (position v evs) = [] /\ snd (position v evs) = None /\ p_segs s = []) \/
            exists w, snd (position v evs) = Some w /\ plan v evs = fst (position v evs) /\
                      on (fst (position v evs)) w s (sent t);
    i_le : forward v evs -> forall g, In g (sent t ++ pending s) -> s_cmd g <= p_cur s;
    i_sorted : forward v evs ->
      forall a g b h, sent t ++ pending s = a ++ g :: b -> In h b -> s_cmd g < s_cmd h
  }.

  Lemma segmented_length {A} (l : list A) gs g :
    segmented nn ovl l gs -> In g gs -> (length g <= nn)%nat.
  Proof.
    induction 1 as [l N L|a d l gs L PC N NA S IH]; intros [<-|I]; try easy.
    - lia.
    - now apply IH.
  Qed.

  Lemma getCurrent_new w s g :
    choose w (p_segs s) = Some g -> s_cmd g <> p_cur s -> s_wps g <> [] ->
    heading (s_wps g) = Some (s_first g) ->
    exists g', getCurrent w s = {| p_segs := p_segs s; p_cur := s_cmd g; p_next := Some g';
                                   p_ids := p_ids s |} /\
      s_cmd g' = s_cmd g /\ s_wps g' = s_wps g /\ aims g' w.
  Proof.
    intros C N NE H. unfold getCurrent. rewrite C. apply Z.eqb_neq in N as ->.
    eexists. split; [reflexivity|]. unfold aims.
    destruct (s_wps g) as [|x l] eqn:E; [easy|].
    destruct (w =? w_num x) eqn:W; cbn [setFirst s_cmd s_wps s_first]; rewrite E;
      cbn [map hd_error]; rewrite W; auto.
  Qed.

  Lemma getCurrent_old w s :
    match choose w (p_segs s) with Some g => s_cmd g = p_cur s | None => True end ->
    getCurrent w s = s.
  Proof.
    unfold getCurrent. destruct (choose w (p_segs s)); [|auto]. intros ->. now rewrite Z.eqb_refl.
  Qed.

  Lemma snoc_tail {A} (l : list A) x (R : A -> A -> Prop) :
    (forall a g b h, l = a ++ g :: b -> In h b -> R g h) -> (forall g, In g l -> R g x) ->
    forall a g b h, l ++ [x] = a ++ g :: b -> In h b -> R g h.
  Proof.
    intros H1 H2 a g b h E I. destruct b as [|y b _] using rev_ind; [easy|].
    rewrite app_comm_cons, app_assoc in E. apply app_inj_tail in E. destruct E as (E & <-).
    apply in_app_or in I. destruct I as [I|[<-|[]]]; [eauto|].
    apply H2. rewrite E. apply in_or_app. right. left. auto.
  Qed.

  Lemma prefix_tail {A} (l r : list A) (R : A -> A -> Prop) :
    (forall a g b h, l ++ r = a ++ g :: b -> In h b -> R g h) ->
    forall a g b h, l = a ++ g :: b -> In h b -> R g h.
  Proof.
    intros H a g b h -> I. apply (H a g (b ++ r)); [now rewrite <- app_assoc|].
    apply in_or_app. auto.
  Qed.

  Lemma forward_prefix evs e : forward v (evs ++ [e]) -> forward v evs.
  Proof.
    intros F a w b w0 E. apply (F a w (b ++ [e]) w0). rewrite E, <- app_assoc. reflexivity.
  Qed.

  Lemma good_snoc evs e g :
    match mission_of v e with (_ :: _) :: _ => False | _ => True end ->
    good evs g -> good (evs ++ [e]) g.
  Proof.
    intros M (w & W & H). exists w. rewrite plan_snoc, flat_map_app, in_app_iff.
    destruct (mission_of v e) as [|[|x m] ?]; [| |easy]; tauto.
  Qed.

  (** Choosing another segment for waypoint [w] of the mission. *)
  Lemma inv_switch evs e s t w M :
    0 <= p_cur s < p_ids s ->
    (forall g, p_next s = Some g -> s_cmd g = p_cur s) ->
    (forall g, p_next s = Some g -> good (evs ++ [e]) g) ->
    position v (evs ++ [e]) = (M, Some w) -> plan v (evs ++ [e]) = M ->
    (In w (flat_map (report_of v) (evs ++ [e])) \/ hd_error (map w_num M) = Some w) ->
    cut M s -> In w (map w_num M) ->
    (forall g, choose w (p_segs s) = Some g -> s_cmd g = p_cur s ->
       exists pre g', sent t ++ pending s = pre ++ [g'] /\ s_wps g' = s_wps g) ->
    (forall g, In g (p_segs s) -> 0 <= s_cmd g) ->
    (forward v (evs ++ [e]) -> forall g, In g (sent t ++ pending s) -> s_cmd g <= p_cur s) ->
    (forward v (evs ++ [e]) ->
      forall a g b h, sent t ++ pending s = a ++ g :: b -> In h b -> s_cmd g < s_cmd h) ->
    (forward v (evs ++ [e]) -> forall g, choose w (p_segs s) = Some g -> p_cur s <= s_cmd g) ->
    inv (evs ++ [e]) (getCurrent w s) (t ++ [(e, [])]).
  Proof.
    intros ID NX GD PO PL WW CU WM OLD NN LE SO UP.
    assert (CU' := CU). destruct CU' as [F S H A L].
    destruct (choose_in nn ovl M (p_segs s) w S WM) as (g & C & G & GW).
    destruct (Z.eq_dec (s_cmd g) (p_cur s)) as [E|E].
    - rewrite getCurrent_old by (now rewrite C).
      constructor; auto; rewrite ?sent_snoc, ?app_nil_r; auto.
      right. exists w. rewrite PO. cbn [fst snd]. do 2 (split; [auto|]).
      constructor; auto. exists g. do 2 (split; [auto|]).
      auto.
    - assert (HG : heading (s_wps g) = Some (s_first g)) by (rewrite Forall_forall in H; auto).
      destruct (segmented_ne _ _ _ _ S) as (_ & NEG).
      destruct (getCurrent_new w s g C E (NEG _ (in_map s_wps _ _ G)) HG) as (g' & -> & E1 & E2 & AI).
      specialize (L g G) as LG. specialize (NN g G) as NG.
      constructor; cbn [p_cur p_ids p_next p_segs]; rewrite ?sent_snoc, ?app_nil_r.
      + lia.
      + intros h X. injection X as <-. auto.
      + intros h X. injection X as <-. exists w. rewrite PL, E2. split; [auto|].
        split; [eapply segmented_part; [exact S|now apply in_map]|].
        split; [eapply segmented_length; [exact S|now apply in_map]|]. auto.
      + right. exists w. rewrite PO. cbn [fst snd]. do 2 (split; [auto|]).
        constructor; [|auto|].
        * constructor; auto.
        * cbn [p_segs p_cur]. exists g. do 2 (split; [auto|]). exists (sent t), g'.
          split; [now rewrite ?sent_snoc, ?app_nil_r|auto].
      + intros FW h. cbn [pending p_next]. unfold pending. cbn [p_next]. rewrite in_app_iff.
        intros [I|[<-|[]]]; [|lia].
        specialize (LE FW h). specialize (UP FW g C). rewrite in_app_iff in LE.
        specialize (LE (or_introl I)). lia.
      + intros FW. unfold pending. cbn [p_next]. apply snoc_tail.
        * eapply prefix_tail. apply (SO FW).
        * intros h I. specialize (LE FW h). specialize (UP FW g C). rewrite in_app_iff in LE.
          specialize (LE (or_introl I)). lia.
  Qed.

  Lemma isin_existsb w l : existsb (fun x => w_num x =? w) l = isin w l.
  Proof. reflexivity. Qed.

  Lemma inv_step evs e s t s' o :
    sensible v (evs ++ [e]) -> inv evs s t -> (forall g, In g (p_segs s) -> 0 <= s_cmd g) ->
    wstep c s e = (s', o) ->
    inv (evs ++ [e]) s' (t ++ [(e, o)]) /\ (forall g, In g (p_segs s') -> 0 <= s_cmd g).
  Proof.
    intros SE I NN E. destruct (the_kind e s) as [m K1 K2|w K1 K2|K1|k K1 K2 K3].
    - rewrite K2 in E. injection E as <- <-.
      destruct I as [ID NX GD PO LE SO].
      assert (PP : position v (evs ++ [e]) = (m, hd_error (map w_num m)))
        by (rewrite position_snoc; unfold at_; now rewrite K1).
      destruct m as [|x m].
      + unfold newMission, initPlan. destruct (Z.ltb_spec 0 (c_vehicle c)); [|lia]. split; [|easy].
        constructor; cbn [p_cur p_ids p_next p_segs]; rewrite ?sent_snoc, ?app_nil_r; auto.
        * intros g G. apply good_snoc; [now rewrite K1|auto].
        * left. rewrite PP. auto.
        * intros F. apply LE. eapply forward_prefix; eauto.
        * intros F. apply SO. eapply forward_prefix; eauto.
      + assert (FL : flyable (x :: m)).
        { destruct (SE e (x :: m)) as [?|?]; [apply in_or_app; right; left; auto|rewrite K1; left; auto|easy|auto]. }
        assert (FL' := FL). destruct FL' as (NE & ND & NNW).
        unfold newMission.
        destruct (init_ok c (p_ids s) (x :: m) (p_segs s) VP V2 ltac:(lia) NE NNW) as (segs & EI & CM & SG & HD).
        rewrite EI. set (s1 := {| p_segs := segs |}).
        assert (SG' : segmented nn ovl (x :: m) (map s_wps segs)) by exact SG.
        destruct segs as [|g0 segs]; [now apply segmented_ne in SG'|].
        destruct (choose_start nn ovl x m g0 segs SG' ND) as (CH & _).
        assert (RG : forall g, In g (g0 :: segs) ->
                   p_ids s <= s_cmd g < p_ids s + Z.of_nat (length (g0 :: segs))).
        { intros g G. apply (in_map s_cmd) in G. rewrite CM in G. apply in_map_iff in G.
          destruct G as (k & <- & G). apply in_seq in G. lia. }
        assert (GS : exists g', getCurrent (w_num x) s1 =
             {| p_segs := g0 :: segs; p_cur := s_cmd g0; p_next := Some g'; p_ids := p_ids s1 |} /\
             s_cmd g' = s_cmd g0 /\ s_wps g' = s_wps g0 /\ aims g' (w_num x)).
        { apply (getCurrent_new (w_num x) s1 g0 CH).
          - specialize (RG g0 (or_introl eq_refl)). cbn [s1 p_cur]. lia.
          - apply segmented_ne in SG'. apply SG'. left. auto.
          - specialize (HD ltac:(lia)). inversion HD. auto. }
        destruct GS as (g' & -> & E1 & E2 & AI). cbn [s1 p_ids].
        assert (RG0 := RG g0 (or_introl eq_refl)).
        assert (PL : plan v (evs ++ [e]) = x :: m) by (rewrite plan_snoc, K1; reflexivity).
        split; [|cbn [p_segs]; intros g G; specialize (RG g G); lia].
        constructor; cbn [p_cur p_ids p_next p_segs]; rewrite ?sent_snoc, ?app_nil_r.
        * lia.
        * intros h X. injection X as <-. auto.
        * intros h X. injection X as <-. exists (w_num x). rewrite PL, E2.
          split; [now right|].
          split; [eapply segmented_part; [exact SG'|left; auto]|].
          split; [eapply segmented_length; [exact SG'|left; auto]|].
          split; [|auto]. now apply choose_some in CH.
        * right. exists (w_num x). rewrite PP. cbn [fst snd map hd_error]. do 2 (split; [auto|]).
          constructor; [|left; auto|].
          -- constructor; cbn [p_segs p_ids]; auto.
             ++ eapply ascending_seq; eauto.
             ++ intros g G. specialize (RG g G). lia.
          -- cbn [p_segs p_cur]. exists g0. do 2 (split; [auto|]). exists (sent t), g'.
             split; [now rewrite ?sent_snoc, ?app_nil_r|auto].
        * intros FW h. unfold pending. cbn [p_next]. rewrite in_app_iff.
          intros [I|[<-|[]]]; [|lia]. apply forward_prefix in FW. specialize (LE FW h).
          rewrite in_app_iff in LE. specialize (LE (or_introl I)). lia.
        * intros FW. apply forward_prefix in FW. unfold pending. cbn [p_next]. apply snoc_tail.
          -- eapply prefix_tail. apply (SO FW).
          -- intros h I. specialize (LE FW h). rewrite in_app_iff in LE.
             specialize (LE (or_introl I)). lia.
    - rewrite K2 in E. injection E as <- <-. subst e.
      assert (M0 : mission_of v (EvState v w) = []) by reflexivity.
      assert (R0 : report_of v (EvState v w) = [w]) by (cbn; now rewrite Z.eqb_refl).
      assert (SS : p_segs (getCurrent w s) = p_segs s).
      { unfold getCurrent. destruct (choose w (p_segs s)) as [g|]; [|auto].
        now destruct (s_cmd g =? p_cur s). }
      split; [|now rewrite SS].
      destruct I as [ID NX GD PO LE SO].
      assert (PS : position v (evs ++ [EvState v w]) =
                   (fst (position v evs), if isin w (fst (position v evs)) then Some w else snd (position v evs))).
      { rewrite position_snoc. unfold at_. now rewrite M0, R0. }
      assert (GD' : forall g, p_next s = Some g -> good (evs ++ [EvState v w]) g).
      { intros g G. apply good_snoc; [now rewrite M0|auto]. }
      assert (PL : plan v (evs ++ [EvState v w]) = plan v evs) by (rewrite plan_snoc, M0; auto).
      destruct PO as [(P1 & P2 & P3)|(w0 & P1 & P2 & O)].
      + rewrite getCurrent_old by (now rewrite P3).
        constructor; rewrite ?sent_snoc, ?app_nil_r; auto.
        * left. rewrite PS, P1, P2. auto.
        * intros F. apply LE. eapply forward_prefix; eauto.
        * intros F. apply SO. eapply forward_prefix; eauto.
      + assert (O' := O). destruct O' as [CU IN (g0 & C0 & CC & pre & gl & EL & EW)].
        assert (CU' := CU). destruct CU' as [F S H A L].
        destruct (isin w (fst (position v evs))) eqn:IW.
        * apply (inv_switch evs _ s t w (fst (position v evs))); auto.
          -- congruence.
          -- left. rewrite flat_map_app, in_app_iff. right. cbn [flat_map]. rewrite R0. left. auto.
          -- now apply isin_In.
          -- intros g C E. assert (g = g0); [|subst g; eauto].
             eapply ascending_inj; eauto.
             ++ now apply choose_some in C.
             ++ now apply choose_some in C0.
             ++ congruence.
          -- intros FW. apply LE. eapply forward_prefix; eauto.
          -- intros FW. apply SO. eapply forward_prefix; eauto.
          -- intros FW g C. rewrite CC.
             eapply (choose_mono nn ovl ovl2); eauto.
             ++ apply F.
             ++ apply (FW evs w [] w0 eq_refl P1). now apply isin_In.
        * apply isin_false in IW. rewrite getCurrent_old by (now rewrite (choose_out nn ovl _ _ _ S IW)).
          constructor; rewrite ?sent_snoc, ?app_nil_r; auto.
          -- right. exists w0. rewrite PS. cbn [fst snd]. split; [auto|]. split; [congruence|auto].
          -- intros FW. apply LE. eapply forward_prefix; eauto.
          -- intros FW. apply SO. eapply forward_prefix; eauto.
    - subst e. cbn [wstep] in E. injection E as <- <-. split; [|auto].
      destruct I as [ID NX GD PO LE SO].
      constructor; cbn [p_cur p_ids p_next p_segs]; unfold pending; cbn [p_next];
        rewrite ?sent_snoc, ?app_nil_r; auto; try discriminate.
      + rewrite position_snoc, plan_snoc. cbn [at_ mission_of report_of].
        destruct PO as [PO|(w0 & P1 & P2 & [CU IN OC])]; [auto|right].
        exists w0. do 2 (split; [auto|]). constructor; [|auto|].
        * destruct CU. constructor; auto.
        * cbn [p_segs p_cur]. unfold pending. cbn [p_next]. now rewrite app_nil_r.
      + intros F. apply LE. eapply forward_prefix; eauto.
      + intros F. apply SO. eapply forward_prefix; eauto.
    - rewrite K3 in E. injection E as <- <-. split; [|auto].
      destruct I as [ID NX GD PO LE SO].
      constructor; cbn [p_cur p_ids p_next p_segs]; unfold pending; cbn [p_next];
        rewrite ?sent_snoc, ?app_nil_r; auto.
      + lia.
      + intros g G. apply good_snoc; [now rewrite K1|auto].
      + rewrite position_snoc, plan_snoc. unfold at_. rewrite K1, K2.
        destruct PO as [PO|(w0 & P1 & P2 & [CU IN OC])]; [auto|right].
        exists w0. do 2 (split; [auto|]). constructor; auto.
        destruct CU as [? ? ? ? L]. constructor; auto. cbn [p_segs p_ids]. intros g G. specialize (L g G). lia.
      + intros F. apply LE. eapply forward_prefix; eauto.
      + intros F. apply SO. eapply forward_prefix; eauto.
  Qed.

  Lemma inv_run evs :
    sensible v evs ->
    inv evs (fst (run (wstep c) winit evs)) (snd (run (wstep c) winit evs)) /\
    (forall g, In g (p_segs (fst (run (wstep c) winit evs))) -> 0 <= s_cmd g).
  Proof.
    revert evs. apply (run_inv (wstep c) winit (fun evs s t => sensible v evs -> inv evs s t /\
                                                 forall g, In g (p_segs s) -> 0 <= s_cmd g)).
    - intros _. split; [|easy]. constructor; cbn; try easy; auto.
      + intros _ a. destruct a; discriminate.
    - intros evs e s t s' o IH E _ SE. destruct IH as (IH & NN).
      { intros e' m X. apply SE. apply in_or_app. auto. }
      eapply inv_step; eauto.
  Qed.

  (** A new mission leaves its first part to be sent. *)
  Lemma newMission_next s x m :
    p_cur s < p_ids s -> flyable (x :: m) ->
    exists g r, p_next (newMission c (x :: m) s) = Some g /\ x :: m = s_wps g ++ r /\
                heading (s_wps g) = Some (s_first g).
  Proof.
    intros ID (NE & ND & NNW). unfold newMission.
    destruct (init_ok c (p_ids s) (x :: m) (p_segs s) VP V2 ltac:(lia) NE NNW) as (segs & EI & CM & SG & HD).
    rewrite EI. destruct segs as [|g0 segs]; [now apply segmented_ne in SG|].
    destruct (choose_start _ _ x m g0 segs SG ND) as (CH & r & R).
    specialize (HD ltac:(lia)). inversion HD as [|? ? H0 _]. subst.
    unfold getCurrent. cbn [p_segs p_cur]. rewrite CH.
    cbn [map length seq] in CM. injection CM as C0 _.
    destruct (Z.eqb_spec (s_cmd g0) (p_cur s)); [lia|]. cbn [p_next].
    exists g0, r. split; [|auto]. destruct (s_wps g0) as [|y l]; [reflexivity|].
    injection R as <- _. now rewrite Z.eqb_refl.
  Qed.
End Hist.

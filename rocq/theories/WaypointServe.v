(** Proofs about choosing and sending segments. *)
From Coq Require Import List ZArith Bool Lia.
From Verif Require Import Run WaypointModel WaypointSpec WaypointProofs.
Import ListNotations.
Open Scope list_scope.
Open Scope Z_scope.

(** * Choosing *)

Definition isin (w : Z) (l : list wp) : bool := existsb (fun x => w_num x =? w) l.

Lemma isin_In w l : isin w l = true <-> In w (map w_num l).
Proof.
  unfold isin. rewrite existsb_exists, in_map_iff. split.
  - intros (x & I & E). apply Z.eqb_eq in E. eauto.
  - intros (x & E & I). exists x. split; [auto|]. now apply Z.eqb_eq.
Qed.

Lemma isin_false w l : isin w l = false <-> ~ In w (map w_num l).
Proof. rewrite <- isin_In. destruct (isin w l); split; congruence. Qed.

Lemma scan_rest w s l temp : scan w s false l temp = if isin w l then Some s else temp.
Proof.
  revert temp. induction l as [|x l IH]; intros temp; [reflexivity|].
  cbn [scan isin existsb negb orb]. rewrite IH. fold (isin w l).
  destruct (w_num x =? w); cbn [orb]; destruct (isin w l); reflexivity.
Qed.

Lemma scan_spec w s l temp :
  scan w s true l temp =
  if isin w (tl l) then Some s
  else match temp with
       | Some g => Some g
       | None => if isin w l then Some s else None
       end.
Proof.
  destruct l as [|x l]; cbn [scan tl].
  - cbn. destruct temp; reflexivity.
  - rewrite scan_rest. cbn [isin existsb negb orb]. fold (isin w l).
    destruct (isin w l); [reflexivity|]. rewrite orb_false_r.
    destruct (w_num x =? w), temp; reflexivity.
Qed.

Definition nonfirst (w : Z) (g : seg) : Prop := In w (map w_num (tl (s_wps g))).

Lemma choose_snoc w gs g :
  choose w (gs ++ [g]) =
  if isin w (tl (s_wps g)) then Some g
  else match choose w gs with
       | Some h => Some h
       | None => if isin w (s_wps g) then Some g else None
       end.
Proof.
  unfold choose. rewrite fold_left_app. cbn [fold_left]. apply scan_spec.
Qed.

Lemma choose_some w gs g : choose w gs = Some g -> In g gs /\ In w (map w_num (s_wps g)).
Proof.
  induction gs as [|h gs IH] using rev_ind; [discriminate|]. rewrite choose_snoc.
  destruct (isin w (tl (s_wps h))) eqn:A.
  - intros E. injection E as <-. split; [apply in_or_app; right; left; auto|].
    apply isin_In in A. destruct (s_wps h); [easy|]. now right.
  - destruct (choose w gs) as [h'|].
    + intros E. destruct (IH E). split; [apply in_or_app|]; auto.
    + destruct (isin w (s_wps h)) eqn:B; [|discriminate]. intros E. injection E as <-.
      split; [apply in_or_app; right; left; auto|]. now apply isin_In.
Qed.

Lemma choose_last w a g b :
  nonfirst w g -> (forall h, In h b -> ~ nonfirst w h) -> choose w (a ++ g :: b) = Some g.
Proof.
  intros N. induction b as [|h b IH] using rev_ind; intros H.
  - rewrite choose_snoc. unfold nonfirst in N. apply isin_In in N. now rewrite N.
  - rewrite app_comm_cons, app_assoc, choose_snoc.
    assert (B : isin w (tl (s_wps h)) = false).
    { apply isin_false. apply H. apply in_or_app. right. left. auto. }
    rewrite B, IH; [reflexivity|]. intros h' I. apply H. apply in_or_app. auto.
Qed.

Lemma choose_head w g b :
  In w (map w_num (s_wps g)) -> (forall h, In h b -> ~ nonfirst w h) ->
  choose w (g :: b) = Some g.
Proof.
  intros N. induction b as [|h b IH] using rev_ind; intros H.
  - change [g] with ([] ++ [g]). rewrite choose_snoc. apply isin_In in N. rewrite N. cbn.
    destruct (isin w (tl (s_wps g))); reflexivity.
  - rewrite app_comm_cons, choose_snoc.
    assert (B : isin w (tl (s_wps h)) = false).
    { apply isin_false. apply H. apply in_or_app. right. left. auto. }
    rewrite B, IH; [reflexivity|]. intros h' I. apply H. apply in_or_app. auto.
Qed.

(** The last segment in which [w] is not first is chosen, or an earlier one if there is none. *)
Lemma choose_ge w gs g :
  In g gs -> nonfirst w g ->
  exists a h b, gs = a ++ h :: b /\ choose w gs = Some h /\ (h = g \/ In g a).
Proof.
  induction gs as [|h gs IH] using rev_ind; [easy|]. intros I N. rewrite choose_snoc.
  destruct (isin w (tl (s_wps h))) eqn:B.
  - exists gs, h, []. split; [auto|]. split; [auto|].
    apply in_app_or in I. destruct I as [I|[I|[]]]; auto.
  - apply in_app_or in I. destruct I as [I|[<-|[]]].
    + destruct (IH I N) as (a & h' & b & -> & C & D). exists a, h', (b ++ [h]).
      split; [now rewrite <- app_assoc|]. rewrite C. auto.
    + exfalso. unfold nonfirst in N. apply isin_In in N. congruence.
Qed.

(** * Segments of a mission *)

Section Segs.
  Context (n : nat) (P : nat -> Prop).

  Lemma segmented_incl {A} (l : list A) gs : segmented n P l gs -> forall g, In g gs -> incl g l.
  Proof.
    induction 1 as [l N L|a c l gs L PC N NA S IH]; intros g [<-|I]; try easy.
    - rewrite app_assoc. apply incl_appl, incl_refl.
    - intros x X. apply in_or_app. right. now apply (IH g).
  Qed.

  Lemma tl_app {A} (a b : list A) : a <> [] -> tl (a ++ b) = tl a ++ b.
  Proof. destruct a; easy. Qed.

  Lemma segmented_tl {A} (l : list A) gs :
    segmented n P l gs -> forall g, In g gs -> incl (tl g) (tl l).
  Proof.
    induction 1 as [l N L|a c l gs L PC N NA S IH]; intros g [<-|I]; try easy.
    - rewrite (tl_app a c), (tl_app a) by auto. rewrite app_assoc. apply incl_appl, incl_refl.
    - intros x X. specialize (IH g I x X). rewrite tl_app by auto. apply in_or_app. right.
      destruct (c ++ l); [easy|]. now right.
  Qed.

  Lemma segmented_part {A} (l : list A) gs : segmented n P l gs -> forall g, In g gs -> part g l.
  Proof.
    induction 1 as [l N L|a c l gs L PC N NA S IH]; intros g [<-|I]; try easy.
    - exists [], []. now rewrite app_nil_r.
    - exists [], l. now rewrite <- app_assoc.
    - destruct (IH g I) as (p & q & E). exists (a ++ p), q. now rewrite E, <- app_assoc.
  Qed.

  Lemma segmented_cover {A} (l : list A) gs :
    segmented n P l gs -> forall x, In x l -> exists g, In g gs /\ In x g.
  Proof.
    induction 1 as [l N L|a c l gs L PC N NA S IH]; intros x I.
    - exists l. cbn. auto.
    - rewrite app_assoc in I. apply in_app_or in I. destruct I as [I|I].
      + exists (a ++ c). cbn. auto.
      + destruct (IH x) as (g & G & X); [apply in_or_app; auto|]. exists g. cbn. auto.
  Qed.

  Lemma segmented_ne {A} (l : list A) gs : segmented n P l gs -> gs <> [] /\ forall g, In g gs -> g <> [].
  Proof.
    induction 1 as [l N L|a c l gs L PC N NA S IH]; (split; [discriminate|]); intros g [<-|I]; try easy.
    - destruct a; easy.
    - now apply IH.
  Qed.

  Lemma NoDup_app_l {A} (a b : list A) : NoDup (a ++ b) -> NoDup a.
  Proof.
    induction a as [|x a IH]; [constructor|]. cbn. intros N. inversion N; subst. constructor; auto.
    rewrite in_app_iff in *. tauto.
  Qed.

  Lemma NoDup_app_r {A} (a b : list A) : NoDup (a ++ b) -> NoDup b.
  Proof. induction a as [|x a IH]; [auto|]. cbn. intros N. inversion N; auto. Qed.

  Lemma NoDup_app_out {A} (a b : list A) x : NoDup (a ++ b) -> In x a -> In x b -> False.
  Proof.
    induction a as [|y a IH]; [easy|]. cbn. intros N [->|I] J; inversion N; subst.
    - rewrite in_app_iff in *. tauto.
    - eauto.
  Qed.

  (** A waypoint and its successor: the segment chosen for the waypoint has both. *)
  Lemma follows_app_r a l x y : follows l x y -> follows (a ++ l) x y.
  Proof. intros (p & q & ->). exists (a ++ p), q. now rewrite <- app_assoc. Qed.

  Lemma follows_in l x y : follows l x y -> In x l /\ In y (tl l).
  Proof.
    intros (p & q & ->). split.
    - apply in_or_app. right. left. auto.
    - destruct p as [|z p]; cbn; [auto|]. apply in_or_app. right. right. left. auto.
  Qed.

  Lemma chosen gs : forall l segs x y,
    segmented n P l gs -> map s_wps segs = gs -> (forall o, P o -> (2 <= o)%nat) ->
    NoDup (map w_num l) -> follows l x y ->
    exists a g b, segs = a ++ g :: b /\ follows (s_wps g) x y /\
      (forall h, In h b -> ~ nonfirst (w_num x) h) /\
      (nonfirst (w_num x) g \/ (a = [] /\ hd_error (map w_num l) = Some (w_num x))).
  Proof.
    intros l segs x y S. revert segs x y.
    induction S as [l N L|a c l gs L PC N NA S IH]; intros segs x y E P2 ND F.
    - destruct segs as [|g [|? ?]]; try discriminate. cbn in E. injection E as E.
      exists [], g, []. split; [auto|]. split; [now rewrite E|]. split; [easy|].
      apply follows_in in F. destruct F as (F & _). unfold nonfirst. rewrite E.
      destruct l as [|z l]; [easy|]. destruct F as [->|F]; [auto|]. left. now apply in_map.
    - destruct segs as [|g segs]; [discriminate|]. cbn in E. injection E as Eg Es.
      specialize (P2 _ PC) as C2.
      assert (ND' : NoDup (map w_num (c ++ l))) by (rewrite map_app in ND; now apply NoDup_app_r in ND).
      destruct F as (p & q & F).
      destruct (in_dec Z.eq_dec (w_num x) (map w_num (tl (c ++ l)))) as [I|I].
      + (* not first in the remainder *)
        assert (FR : follows (c ++ l) x y).
        { apply app_eq_app in F. destruct F as (z & [(E1 & E2)|(E1 & E2)]).
          - destruct z as [|x' z].
            + cbn in E2. rewrite <- E2. exists [], q. reflexivity.
            + exfalso. cbn in E2. injection E2 as <- E2. rewrite E1 in ND.
              rewrite map_app in ND. eapply (NoDup_app_out _ _ (w_num x) ND).
              * apply in_map, in_or_app. right. left. auto.
              * destruct (c ++ l); [easy|]. now right.
          - exists z, q. exact E2. }
        destruct (IH segs x y Es P2 ND' FR) as (a' & h & b & H1 & H2 & H3 & H4).
        exists (g :: a'), h, b. split; [now rewrite H1|]. split; [auto|]. split; [auto|].
        left. destruct H4 as [H4|(_ & H4)]; [auto|]. exfalso.
        destruct (c ++ l) as [|z r]; [easy|]. cbn in H4, I, ND'. injection H4 as H4.
        inversion ND'. congruence.
      + exists [], g, segs. split; [auto|]. rewrite Eg.
        assert (OUT : forall r, In x r -> incl r (tl (c ++ l)) -> False).
        { intros r R Q. apply I, in_map, Q, R. }
        assert (FC : follows (a ++ c) x y).
        { assert (F' : (a ++ c) ++ l = (p ++ [x; y]) ++ q) by (rewrite <- !app_assoc; exact F).
          apply app_eq_app in F'. destruct F' as (z & [(E1 & E2)|(E1 & E2)]).
          - exists p, z. rewrite E1, <- app_assoc. reflexivity.
          - destruct z as [|y' z _] using rev_ind.
            { exists p, []. rewrite app_nil_r in E1. auto. }
            exfalso. replace (p ++ [x; y]) with ((p ++ [x]) ++ [y]) in E1 by (rewrite <- app_assoc; reflexivity).
            rewrite app_assoc in E1. apply app_inj_tail in E1. destruct E1 as (E1 & <-).
            assert (TC : tl (c ++ l) = tl c ++ l) by (apply tl_app; destruct c; cbn in C2; [lia|easy]).
            destruct z as [|x' z _] using rev_ind.
            + rewrite app_nil_r in E1.
              destruct c as [|c1 c _] using rev_ind; [cbn in C2; lia|].
              rewrite app_assoc in E1. apply app_inj_tail in E1. destruct E1 as (E1 & ->).
              apply (OUT (tl (c ++ [c1]))).
              * rewrite tl_app; [apply in_or_app; right; left; auto|].
                destruct c; cbn in C2; [lia|easy].
              * rewrite TC. apply incl_appl, incl_refl.
            + rewrite app_assoc in E1. apply app_inj_tail in E1. destruct E1 as (E1 & ->).
              apply (OUT l).
              * rewrite E2. apply in_or_app. left. apply in_or_app. left. apply in_or_app. right. left. auto.
              * rewrite TC. apply incl_appr, incl_refl. }
        split; [exact FC|]. split.
        * intros h H NF. apply I. unfold nonfirst in NF. apply in_map_iff in NF.
          destruct NF as (x' & E1 & NF). rewrite <- E1. apply in_map.
          eapply (segmented_tl _ _ S (s_wps h)); [rewrite <- Es; now apply in_map|exact NF].
        * apply follows_in in FC. destruct FC as (FC & _). unfold nonfirst. rewrite Eg.
          destruct a as [|a0 a]; [easy|]. destruct FC as [<-|FC]; [auto|]. left. now apply in_map.
  Qed.

  Lemma choose_follows l segs x y :
    segmented n P l (map s_wps segs) -> (forall o, P o -> (2 <= o)%nat) ->
    NoDup (map w_num l) -> follows l x y ->
    exists g, choose (w_num x) segs = Some g /\ In g segs /\ follows (s_wps g) x y.
  Proof.
    intros S P2 ND F. destruct (chosen _ _ segs x y S eq_refl P2 ND F) as (a & g & b & E & FG & NB & H).
    exists g. split; [|split; [rewrite E; apply in_or_app; right; left; auto|auto]].
    destruct H as [H|(-> & _)]; rewrite E; [now apply choose_last|].
    cbn [app]. apply choose_head; [|auto]. apply in_map. now apply follows_in in FG.
  Qed.

  (** A waypoint of the mission is always found. *)
  Lemma choose_in l segs w :
    segmented n P l (map s_wps segs) -> In w (map w_num l) ->
    exists g, choose w segs = Some g /\ In g segs /\ In w (map w_num (s_wps g)).
  Proof.
    intros S I. apply in_map_iff in I. destruct I as (x & <- & I).
    destruct (segmented_cover _ _ S x I) as (g0 & G & X). apply in_map_iff in G.
    destruct G as (g & <- & G).
    destruct (choose (w_num x) segs) as [h|] eqn:C.
    - exists h. split; [auto|]. now apply choose_some in C.
    - exfalso. apply (in_map w_num) in X. clear - G X C. revert G C.
      induction segs as [|h segs IH] using rev_ind; [easy|]. intros G. rewrite choose_snoc.
      destruct (isin (w_num x) (tl (s_wps h))); [discriminate|].
      destruct (choose (w_num x) segs); [discriminate|].
      apply in_app_or in G. destruct G as [G|[->|[]]].
      + intros _. now apply IH.
      + apply isin_In in X. now rewrite X.
  Qed.

  Lemma choose_out l segs w :
    segmented n P l (map s_wps segs) -> ~ In w (map w_num l) -> choose w segs = None.
  Proof.
    intros S N. destruct (choose w segs) as [g|] eqn:C; [|reflexivity]. exfalso. apply N.
    apply choose_some in C. destruct C as (G & W). apply in_map_iff in W.
    destruct W as (x & <- & W). apply in_map.
    eapply (segmented_incl _ _ S (s_wps g)); [now apply in_map|auto].
  Qed.
End Segs.

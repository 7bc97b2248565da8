(** Property C37: the operating region. *)
From Coq Require Import List ZArith Bool Lia.
From Verif Require Import Run RegionModel RegionSpec.
Import ListNotations.
Open Scope list_scope.
Open Scope Z_scope.

Lemma isRemoval_spec z : isRemoval z = true <-> withdraws z.
Proof. unfold isRemoval, withdraws. rewrite andb_true_iff, !Z.eqb_eq. reflexivity. Qed.

Lemma isNew_spec id l : isNew id l = true <-> ~ In id l.
Proof.
  unfold isNew. rewrite negb_true_iff, <- not_true_iff_false, existsb_exists. split; intros H C; apply H.
  - exists id. split; [exact C|apply Z.eqb_refl].
  - destruct C as (x & I & E). apply Z.eqb_eq in E. subst. exact I.
Qed.

Lemma In_drop x id l : In x (drop id l) <-> In x l /\ x <> id.
Proof. unfold drop. rewrite filter_In, negb_true_iff, Z.eqb_neq. reflexivity. Qed.

Lemma NoDup_drop id l : NoDup l -> NoDup (drop id l).
Proof. apply NoDup_filter. Qed.

Lemma drops_spec ids : forall l x, In x (fold_left (fun l z => drop z l) ids l) <-> In x l /\ ~ In x ids.
Proof.
  induction ids as [|i ids IH]; intros l x; cbn; [tauto|]. rewrite IH, In_drop. intuition congruence.
Qed.

Lemma drops_NoDup ids : forall l, NoDup l -> NoDup (fold_left (fun l z => drop z l) ids l).
Proof. induction ids; intros l H; cbn; auto. apply IHids, NoDup_drop, H. Qed.

Lemma live_snoc (d r : event -> Prop) evs e :
  (d e -> ~ r e) -> live d r (evs ++ [e]) <-> d e \/ (live d r evs /\ ~ r e).
Proof.
  intros X. split.
  - intros (a & x & b & E & D & N). destruct b as [|y b _] using rev_ind.
    + apply app_inj_tail in E. destruct E as (-> & ->). left; exact D.
    + rewrite app_comm_cons, app_assoc in E. apply app_inj_tail in E. destruct E as (-> & ->).
      right. split; [|apply N, in_or_app; right; left; reflexivity].
      exists a, x, b. split; [reflexivity|]. split; [exact D|]. intros q Q. apply N, in_or_app. auto.
  - intros [D|((a & x & b & -> & D & N) & R)].
    + exists evs, e, []. split; [reflexivity|]. split; [exact D|]. intros q [].
    + exists a, x, (b ++ [e]). split; [rewrite <- app_assoc; reflexivity|]. split; [exact D|].
      intros q Q. apply in_app_or in Q. destruct Q as [Q|[<-|[]]]; [apply N, Q|exact R].
Qed.

Lemma excl_in id e : defines_in id e -> ~ removes_in id e.
Proof.
  intros (z & -> & _ & N) [(z' & E & _ & W)|(ids & E & _)]; [injection E as <-; contradiction|discriminate].
Qed.

Lemma excl_out id e : defines_out id e -> ~ removes_out id e.
Proof.
  intros (z & -> & _ & N) [(z' & E & _ & W)|(ids & E & _)]; [injection E as <-; contradiction|discriminate].
Qed.

Section Props.
  Context (additional : Z).

  Definition history (evs : list event) : list (event * list output) := snd (run (step additional) init evs).
  Definition state_of (evs : list event) : state := fst (run (step additional) init evs).

  (** What an update does. *)
  Lemma update_spec z l : NoDup l ->
    let '(l', send, pad) := update additional z l in
    NoDup l' /\
    (forall x, In x l' <-> (x = z_id z /\ ~ withdraws z) \/ (In x l /\ ~ (x = z_id z /\ withdraws z))) /\
    (send = false -> l' = l) /\
    (pad = true <-> ~ In (z_id z) l /\ ~ withdraws z /\ 1 < additional).
  Proof.
    intros N. unfold update.
    pose proof (isNew_spec (z_id z) l) as HN. pose proof (isRemoval_spec z) as HR.
    destruct (isNew (z_id z) l) eqn:E1; destruct (isRemoval z) eqn:E2; cbn [andb orb negb].
    - split; [apply NoDup_drop, N|]. split; [|split; [discriminate|]].
      + intros x. rewrite In_drop. intuition.
      + intuition.
    - split.
      { clear HR.
        assert (~ In (z_id z) l) by tauto.
        clear - N H. induction N as [|y l NI N IH]; cbn; [constructor; [intros []|constructor]|].
        constructor; [|apply IH; intros C; apply H; right; exact C].
        rewrite in_app_iff. intros [C|[C|[]]]; [contradiction|]. apply H. left. auto. }
      split; [|split; [discriminate|]].
      + intros x. rewrite in_app_iff. cbn. intuition (subst; auto; discriminate).
      + rewrite Z.ltb_lt. intuition discriminate.
    - split; [apply NoDup_drop, N|]. split; [|split; [discriminate|]].
      + intros x. rewrite In_drop. intuition.
      + intuition discriminate.
    - split; [exact N|]. split; [|split; [reflexivity|]].
      + intros x. assert (In (z_id z) l).
        { destruct (in_dec Z.eq_dec (z_id z) l); [assumption|]. exfalso. assert (false = true) by tauto. discriminate. }
        intuition (subst; auto; discriminate).
      + split; [discriminate|]. intros (C & _). exfalso. assert (false = true) by tauto. discriminate.
  Qed.

  (** The state lists the live zones. *)
  Record inv (s : state) (evs : list event) : Prop := {
    i_in : forall id, In id (keepIn s) <-> live_in evs id;
    i_out : forall id, In id (keepOut s) <-> live_out evs id;
    i_nin : NoDup (keepIn s);
    i_nout : NoDup (keepOut s) }.

  Lemma step_inv s evs e : inv s evs -> inv (fst (step additional s e)) (evs ++ [e]).
  Proof.
    intros [I1 I2 N1 N2]. unfold live_in, live_out in *.
    destruct e as [z|z|ids|w]; cbn [step].
    - pose proof (update_spec z (keepIn s) N1) as U.
      destruct (update additional z (keepIn s)) as [[l send] pad]. destruct U as (NL & IL & _).
      split; cbn [fst keepIn keepOut]; unfold live_in, live_out; try assumption.
      + intros id. rewrite IL, (live_snoc _ _ _ _ (excl_in id _)), <- I1.
        unfold defines_in, removes_in. split.
        * intros [(-> & W)|(H & W)]; [left; eauto|right]. split; [exact H|].
          intros [(z' & E & <- & W')|(ids & E & _)]; [injection E as <-; tauto|discriminate].
        * intros [(z' & E & <- & W)|(H & W)]; [injection E as <-; auto|right]. split; [exact H|].
          intros (-> & W'). apply W. left. eauto.
      + intros id. rewrite (live_snoc _ _ _ _ (excl_out id _)), <- I2. split.
        * intros H. right. split; [exact H|]. intros [(z' & E & _)|(ids & E & _)]; discriminate.
        * intros [(z' & E & _)|(H & _)]; [discriminate|exact H].
    - pose proof (update_spec z (keepOut s) N2) as U.
      destruct (update additional z (keepOut s)) as [[l send] pad]. destruct U as (NL & IL & _).
      split; cbn [fst keepIn keepOut]; unfold live_in, live_out; try assumption.
      + intros id. rewrite (live_snoc _ _ _ _ (excl_in id _)), <- I1. split.
        * intros H. right. split; [exact H|]. intros [(z' & E & _)|(ids & E & _)]; discriminate.
        * intros [(z' & E & _)|(H & _)]; [discriminate|exact H].
      + intros id. rewrite IL, (live_snoc _ _ _ _ (excl_out id _)), <- I2.
        unfold defines_out, removes_out. split.
        * intros [(-> & W)|(H & W)]; [left; eauto|right]. split; [exact H|].
          intros [(z' & E & <- & W')|(ids & E & _)]; [injection E as <-; tauto|discriminate].
        * intros [(z' & E & <- & W)|(H & W)]; [injection E as <-; auto|right]. split; [exact H|].
          intros (-> & W'). apply W. left. eauto.
    - split; cbn [fst keepIn keepOut]; unfold live_in, live_out; [| |apply drops_NoDup, N1|apply drops_NoDup, N2].
      + intros id. rewrite drops_spec, (live_snoc _ _ _ _ (excl_in id _)), <- I1. split.
        * intros (H & K). right. split; [exact H|].
          intros [(z' & E & _)|(ids' & E & X)]; [discriminate|injection E as <-; contradiction].
        * intros [(z' & E & _)|(H & K)]; [discriminate|]. split; [exact H|]. intros X. apply K. right. eauto.
      + intros id. rewrite drops_spec, (live_snoc _ _ _ _ (excl_out id _)), <- I2. split.
        * intros (H & K). right. split; [exact H|].
          intros [(z' & E & _)|(ids' & E & X)]; [discriminate|injection E as <-; contradiction].
        * intros [(z' & E & _)|(H & K)]; [discriminate|]. split; [exact H|]. intros X. apply K. right. eauto.
    - split; cbn [fst]; unfold live_in, live_out; try assumption.
      + intros id. rewrite (live_snoc _ _ _ _ (excl_in id _)), <- I1. split.
        * intros H. right. split; [exact H|]. intros [(z' & E & _)|(ids & E & _)]; discriminate.
        * intros [(z' & E & _)|(H & _)]; [discriminate|exact H].
      + intros id. rewrite (live_snoc _ _ _ _ (excl_out id _)), <- I2. split.
        * intros H. right. split; [exact H|]. intros [(z' & E & _)|(ids & E & _)]; discriminate.
        * intros [(z' & E & _)|(H & _)]; [discriminate|exact H].
  Qed.

  Lemma inv_all evs : inv (state_of evs) evs.
  Proof.
    induction evs as [|e evs IH] using rev_ind.
    - split; cbn; try constructor; try tauto; intros ([|] & x & b & E & _); discriminate.
    - unfold state_of in *. rewrite run_snoc. cbn [fst]. apply step_inv, IH.
  Qed.

  (** What is sent in a step is the region after the step. *)
  Lemma step_region s e ki ko :
    In (OutRegion ki ko) (snd (step additional s e)) ->
    keepIn (fst (step additional s e)) = ki /\ keepOut (fst (step additional s e)) = ko.
  Proof.
    destruct e as [z|z|ids|w]; cbn [step].
    - destruct (update additional z (keepIn s)) as [[l send] pad]. cbn.
      rewrite in_app_iff. intros [H|H]; [destruct pad; [destruct H as [H|[]]; discriminate|destruct H]|].
      destruct send; [|destruct H]. destruct H as [H|[]]. injection H as -> ->. auto.
    - destruct (update additional z (keepOut s)) as [[l send] pad]. cbn.
      rewrite in_app_iff. intros [H|H]; [destruct pad; [destruct H as [H|[]]; discriminate|destruct H]|].
      destruct send; [|destruct H]. destruct H as [H|[]]. injection H as -> ->. auto.
    - cbn. intros [H|[]]. injection H as -> ->. auto.
    - cbn. intros [].
  Qed.

  Lemma step_silent s e : NoDup (keepIn s) -> NoDup (keepOut s) ->
    (forall ki ko, ~ In (OutRegion ki ko) (snd (step additional s e))) -> fst (step additional s e) = s.
  Proof.
    intros N1 N2 H.
    destruct s as [ki ko]. cbn [keepIn keepOut] in *. destruct e as [z|z|ids|w]; cbn [step keepIn keepOut] in *.
    - pose proof (update_spec z ki N1) as U.
      destruct (update additional z ki) as [[l send] pad]. destruct U as (_ & _ & U & _). cbn in *.
      destruct send; [exfalso; apply (H l ko), in_or_app; right; left; reflexivity|]. rewrite U; reflexivity.
    - pose proof (update_spec z ko N2) as U.
      destruct (update additional z ko) as [[l send] pad]. destruct U as (_ & _ & U & _). cbn in *.
      destruct send; [exfalso; apply (H ki l), in_or_app; right; left; reflexivity|]. rewrite U; reflexivity.
    - exfalso. cbn in H. eapply H. left. reflexivity.
    - reflexivity.
  Qed.

  (** C37: a published region lists exactly the live zones, each once. *)
  Theorem C37_region : forall evs a e outs b ki ko,
    history evs = a ++ (e, outs) :: b -> In (OutRegion ki ko) outs ->
    NoDup ki /\ NoDup ko /\
    (forall id, In id ki <-> live_in (map fst a ++ [e]) id) /\
    (forall id, In id ko <-> live_out (map fst a ++ [e]) id).
  Proof.
    intros evs a e outs b ki ko H I. unfold history in H.
    destruct (run_split _ _ _ _ _ _ H) as (s & R1 & R2 & R3). cbn [fst snd] in *.
    pose proof (inv_all (map fst a ++ [e])) as V. unfold state_of in V. rewrite R2 in V. cbn [fst] in V.
    rewrite R3 in I. destruct (step_region _ _ _ _ I) as [E1 E2].
    destruct V as [V1 V2 V3 V4]. rewrite E1 in *. rewrite E2 in *. auto.
  Qed.

  (** C37: the region published last is up to date: it lists exactly the zones that are live after the
      whole history; if none was published, no zone is live. *)
  Theorem C37_current : forall evs,
    (exists a e outs b ki ko,
       history evs = a ++ (e, outs) :: b /\ In (OutRegion ki ko) outs /\
       (forall ki' ko', ~ In (OutRegion ki' ko') (sent b)) /\
       (forall id, In id ki <-> live_in evs id) /\ (forall id, In id ko <-> live_out evs id)) \/
    ((forall ki ko, ~ In (OutRegion ki ko) (sent (history evs))) /\
     forall id, ~ live_in evs id /\ ~ live_out evs id).
  Proof.
    intros evs.
    enough (G : (exists a e outs b ki ko,
       history evs = a ++ (e, outs) :: b /\ In (OutRegion ki ko) outs /\
       (forall ki' ko', ~ In (OutRegion ki' ko') (sent b)) /\
       keepIn (state_of evs) = ki /\ keepOut (state_of evs) = ko) \/
      ((forall ki ko, ~ In (OutRegion ki ko) (sent (history evs))) /\ state_of evs = init)).
    { pose proof (inv_all evs) as [V1 V2 _ _]. destruct G as [(a & e & outs & b & ki & ko & H & I & N & E1 & E2)|(N & E)].
      - left. exists a, e, outs, b, ki, ko. rewrite E1 in V1. rewrite E2 in V2. auto.
      - right. split; [exact N|]. intros id. rewrite <- V1, <- V2, E. cbn. tauto. }
    induction evs as [|e evs IH] using rev_ind.
    - right. split; [intros ki ko []|reflexivity].
    - unfold history, state_of in *. rewrite run_snoc. cbn [fst snd].
      pose proof (inv_all evs) as [_ _ V3 V4]. unfold state_of in V3, V4.
      set (s := fst (run (step additional) init evs)) in *.
      set (t := snd (run (step additional) init evs)) in *.
      assert (D : (exists ki ko, In (OutRegion ki ko) (snd (step additional s e))) \/
                  (forall ki ko, ~ In (OutRegion ki ko) (snd (step additional s e)))).
      { generalize (snd (step additional s e)). intros l. clear. induction l as [|o l IH]; [right; intros ki ko []|].
        destruct IH as [(ki & ko & H)|H]; [left; exists ki, ko; right; exact H|].
        destruct o as [z|z|ki ko].
        - right. intros ki ko [C|C]; [discriminate|apply (H _ _ C)].
        - right. intros ki ko [C|C]; [discriminate|apply (H _ _ C)].
        - left. exists ki, ko. left. reflexivity. }
      destruct D as [(ki & ko & D)|D].
      + left. exists t, e, (snd (step additional s e)), [], ki, ko.
        destruct (step_region _ _ _ _ D) as [E1 E2]. split; [reflexivity|]. split; [exact D|].
        split; [intros ? ? []|]. auto.
      + rewrite (step_silent s e V3 V4 D).
        destruct IH as [(a & e0 & outs & b & ki & ko & H & I & N & E1 & E2)|(N & E)].
        * left. exists a, e0, outs, (b ++ [(e, snd (step additional s e))]), ki, ko.
          split; [rewrite H, <- app_assoc; reflexivity|]. split; [exact I|]. split; [|auto].
          intros ki' ko'. rewrite sent_snoc, in_app_iff. intros [C|C]; [apply (N _ _ C)|apply (D _ _ C)].
        * right. split; [|exact E]. intros ki ko. rewrite sent_snoc, in_app_iff.
          intros [C|C]; [apply (N _ _ C)|apply (D _ _ C)].
  Qed.

  Lemma padded_widened z z' : z' = padded additional z <-> widened additional z z'.
  Proof.
    unfold widened. split; [intros ->; cbn; auto|]. destruct z, z'. cbn. intros (-> & -> & -> & ->). reflexivity.
  Qed.

  Lemma padding_spec : forall evs a e outs b z',
    history evs = a ++ (e, outs) :: b ->
    (In (OutKeepIn z') outs <->
       exists z, e = EvKeepIn z /\ ~ withdraws z /\ ~ live_in (map fst a) (z_id z) /\ 1 < additional /\
         z' = padded additional z) /\
    (In (OutKeepOut z') outs <->
       exists z, e = EvKeepOut z /\ ~ withdraws z /\ ~ live_out (map fst a) (z_id z) /\ 1 < additional /\
         z' = padded additional z).
  Proof.
    intros evs a e outs b z' H. unfold history in H.
    destruct (run_split _ _ _ _ _ _ H) as (s & R1 & _ & R3). cbn [fst snd] in *.
    pose proof (inv_all (map fst a)) as [V1 V2 V3 V4]. unfold state_of in *. rewrite R1 in *. cbn [fst] in *.
    rewrite R3. clear H R1 R3.
    destruct e as [z|z|ids|w]; cbn [step].
    - pose proof (update_spec z (keepIn s) V3) as U.
      destruct (update additional z (keepIn s)) as [[l send] pad]. destruct U as (_ & _ & _ & U). rewrite V1 in U.
      cbn [snd]. rewrite !in_app_iff. split.
      + split.
        * intros [I|I]; [|destruct send; [destruct I as [I|[]]; discriminate|destruct I]].
          destruct pad; [|destruct I]. destruct I as [I|[]]. injection I as <-.
          destruct U as [U _]. specialize (U eq_refl). exists z. intuition.
        * intros (z0 & E & W & L & A & ->). injection E as <-.
          left. destruct U as [_ U]. rewrite U by auto. left. reflexivity.
      + split.
        * intros [I|I]; [destruct pad|destruct send]; destruct I as [I|[]] || destruct I; discriminate.
        * intros (z0 & E & _). discriminate.
    - pose proof (update_spec z (keepOut s) V4) as U.
      destruct (update additional z (keepOut s)) as [[l send] pad]. destruct U as (_ & _ & _ & U). rewrite V2 in U.
      cbn [snd]. rewrite !in_app_iff. split.
      + split.
        * intros [I|I]; [destruct pad|destruct send]; destruct I as [I|[]] || destruct I; discriminate.
        * intros (z0 & E & _). discriminate.
      + split.
        * intros [I|I]; [|destruct send; [destruct I as [I|[]]; discriminate|destruct I]].
          destruct pad; [|destruct I]. destruct I as [I|[]]. injection I as <-.
          destruct U as [U _]. specialize (U eq_refl). exists z. intuition.
        * intros (z0 & E & W & L & A & ->). injection E as <-.
          left. destruct U as [_ U]. rewrite U by auto. left. reflexivity.
    - cbn. split; split; [intros [C|[]]; discriminate|intros (z & E & _); discriminate|
        intros [C|[]]; discriminate|intros (z & E & _); discriminate].
    - cbn. split; split; [intros []|intros (z & E & _); discriminate|intros []|intros (z & E & _); discriminate].
  Qed.

  (** C37: with a configured padding above the threshold, the zone with the padding added is
      published exactly when a zone is defined that was not live. *)
  Theorem C37_padding : forall evs a e outs b z',
    history evs = a ++ (e, outs) :: b ->
    (In (OutKeepIn z') outs <->
       exists z, e = EvKeepIn z /\ ~ withdraws z /\ ~ live_in (map fst a) (z_id z) /\ 1 < additional /\
         widened additional z z') /\
    (In (OutKeepOut z') outs <->
       exists z, e = EvKeepOut z /\ ~ withdraws z /\ ~ live_out (map fst a) (z_id z) /\ 1 < additional /\
         widened additional z z').
  Proof.
    intros evs a e outs b z' H. destruct (padding_spec evs a e outs b z' H) as (A & B).
    split; [rewrite A|rewrite B]; split; intros (z & C); exists z; rewrite padded_widened in *; exact C.
  Qed.

  (** C37: the padded zone is published once, before the region that lists it. *)
  Theorem C37_padding_first : forall evs a e outs b z',
    history evs = a ++ (e, outs) :: b ->
    (In (OutKeepIn z') outs -> exists ki ko, outs = [OutKeepIn z'; OutRegion ki ko]) /\
    (In (OutKeepOut z') outs -> exists ki ko, outs = [OutKeepOut z'; OutRegion ki ko]).
  Proof.
    intros evs a e outs b z' H. unfold history in H. destruct (run_split _ _ _ _ _ _ H) as (s & _ & _ & R3). cbn [fst snd] in *. rewrite R3. clear H R3.
    destruct e as [z|z|ids|w]; cbn [step].
    - unfold update. cbn [snd]. destruct (isNew (z_id z) (keepIn s)); destruct (isRemoval z); destruct (1 <? additional); cbn;
        split; intros J; repeat (destruct J as [J|J]; [try discriminate J; injection J as <-; eauto|]); try contradiction.
    - unfold update. cbn [snd]. destruct (isNew (z_id z) (keepOut s)); destruct (isRemoval z); destruct (1 <? additional); cbn;
        split; intros J; repeat (destruct J as [J|J]; [try discriminate J; injection J as <-; eauto|]); try contradiction.
    - cbn. split; intros [E|[]]; discriminate.
    - cbn. split; contradiction.
  Qed.
End Props.
Print Assumptions C37_region.
Print Assumptions C37_current.
Print Assumptions C37_padding.
Print Assumptions C37_padding_first.

Definition zone_at (id start stop : Z) : zone := {| z_id := id; z_start := start; z_end := stop; z_padding := 7 |}.

Definition case : list event :=
  [EvKeepIn (zone_at 1 0 0); EvKeepOut (zone_at 1 0 0); EvKeepIn (zone_at 2 0 9); EvKeepIn (zone_at 1 5 5);
   EvKeepIn (zone_at 2 (-1) (-1)); EvKeepIn (zone_at 2 0 0); EvRemove [1; 8]; EvKeepOut (zone_at 3 (-1) 0)].

Example case_sent : sent (history 50 case) =
  [OutKeepIn {| z_id := 1; z_start := 0; z_end := 0; z_padding := 57 |}; OutRegion [1] [];
   OutKeepOut (padded 50 (zone_at 1 0 0)); OutRegion [1] [1];
   OutKeepIn (padded 50 (zone_at 2 0 9)); OutRegion [1; 2] [1];
   OutRegion [1] [1];
   OutKeepIn (padded 50 (zone_at 2 0 0)); OutRegion [1; 2] [1];
   OutRegion [2] [];
   OutKeepOut (padded 50 (zone_at 3 (-1) 0)); OutRegion [2] [3]].
Proof. vm_compute. reflexivity. Qed.

(** C37: a changed definition of a live zone is not padded: the services that plan with the zones
    then see the zone as it was sent, without the configured padding. *)
Theorem C37_padding_refuted :
  ~ (forall additional evs a z outs b, 1 < additional ->
       history additional evs = a ++ (EvKeepIn z, outs) :: b -> ~ withdraws z ->
       exists z', widened additional z z' /\ In (OutKeepIn z') outs).
Proof.
  intros H.
  specialize (H 50 [EvKeepIn (zone_at 1 0 0); EvKeepIn (zone_at 1 5 5)]
    (firstn 1 (history 50 [EvKeepIn (zone_at 1 0 0); EvKeepIn (zone_at 1 5 5)])) (zone_at 1 5 5) [] []).
  destruct H as (z' & _ & []); [lia|vm_compute; reflexivity|]. intros (C & _). discriminate.
Qed.
Print Assumptions C37_padding_refuted.

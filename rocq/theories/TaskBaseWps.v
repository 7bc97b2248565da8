(** Proofs about the waypoints of an implementation. *)
From Coq Require Import List ZArith Bool Lia Sorted.
From Verif Require Import ZMap Run TaskBaseModel TaskBaseSpec.
Import ListNotations.
Open Scope list_scope.
Open Scope Z_scope.

Section Wps.
  Context (task : Z) (transActive : bool) (coloc : Z -> Z -> bool).
  Notation addWp := (addWp task transActive coloc).
  Notation groups := (groups coloc).
  Notation together := (together coloc).
  Notation apart := (apart coloc).

  (** The waypoints and the next number after a further planned waypoint. *)
  Definition put (p : list wp * Z) (x : leg) : list wp * Z :=
    let n := snd p in
    let w1 := withTasks (withNumber (fst x) n)
                        (w_tasks (fst x) ++ if snd x then [task] else []) in
    match rev (fst p) with
    | [] => ([w1], n + 1)
    | b :: r =>
        if coloc (w_pos b) (w_pos (fst x)) then
          (rev r ++ [withNext (withNumber w1 (w_number b)) n], w_number b + 1)
        else (rev r ++ [withNext b n; w1], n + 1)
    end.

  Lemma addWp_put sb tr d w :
    (d_wps (addWp sb tr d w), d_number (addWp sb tr d w)) =
    put (d_wps d, d_number d) (w, negb tr || transActive).
  Proof.
    unfold TaskBaseModel.addWp, put. cbn [fst snd]. destruct (rev (d_wps d)) as [|b r].
    - reflexivity.
    - cbn [w_pos withNext withTasks withNumber].
      destruct (coloc (w_pos b) (w_pos w)); reflexivity.
  Qed.

  Lemma addRoute_put sb tr ws : forall d,
    (d_wps (fst (addRoute task transActive coloc sb tr d ws)),
     d_number (fst (addRoute task transActive coloc sb tr d ws))) =
    fold_left put (map (fun w => (w, negb tr || transActive)) ws) (d_wps d, d_number d).
  Proof.
    induction ws as [|w ws IH]; intros d; [reflexivity|].
    cbn [addRoute map fold_left]. rewrite <- (addWp_put sb), <- IH.
    destruct (addRoute _ _ _ _ _ _ ws) as (d', l). reflexivity.
  Qed.

  (** Without an interrupted route all routes are flown. *)
  Lemma addRoutes_put sb tr ps : forall found d,
    (d_wps (fst (addRoutes task transActive coloc sb tr None found d ps)),
     d_number (fst (addRoutes task transActive coloc sb tr None found d ps))) =
    fold_left put
      (flat_map (fun p => map (fun w => (w, negb (r_id (snd p) =? tr) || transActive)) (r_wps (snd p))) ps)
      (d_wps d, d_number d).
  Proof.
    induction ps as [|(k, r) ps IH]; intros found d; [reflexivity|].
    cbn [addRoutes flat_map snd]. rewrite fold_left_app, <- (addRoute_put sb).
    assert (E : (if r_id r =? tr then None else None) = @None (list wp)) by (destruct (_ =? _); auto).
    rewrite E.
    destruct (addRoute _ _ _ _ _ _ (r_wps r)) as (d1, ws). cbn [fst]. rewrite <- (IH found).
    destruct (addRoutes _ _ _ _ _ _ _ _ ps) as (d2, l). reflexivity.
  Qed.

  (** When resuming, the rest of the interrupted route replaces the task's routes. *)
  Lemma addRoutes_done sb tr rest ps : forall d,
    (forall p, In p ps -> r_id (snd p) <> tr) ->
    fst (addRoutes task transActive coloc sb tr (Some rest) true d ps) = d.
  Proof.
    induction ps as [|(k, r) ps IH]; intros d H; [reflexivity|].
    cbn [addRoutes]. assert (N : r_id r <> tr) by (apply (H (k, r)); cbn; auto).
    apply Z.eqb_neq in N. rewrite N.
    specialize (IH d). destruct (addRoutes _ _ _ _ _ _ _ _ ps) as (d2, l). cbn [fst] in *.
    apply IH. intros p Q. apply H. cbn; auto.
  Qed.
  Lemma addRoutes_rest sb tr rest d r p ps :
    r_id r = tr -> (forall p', In p' (p :: ps) -> r_id (snd p') <> tr) ->
    (d_wps (fst (addRoutes task transActive coloc sb tr (Some rest) false d ((tr, r) :: p :: ps))),
     d_number (fst (addRoutes task transActive coloc sb tr (Some rest) false d ((tr, r) :: p :: ps)))) =
    fold_left put (map (fun w => (w, transActive)) (r_wps r) ++ map (fun w => (w, true)) rest)
      (d_wps d, d_number d).
  Proof.
    intros E H. destruct p as (k, r'). rewrite fold_left_app.
    cbn [addRoutes]. rewrite E, Z.eqb_refl.
    assert (N : r_id r' <> tr) by (apply (H (k, r')); cbn; auto).
    pose proof (addRoute_put sb true (r_wps r) d) as P1. cbn [negb orb] in P1.
    destruct (addRoute _ _ _ _ _ d (r_wps r)) as (d1, ws). cbn [fst] in P1. unfold leg in *. rewrite <- P1.
    apply Z.eqb_neq in N. rewrite N.
    pose proof (addRoute_put sb false rest d1) as P2. cbn [negb orb] in P2. unfold leg in P2. rewrite <- P2.
    pose proof (addRoutes_done sb tr rest ps
                  (fst (addRoute task transActive coloc sb false d1 rest))) as Q.
    destruct (addRoutes _ _ _ _ _ _ _ _ ps) as (d2, l). cbn [fst] in Q. rewrite Q; [reflexivity|].
    intros p' I. apply H. cbn; auto.
  Qed.

  Lemma together_snoc (a : list leg) (x y : leg) :
    together (a ++ [x]) -> coloc (w_pos (fst x)) (w_pos (fst y)) = true ->
    together ((a ++ [x]) ++ [y]).
  Proof.
    induction a as [|z a IH]; [cbn; auto|].
    intros T C. destruct a as [|z' a]; cbn in *; [tauto|]. destruct T. split; [assumption|exact (IH H0 C)].
  Qed.

  Lemma apart_grow (g : list (list leg)) a a' :
    (forall y r, a' = y :: r -> exists r', a = y :: r') -> a <> [] ->
    apart (g ++ [a]) -> apart (g ++ [a']).
  Proof.
    intros H NE. induction g as [|b g IH]; [cbn; auto|]. cbn.
    destruct g as [|c g]; cbn in *.
    - intros (P & _). split; auto. intros l x y r E1 E2. destruct (H _ _ E2) as (r' & E3).
      eapply P; eauto.
    - intros (P & Q). split; [exact P|exact (IH Q)].
  Qed.
  Lemma apart_snoc (g : list (list leg)) a (x y : leg) :
    apart (g ++ [a ++ [x]]) -> coloc (w_pos (fst x)) (w_pos (fst y)) = false ->
    apart ((g ++ [a ++ [x]]) ++ [[y]]).
  Proof.
    induction g as [|b g IH]; cbn.
    - intros _ C. split; auto. intros l u v r E1 E2. injection E2 as <- <-.
      apply app_inj_tail in E1. destruct E1 as (_ & <-). exact C.
    - intros P C. destruct g as [|c g]; cbn in *.
      + destruct P as (P & _). split; [exact P|].
        split; [|exact Logic.I]. intros l u v r E1 E2. injection E2 as <- <-.
        apply app_inj_tail in E1. destruct E1 as (_ & <-). exact C.
      + destruct P as (P & Q). split; [exact P|exact (IH Q C)].
  Qed.

  Definition shape (start : Z) (l : list leg) (p : list wp * Z) : Prop :=
    snd p = start + Z.of_nat (length (fst p)) /\
    ((l = [] /\ fst p = []) \/
     exists g gz body z,
       groups l (g ++ [gz]) /\ Forall2 (kept task) (g ++ [gz]) (body ++ [z]) /\
       fst p = body ++ [z] /\ linked start (body ++ [z]) /\ w_next z = leads gz (w_number z)).

  Lemma linked_last start body z : linked start (body ++ [z]) ->
    w_number z = start + Z.of_nat (length body).
  Proof.
    intros L. apply (L (length body) z). rewrite nth_error_app2, Nat.sub_diag by lia. reflexivity.
  Qed.

  Lemma linked_replace start body z z' :
    linked start (body ++ [z]) -> w_number z' = w_number z -> linked start (body ++ [z']).
  Proof.
    intros L E j w H. destruct (Nat.lt_ge_cases j (length body)) as [Q|Q].
    - rewrite nth_error_app1 in H by lia.
      specialize (L j w). rewrite nth_error_app1, app_length in L by lia.
      rewrite app_length. cbn [length] in *. auto.
    - rewrite nth_error_app2 in H by lia.
      destruct (j - length body)%nat as [|m] eqn:M.
      + injection H as <-. assert (j = length body) by lia. subst j.
        rewrite (linked_last _ _ _ L) in E. rewrite E, app_length. cbn. split; auto. lia.
      + destruct m; discriminate.
  Qed.

  Lemma linked_snoc start body z w :
    linked start (body ++ [z]) -> w_next z = w_number w -> w_number w = w_number z + 1 ->
    linked start ((body ++ [z]) ++ [w]).
  Proof.
    intros L E1 E2 j x H. pose proof (linked_last _ _ _ L) as N. rewrite !app_length. cbn [length].
    destruct (Nat.lt_ge_cases j (length (body ++ [z]))) as [Q|Q].
    - rewrite nth_error_app1 in H by lia. pose proof (L j x H) as (A & B). split; auto. intros _.
      rewrite app_length in *. cbn [length] in *.
      destruct (Nat.lt_ge_cases (S j) (length body + 1)) as [R|R]; [auto|].
      assert (j = length body) by lia. subst j.
      rewrite nth_error_app2, Nat.sub_diag in H by lia. injection H as <-. lia.
    - rewrite nth_error_app2 in H by lia. rewrite app_length in *. cbn [length] in *.
      destruct (j - (length body + 1))%nat as [|m] eqn:M; [|destruct m; discriminate].
      injection H as <-. split; [lia|]. lia.
  Qed.

  Lemma kept_snoc a w b n x :
    kept task (a ++ [(w, b)])
      (withNext (withNumber (withTasks (withNumber w n) (w_tasks w ++ if b then [task] else [])) x) n).
  Proof. exists a, w, b. repeat split. Qed.

  Lemma put_shape start l p x : shape start l p -> shape start (l ++ [x]) (put p x).
  Proof.
    destruct p as (ws, n), x as (w, b). intros (N & [(-> & E)|(g & gz & body & z & G & K & E & L & NX)]);
      cbn [fst snd] in *; subst ws.
    - unfold put. cbn [fst snd rev]. split; [cbn in *; lia|]. right.
      exists [], [(w, b)], [], (withTasks (withNumber w n) (w_tasks w ++ (if b then [task] else []))).
      split; [|split; [|split; [|split]]]; try reflexivity.
      + split; [reflexivity|]. split; [|exact Logic.I]. intros a [<-|[]]. split; [discriminate|exact Logic.I].
      + constructor; [|constructor]. exists [], w, b. repeat split.
      + intros j x H. destruct j as [|[|j]]; try discriminate. injection H as <-.
        cbn [length app w_number withTasks withNumber] in *. split; [|intros Q]; lia.
    - unfold put. cbn [fst snd]. rewrite rev_app_distr. cbn [rev app].
      rewrite app_length in N. cbn [length] in N.
      pose proof (linked_last _ _ _ L) as NZ.
      apply Forall2_app_inv_l in K. destruct K as (b1 & b2 & K1 & K2 & EB).
      inversion K2 as [|? z' ? ? K3 K4]; subst. inversion K4; subst.
      apply app_inj_tail in EB. destruct EB as (<- & <-).
      destruct K3 as (a & y & by_ & EG & PZ & TZ).
      destruct G as (GC & GE & GA).
      destruct (coloc (w_pos z) (w_pos w)) eqn:C.
      + rewrite rev_involutive. split; [cbn [fst snd]; rewrite app_length; cbn [length]; lia|].
        right. exists g, (gz ++ [(w, b)]), body.
        eexists. cbn [fst]. split; [|split; [|split; [reflexivity|split]]].
        * split; [|split].
          -- rewrite concat_app in *. cbn [concat] in *. rewrite app_nil_r in *.
             rewrite <- GC, <- app_assoc. reflexivity.
          -- intros x Q. apply in_app_or in Q. destruct Q as [Q|[<-|[]]].
             ++ apply GE. apply in_or_app. auto.
             ++ split; [destruct gz; discriminate|]. rewrite EG. apply together_snoc.
                ** assert (T : together gz) by (apply GE; apply in_or_app; cbn; auto).
                   rewrite EG in T. exact T.
                ** cbn [fst]. rewrite <- PZ. exact C.
          -- apply (apart_grow g gz); auto.
             ++ intros u r Q. destruct gz as [|u' r'].
                ** destruct a; discriminate.
                ** cbn in Q. injection Q as <- _. eauto.
             ++ intros Q. rewrite Q in EG. destruct a; discriminate.
        * apply Forall2_app; auto. constructor; [|constructor]. apply kept_snoc.
        * eapply linked_replace; [exact L|]. reflexivity.
        * cbn [w_next withNext w_number withNumber].
          destruct gz as [|u1 gz]; [destruct a; discriminate|]. unfold leads.
          destruct u1 as (u1, ub). destruct gz; cbn [app]; lia.
      + rewrite rev_involutive. split; [cbn [fst snd]; rewrite app_length; cbn [length]; lia|].
        right. exists (g ++ [gz]), [(w, b)], (body ++ [withNext z (start + Z.of_nat (length body + 1)%nat)]).
        exists (withTasks (withNumber w (start + Z.of_nat (length body + 1)%nat))
                          (w_tasks w ++ (if b then [task] else []))). cbn [fst]. split; [|split; [|split; [|split]]].
        * split; [|split].
          -- rewrite !concat_app in *. cbn [concat] in *. rewrite !app_nil_r in *.
             rewrite <- GC. reflexivity.
          -- intros x Q. apply in_app_or in Q. destruct Q as [Q|[<-|[]]].
             ++ apply GE. exact Q.
             ++ split; [discriminate|]. exact Logic.I.
          -- rewrite EG in *. apply apart_snoc; auto. cbn [fst]. rewrite <- PZ. exact C.
        * apply Forall2_app.
          -- apply Forall2_app; auto. constructor; [|constructor].
             exists a, y, by_. split; [exact EG|split; [exact PZ|exact TZ]].
          -- constructor; [|constructor]. exists [], w, b. repeat split.
        * rewrite <- app_assoc. reflexivity.
        * apply linked_snoc.
          -- eapply linked_replace; [exact L|reflexivity].
          -- reflexivity.
          -- cbn. lia.
        * reflexivity.
  Qed.

  Lemma fold_put_shape start l : forall l0 p,
    shape start l0 p -> shape start (l0 ++ l) (fold_left put l p).
  Proof.
    induction l as [|x l IH]; intros l0 p H; cbn [fold_left]; [rewrite app_nil_r; auto|].
    change (l0 ++ x :: l) with (l0 ++ [x] ++ l). rewrite app_assoc. apply IH, put_shape, H.
  Qed.

  Lemma put_start start : shape start [] ([], start).
  Proof. split; cbn; [lia|auto]. Qed.

  Lemma finish_implements start l p :
    l <> [] -> shape start l p -> implements task coloc start l (finish task (fst p)).
  Proof.
    intros NE (N & [(E & _)|(g & gz & body & z & G & K & E & L & NX)]); [contradiction|].
    pose proof (linked_last _ _ _ L) as NZ. rewrite E.
    unfold finish. rewrite rev_app_distr. cbn [rev app].
    set (z1 := match w_tasks z with [] => withTasks z [task] | _ => z end).
    assert (Z1 : w_number z1 = w_number z /\ w_next z1 = w_next z /\ w_pos z1 = w_pos z /\
                 w_tasks z1 = match w_tasks z with [] => [task] | ts => ts end).
    { unfold z1. destruct (w_tasks z) eqn:T; repeat split; auto. }
    destruct Z1 as (Z1 & Z2 & Z3 & Z4). rewrite rev_involutive.
    exists g, gz, body, z. split; [exact G|]. split; [exact K|].
    rewrite NZ in NX. rewrite Z2, NX.
    destruct (leads gz (start + Z.of_nat (length body)) =? 0) eqn:Q.
    - split; [|cbn zeta; rewrite Q; split; [|split]].
      + change [?a; ?b] with ([a] ++ [b]). rewrite app_assoc. apply linked_snoc.
        * eapply linked_replace; [exact L|]. exact Z1.
        * cbn. reflexivity.
        * cbn. reflexivity.
      + rewrite !map_app. cbn [map app w_pos withNext]. rewrite Z3, <- app_assoc. reflexivity.
      + rewrite !map_app. cbn [map app w_tasks withNext]. rewrite Z4. reflexivity.
      + intros r w EW. change [?a; ?b] with ([a] ++ [b]) in EW. rewrite app_assoc in EW.
        apply app_inj_tail in EW. destruct EW as (_ & <-). reflexivity.
    - split; [|cbn zeta; rewrite Q; split; [|split]].
      + eapply linked_replace; [exact L|]. exact Z1.
      + rewrite !map_app. cbn [map]. rewrite Z3, app_nil_r. reflexivity.
      + rewrite !map_app. cbn [map app]. rewrite Z4. reflexivity.
      + intros r w EW. apply app_inj_tail in EW. destruct EW as (_ & <-). congruence.
  Qed.

  Lemma finish_nil l : finish task l = [] -> l = [].
  Proof.
    unfold finish. destruct (rev l) as [|b r] eqn:E.
    - intros _. apply (f_equal (@rev wp)) in E. rewrite rev_involutive in E. exact E.
    - cbn zeta. destruct (w_next _ =? 0); intros Q; apply app_eq_nil in Q; destruct Q; discriminate.
  Qed.
End Wps.

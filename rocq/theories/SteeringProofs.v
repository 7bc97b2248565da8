(** Proofs on the loop of the steering service that passes waypoints. *)
From Coq Require Import List ZArith Bool Lia.
From Verif Require Import ZMap SteeringModel SteeringSpec.
Import ListNotations.
Open Scope list_scope.
Open Scope Z_scope.

Lemma find_first {A} (f : A -> bool) (l : list A) x :
  find f l = Some x <-> exists a b, l = a ++ x :: b /\ f x = true /\ forall y, In y a -> f y = false.
Proof.
  induction l as [|z l IH]; cbn [find].
  - split; [discriminate|]. intros (a & b & E & _). destruct a; discriminate.
  - destruct (f z) eqn:F.
    + split.
      * intros E. injection E as ->. exists [], l. split; [reflexivity|]. split; [exact F|intros ? []].
      * intros (a & b & E & Fx & N). destruct a as [|y a]; injection E as -> E; [reflexivity|].
        rewrite (N y (or_introl eq_refl)) in F. discriminate.
    + rewrite IH. split.
      * intros (a & b & -> & Fx & N). exists (z :: a), b. split; [reflexivity|]. split; [exact Fx|].
        intros y [<-|Hy]; auto.
      * intros (a & b & E & Fx & N). destruct a as [|y a]; injection E as -> E; [congruence|].
        exists a, b. split; [exact E|]. split; [exact Fx|]. intros y' Hy. apply N. right. exact Hy.
Qed.

Lemma wp_of_numbered ws n w : wp_of ws n = Some w <-> numbered ws n w.
Proof.
  unfold wp_of, numbered. rewrite find_first. split; intros (a & b & E & F & N); exists a, b; (split; [exact E|]).
  - split; [apply Z.eqb_eq; exact F|]. intros x Hx. apply Z.eqb_neq. apply N. exact Hx.
  - split; [apply Z.eqb_eq; exact F|]. intros x Hx. apply Z.eqb_neq. apply N. exact Hx.
Qed.

Lemma wp_of_none ws n : wp_of ws n = None <-> forall w, ~ numbered ws n w.
Proof.
  split.
  - intros H w N. apply wp_of_numbered in N. congruence.
  - intros H. destruct (wp_of ws n) as [w|] eqn:E; [|reflexivity]. apply wp_of_numbered in E. destruct (H _ E).
Qed.

Lemma loiter_of_some w l : loiter_of (w_actions w) = Some l <-> loiters w l.
Proof.
  unfold loiters. induction (w_actions w) as [|a r IH]; cbn [loiter_of].
  - split; [discriminate|]. intros (a & b & E & _). destruct a; discriminate.
  - destruct a as [x|].
    + split.
      * intros E. injection E as ->. exists [], r. split; [reflexivity|intros ? []].
      * intros (a & b & E & N). destruct a as [|y a].
        -- injection E as -> _. reflexivity.
        -- injection E as E1 _. subst y. discriminate (N (Loiter x) (or_introl eq_refl)).
    + rewrite IH. split.
      * intros (a & b & -> & N). exists (OtherAction :: a), b. split; [reflexivity|]. intros y [<-|Hy]; auto.
      * intros (a & b & E & N). destruct a as [|y a]; injection E as H E; [discriminate|].
        exists a, b. split; [exact E|]. intros z Hz. apply N. right. exact Hz.
Qed.

Lemma loiter_of_none w : loiter_of (w_actions w) = None <-> plain w.
Proof.
  unfold plain. induction (w_actions w) as [|a r IH]; cbn [loiter_of].
  - split; [intros _ ? []|reflexivity].
  - destruct a as [x|].
    + split; [discriminate|]. intros H. destruct (H x (or_introl eq_refl)).
    + rewrite IH. split; intros H l; [intros [E|I]; [discriminate|exact (H _ I)]|].
      intros I. apply (H l). right. exact I.
Qed.

Lemma plain_loiters w l : plain w -> loiters w l -> False.
Proof. rewrite <- loiter_of_none, <- loiter_of_some. congruence. Qed.

Section Loop.
  Context (accept : Z) (rel : place -> place -> point).
  Notation pass := (pass accept rel).
  Notation passed := (passed accept).
  Notation flies := (flies accept).

  Lemma goal_point p w : exists x, goal w x /\ point_of rel p w = rel p x.
  Proof.
    unfold goal, point_of. destruct (loiter_of (w_actions w)) as [l|] eqn:E.
    - exists (l_place l). split; [|reflexivity]. left. exists l. rewrite <- loiter_of_some. auto.
    - exists (w_place w). split; [|reflexivity]. right. rewrite <- loiter_of_none. auto.
  Qed.

  Lemma accepted_passed s now p w prev start :
    accepted accept s now start (rel p p) prev (point_of rel p w) w = true <->
    passed (reach s) rel now p w prev start.
  Proof.
    unfold accepted, point_of, near, crossed, within, dot, sub, loitered. cbn [fst snd].
    destruct (loiter_of (w_actions w)) as [l|] eqn:E.
    - pose proof (proj1 (loiter_of_some _ _) E) as L. rewrite andb_true_iff, negb_true_iff, Z.eqb_neq, Z.leb_le. split.
      + intros (A & B). exact (passed_time _ _ _ _ _ _ _ _ l L A B).
      + intros [P _|P _|P _ _ _ _|l' L' A B]; try (destruct (plain_loiters _ _ P L)).
        assert (l' = l) by (apply loiter_of_some in L'; congruence). subst l'. auto.
    - pose proof (proj1 (loiter_of_none _) E) as P. rewrite !orb_true_iff, !andb_true_iff, !Z.leb_le, Z.ltb_lt. split.
      + intros [[A|(_ & A)]|((A1 & A2) & (A3 & A4))].
        * apply passed_line; auto.
        * apply passed_short; auto. unfold dist2. lia.
        * apply passed_near; auto.
      + intros [_ A|_ A|_ A1 A2 A3 A4|l L _ _].
        * left. left. exact A.
        * left. right. split; [lia|]. unfold dist2 in A. lia.
        * right. auto.
        * destruct (plain_loiters _ _ P L).
  Qed.

  Lemma pass_total s now p : forall fuel seen w prev pl start last,
    NoDup seen -> incl seen (map w_num (wps s)) -> In w (wps s) ->
    (S (length (wps s)) < fuel + length seen)%nat ->
    exists r, pass fuel s now p seen w prev pl start last = Some r.
  Proof.
    induction fuel as [|fuel IH]; intros seen w prev pl start last ND IN IW F.
    - apply (NoDup_incl_length ND) in IN. rewrite map_length in IN. lia.
    - cbn [SteeringModel.pass]. destruct (negb last && _) eqn:A; [|eauto].
      destruct (zin (w_num w) seen) eqn:Z1; [eauto|]. apply zin_false in Z1.
      assert (ND' : NoDup (w_num w :: seen)) by (constructor; auto).
      assert (IN' : incl (w_num w :: seen) (map w_num (wps s))).
      { intros y [<-|Hy]; [apply in_map; exact IW|apply IN; exact Hy]. }
      assert (F' : (S (length (wps s)) < fuel + length (w_num w :: seen))%nat) by (cbn [length]; lia).
      destruct (wp_of (wps s) (w_next w)) as [w'|] eqn:N.
      + assert (IW' : In w' (wps s)) by (unfold wp_of in N; apply find_some in N; tauto).
        destruct (w_next w =? w_num w); apply IH; auto.
      + apply IH; auto.
  Qed.

  (** The loop from a waypoint, having seen the numbers [seen]. *)
  Lemma pass_flies s now p : forall fuel seen w prev pl start last w' prev' pl' start' last',
    pass fuel s now p seen w prev pl start last = Some (w', prev', pl', start', last') ->
    exists l q, flies (reach s) rel (wps s) now p w prev start l w' q start' /\
      NoDup (map w_num l) /\ (forall n, In n (map w_num l) -> ~ In n seen) /\
      (last = true -> l = [] /\ last' = true) /\
      (last' = false -> prev' = q /\ ~ passed (reach s) rel now p w' q start' /\
                        pl' = match rev l with u :: _ => Some (w_place u) | [] => pl end) /\
      (last' = true -> last = true \/
        (passed (reach s) rel now p w' q start' /\
         (In (w_num w') (map w_num l) \/ In (w_num w') seen \/ forall x, ~ follows (wps s) w' x))).
  Proof.
    induction fuel as [|fuel IH]; intros seen w prev pl start last w' prev' pl' start' last' E; [discriminate|].
    cbn [SteeringModel.pass] in E. destruct (negb last && _) eqn:A.
    - apply andb_true_iff in A. destruct A as (A1 & A). apply negb_true_iff in A1. subst last.
      pose proof (proj1 (accepted_passed _ _ _ _ _ _) A) as P.
      destruct (zin (w_num w) seen) eqn:Z1.
      + injection E as <- <- <- <- <-. apply zin_In in Z1. exists [], prev.
        split; [apply flies_here|]. split; [constructor|]. split; [intros ? []|]. split; [discriminate|].
        split; [discriminate|]. intros _. right. auto.
      + apply zin_false in Z1.
        assert (END : (forall x, ~ follows (wps s) w x) ->
                  pass fuel s now p (w_num w :: seen) w (point_of rel p w) (Some (w_place w)) start true =
                    Some (w', prev', pl', start', last') ->
          exists l q, flies (reach s) rel (wps s) now p w prev start l w' q start' /\
            NoDup (map w_num l) /\ (forall n, In n (map w_num l) -> ~ In n seen) /\
            (false = true -> l = [] /\ last' = true) /\
            (last' = false -> prev' = q /\ ~ passed (reach s) rel now p w' q start' /\
                        pl' = match rev l with u :: _ => Some (w_place u) | [] => pl end) /\
            (last' = true -> false = true \/
              (passed (reach s) rel now p w' q start' /\
               (In (w_num w') (map w_num l) \/ In (w_num w') seen \/ forall x, ~ follows (wps s) w' x)))).
        { intros NF E1. destruct fuel; [discriminate|]. cbn [SteeringModel.pass negb andb] in E1.
          injection E1 as <- <- <- <- <-. exists [], prev.
          split; [apply flies_here|]. split; [constructor|]. split; [intros ? []|]. split; [discriminate|].
          split; [discriminate|]. intros _. right. split; [exact P|]. right. right. exact NF. }
        destruct (wp_of (wps s) (w_next w)) as [w1|] eqn:N.
        * destruct (Z.eqb_spec (w_next w) (w_num w)) as [Q|Q].
          -- apply END; [|exact E]. intros x (_ & H). exact (H Q).
          -- clear END. apply IH in E. destruct E as (l & q & FL & ND & DS & L1 & L2 & L3).
             destruct (goal_point p w) as (x & G & GP). exists (w :: l), q.
             split; [eapply flies_on; [exact P| |exact G|rewrite <- GP; exact FL]; split; [apply wp_of_numbered; exact N|exact Q]|].
             split; [cbn [map]; constructor; [|exact ND]; intros I; apply (DS _ I); left; reflexivity|].
             split; [intros n [<-|I]; [exact Z1|]; intros I2; apply (DS _ I); right; exact I2|].
             split; [discriminate|]. split.
             ++ intros T. destruct (L2 T) as (H1 & H2 & H3). split; [exact H1|]. split; [exact H2|].
                rewrite H3. cbn [rev]. destruct (rev l) as [|u r]; reflexivity.
             ++ intros T. destruct (L3 T) as [H|(H1 & [H2|[[H2|H2]|H2]])]; [discriminate| | | |]; right; (split; [exact H1|]).
                ** left. right. exact H2.
                ** left. left. exact H2.
                ** right. left. exact H2.
                ** right. right. exact H2.
        * apply END; [|exact E]. intros x (H & _). apply wp_of_numbered in H. congruence.
    - injection E as <- <- <- <- <-. exists [], prev.
      split; [apply flies_here|]. split; [constructor|]. split; [intros ? []|]. split; [auto|].
      split; [|auto].
      intros ->. cbn [negb andb] in A. split; [reflexivity|]. split; [|reflexivity]. intros P. apply accepted_passed in P. congruence.
  Qed.
End Loop.

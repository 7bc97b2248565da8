(** C59: options of the point searches, of loiter, must-fly and watch tasks, and the vehicles they are for. *)
From Coq Require Import String Ascii List ZArith Lia Bool Permutation.
From Verif Require Import Base Run AlgebraModel AlgebraSpec FormulaModel FormulaSpec FormulaProofs SearchOptionsModel SearchOptionsSpec SearchAnglesProps SearchOptionsProps.
Import ListNotations.
Open Scope list_scope.
Open Scope Z_scope.

Lemma composed whats l : map content l = whats -> ascending 10 (map o_id l) -> offers whats (l, compose l).
Proof.
  intros C A. split; [exact C|]. split; [exact A|]. cbn [fst snd]. intros B.
  exists (Op Alt (map Act (map o_id l))). destruct (alt_traces _ _ (one_acts (map o_id l))) as (T & AC & W). rewrite concat_single in T, AC.
  split; [|split; [exact T|]].
  - unfold compose. rewrite <- (map_map o_id name).
    change (writes (Op Alt (map Act (map o_id l))) (op_char Alt :: "("%char :: concat (map name (map o_id l)) ++ [")"%char])).
    apply closed_writes. apply closed_names. rewrite Forall_forall in *. intros a I. split; [|apply B; exact I].
    pose proof (ascending_ge _ _ _ A I). lia.
  - intros N. split; [apply W; destruct l; [exfalso; apply N; reflexivity|discriminate]|]. rewrite AC. apply (ascending_nodup _ 10). exact A.
Qed.

Lemma groups_ids cost h : forall gs id, fst (point_groups cost h gs id) = id + Z.of_nat (length gs)
  /\ map content (snd (point_groups cost h gs id)) = map (fun g => (vehicles g, (h, 0), false, if 0 <? speed g then cost (speed g) else 0)) gs
  /\ map o_id (snd (point_groups cost h gs id)) = map (fun i => id + Z.of_nat i) (seq 0 (length gs)).
Proof.
  induction gs as [|g gs IH]; intros id; cbn [point_groups]; [cbn; split; [lia|auto]|].
  destruct (IH (id + 1)) as (I1 & I2 & I3). destruct (point_groups cost h gs (id + 1)) as (id', l). cbn [fst snd] in *.
  split; [rewrite I1; cbn [length]; lia|]. split; [cbn [map]; rewrite I2; reflexivity|].
  cbn [map length seq o_id]. f_equal; [lia|]. rewrite I3, <- seq_shift, map_map. apply map_ext. intros i. lia.
Qed.

Lemma point_far standoff cost gs : 0 < standoff -> forall hs id,
  map content (point_loop standoff cost gs hs id)
    = flat_map (fun h => map (fun g => (vehicles g, (h, 0), false, if 0 <? speed g then cost (speed g) else 0)) gs) hs
  /\ ascending id (map o_id (point_loop standoff cost gs hs id)).
Proof.
  intros S. induction hs as [|h hs IH]; intros id; cbn [point_loop]; [split; [reflexivity|exact I]|].
  unfold calc_point. rewrite (proj2 (Z.leb_gt standoff 0) S).
  destruct (groups_ids cost h gs id) as (G1 & G2 & G3). destruct (point_groups cost h gs id) as (id', l). cbn [fst snd] in *.
  destruct (IH (id' + 1)) as (I1 & I2). rewrite !map_app, I1, G2. split; [reflexivity|].
  apply (ascending_app _ _ _ (id' + 1)); [rewrite G3; apply ascending_seq; lia| |lia|exact I2].
  intros x X. rewrite G3 in X. apply in_map_iff in X. destruct X as (i & <- & X). apply in_seq in X. lia.
Qed.

Lemma point_near standoff cost gs : standoff <= 0 -> forall hs id,
  map content (point_loop standoff cost gs hs id) = map (fun h => (flat_map vehicles gs, (h, 0), false, 0)) hs
  /\ ascending id (map o_id (point_loop standoff cost gs hs id)).
Proof.
  intros S. induction hs as [|h hs IH]; intros id; cbn [point_loop]; [split; [reflexivity|exact I]|].
  unfold calc_point. rewrite (proj2 (Z.leb_le standoff 0) S). destruct (IH (id + 1)) as (I1 & I2). cbn [app map]. rewrite I1.
  split; [reflexivity|]. split; [cbn; lia|exact I2].
Qed.

(** Searches of a point from a distance: an option for every direction and every group, with the time to get there
    in ms; from the point itself, one for every direction and all vehicles.  Exactly one is to be done. *)
Theorem C59_cmasi_point : forall standoff hs gs,
  (0 < standoff -> offers (flat_map (fun h => map (fun g =>
       (vehicles g, (h, 0), false, if 0 <? speed g then 10 * standoff / speed g else 0)) gs) hs) (cmasi_point standoff hs gs))
  /\ (standoff <= 0 -> offers (map (fun h => (flat_map vehicles gs, (h, 0), false, 0)) hs) (cmasi_point standoff hs gs)).
Proof.
  intros standoff hs gs. split; intros S; unfold cmasi_point; cbv zeta.
  - destruct (point_far standoff (cost_cmasi standoff) gs S hs first_option) as (P1 & P2). apply composed; [|exact P2].
    rewrite P1. apply flat_map_ext. intros h. apply map_ext. intros g. destruct (0 <? speed g) eqn:E; [|reflexivity].
    apply Z.ltb_lt in E. unfold cost_cmasi. rewrite Z.quot_div_nonneg by lia. reflexivity.
  - destruct (point_near standoff (cost_cmasi standoff) gs S hs first_option) as (P1 & P2). apply composed; [exact P1|exact P2].
Qed.
Print Assumptions C59_cmasi_point.

(** 100 m at 20 and 30 m/s; the numbers skip one per direction. *)
Example C59_cmasi_point_far :
  cmasi_point 100000 [0; 45] [vehicle1; vehicle2]
  = ([{| o_id := 10; o_for := [400]; o_look := (0, 0); o_back := false; o_cost := 5000 |};
      {| o_id := 11; o_for := [500; 600]; o_look := (0, 0); o_back := false; o_cost := 3333 |};
      {| o_id := 13; o_for := [400]; o_look := (45, 0); o_back := false; o_cost := 5000 |};
      {| o_id := 14; o_for := [500; 600]; o_look := (45, 0); o_back := false; o_cost := 3333 |}],
     lit "+(p10 p11 p13 p14 )").
Proof. reflexivity. Qed.

(** The second kind of point search: the same with the time in whole seconds, of whole metres; a negative distance
    means one option. *)
Theorem C59_impact_point : forall standoff hs gs,
  (0 < standoff -> offers (flat_map (fun h => map (fun g =>
       (vehicles g, (h, 0), false, if 0 <? speed g then 10 * (standoff / 1000) / speed g else 0)) gs) hs) (impact_point standoff hs gs))
  /\ (standoff = 0 -> offers (map (fun h => (flat_map vehicles gs, (h, 0), false, 0)) hs) (impact_point standoff hs gs))
  /\ (standoff < 0 -> offers [(flat_map vehicles gs, (0, 0), false, 0)] (impact_point standoff hs gs)).
Proof.
  intros standoff hs gs. split; [|split]; intros S; unfold impact_point; cbv zeta.
  - rewrite (proj2 (Z.ltb_ge standoff 0)) by lia.
    destruct (point_far standoff (cost_impact standoff) gs S hs first_option) as (P1 & P2). apply composed; [|exact P2].
    rewrite P1. apply flat_map_ext. intros h. apply map_ext. intros g. destruct (0 <? speed g) eqn:E; [|reflexivity].
    apply Z.ltb_lt in E. unfold cost_impact. rewrite (Z.quot_div_nonneg standoff) by lia.
    pose proof (Z.div_pos standoff 1000 ltac:(lia) ltac:(lia)). rewrite Z.quot_div_nonneg by lia. reflexivity.
  - rewrite (proj2 (Z.ltb_ge standoff 0)) by lia.
    destruct (point_near standoff (cost_impact standoff) gs ltac:(lia) hs first_option) as (P1 & P2). apply composed; [exact P1|exact P2].
  - rewrite (proj2 (Z.ltb_lt standoff 0)) by lia.
    destruct (point_near standoff (cost_impact standoff) gs ltac:(lia) [0] first_option) as (P1 & P2). apply composed; [exact P1|exact P2].
Qed.
Print Assumptions C59_impact_point.

(** So its options cost a thousand times too little: 100 m at 20 m/s for 5 ms. *)
Theorem C59_seconds_refuted :
  exists standoff hs gs, map o_cost (fst (cmasi_point standoff hs gs)) = [5000] /\ map o_cost (fst (impact_point standoff hs gs)) = [5].
Proof. exists 100000, [0], [vehicle1]. split; reflexivity. Qed.
Print Assumptions C59_seconds_refuted.

(** A loiter task has one option, a must-fly task one per direction of the compass, for the vehicles of the task. *)
Theorem C59_loiter_must_fly : forall own u eps, 0 < u -> 0 <= eps < 45 * u ->
  offers [(own, (0, 0), false, 0)] (loiter own)
  /\ offers (map (fun k => (own, (45 * u * k, 0), false, 1)) [0; 1; 2; 3; 4; 5; 6; 7; 8; 9; 10; 11; 12; 13; 14; 15]) (must_fly u eps own).
Proof.
  intros own u eps Hu He. split.
  - apply composed; [reflexivity|]. cbn. unfold first_option. lia.
  - unfold must_fly. cbv zeta. destruct (C59_all_round u eps 0 Hu He) as (E & _). rewrite E. apply composed; [reflexivity|].
    cbn. unfold first_option. lia.
Qed.
Print Assumptions C59_loiter_must_fly.

Example C59_loiter_one : loiter [400; 500] = ([{| o_id := 10; o_for := [400; 500]; o_look := (0, 0); o_back := false; o_cost := 0 |}], lit "+(p10 )").
Proof. reflexivity. Qed.

(** Their options ignore which vehicles a request is about. *)
Theorem C59_not_requested_refuted :
  exists own o entities v, In o (fst (loiter own)) /\ In v (o_for o) /\ ~ named entities v.
Proof.
  exists [400; 500], {| o_id := 10; o_for := [400; 500]; o_look := (0, 0); o_back := false; o_cost := 0 |}, [500], 400.
  split; [left; reflexivity|]. split; [left; reflexivity|]. intros [H|[H|[]]]; discriminate.
Qed.
Print Assumptions C59_not_requested_refuted.

(** Watch and blockade tasks: once the target is known (or nobody can go), one option per vehicle with the number of the
    vehicle, and all are to be done, one after the other; before that the request is not answered. *)
Theorem C59_watch : forall known n gs,
  (known = false -> flat_map vehicles gs <> [] -> watch known n gs = None)
  /\ (known = true \/ flat_map vehicles gs = [] -> exists r, watch known n gs = Some r
      /\ map o_id (fst r) = flat_map vehicles gs
      /\ map content (fst r) = map (fun v => ([v], (0, 0), false, 0)) (flat_map vehicles gs)
      /\ (Forall (fun v => 0 <= v < 2 ^ 63) (flat_map vehicles gs) -> in_turn (snd r) (flat_map vehicles gs))).
Proof.
  intros known n gs. unfold watch. cbv zeta. set (vs := flat_map vehicles gs). split.
  - intros -> N. destruct vs as [|v vs]; [congruence|]. reflexivity.
  - intros H. assert (E : forallb fst (map (calc_watch known) vs) = true).
    { destruct H as [->|E]; [|rewrite E; reflexivity]. clearbody vs. induction vs as [|v vs IH]; [reflexivity|exact IH]. }
    rewrite E. eexists. split; [reflexivity|]. cbn [fst snd].
    assert (O : flat_map snd (map (calc_watch known) vs) = map (fun v => {| o_id := v; o_for := [v]; o_look := (0, 0); o_back := false; o_cost := 0 |}) vs).
    { destruct H as [->|Q]; [|rewrite Q; reflexivity]. clearbody vs. clear E. induction vs as [|v vs IH]; [reflexivity|]. cbn. f_equal. exact IH. }
    rewrite O, !map_map. cbn [o_id content o_for o_look o_back o_cost]. split; [apply map_id|]. split; [reflexivity|].
    intros B. exists (Op Seq (map Act vs)). split.
    + change (writes (Op Seq (map Act vs)) (op_char Seq :: "("%char :: concat (map name vs) ++ [")"%char])).
      apply closed_writes, closed_names, B.
    + clear. induction vs as [|a l IH]; intros t; cbn [map]; [cbn; tauto|]. split.
      * intros (t1 & t2 & -> & -> & G). apply IH in G. subst. reflexivity.
      * intros ->. exists [a], l. split; [reflexivity|]. split; [reflexivity|]. apply IH. reflexivity.
Qed.
Print Assumptions C59_watch.

Example C59_watch_three : option_map snd (watch true 2 [vehicle1; vehicle2]) = Some (lit ".(p400 p500 p600 )").
Proof. reflexivity. Qed.

(** The number of vehicles that is asked for does not count: one is wanted, three have to go. *)
Theorem C59_number_refuted :
  exists gs r, watch true 1 gs = Some r /\ in_turn (snd r) [400; 500; 600].
Proof.
  exists [vehicle1; vehicle2]. destruct (proj2 (C59_watch true 1 [vehicle1; vehicle2]) (or_introl eq_refl)) as (r & E & _ & _ & T).
  exists r. split; [exact E|]. apply T. repeat constructor; discriminate.
Qed.
Print Assumptions C59_number_refuted.

(** *** The vehicles *)

Section Vehicles.
  Context (ord : list group -> list group) (ord_perm : forall l, Permutation l (ord l)) (eligible : list Z).

  Definition key (g : group) : Z * Z := (speed g, altitude g).
  Definition member (gs : list group) (v sp alt : Z) : Prop := exists g, In g gs /\ key g = (sp, alt) /\ In v (vehicles g).
  Definition tidy (gs : list group) : Prop := NoDup (map key gs) /\ forall g, In g gs -> NoDup (vehicles g) /\ vehicles g <> [].

  Lemma existsb_eqb v l : existsb (Z.eqb v) l = true <-> In v l.
  Proof.
    rewrite existsb_exists. split.
    - intros (x & X & E). apply Z.eqb_eq in E. subst. exact X.
    - intros X. exists v. split; [exact X|apply Z.eqb_refl].
  Qed.

  Lemma enrol_keys id sp alt : forall gs p, In p (map key (enrol gs id sp alt)) <-> In p (map key gs) \/ p = (sp, alt).
  Proof.
    induction gs as [|g gs IH]; intros p; cbn [enrol]; [cbn; intuition|].
    destruct ((speed g =? sp) && (altitude g =? alt)) eqn:E.
    - apply andb_true_iff in E. destruct E as (E1 & E2). apply Z.eqb_eq in E1, E2.
      assert (K : key g = (sp, alt)) by (unfold key; congruence).
      destruct (existsb _ _); cbn [map In]; [|unfold key at 1; cbn [speed altitude]; rewrite K]; rewrite ?K; intuition.
    - cbn [map In]. rewrite IH. tauto.
  Qed.

  Lemma enrol_tidy id sp alt : forall gs, tidy gs -> tidy (enrol gs id sp alt).
  Proof.
    intros gs (N & V). split.
    - induction gs as [|g gs IH]; cbn [enrol]; [repeat constructor; intros []|]. cbn [map] in N. inversion N as [|x l N1 N2]; subst.
      destruct ((speed g =? sp) && (altitude g =? alt)) eqn:E.
      + apply andb_true_iff in E. destruct E as (E1 & E2). apply Z.eqb_eq in E1, E2.
        assert (K : key g = (sp, alt)) by (unfold key; congruence). destruct (existsb _ _); [constructor; assumption|].
        cbn [map]. constructor; [|exact N2]. change (key _) with (sp, alt). rewrite <- K. exact N1.
      + cbn [map]. constructor; [|apply IH; [exact N2|intros h H; apply V; right; exact H]]. rewrite enrol_keys. intros [H|H]; [contradiction|].
        unfold key in H. injection H as H1 H2. rewrite H1, H2, !Z.eqb_refl in E. discriminate.
    - clear N. induction gs as [|g gs IH]; cbn [enrol]; intros h H.
      + destruct H as [<-|[]]. cbn. split; [repeat constructor; intros []|discriminate].
      + destruct (_ && _); [|destruct H as [<-|H]; [apply V; left; reflexivity|apply IH; [intros x X; apply V; right; exact X|exact H]]].
        destruct H as [H|H]; [|apply V; right; exact H]. destruct (existsb (Z.eqb id) (vehicles g)) eqn:X.
        * subst. apply V. left. reflexivity.
        * subst. cbn [vehicles]. destruct (V g (or_introl eq_refl)) as (D & _). split; [|destruct (vehicles g); discriminate].
          apply (Permutation_NoDup (Permutation_cons_append (vehicles g) id)). constructor; [|exact D].
          intros Q. apply existsb_eqb in Q. congruence.
  Qed.

  Lemma enrol_member id sp alt v s a : forall gs, member (enrol gs id sp alt) v s a <-> member gs v s a \/ (v = id /\ s = sp /\ a = alt).
  Proof.
    induction gs as [|g gs IH].
    - cbn [enrol]. split.
      + intros (h & [<-|[]] & K & V). unfold key in K. cbn in *. destruct V as [<-|[]]. injection K as <- <-. right. auto.
      + intros [(h & [] & _)|(-> & -> & ->)]. eexists. split; [left; reflexivity|]. split; [reflexivity|left; reflexivity].
    - assert (M : forall x l, member (x :: l) v s a <-> (key x = (s, a) /\ In v (vehicles x)) \/ member l v s a).
      { intros x l. split.
        - intros (h & [<-|H] & K & V); [left; auto|right; exists h; auto].
        - intros [(K & V)|(h & H & K & V)]; [exists x; split; [left; reflexivity|auto]|exists h; split; [right; exact H|auto]]. }
      cbn [enrol]. destruct ((speed g =? sp) && (altitude g =? alt)) eqn:E; rewrite !M; [|rewrite IH; tauto].
      apply andb_true_iff in E. destruct E as (E1 & E2). apply Z.eqb_eq in E1, E2.
      assert (K : key g = (sp, alt)) by (unfold key; congruence).
      destruct (existsb (Z.eqb id) (vehicles g)) eqn:X.
      + apply existsb_eqb in X. split; [tauto|]. intros [H|(-> & -> & ->)]; [tauto|]. left. auto.
      + change (key {| speed := sp; altitude := alt; vehicles := vehicles g ++ [id] |}) with (sp, alt). rewrite K. cbn [vehicles].
        rewrite in_app_iff. cbn [In]. split.
        * intros [(Q & [V|[<-|[]]])|H]; [tauto| |tauto]. injection Q as <- <-. right. auto.
        * intros [[(Q & V)|H]|(-> & -> & ->)]; [left; auto|right; exact H|left; auto].
  Qed.

  Lemma requested_tidy gs es : tidy gs -> tidy (requested gs es).
  Proof.
    intros (N & V). destruct es as [|e es]; [split; assumption|]. cbn [requested].
    set (f := fun g => {| speed := speed g; altitude := altitude g; vehicles := filter (fun v => existsb (Z.eqb v) (e :: es)) (vehicles g) |}).
    split.
    - assert (NK : NoDup (map key (map f gs))) by (rewrite map_map; exact N). clear - NK.
      induction (map f gs) as [|x l IH]; [constructor|]. cbn [map] in NK. inversion NK as [|y m N1 N2]; subst. cbn [filter].
      destruct (negb _); [|apply IH; exact N2]. cbn [map]. constructor; [|apply IH; exact N2]. intros H. apply N1.
      apply in_map_iff in H. destruct H as (z & <- & Z'). apply filter_In in Z'. apply in_map, Z'.
    - intros g H. apply filter_In in H. destruct H as (H & Q). apply in_map_iff in H. destruct H as (x & <- & X).
      split; [apply NoDup_filter, V, X|]. destruct (vehicles (f x)); [discriminate|intros; discriminate].
  Qed.

  Lemma requested_member gs es v s a : member (requested gs es) v s a <-> member gs v s a /\ named es v.
  Proof.
    destruct es as [|e es]; [unfold named; cbn; tauto|]. cbn [requested].
    set (f := fun g => {| speed := speed g; altitude := altitude g; vehicles := filter (fun v => existsb (Z.eqb v) (e :: es)) (vehicles g) |}).
    split.
    - intros (g & H & K & V). apply filter_In in H. destruct H as (H & _). apply in_map_iff in H. destruct H as (x & <- & X).
      cbn [f vehicles] in V. apply filter_In in V. destruct V as (V & W). split; [exists x; auto|]. right. apply existsb_eqb. exact W.
    - intros ((x & X & K & V) & W). destruct W as [W|W]; [discriminate|]. assert (V' : In v (vehicles (f x))) by (apply filter_In; split; [exact V|apply existsb_eqb; exact W]).
      exists (f x). split; [|split; [exact K|exact V']]. apply filter_In. split; [apply in_map; exact X|]. destruct (vehicles (f x)); [destruct V'|reflexivity].
  Qed.

  Lemma groups_at evs : let gs := fst (run (step ord eligible) [] evs) in
    tidy gs /\ forall v sp alt, member gs v sp alt <-> named eligible v /\ In (Config v sp alt) evs.
  Proof.
    induction evs as [|e evs IH] using rev_ind; cbv zeta in *.
    - cbn. split; [split; [constructor|intros g []]|]. intros v sp alt. split; [intros (g & [] & _)|intros (_ & [])].
    - rewrite run_snoc. cbn [fst]. set (gs := fst (run (step ord eligible) [] evs)) in *. clearbody gs. destruct IH as (T & M).
      destruct e as [id sp alt|es]; cbn [step fst].
      + assert (EL : (match eligible with [] => true | _ => existsb (Z.eqb id) eligible end = true) <-> named eligible id).
        { unfold named. destruct eligible as [|x l]; [split; auto|]. rewrite existsb_eqb. split; [auto|intros [H|H]; [discriminate|exact H]]. }
        destruct (match eligible with [] => true | _ => existsb (Z.eqb id) eligible end).
        * split; [apply enrol_tidy; exact T|]. intros v s a. rewrite enrol_member, M, in_app_iff. cbn [In].
          pose proof (proj1 EL eq_refl) as E. split.
          -- intros [(A & B)|(-> & -> & ->)]; [auto|]. split; [exact E|right; left; reflexivity].
          -- intros (A & [B|[B|[]]]); [auto|]. injection B as <- <- <-. right. auto.
        * split; [exact T|]. intros v s a. rewrite M, in_app_iff. cbn [In]. split; [tauto|]. intros (A & [B|[B|[]]]); [auto|].
          injection B as <- <- <-. apply EL in A. discriminate.
      + split; [exact T|]. intros v s a. rewrite M, in_app_iff. cbn [In]. split; [tauto|]. intros (A & [B|[B|[]]]); [auto|discriminate].
  Qed.
End Vehicles.

(** The groups that options are made of, at a request: the vehicles that the task admits, that the request names (or
    any, if it names none) and that were configured before, by the speed and altitude they were configured with. No
    group is empty, none appears twice and none has a vehicle twice. *)
Theorem C59_vehicles : forall ord eligible evs before es gs later,
  (forall l, Permutation l (ord l)) ->
  snd (run (step ord eligible) [] evs) = before ++ (Ask es, [gs]) :: later ->
  (forall v sp alt, (exists g, In g gs /\ speed g = sp /\ altitude g = alt /\ In v (vehicles g))
     <-> named eligible v /\ named es v /\ exists o, In (Config v sp alt, o) before)
  /\ NoDup (map (fun g => (speed g, altitude g)) gs)
  /\ (forall g, In g gs -> NoDup (vehicles g) /\ vehicles g <> []).
Proof.
  intros ord eligible evs before es gs later OP E. apply run_split in E. destruct E as (s & E1 & _ & E3). cbn [fst snd] in E3.
  cbn [step snd] in E3. injection E3 as ->.
  pose proof (groups_at ord eligible (map fst before)) as G. cbv zeta in G. rewrite E1 in G. cbn [fst] in G. destruct G as (T & M).
  pose proof (requested_tidy s es T) as (N & V). split; [|split].
  - intros v sp alt.
    assert (B : (exists o, In (Config v sp alt, o) before) <-> In (Config v sp alt) (map fst before)).
    { split; [intros (o & H); apply in_map_iff; exists (Config v sp alt, o); auto|].
      intros H. apply in_map_iff in H. destruct H as ((e & o) & Q & H). cbn in Q. subst. exists o. exact H. }
    rewrite B. pose proof (requested_member s es v sp alt) as R. rewrite M in R.
    transitivity (member (requested s es) v sp alt); [|rewrite R; tauto]. split.
    + intros (g & H & <- & <- & W). exists g. split; [apply (Permutation_in _ (Permutation_sym (OP _)) H)|]. split; [reflexivity|exact W].
    + intros (g & H & K & W). unfold key in K. injection K as <- <-. exists g. split; [apply (Permutation_in _ (OP _) H)|auto].
  - apply (Permutation_NoDup (Permutation_map _ (OP _))). exact N.
  - intros g H. apply V. apply (Permutation_in _ (Permutation_sym (OP _)) H).
Qed.
Print Assumptions C59_vehicles.

(** Vehicle 500 is named, 600 is not; 700 is not admitted by the task. *)
Example C59_vehicles_case :
  snd (run (step (fun l => l) [400; 500; 600]) [] [Config 400 200 100; Config 600 300 100; Config 500 300 100; Config 700 300 100; Ask [400; 500]])
  = [(Config 400 200 100, []); (Config 600 300 100, []); (Config 500 300 100, []); (Config 700 300 100, []);
     (Ask [400; 500], [[{| speed := 200; altitude := 100; vehicles := [400] |}; {| speed := 300; altitude := 100; vehicles := [500] |}]])].
Proof. reflexivity. Qed.

(** A vehicle that is configured anew stays in its old group, too: a watch task wants it twice. *)
Theorem C59_twice_refuted :
  exists evs before es gs, snd (run (step (fun l => l) []) [] evs) = before ++ [(Ask es, [gs])]
    /\ option_map (fun r => map o_id (fst r)) (watch true 1 gs) = Some [400; 400].
Proof.
  exists [Config 400 200 100; Config 400 200 150; Ask []].
  exists [(Config 400 200 100, []); (Config 400 200 150, [])], [],
    [{| speed := 200; altitude := 100; vehicles := [400] |}; {| speed := 200; altitude := 150; vehicles := [400] |}].
  split; reflexivity.
Qed.
Print Assumptions C59_twice_refuted.

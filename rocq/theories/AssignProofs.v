(** Lemmas about the branch and bound search. *)
From Coq Require Import List Arith ZArith Bool Permutation Lia.
From Verif Require Import AlgebraModel AlgebraSpec AlgebraProofs AssignModel AssignSpec.
Import ListNotations.
Open Scope list_scope.
Open Scope Z_scope.

(** ** Tables *)

Lemma fold_last {A B} (P : A -> bool) (f : A -> B) l : forall d,
  fold_left (fun t e => if P e then f e else t) l d
  = match find P (rev l) with Some e => f e | None => d end.
Proof.
  induction l as [|x l IH] using rev_ind; intros d; auto.
  rewrite fold_left_app, rev_app_distr. cbn. destruct (P x); auto.
Qed.

Lemma find_ext_in {A} (P Q : A -> bool) l :
  (forall x, In x l -> P x = Q x) -> find P l = find Q l.
Proof.
  induction l as [|x l IH]; intros H; auto. cbn.
  rewrite (H x (or_introl eq_refl)), IH; auto. intros y Y. apply H. right. auto.
Qed.

Lemma pack_split o : packId (getTaskID o) (getOptionID o) = o.
Proof. unfold packId, getTaskID, getOptionID. pose proof (Z.quot_rem' o 100000). lia. Qed.

Lemma vehicles_fleet matrix v : In v (vehiclesOf matrix) <-> fleet matrix v.
Proof.
  unfold vehiclesOf, fleet. rewrite nodup_In, in_map_iff. firstorder.
Qed.

Lemma vehicles_nodup matrix : NoDup (vehiclesOf matrix).
Proof. apply NoDup_nodup. Qed.

Lemma taskTime_work opts o v :
  taskTime opts o v = match work opts o v with Some w => w | None => -1 end.
Proof.
  unfold taskTime, work. rewrite (fold_last _ to_cost). unfold packId, optionId.
  destruct (find _ (rev opts)); auto.
Qed.

Lemma work_nonneg opts o v w : costs_nonneg opts -> work opts o v = Some w -> 0 <= w.
Proof.
  intros C. unfold work. destruct (find _ (rev opts)) as [t|] eqn:F; [|discriminate].
  cbn. intros E. injection E as <-. apply C, in_rev. eapply find_some; eauto.
Qed.

Lemma work_known opts o v w : work opts o v = Some w -> optionKnown opts o = true.
Proof.
  unfold work, optionKnown. destruct (find _ (rev opts)) as [t|] eqn:F; [|discriminate].
  intros _. apply find_some in F. destruct F as (I & F). apply andb_prop in F.
  apply existsb_exists. exists t. split; [apply in_rev; auto|]. apply F.
Qed.

(** Where the search thinks a vehicle is. *)
Definition place (v : Z) (from : option Z) : Z := match from with None => v | Some p => p end.

Lemma travel_leg matrix alg v from o :
  ids_apart matrix alg -> fleet matrix v -> (forall p, from = Some p -> In p (actions alg)) ->
  leg matrix v from o = (let t := travelTime matrix v (place v from) o in
                         if 0 <=? t then Some t else None).
Proof.
  intros (A1 & A2) FV FA. unfold travelTime, leg. rewrite (fold_last _ ce_time).
  rewrite (find_ext_in
    (fun e => (ce_vehicle e =? v)
       && (optionId (ce_fromTask e) (ce_fromOption e) =? match from with None => 0 | Some p => p end)
       && (optionId (ce_toTask e) (ce_toOption e) =? o))
    (fun e => (ce_vehicle e =? v) && (entryFrom e =? place v from)
       && (packId (ce_toTask e) (ce_toOption e) =? o))).
  - destruct (find _ (rev matrix)); auto.
  - intros e I. apply in_rev in I. unfold entryFrom. change packId with optionId.
    set (f := optionId (ce_fromTask e) (ce_fromOption e)) in *.
    destruct (Z.eqb_spec (ce_vehicle e) v) as [EV|]; auto. cbn [andb]. f_equal.
    destruct from as [p|]; cbn [place].
    + destruct (A1 p (FA p eq_refl)) as (P0 & PF).
      destruct (Z.eqb_spec f 0) as [F0|F0]; auto.
      rewrite F0. destruct (Z.eqb_spec 0 p); [congruence|].
      destruct (Z.eqb_spec (ce_vehicle e) p); auto. exfalso. subst p. apply PF. exists e. auto.
    + destruct (Z.eqb_spec f 0) as [F0|F0]; [rewrite EV, Z.eqb_refl; auto|].
      destruct (Z.eqb_spec f v) as [FV'|]; auto. exfalso. apply (A2 e I); auto.
      fold f. congruence.
Qed.

Lemma leg_entry matrix v from o t :
  leg matrix v from o = Some t ->
  0 <= t /\ exists e, In e matrix /\ ce_vehicle e = v /\ ce_time e = t /\
                      optionId (ce_toTask e) (ce_toOption e) = o.
Proof.
  unfold leg. destruct (find _ (rev matrix)) as [e|] eqn:F; [|discriminate].
  destruct (Z.leb_spec 0 (ce_time e)) as [L|]; [|discriminate].
  intros E. injection E as <-. split; auto. exists e.
  apply find_some in F. destruct F as (I & F). apply in_rev in I.
  apply andb_prop in F. destruct F as (F & F2). apply andb_prop in F. destruct F as (F0 & F1).
  apply Z.eqb_eq in F0, F2. auto.
Qed.

(** ** Vehicle maps *)

Lemma vlookup_in l v s : vlookup l v = Some s -> In (v, s) l.
Proof.
  induction l as [|(w, x) l IH]; cbn; [discriminate|].
  destruct (Z.eqb_spec w v) as [->|]; [intros E; injection E as ->; auto|auto].
Qed.

Lemma vlookup_nodup l v s : NoDup (map fst l) -> In (v, s) l -> vlookup l v = Some s.
Proof.
  induction l as [|(w, x) l IH]; cbn; [intros _ []|]. intros ND [E|I].
  - injection E as -> ->. rewrite Z.eqb_refl. auto.
  - inversion ND as [|? ? NI ND']; subst. destruct (Z.eqb_spec w v) as [->|]; auto.
    exfalso. apply NI, in_map_iff. exists (v, s). auto.
Qed.

Lemma vlookup_dom l v : In v (map fst l) -> exists s, vlookup l v = Some s.
Proof.
  induction l as [|(w, x) l IH]; cbn; [intros []|].
  destruct (Z.eqb_spec w v) as [->|N]; [eauto|]. intros [E|I]; [congruence|auto].
Qed.

Lemma vupdate_keys l v x : map fst (vupdate l v x) = map fst l.
Proof.
  induction l as [|(w, y) l IH]; cbn; auto. destruct (w =? v); cbn; congruence.
Qed.

Lemma vlookup_update l v x w :
  vlookup (vupdate l v x) w
  = if v =? w then match vlookup l v with Some _ => Some x | None => None end else vlookup l w.
Proof.
  induction l as [|(u, y) l IH]; cbn; [destruct (v =? w); auto|].
  destruct (Z.eqb_spec u v) as [->|N]; cbn.
  - destruct (Z.eqb_spec v w) as [->|]; auto.
  - rewrite IH. destruct (Z.eqb_spec u w) as [->|]; auto.
    destruct (Z.eqb_spec v w) as [->|]; auto. congruence.
Qed.

(** ** Routes *)

Lemma route_snoc v s o w :
  route v (s ++ [(o, w)]) = if w =? v then route v s ++ [o] else route v s.
Proof.
  unfold route. rewrite filter_app, map_app. cbn. destruct (w =? v); cbn; auto.
  apply app_nil_r.
Qed.

Lemma route_incl v s : incl (route v s) (map fst s).
Proof.
  unfold route. intros o I. apply in_map_iff in I. destruct I as (x & <- & I).
  apply filter_In in I. apply in_map. tauto.
Qed.

(** ** Fresh actions *)

Lemma next_fresh e h : forall a, In a (fst (nextActions h e)) -> In a (actions e) /\ ~ In a h.
Proof.
  induction e as [x|o cs IH] using expr_ind'; intros a A; cbn [nextActions actions] in *.
  - destruct (existsb (Z.eqb x) h) eqn:E; [destruct A|]. destruct A as [<-|[]]. split; [left; auto|].
    intros I. assert (existsb (Z.eqb x) h = true); [|congruence].
    apply existsb_exists. exists x. split; auto. apply Z.eqb_refl.
  - assert (K : In a (concat (map fst (map (nextActions h) cs))) ->
                In a (flat_map actions cs) /\ ~ In a h).
    { intros I. apply in_concat in I. destruct I as (l & L & I).
      rewrite map_map in L. apply in_map_iff in L. destruct L as (c & <- & C).
      rewrite Forall_forall in IH. destruct (IH c C a I) as (I1 & I2). split; auto.
      apply in_flat_map. eauto. }
    apply K. clear K IH. set (rs := map (nextActions h) cs) in *. clearbody rs.
    destruct o; cbn [fst] in A.
    + revert A. generalize true. induction rs as [|(r, b) rs IHr]; intros f A; [destruct A|].
      cbn [seq_scan] in A. cbn [map concat fst]. apply in_or_app.
      destruct r; [right; eapply IHr; eauto|left; auto].
    + assert (G : forall acc, In a (fst (alt_scan rs acc)) -> In a acc \/ In a (concat (map fst rs))).
      { clear. induction rs as [|(r, b) rs IHr]; intros acc A; cbn in A; auto.
        cbn [map concat fst]. destruct b; [right; apply in_or_app; auto|].
        destruct (IHr _ A) as [I|I]; [apply in_app_or in I; destruct I|]; auto;
          right; apply in_or_app; auto. }
      destruct (G [] A) as [[]|]; auto.
    + exact A.
Qed.

(** ** Children *)

Section Search.
Variable opts : list taskOption.
Variable matrix : list costEntry.
Variable alg : expr.
Variable order : node -> list Z.

(** The child for an option and a vehicle, if there is one. *)
Definition childOf (n : node) (o v cand : Z) : option node :=
  match vlookup (n_vehicles n) v with
  | None => None
  | Some vs =>
      let travel := travelTime matrix v (startingLocation v vs) o in
      let total := taskTime opts o v + travel + vs_total vs in
      let cost := assignmentCost (n_vehicles n) v total in
      if existsb (fun e => ce_vehicle e =? v) matrix && optionKnown opts o
         && (0 <=? travel) && (cost <? cand)
      then Some {| n_assigned := n_assigned n ++ [o];
                   n_vehicles := vupdate (n_vehicles n) v
                     {| vs_total := total;
                        vs_tasks := vs_tasks vs ++
                          [{| ta_task := getTaskID o; ta_option := getOptionID o;
                              ta_vehicle := v; ta_threshold := 0; ta_completed := total |}] |};
                   n_cost := cost |}
      else None
  end.

Definition same_result (a b : search) : Prop :=
  s_cand a = s_cand b /\ s_best a = s_best b /\ s_complete a = s_complete b.

Lemma nodeAssignment_spec limit n o v st ch st1 ch1 :
  nodeAssignment opts matrix limit n o v st ch = (st1, ch1) ->
  same_result st st1 /\
  ch1 = match childOf n o v (s_cand st) with Some c => insertChild c ch | None => ch end /\
  (s_stop st = true -> s_stop st1 = true) /\
  (limit < 0 -> s_stop st1 = s_stop st) /\
  (s_stop st1 = true -> s_stop st = true \/ 0 < s_complete st).
Proof.
  assert (C : same_result st (checkStop limit st) /\
              (s_stop st = true -> s_stop (checkStop limit st) = true) /\
              (limit < 0 -> s_stop (checkStop limit st) = s_stop st) /\
              (s_stop (checkStop limit st) = true -> s_stop st = true \/ 0 < s_complete st)).
  { unfold checkStop. destruct ((0 <=? limit) && (limit <=? s_visited st) && (0 <? s_complete st)) eqn:E.
    - apply andb_prop in E. destruct E as (E & E2). apply andb_prop in E. destruct E as (E & _).
      apply Z.leb_le in E. apply Z.ltb_lt in E2. cbn. repeat split; auto. lia.
    - repeat split; auto. }
  unfold nodeAssignment, childOf. destruct C as ((C1 & C2 & C3) & C4 & C5 & C6).
  set (st' := checkStop limit st) in *. clearbody st'. 
  destruct (vlookup (n_vehicles n) v) as [vs|].
  2:{ intros E. injection E as <- <-. repeat split; auto. }
  change (maxVehicleTravelTime <? 0) with true. cbn [orb s_cand s_best s_complete s_stop].
  destruct (existsb _ matrix && optionKnown opts o); cbn [andb].
  2:{ intros E. injection E as <- <-. repeat split; auto. }
  destruct (0 <=? travelTime _ _ _ _); cbn [andb].
  2:{ intros E. injection E as <- <-. repeat split; auto. }
  rewrite <- C1.
  destruct (assignmentCost _ _ _ <? s_cand st); intros E; injection E as <- <-;
    repeat split; auto.
Qed.

(** Two limits, the first at most the second. *)
Definition limit_le (l1 l2 : Z) : Prop := l2 < 0 \/ 0 <= l1 <= l2.

Lemma nodeAssignment_limits l1 l2 n o v st ch :
  limit_le l1 l2 ->
  nodeAssignment opts matrix l1 n o v st ch = nodeAssignment opts matrix l2 n o v st ch \/
  s_stop (fst (nodeAssignment opts matrix l1 n o v st ch)) = true.
Proof.
  intros L.
  assert (C : checkStop l1 st = checkStop l2 st \/ s_stop (checkStop l1 st) = true).
  { unfold checkStop.
    destruct ((0 <=? l1) && (l1 <=? s_visited st) && (0 <? s_complete st)) eqn:E1; [auto|].
    destruct ((0 <=? l2) && (l2 <=? s_visited st) && (0 <? s_complete st)) eqn:E2; [|auto].
    exfalso. apply andb_prop in E2. destruct E2 as (E2 & E3). apply andb_prop in E2.
    destruct E2 as (E4 & E5). apply Z.leb_le in E4, E5. rewrite E3, andb_true_r in E1.
    destruct L as [L|L]; [lia|]. destruct (Z.leb_spec 0 l1); [|lia].
    destruct (Z.leb_spec l1 (s_visited st)); [discriminate|lia]. }
  destruct C as [C|C]; [left; unfold nodeAssignment; rewrite C; auto|right].
  unfold nodeAssignment. set (st' := checkStop l1 st) in *. clearbody st'.
  destruct (vlookup (n_vehicles n) v) as [vs|]; auto.
  destruct (existsb _ matrix && optionKnown opts o); auto.
  destruct (0 <=? travelTime _ _ _ _); auto.
  destruct ((maxVehicleTravelTime <? 0) || _); auto.
  destruct (assignmentCost _ _ _ <? _); auto.
Qed.

Lemma insertChild_in c d l : In d (insertChild c l) <-> d = c \/ In d l.
Proof.
  induction l as [|x l IH]; cbn; [intuition|].
  destruct (n_cost c <? n_cost x); cbn; [intuition|]. rewrite IH. intuition.
Qed.

Lemma children_spec limit n prod : forall st ch st1 ch1,
  fold_left (fun sc ov => nodeAssignment opts matrix limit n (fst ov) (snd ov) (fst sc) (snd sc))
    prod (st, ch) = (st1, ch1) ->
  same_result st st1 /\
  (forall c, In c ch1 <-> In c ch \/ exists o v, In (o, v) prod /\ childOf n o v (s_cand st) = Some c) /\
  (s_stop st = true -> s_stop st1 = true) /\
  (limit < 0 -> s_stop st1 = s_stop st) /\
  (s_stop st1 = true -> s_stop st = true \/ 0 < s_complete st).
Proof.
  induction prod as [|(o, v) prod IH]; intros st ch st1 ch1 E; cbn [fold_left fst snd] in E.
  - injection E as <- <-. repeat split; auto. intros [I|(o & v & [] & _)]; auto.
  - destruct (nodeAssignment opts matrix limit n o v st ch) as (st2, ch2) eqn:NA.
    destruct (nodeAssignment_spec _ _ _ _ _ _ _ _ NA) as ((S1 & S2 & S3) & -> & S4 & S5 & S6).
    apply IH in E. destruct E as ((T1 & T2 & T3) & TC & T4 & T5 & T6).
    split; [repeat split; congruence|]. split; [|split; [auto|split]].
    + intros c. rewrite TC. rewrite <- S1. split.
      * intros [I|(o' & v' & I & K)]; [|right; exists o', v'; split; [right; auto|auto]].
        destruct (childOf n o v (s_cand st)) as [d|] eqn:CO; auto.
        apply insertChild_in in I. destruct I as [->|I]; auto.
        right. exists o, v. split; [left; auto|auto].
      * intros [I|(o' & v' & [I|I] & K)].
        -- left. destruct (childOf n o v (s_cand st)); auto. apply insertChild_in. auto.
        -- injection I as <- <-. rewrite K. left. apply insertChild_in. auto.
        -- right. exists o', v'. auto.
    + intros L. rewrite T5, S5; auto.
    + intros ST. destruct (T6 ST) as [T|T]; [auto|]. rewrite <- S3 in T. auto.
Qed.

Lemma makeChildren_spec limit n next st st1 ch :
  makeChildren opts matrix limit order n next st = (st1, ch) ->
  same_result st st1 /\
  (forall c, In c ch <-> exists o v, In o next /\ In v (order n) /\ childOf n o v (s_cand st) = Some c) /\
  (s_stop st = true -> s_stop st1 = true) /\
  (limit < 0 -> s_stop st1 = s_stop st) /\
  (s_stop st1 = true -> s_stop st = true \/ 0 < s_complete st).
Proof.
  intros E. apply children_spec in E. destruct E as (S & C & R). split; auto. split; auto.
  intros c. rewrite C. cbn [In]. split.
  - intros [[]|(o & v & I & K)]. apply in_prod_iff in I. exists o, v. tauto.
  - intros (o & v & I1 & I2 & K). right. exists o, v. split; auto. apply in_prod_iff. auto.
Qed.

Lemma children_limits l1 l2 n prod : limit_le l1 l2 -> forall st ch,
  let r1 := fold_left (fun sc ov => nodeAssignment opts matrix l1 n (fst ov) (snd ov) (fst sc) (snd sc)) prod (st, ch) in
  let r2 := fold_left (fun sc ov => nodeAssignment opts matrix l2 n (fst ov) (snd ov) (fst sc) (snd sc)) prod (st, ch) in
  r1 = r2 \/ s_stop (fst r1) = true.
Proof.
  intros L. induction prod as [|(o, v) prod IH]; intros st ch; cbn [fold_left fst snd]; auto.
  destruct (nodeAssignment_limits l1 l2 n o v st ch L) as [E|E].
  - rewrite E. destruct (nodeAssignment opts matrix l2 n o v st ch) as (st2, ch2). apply IH.
  - right. destruct (nodeAssignment opts matrix l1 n o v st ch) as (st2, ch2). cbn [fst] in E.
    destruct (fold_left _ prod (st2, ch2)) as (st3, ch3) eqn:F. cbn [fst].
    apply children_spec in F. apply F. auto.
Qed.

(** ** The loop over the children *)

Definition visit (limit : Z) (f : nat) : list node -> search -> option search :=
  fix go l st :=
  match l with
  | [] => Some st
  | c :: l' =>
      if (n_cost c <? s_cand st) && negb (s_stop st) then
        match expandNode opts matrix limit alg order f c st with
        | Some st' => go l' st'
        | None => None
        end
      else go l' st
  end.

Lemma expandNode_eq limit f n st :
  expandNode opts matrix limit alg order (S f) n st =
  let next := searchNext alg (n_assigned n) in
  let '(st, children) := makeChildren opts matrix limit order n next st in
  if s_stop st then Some st
  else match children with
       | [] => match next with [] => Some (leaf n st) | _ => Some st end
       | _ => visit limit f children st
       end.
Proof. reflexivity. Qed.

(** ** The state of a node *)

(** The completion times as the search computes them. *)
Fixpoint times (v loc t : Z) (os : list Z) : list (Z * Z) :=
  match os with
  | [] => []
  | o :: os' =>
      let t' := taskTime opts o v + travelTime matrix v loc o + t in
      (o, t') :: times v o t' os'
  end.

Lemma last_cons {A} (x : A) l d : last (x :: l) d = last l x.
Proof.
  revert x d. induction l as [|y l IH]; intros x d; auto.
  change (last (x :: y :: l) d) with (last (y :: l) d). rewrite (IH y d), (IH y x). auto.
Qed.

Lemma times_snoc v os : forall loc t o,
  times v loc t (os ++ [o])
  = times v loc t os ++
    [(o, taskTime opts o v + travelTime matrix v (last os loc) o
         + last (map snd (times v loc t os)) t)].
Proof.
  induction os as [|x os IH]; intros loc t o; cbn [app times map snd]; auto.
  rewrite IH. rewrite !last_cons. auto.
Qed.

Lemma times_fst v os : forall loc t, map fst (times v loc t os) = os.
Proof. induction os; intros; cbn; congruence. Qed.

Lemma last_snoc {A} (l : list A) x d : last (l ++ [x]) d = x.
Proof. apply last_last. Qed.

(** The total time of a vehicle. *)
Definition total (v : Z) (h : schedule) : Z := last (map snd (times v v 0 (route v h))) 0.

(** How far a schedule can have been built by the search. *)
Inductive built : schedule -> Prop :=
| built_nil : built []
| built_snoc h o v :
    built h -> In o (searchNext alg (map fst h)) -> In v (vehiclesOf matrix) ->
    0 <= travelTime matrix v (last (route v h) v) o -> optionKnown opts o = true ->
    built (h ++ [(o, v)]).

Record node_of (n : node) (h : schedule) : Prop := {
  no_built : built h;
  no_assigned : n_assigned n = map fst h;
  no_keys : map fst (n_vehicles n) = vehiclesOf matrix;
  no_total : forall v vs, In (v, vs) (n_vehicles n) -> vs_total vs = total v h;
  no_tasks : forall v vs, In (v, vs) (n_vehicles n) ->
    map (fun t => (packId (ta_task t) (ta_option t), ta_completed t)) (vs_tasks vs)
    = times v v 0 (route v h) /\
    Forall (fun t => ta_vehicle t = v) (vs_tasks vs)
}.

Lemma root_node : node_of (root (vehiclesOf matrix)) [].
Proof.
  constructor; cbn; auto.
  - constructor.
  - rewrite map_map. cbn. apply map_id.
  - intros v vs I. apply in_map_iff in I. destruct I as (w & E & _). injection E as <- <-. auto.
  - intros v vs I. apply in_map_iff in I. destruct I as (w & E & _). injection E as <- <-.
    cbn. split; [auto|constructor].
Qed.

Lemma location_last n h v vs :
  node_of n h -> In (v, vs) (n_vehicles n) -> startingLocation v vs = last (route v h) v.
Proof.
  intros N I. destruct (no_tasks _ _ N v vs I) as (T & _).
  assert (R : map (fun t => packId (ta_task t) (ta_option t)) (vs_tasks vs) = route v h).
  { rewrite <- (times_fst v (route v h) v 0), <- T, map_map. auto. }
  unfold startingLocation. rewrite <- R.
  destruct (vs_tasks vs) as [|t ts] using rev_ind; auto.
  rewrite rev_app_distr, map_app. cbn [rev app map]. rewrite last_last. auto.
Qed.

Lemma childOf_node n h o v cand c :
  node_of n h -> In o (searchNext alg (map fst h)) -> childOf n o v cand = Some c ->
  node_of c (h ++ [(o, v)]) /\ n_cost c < cand /\
  n_cost c = assignmentCost (n_vehicles n) v (total v (h ++ [(o, v)])).
Proof.
  intros N O E. unfold childOf in E.
  destruct (vlookup (n_vehicles n) v) as [vs|] eqn:V; [|discriminate].
  pose proof (vlookup_in _ _ _ V) as IV.
  rewrite (location_last n h v vs N IV) in E.
  set (tr := travelTime matrix v (last (route v h) v) o) in *.
  set (tt := taskTime opts o v + tr + vs_total vs) in *.
  destruct (existsb _ matrix) eqn:EX; [|discriminate]. cbn [andb] in E.
  destruct (optionKnown opts o) eqn:K; [|discriminate]. cbn [andb] in E.
  destruct (Z.leb_spec 0 tr) as [TR|]; [|discriminate]. cbn [andb] in E.
  destruct (Z.ltb_spec (assignmentCost (n_vehicles n) v tt) cand) as [LT|]; [|discriminate].
  injection E as <-.
  assert (IVF : In v (vehiclesOf matrix)).
  { rewrite <- (no_keys _ _ N). apply in_map_iff. exists (v, vs). auto. }
  assert (ND : NoDup (map fst (n_vehicles n))).
  { rewrite (no_keys _ _ N). apply vehicles_nodup. }
  assert (TM : times v v 0 (route v (h ++ [(o, v)])) = times v v 0 (route v h) ++ [(o, tt)]).
  { rewrite route_snoc, Z.eqb_refl, times_snoc. f_equal. f_equal. f_equal. unfold tt, tr.
    rewrite (no_total _ _ N v vs IV). reflexivity. }
  assert (TT : total v (h ++ [(o, v)]) = tt).
  { unfold total. rewrite TM, map_app. cbn [map snd]. apply last_last. }
  rewrite TT. cbn [n_cost]. split; [|auto].
  assert (U : forall w ws, In (w, ws) (vupdate (n_vehicles n) v
     {| vs_total := tt; vs_tasks := vs_tasks vs ++
          [{| ta_task := getTaskID o; ta_option := getOptionID o; ta_vehicle := v;
              ta_threshold := 0; ta_completed := tt |}] |}) ->
     (w = v /\ ws = {| vs_total := tt; vs_tasks := vs_tasks vs ++
          [{| ta_task := getTaskID o; ta_option := getOptionID o; ta_vehicle := v;
              ta_threshold := 0; ta_completed := tt |}] |}) \/
     (w <> v /\ In (w, ws) (n_vehicles n))).
  { intros w ws I. apply vlookup_nodup in I; [|rewrite vupdate_keys; auto].
    rewrite vlookup_update, V in I. destruct (Z.eqb_spec v w) as [->|NE].
    - injection I as <-. auto.
    - right. split; auto. apply vlookup_in. auto. }
  constructor; cbn [n_assigned n_vehicles].
  - constructor; auto. apply N.
  - rewrite map_app, (no_assigned _ _ N). auto.
  - rewrite vupdate_keys. apply N.
  - intros w ws I. destruct (U w ws I) as [(-> & ->)|(NE & I')]; [auto|].
    rewrite (no_total _ _ N w ws I'). unfold total. rewrite route_snoc.
    destruct (Z.eqb_spec v w); [congruence|auto].
  - intros w ws I. destruct (U w ws I) as [(-> & ->)|(NE & I')].
    + cbn [vs_tasks]. rewrite TM, map_app. cbn [map ta_task ta_option ta_completed].
      rewrite pack_split. destruct (no_tasks _ _ N v vs IV) as (-> & F). split; auto.
      apply Forall_app. split; auto.
    + rewrite route_snoc. destruct (Z.eqb_spec v w); [congruence|].
      apply (no_tasks _ _ N w ws I').
Qed.

Lemma built_run h : built h -> offered_run (searchNext alg) (map fst h).
Proof.
  induction 1 as [|h o v _ IH O _ _ _]; [constructor|].
  rewrite map_app. cbn. constructor; auto.
Qed.

Lemma built_fresh h : built h -> NoDup (map fst h) /\ incl (map fst h) (actions alg).
Proof.
  induction 1 as [|h o v _ (ND & IN) O _ _ _].
  - split; [constructor|intros x []].
  - rewrite map_app. cbn [map fst]. apply next_fresh in O. destruct O as (OA & OH). split.
    + apply (Permutation_NoDup (Permutation_cons_append _ _)). constructor; auto.
    + apply incl_app; auto. intros x [<-|[]]; auto.
Qed.

Lemma built_length h : built h -> (length h <= length (actions alg))%nat.
Proof.
  intros B. apply built_fresh in B. destruct B as (ND & IN).
  rewrite <- (map_length fst h). apply NoDup_incl_length; auto.
Qed.

(** ** Termination *)

Lemma expand_total limit : forall f n h st,
  node_of n h -> (length (actions alg) < f + length h)%nat ->
  expandNode opts matrix limit alg order f n st <> None.
Proof.
  induction f as [|f IH]; intros n h st N L.
  { pose proof (built_length _ (no_built _ _ N)). lia. }
  rewrite expandNode_eq. cbn zeta.
  destruct (makeChildren opts matrix limit order n (searchNext alg (n_assigned n)) st)
    as (st1, ch) eqn:M.
  destruct (s_stop st1); [discriminate|].
  apply makeChildren_spec in M. destruct M as (_ & C & _).
  assert (G : forall st, visit limit f ch st <> None).
  { assert (K : forall c, In c ch -> exists h', node_of c h' /\ length h' = S (length h)).
    { intros c I. apply C in I. destruct I as (o & v & O & _ & K).
      rewrite (no_assigned _ _ N) in O.
      destruct (childOf_node _ _ _ _ _ _ N O K) as (N' & _).
      eexists. split; [apply N'|]. rewrite app_length. cbn. lia. }
    clear C. induction ch as [|c ch IHc]; intros s; cbn; [discriminate|].
    destruct ((n_cost c <? s_cand s) && negb (s_stop s)).
    - destruct (K c (or_introl eq_refl)) as (h' & N' & L').
      destruct (expandNode opts matrix limit alg order f c s) as [s'|] eqn:E.
      + apply IHc. intros c' I. apply K. right. auto.
      + exfalso. apply (IH c h' s N'); auto. lia.
    - apply IHc. intros c' I. apply K. right. auto. }
  destruct ch; [|apply G]. destruct (searchNext alg (n_assigned n)); discriminate.
Qed.

(** ** What is found *)

(** The best assignment so far belongs to a finished schedule. *)
Definition found (st : search) : Prop :=
  (s_complete st = 0 /\ s_best st = []) \/
  (0 < s_complete st /\
   exists n h, node_of n h /\ searchNext alg (map fst h) = [] /\
               s_best st = n_vehicles n /\ s_cand st = n_cost n).

Lemma found_same a b : same_result a b -> found a -> found b.
Proof. intros (E1 & E2 & E3). unfold found. rewrite E1, E2, E3. auto. Qed.

Lemma expand_found limit : forall f n h st st',
  node_of n h -> found st -> expandNode opts matrix limit alg order f n st = Some st' ->
  found st' /\ s_cand st' <= s_cand st /\ s_complete st <= s_complete st'.
Proof.
  induction f as [|f IH]; intros n h st st' N F E; [discriminate|].
  rewrite expandNode_eq in E. cbn zeta in E.
  destruct (makeChildren opts matrix limit order n (searchNext alg (n_assigned n)) st)
    as (st1, ch) eqn:M.
  apply makeChildren_spec in M. destruct M as (SR & C & _).
  pose proof (found_same _ _ SR F) as F1. destruct SR as (SR1 & SR2 & SR3).
  destruct (s_stop st1); [injection E as <-; repeat split; auto; lia|].
  assert (G : forall s s', found s -> visit limit f ch s = Some s' ->
              found s' /\ s_cand s' <= s_cand s /\ s_complete s <= s_complete s').
  { assert (K : forall c, In c ch -> exists h', node_of c h').
    { intros c I. apply C in I. destruct I as (o & v & O & _ & K).
      rewrite (no_assigned _ _ N) in O.
      destruct (childOf_node _ _ _ _ _ _ N O K) as (N' & _). eauto. }
    clear - IH K. induction ch as [|c ch IHc]; intros s s' F E; cbn in E.
    - injection E as <-. repeat split; auto; lia.
    - assert (K' : forall c, In c ch -> exists h', node_of c h') by (intros; apply K; right; auto).
      destruct ((n_cost c <? s_cand s) && negb (s_stop s)); [|apply IHc; auto].
      destruct (K c (or_introl eq_refl)) as (h' & N').
      destruct (expandNode opts matrix limit alg order f c s) as [s1|] eqn:E1; [|discriminate].
      destruct (IH _ _ _ _ N' F E1) as (F1 & L1 & L1').
      destruct (IHc K' _ _ F1 E) as (F2 & L2 & L2'). repeat split; auto; lia. }
  destruct ch as [|c ch].
  - rewrite (no_assigned _ _ N) in E.
    destruct (searchNext alg (map fst h)) eqn:SN; injection E as <-; [|repeat split; auto; lia].
    unfold leaf. destruct (Z.ltb_spec (n_cost n) (s_cand st1)); [|repeat split; auto; lia].
    split; [|cbn; lia]. right. cbn. split.
    + destruct F1 as [(Z0 & _)|(P & _)]; lia.
    + exists n, h. auto.
  - destruct (G _ _ F1 E) as (G1 & G2 & G3). repeat split; auto; lia.
Qed.

(** ** Limits *)

Lemma expand_limits l1 l2 : limit_le l1 l2 -> forall f n h st st1 st2,
  node_of n h -> found st ->
  expandNode opts matrix l1 alg order f n st = Some st1 ->
  expandNode opts matrix l2 alg order f n st = Some st2 ->
  st1 = st2 \/ (s_stop st1 = true /\ s_cand st2 <= s_cand st1).
Proof.
  intros LL. induction f as [|f IH]; intros n h st st1 st2 N F E1 E2; [discriminate|].
  pose proof (expand_found _ _ _ _ _ _ N F E2) as (_ & DEC & _).
  rewrite expandNode_eq in E1, E2. cbn zeta in E1, E2.
  pose proof (children_limits l1 l2 n
    (list_prod (searchNext alg (n_assigned n)) (order n)) LL st []) as CL. cbn zeta in CL.
  change (fold_left _ (list_prod (searchNext alg (n_assigned n)) (order n)) (st, []))
    with (makeChildren opts matrix l1 order n (searchNext alg (n_assigned n)) st) in CL at 1.
  fold (makeChildren opts matrix l1 order n (searchNext alg (n_assigned n)) st) in CL.
  fold (makeChildren opts matrix l2 order n (searchNext alg (n_assigned n)) st) in CL.
  destruct (makeChildren opts matrix l1 order n (searchNext alg (n_assigned n)) st)
    as (s1, ch1) eqn:M1.
  destruct (makeChildren opts matrix l2 order n (searchNext alg (n_assigned n)) st)
    as (s2, ch2) eqn:M2.
  pose proof (makeChildren_spec _ _ _ _ _ _ M1) as ((C1 & _) & _).
  destruct CL as [CL|CL].
  2:{ cbn [fst] in CL. rewrite CL in E1. injection E1 as <-. right. split; auto. lia. }
  injection CL as <- <-. clear M1.
  destruct (s_stop s1) eqn:ST; [left; congruence|].
  apply makeChildren_spec in M2. destruct M2 as (SR & C & _).
  pose proof (found_same _ _ SR F) as F1. clear SR DEC C1.
  assert (K : forall c, In c ch1 -> exists h', node_of c h').
  { intros c I. apply C in I. destruct I as (o & v & O & _ & K).
    rewrite (no_assigned _ _ N) in O.
    destruct (childOf_node _ _ _ _ _ _ N O K) as (N' & _). eauto. }
  assert (DECV : forall l s s', (forall c, In c l -> exists h', node_of c h') -> found s ->
              visit l2 f l s = Some s' -> s_cand s' <= s_cand s).
  { induction l as [|c l IHl]; intros s s' Kl Fs E; cbn in E.
    - injection E as <-. lia.
    - assert (K' : forall c, In c l -> exists h', node_of c h') by (intros; apply Kl; right; auto).
      destruct ((n_cost c <? s_cand s) && negb (s_stop s)); [|apply IHl; auto].
      destruct (Kl c (or_introl eq_refl)) as (h' & N').
      destruct (expandNode opts matrix l2 alg order f c s) as [s3|] eqn:E3; [|discriminate].
      destruct (expand_found _ _ _ _ _ _ N' Fs E3) as (F3 & D3 & _).
      specialize (IHl _ _ K' F3 E). lia. }
  assert (STOP : forall l s, s_stop s = true -> visit l1 f l s = Some s).
  { induction l as [|c l IHl]; intros s S; cbn; auto. rewrite S, andb_false_r. auto. }
  assert (G : forall l s, (forall c, In c l -> exists h', node_of c h') -> found s ->
     forall s1 s2, visit l1 f l s = Some s1 -> visit l2 f l s = Some s2 ->
     s1 = s2 \/ (s_stop s1 = true /\ s_cand s2 <= s_cand s1)).
  { clear - IH DECV STOP. induction l as [|c l IHl]; intros s Kl Fs s1 s2 E1 E2.
    - cbn in E1, E2. left. congruence.
    - assert (K' : forall c, In c l -> exists h', node_of c h') by (intros; apply Kl; right; auto).
      pose proof (DECV l) as D. cbn in E1, E2.
      destruct ((n_cost c <? s_cand s) && negb (s_stop s)); [|eapply IHl; eauto].
      destruct (Kl c (or_introl eq_refl)) as (h' & N').
      destruct (expandNode opts matrix l1 alg order f c s) as [t1|] eqn:T1; [|discriminate].
      destruct (expandNode opts matrix l2 alg order f c s) as [t2|] eqn:T2; [|discriminate].
      destruct (expand_found _ _ _ _ _ _ N' Fs T2) as (Ft2 & _ & _).
      destruct (IH _ _ _ _ _ N' Fs T1 T2) as [->|(S1 & L1)].
      + eapply IHl; eauto.
      + fold (visit l1 f) in E1. rewrite STOP in E1 by auto. injection E1 as <-. right. split; auto.
        specialize (D _ _ K' Ft2 E2). lia. }
  destruct ch1 as [|c ch1].
  - destruct (searchNext alg (n_assigned n)); left; congruence.
  - eapply G; eauto.
Qed.

(** A stopped search has found something. *)
Lemma expand_stopped limit : forall f n h st st',
  node_of n h -> found st -> (s_stop st = true -> 0 < s_complete st) ->
  expandNode opts matrix limit alg order f n st = Some st' ->
  (s_stop st' = true -> 0 < s_complete st') /\
  (limit < 0 -> s_stop st' = s_stop st).
Proof.
  induction f as [|f IH]; intros n h st st' N F S E; [discriminate|].
  rewrite expandNode_eq in E. cbn zeta in E.
  destruct (makeChildren opts matrix limit order n (searchNext alg (n_assigned n)) st)
    as (st1, ch) eqn:M.
  apply makeChildren_spec in M. destruct M as (SR & C & SM & SN & SC).
  pose proof (found_same _ _ SR F) as F1. destruct SR as (SR1 & SR2 & SR3).
  assert (S1 : s_stop st1 = true -> 0 < s_complete st1).
  { intros X. rewrite <- SR3. destruct (SC X); auto. }
  destruct (s_stop st1) eqn:X1; [injection E as <-; rewrite X1; split; auto|].
  assert (G : forall s s', found s -> (s_stop s = true -> 0 < s_complete s) ->
     visit limit f ch s = Some s' ->
     (s_stop s' = true -> 0 < s_complete s') /\ (limit < 0 -> s_stop s' = s_stop s)).
  { assert (K : forall c, In c ch -> exists h', node_of c h').
    { intros c I. apply C in I. destruct I as (o & v & O & _ & K).
      rewrite (no_assigned _ _ N) in O.
      destruct (childOf_node _ _ _ _ _ _ N O K) as (N' & _). eauto. }
    clear - IH K. induction ch as [|c ch IHc]; intros s s' F S E; cbn in E.
    - injection E as <-. auto.
    - assert (K' : forall c, In c ch -> exists h', node_of c h') by (intros; apply K; right; auto).
      destruct ((n_cost c <? s_cand s) && negb (s_stop s)); [|apply IHc; auto].
      destruct (K c (or_introl eq_refl)) as (h' & N').
      destruct (expandNode opts matrix limit alg order f c s) as [s1|] eqn:E1; [|discriminate].
      destruct (expand_found _ _ _ _ _ _ N' F E1) as (F1 & _ & _).
      destruct (IH _ _ _ _ N' F S E1) as (S1 & Q1).
      destruct (IHc K' _ _ F1 S1 E) as (S2 & Q2). split; auto.
      intros L. rewrite Q2, Q1; auto. }
  destruct ch as [|c ch].
  - destruct (searchNext alg (n_assigned n)); injection E as <-.
    + unfold leaf. destruct (n_cost n <? s_cand st1); cbn; rewrite X1; split; auto; discriminate.
    + rewrite X1. split; auto.
  - destruct (G st1 st' F1) as (G1 & G2); auto.
    { rewrite X1. discriminate. }
    split; auto. intros L. rewrite G2, X1, SN; auto.
Qed.

(** ** Optimality *)

Definition maxTotal (h : schedule) : Z :=
  fold_right Z.max 0 (map (fun v => total v h) (vehiclesOf matrix)).

Lemma maxTotal_ge h v : In v (vehiclesOf matrix) -> total v h <= maxTotal h.
Proof.
  unfold maxTotal. induction (vehiclesOf matrix) as [|w l IH]; [intros []|].
  cbn. intros [->|I]; [lia|]. specialize (IH I). lia.
Qed.

Lemma maxTotal_nonneg h : 0 <= maxTotal h.
Proof. unfold maxTotal. induction (vehiclesOf matrix); cbn; lia. Qed.

Lemma maxTotal_attained h :
  maxTotal h = 0 \/ exists v, In v (vehiclesOf matrix) /\ maxTotal h = total v h.
Proof.
  unfold maxTotal. induction (vehiclesOf matrix) as [|w l IH]; cbn; auto.
  destruct (Z.max_spec (total w h) (fold_right Z.max 0 (map (fun v => total v h) l)))
    as [(_ & ->)|(_ & ->)].
  - destruct IH as [->|(v & I & ->)]; auto. right. exists v. auto.
  - right. exists w. auto.
Qed.

Lemma maxTotal_unique h x :
  0 <= x -> (forall v, In v (vehiclesOf matrix) -> total v h <= x) ->
  (x = 0 \/ exists v, In v (vehiclesOf matrix) /\ x = total v h) -> x = maxTotal h.
Proof.
  intros P U A. pose proof (maxTotal_nonneg h).
  assert (maxTotal h <= x).
  { destruct (maxTotal_attained h) as [->|(v & I & ->)]; auto. }
  destruct A as [->|(v & I & ->)]; [lia|]. pose proof (maxTotal_ge h v I). lia.
Qed.

Lemma assignmentCost_spec v : forall l t,
  let x := assignmentCost l v t in
  t <= x /\ (forall w ws, In (w, ws) l -> w <> v -> vs_total ws <= x) /\
  (x = t \/ exists w ws, In (w, ws) l /\ w <> v /\ x = vs_total ws).
Proof.
  induction l as [|(w, ws) l IH]; intros t; cbn zeta; unfold assignmentCost; cbn [fold_left fst snd].
  - split; [lia|]. split; [intros ? ? []|auto].
  - set (t' := if negb (w =? v) && (t <? vs_total ws) then vs_total ws else t).
    destruct (IH t') as (H1 & H2 & H3). unfold assignmentCost in *.
    set (x := fold_left _ l t') in *. clearbody x.
    assert (T : t <= t' /\ (w <> v -> vs_total ws <= t') /\ (t' = t \/ (w <> v /\ t' = vs_total ws))).
    { unfold t'. destruct (Z.eqb_spec w v); cbn; [repeat split; auto; [lia|congruence]|].
      destruct (Z.ltb_spec t (vs_total ws)); repeat split; auto; try lia. }
    destruct T as (T1 & T2 & T3).
    split; [lia|]. split.
    + intros u us [E|I] NE; [injection E as -> ->; specialize (T2 NE); lia|]. eapply H2; eauto.
    + destruct H3 as [H3|(u & us & I & NE & H3)].
      * destruct T3 as [T3|(NE & T3)]; [left; lia|]. right. exists w, ws. split; [left; auto|]. split; auto. lia.
      * right. exists u, us. split; [right; auto|auto].
Qed.

(** Performing what can be reached takes no negative time. *)
Definition monotone : Prop :=
  forall v loc o, In v (vehiclesOf matrix) -> 0 <= travelTime matrix v loc o ->
    optionKnown opts o = true -> 0 <= taskTime opts o v.

Lemma total_snoc h o v w :
  total w (h ++ [(o, v)])
  = if v =? w then taskTime opts o v + travelTime matrix v (last (route v h) v) o + total v h
    else total w h.
Proof.
  unfold total. rewrite route_snoc. destruct (Z.eqb_spec v w) as [->|]; auto.
  rewrite times_snoc, map_app. cbn [map snd]. apply last_last.
Qed.

Lemma total_mono h o v w :
  monotone -> built (h ++ [(o, v)]) -> total w h <= total w (h ++ [(o, v)]).
Proof.
  intros M B. rewrite total_snoc. destruct (Z.eqb_spec v w) as [->|]; [|lia].
  inversion B as [E|h' o' v' B' O V T K E]; [destruct h; discriminate|].
  apply app_inj_tail in E. destruct E as (-> & E). injection E as -> ->.
  pose proof (M w _ o V T K). lia.
Qed.

Lemma built_prefix a b : built (a ++ b) -> built a.
Proof.
  induction b as [|x b IH] using rev_ind; [rewrite app_nil_r; auto|].
  rewrite app_assoc. intros B. apply IH.
  inversion B as [E|h' o' v' B' O V T K E]; [destruct (a ++ b); discriminate|].
  apply app_inj_tail in E. destruct E as (<- & _). auto.
Qed.

Lemma built_last h o v : built (h ++ [(o, v)]) ->
  built h /\ In o (searchNext alg (map fst h)) /\ In v (vehiclesOf matrix) /\
  0 <= travelTime matrix v (last (route v h) v) o /\ optionKnown opts o = true.
Proof.
  intros B. inversion B as [E|h' o' v' B' O V T K E]; [destruct h; discriminate|].
  apply app_inj_tail in E. destruct E as (-> & E). injection E as -> ->. auto.
Qed.

Lemma total_prefix a b w : monotone -> built (a ++ b) -> total w a <= total w (a ++ b).
Proof.
  intros M. induction b as [|(o, v) b IH] using rev_ind; [rewrite app_nil_r; lia|].
  rewrite app_assoc. intros B. pose proof (total_mono _ _ _ w M B).
  apply built_prefix in B. specialize (IH B). lia.
Qed.

Lemma total_nonneg h w : monotone -> built h -> 0 <= total w h.
Proof. intros M B. apply (total_prefix [] h w M B). Qed.

Lemma maxTotal_prefix a b : monotone -> built (a ++ b) -> maxTotal a <= maxTotal (a ++ b).
Proof.
  intros M B. destruct (maxTotal_attained a) as [->|(v & I & ->)]; [apply maxTotal_nonneg|].
  pose proof (total_prefix a b v M B). pose proof (maxTotal_ge (a ++ b) v I). lia.
Qed.

Lemma child_cost n h o v :
  monotone -> node_of n h -> built (h ++ [(o, v)]) ->
  assignmentCost (n_vehicles n) v (total v (h ++ [(o, v)])) = maxTotal (h ++ [(o, v)]).
Proof.
  intros M N B. set (g := h ++ [(o, v)]).
  destruct (assignmentCost_spec v (n_vehicles n) (total v g)) as (A1 & A2 & A3).
  set (x := assignmentCost (n_vehicles n) v (total v g)) in *.
  assert (KEY : forall w, In w (vehiclesOf matrix) -> exists ws, In (w, ws) (n_vehicles n)).
  { intros w I. rewrite <- (no_keys _ _ N) in I. apply in_map_iff in I.
    destruct I as ((w', ws) & <- & I). eauto. }
  assert (OTH : forall w, w <> v -> total w g = total w h).
  { intros w NE. unfold g. rewrite total_snoc. destruct (Z.eqb_spec v w); [congruence|auto]. }
  apply maxTotal_unique.
  - pose proof (total_nonneg g v M B). lia.
  - intros w I. destruct (Z.eq_dec w v) as [->|NE]; [auto|].
    destruct (KEY w I) as (ws & IW). rewrite OTH by auto.
    rewrite <- (no_total _ _ N w ws IW). apply (A2 w ws); auto.
  - right. destruct A3 as [->|(w & ws & IW & NE & ->)].
    + exists v. split; auto. apply built_last in B. tauto.
    + exists w. split.
      * rewrite <- (no_keys _ _ N). apply in_map_iff. exists (w, ws). auto.
      * rewrite OTH by auto. apply (no_total _ _ N w ws IW).
Qed.

Lemma childOf_complete n h o v cand :
  monotone -> node_of n h -> built (h ++ [(o, v)]) ->
  (exists c, childOf n o v cand = Some c) \/ cand <= maxTotal (h ++ [(o, v)]).
Proof.
  intros M N B. pose proof (child_cost n h o v M N B) as CC.
  pose proof (built_last _ _ _ B) as (_ & O & V & T & K).
  unfold childOf.
  destruct (vlookup_dom (n_vehicles n) v) as (vs & VL); [rewrite (no_keys _ _ N); auto|].
  rewrite VL. pose proof (vlookup_in _ _ _ VL) as IV.
  rewrite (location_last n h v vs N IV).
  replace (taskTime opts o v + travelTime matrix v (last (route v h) v) o + vs_total vs)
    with (total v (h ++ [(o, v)])).
  2:{ rewrite total_snoc, Z.eqb_refl, (no_total _ _ N v vs IV). auto. }
  rewrite CC.
  assert (EX : existsb (fun e => ce_vehicle e =? v) matrix = true).
  { apply vehicles_fleet in V. destruct V as (e & I & E). apply existsb_exists. exists e.
    split; auto. apply Z.eqb_eq. auto. }
  rewrite EX, K. cbn [andb]. destruct (Z.leb_spec 0 (travelTime matrix v (last (route v h) v) o)); [|lia].
  cbn [andb]. destruct (Z.ltb_spec (maxTotal (h ++ [(o, v)])) cand); [left; eauto|auto].
Qed.

Definition all_vehicles : Prop := forall n v, In v (vehiclesOf matrix) -> In v (order n).

Lemma expand_optimal limit : monotone -> all_vehicles -> limit < 0 ->
  forall f n h st st', node_of n h -> n_cost n = maxTotal h -> found st -> s_stop st = false ->
  expandNode opts matrix limit alg order f n st = Some st' ->
  forall s, built (h ++ s) -> searchNext alg (map fst (h ++ s)) = [] ->
  s_cand st' <= maxTotal (h ++ s).
Proof.
  intros M AV LIM. induction f as [|f IH]; intros n h st st' N NC F ST E s B D; [discriminate|].
  pose proof (expand_found _ _ _ _ _ _ N F E) as (_ & DEC & _).
  rewrite expandNode_eq in E. cbn zeta in E. rewrite (no_assigned _ _ N) in E.
  destruct (makeChildren opts matrix limit order n (searchNext alg (map fst h)) st)
    as (st1, ch) eqn:MC.
  pose proof (makeChildren_spec _ _ _ _ _ _ MC) as (SR & C & SM & SN & SC).
  pose proof (found_same _ _ SR F) as F1. destruct SR as (SR1 & SR2 & SR3).
  rewrite (SN LIM), ST in E.
  destruct s as [|(o, v) s].
  - rewrite app_nil_r in *. rewrite D in *.
    destruct ch as [|c ch].
    + injection E as <-. unfold leaf. destruct (Z.ltb_spec (n_cost n) (s_cand st1)); cbn; lia.
    + exfalso. destruct (C c) as (C' & _). destruct (C' (or_introl eq_refl)) as (? & ? & [] & _).
  - change (h ++ (o, v) :: s) with (h ++ [(o, v)] ++ s) in *. rewrite app_assoc in *.
    pose proof (built_prefix _ _ B) as B1.
    destruct (childOf_complete n h o v (s_cand st) M N B1) as [(c & K)|LE].
    2:{ pose proof (maxTotal_prefix _ _ M B). lia. }
    pose proof (built_last _ _ _ B1) as (_ & O & V & _ & _).
    assert (IC : In c ch). { apply C. exists o, v. auto. }
    assert (KN : forall c', In c' ch -> exists h', node_of c' h' /\ n_cost c' = maxTotal h').
    { intros c' I. apply C in I. destruct I as (o' & v' & O' & _ & K').
      destruct (childOf_node _ _ _ _ _ _ N O' K') as (N' & _ & NC').
      exists (h ++ [(o', v')]). split; auto. rewrite NC'. apply child_cost; auto. apply N'. }
    destruct (childOf_node _ _ _ _ _ _ N O K) as (Nc & _ & NCc).
    rewrite (child_cost n h o v M N B1) in NCc.
    assert (G : forall l s1 s', (forall c', In c' l -> exists h', node_of c' h' /\ n_cost c' = maxTotal h') ->
       found s1 -> s_stop s1 = false -> visit limit f l s1 = Some s' ->
       s_cand s' <= s_cand s1 /\ (In c l -> s_cand s' <= maxTotal ((h ++ [(o, v)]) ++ s))).
    { induction l as [|d l IHl]; intros s1 s' Kl Fs Ss E'; cbn in E'.
      - injection E' as <-. split; [lia|intros []].
      - assert (Kl' : forall c', In c' l -> exists h', node_of c' h' /\ n_cost c' = maxTotal h')
          by (intros; apply Kl; right; auto).
        rewrite Ss, andb_true_r in E'.
        destruct (Z.ltb_spec (n_cost d) (s_cand s1)) as [LT|GE].
        + destruct (Kl d (or_introl eq_refl)) as (h' & N' & NC').
          destruct (expandNode opts matrix limit alg order f d s1) as [s2|] eqn:E2; [|discriminate].
          destruct (expand_found _ _ _ _ _ _ N' Fs E2) as (F2 & D2 & _).
          destruct (expand_stopped limit f d h' s1 s2 N' Fs) as (_ & ST2); auto;
            [rewrite Ss; discriminate|].
          rewrite Ss in ST2. destruct (IHl s2 s' Kl' F2 (ST2 LIM) E') as (I1 & I2).
          split; [lia|]. intros [->|I]; [|auto].
          pose proof (IH _ _ _ _ Nc NCc Fs Ss E2 s B D). lia.
        + destruct (IHl s1 s' Kl' Fs Ss E') as (I1 & I2). split; auto.
          intros [->|I]; [|auto]. pose proof (maxTotal_prefix _ _ M B). lia. }
    destruct ch as [|d ch]; [destruct IC|].
    apply (G (d :: ch) st1 st'); auto. rewrite (SN LIM). auto.
Qed.

(** ** Schedules of the specification *)

Lemma timeline_snoc v os : forall from t o,
  timeline opts matrix v from t (os ++ [o])
  = match timeline opts matrix v from t os with
    | None => None
    | Some l =>
        match leg matrix v (last (map Some os) from) o, work opts o v with
        | Some a, Some w => Some (l ++ [(o, last (map snd l) t + a + w)])
        | _, _ => None
        end
    end.
Proof.
  induction os as [|x os IH]; intros from t o.
  - cbn. destruct (leg matrix v from o), (work opts o v); auto.
  - cbn [app timeline]. destruct (leg matrix v from x) as [a|]; auto.
    destruct (work opts x v) as [w|]; auto. rewrite IH. cbn [map]. rewrite last_cons.
    destruct (timeline opts matrix v (Some x) (t + a + w) os) as [l|]; auto.
    destruct (leg matrix v (last (map Some os) (Some x)) o); auto.
    destruct (work opts o v); auto. cbn [map snd app]. rewrite last_cons. auto.
Qed.

Lemma timeline_prefix v a b :
  timeline opts matrix v None 0 (a ++ b) <> None -> timeline opts matrix v None 0 a <> None.
Proof.
  induction b as [|x b IH] using rev_ind; [rewrite app_nil_r; auto|].
  rewrite app_assoc, timeline_snoc. intros H. apply IH. intros E. rewrite E in H. congruence.
Qed.

Lemma last_some (os : list Z) v : place v (last (map Some os) None) = last os v.
Proof.
  destruct os as [|x os] using rev_ind; auto. rewrite map_app. cbn [map]. rewrite !last_last. auto.
Qed.

Lemma last_some_in (os : list Z) p : last (map Some os) None = Some p -> In p os.
Proof.
  destruct os as [|x os] using rev_ind; [discriminate|]. rewrite map_app. cbn [map].
  rewrite last_last. intros E. injection E as ->. apply in_or_app. right. left. auto.
Qed.

Lemma step_times h o v :
  ids_apart matrix alg -> only_eligible opts matrix -> built h ->
  In v (vehiclesOf matrix) -> 0 <= travelTime matrix v (last (route v h) v) o ->
  leg matrix v (last (map Some (route v h)) None) o
  = Some (travelTime matrix v (last (route v h) v) o) /\
  work opts o v = Some (taskTime opts o v).
Proof.
  intros IA OE B V T.
  assert (L : leg matrix v (last (map Some (route v h)) None) o
              = Some (travelTime matrix v (last (route v h) v) o)).
  { rewrite (travel_leg matrix alg); auto.
    - rewrite last_some. cbn zeta. destruct (Z.leb_spec 0 (travelTime matrix v (last (route v h) v) o)); [auto|lia].
    - apply vehicles_fleet. auto.
    - intros p P. apply last_some_in, route_incl in P. apply built_fresh in B. apply B. auto. }
  split; auto. rewrite taskTime_work.
  apply leg_entry in L. destruct L as (_ & e & I & EV & ET & EO).
  destruct (work opts o v) as [w|] eqn:W; auto. exfalso.
  apply (OE e I); [lia|]. rewrite EV, EO. auto.
Qed.

Lemma built_timeline h :
  ids_apart matrix alg -> only_eligible opts matrix -> built h ->
  forall v, timeline opts matrix v None 0 (route v h) = Some (times v v 0 (route v h)).
Proof.
  intros IA OE B. induction B as [|h o w B IH O W T K]; intros v; auto.
  rewrite route_snoc. destruct (Z.eqb_spec w v) as [->|]; [|auto].
  rewrite timeline_snoc, IH.
  destruct (step_times h o v IA OE B W T) as (-> & ->).
  rewrite times_snoc. f_equal. f_equal. f_equal. f_equal. lia.
Qed.

Lemma built_feasible h :
  well_formed alg -> ids_apart matrix alg -> only_eligible opts matrix ->
  built h -> searchNext alg (map fst h) = [] -> feasible opts matrix alg h.
Proof.
  intros W IA OE B D. split.
  - pose proof (built_run _ B) as R. pose proof W as (W1 & W2).
    apply (gn_done _ _ _ (g_n _ (expr_good alg W1 W2))); auto.
    apply (run_legal alg (map fst h)); auto.
  - intros v. rewrite built_timeline; auto. discriminate.
Qed.

Lemma route_app v a b : route v (a ++ b) = route v a ++ route v b.
Proof. unfold route. rewrite filter_app, map_app. auto. Qed.

Lemma feasible_built s :
  well_formed alg -> ids_apart matrix alg -> only_eligible opts matrix ->
  feasible opts matrix alg s -> built s /\ searchNext alg (map fst s) = [].
Proof.
  intros W IA OE (TR & TL). pose proof W as (W1 & W2).
  pose proof (expr_good alg W1 W2) as G.
  assert (P : forall h k, s = h ++ k -> built h).
  { induction h as [|(o, v) h IH] using rev_ind; intros k E; [constructor|].
    rewrite <- app_assoc in E. pose proof (IH _ E) as B.
    assert (LH : legal alg (map fst h)).
    { exists (map fst ([(o, v)] ++ k)). rewrite <- map_app, <- E. auto. }
    assert (O : In o (searchNext alg (map fst h))).
    { apply (gn_next _ _ _ (g_n _ G)); auto. exists (map fst k).
      rewrite E, !map_app in TR. rewrite <- app_assoc. auto. }
    pose proof (TL v) as T. rewrite E, route_app in T.
    change ([(o, v)] ++ k) with ((o, v) :: k) in T.
    assert (RV : route v ((o, v) :: k) = o :: route v k).
    { unfold route. cbn. rewrite Z.eqb_refl. auto. }
    rewrite RV in T. change (o :: route v k) with ([o] ++ route v k) in T.
    rewrite app_assoc in T. apply timeline_prefix in T. rewrite timeline_snoc in T.
    destruct (timeline opts matrix v None 0 (route v h)) as [l|]; [|congruence].
    destruct (leg matrix v (last (map Some (route v h)) None) o) as [t|] eqn:L; [|congruence].
    destruct (work opts o v) as [w|] eqn:WK; [|congruence].
    assert (V : In v (vehiclesOf matrix)).
    { apply vehicles_fleet. destruct (leg_entry _ _ _ _ _ L) as (_ & e & I & EV & _).
      exists e. auto. }
    constructor; auto.
    - rewrite (travel_leg matrix alg) in L; auto.
      + rewrite last_some in L. cbn zeta in L.
        destruct (Z.leb_spec 0 (travelTime matrix v (last (route v h) v) o)); [auto|discriminate].
      + apply vehicles_fleet. auto.
      + intros p Hp. apply last_some_in, route_incl in Hp. apply built_fresh in B. apply B. auto.
    - apply (work_known opts o v w WK). }
  assert (B : built s) by (apply (P s []); rewrite app_nil_r; auto).
  split; auto.
  apply (gn_done _ _ _ (g_n _ G)); auto. exists []. rewrite app_nil_r. auto.
Qed.

End Search.

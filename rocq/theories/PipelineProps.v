(** C96: the planning services together.  The cost matrix of the route aggregator is fit for
    the assignment search, and the missions of the plan builder carry out a schedule that the
    written task relationships allow. *)
From Coq Require Import String Ascii List Arith ZArith NArith Bool Permutation Lia.
From Verif Require Import Base ZMap Run AlgebraModel AlgebraSpec FormulaModel FormulaSpec FormulaProps
  AssignModel AssignSpec AssignProps AssignServiceModel AssignServiceSpec AssignServiceProofs
  AssignServiceProps PipelineSpec.
From Verif Require AggregatorModel AggregatorSpec AggregatorProps BuilderModel BuilderSpec BuilderProps.
Import ListNotations.
Open Scope list_scope.
Open Scope Z_scope.

Lemma options_heard t k xs :
  AggregatorSpec.options t k = Some xs -> In (AggregatorModel.EvOptions k xs) (map fst t).
Proof.
  induction t as [|(e, o) t IH] using rev_ind; [discriminate|].
  unfold AggregatorSpec.options. rewrite fold_left_app. fold (AggregatorSpec.options t k).
  cbn [fold_left fst snd]. rewrite map_app, in_app_iff.
  destruct (existsb _ o); [discriminate|]. destruct e; auto.
  destruct (Z.eqb_spec task k) as [->|]; auto. intros [= ->]. right. left. auto.
Qed.

(** Where a leg leads to, and where it starts. *)
Lemma needed_ends t q v l :
  In l (AggregatorSpec.needed t q v) ->
  AggregatorModel.p_vehicle (fst l) = v /\
  (exists b, In b (AggregatorSpec.choices t q v) /\
     AggregatorModel.p_task (fst l) = AggregatorModel.o_task b /\
     AggregatorModel.p_option (fst l) = AggregatorModel.o_id b) /\
  ((AggregatorModel.p_prevTask (fst l) = 0 /\ AggregatorModel.p_prevOption (fst l) = 0) \/
   exists a, In a (AggregatorSpec.choices t q v) /\
     AggregatorModel.p_prevTask (fst l) = AggregatorModel.o_task a /\
     AggregatorModel.p_prevOption (fst l) = AggregatorModel.o_id a).
Proof.
  unfold AggregatorSpec.needed. destruct (AggregatorSpec.starts t q v) as [p|]; [|intros []].
  set (os := AggregatorSpec.choices t q v). rewrite in_app_iff. intros [I|I].
  - apply in_map_iff in I. destruct I as (b & <- & I). split; [reflexivity|].
    split; [exists b; auto|left; auto].
  - apply in_flat_map in I. destruct I as ((x & y) & _ & I). cbn [fst snd] in I.
    destruct (nth_error os x) as [a|] eqn:A; [|destruct I].
    destruct (nth_error os y) as [b|] eqn:B; [|destruct I].
    destruct I as [<-|[]]. apply nth_error_In in A. apply nth_error_In in B.
    split; [reflexivity|]. split; [exists b; auto|right; exists a; auto].
Qed.

Lemma choice_of t q v b :
  In b (AggregatorSpec.choices t q v) ->
  exists k xs, In k (AggregatorModel.q_tasks q) /\ AggregatorSpec.options t k = Some xs /\
    In b xs /\ AggregatorSpec.may_do v b = true.
Proof.
  unfold AggregatorSpec.choices. intros I. apply in_flat_map in I. destruct I as (k & K & I).
  destruct (AggregatorSpec.options t k) as [xs|] eqn:O; [|destruct I].
  apply filter_In in I. destruct I as (I & M). exists k, xs. auto.
Qed.

Lemma work_known opts o v x :
  In x opts -> optionId (to_task x) (to_option x) = o -> In v (to_eligible x) ->
  work opts o v <> None.
Proof.
  intros I E V. unfold work.
  destruct (find _ (rev opts)) as [y|] eqn:F; [discriminate|]. exfalso.
  pose proof (find_none _ _ F x (proj1 (in_rev _ _) I)) as X. cbn beta in X.
  rewrite E, Z.eqb_refl in X. cbn [andb] in X.
  assert (B : existsb (Z.eqb v) (to_eligible x) = true).
  { apply existsb_exists. exists v. rewrite Z.eqb_refl. auto. }
  congruence.
Qed.

Lemma Forall2_In_l {A B} (R : A -> B -> Prop) l l' a :
  Forall2 R l l' -> In a l -> exists b, In b l' /\ R a b.
Proof.
  induction 1 as [|x y l l' H _ IH]; [intros []|].
  intros [->|I]; [exists y; cbn; auto|]. destruct (IH I) as (b & HB & HR). exists b. cbn. auto.
Qed.

Lemma options_said i k h o : last_options i k h = Some o -> In (EvOptions o) h.
Proof.
  induction h as [|e h IH] using rev_ind; [discriminate|].
  rewrite last_options_snoc, in_app_iff. destruct e; auto.
  destruct (_ && _); auto. intros [= ->]. right. left. auto.
Qed.
Lemma request_said i h q : last_request i h = Some q -> In (EvRequest q) h.
Proof.
  induction h as [|e h IH] using rev_ind; [discriminate|].
  rewrite last_request_snoc, in_app_iff. destruct e; auto.
  destruct (_ =? i); auto. intros [= ->]. right. left. auto.
Qed.
Lemma matrix_said i h m : last_matrix i h = Some m -> In (EvMatrix i m) h.
Proof.
  induction h as [|e h IH] using rev_ind; [discriminate|].
  rewrite last_matrix_snoc, in_app_iff. destruct e as [q|o|j m']; auto.
  destruct (Z.eqb_spec j i) as [->|]; auto. intros [= ->]. right. left. auto.
Qed.

Section Pipeline.
Context (aord : list Z -> list Z) (aord_all : forall l, Permutation (aord l) l).
Context (limit : Z) (order : list costEntry -> node -> list Z)
        (ord : zmap planOptions -> zmap planOptions)
        (vord : list (Z * vehicleState) -> list (Z * vehicleState)).
Context (ord_all : forall l, Permutation (ord l) l)
        (vord_all : forall l, Permutation (vord l) l).
Context (bord : list Z -> list Z) (bord_all : forall l, Permutation (bord l) l)
        (lead : BuilderModel.pose -> BuilderModel.pose).

(** The histories of the three services. *)
Notation atrace evs := (snd (run (AggregatorModel.rstep aord) AggregatorModel.rinit evs)).
Notation strace evs := (snd (run (sstep limit order ord vord) [] evs)).
Notation btrace evs := (snd (run (BuilderModel.bstep bord lead) BuilderModel.binit evs)).

Lemma matrix_ends i aevs sevs bevs h q m os e :
  AggregatorSpec.orderly aevs (atrace aevs) ->
  pipeline i (atrace aevs) (strace sevs) (btrace bevs) ->
  incl h sevs ->
  last_request i h = Some q -> last_matrix i h = Some m -> offered i h os ->
  (forall k, In k (q_tasks q) -> last_options i k h <> None) ->
  In e m ->
  (exists o x, In o os /\ In x (po_options o) /\
     optionId (to_task x) (to_option x) = optionId (ce_toTask e) (ce_toOption e) /\
     (to_eligible x <> [] -> In (ce_vehicle e) (to_eligible x))) /\
  (optionId (ce_fromTask e) (ce_fromOption e) = 0 \/
   exists o x, In o os /\ In x (po_options o) /\
     optionId (to_task x) (to_option x) = optionId (ce_fromTask e) (ce_fromOption e)).
Proof.
  intros O PL IN Q M OF ALL IE.
  assert (EV : map fst (strace sevs) = sevs) by apply run_events.
  assert (IM : In (EvMatrix i m) (map fst (strace sevs))) by (rewrite EV; apply IN, matrix_said; auto).
  destruct (pl_matrix _ _ _ _ PL m IM) as (region & relation & tasks & entries & OM & ->).
  apply in_sent in OM. destruct OM as (t1 & ev & out & t2 & T & OM).
  pose proof (AggregatorProps.C24_matrix aord aord_all aevs t1 ev out t2 _ _ _ _ _ O T OM)
    as (_ & q' & h' & t0 & vs & rr & cost & U & (c1 & ->) & (c2 & ->) & EI & _ & _ & ET & _ & _ & RR & _ & _ & P).
  assert (TK : AggregatorModel.q_tasks q' = q_tasks q).
  { apply (pl_tasks _ _ _ _ PL).
    - rewrite EV. apply IN, (request_said i). auto.
    - rewrite T, !map_app, !in_app_iff. auto.
    - apply (request_key i h). auto.
    - auto. }
  apply in_map_iff in IE. destruct IE as ((pr & c) & <- & IE). cbn [as_cost fst snd ce_toTask ce_toOption ce_fromTask ce_fromOption ce_vehicle].
  apply (Permutation_in _ P) in IE. apply in_map_iff in IE. destruct IE as ((l & id) & E & IE).
  cbn [fst snd] in E. injection E as <- <-.
  assert (IL : In l (flat_map (AggregatorSpec.needed (h' ++ c1) q') vs)).
  { rewrite <- RR. apply in_map_iff. exists (l, id). auto. }
  apply in_flat_map in IL. destruct IL as (v & _ & IL).
  destruct (needed_ends _ _ _ _ IL) as (EV1 & (b & B & B1 & B2) & FR).
  assert (KN : forall b, In b (AggregatorSpec.choices (h' ++ c1) q' v) ->
    exists o x, In o os /\ In x (po_options o) /\ same_option b x /\ AggregatorSpec.may_do v b = true).
  { intros b' B'. destruct (choice_of _ _ _ _ B') as (k & xs & K & OX & BX & MD).
    rewrite TK in K. specialize (ALL k K). destruct (last_options i k h) as [o|] eqn:LO; [|congruence].
    destruct (options_key _ _ _ _ LO) as (O1 & O2).
    assert (F : Forall2 same_option xs (po_options o)).
    { apply (pl_options _ _ _ _ PL o xs); auto.
      - rewrite EV. apply IN, (options_said i k). auto.
      - rewrite O2, T, !map_app. apply in_or_app. left. apply in_or_app. left.
        rewrite <- map_app. apply options_heard. auto. }
    destruct (Forall2_In_l _ _ _ _ F BX) as (x & X & SX).
    exists o, x. split; [|auto]. apply (proj2 OF). rewrite O2. auto. }
  rewrite EV1. split.
  - destruct (KN b B) as (o & x & X1 & X2 & (S1 & S2 & S3) & MD). exists o, x.
    split; auto. split; auto. split; [rewrite B1, B2, S1, S2; auto|].
    intros NE. unfold AggregatorSpec.may_do in MD. rewrite S3 in MD.
    destruct (to_eligible x) as [|w ws]; [congruence|].
    apply existsb_exists in MD. destruct MD as (y & Y & EY). apply Z.eqb_eq in EY. subst y. auto.
  - destruct FR as [(-> & ->)|(a & A & A1 & A2)]; [left; reflexivity|right].
    destruct (KN a A) as (o & x & X1 & X2 & (S1 & S2 & S3) & MD). exists o, x.
    split; auto. split; auto. rewrite A1, A2, S1, S2. auto.
Qed.

(** The cost matrix that the assignment service works with has costs for eligible vehicles
    only, provided that every option lists its vehicles. *)
Theorem C96_eligible i aevs sevs bevs h rest q m os :
  AggregatorSpec.orderly aevs (atrace aevs) ->
  pipeline i (atrace aevs) (strace sevs) (btrace bevs) -> sevs = h ++ rest ->
  last_request i h = Some q -> last_matrix i h = Some m -> offered i h os -> complete i h ->
  listed os -> only_eligible (flat_map po_options os) m.
Proof.
  intros O PL E Q M OF (q' & m' & Q' & _ & _ & ALL) L e IE _.
  assert (q' = q) as -> by congruence.
  assert (IN : incl h sevs) by (rewrite E; apply incl_appl, incl_refl).
  destruct (matrix_ends i aevs sevs bevs h q m os e O PL IN Q M OF ALL IE) as ((o & x & X1 & X2 & X3 & X4) & _).
  apply (work_known _ _ _ x).
  - apply in_flat_map. exists o. auto.
  - auto.
  - apply X4. apply (L o x); auto.
Qed.

Lemma once_prefix i a b : once i (a ++ b) -> once i a.
Proof.
  revert a. induction b as [|x b IH] using rev_ind; intros a; [rewrite app_nil_r; auto|].
  rewrite app_assoc. intros H. apply IH. exact (proj1 (once_snoc _ _ _ H)).
Qed.

(** When messages are not repeated, a result is about everything received so far. *)
Lemma once_fresh i evs t1 e o t2 :
  once i evs -> strace evs = t1 ++ (e, o) :: t2 -> about e = i -> o <> [] ->
  fresh i t1 = map fst t1 /\ complete i (map fst t1 ++ [e]) /\
  evs = (map fst t1 ++ [e]) ++ map fst t2.
Proof.
  intros O H A NE.
  assert (EV : evs = map fst (strace evs)) by (symmetry; apply run_events).
  rewrite H, map_app in EV. cbn [map fst] in EV.
  assert (EV' : evs = (map fst t1 ++ [e]) ++ map fst t2) by (rewrite <- app_assoc; exact EV).
  pose proof (proj1 (C95_when limit order ord vord _ _ _ _ _ H) NE) as C. rewrite A in C.
  rewrite EV' in O. pose proof (once_prefix _ _ _ O) as O1.
  pose proof (once_snoc _ _ _ O1) as (O2 & O3).
  destruct (run_split _ _ _ _ _ _ H) as (s & R1 & _).
  destruct (once_counts limit order ord vord i (map fst t1) O2) as [(_ & F & _)|(_ & F & C1)];
    rewrite R1 in F; cbn [snd] in F.
  - rewrite F in *. auto.
  - exfalso. destruct C as (q & m & Q & _). rewrite last_request_snoc in Q.
    destruct e as [q'|o'|j m']; [|congruence..]. cbn in A. rewrite A, Z.eqb_refl in Q.
    destruct C1 as (q1 & m1 & Q1 & _). apply request_heard in Q1.
    apply (O3 None); auto. cbn [key]. rewrite A, Z.eqb_refl. left. auto.
Qed.

Lemma orders_tour v is ts :
  map as_asg ts = map BuilderSpec.asked is -> orders v is = map fst (tour v ts).
Proof.
  revert is. induction ts as [|t ts IH]; intros [|x is] E; try discriminate; auto.
  cbn [map] in E. injection E as E1 E2 E3 _ E. specialize (IH _ E).
  unfold orders, tour in *. cbn [filter]. rewrite E3.
  destruct (BuilderModel.i_vehicle x =? v); cbn [map fst]; rewrite ?IH; auto.
  rewrite E1, E2. auto.
Qed.

Lemma timeline_fst opts m v from start os l :
  timeline opts m v from start os = Some l -> map fst l = os.
Proof.
  revert from start l. induction os as [|a os IH]; intros from start l; cbn [timeline].
  - intros [= <-]. auto.
  - destruct (leg m v from a), (work opts a v); try discriminate.
    destruct (timeline opts m v (Some a) _ os) eqn:T; [|discriminate]. intros [= <-].
    cbn [map fst]. f_equal. eauto.
Qed.

(** When the plan builder answers a request, there is a schedule that the written
    relationships allow, by eligible vehicles and along legs of the cost matrix, such that
    each vehicle was asked to do its part of the schedule, in order; every such order was
    answered; and the missions are made of the answers. *)
Theorem C96_plan i aevs sevs bevs :
  AggregatorSpec.orderly aevs (atrace aevs) -> once i sevs ->
  BuilderSpec.orderly (btrace bevs) ->
  pipeline i (atrace aevs) (strace sevs) (btrace bevs) ->
  BuilderSpec.resps i (btrace bevs) <> [] ->
  exists h rest q m os ms fs,
    sevs = h ++ rest /\ complete i h /\
    last_request i h = Some q /\ last_matrix i h = Some m /\ offered i h os /\
    BuilderSpec.resps i (btrace bevs) = [(ms, fs)] /\
    Forall2 BuilderSpec.answered (BuilderSpec.impls i (btrace bevs))
            (BuilderSpec.answers i (btrace bevs)) /\
    BuilderSpec.is_plan (BuilderSpec.answers i (btrace bevs)) ms /\
    forall comp alg,
      told os comp -> meaning (q_relations q) os comp alg -> well_formed alg ->
      apart os m -> listed os ->
      exists s, feasible (flat_map po_options os) m alg s /\
        forall v, orders v (BuilderSpec.impls i (btrace bevs)) = route v s.
Proof.
  intros AO ON BO PL RN.
  destruct (BuilderProps.C25_once bord bord_all lead bevs i BO)
    as [X|(ms & fs & ta & gs & bo & tb & u & R & BH & _ & GS & AN & PN & _)]; [contradiction|].
  change (BuilderProps.history bord lead bevs) with (btrace bevs) in *.
  assert (IS : In (BuilderModel.EvSummary i gs) (map fst (btrace bevs))).
  { rewrite BH, map_app, in_app_iff. right. left. auto. }
  destruct (pl_summary _ _ _ _ PL gs IS) as (region & ts & OS & EG).
  apply in_sent in OS. destruct OS as (t1 & e & o & t2 & T & OS).
  destruct (C95_summary limit order ord vord ord_all vord_all _ _ _ _ _ _ _ _ T OS)
    as (q & m & os & Q & M & OF & AB & QI & RG & ALL).
  assert (NE : o <> []) by (intros ->; destruct OS).
  destruct (once_fresh i sevs t1 e o t2 ON T (eq_sym AB) NE) as (F & C & EV).
  rewrite <- AB, F in *.
  exists (map fst t1 ++ [e]), (map fst t2), q, m, os, ms, fs.
  do 8 (split; [auto; fail|]).
  intros comp alg TO ME WF AP LI.
  assert (OE : only_eligible (flat_map po_options os) m).
  { apply (C96_eligible i aevs sevs bevs _ _ q m os AO PL EV Q M OF C LI). }
  assert (IN : incl (map fst t1 ++ [e]) sevs) by (rewrite EV; apply incl_appl, incl_refl).
  destruct C as (q' & m' & Q' & _ & _ & CA). assert (q' = q) as -> by congruence.
  assert (IA : ids_apart m alg).
  { split.
    - assert (KN : forall a, In a (actions alg) -> exists o x, In o os /\ In x (po_options o) /\
               optionId (to_task x) (to_option x) = a).
      { assert (NK : forall k a, In k (map po_task os) -> In a (actions (named k (comp k))) ->
                 exists o x, In o os /\ In x (po_options o) /\ optionId (to_task x) (to_option x) = a).
        { intros k a K A. apply in_map_iff in K. destruct K as (o1 & <- & K).
          unfold named in A. apply actions_bind in A. apply in_flat_map in A.
          destruct A as (b & B & A). cbn in A. destruct A as [<-|[]].
          destruct (TO o1 K) as (_ & _ & H). destruct (H b B) as (_ & H'). exact H'. }
        intros a A. unfold meaning in ME. destruct (q_relations q) as [|c rel].
        - subst alg. cbn [actions] in A. apply in_flat_map in A. destruct A as (x & X & A).
          apply in_map_iff in X. destruct X as (o1 & <- & X).
          apply (NK (po_task o1) a); auto. apply in_map. auto.
        - destruct ME as (r & _ & _ & I1 & ->). apply actions_bind in A. apply in_flat_map in A.
          destruct A as (k & K & A). apply (NK k a); auto. }
      intros a A. destruct (KN a A) as (o1 & x & X1 & X2 & <-). apply (AP o1 x); auto.
    - intros x X NZ.
      destruct (matrix_ends i aevs sevs bevs _ q m os x AO PL IN Q M OF CA X)
        as (_ & [X1|(o1 & y & X1 & X2 & X3)]); [congruence|].
      rewrite <- X3. apply (AP o1 y); auto. }
  destruct (ALL comp alg TO ME WF IA OE) as (s & FS & TL).
  exists s. split; auto. intros v.
  rewrite <- (timeline_fst _ _ _ _ _ _ _ (TL v)). apply orders_tour. rewrite <- GS, EG. auto.
Qed.
End Pipeline.
Print Assumptions C96_eligible.
Print Assumptions C96_plan.

(** *** A case *)

Definition ex_atrace (evs : list AggregatorModel.event) : AggregatorSpec.trace :=
  snd (run (AggregatorModel.rstep (fun l => l)) AggregatorModel.rinit evs).
Definition ex_strace (evs : list event) : trace :=
  snd (run (sstep (-1) (fun m _ => vehiclesOf m) (fun l => l) (fun l => l)) [] evs).
Definition ex_btrace (evs : list BuilderModel.event) : BuilderSpec.trace :=
  snd (run (BuilderModel.bstep (fun l => l) (fun p => p + 50)) BuilderModel.binit evs).

Definition ex_topt (t : taskOption) : AggregatorModel.topt :=
  {| AggregatorModel.o_task := to_task t; AggregatorModel.o_id := to_option t;
     AggregatorModel.o_elig := to_eligible t; AggregatorModel.o_start := 30; AggregatorModel.o_end := 31 |}.

(** Two vehicles, two tasks; thirteen routes are needed. *)
Definition ex_costs (costs : list Z) : list (Z * Z) :=
  combine (map (fun n => 1000000 + Z.of_nat n) (seq 0 (length costs))) costs.
Definition ex_aevs (one two : list taskOption) (k : nat) (costs : list Z) : list AggregatorModel.event :=
  [AggregatorModel.EvState 10 100 false; AggregatorModel.EvState 11 200 false;
   AggregatorModel.EvUnique {| AggregatorModel.q_id := 7; AggregatorModel.q_entities := [];
     AggregatorModel.q_tasks := [1; 2]; AggregatorModel.q_planning := [];
     AggregatorModel.q_region := 3; AggregatorModel.q_relation := 0 |};
   AggregatorModel.EvOptions 1 (map ex_topt one);
   AggregatorModel.EvOptions 2 (map ex_topt two);
   AggregatorModel.EvPlanResp 0 (firstn k (ex_costs costs));
   AggregatorModel.EvPlanResp 0 (skipn k (ex_costs costs))].


Definition ex_one_opts := firstn 2 ex_opts.
Definition ex_two_opts := skipn 2 ex_opts.
Definition ex_numbers : list Z := [5; 7; 11; 13; 17; 19; 23; 29; 31; 37; 41; 43; 47].

(** The contents of the first cost matrix and of the first summary. *)
Definition matrix_of (l : list AggregatorModel.out) : list costEntry :=
  hd [] (flat_map (fun o => match o with
                            | AggregatorModel.OutMatrix _ _ _ _ es => [map as_cost es]
                            | _ => []
                            end) l).
Definition summary_of (l : list out) : list taskAssignment :=
  hd [] (flat_map (fun o => match o with OutSummary _ _ ts => [ts] | _ => [] end) l).

Definition ex_sevs (one two : planOptions) (m : list costEntry) : list event :=
  [EvRequest ex_request; EvOptions one; EvOptions two; EvMatrix 7 m].

Definition ex_unique : BuilderModel.ureq :=
  {| BuilderModel.u_id := 7; BuilderModel.u_entities := []; BuilderModel.u_region := 3;
     BuilderModel.u_planning := [] |}.
Definition ex_answer k v p : BuilderModel.event :=
  BuilderModel.EvImpl
    {| BuilderModel.x_id := k; BuilderModel.x_vehicle := v;
       BuilderModel.x_wps := [{| BuilderModel.w_num := k; BuilderModel.w_next := k + 1; BuilderModel.w_data := p |}];
       BuilderModel.x_time := 10 * k; BuilderModel.x_pose := p |}.
Definition ex_bevs (ts : list taskAssignment) : list BuilderModel.event :=
  [BuilderModel.EvState 10 100 0; BuilderModel.EvState 11 200 0; BuilderModel.EvUnique ex_unique;
   BuilderModel.EvSummary 7 (map as_asg ts);
   ex_answer 1 (nth 0 (map ta_vehicle ts) 0) 500; ex_answer 2 (nth 1 (map ta_vehicle ts) 0) 600].

Lemma ex_pipeline one two c1 c2 k ns bevs :
  let aevs := ex_aevs one two k ns in
  let m := matrix_of (sent (ex_atrace aevs)) in
  let sevs := ex_sevs (ex_offer 1 c1 one) (ex_offer 2 c2 two) m in
  (exists region relation tasks entries,
     In (AggregatorModel.OutMatrix 7 region relation tasks entries) (sent (ex_atrace aevs)) /\
     m = map as_cost entries) ->
  (forall gs, In (BuilderModel.EvSummary 7 gs) bevs ->
     exists region ts, In (OutSummary 7 region ts) (sent (ex_strace sevs)) /\ gs = map as_asg ts) ->
  pipeline 7 (ex_atrace aevs) (ex_strace sevs) (ex_btrace bevs).
Proof.
  intros aevs m sevs HM HB.
  assert (EA : map fst (ex_atrace aevs) = aevs) by apply run_events.
  assert (ES : map fst (ex_strace sevs) = sevs) by apply run_events.
  assert (EB : map fst (ex_btrace bevs) = bevs) by apply run_events.
  constructor.
  - rewrite ES. intros m' X. cbn in X. destruct X as [X|[X|[X|[X|[]]]]]; try discriminate.
    injection X as <-. exact HM.
  - rewrite ES, EA. intros q q' X Y _ _. cbn in X.
    destruct X as [X|[X|[X|[X|[]]]]]; try discriminate. injection X as <-.
    cbn in Y. destruct Y as [Y|[Y|[Y|[Y|[Y|[Y|[Y|[]]]]]]]]; try discriminate. injection Y as <-. reflexivity.
  - rewrite ES, EA. intros o xs X _ Y.
    assert (G : forall l, Forall2 same_option (map ex_topt l) l).
    { induction l; cbn [map]; constructor; auto. repeat split. }
    cbn in X. destruct X as [X|[X|[X|[X|[]]]]]; try discriminate; injection X as <-;
      cbn in Y; destruct Y as [Y|[Y|[Y|[Y|[Y|[Y|[Y|[]]]]]]]]; try discriminate; injection Y as <-; apply G.
  - rewrite EB. exact HB.
Qed.

Definition ex_a := ex_aevs ex_one_opts ex_two_opts 9 ex_numbers.
Definition ex_m := Eval vm_compute in matrix_of (sent (ex_atrace ex_a)).
Definition ex_s := ex_sevs ex_one ex_two ex_m.
Definition ex_ts := Eval vm_compute in summary_of (sent (ex_strace ex_s)).
Definition ex_b := ex_bevs ex_ts.

Example C96_case :
  AggregatorSpec.orderly ex_a (ex_atrace ex_a) /\ once 7 ex_s /\ complete 7 ex_s /\
  BuilderSpec.orderly (ex_btrace ex_b) /\
  pipeline 7 (ex_atrace ex_a) (ex_strace ex_s) (ex_btrace ex_b) /\
  length (BuilderSpec.resps 7 (ex_btrace ex_b)) = 1%nat /\
  apart [ex_one; ex_two] ex_m /\ listed [ex_one; ex_two] /\
  orders 10 (BuilderSpec.impls 7 (ex_btrace ex_b)) = [] /\
  orders 11 (BuilderSpec.impls 7 (ex_btrace ex_b)) = [100002; 200000].
Proof.
  split; [apply AggregatorProps.orderlyb_sound; vm_compute; reflexivity|].
  split; [unfold once; cbn; repeat constructor; cbn; intuition discriminate|].
  split.
  { exists ex_request, ex_m. repeat split; auto; [discriminate|].
    intros k [<-|[<-|[]]]; vm_compute; discriminate. }
  split; [apply BuilderProps.orderlyb_sound; vm_compute; reflexivity|].
  split.
  { apply (ex_pipeline ex_one_opts ex_two_opts "+(p1 p2)" "+(p0)" 9 ex_numbers ex_b).
    - vm_compute. do 4 eexists. split; [right; right; left; reflexivity|reflexivity].
    - intros gs X. assert (gs = map as_asg ex_ts) as ->.
      { cbn in X. destruct X as [X|[X|[X|[X|[X|[X|[]]]]]]]; try discriminate. injection X as <-. reflexivity. }
      exists 3, ex_ts. split; [vm_compute; left; reflexivity|reflexivity]. }
  split; [vm_compute; reflexivity|].
  split.
  { assert (FL : forall v, fleet ex_m v -> v = 10 \/ v = 11).
    { intros v (e & X & <-). cbn in X. intuition (subst; cbn; auto). }
    intros o x X Y. cbn in X. destruct X as [<-|[<-|[]]]; cbn in Y;
      (destruct Y as [<-|[<-|[]]] || destruct Y as [<-|[]]);
      (split; [discriminate|intros F; apply FL in F; destruct F; discriminate]). }
  split.
  { intros o x X Y. cbn in X. destruct X as [<-|[<-|[]]]; cbn in Y;
      (destruct Y as [<-|[<-|[]]] || destruct Y as [<-|[]]); discriminate. }
  split; vm_compute; reflexivity.
Qed.

(** *** Finding *)

(** An option that lists no vehicle is open to all vehicles for the route aggregator, which
    puts them into the cost matrix.  The assignment service assigns it, but takes -1 for the
    time it needs, whatever its cost. *)
Definition open_one : list taskOption :=
  [ {| to_task := 1; to_option := 1; to_eligible := []; to_cost := 50 |} ].
Definition open_m := Eval vm_compute in
  matrix_of (sent (ex_atrace (ex_aevs open_one ex_two_opts 4 (firstn 8 ex_numbers)))).

Theorem C96_open_option_refuted :
  exists aevs sevs t1 e region ts m t x c,
    AggregatorSpec.orderly aevs (ex_atrace aevs) /\ once 7 sevs /\
    pipeline 7 (ex_atrace aevs) (ex_strace sevs) (ex_btrace []) /\
    ex_strace sevs = t1 ++ [(e, [OutSummary 7 region ts])] /\
    last_matrix 7 sevs = Some m /\
    filter (fun u => ta_vehicle u =? ta_vehicle t) ts = [t] /\ In c m /\
    ce_vehicle c = ta_vehicle t /\ optionId (ce_fromTask c) (ce_fromOption c) = 0 /\
    optionId (ce_toTask c) (ce_toOption c) = optionId (ta_task t) (ta_option t) /\
    (exists o, last_options 7 (ta_task t) sevs = Some o /\ po_options o = [x]) /\
    to_cost x = 50 /\ ta_completed t = ce_time c - 1.
Proof.
  exists (ex_aevs open_one ex_two_opts 4 (firstn 8 ex_numbers)),
    (ex_sevs (ex_offer 1 "+(p1)" open_one) ex_two open_m).
  eexists [_; _; _], (EvMatrix 7 open_m), 3, _, open_m,
    {| ta_task := 1; ta_option := 1; ta_vehicle := 10; ta_threshold := 0; ta_completed := 16 |},
    _, (entry 10 0 0 1 1 17).
  split; [apply AggregatorProps.orderlyb_sound; vm_compute; reflexivity|].
  split; [unfold once; cbn; repeat constructor; cbn; intuition discriminate|].
  split.
  { apply (ex_pipeline open_one ex_two_opts "+(p1)" "+(p0)" 4 (firstn 8 ex_numbers) []).
    - vm_compute. do 4 eexists. split; [right; right; left; reflexivity|reflexivity].
    - intros gs []. }
  split; [vm_compute; reflexivity|].
  split; [reflexivity|]. split; [reflexivity|].
  split; [do 4 right; left; reflexivity|]. cbn.
  repeat (split; [reflexivity|]). split; [eexists; split; reflexivity|]. split; reflexivity.
Qed.
Print Assumptions C96_open_option_refuted.

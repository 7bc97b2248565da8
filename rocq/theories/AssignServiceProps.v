(** C95: the assignment of a request is worked out exactly once, from all that was said about
    it, and the summary sent is a schedule that the texts allow. *)
From Coq Require Import String Ascii List Arith ZArith NArith Bool Permutation Lia.
From Verif Require Import Base Decimal10 ZMap Run AlgebraModel AlgebraSpec AlgebraProofs SerialSpec
  FormulaModel FormulaSpec FormulaProofs FormulaProps AssignModel AssignSpec AssignProps
  AssignServiceModel AssignServiceSpec AssignServiceProofs.
Import ListNotations.
Open Scope list_scope.
Open Scope Z_scope.

Lemma actions_some e : no_empty_op e -> actions e <> [].
Proof.
  induction e as [a|o cs IH] using AlgebraProofs.expr_ind'; cbn [actions]; [discriminate|].
  intros N. destruct cs as [|c cs]; [destruct N; congruence|].
  cbn [flat_map]. inversion IH as [|? ? H _]; subst. intros E. apply app_eq_nil in E.
  apply H; [|apply E]. cbn in N. tauto.
Qed.

Section Service.
Context (limit : Z) (order : list costEntry -> node -> list Z)
        (ord : zmap planOptions -> zmap planOptions)
        (vord : list (Z * vehicleState) -> list (Z * vehicleState)).
Context (order_all : forall m n, Permutation (order m n) (vehiclesOf m))
        (ord_all : forall l, Permutation (ord l) l)
        (vord_all : forall l, Permutation (vord l) l).

Notation srun := (run (sstep limit order ord vord) []).
Notation calc := (calculate limit order ord vord).

(** Something is sent for a request exactly when the message just received completes what is
    needed: the request, the cost matrix and the options of all its tasks, received in any
    order since something was last sent for it. *)
Theorem C95_when evs t1 e o t2 :
  snd (srun evs) = t1 ++ (e, o) :: t2 ->
  (o <> [] <-> complete (about e) (fresh (about e) t1 ++ [e])).
Proof.
  intros H. destruct (step_sends limit order ord vord _ _ _ _ _ H) as (p & K & R & _).
  rewrite R. apply keeps_ready. auto.
Qed.

(** If no message is repeated, there is one result for a request once all that is needed has
    arrived, and none before. *)
Theorem C95_once evs i :
  once i evs ->
  (complete i evs -> length (results i (snd (srun evs))) = 1%nat) /\
  (~ complete i evs -> results i (snd (srun evs)) = []).
Proof.
  intros O. destruct (once_counts limit order ord vord i evs O) as [(R & _ & C)|(R & _ & C)];
    split; auto; tauto.
Qed.

Lemma keeps_offered i h p :
  keeps i h p -> offered i h (map snd (ord (p_options p))) /\
  forall k o, In (k, o) (ord (p_options p)) -> po_task o = k.
Proof.
  intros (_ & _ & N & O).
  assert (KE : forall k o, In (k, o) (ord (p_options p)) ->
            po_task o = k /\ last_options i k h = Some o).
  { intros k o X. apply (Permutation_in _ (ord_all _)) in X. apply (zget_In _ _ _ N) in X.
    rewrite O in X. split; auto. apply options_key in X. tauto. }
  assert (E : map po_task (map snd (ord (p_options p))) = map fst (ord (p_options p))).
  { rewrite map_map. apply map_ext_in. intros (k, o) X. apply (KE k o X). }
  split; [split|].
  - rewrite E. eapply Permutation_NoDup; [|exact N]. apply Permutation_map, Permutation_sym, ord_all.
  - intros o. split.
    + intros X. apply in_map_iff in X. destruct X as ((k & o') & <- & X). cbn [snd].
      destruct (KE _ _ X) as (-> & ->). auto.
    + intros X. rewrite <- O in X. apply In_zget in X. apply in_map_iff.
      exists (po_task o, o). split; auto. apply (Permutation_in _ (Permutation_sym (ord_all _))). auto.
  - intros k o X. apply (KE k o X).
Qed.

Lemma algebra_read l rel comp alg :
  NoDup (map po_task (map snd l)) -> (forall k o, In (k, o) l -> po_task o = k) ->
  told (map snd l) comp -> meaning rel (map snd l) comp alg -> well_formed alg ->
  initializeAlgebra l rel = GTree alg.
Proof.
  intros N KEY T M (W & _).
  assert (E : map po_task (map snd l) = map fst l).
  { rewrite map_map. apply map_ext_in. intros (k, o) X. apply (KEY k o X). }
  set (tasks := map (fun to : Z * planOptions => (fst to, po_composition (snd to))) l).
  assert (TF : map fst tasks = map fst l).
  { unfold tasks. rewrite map_map. reflexivity. }
  assert (TW : tasks_written tasks comp (knownIds l)).
  { split; [rewrite TF, <- E; auto|]. intros t c X. apply in_map_iff in X.
    destruct X as ((k & o) & [= <- <-] & X). pose proof (KEY _ _ X) as <-.
    destruct (T o) as (T1 & T2 & T3); [apply in_map_iff; exists (po_task o, o); auto|].
    split; auto. split; auto. intros a A. destruct (T3 a A) as (T4 & o' & x & X1 & X2 & X3).
    split; [exact T4|]. apply in_map_iff in X1. destruct X1 as ((k' & o'') & <- & X1).
    unfold knownIds. apply in_flat_map. exists (k', o''). split; auto. cbn [snd].
    apply in_map_iff. exists x. split; auto. }
  assert (G : exists text, algebraString tasks rel = Some (AString text) /\
                           initAlgebraString (knownIds l) text = Some (PTree alg)).
  { unfold meaning in M. destruct rel as [|c rel].
    - subst alg. destruct (C45_parallel tasks _ comp TW) as (text & A & B). exists text.
      split; auto. rewrite B. do 3 f_equal. unfold tasks. rewrite !map_map.
      apply map_ext_in. intros (k, o) X. cbn [fst snd]. rewrite (KEY _ _ X). reflexivity.
    - destruct M as (r & M1 & M2 & M3 & ->).
      apply (C45_relationship tasks r (c :: rel) (knownIds l) comp TW M1 M2).
      rewrite TF, <- E. auto. }
  destruct G as (text & A & B). unfold initializeAlgebra. fold tasks. rewrite A.
  destruct (knownIds l) as [|x known] eqn:KN.
  - exfalso. apply (actions_some alg W).
    assert (I0 : forall k c, In (k, c) tasks -> actions (comp k) = []).
    { intros k c X. destruct (proj2 TW _ _ X) as (_ & _ & H).
      destruct (actions (comp k)) as [|a l0]; auto. destruct (H a) as (_ & []). left. auto. }
    assert (Z0 : forall k, In k (map fst tasks) -> actions (named k (comp k)) = []).
    { intros k X. apply in_map_iff in X. destruct X as ((k' & c) & <- & X). cbn [fst].
      pose proof (actions_bind (fun a => Act (optionId k' a)) (comp k')) as H.
      rewrite (I0 k' c X) in H. cbn in H. unfold named.
      destruct (actions (bind (fun a => Act (optionId k' a)) (comp k'))); auto.
      exfalso. apply (H z). left. auto. }
    unfold meaning in M. destruct rel as [|c rel].
    + subst alg. cbn [actions]. rewrite flat_map_concat_map, map_map.
      rewrite TF, <- E in Z0. clear - Z0. induction (map snd l) as [|o os IH]; auto.
      cbn [map concat]. rewrite Z0 by (left; auto). apply IH. intros k X. apply Z0. right. auto.
    + destruct M as (r & M1 & M2 & M3 & ->).
      pose proof (actions_bind (fun k => named k (comp k)) r) as H.
      destruct (actions (bind (fun k => named k (comp k)) r)) as [|a l0]; auto.
      exfalso. specialize (H a (or_introl eq_refl)). apply in_flat_map in H.
      destruct H as (k & H1 & H2). rewrite Z0 in H2; [destruct H2|].
      rewrite TF, <- E. apply M3. auto.
  - rewrite B. reflexivity.
Qed.

Lemma filter_own v l :
  Forall (fun t => ta_vehicle t = v) l -> filter (fun t => ta_vehicle t =? v) l = l.
Proof.
  induction 1 as [|t l HT _ IHt]; auto. cbn [filter]. rewrite HT, Z.eqb_refl, IHt. auto.
Qed.

Lemma filter_other w v l :
  Forall (fun t => ta_vehicle t = w) l -> w <> v -> filter (fun t => ta_vehicle t =? v) l = [].
Proof.
  intros F D. induction F as [|t l HT _ IHt]; auto. cbn [filter].
  destruct (Z.eqb_spec (ta_vehicle t) v); [congruence|auto].
Qed.

Lemma tour_flat r v :
  NoDup (map fst r) -> (forall w vs, In (w, vs) r -> Forall (fun t => ta_vehicle t = w) (vs_tasks vs)) ->
  tour v (flat_map (fun vs : Z * vehicleState => vs_tasks (snd vs)) r) =
  match find (fun x : Z * vehicleState => fst x =? v) r with
  | Some x => map (fun t => (optionId (ta_task t) (ta_option t), ta_completed t)) (vs_tasks (snd x))
  | None => []
  end.
Proof.
  unfold tour. induction r as [|(w, vs) r IH]; intros N F; [reflexivity|].
  cbn [flat_map find fst snd]. rewrite filter_app, map_app.
  cbn [map fst] in N. inversion N as [|? ? N1 N2]; subst.
  assert (FW := F w vs (or_introl eq_refl)).
  rewrite IH; [|auto|intros; apply F; right; auto].
  destruct (Z.eqb_spec w v) as [->|D].
  - destruct (find (fun x : Z * vehicleState => fst x =? v) r) as [(w', vs')|] eqn:FI.
    + apply find_some in FI. cbn [fst] in FI. destruct FI as (I1 & I2). apply Z.eqb_eq in I2. subst w'.
      exfalso. apply N1. apply (in_map fst) in I1. auto.
    + rewrite app_nil_r. rewrite filter_own by exact FW. reflexivity.
  - replace (filter (fun t => ta_vehicle t =? v) (vs_tasks vs)) with (@nil taskAssignment); auto.
    symmetry. apply (filter_other w); auto.
Qed.

Lemma leg_fleet m v from o : leg m v from o <> None -> fleet m v.
Proof.
  unfold leg. destruct (find _ (rev m)) as [e|] eqn:F; [|congruence]. intros _.
  apply find_some in F. destruct F as (I & B). exists e. rewrite in_rev. split; auto.
  apply andb_prop in B. destruct B as (B & _). apply andb_prop in B. destruct B as (B & _).
  apply Z.eqb_eq. auto.
Qed.

(** The tours of the summary are those of the schedule. *)
Lemma describes_tours opts m alg r s :
  feasible opts m alg s -> describes opts m r s ->
  forall v, timeline opts m v None 0 (route v s)
            = Some (tour v (flat_map (fun vs => vs_tasks (snd vs)) (vord r))).
Proof.
  intros (_ & FE) (ND & FL & D) v.
  pose proof (vord_all r) as P.
  rewrite tour_flat.
  - destruct (find (fun x : Z * vehicleState => fst x =? v) (vord r)) as [(w, vs)|] eqn:FI.
    + apply find_some in FI. cbn [fst] in FI. destruct FI as (I1 & I2). apply Z.eqb_eq in I2. subst w.
      apply (D v vs). apply (Permutation_in _ P). auto.
    + destruct (route v s) as [|a l] eqn:R; [reflexivity|]. exfalso.
      assert (F : fleet m v).
      { specialize (FE v). rewrite R in FE. cbn [timeline] in FE.
        apply (leg_fleet m v None a). destruct (leg m v None a); congruence. }
      apply FL in F. apply in_map_iff in F. destruct F as ((w & vs) & E & I). cbn in E. subst w.
      apply (Permutation_in _ (Permutation_sym P)) in I.
      pose proof (find_none _ _ FI _ I) as X. cbn in X. rewrite Z.eqb_refl in X. discriminate.
  - eapply Permutation_NoDup; [|exact ND]. apply Permutation_map, Permutation_sym. auto.
  - intros w vs I. apply (D w vs). apply (Permutation_in _ P). auto.
Qed.

(** A summary belongs to the request it names, and gives its region.  If the texts can be
    read, the summary is a schedule: all of it together is a complete execution allowed by
    the relationships, the tasks of each vehicle come in that order, by eligible vehicles,
    along existing legs, with the right times of completion. *)
Theorem C95_summary evs t1 e o t2 req region ts :
  snd (srun evs) = t1 ++ (e, o) :: t2 -> In (OutSummary req region ts) o ->
  let h := fresh (about e) t1 ++ [e] in
  exists q m os,
    last_request req h = Some q /\ last_matrix req h = Some m /\ offered req h os /\
    req = about e /\ req = q_id q /\ region = q_region q /\
    forall comp alg,
      let opts := flat_map po_options os in
      told os comp -> meaning (q_relations q) os comp alg ->
      well_formed alg -> ids_apart m alg -> only_eligible opts m ->
      exists s, feasible opts m alg s /\
        forall v, timeline opts m v None 0 (route v s) = Some (tour v ts).
Proof.
  intros H IO. cbn zeta. destruct (step_sends limit order ord vord _ _ _ _ _ H) as (p & K & R & C).
  assert (NE : o <> []) by (intros ->; destruct IO).
  apply R in NE as RD. rewrite (C NE) in IO. clear C R NE H.
  destruct (keeps_none _ _ _ K RD) as (q & m & Q1 & M1 & Q2 & M2).
  destruct (keeps_offered _ _ _ K) as (OF & KEY).
  unfold calculate in IO. rewrite Q1, M1 in IO.
  destruct (initializeAlgebra (ord (p_options p)) (q_relations q)) as [alg0| |] eqn:G;
    [|destruct IO as [IO|[]]; discriminate..].
  destruct (calculateAssignment _ _ _ _ _ _) as [[r|]|] eqn:A;
    [|destruct IO as [IO|[]]; discriminate..].
  destruct IO as [[= <- <- <-]|[]].
  pose proof (request_key _ _ _ Q2) as QK.
  exists q, m, (map snd (ord (p_options p))). rewrite QK.
  repeat (split; [auto; fail|]).
  intros comp alg T M W IA OE.
  rewrite (algebra_read _ _ comp alg (proj1 OF) KEY T M W) in G. injection G as <-.
  assert (EO : flat_map po_options (map snd (ord (p_options p)))
             = flat_map (fun to : Z * planOptions => po_options (snd to)) (ord (p_options p))).
  { rewrite !flat_map_concat_map, map_map. reflexivity. }
  rewrite EO in *.
  destruct (C17_assignment _ m limit alg (order m) r W IA OE A) as (s & F & D).
  exists s. split; auto. apply (describes_tours _ _ alg); auto.
Qed.

(** If the texts can be read and there is any feasible schedule, a summary is sent; with a
    negative limit no feasible schedule is done earlier. *)
Theorem C95_found evs t1 e o t2 :
  snd (srun evs) = t1 ++ (e, o) :: t2 ->
  let i := about e in
  let h := fresh i t1 ++ [e] in
  complete i h ->
  exists q m os,
    last_request i h = Some q /\ last_matrix i h = Some m /\ offered i h os /\
    forall comp alg s t,
      let opts := flat_map po_options os in
      told os comp -> meaning (q_relations q) os comp alg ->
      well_formed alg -> ids_apart m alg -> only_eligible opts m -> costs_nonneg opts ->
      feasible opts m alg s -> makespan opts m s t -> t < 2 ^ 63 - 1 ->
      exists ts, o = [OutSummary i (q_region q) ts] /\
        (limit < 0 -> exists s' t', feasible opts m alg s' /\
           (forall v, timeline opts m v None 0 (route v s') = Some (tour v ts)) /\
           makespan opts m s' t' /\ t' <= t).
Proof.
  intros H. cbn zeta. intros CP.
  destruct (step_sends limit order ord vord _ _ _ _ _ H) as (p & K & R & C).
  apply (keeps_ready _ _ _ K) in CP. rewrite (C (proj2 R CP)).
  destruct (keeps_none _ _ _ K CP) as (q & m & Q1 & M1 & Q2 & M2).
  destruct (keeps_offered _ _ _ K) as (OF & KEY).
  pose proof (request_key _ _ _ Q2) as QK.
  exists q, m, (map snd (ord (p_options p))).
  split; auto. split; auto. split; auto.
  intros comp alg s t T M W IA OE CN F MS LT.
  assert (EO : flat_map po_options (map snd (ord (p_options p)))
             = flat_map (fun to : Z * planOptions => po_options (snd to)) (ord (p_options p))).
  { rewrite !flat_map_concat_map, map_map. reflexivity. }
  rewrite EO in *. unfold calculate. rewrite Q1, M1.
  rewrite (algebra_read _ _ comp alg (proj1 OF) KEY T M W).
  change (2 ^ 63 - 1) with int64_max in LT.
  destruct (C19_found _ m limit alg (order m) s t W IA OE CN (order_all m) F MS LT) as (r & A).
  unfold answer in A. rewrite A, QK. eexists. split; [reflexivity|].
  intros L. destruct (C18_optimal _ m limit alg (order m) s t L W IA OE CN (order_all m) F MS LT)
    as (r' & s' & t' & A' & F' & D' & MS' & LE). unfold answer in A'. rewrite A in A'.
  injection A' as <-. exists s', t'. split; auto. split; auto. apply (describes_tours _ _ alg); auto.
Qed.
End Service.

Print Assumptions C95_when.
Print Assumptions C95_once.
Print Assumptions C95_summary.
Print Assumptions C95_found.

(** *** A case *)

Definition ex_run := run (sstep (-1) (fun m _ => vehiclesOf m) (fun l => l) (fun l => l)) [].

Definition ex_request : request :=
  {| q_id := 7; q_tasks := [1; 2]; q_relations := lit ".(p1 p2)"; q_region := 3 |}.
Definition ex_offer (k : Z) (c : string) (os : list taskOption) : planOptions :=
  {| po_request := 7; po_task := k; po_composition := lit c; po_options := os |}.
Definition ex_one : planOptions := ex_offer 1 "+(p1 p2)" (firstn 2 ex_opts).
Definition ex_two : planOptions := ex_offer 2 "+(p0)" (skipn 2 ex_opts).
Definition ex_comp (k : Z) : expr :=
  if k =? 1 then Op Alt [Act 1; Act 2] else Op Alt [Act 0].
Definition ex_alg2 : expr := Op Seq [Op Alt [Act 100001; Act 100002]; Op Alt [Act 200000]].

(** The cost matrix arrives first, the options of task 1 last. *)
Definition ex_events : list event :=
  [EvMatrix 7 ex_matrix; EvOptions ex_two; EvRequest ex_request; EvOptions ex_one].

Example C95_case :
  once 7 ex_events /\ complete 7 ex_events /\
  (exists ts, snd (ex_run ex_events)
     = [(EvMatrix 7 ex_matrix, []); (EvOptions ex_two, []); (EvRequest ex_request, []);
        (EvOptions ex_one, [OutSummary 7 3 ts])] /\
     tour 10 ts = [(100001, 55)] /\ tour 11 ts = [(200000, 35)]) /\
  told [ex_one; ex_two] ex_comp /\ offered 7 ex_events [ex_one; ex_two] /\
  meaning (q_relations ex_request) [ex_one; ex_two] ex_comp ex_alg2 /\
  well_formed ex_alg2 /\ ids_apart ex_matrix ex_alg2 /\
  flat_map po_options [ex_one; ex_two] = ex_opts /\ only_eligible ex_opts ex_matrix /\
  costs_nonneg ex_opts /\
  feasible ex_opts ex_matrix ex_alg2 [(100001, 10); (200000, 11)] /\
  makespan ex_opts ex_matrix [(100001, 10); (200000, 11)] 55.
Proof.
  destruct ex_conditions as (_ & (IA1 & IA2) & OE & CN).
  split; [unfold once; cbn; repeat constructor; cbn; intuition discriminate|].
  split.
  { exists ex_request, ex_matrix. repeat split; auto; [discriminate|].
    intros k [<-|[<-|[]]]; vm_compute; discriminate. }
  split; [eexists; vm_compute; repeat split; reflexivity|].
  split.
  { intros o [<-|[<-|[]]].
    - split; [exact I|]. split.
      + apply (w_op Alt _ (lit "p1" ++ " "%char :: lit "p2")). apply wl_cons; [number|].
        apply wl_last. number.
      + intros a [<-|[<-|[]]]; (split; [vm_compute; split; congruence|]);
          exists ex_one; eexists; (split; [left; reflexivity|]).
        * split; [left; reflexivity|reflexivity].
        * split; [right; left; reflexivity|reflexivity].
    - split; [exact I|]. split.
      + apply (w_op Alt _ (lit "p0")). apply wl_last. number.
      + intros a [<-|[]]. split; [vm_compute; split; congruence|].
        exists ex_two. eexists. split; [right; left; reflexivity|]. split; [left; reflexivity|reflexivity]. }
  split.
  { split; [repeat constructor; cbn; intuition discriminate|].
    intros o. split; [intros [<-|[<-|[]]]; reflexivity|].
    cbn [ex_events last_options fold_left]. unfold last_options. cbn [fold_left ex_events].
    destruct (po_request ex_one =? 7), (po_task ex_one =? po_task o), (po_request ex_two =? 7),
      (po_task ex_two =? po_task o); cbn [andb]; intros [= <-]; cbn; auto. }
  split.
  { exists (Op Seq [Act 1; Act 2]). split; [|split; [exact I|split; [intros x X; exact X|reflexivity]]].
    apply (w_op Seq _ (lit "p1" ++ " "%char :: lit "p2")). apply wl_cons; [number|].
    apply wl_last. number. }
  split; [split; [cbn; repeat split; discriminate|cbn; repeat constructor; cbn; intuition discriminate]|].
  split; [split; auto|]. split; [reflexivity|]. split; [auto|]. split; [auto|].
  destruct C18_case as ((F1 & F2) & MS & _). split; [split; [|exact F2]|exact MS].
  cbn. exists [100001], [200000]. repeat split; auto.
  exists [200000], []. auto.
Qed.

(** *** Findings *)

(** Without relationships, every task for which options were received under the id of the
    request is assigned, also one that the request does not ask for. *)
Definition ex_plain : request :=
  {| q_id := 7; q_tasks := [1]; q_relations := []; q_region := 3 |}.
Theorem C95_uninvited_refuted :
  exists evs t1 e req region ts t q,
    snd (ex_run evs) = t1 ++ [(e, [OutSummary req region ts])] /\ once req evs /\
    last_request req evs = Some q /\ In t ts /\ ~ In (ta_task t) (q_tasks q).
Proof.
  exists [EvOptions ex_two; EvRequest ex_plain; EvOptions ex_one; EvMatrix 7 ex_matrix].
  eexists [_; _; _], (EvMatrix 7 ex_matrix), 7, 3, _, _, ex_plain.
  split; [vm_compute; reflexivity|].
  split; [unfold once; cbn; repeat constructor; cbn; intuition discriminate|].
  split; [reflexivity|]. split; [right; left; reflexivity|]. cbn. intuition discriminate.
Qed.
Print Assumptions C95_uninvited_refuted.

(** With relationships, tasks of the request that the relationships do not mention are not
    assigned, and no error is reported. *)
Definition ex_short : request :=
  {| q_id := 7; q_tasks := [1; 2]; q_relations := lit ".(p2)"; q_region := 3 |}.
Theorem C95_left_out_refuted :
  exists evs t1 e req region ts q k,
    snd (ex_run evs) = t1 ++ [(e, [OutSummary req region ts])] /\ once req evs /\
    last_request req evs = Some q /\ In k (q_tasks q) /\ ~ In k (map ta_task ts).
Proof.
  exists [EvOptions ex_two; EvRequest ex_short; EvOptions ex_one; EvMatrix 7 ex_matrix].
  eexists [_; _; _], (EvMatrix 7 ex_matrix), 7, 3, _, ex_short, 1.
  split; [vm_compute; reflexivity|].
  split; [unfold once; cbn; repeat constructor; cbn; intuition discriminate|].
  split; [reflexivity|]. split; [left; reflexivity|]. cbn. intuition discriminate.
Qed.
Print Assumptions C95_left_out_refuted.

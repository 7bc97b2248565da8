(** C102: what is enabled and set comes from the configuration that was loaded last. *)
From Coq Require Import List NArith String Ascii Bool.
From Verif Require Import Decimal10 ConfigModel ConfigSpec.
Import ListNotations.
Open Scope string_scope.
Open Scope list_scope.

Lemma find_first {A : Type} (f : A -> bool) (P : A -> Prop) (FP : forall x, f x = true <-> P x) l :
  (forall x, List.find f l = Some x <-> first P l x) /\ (List.find f l = None <-> none P l).
Proof.
  induction l as [|a l (IH1 & IH2)].
  - split; [intros x; split; [discriminate|intros ([|? ?] & l2 & E & _); discriminate]|split; [intros _ y []|reflexivity]].
  - cbn [List.find]. destruct (f a) eqn:FA.
    + split.
      * intros x. split.
        -- intros E. injection E as <-. exists [], l. split; [reflexivity|]. split; [apply FP; exact FA|intros y []].
        -- intros ([|b l1] & l2 & E & PX & NO); injection E as -> E; [reflexivity|]. exfalso. apply (NO b (or_introl eq_refl)), FP. exact FA.
      * split; [discriminate|]. intros NO. exfalso. apply (NO a (or_introl eq_refl)), FP. exact FA.
    + assert (NP : ~ P a) by (intros G; apply FP in G; congruence). split.
      * intros x. rewrite IH1. split.
        -- intros (l1 & l2 & -> & PX & NO). exists (a :: l1), l2. split; [reflexivity|]. split; [exact PX|]. intros y [<-|Y]; [exact NP|apply NO; exact Y].
        -- intros ([|b l1] & l2 & E & PX & NO); injection E as -> E; [contradiction|]. exists l1, l2. split; [exact E|]. split; [exact PX|]. intros y Y. apply NO. right. exact Y.
      * rewrite IH2. split; [intros NO y [<-|Y]; [exact NP|apply NO; exact Y]|intros NO y Y; apply NO; right; exact Y].
Qed.

Lemma child_some l s x : child l s = Some x <-> first (fun y => nd_name y = s) l x.
Proof. apply find_first. intros y. apply String.eqb_eq. Qed.
Lemma child_none l s : child l s = None <-> none (fun y => nd_name y = s) l.
Proof. apply find_first. intros y. apply String.eqb_eq. Qed.
Lemma attribute_some x a v : attribute x a = Some v <-> gives x a v.
Proof.
  unfold attribute, gives. pose proof (proj1 (find_first (fun p => fst p =? a)%string (fun p => fst p = a) (fun p => String.eqb_eq _ _) (nd_attrs x))) as F.
  rewrite <- F. destruct (List.find _ (nd_attrs x)) as [(b, w)|] eqn:E; [|split; discriminate]. cbn.
  apply find_some in E. destruct E as (_ & E). apply String.eqb_eq in E. cbn in E. subst b. split; intros G; injection G as ->; reflexivity.
Qed.
Lemma attribute_none x a : attribute x a = None <-> lacks x a.
Proof.
  unfold attribute, lacks. pose proof (proj2 (find_first (fun p => fst p =? a)%string (fun p => fst p = a) (fun p => String.eqb_eq _ _) (nd_attrs x))) as F.
  rewrite <- F. destruct (List.find _ (nd_attrs x)); split; try discriminate; reflexivity.
Qed.
Lemma filter_named s l : named s l (List.filter (fun x => nd_name x =? s)%string l).
Proof.
  induction l as [|x l IH]; [constructor|]. cbn. destruct (String.eqb_spec (nd_name x) s); constructor; assumption.
Qed.
Lemma level_of_spec s l : level_of s = Some l <-> level_name s l.
Proof.
  unfold level_of. split.
  - destruct (String.eqb_spec s "DEBUG") as [->|]; [intros E; injection E as <-; constructor|].
    destruct (String.eqb_spec s "INFO") as [->|]; [intros E; injection E as <-; constructor|].
    destruct (String.eqb_spec s "WARN") as [->|]; [intros E; injection E as <-; constructor|].
    destruct (String.eqb_spec s "ERROR") as [->|]; [intros E; injection E as <-; constructor|discriminate].
  - intros []; reflexivity.
Qed.

Lemma as_bool_spec v : as_bool v = true <-> truth v.
Proof.
  unfold truth. destruct v as [|c r]; [split; [discriminate|intros (c & r & E & _); discriminate]|]. unfold as_bool. rewrite existsb_exists. split.
  - intros (x & P & E). apply Ascii.eqb_eq in E. subst x. exists c, r. auto.
  - intros (c' & r' & E & P). injection E as <- <-. exists c. split; [exact P|apply Ascii.eqb_refl].
Qed.

Section Settings.
  Context (as_uint : string -> N).
  Notation after := (after as_uint).

  (** A field that is set by what tells it and kept otherwise. *)
  Lemma field {A V : Type} (f : config -> A) (tells : request -> V -> Prop) (conv : V -> A) :
    (forall c r, (exists v, (forall v', tells r v' <-> v' = v) /\ f (step as_uint c r) = conv v) \/ ((forall v, ~ tells r v) /\ f (step as_uint c r) = f c)) ->
    forall rs, (forall v, last_told tells rs v -> f (after rs) = conv v) /\ (never_told tells rs -> f (after rs) = f fresh).
  Proof.
    intros ST rs. induction rs as [|r rs (IH1 & IH2)] using rev_ind.
    - split; [intros v ([|? ?] & ? & ? & E & _); discriminate|reflexivity].
    - unfold after. rewrite fold_left_app. cbn [fold_left]. fold (after rs). destruct (ST (after rs) r) as [(w & TW & E)|(NT & E)]; rewrite E.
      + split.
        * intros v (r1 & r0 & r2 & EQ & TV & NO). destruct r2 as [|z r2] using rev_ind.
          -- apply app_inj_tail in EQ. destruct EQ as (_ & <-). apply TW in TV. rewrite TV. reflexivity.
          -- rewrite app_comm_cons, app_assoc in EQ. apply app_inj_tail in EQ. destruct EQ as (_ & <-). exfalso.
             apply (NO r) with w; [apply in_or_app; right; left; reflexivity|apply TW; reflexivity].
        * intros NO. exfalso. apply (NO r) with w; [apply in_or_app; right; left; reflexivity|apply TW; reflexivity].
      + split.
        * intros v (r1 & r0 & r2 & EQ & TV & NO). apply IH1. destruct r2 as [|z r2] using rev_ind.
          -- apply app_inj_tail in EQ. destruct EQ as (_ & <-). exfalso. exact (NT _ TV).
          -- rewrite app_comm_cons, app_assoc in EQ. apply app_inj_tail in EQ. destruct EQ as (-> & ->).
             exists r1, r0, r2. split; [reflexivity|]. split; [exact TV|]. intros r' R'. apply NO. apply in_or_app. left. exact R'.
        * intros NO. apply IH2. intros r' R'. apply NO. apply in_or_app. left. exact R'.
  Qed.

  Lemma told_load a d v : told a (Load (Some d)) v <->
    exists u i t, child d "UxAS" = Some u /\ attribute u "EntityID" = Some i /\ attribute u "EntityType" = Some t /\ attribute u a = Some v.
  Proof.
    split.
    - intros (d' & u & i & t & E & D & (I1 & I2) & G). injection E as <-. exists u, i, t.
      split; [apply child_some; exact D|]. split; [apply attribute_some; exact I1|]. split; apply attribute_some; assumption.
    - intros (u & i & t & D & I1 & I2 & G). exists d, u, i, t. split; [reflexivity|]. split; [apply child_some; exact D|].
      split; [split; apply attribute_some; assumption|apply attribute_some; exact G].
  Qed.
  Lemma told_other a r v : told a r v -> exists d, r = Load (Some d).
  Proof. intros (d & _ & _ & _ & -> & _). exists d. reflexivity. Qed.

  (** The settings other than those of the documents come from [set_entity] only. *)
  Lemma step_field {A : Type} (f : config -> A) a (conv : string -> A) :
    (forall c x l b s, f (with_base c x l b s) = f c) -> (forall c, f (unload c) = f c) ->
    (forall c, f (fst (get_bridges c)) = f c) -> (forall c, f (fst (get_services c)) = f c) ->
    (forall c d, f (fst (set_entity as_uint c d)) =
      match child d "UxAS" with
      | Some u => match attribute u "EntityID", attribute u "EntityType", attribute u a with Some _, Some _, Some v => conv v | _, _, _ => f c end
      | None => f c
      end) ->
    forall c r, (exists v, (forall v', told a r v' <-> v' = v) /\ f (step as_uint c r) = conv v) \/ ((forall v, ~ told a r v) /\ f (step as_uint c r) = f c).
  Proof.
    intros F1 F2 F3 F4 F5 c r. destruct r as [[d|]| | |]; cbn [step].
    - unfold load. set (c1 := if loaded c then _ else _). assert (E1 : f c1 = f c) by (unfold c1; destruct (loaded c); [apply F1|reflexivity]).
      set (c2 := with_base c1 d true _ _). pose proof (F5 c2 d) as E2. destruct (set_entity as_uint c2 d) as (c3, ok). cbn [fst] in E2.
      assert (E3 : f (fst (if ok then (c3, true) else (with_base c3 (base c3) false (bridges_built c3) (services_built c3), false))) = f c3)
        by (destruct ok; [reflexivity|apply F1]). rewrite E3, E2. unfold c2. rewrite F1, E1. clear E1 E2 E3 c1 c2.
      assert (NT : (forall v u i t, child d "UxAS" = Some u -> attribute u "EntityID" = Some i -> attribute u "EntityType" = Some t -> attribute u a = Some v -> False) ->
        forall v, ~ told a (Load (Some d)) v).
      { intros G v T. apply told_load in T. destruct T as (u & i & t & D & I1 & I2 & GA). exact (G _ _ _ _ D I1 I2 GA). }
      destruct (child d "UxAS") as [u|] eqn:D; [|right; split; [apply NT; discriminate|reflexivity]].
      destruct (attribute u "EntityID") as [i|] eqn:AI; [|right; split; [apply NT; intros v u' i t E; injection E as <-; congruence|reflexivity]].
      destruct (attribute u "EntityType") as [t|] eqn:AT; [|right; split; [apply NT; intros v u' i' t E; injection E as <-; congruence|reflexivity]].
      destruct (attribute u a) as [v|] eqn:AA; [|right; split; [apply NT; intros v u' i' t' E; injection E as <-; congruence|reflexivity]].
      left. exists v. split; [|reflexivity]. intros v'. rewrite told_load. split.
      + intros (u' & i' & t' & E & _ & _ & GA). rewrite D in E. injection E as <-. congruence.
      + intros ->. exists u, i, t. auto.
    - right. split; [intros v T; apply told_other in T; destruct T as (d & E); discriminate|]. unfold load. cbn [fst]. rewrite F1. destruct (loaded c); [apply F1|reflexivity].
    - right. split; [intros v T; apply told_other in T; destruct T as (d & E); discriminate|apply F2].
    - right. split; [intros v T; apply told_other in T; destruct T as (d & E); discriminate|apply F3].
    - right. split; [intros v T; apply told_other in T; destruct T as (d & E); discriminate|apply F4].
  Qed.

  Ltac entity_case := intros c d; unfold set_entity; destruct (child d "UxAS") as [u|]; [|reflexivity]; destruct (attribute u "EntityID"); [|reflexivity];
    destruct (attribute u "EntityType"); reflexivity.
  Ltac plain := first [intros; reflexivity | intros c; unfold get_bridges, get_services; cbn [fst]; match goal with |- context [if ?b then _ else _] => destruct b end; reflexivity].

  (** A setting is what the last document said that names an entity and gives the setting, or as at the start. *)
  Theorem C102_settings rs :
    (forall v, last_told (told "StartDelay_ms") rs v -> delay (after rs) = as_uint v) /\
    (never_told (told "StartDelay_ms") rs -> delay (after rs) = 0%N) /\
    (forall v, last_told (told "RunDuration_s") rs v -> duration (after rs) = as_uint v) /\
    (never_told (told "RunDuration_s") rs -> duration (after rs) = 4294967295%N) /\
    (forall v, last_told (told "isLoggingThreadId") rs v -> (thread (after rs) = true <-> truth v)) /\
    (never_told (told "isLoggingThreadId") rs -> thread (after rs) = false) /\
    (forall v, last_told (told "isDataTimestamp") rs v -> (stamp (after rs) = true <-> truth v)) /\
    (never_told (told "isDataTimestamp") rs -> stamp (after rs) = true) /\
    (forall v, last_told (told "EntityType") rs v -> kind (after rs) = v) /\
    (never_told (told "EntityType") rs -> kind (after rs) = "").
  Proof.
    assert (D : forall (A : Type) (f : config -> A) a conv, (forall c r, (exists v, (forall v', told a r v' <-> v' = v) /\ f (step as_uint c r) = conv v) \/ ((forall v, ~ told a r v) /\ f (step as_uint c r) = f c)) ->
      (forall v, last_told (told a) rs v -> f (after rs) = conv v) /\ (never_told (told a) rs -> f (after rs) = f fresh)) by (intros A f a conv G; apply (field f (told a) conv G)).
    destruct (D _ delay "StartDelay_ms" as_uint) as (X1 & X2); [apply step_field; [plain|plain|plain|plain|entity_case]|].
    destruct (D _ duration "RunDuration_s" as_uint) as (X3 & X4); [apply step_field; [plain|plain|plain|plain|entity_case]|].
    destruct (D _ thread "isLoggingThreadId" as_bool) as (X5 & X6); [apply step_field; [plain|plain|plain|plain|entity_case]|].
    destruct (D _ stamp "isDataTimestamp" as_bool) as (X7 & X8); [apply step_field; [plain|plain|plain|plain|entity_case]|].
    destruct (D _ kind "EntityType" (fun s => s)) as (X9 & X10); [apply step_field; [plain|plain|plain|plain|]|].
    { intros c d; unfold set_entity; destruct (child d "UxAS") as [u|]; [|reflexivity]; destruct (attribute u "EntityID"); [|reflexivity];
      destruct (attribute u "EntityType"); reflexivity. }
    assert (Y5 : forall v, last_told (told "isLoggingThreadId") rs v -> (thread (after rs) = true <-> truth v)) by (intros v T; rewrite (X5 v T); apply as_bool_spec).
    assert (Y7 : forall v, last_told (told "isDataTimestamp") rs v -> (stamp (after rs) = true <-> truth v)) by (intros v T; rewrite (X7 v T); apply as_bool_spec).
    exact (conj X1 (conj X2 (conj X3 (conj X4 (conj Y5 (conj X6 (conj Y7 (conj X8 (conj X9 X10))))))))).
  Qed.

  (** The number of the entity is the last one given, by documents that are refused for want of a type too. *)
  Theorem C102_entity rs : (forall i, last_told told_id rs i -> entity (after rs) = as_uint i) /\ (never_told told_id rs -> entity (after rs) = 0%N).
  Proof.
    apply (field entity told_id as_uint). intros c r. destruct r as [[d|]| | |]; cbn [step].
    - unfold load, set_entity. set (c1 := if loaded c then _ else _). assert (E1 : entity c1 = entity c) by (unfold c1; destruct (loaded c); reflexivity). clearbody c1.
      destruct (child d "UxAS") as [u|] eqn:D.
      + destruct (attribute u "EntityID") as [i|] eqn:AI.
        * left. exists i. split; [|destruct (attribute u "EntityType"); reflexivity]. intros v. split.
          -- intros (d' & u' & E & D' & G). injection E as <-. apply child_some in D'. apply attribute_some in G. congruence.
          -- intros ->. exists d, u. split; [reflexivity|]. split; [apply child_some; exact D|apply attribute_some; exact AI].
        * right. split; [|exact E1]. intros v (d' & u' & E & D' & G). injection E as <-. apply child_some in D'. apply attribute_some in G. congruence.
      + right. split; [|exact E1]. intros v (d' & u' & E & D' & G). injection E as <-. apply child_some in D'. congruence.
    - right. split; [intros v (d' & u' & E & _); discriminate|]. unfold load. cbn. destruct (loaded c); reflexivity.
    - right. split; [intros v (d' & u' & E & _); discriminate|reflexivity].
    - right. split; [intros v (d' & u' & E & _); discriminate|]. unfold get_bridges. destruct (_ && _); reflexivity.
    - right. split; [intros v (d' & u' & E & _); discriminate|]. unfold get_services. destruct (_ && _); reflexivity.
  Qed.

  (** A load fails for a text that cannot be parsed, and if the element UxAS has no number or no type; nothing is then the default of a service. *)
  Theorem C102_refused before t : (snd (load as_uint (after before) t) = false <->
      t = None \/ exists d u, t = Some d /\ describes d u /\ (lacks u "EntityID" \/ lacks u "EntityType")) /\
    (snd (load as_uint (after before) t) = false -> forall type, default_service (after (before ++ [Load t])) type = None).
  Proof.
    unfold ConfigModel.after. rewrite fold_left_app. cbn [fold_left step]. fold (after before). set (c := after before). clearbody c.
    unfold load, set_entity. set (c1 := if loaded c then _ else _). clearbody c1. destruct t as [d|]; [|cbn; split; [split; auto|intros _ type; reflexivity]].
    assert (G : forall u, child d "UxAS" = Some u -> (attribute u "EntityID" = None \/ attribute u "EntityType" = None <->
      (Some d = None \/ exists d' u', Some d = Some d' /\ describes d' u' /\ (lacks u' "EntityID" \/ lacks u' "EntityType")))).
    { intros u D. split.
      - intros A. right. exists d, u. split; [reflexivity|]. split; [apply child_some; exact D|]. rewrite <- !attribute_none. exact A.
      - intros [E|(d' & u' & E & D' & L)]; [discriminate|]. injection E as <-. apply child_some in D'. rewrite D in D'. injection D' as <-. rewrite !attribute_none. exact L. }
    destruct (child d "UxAS") as [u|] eqn:D.
    - specialize (G u eq_refl). rewrite <- G. destruct (attribute u "EntityID"); [destruct (attribute u "EntityType")|]; cbn.
      + split; [split; [discriminate|intros [E|E]; discriminate]|discriminate].
      + split; [split; auto|intros _ type; reflexivity].
      + split; [split; auto|intros _ type; reflexivity].
    - cbn. split; [|discriminate]. split; [discriminate|]. intros [E|(d' & u' & E & D' & L)]; [discriminate|]. injection E as <-. apply child_some in D'. congruence.
  Qed.

  Lemma step_level {A : Type} (f : config -> A) a (conv : level -> A) :
    (forall c x l b s, f (with_base c x l b s) = f c) -> (forall c, f (unload c) = f c) ->
    (forall c, f (fst (get_bridges c)) = f c) -> (forall c, f (fst (get_services c)) = f c) ->
    (forall c d, f (fst (set_entity as_uint c d)) =
      match child d "UxAS" with
      | Some u => match attribute u "EntityID", attribute u "EntityType", attribute u a with
                  | Some _, Some _, Some v => match level_of v with Some l => conv l | None => f c end | _, _, _ => f c end
      | None => f c
      end) ->
    forall rs, (forall v, last_told (told_level a) rs v -> f (after rs) = conv v) /\ (never_told (told_level a) rs -> f (after rs) = f fresh).
  Proof.
    intros F1 F2 F3 F4 F5. apply field. intros c r.
    assert (ST : (exists v, (forall v', told a r v' <-> v' = v) /\ f (step as_uint c r) = match level_of v with Some l => conv l | None => f c end) \/
      ((forall v, ~ told a r v) /\ f (step as_uint c r) = f c)).
    { destruct r as [[d|]| | |]; cbn [step].
      - unfold load. set (c1 := if loaded c then _ else _). assert (E1 : f c1 = f c) by (unfold c1; destruct (loaded c); [apply F1|reflexivity]).
        set (c2 := with_base c1 d true _ _). pose proof (F5 c2 d) as E2. destruct (set_entity as_uint c2 d) as (c3, ok). cbn [fst] in E2.
        assert (E3 : f (fst (if ok then (c3, true) else (with_base c3 (base c3) false (bridges_built c3) (services_built c3), false))) = f c3)
          by (destruct ok; [reflexivity|apply F1]). rewrite E3, E2. unfold c2. rewrite F1, E1. clear E1 E2 E3 c1 c2.
        assert (NT : (forall v u i t, child d "UxAS" = Some u -> attribute u "EntityID" = Some i -> attribute u "EntityType" = Some t -> attribute u a = Some v -> False) ->
          forall v, ~ told a (Load (Some d)) v).
        { intros G v T. apply told_load in T. destruct T as (u & i & t & D & I1 & I2 & GA). exact (G _ _ _ _ D I1 I2 GA). }
        destruct (child d "UxAS") as [u|] eqn:D; [|right; split; [apply NT; discriminate|reflexivity]].
        destruct (attribute u "EntityID") as [i|] eqn:AI; [|right; split; [apply NT; intros v u' i t E; injection E as <-; congruence|reflexivity]].
        destruct (attribute u "EntityType") as [t|] eqn:AT; [|right; split; [apply NT; intros v u' i' t E; injection E as <-; congruence|reflexivity]].
        destruct (attribute u a) as [v|] eqn:AA; [|right; split; [apply NT; intros v u' i' t' E; injection E as <-; congruence|reflexivity]].
        left. exists v. split; [|reflexivity]. intros v'. rewrite told_load. split.
        + intros (u' & i' & t' & E & _ & _ & GA). rewrite D in E. injection E as <-. congruence.
        + intros ->. exists u, i, t. auto.
      - right. split; [intros v T; apply told_other in T; destruct T as (d & E); discriminate|]. unfold load. cbn [fst]. rewrite F1. destruct (loaded c); [apply F1|reflexivity].
      - right. split; [intros v T; apply told_other in T; destruct T as (d & E); discriminate|apply F2].
      - right. split; [intros v T; apply told_other in T; destruct T as (d & E); discriminate|apply F3].
      - right. split; [intros v T; apply told_other in T; destruct T as (d & E); discriminate|apply F4]. }
    destruct ST as [(s & TS & E)|(NT & E)].
    - destruct (level_of s) as [l|] eqn:L.
      + left. exists l. split; [|exact E]. intros l'. split.
        * intros (s' & T & LN). apply TS in T. subst s'. apply level_of_spec in LN. congruence.
        * intros ->. exists s. split; [apply TS; reflexivity|apply level_of_spec; exact L].
      + right. split; [|exact E]. intros l' (s' & T & LN). apply TS in T. subst s'. apply level_of_spec in LN. congruence.
    - right. split; [|exact E]. intros l' (s' & T & _). exact (NT _ T).
  Qed.

  (** The levels of the loggers are those last given by a name of a level.  The database logger of the main log is never at debug. *)
  Theorem C102_levels rs :
    (forall l, last_told (told_level "ConsoleLoggerSeverityLevel") rs l -> console (after rs) = Some l) /\
    (never_told (told_level "ConsoleLoggerSeverityLevel") rs -> console (after rs) = None) /\
    (forall l, last_told (told_level "MainFileLoggerSeverityLevel") rs l ->
       main_file (after rs) = Some l /\ main_db (after rs) = Some (match l with Debug => Info | _ => l end)) /\
    (never_told (told_level "MainFileLoggerSeverityLevel") rs -> main_file (after rs) = None /\ main_db (after rs) = None).
  Proof.
    destruct (step_level console "ConsoleLoggerSeverityLevel" Some) with rs as (X1 & X2); [plain|plain|plain|plain| |].
    { intros c d; unfold set_entity; destruct (child d "UxAS") as [u|]; [|reflexivity]; destruct (attribute u "EntityID"); [|reflexivity];
      destruct (attribute u "EntityType"); [|reflexivity]. cbn. destruct (attribute u "ConsoleLoggerSeverityLevel"); reflexivity. }
    destruct (step_level main_file "MainFileLoggerSeverityLevel" Some) with rs as (X3 & X4); [plain|plain|plain|plain| |].
    { intros c d; unfold set_entity; destruct (child d "UxAS") as [u|]; [|reflexivity]; destruct (attribute u "EntityID"); [|reflexivity];
      destruct (attribute u "EntityType"); [|reflexivity]. cbn. destruct (attribute u "MainFileLoggerSeverityLevel"); reflexivity. }
    destruct (step_level main_db "MainFileLoggerSeverityLevel" (fun l => Some (match l with Debug => Info | _ => l end))) with rs as (X5 & X6); [plain|plain|plain|plain| |].
    { intros c d; unfold set_entity; destruct (child d "UxAS") as [u|]; [|reflexivity]; destruct (attribute u "EntityID"); [|reflexivity];
      destruct (attribute u "EntityType"); [|reflexivity]. cbn. destruct (attribute u "MainFileLoggerSeverityLevel") as [sv|]; [|reflexivity].
      destruct (level_of sv) as [[| | |]|]; reflexivity. }
    split; [exact X1|]. split; [exact X2|]. split; [intros l T; split; [apply X3|apply X5]; exact T|intros T; split; [apply X4|apply X6]; exact T].
  Qed.

  (** What is built of the bridges and services. *)
  Lemma built_loaded rs : loaded (after rs) = false -> bridges_built (after rs) = false /\ services_built (after rs) = false.
  Proof.
    unfold ConfigModel.after. induction rs as [|r rs IH] using rev_ind; [auto|]. rewrite fold_left_app. cbn [fold_left]. fold (after rs) in *.
    set (c := after rs) in *. clearbody c. destruct r as [[d|]| | |]; cbn [step].
    - unfold load, set_entity. destruct (loaded c).
      + destruct (child d "UxAS") as [u|]; [|discriminate]. destruct (attribute u "EntityID"); [|auto]. destruct (attribute u "EntityType"); [discriminate|auto].
      + destruct (IH eq_refl) as (B1 & B2). destruct (child d "UxAS") as [u|]; [|discriminate].
        destruct (attribute u "EntityID"); [|intros _; cbn; auto]. destruct (attribute u "EntityType"); [discriminate|intros _; cbn; auto].
    - intros _. unfold load. destruct (loaded c); [cbn; auto|]. destruct (IH eq_refl) as (B1 & B2). cbn. auto.
    - cbn. auto.
    - unfold get_bridges. destruct (loaded c) eqn:L; [destruct (bridges_built c); cbn; congruence|]. cbn. intros _. apply IH. reflexivity.
    - unfold get_services. destruct (loaded c) eqn:L; [destruct (services_built c); cbn; congruence|]. cbn. intros _. apply IH. reflexivity.
  Qed.

  (** The state while the document [d] is in force. *)
  Definition force (d : list node) (id : N) (t : string) (c : config) : Prop :=
    loaded c = true /\ base c = d /\ entity c = id /\ kind c = t /\
    (bridges_built c = true -> bridges c = [populate c "Bridge"]) /\ (services_built c = true -> services c = [populate c "Service"]).
  Lemma force_ask d id t qs : Forall question qs -> forall c, force d id t c -> force d id t (fold_left (step as_uint) qs c).
  Proof.
    intros Q. induction Q as [|q qs Q1 Q IH]; intros c F; [exact F|]. cbn [fold_left]. apply IH. destruct F as (L & B & E & K & B1 & B2).
    destruct Q1 as [->| ->]; cbn [step]; unfold get_bridges, get_services; rewrite L; cbn [andb].
    - destruct (bridges_built c); cbn; repeat split; auto.
    - destruct (services_built c); cbn; repeat split; auto.
  Qed.
  Lemma force_load before d u : describes d u \/ none (fun x => nd_name x = "UxAS") d ->
    (describes d u -> exists i t, complete u i t) ->
    let '(c, ok) := load as_uint (after before) (Some d) in
    ok = true /\ force d (entity c) (kind c) c /\ bridges_built c = false /\ services_built c = false /\
    (forall i t, describes d u -> complete u i t -> entity c = as_uint i /\ kind c = t) /\
    (none (fun x => nd_name x = "UxAS") d -> entity c = entity (after before) /\ kind c = kind (after before)).
  Proof.
    intros DD CC. pose proof (built_loaded before) as BL. unfold load, set_entity.
    set (c0 := after before) in *. clearbody c0. set (c1 := if loaded c0 then _ else c0).
    assert (B1 : bridges_built c1 = false /\ services_built c1 = false /\ entity c1 = entity c0 /\ kind c1 = kind c0)
      by (unfold c1; destruct (loaded c0); [cbn; auto|destruct BL as (X1 & X2); auto]).
    clearbody c1. destruct B1 as (B1 & B2 & B3 & B4).
    destruct (child d "UxAS") as [v|] eqn:D.
    - apply child_some in D. assert (DU : describes d u) by (destruct DD as [DU|NO]; [exact DU|exfalso; destruct D as (l1 & l2 & -> & P & _); apply (NO v); [apply in_or_app; right; left; reflexivity|exact P]]).
      apply child_some in D. pose proof (proj2 (child_some _ _ _) DU) as DU'. rewrite D in DU'. injection DU' as ->.
      destruct (CC DU) as (i & t & C1 & C2). apply attribute_some in C1, C2. rewrite C1, C2. cbn.
      split; [reflexivity|]. split; [unfold force; cbn; rewrite B1, B2; repeat split; discriminate|]. split; [exact B1|]. split; [exact B2|]. split.
      + intros i' t' _ (G1 & G2). apply attribute_some in G1, G2. split; congruence.
      + intros NO. exfalso. apply child_some in D. destruct D as (l1 & l2 & -> & P & _). apply (NO u); [apply in_or_app; right; left; reflexivity|exact P].
    - cbn. split; [reflexivity|]. split; [unfold force; cbn; rewrite B1, B2; repeat split; discriminate|]. split; [exact B1|]. split; [exact B2|]. split.
      + intros i t DU _. apply child_some in DU. congruence.
      + intros _. auto.
  Qed.
  Lemma force_answer d u id t c : describes d u -> force d id t c ->
    (exists a, snd (get_services c) = Some a /\ answer u "Service" id t a) /\ (exists a, snd (get_bridges c) = Some a /\ answer u "Bridge" id t a).
  Proof.
    intros DU (L & B & E & K & B1 & B2). apply child_some in DU.
    assert (P : forall s, exists k, populate c s = Node "UxAS" [("FormatVersion", "1.0"); ("EntityID", string_of_list_ascii (to_string id)); ("EntityType", t)] k /\ named s (nd_kids u) k).
    { intros s. unfold populate. rewrite B, DU, E, K. eexists. split; [reflexivity|apply filter_named]. }
    split.
    - destruct (P "Service") as (k & PE & PN). exists (populate c "Service"). split; [|exists k; auto].
      unfold get_services. rewrite L. cbn [andb]. destruct (services_built c) eqn:SB; cbn; [rewrite (B2 eq_refl), PE|rewrite PE]; reflexivity.
    - destruct (P "Bridge") as (k & PE & PN). exists (populate c "Bridge"). split; [|exists k; auto].
      unfold get_bridges. rewrite L. cbn [andb]. destruct (bridges_built c) eqn:SB; cbn; [rewrite (B1 eq_refl), PE|rewrite PE]; reflexivity.
  Qed.

  (** Whatever was done before: once a document that names an entity is loaded, the services and bridges enabled are exactly those of the
      document, in order, under its entity, however often it is asked. *)
  Theorem C102_enabled before d u i t qs : describes d u -> complete u i t -> Forall question qs ->
    snd (load as_uint (after before) (Some d)) = true /\
    let c := after (before ++ Load (Some d) :: qs) in
    entity c = as_uint i /\ kind c = t /\
    (exists a, snd (get_services c) = Some a /\ answer u "Service" (as_uint i) t a) /\ (exists a, snd (get_bridges c) = Some a /\ answer u "Bridge" (as_uint i) t a).
  Proof.
    intros DU CU Q. pose proof (force_load before d u (or_introl DU) (fun _ => ex_intro _ i (ex_intro _ t CU))) as F.
    assert (E : forall c, step as_uint c (Load (Some d)) = fst (load as_uint c (Some d))) by reflexivity.
    unfold ConfigModel.after. rewrite fold_left_app. cbn [fold_left]. fold (after before). rewrite E.
    destruct (load as_uint (after before) (Some d)) as (c, ok). destruct F as (-> & F & _ & _ & EN & _). destruct (EN i t DU CU) as (E1 & E2). rewrite E1, E2 in F.
    cbn [fst snd]. split; [reflexivity|]. pose proof (force_ask _ _ _ _ Q _ F) as F'. cbv zeta.
    split; [apply F'|]. split; [apply F'|]. apply force_answer with d; assumption.
  Qed.

  (** The default of a service is the first element for it in the document. *)
  Theorem C102_default before d u i t qs type : describes d u -> complete u i t -> Forall question qs ->
    let c := after (before ++ Load (Some d) :: qs) in
    let fits := fun x => nd_name x = "Service" /\ (type = "" \/ gives x "Type" type) in
    (forall x, default_service c type = Some x <-> first fits (nd_kids u) x) /\ (default_service c type = None <-> none fits (nd_kids u)).
  Proof.
    intros DU CU Q. pose proof (force_load before d u (or_introl DU) (fun _ => ex_intro _ i (ex_intro _ t CU))) as F.
    assert (E : forall c, step as_uint c (Load (Some d)) = fst (load as_uint c (Some d))) by reflexivity.
    unfold ConfigModel.after. rewrite fold_left_app. cbn [fold_left]. fold (after before). rewrite E.
    destruct (load as_uint (after before) (Some d)) as (c, ok). destruct F as (-> & F & _). cbn [fst].
    pose proof (force_ask _ _ _ _ Q _ F) as (L & B & _). cbv zeta. set (c' := fold_left _ _ _) in *. clearbody c'.
    unfold default_service. apply child_some in DU. rewrite L, B, DU.
    assert (FP : forall x, ((nd_name x =? "Service") && ((type =? "") || (type =? match attribute x "Type" with Some s => s | None => "" end)))%string%bool = true
      <-> nd_name x = "Service" /\ (type = "" \/ gives x "Type" type)).
    { intros x. rewrite andb_true_iff, orb_true_iff, !String.eqb_eq. rewrite <- attribute_some. split; intros (A1 & A2); (split; [exact A1|]).
      - destruct A2 as [A2|A2]; [left; exact A2|]. destruct (attribute x "Type") as [s|]; [right; congruence|left; exact A2].
      - destruct A2 as [A2|A2]; [left; exact A2|]. rewrite A2. right. reflexivity. }
    exact (find_first _ _ FP (nd_kids u)).
  Qed.

  (** After unloading nothing is enabled. *)
  Theorem C102_unloaded before qs type : Forall question qs ->
    let c := after (before ++ Unload :: qs) in
    snd (get_services c) = None /\ snd (get_bridges c) = None /\ default_service c type = None.
  Proof.
    intros Q. unfold ConfigModel.after. rewrite fold_left_app. cbn [fold_left step]. fold (after before). set (c0 := after before). clearbody c0.
    assert (G : forall c, loaded c = false -> bridges c = [] -> services c = [] -> let c' := fold_left (step as_uint) qs c in loaded c' = false /\ bridges c' = [] /\ services c' = []).
    { induction Q as [|q qs Q1 Q IH]; intros c L B1 B2; [cbn; auto|]. cbn [fold_left]. apply IH; destruct Q1 as [->| ->]; cbn [step]; unfold get_bridges, get_services; rewrite L; cbn; assumption. }
    destruct (G (unload c0) eq_refl eq_refl eq_refl) as (L & B1 & B2). cbv zeta. set (c := fold_left _ _ _) in *. clearbody c.
    unfold get_services, get_bridges, default_service. rewrite L. cbn. rewrite B1, B2. auto.
  Qed.

  (** WANTED: after a load that fails nothing is enabled, or all is as before.  FAILS: services asked for before are still enabled under the old entity,
      but the entity is already that of the document refused. *)
  Theorem C102_failed_refuted before d u i t d' u' i' : describes d u -> complete u i t ->
    describes d' u' -> gives u' "EntityID" i' -> lacks u' "EntityType" ->
    let c := after (before ++ [Load (Some d); AskServices]) in
    let c' := after (before ++ [Load (Some d); AskServices; Load (Some d')]) in
    snd (load as_uint c (Some d')) = false /\
    (exists a, snd (get_services c') = Some a /\ answer u "Service" (as_uint i) t a) /\ entity c' = as_uint i' /\ kind c' = t /\
    snd (get_bridges c') = child (bridges (after before)) "UxAS".
  Proof.
    intros DU CU DU' GI LT. pose proof (force_load before d u (or_introl DU) (fun _ => ex_intro _ i (ex_intro _ t CU))) as F.
    assert (E : forall c, step as_uint c (Load (Some d)) = fst (load as_uint c (Some d))) by reflexivity.
    unfold ConfigModel.after. rewrite !fold_left_app. cbn [fold_left]. fold (after before). rewrite E.
    assert (BR : bridges (fst (load as_uint (after before) (Some d))) = bridges (after before)).
    { unfold load, set_entity. destruct (loaded (after before)), (child d "UxAS") as [v|]; try reflexivity; destruct (attribute v "EntityID"); try reflexivity; destruct (attribute v "EntityType"); reflexivity. }
    destruct (load as_uint (after before) (Some d)) as (c, ok). destruct F as (-> & F & NB & NS & EN & _). destruct (EN i t DU CU) as (E1 & E2). rewrite E1, E2 in F.
    cbn [fst] in *. rewrite <- BR. destruct (force_answer d u _ _ c DU F) as ((a & SA & AN) & _). destruct F as (L & B & _).
    cbv zeta. cbn [step]. unfold get_services in SA |- *. rewrite L, NS in SA |- *. cbn in SA |- *. injection SA as SA.
    apply child_some in DU'. apply attribute_some in GI. apply attribute_none in LT. unfold load, set_entity. cbn [loaded with_base]. rewrite DU', GI, LT. cbn.
    split; [reflexivity|]. split; [exists a; split; [rewrite SA; reflexivity|exact AN]|]. split; [reflexivity|]. split; [exact E2|reflexivity].
  Qed.

  (** WANTED: a document without an element UxAS is refused.  FAILS: it is loaded; nothing is enabled, under the entity of the one before. *)
  Theorem C102_no_entity_refuted before d : none (fun x => nd_name x = "UxAS") d ->
    snd (load as_uint (after before) (Some d)) = true /\
    let c := after (before ++ [Load (Some d)]) in
    entity c = entity (after before) /\ kind c = kind (after before) /\
    exists a, snd (get_services c) = Some a /\ a = Node "UxAS" [("FormatVersion", "1.0"); ("EntityID", string_of_list_ascii (to_string (entity (after before)))); ("EntityType", kind (after before))] [].
  Proof.
    intros NO. pose proof (force_load before d (Node "" [] []) (or_intror NO)) as F.
    assert (ND : describes d (Node "" [] []) -> exists i t, complete (Node "" [] []) i t).
    { intros DU. exfalso. destruct DU as (l1 & l2 & -> & P & _). discriminate. }
    specialize (F ND). assert (E : forall c, step as_uint c (Load (Some d)) = fst (load as_uint c (Some d))) by reflexivity.
    unfold ConfigModel.after. rewrite fold_left_app. cbn [fold_left]. fold (after before). rewrite E.
    destruct (load as_uint (after before) (Some d)) as (c, ok). destruct F as (-> & (L & B & _) & NB & NS & _ & EN). destruct (EN NO) as (E1 & E2). cbn [fst snd].
    split; [reflexivity|]. cbv zeta. split; [exact E1|]. split; [exact E2|]. eexists. split; [|reflexivity]. unfold get_services. rewrite L, NS. cbn. unfold populate.
    apply child_none in NO. rewrite B, NO, E1, E2. reflexivity.
  Qed.
End Settings.
Print Assumptions C102_settings.
Print Assumptions C102_levels.
Print Assumptions C102_entity.
Print Assumptions C102_refused.
Print Assumptions C102_enabled.
Print Assumptions C102_default.
Print Assumptions C102_unloaded.
Print Assumptions C102_failed_refuted.
Print Assumptions C102_no_entity_refuted.

(** A configuration with two services and a bridge, and one without a type. *)
Definition svc (k : string) : node := Node "Service" [("Type", k)] [].
Definition cfg : node := Node "UxAS" [("FormatVersion", "1.0"); ("EntityID", "33"); ("EntityType", "Aircraft"); ("RunDuration_s", "60"); ("ConsoleLoggerSeverityLevel", "WARN")]
  [svc "A"; Node "Bridge" [("Type", "Tcp")] []; Node "" [] []; svc "B"].
Definition bad : node := Node "UxAS" [("EntityID", "44")] [svc "C"].
Definition number (s : string) : N := dec_value (list_ascii_of_string s).

Example C102_case : let c := after number [Load (Some [cfg]); AskServices] in
  snd (get_services c) = Some (Node "UxAS" [("FormatVersion", "1.0"); ("EntityID", "33"); ("EntityType", "Aircraft")] [svc "A"; svc "B"])
  /\ duration c = 60%N /\ console c = Some Warning /\ default_service c "B" = Some (svc "B")
  /\ describes [cfg] cfg /\ complete cfg "33" "Aircraft".
Proof.
  split; [vm_compute; reflexivity|]. split; [vm_compute; reflexivity|]. split; [vm_compute; reflexivity|]. split; [vm_compute; reflexivity|].
  split; [apply child_some; reflexivity|]. split; apply attribute_some; reflexivity.
Qed.
Example C102_refused_case : let c := after number [Load (Some [cfg]); AskServices; Load (Some [bad])] in
  (exists a, snd (get_services c) = Some a /\ answer cfg "Service" 33 "Aircraft" a) /\ entity c = 44%N.
Proof.
  destruct (C102_failed_refuted number [] [cfg] cfg "33" "Aircraft" [bad] bad "44") as (_ & A & E & _).
  - apply child_some; reflexivity.
  - split; apply attribute_some; reflexivity.
  - apply child_some; reflexivity.
  - apply attribute_some; reflexivity.
  - apply attribute_none; reflexivity.
  - split; [exact A|exact E].
Qed.
Example C102_told : last_told (told "RunDuration_s") [Load (Some [cfg]); Load (Some [bad]); Unload] "60".
Proof.
  exists [], (Load (Some [cfg])), [Load (Some [bad]); Unload]. split; [reflexivity|]. split; [apply told_load; exists cfg, "33", "Aircraft"; repeat split|].
  intros r [<-|[<-|[]]] v T; [apply told_load in T; destruct T as (u & i & t & E & _ & G & _); injection E as <-; discriminate|].
  apply told_other in T. destruct T as (d & E). discriminate.
Qed.

From Coq Require Import String Ascii List Arith ZArith NArith Bool Lia.
From Verif Require Import Base Decimal10 ZMap FormulaModel Run Latest DiagramModel DiagramSpec.
Import ListNotations.
Open Scope list_scope.

Lemma str_eqb_spec (a b : str) : Bool.reflect (a = b) (str_eqb a b).
Proof. unfold str_eqb. destruct (list_eq_dec ascii_dec a b); constructor; auto. Qed.

Lemma str_eqb_refl a : str_eqb a a = true.
Proof. destruct (str_eqb_spec a a); congruence. Qed.

(** *** Names and what they stand for *)

Lemma look_del {A} (l : list (str * A)) n m :
  look (filter (fun p => negb (str_eqb (fst p) n)) l) m = if str_eqb n m then None else look l m.
Proof.
  induction l as [|(k, x) l IH]; cbn [filter look fst]; [destruct (str_eqb n m); auto|].
  destruct (str_eqb_spec k n) as [->|D]; cbn [negb].
  - rewrite IH. destruct (str_eqb n m); auto.
  - cbn [look]. rewrite IH. destruct (str_eqb_spec k m) as [->|D']; auto.
    destruct (str_eqb_spec n m); congruence.
Qed.

Lemma look_put {A} (l : list (str * A)) n m x :
  look (put l n x) m = if str_eqb n m then Some x else look l m.
Proof. unfold put. cbn [look]. rewrite look_del. destruct (str_eqb n m); auto. Qed.

Lemma look_in {A} (l : list (str * A)) n x : look l n = Some x -> In (n, x) l.
Proof.
  induction l as [|(k, y) l IH]; cbn [look]; [discriminate|].
  destruct (str_eqb_spec k n) as [->|D]; [intros [= ->]; left; auto|right; auto].
Qed.

Lemma put_in {A} (l : list (str * A)) n x m y : In (m, y) (put l n x) -> (m, y) = (n, x) \/ In (m, y) l.
Proof. unfold put. intros [<-|X]; auto. apply filter_In in X. tauto. Qed.

(** *** Writing files *)

Definition writes_to (name : str) (fs : list (str * str)) : list op :=
  map (fun f => Write name (fst f) (snd f)) fs.

Lemma apply_all_app fs a b : apply_all fs (a ++ b) = apply_all (apply_all fs a) b.
Proof. apply fold_left_app. Qed.

Lemma writes_other name l : forall fs m,
  m <> name -> look (apply_all fs (writes_to name l)) m = look fs m.
Proof.
  induction l as [|f l IH]; intros fs m D; auto. unfold apply_all, writes_to in *. cbn [map fold_left].
  rewrite IH by auto. cbn [apply]. destruct (look fs name) as [[|files]|]; auto.
  rewrite look_put. destruct (str_eqb_spec name m); congruence.
Qed.

Lemma writes_file name l : forall fs, look fs name = Some NFile ->
  apply_all fs (writes_to name l) = fs.
Proof.
  induction l as [|f l IH]; intros fs E; auto. unfold apply_all, writes_to in *. cbn [map fold_left].
  cbn [apply]. rewrite E. auto.
Qed.

Definition puts (fs l : list (str * str)) : list (str * str) :=
  fold_left (fun d f => put d (fst f) (snd f)) l fs.

Lemma writes_dir name l : forall fs files, look fs name = Some (NDir files) ->
  look (apply_all fs (writes_to name l)) name = Some (NDir (puts files l)).
Proof.
  induction l as [|f l IH]; intros fs files E; auto. unfold apply_all, writes_to in *.
  cbn [map fold_left puts]. unfold puts in *. cbn [fold_left]. apply IH.
  cbn [apply]. rewrite E. rewrite look_put, str_eqb_refl. auto.
Qed.

Lemma puts_snoc fs l f : puts fs (l ++ [f]) = put (puts fs l) (fst f) (snd f).
Proof. unfold puts. rewrite fold_left_app. auto. Qed.

Lemma puts_none l n : (forall t, ~ In (n, t) l) -> look (puts [] l) n = None.
Proof.
  induction l as [|(m, t) l IH] using rev_ind; intros X; auto.
  rewrite puts_snoc. cbn [fst snd]. rewrite look_put.
  destruct (str_eqb_spec m n) as [->|D].
  - exfalso. apply (X t). apply in_or_app. right. left. auto.
  - apply IH. intros t' I. apply (X t'). apply in_or_app. auto.
Qed.

Lemma puts_in l n t : look (puts [] l) n = Some t -> In (n, t) l.
Proof.
  induction l as [|(m, u) l IH] using rev_ind; [discriminate|].
  rewrite puts_snoc. cbn [fst snd]. rewrite look_put.
  destruct (str_eqb_spec m n) as [->|D]; [intros [= ->]; apply in_or_app; right; left; auto|].
  intros X. apply in_or_app. auto.
Qed.

Lemma puts_some l n : (exists t, In (n, t) l) -> exists t, look (puts [] l) n = Some t.
Proof.
  induction l as [|(m, u) l IH] using rev_ind; [intros (t & [])|].
  intros (t & X). rewrite puts_snoc. cbn [fst snd]. rewrite look_put.
  destruct (str_eqb_spec m n) as [->|D]; [eauto|]. apply IH. exists t.
  apply in_app_or in X. destruct X as [X|[[= <- <-]|[]]]; congruence.
Qed.

Lemma puts_all (P : str -> str -> Prop) l :
  (forall n t, In (n, t) l -> P n t) -> (forall n t t', P n t -> P n t' -> t = t') ->
  forall n t, In (n, t) l -> look (puts [] l) n = Some t.
Proof.
  intros S F n t X. destruct (puts_some l n) as (t' & E); eauto.
  rewrite E. f_equal. apply (F n); apply S; auto. apply puts_in. auto.
Qed.

(** *** Names of files *)

Lemma to_string_Z_inj a b : to_string_Z a = to_string_Z b -> a = b.
Proof.
  assert (ND : forall n s, "-"%char :: s <> to_string n).
  { intros n s E. pose proof (to_string_digits n) as D. rewrite <- E in D. discriminate D. }
  unfold to_string_Z. destruct (Z.ltb_spec a 0) as [A|A], (Z.ltb_spec b 0) as [B|B]; intros E.
  - pose proof (f_equal (@tl ascii) E) as E1. cbn [tl] in E1. apply to_string_inj in E1. lia.
  - exfalso. apply (ND _ _ E).
  - exfalso. apply (ND _ _ (eq_sym E)).
  - apply to_string_inj in E. lia.
Qed.

Lemma named_inj w a b : named w a = named w b -> a = b.
Proof.
  unfold named. intros E. apply app_inv_head in E. apply app_inv_tail in E. apply to_string_Z_inj. auto.
Qed.

Definition words : list string :=
  ["EntityState_Id_"; "Task_Id_"; "AreaOfInterest_Id_"; "LineOfInterest_Id_"; "PointOfInterest_Id_";
   "WatchedEntity_Id_"; "BlockedEntity_Id_"; "ZoneKeepIn_Id_"; "ZoneKeepOut_Id_";
   "UniqueAutomationResponse_Id_"]%string.

(** Neither of two texts begins with the other. *)
Fixpoint apart (a b : str) : bool :=
  match a, b with
  | x :: a', y :: b' => negb (Ascii.eqb x y) || apart a' b'
  | _, _ => false
  end.

Lemma apart_neq a : forall b s t, apart a b = true -> a ++ s <> b ++ t.
Proof.
  induction a as [|x a IH]; intros [|y b] s t; cbn [apart]; try discriminate.
  intros E Q. cbn [app] in Q. pose proof (f_equal (@tl ascii) Q) as Q1. cbn [tl] in Q1.
  pose proof (f_equal (hd x) Q) as Q2. cbn [hd] in Q2. subst y. rewrite Ascii.eqb_refl in E.
  apply (IH _ _ _ E Q1).
Qed.

Lemma word_apart w w' :
  In w words -> In w' words -> w = w' \/ apart (lit w) (lit w') = true.
Proof.
  intros A B.
  assert (X : forallb (fun v => forallb (fun v' => String.eqb v v' || apart (lit v) (lit v')) words) words = true)
    by (vm_compute; reflexivity).
  rewrite forallb_forall in X. specialize (X w A). rewrite forallb_forall in X. specialize (X w' B).
  apply orb_prop in X. destruct X as [X|X]; auto. left. apply String.eqb_eq. auto.
Qed.

Lemma named_eq w w' a b : In w words -> In w' words -> named w a = named w' b -> w = w' /\ a = b.
Proof.
  intros A B E. destruct (word_apart w w' A B) as [->|X].
  - split; auto. apply (named_inj w'). auto.
  - exfalso. apply (apart_neq _ _ _ _ X E).
Qed.

Lemma script_apart w a : In w words -> ~ In (named w a) script_names.
Proof.
  intros A I.
  assert (X : forallb (fun v => forallb (fun s => apart (lit v) s) script_names) words = true)
    by (vm_compute; reflexivity).
  rewrite forallb_forall in X. specialize (X w A). rewrite forallb_forall in X. specialize (X _ I).
  unfold named in X. revert X.
  generalize (to_string_Z a ++ lit ".xml"). intros t X.
  rewrite <- (app_nil_r (lit w ++ t)) in X. revert X. generalize (@nil ascii). intros u X.
  assert (Y : apart (lit w) (lit w ++ (t ++ u)) = false).
  { clear. induction (lit w) as [|c l IH]; auto. cbn [app apart]. rewrite Ascii.eqb_refl. auto. }
  rewrite app_assoc in Y. congruence.
Qed.

Lemma latest_same {E A} (says : E -> option A) h x y : latest says h x -> latest says h y -> x = y.
Proof. intros X Y. apply follow_latest in X. apply follow_latest in Y. congruence. Qed.

Lemma refers_word k w i f : refers k = Some (w, i, f) ->
  In w words /\ (w = "AreaOfInterest_Id_"%string /\ f = says_area i \/
                 w = "LineOfInterest_Id_"%string /\ f = says_line i \/
                 w = "PointOfInterest_Id_"%string /\ f = says_point i \/
                 w = "WatchedEntity_Id_"%string /\ f = says_entity i \/
                 w = "BlockedEntity_Id_"%string /\ f = says_entity i).
Proof.
  destruct k; cbn [refers]; intros X; [..|discriminate];
    injection X as <- <- <-; (split; [cbn; tauto|]); tauto.
Qed.

Lemma planned_same q id p p' : planned_state q id p -> planned_state q id p' -> p = p'.
Proof.
  intros (l1 & l2 & E & A & N) (m1 & m2 & E' & A' & N'). rewrite E in E'. clear E. revert m1 E' N'.
  induction l1 as [|x l1 IH]; intros m1 E' N'.
  - destruct m1 as [|y m1]; [injection E' as ->; auto|]. injection E' as -> _.
    exfalso. apply (N' y); [left; auto|auto].
  - destruct m1 as [|y m1].
    + injection E' as -> _. exfalso. apply (N p'); [left; auto|auto].
    + injection E' as -> E'. apply (IH (fun z I => N z (or_intror I)) m1 E').
      intros z I. apply N'. right. auto.
Qed.

Ltac in_words := cbn; tauto.

Lemma input_word h q n t : input h q n t ->
  exists w i, n = named w i /\ In w words /\ w <> "UniqueAutomationResponse_Id_"%string.
Proof.
  intros [id p _ _|id u _ _ _|id k _ _|id k w i f u _ _ R _ _|g i u _ _ _ _|g i u _ _ _ _];
    try (eexists; eexists; split; [reflexivity|]; split; [in_words|discriminate]).
  destruct (refers_word _ _ _ _ R) as (A & B). exists w, i. split; auto. split; auto.
  destruct B as [(-> & _)|[(-> & _)|[(-> & _)|[(-> & _)|(-> & _)]]]]; discriminate.
Qed.

(** What belongs to a word. *)
Definition belongs (h : list event) (q : request) (w : string) (i : Z) (t : str) : Prop :=
  (w = "EntityState_Id_"%string /\
   ((exists p, planned_state q i p /\ t = pl_text p) \/
    ((forall p, ~ planned_state q i p) /\ latest (says_entity i) h t))) \/
  (w = "Task_Id_"%string /\ exists k, latest (says_task i) h k /\ t = t_text k) \/
  (w = "AreaOfInterest_Id_"%string /\ latest (says_area i) h t) \/
  (w = "LineOfInterest_Id_"%string /\ latest (says_line i) h t) \/
  (w = "PointOfInterest_Id_"%string /\ latest (says_point i) h t) \/
  (w = "WatchedEntity_Id_"%string /\ latest (says_entity i) h t) \/
  (w = "BlockedEntity_Id_"%string /\ latest (says_entity i) h t) \/
  (w = "ZoneKeepIn_Id_"%string /\ latest (says_zone i) h t) \/
  (w = "ZoneKeepOut_Id_"%string /\ latest (says_zone i) h t).

Lemma belongs_same h q w i t t' : belongs h q w i t -> belongs h q w i t' -> t = t'.
Proof.
  unfold belongs. intros X Y.
  repeat (destruct X as [(-> & X)|X];
    [repeat (destruct Y as [(E & Y)|Y]; [first [discriminate E|idtac]|]);
     try (apply (latest_same _ _ _ _ X Y)); try discriminate; try (destruct Y as (E & _); discriminate E)|]).
  - destruct X as [(p & X & ->)|(NX & X)], Y as [(p' & Y & ->)|(NY & Y)].
    + rewrite (planned_same _ _ _ _ X Y). auto.
    + destruct (NY _ X).
    + destruct (NX _ Y).
    + apply (latest_same _ _ _ _ X Y).
  - destruct X as (k & X & ->), Y as (k' & Y & ->). rewrite (latest_same _ _ _ _ X Y). auto.
  - destruct X as (-> & X). 
    repeat (destruct Y as [(E & Y)|Y]; [discriminate E|]). destruct Y as (_ & Y).
    apply (latest_same _ _ _ _ X Y).
Qed.

Lemma input_belongs h q n t : input h q n t -> exists w i, n = named w i /\ In w words /\ belongs h q w i t.
Proof.
  unfold belongs.
  intros [id p _ P|id u _ NP L|id k _ L|id k w i f u _ _ R _ L|g i u _ _ _ L|g i u _ _ _ L].
  - exists "EntityState_Id_"%string, id. split; auto. split; [in_words|]. left. split; auto. left. eauto.
  - exists "EntityState_Id_"%string, id. split; auto. split; [in_words|]. left. split; auto.
  - exists "Task_Id_"%string, id. split; auto. split; [in_words|]. right. left. split; eauto.
  - destruct (refers_word _ _ _ _ R) as (A & B). exists w, i. split; auto. split; auto.
    destruct B as [(-> & ->)|[(-> & ->)|[(-> & ->)|[(-> & ->)|(-> & ->)]]]]; tauto.
  - exists "ZoneKeepIn_Id_"%string, i. split; auto. split; [in_words|]. tauto.
  - exists "ZoneKeepOut_Id_"%string, i. split; auto. split; [in_words|]. tauto.
Qed.

Lemma input_same h q n t t' : input h q n t -> input h q n t' -> t = t'.
Proof.
  intros X Y. destruct (input_belongs _ _ _ _ X) as (w & i & -> & A & B).
  destruct (input_belongs _ _ _ _ Y) as (w' & i' & E & A' & B').
  destruct (named_eq _ _ _ _ A A' E) as (<- & <-). apply (belongs_same _ _ _ _ _ _ B B').
Qed.

Lemma saved_cases script h q r n t : saved script h q r n t ->
  input h q n t \/
  (n = named "UniqueAutomationResponse_Id_" (r_id r) /\ t = r_text r) \/
  (In n script_names /\ t = script n).
Proof. intros [m u X| |m X]; auto. Qed.

Lemma saved_same script h q r n t t' : saved script h q r n t -> saved script h q r n t' -> t = t'.
Proof.
  assert (RW : In "UniqueAutomationResponse_Id_"%string words) by in_words.
  assert (IR : forall m u i, input h q m u -> m <> named "UniqueAutomationResponse_Id_" i).
  { intros m u i X E. destruct (input_word _ _ _ _ X) as (w & j & -> & A & D).
    destruct (named_eq _ _ _ _ A RW E) as (E' & _). congruence. }
  assert (IS : forall m u, input h q m u -> ~ In m script_names).
  { intros m u X. destruct (input_word _ _ _ _ X) as (w & j & -> & A & D). apply script_apart. auto. }
  intros X Y. apply saved_cases in X. apply saved_cases in Y.
  destruct X as [X|[(X & ->)|(X & ->)]], Y as [Y|[(Y & ->)|(Y & ->)]]; auto.
  - apply (input_same _ _ _ _ _ X Y).
  - destruct (IR _ _ _ X Y).
  - destruct (IS _ _ X Y).
  - destruct (IR _ _ _ Y X).
  - subst n. destruct (script_apart _ _ RW Y).
  - destruct (IS _ _ Y X).
  - subst n. destruct (script_apart _ _ RW X).
Qed.

(** *** What is kept *)

Definition kept (h : list event) (d : data) : Prop :=
  (forall i, zget (d_entities d) i = follow (says_entity i) h) /\
  (forall i, zget (d_zones d) i = follow (says_zone i) h) /\
  (forall i, zget (d_tasks d) i = follow (says_task i) h) /\
  (forall i, zget (d_regions d) i = follow (says_region i) h) /\
  (forall i, zget (d_areas d) i = follow (says_area i) h) /\
  (forall i, zget (d_lines d) i = follow (says_line i) h) /\
  (forall i, zget (d_points d) i = follow (says_point i) h) /\
  (forall i, (zget (d_requests d) i = None <-> follow (says_request i) h = None) /\
     forall q', zget (d_requests d) i = Some q' ->
       exists q, latest (says_request i) h q /\
         (q' = q \/ q_entities q = [] /\ latest (says_about i) h None)).

Lemma kept_nil : kept [] data0.
Proof.
  repeat split; intros; try reflexivity; try discriminate.
Qed.

Section Service.
Context (entity : N) (script : str -> str).

Lemma kept_step h d fs e : kept h d -> kept (h ++ [e]) (fst (handle entity script d fs e)).
Proof.
  intros (KE & KZ & KT & KR & KA & KL & KP & KQ).
  assert (Q0 : forall i, says_request i e = None -> says_about i e = None ->
     (zget (d_requests d) i = None <-> follow (says_request i) (h ++ [e]) = None) /\
     forall q', zget (d_requests d) i = Some q' ->
       exists q, latest (says_request i) (h ++ [e]) q /\
         (q' = q \/ q_entities q = [] /\ latest (says_about i) (h ++ [e]) None)).
  { intros i S1 S2. destruct (KQ i) as (Q1 & Q2). rewrite follow_snoc, S1. split; auto.
    intros q' Z. destruct (Q2 q' Z) as (q & L & D). exists q. split; [apply latest_snoc; auto|].
    destruct D as [D|(D1 & D2)]; auto. right. split; auto. apply latest_snoc. auto. }
  assert (SET : forall A (m : zmap A) k (x : A) says i, zget m i = follow says h ->
            says e = (if (k =? i)%Z then Some x else None) ->
            zget (zset m k x) i = follow says (h ++ [e])).
  { intros A m k x says i E S. rewrite follow_snoc, zget_set, S.
    destruct (Z.eqb_spec i k), (Z.eqb_spec k i); subst; try congruence; auto. }
  assert (SAME : forall A (m : zmap A) says i, zget m i = follow says h -> says e = None ->
            zget m i = follow says (h ++ [e])).
  { intros A m says i E S. rewrite follow_snoc, S. auto. }
  destruct e as [i0 t0|q0|i0 t0|t0|g0|r0 now|i0 t0|i0 t0|i0 t0|]; cbn [handle fst];
    try (unfold kept; cbn [d_entities d_zones d_tasks d_regions d_areas d_lines d_points d_requests];
         do 7 (split; [intros i; first [apply SAME; [auto|reflexivity] | apply SET; [auto|reflexivity]]|]);
         intros i; apply Q0; reflexivity).
  - (* request *)
    unfold kept. cbn [d_entities d_zones d_tasks d_regions d_areas d_lines d_points d_requests].
    do 7 (split; [intros i; rewrite follow_snoc; cbn; auto|]).
    intros i. rewrite follow_snoc, zget_set. cbn [says_request].
    destruct (Z.eqb_spec (q_id q0) i) as [<-|D].
    + rewrite Z.eqb_refl. split; [split; discriminate|]. intros q' [= <-]. exists q0. split; auto.
      apply latest_snoc. left. cbn. rewrite Z.eqb_refl. auto.
    + destruct (Z.eqb_spec i (q_id q0)) as [E|_]; [congruence|].
      destruct (Q0 i) as (A & B).
      { cbn. destruct (Z.eqb_spec (q_id q0) i); congruence. }
      { cbn. destruct (Z.eqb_spec (q_id q0) i); congruence. }
      split; auto. rewrite A, follow_snoc. cbn. destruct (Z.eqb_spec (q_id q0) i); [congruence|tauto].
  - (* response *)
    unfold processResponse. destruct (zget (d_requests d) (r_id r0)) as [q1|] eqn:ZR; cbn [fst].
    + unfold kept. cbn [d_entities d_zones d_tasks d_regions d_areas d_lines d_points d_requests].
      do 7 (split; [intros i; rewrite follow_snoc; cbn; auto|]).
      intros i. rewrite zget_set.
      destruct (Z.eqb_spec i (r_id r0)) as [->|D].
      * rewrite follow_snoc. cbn [says_request]. destruct (KQ (r_id r0)) as (A & B). destruct (B q1 ZR) as (q & L & C).
        split; [split; [discriminate|]; intros F; apply A in F; congruence|].
        intros q' [= <-]. exists q. split; [apply latest_snoc; right; auto|].
        assert (LA : latest (says_about (r_id r0)) (h ++ [EvResponse r0 now]) None).
        { apply latest_snoc. left. cbn. rewrite Z.eqb_refl. auto. }
        destruct C as [->|(C & _)]; [|auto].
        unfold filled. destruct (q_entities q) eqn:E; auto.
      * apply Q0; cbn; auto. destruct (Z.eqb_spec (r_id r0) i); congruence.
    + unfold kept. do 7 (split; [intros i; rewrite follow_snoc; cbn; auto|]).
      intros i. destruct (Z.eqb_spec i (r_id r0)) as [->|D].
      * destruct (KQ (r_id r0)) as (A & B). rewrite follow_snoc. cbn [says_request].
        split; [auto|]. intros q' E. congruence.
      * apply Q0; cbn; auto. destruct (Z.eqb_spec (r_id r0) i); congruence.
Qed.

Lemma kept_run fs0 evs : kept evs (fst (fst (run (dstep entity script) (data0, fs0) evs))).
Proof.
  induction evs as [|e evs IH] using rev_ind; [apply kept_nil|].
  rewrite run_snoc. cbn [fst]. unfold dstep at 1.
  pose proof (kept_step _ _ (snd (fst (run (dstep entity script) (data0, fs0) evs))) e IH) as K.
  destruct (handle entity script _ _ e) as (d, ops). exact K.
Qed.

(** *** The files of a response *)

Lemma found_in word m (says : event -> option str) h i n t :
  (zget m i = follow says h) ->
  (In (n, t) (found word m i) <-> n = named word i /\ latest says h t).
Proof.
  intros E. unfold found. rewrite E. rewrite <- follow_latest.
  destruct (follow says h) as [u|]; cbn [In].
  - split; [intros [[= <- <-]|[]]; auto|]. intros (-> & [= <-]). left. auto.
  - split; [tauto|]. intros (_ & [=]).
Qed.

Lemma planned_find q i :
  match find (fun p => (pl_entity p =? i)%Z) (q_planning q) with
  | Some p => planned_state q i p
  | None => forall p, ~ planned_state q i p
  end.
Proof.
  unfold planned_state. induction (q_planning q) as [|x l IH]; cbn [find].
  - intros p (l1 & l2 & E & _). destruct l1; discriminate.
  - destruct (Z.eqb_spec (pl_entity x) i) as [E|E].
    + exists [], l. repeat split; [exact E|intros ? []].
    + destruct (find (fun p => (pl_entity p =? i)%Z) l) as [p|].
      * destruct IH as (l1 & l2 & -> & A & N). exists (x :: l1), l2. split; auto. split; auto.
        intros p' [<-|X]; auto.
      * intros p (l1 & l2 & Q & A & N). destruct l1 as [|y l1].
        -- injection Q as -> ->. congruence.
        -- injection Q as -> ->. apply (IH p). exists l1, l2. split; auto. split; auto.
           intros p' X. apply N. right. auto.
Qed.

(** The request with the entities that are taken. *)
Definition complete_with (es : list Z) (q : request) : request :=
  {| q_id := q_id q; q_entities := es; q_planning := q_planning q; q_tasks := q_tasks q;
     q_region := q_region q |}.

Lemma inputs_exact h d q es n t :
  kept h d -> (forall i, In i es <-> wanted h q i) ->
  (In (n, t) (flat_map (entityFiles d (complete_with es q)) es ++ flat_map (taskFiles d) (q_tasks q)
              ++ regionFiles d (q_region q)) <-> input h q n t).
Proof.
  intros (KE & KZ & KT & KR & KA & KL & KP & _) W. rewrite !in_app_iff, !in_flat_map. split.
  - intros [(i & I & X)|[(i & I & X)|X]].
    + apply W in I. unfold entityFiles in X. cbn [complete_with q_planning] in X.
      pose proof (planned_find q i) as P.
      destruct (find (fun p => (pl_entity p =? i)%Z) (q_planning q)) as [p|].
      * destruct X as [[= <- <-]|[]]. apply input_planned; auto.
      * apply (found_in _ _ (says_entity i) h) in X; [|apply KE]. destruct X as (-> & X). apply input_state; auto.
    + unfold taskFiles in X. rewrite KT in X.
      destruct (follow (says_task i) h) as [k|] eqn:F; [|destruct X]. apply follow_latest in F.
      destruct X as [[= <- <-]|X]; [apply input_task; auto|].
      unfold referred in X.
      destruct (t_kind k) eqn:TK; [..|destruct X];
        match goal with H : In _ (if (0 <? ?z)%Z then _ else _) |- _ => destruct (Z.ltb_spec 0 z); [|destruct H] end;
        match goal with
        | H : In _ (found ?w (d_areas d) ?z) |- _ => apply (found_in _ _ (says_area z) h) in H; [|apply KA]
        | H : In _ (found ?w (d_lines d) ?z) |- _ => apply (found_in _ _ (says_line z) h) in H; [|apply KL]
        | H : In _ (found ?w (d_points d) ?z) |- _ => apply (found_in _ _ (says_point z) h) in H; [|apply KP]
        | H : In _ (found ?w (d_entities d) ?z) |- _ => apply (found_in _ _ (says_entity z) h) in H; [|apply KE]
        end; destruct X as (-> & X);
        (eapply input_place; [exact I|exact F|rewrite TK; reflexivity|assumption|exact X]).
    + unfold regionFiles in X. destruct (Z.ltb_spec 0 (q_region q)) as [P|]; [|destruct X].
      rewrite KR in X. destruct (follow (says_region (q_region q)) h) as [g|] eqn:F; [|destruct X].
      apply follow_latest in F. rewrite in_app_iff, !in_flat_map in X.
      destruct X as [(i & I & X)|(i & I & X)]; apply (found_in _ _ (says_zone i) h) in X; auto;
        destruct X as (-> & X); [eapply input_keep_in|eapply input_keep_out]; eauto.
  - intros X. inversion X as [i p A B|i u A B C|i k A B|i k w j f u A B C D E|g i u A B C D|g i u A B C D]; subst.
    + left. exists i. split; [apply W; auto|]. unfold entityFiles. cbn [complete_with q_planning].
      pose proof (planned_find q i) as P.
      destruct (find (fun p => (pl_entity p =? i)%Z) (q_planning q)) as [p'|]; [|destruct (P _ B)].
      rewrite (planned_same _ _ _ _ B P). left. auto.
    + left. exists i. split; [apply W; auto|]. unfold entityFiles. cbn [complete_with q_planning].
      pose proof (planned_find q i) as P.
      destruct (find (fun p => (pl_entity p =? i)%Z) (q_planning q)) as [p'|]; [destruct (B _ P)|].
      apply (found_in _ _ (says_entity i) h); auto.
    + right. left. exists i. split; auto. unfold taskFiles. rewrite KT.
      apply follow_latest in B. rewrite B. left. auto.
    + right. left. exists i. split; auto. unfold taskFiles. rewrite KT.
      apply follow_latest in B. rewrite B. right.
      assert (L : (0 <? j)%Z = true) by (apply Z.ltb_lt; auto). unfold referred.
      destruct (t_kind k); cbn [refers] in C; [..|discriminate]; injection C as <- <- <-; rewrite L;
        (eapply found_in; [|split; [reflexivity|exact E]]); auto.
    + right. right. unfold regionFiles. assert (L : (0 <? q_region q)%Z = true) by (apply Z.ltb_lt; auto).
      rewrite L, KR. apply follow_latest in B. rewrite B. rewrite in_app_iff, !in_flat_map. left.
      exists i. split; auto. apply (found_in _ _ (says_zone i) h); auto.
    + right. right. unfold regionFiles. assert (L : (0 <? q_region q)%Z = true) by (apply Z.ltb_lt; auto).
      rewrite L, KR. apply follow_latest in B. rewrite B. rewrite in_app_iff, !in_flat_map. right.
      exists i. split; auto. apply (found_in _ _ (says_zone i) h); auto.
Qed.

Lemma scripts_in n t : In (n, t) (scriptFiles script) <-> In n script_names /\ t = script n.
Proof.
  unfold scriptFiles, script_names. rewrite !in_map_iff. split.
  - intros (w & [= <- <-] & I). split; eauto.
  - intros ((w & <- & I) & ->). exists w. auto.
Qed.
End Service.

(** *** Numbers *)

Lemma digit_in c : is_digit c = true <-> In c (lit "0123456789").
Proof.
  split; [destruct c as [[] [] [] [] [] [] [] []]; vm_compute; try discriminate; tauto|].
  intros I. repeat (destruct I as [<-|I]; [reflexivity|]). destruct I.
Qed.

Lemma numbered_is name : is_numbered name = true <-> numbered name (number name).
Proof.
  split.
  - intros X. destruct name as [|a [|b [|c [|d [|u rest]]]]]; try discriminate X. cbn in X.
    apply andb_prop in X. destruct X as (X & U). apply andb_prop in X. destruct X as (X & D).
    apply andb_prop in X. destruct X as (X & C). apply andb_prop in X. destruct X as (A & B).
    apply Ascii.eqb_eq in U. subst u. exists [a; b; c; d], rest. split; auto. split; auto.
    split; [|reflexivity].
    do 4 (apply Forall_cons; [apply digit_in; auto|]). apply Forall_nil.
  - intros (ds & rest & -> & L & F & _).
    destruct ds as [|a [|b [|c [|d [|]]]]]; try discriminate L. cbn.
    repeat match goal with H : Forall _ (_ :: _) |- _ => inversion H; clear H; subst end.
    repeat match goal with H : In ?c (lit "0123456789") |- _ => apply digit_in in H; rewrite H end.
    reflexivity.
Qed.

Lemma numbered_number name n : numbered name n -> is_numbered name = true /\ number name = n.
Proof.
  intros X. assert (X' := X). destruct X' as (ds & rest & -> & L & F & E).
  assert (EN : number (ds ++ "_"%char :: rest) = n).
  { unfold number. rewrite <- L, firstn_app, Nat.sub_diag, firstn_all. cbn [firstn]. rewrite app_nil_r. auto. }
  split; auto. apply numbered_is. rewrite EN. auto.
Qed.

Lemma max_from fs : forall m,
  let f := fold_left (fun m (e : str * node) =>
               match snd e with
               | NDir _ => if is_numbered (fst e) && (m <? number (fst e))%N
                           then number (fst e) else m
               | NFile => m
               end) fs m in
  (m <= f)%N /\
  (f = m \/ exists name files, In (name, NDir files) fs /\ numbered name f) /\
  (forall name files k, In (name, NDir files) fs -> numbered name k -> (k <= f)%N).
Proof.
  induction fs as [|(name, nd) fs IH]; intros m; cbn zeta; cbn [fold_left].
  - split; [lia|]. split; auto. intros ? ? ? [].
  - cbn [fst snd].
    match goal with |- context [fold_left ?g fs ?m'] => set (m1 := m') end.
    destruct (IH m1) as (A & B & C).
    assert (M1 : (m <= m1)%N /\ (m1 = m \/ exists files, nd = NDir files /\ numbered name m1) /\
                 (forall files k, nd = NDir files -> numbered name k -> (k <= m1)%N)).
    { subst m1. destruct nd as [|files].
      - split; [lia|]. split; auto. intros ? ? [=].
      - destruct (is_numbered name) eqn:N; cbn [andb].
        + destruct (N.ltb_spec m (number name)) as [Q|Q].
          * split; [lia|]. split; [right; exists files; split; auto; apply numbered_is; auto|].
            intros ? k _ X. apply numbered_number in X. lia.
          * split; [lia|]. split; auto. intros ? k _ X. apply numbered_number in X. lia.
        + split; [lia|]. split; auto. intros ? k _ X. apply numbered_number in X. destruct X. congruence. }
    destruct M1 as (M1 & M2 & M3). split; [lia|]. split.
    + destruct B as [B|(n' & f' & I & X)].
      * destruct M2 as [M2|(f' & -> & X)]; [left; congruence|]. right. rewrite B. exists name, f'. split; auto. left. auto.
      * right. exists n', f'. split; auto. right. auto.
    + intros n' f' k [E|I] X; [|eauto]. pose proof (f_equal fst E) as E1. pose proof (f_equal snd E) as E2.
      cbn [fst snd] in E1, E2. subst n'. specialize (M3 f' k E2 X). lia.
Qed.

Lemma max_largest fs n : largest fs n -> maxNumber fs = n.
Proof.
  intros (A & B). pose proof (max_from fs 0%N) as X. cbn zeta in X.
  change (fold_left _ fs 0%N) with (maxNumber fs) in X. destruct X as (_ & C & D).
  assert (maxNumber fs <= n)%N.
  { destruct C as [C|(name & files & I & X)]; [lia|]. eauto. }
  assert (n <= maxNumber fs)%N.
  { destruct A as [A|(name & files & I & X)]; [lia|]. eauto. }
  lia.
Qed.

(** *** Padding *)
Lemma pad4_ok n : (n <= 9999)%N ->
  length (pad4 n) = 4%nat /\ Forall (fun c => In c (lit "0123456789")) (pad4 n) /\ dec_value (pad4 n) = n.
Proof.
  intros L.
  assert (G : (length (to_string n) <= 4)%nat).
  { unfold to_string.
    assert (X : forall f k m, (m < 10 ^ N.of_nat k)%N -> (0 < k)%nat -> (length (dec_aux f m) <= k)%nat).
    { induction f as [|f IH]; intros k m B K; cbn [dec_aux]; [cbn; lia|].
      destruct (N.ltb_spec m 10); [cbn; lia|]. rewrite app_length. cbn [length].
      destruct k as [|[|k]]; [lia|cbn in B; lia|].
      assert (length (dec_aux f (m / 10)) <= S k)%nat; [|lia]. apply IH; [|lia].
      apply N.div_lt_upper_bound; [lia|]. rewrite <- N.pow_succ_r by lia.
      replace (N.succ (N.of_nat (S k))) with (N.of_nat (S (S k))) by lia. auto. }
    apply X; [cbn; lia|lia]. }
  split; [|split].
  - unfold pad4. rewrite app_length, repeat_length. lia.
  - unfold pad4. apply Forall_app. split.
    + apply Forall_forall. intros c I. apply repeat_spec in I. subst c. cbn. tauto.
    + apply Forall_forall. intros c I. apply digit_in. pose proof (to_string_digits n) as D.
      rewrite forallb_forall in D. auto.
  - unfold pad4. unfold dec_value. rewrite fold_left_app.
    assert (Z0 : forall k, fold_left (fun acc c => 10 * acc + (N_of_ascii c - 48))%N (repeat "0"%char k) 0%N = 0%N).
    { induction k; auto. }
    rewrite Z0. apply to_string_value.
Qed.

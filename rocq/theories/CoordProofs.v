(** The state of the coordinator in terms of its history. *)
From Coq Require Import List ZArith Bool Permutation Lia.
From Verif Require Import ZMap Run CoordModel CoordSpec.
Import ListNotations.
Open Scope list_scope.
Open Scope Z_scope.

Lemma split_snoc {A} (l : list A) z x e y : l ++ [z] = x ++ e :: y ->
  (y = [] /\ x = l /\ e = z) \/ exists y', y = y' ++ [z] /\ l = x ++ e :: y'.
Proof.
  intros H. destruct y as [|z' y' _] using rev_ind.
  - left. apply app_inj_tail in H. destruct H as (-> & ->). auto.
  - right. exists y'. assert (E : l ++ [z] = (x ++ e :: y') ++ [z']) by (rewrite H, <- app_assoc; reflexivity).
    apply app_inj_tail in E. destruct E as (-> & ->). auto.
Qed.

Lemma located_snoc me t x w : located me (t ++ [x]) w <->
  fst x = VehicleState me w \/ (located me t w /\ forall w', fst x <> VehicleState me w').
Proof.
  split.
  - intros (a & o & b & E & H). apply split_snoc in E. destruct E as [(-> & -> & <-)|(b' & -> & ->)]; [left; reflexivity|].
    right. split.
    + exists a, o, b'. split; [reflexivity|]. intros w' o' I. apply (H w' o'), in_or_app. auto.
    + intros w' C. destruct x as [e o']. cbn in C. subst e. apply (H w' o'), in_or_app. right. left. reflexivity.
  - intros [E|((a & o & b & -> & H) & N)].
    + destruct x as [e o]. cbn in E. subst e. exists t, o, []. split; [reflexivity|]. intros ? ? [].
    + exists a, o, (b ++ [x]). split; [rewrite <- app_assoc; reflexivity|]. intros w' o' I. apply in_app_or in I.
      destruct I as [I|[I|[]]]; [apply (H _ _ I)|]. subst x. apply (N w'). reflexivity.
Qed.

Lemma known_snoc me rid pre l x p :
  (forall p', fst x = Report rid p' -> p_entity p' <> me) ->
  known me rid pre (l ++ [x]) p <->
  fst x = Report rid p \/
  (exists r now w, fst x = Request r now /\ r_id r = rid /\ located me (pre ++ l) w /\ p = {| p_entity := me; p_where := w |}) \/
  (known me rid pre l p /\ forall p', fst x = Report rid p' -> p_entity p' <> p_entity p).
Proof.
  intros ME. split.
  - intros [(a & o & b & E & H)|(a & r & now & o & b & w & E & R & L & P)]; apply split_snoc in E; destruct E as [(-> & -> & <-)|(b' & -> & ->)].
    + left. reflexivity.
    + right. right. split.
      * left. exists a, o, b'. split; [reflexivity|]. intros p' o' I. apply (H p' o'), in_or_app. auto.
      * intros p' C. destruct x as [e o']. cbn in C. subst e. apply (H p' o'), in_or_app. right. left. reflexivity.
    + right. left. exists r, now, w. auto.
    + right. right. split; [right; exists a, r, now, o, b', w; auto|]. intros p' C. rewrite P. apply ME, C.
  - intros [E|[(r & now & w & E & R & L & P)|([(a & o & b & -> & H)|(a & r & now & o & b & w & -> & R & L & P)] & N)]].
    + destruct x as [e o]. cbn in E. subst e. left. exists l, o, []. split; [reflexivity|]. intros ? ? [].
    + destruct x as [e o]. cbn in E. subst e. right. exists l, r, now, o, [], w. auto.
    + left. exists a, o, (b ++ [x]). split; [rewrite <- app_assoc; reflexivity|]. intros p' o' I. apply in_app_or in I.
      destruct I as [I|[I|[]]]; [apply (H _ _ I)|]. subst x. apply N. reflexivity.
    + right. exists a, r, now, o, (b ++ [x]), w. split; [rewrite <- app_assoc; reflexivity|]. auto.
Qed.

Lemma known_nil me rid pre p : ~ known me rid pre [] p.
Proof.
  intros [(a & o & b & E & _)|(a & r & now & o & b & w & E & _)]; destruct a; discriminate.
Qed.

Lemma since_snoc rid t x pre l : since rid (t ++ [x]) pre l ->
  (closes rid x /\ pre = t ++ [x] /\ l = []) \/ (~ closes rid x /\ exists l', l = l' ++ [x] /\ since rid t pre l').
Proof.
  intros (E & P & N). destruct l as [|z l' _] using rev_ind.
  - rewrite app_nil_r in E. subst pre. left. destruct P as [P|(p & y & P & C)]; [destruct t; discriminate|].
    apply app_inj_tail in P. destruct P as (_ & ->). auto.
  - right. rewrite app_assoc in E. apply app_inj_tail in E. destruct E as (-> & ->).
    split; [apply N, in_or_app; right; left; reflexivity|]. exists l'. split; [reflexivity|]. split; [reflexivity|].
    split; [exact P|]. intros y I. apply N, in_or_app. auto.
Qed.

Lemma since_end rid t pre l x : since rid t pre l -> ~ closes rid x -> since rid (t ++ [x]) pre (l ++ [x]).
Proof.
  intros (-> & P & N) C. split; [rewrite app_assoc; reflexivity|]. split; [exact P|]. intros y I. apply in_app_or in I.
  destruct I as [I|[<-|[]]]; auto.
Qed.

Lemma closes_dec rid x : {closes rid x} + {~ closes rid x}.
Proof.
  destruct x as [[i w|r p|r n|r resp|n] o]; unfold closes; cbn [fst snd]; try (right; tauto); try apply Z.eq_dec;
    (destruct (existsb (fun x => match x with OutTask rid' _ _ _ => rid' =? rid | _ => false end) o) eqn:E;
     [left; apply existsb_exists in E; destruct E as ([|rid' es b ps|] & I & E); try discriminate; apply Z.eqb_eq in E; subst; exists es, b, ps; exact I
     |right; intros (es & b & ps & I); rewrite <- not_true_iff_false in E; apply E, existsb_exists; exists (OutTask rid es b ps); split; [exact I|apply Z.eqb_refl]]).
Qed.

Lemma since_exists rid t : exists pre l, since rid t pre l.
Proof.
  induction t as [|x t (pre & l & IH)] using rev_ind.
  - exists [], []. split; [reflexivity|]. split; [auto|]. intros ? [].
  - destruct (closes_dec rid x) as [C|C].
    + exists (t ++ [x]), []. split; [rewrite app_nil_r; reflexivity|]. split; [right; eauto|]. intros ? [].
    + exists pre, (l ++ [x]). apply since_end; assumption.
Qed.

Lemma in_ids evs rid : In rid (ids evs) <-> exists r now, In (Request r now) evs /\ r_id r = rid.
Proof.
  unfold ids. rewrite in_flat_map. split.
  - intros (ev & I & J). destruct ev as [ | |r now| | ]; try destruct J. exists r, now. auto. contradiction.
  - intros (r & now & I & <-). exists (Request r now). split; [exact I|]. left. reflexivity.
Qed.

Lemma ids_app a b : ids (a ++ b) = ids a ++ ids b.
Proof. apply flat_map_app. Qed.

Lemma proper_prefix me a b : proper me (a ++ b) -> proper me a.
Proof.
  intros (N & Z & Q & R). rewrite ids_app in *. split; [|split; [|split]].
  - clear - N. induction (ids a) as [|x l IH]; [constructor|]. inversion N as [|? ? N1 N2]; subst. constructor; [|apply IH, N2].
    intros I. apply N1, in_or_app. auto.
  - intros I. apply Z, in_or_app. auto.
  - intros p I. apply (Q p), in_or_app. auto.
  - intros rid p I. apply (R rid p), in_or_app. auto.
Qed.

Lemma proper_fresh me evs r now : proper me (evs ++ [Request r now]) -> ~ In (r_id r) (ids evs) /\ r_id r <> 0.
Proof.
  intros (N & Z & _). rewrite ids_app in *. cbn in *. split.
  - intros I. apply NoDup_remove_2 in N. rewrite app_nil_r in N. contradiction.
  - intros C. apply Z, in_or_app. right. left. exact C.
Qed.

(** What an entry of the map says. *)
Definition entry_ok (me rid : Z) (pre l : trace) (x : option elements) : Prop :=
  match x with
  | None => forall y, In y l -> ~ about rid (fst y)
  | Some x =>
      (exists y, In y l /\ about rid (fst y)) /\
      (forall r, asked rid l r -> e_request x = r) /\
      ((forall r, ~ asked rid l r) -> e_request x = default_request) /\
      NoDup (map fst (e_states x)) /\
      forall e p, zget (e_states x) e = Some p <-> p_entity p = e /\ known me rid pre l p
  end.

Record inv (me : Z) (t : trace) (s : state) : Prop := {
  i_last : forall w, last s = Some w <-> located me t w;
  i_elem : forall rid pre l, since rid t pre l -> entry_ok me rid pre l (zget (elems s) rid);
  i_dead : forall d rid, In (d, rid) (deadlines s) <-> exists r, r_id r = rid /\ pending t r d;
  i_nodup : NoDup (map snd (deadlines s)) }.

Lemma asked_snoc rid l x r : asked rid (l ++ [x]) r <-> asked rid l r \/ (exists now, fst x = Request r now) /\ r_id r = rid.
Proof.
  split.
  - intros (now & o & I & R). apply in_app_or in I. destruct I as [I|[I|[]]].
    + left. exists now, o. auto.
    + right. subst x. split; [exists now; reflexivity|exact R].
  - intros [(now & o & I & R)|((now & E) & R)].
    + exists now, o. split; [apply in_or_app; auto|exact R].
    + destruct x as [e o]. cbn in E. subst e. exists now, o. split; [apply in_or_app; right; left; reflexivity|exact R].
Qed.

Lemma pending_snoc t x r d : pending (t ++ [x]) r d <->
  (exists now, fst x = Request r now /\ d = now + r_max r) \/ (pending t r d /\ forall now, fst x = Tick now -> now <= d).
Proof.
  split.
  - intros (a & now & o & b & E & D & H). apply split_snoc in E. destruct E as [(-> & -> & <-)|(b' & -> & ->)].
    + left. exists now. auto.
    + right. split.
      * exists a, now, o, b'. split; [reflexivity|]. split; [exact D|]. intros n' o' I. apply (H n' o'), in_or_app. auto.
      * intros n' C. destruct x as [e o']. cbn in C. subst e. apply (H n' o'), in_or_app. right. left. reflexivity.
  - intros [(now & E & D)|((a & now & o & b & -> & D & H) & N)].
    + destruct x as [e o]. cbn in E. subst e. exists t, now, o, []. split; [reflexivity|]. split; [exact D|]. intros ? ? [].
    + exists a, now, o, (b ++ [x]). split; [rewrite <- app_assoc; reflexivity|]. split; [exact D|]. intros n' o' I. apply in_app_or in I.
      destruct I as [I|[I|[]]]; [apply (H _ _ I)|]. subst x. apply N. reflexivity.
Qed.

Lemma insert_In d rid l x : In x (insert d rid l) <-> x = (d, rid) \/ In x l.
Proof.
  induction l as [|y l IH]; cbn; [intuition|]. destruct (d <? fst y); cbn; [intuition|]. rewrite IH. tauto.
Qed.

Lemma insert_perm d rid l : Permutation (insert d rid l) ((d, rid) :: l).
Proof.
  induction l as [|y l IH]; cbn; [reflexivity|]. destruct (d <? fst y); [reflexivity|].
  rewrite IH. apply perm_swap.
Qed.

Lemma NoDup_filter_map {A B} (f : A -> B) (g : A -> bool) l : NoDup (map f l) -> NoDup (map f (filter g l)).
Proof.
  induction l as [|x l IH]; cbn; [auto|]. intros N. inversion N as [|? ? N1 N2]; subst. destruct (g x); cbn; [|auto].
  constructor; [|auto]. intros I. apply N1. apply in_map_iff in I. destruct I as (y & <- & I). apply filter_In in I. apply in_map, I.
Qed.

(** Entries are not touched by events that are not about them and do not close them. *)
Lemma entry_other me rid pre l x e : ~ about rid (fst x) -> entry_ok me rid pre l e -> entry_ok me rid pre (l ++ [x]) e.
Proof.
  intros A H.
  assert (A1 : forall p', fst x <> Report rid p') by (intros p' C; apply A; rewrite C; reflexivity).
  assert (A2 : forall r now, fst x = Request r now -> r_id r <> rid) by (intros r now C D; apply A; rewrite C; exact D).
  destruct e as [e|]; cbn in *.
  - destruct H as ((y & I & Y) & H1 & H2 & H3 & H4). split; [exists y; split; [apply in_or_app; auto|exact Y]|]. split; [|split; [|split; [exact H3|]]].
    + intros r R. apply asked_snoc in R. destruct R as [R|((now & E) & R)]; [auto|]. exfalso. exact (A2 _ _ E R).
    + intros N. apply H2. intros r R. apply (N r), asked_snoc. auto.
    + intros e' p. rewrite H4, known_snoc by (intros p' C; exfalso; exact (A1 _ C)). split.
      * intros (E & K). split; [exact E|]. right. right. split; [exact K|]. intros p' C. exfalso. exact (A1 _ C).
      * intros (E & [C|[(r & now & w & C & R & _)|(K & _)]]); [exfalso; exact (A1 _ C)|exfalso; exact (A2 _ _ C R)|auto].
  - intros y I. apply in_app_or in I. destruct I as [I|[<-|[]]]; [apply H, I|exact A].
Qed.

Lemma closed_nil me rid pre : entry_ok me rid pre [] None.
Proof. intros y []. Qed.

Lemma zhas_get {A} (m : zmap A) k : zhas m k = true <-> exists x, zget m k = Some x.
Proof. unfold zhas. destruct (zget m k) as [x|]; split; try discriminate; eauto. intros (x & C). discriminate. Qed.

(** The new entry for the event, before the check whether it is complete. *)
Lemma report_entry me s t rid p o pre l :
  inv me t s -> proper me (map fst t ++ [Report rid p]) -> since rid t pre l ->
  entry_ok me rid pre (l ++ [(Report rid p, o)])
    (Some {| e_request := e_request (entry s rid); e_states := zset (e_states (entry s rid)) (p_entity p) p |}).
Proof.
  intros I P S. pose proof (i_elem _ _ _ I rid pre l S) as H. unfold entry.
  assert (ME : p_entity p <> me) by (destruct P as (_ & _ & _ & R); apply (R rid), in_or_app; right; left; reflexivity).
  assert (KS : forall q, known me rid pre (l ++ [(Report rid p, o)]) q <-> q = p \/ (known me rid pre l q /\ p_entity p <> p_entity q)).
  { intros q. rewrite known_snoc by (cbn; intros p' [= <-]; exact ME). cbn [fst]. split.
    - intros [[= <-]|[(r & now & w & C & _)|(K & N)]]; [auto|discriminate|]. right. split; [exact K|]. apply N. reflexivity.
    - intros [->|(K & N)]; [auto|]. right. right. split; [exact K|]. intros p' [= <-]. exact N. }
  assert (AS : forall r, asked rid (l ++ [(Report rid p, o)]) r <-> asked rid l r).
  { intros r. rewrite asked_snoc. cbn [fst]. split; [|auto]. intros [A|((now & C) & _)]; [exact A|discriminate]. }
  destruct (zget (elems s) rid) as [x|]; cbn [entry_ok e_request e_states] in *.
  - destruct H as ((y & I1 & Y) & H1 & H2 & H3 & H4). split; [exists y; split; [apply in_or_app; auto|exact Y]|].
    split; [intros r R; apply H1, AS, R|]. split; [intros N; apply H2; intros r R; apply (N r), AS, R|].
    split; [apply NoDup_keys_zset, H3|]. intros e q. rewrite zget_set, KS.
    destruct (Z.eqb_spec e (p_entity p)) as [->|NE]; split.
    + intros [= <-]. auto.
    + intros (E & [->|(_ & C)]); [reflexivity|]. exfalso. auto.
    + rewrite H4. intros (E & K). split; [exact E|]. right. split; [exact K|]. congruence.
    + intros (E & [->|(K & _)]); [exfalso; auto|]. apply H4. auto.
  - assert (NK : forall q, ~ known me rid pre l q).
    { intros q [(a & o' & b & -> & _)|(a & r & now & o' & b & w & -> & R & _)].
      - apply (H (Report rid q, o')); [apply in_or_app; right; left; reflexivity|reflexivity].
      - apply (H (Request r now, o')); [apply in_or_app; right; left; reflexivity|exact R]. }
    assert (NA : forall r, ~ asked rid l r).
    { intros r (now & o' & J & R). apply (H _ J). exact R. }
    split; [exists (Report rid p, o); split; [apply in_or_app; right; left; reflexivity|reflexivity]|].
    split; [intros r R; exfalso; apply (NA r), AS, R|]. split; [reflexivity|]. split; [repeat constructor; intros []|].
    intros e q. rewrite KS, zget_set. cbn [zget]. destruct (Z.eqb_spec e (p_entity p)) as [->|NE]; split; try discriminate.
    + intros [= <-]. auto.
    + intros (E & [->|(K & _)]); [reflexivity|]. exfalso. apply (NK q K).
    + intros (E & [->|(K & _)]); [exfalso; auto|]. exfalso. apply (NK q K).
Qed.

Definition request_states (me : Z) (s : state) (rid : Z) : zmap pstate :=
  match last s with
  | Some w => if zhas (e_states (entry s rid)) me then e_states (entry s rid)
              else zset (e_states (entry s rid)) me {| p_entity := me; p_where := w |}
  | None => e_states (entry s rid)
  end.

Lemma request_entry me s t r now o pre l :
  inv me t s -> proper me (map fst t ++ [Request r now]) -> since (r_id r) t pre l ->
  entry_ok me (r_id r) pre (l ++ [(Request r now, o)]) (Some {| e_request := r; e_states := request_states me s (r_id r) |}).
Proof.
  intros I P S. pose proof (i_elem _ _ _ I _ pre l S) as H.
  destruct (proper_fresh _ _ _ _ P) as (F & _).
  assert (NA : forall r', ~ asked (r_id r) l r').
  { intros r' (n & o' & J & R). apply F, in_ids. exists r', n. split; [|exact R]. destruct S as (-> & _).
    apply in_map_iff. exists (Request r' n, o'). split; [reflexivity|apply in_or_app; auto]. }
  assert (NM : forall q, known me (r_id r) pre l q -> p_entity q <> me).
  { intros q [(a & o' & b & E & _)|(a & r' & n & o' & b & w & E & R & _)].
    - destruct P as (_ & _ & _ & Q). apply (Q (r_id r)), in_or_app. left. destruct S as (-> & _). rewrite E.
      apply in_map_iff. exists (Report (r_id r) q, o'). split; [reflexivity|]. apply in_or_app. right. apply in_or_app. right. left. reflexivity.
    - exfalso. apply (NA r'). exists n, o'. split; [rewrite E; apply in_or_app; right; left; reflexivity|exact R]. }
  assert (KS : forall q, known me (r_id r) pre (l ++ [(Request r now, o)]) q <->
                 known me (r_id r) pre l q \/ exists w, last s = Some w /\ q = {| p_entity := me; p_where := w |}).
  { intros q. rewrite known_snoc by (cbn; discriminate). cbn [fst]. split.
    - intros [C|[(r' & n & w & [= <- <-] & _ & L & ->)|(K & _)]]; [discriminate| |auto].
      right. exists w. split; [|reflexivity]. apply (i_last _ _ _ I). destruct S as (-> & _). exact L.
    - intros [K|(w & L & ->)]; [right; right; split; [exact K|]; discriminate|]. right. left. exists r, now, w.
      split; [reflexivity|]. split; [reflexivity|]. split; [|reflexivity]. apply (i_last _ _ _ I) in L. destruct S as (-> & _). exact L. }
  cbn [entry_ok e_request e_states].
  split; [exists (Request r now, o); split; [apply in_or_app; right; left; reflexivity|reflexivity]|].
  split.
  { intros r' R. apply asked_snoc in R. destruct R as [R|((n & [= <- <-]) & _)]; [exfalso; exact (NA _ R)|reflexivity]. }
  split.
  { intros N. exfalso. apply (N r), asked_snoc. right. split; [exists now; reflexivity|reflexivity]. }
  assert (B : NoDup (map fst (e_states (entry s (r_id r)))) /\
              forall e q, zget (e_states (entry s (r_id r))) e = Some q <-> p_entity q = e /\ known me (r_id r) pre l q).
  { unfold entry. destruct (zget (elems s) (r_id r)) as [x|]; cbn [entry_ok e_states] in *; [tauto|].
    split; [constructor|]. intros e q. cbn. split; [discriminate|]. intros (_ & [(a & o' & b & E & _)|(a & r' & n & o' & b & w & E & R & _)]); exfalso.
    - apply (H (Report (r_id r) q, o')); [rewrite E; apply in_or_app; right; left; reflexivity|reflexivity].
    - apply (H (Request r' n, o')); [rewrite E; apply in_or_app; right; left; reflexivity|exact R]. }
  destruct B as (B1 & B2). unfold request_states. destruct (last s) as [w|] eqn:L.
  - assert (Z : zhas (e_states (entry s (r_id r))) me = false).
    { destruct (zhas _ me) eqn:E; [|reflexivity]. apply zhas_get in E. destruct E as (q & E). apply B2 in E. destruct E as (E & K).
      exfalso. exact (NM q K E). }
    rewrite Z. split; [apply NoDup_keys_zset, B1|]. intros e q. rewrite zget_set, KS.
    destruct (Z.eqb_spec e me) as [->|NE]; split.
    + intros [= <-]. split; [reflexivity|]. right. exists w. auto.
    + intros (E & [K|(w' & [= <-] & ->)]); [exfalso; exact (NM q K E)|reflexivity].
    + rewrite B2. tauto.
    + intros (E & [K|(w' & [= <-] & ->)]); [apply B2; auto|]. exfalso. apply NE. symmetry. exact E.
  - split; [exact B1|]. intros e q. rewrite KS, B2. split; [tauto|]. intros (E & [K|(w' & C & _)]); [auto|discriminate].
Qed.

Section Step.
  Context (me : Z) (ord : list pstate -> list pstate) (ord_perm : forall l, Permutation (ord l) l).
  Local Notation step := (step me ord).

  (** What the check for completeness does. *)
  Lemma check_spec s rid x : zget (elems s) rid = Some x ->
    (exists ps, checkReady ord s rid = (set_elems s (zdel (elems s) rid), [OutTask rid (r_entities (e_request x)) (r_body (e_request x)) ps]) /\
       Permutation ps (map snd (e_states x)) /\ rid = r_id (e_request x) /\ forall e, In e (r_entities (e_request x)) -> zhas (e_states x) e = true) \/
    (checkReady ord s rid = (s, []) /\ ~ (rid = r_id (e_request x) /\ forall e, In e (r_entities (e_request x)) -> zhas (e_states x) e = true)).
  Proof.
    intros E. unfold checkReady. rewrite E. destruct (Z.eqb_spec rid (r_id (e_request x))) as [Q|Q]; cbn [andb].
    - destruct (forallb _ _) eqn:F.
      + left. eexists. split; [reflexivity|]. split; [apply ord_perm|]. split; [exact Q|]. rewrite forallb_forall in F. exact F.
      + right. split; [reflexivity|]. intros (_ & C). rewrite <- not_true_iff_false in F. apply F, forallb_forall, C.
    - right. split; [reflexivity|]. tauto.
  Qed.

  Lemma exactly_states rid pre l x ps : entry_ok me rid pre l (Some x) -> Permutation ps (map snd (e_states x)) ->
    exactly ps (known me rid pre l).
  Proof.
    cbn. intros (_ & _ & _ & N & K) P.
    assert (KE : forall e p, In (e, p) (e_states x) -> p_entity p = e).
    { intros e p I. apply zget_In in I; [|exact N]. apply K in I. apply I. }
    split.
    - assert (Q : map p_entity (map snd (e_states x)) = map fst (e_states x)).
      { rewrite map_map. clear - KE. induction (e_states x) as [|(e, p) m IH]; [reflexivity|]. cbn. f_equal; [apply KE; left; reflexivity|].
        apply IH. intros e' p' I. apply KE. right. exact I. }
      apply (Permutation_NoDup (l := map p_entity (map snd (e_states x)))); [apply Permutation_map, Permutation_sym, P|]. rewrite Q. exact N.
    - intros p. split.
      + intros I. apply (Permutation_in _ P) in I. apply in_map_iff in I. destruct I as ((e, p') & E & I). cbn in E. subst p'.
        apply (zget_In _ _ _ N) in I. apply K in I. apply I.
      + intros Kp. apply (Permutation_in _ (Permutation_sym P)). apply in_map_iff. exists (p_entity p, p). split; [reflexivity|].
        apply In_zget, K. auto.
  Qed.

  Lemma inv_init : inv me [] init.
  Proof.
    split; cbn.
    - intros w. split; [discriminate|]. intros (a & o & b & E & _). destruct a; discriminate.
    - intros rid pre l (E & _). symmetry in E. apply app_eq_nil in E. destruct E as (_ & ->). intros y [].
    - intros d rid. split; [intros []|]. intros (r & _ & a & now & o & b & E & _). destruct a; discriminate.
    - constructor.
  Qed.

  (** The common part of reports and requests: the entry [x] is put in place and checked. *)
  Lemma put_check s t ev o rid x s1 :
    (forall rid', about rid' ev <-> rid' = rid) ->
    (forall pre l, since rid t pre l -> entry_ok me rid pre (l ++ [(ev, o)]) (Some x)) ->
    (forall rid' pre l, rid' <> rid -> since rid' t pre l -> entry_ok me rid' pre l (zget (elems s) rid')) ->
    elems s1 = zset (elems s) rid x ->
    (forall a, In a o -> match a with OutTask _ _ _ _ => In a (snd (checkReady ord s1 rid)) | _ => True end) ->
    (forall a, In a (snd (checkReady ord s1 rid)) -> In a o) ->
    (exists p, ev = Report rid p) \/ (exists r now, ev = Request r now) ->
    forall rid' pre l, since rid' (t ++ [(ev, o)]) pre l ->
      entry_ok me rid' pre l (zget (elems (fst (checkReady ord s1 rid))) rid').
  Proof.
    intros AB EN OT E1 O1 O2 EV rid' pre l S.
    assert (G : zget (elems s1) rid = Some x) by (rewrite E1; apply zget_set_same).
    assert (CL : closes rid' (ev, o) <-> forwarded rid' o) by (destruct EV as [(p & ->)|(r & now & ->)]; reflexivity).
    destruct (check_spec s1 rid x G) as [(ps & C & _)|(C & _)]; rewrite C in *; cbn [fst snd] in *.
    - assert (FW : forall k, forwarded k o <-> k = rid).
      { intros k. split.
        - intros (es & b & q & I). apply (O1 _) in I. destruct I as [[= <- _ _ _]|[]]. reflexivity.
        - intros ->. eexists _, _, _. apply O2. left. reflexivity. }
      cbn [set_elems elems]. rewrite zget_del, E1, zget_set.
      apply since_snoc in S. destruct S as [(K & -> & ->)|(K & l' & -> & S)].
      + apply CL, FW in K. subst rid'. rewrite Z.eqb_refl. apply closed_nil.
      + assert (NE : rid' <> rid) by (intros Q; apply K, CL, FW, Q).
        apply Z.eqb_neq in NE. rewrite NE. apply Z.eqb_neq in NE. apply entry_other; [|apply OT; assumption]. cbn. rewrite AB. exact NE.
    - assert (FW : forall k, ~ forwarded k o) by (intros k (es & b & q & I); apply (O1 _) in I; exact I).
      rewrite E1, zget_set. apply since_snoc in S. destruct S as [(K & -> & ->)|(K & l' & -> & S)].
      + exfalso. apply (FW rid'), CL, K.
      + destruct (Z.eqb_spec rid' rid) as [->|NE]; [apply EN, S|]. apply entry_other; [|apply OT; assumption]. cbn. rewrite AB. exact NE.
  Qed.

  Lemma checkReady_other s rid : last (fst (checkReady ord s rid)) = last s /\ deadlines (fst (checkReady ord s rid)) = deadlines s.
  Proof. unfold checkReady. destruct (zget (elems s) rid) as [x|]; [destruct (_ && _)|]; auto. Qed.

  Lemma inv_step t s ev s' o : inv me t s -> proper me (map fst t ++ [ev]) -> step s ev = (s', o) -> inv me (t ++ [(ev, o)]) s'.
  Proof.
    intros I P St.
    assert (LAST : (forall w, ev <> VehicleState me w) -> last s' = last s -> forall w, last s' = Some w <-> located me (t ++ [(ev, o)]) w).
    { intros N E w. rewrite E, (i_last _ _ _ I), located_snoc. cbn [fst]. split; [auto|]. intros [C|(L & _)]; [exfalso; exact (N _ C)|exact L]. }
    assert (DEAD : (forall r n, ev <> Request r n) -> (forall n, ev <> Tick n) -> deadlines s' = deadlines s ->
              forall d rid, In (d, rid) (deadlines s') <-> exists r, r_id r = rid /\ pending (t ++ [(ev, o)]) r d).
    { intros N1 N2 E d rid. rewrite E, (i_dead _ _ _ I). split; intros (r & R & Q); exists r; (split; [exact R|]).
      - apply pending_snoc. right. split; [exact Q|]. intros n C. exfalso. exact (N2 _ C).
      - apply pending_snoc in Q. cbn [fst] in Q. destruct Q as [(n & C & _)|(Q & _)]; [exfalso; exact (N1 _ _ C)|exact Q]. }
    assert (SAME : (forall rid, ~ about rid ev) -> (forall rid, ~ closes rid (ev, o)) -> elems s' = elems s ->
              forall rid pre l, since rid (t ++ [(ev, o)]) pre l -> entry_ok me rid pre l (zget (elems s') rid)).
    { intros N1 N2 E rid pre l S. apply since_snoc in S. destruct S as [(K & _)|(_ & l' & -> & S)]; [exfalso; exact (N2 _ K)|].
      apply entry_other; [apply N1|]. rewrite E. apply (i_elem _ _ _ I), S. }
    destruct ev as [id w|rid p|r now|rid resp|now]; cbn [CoordModel.step] in St.
    - injection St as <- <-. split.
      + intros w'. destruct (Z.eqb_spec id me) as [->|NE]; cbn [last].
        * rewrite located_snoc. cbn [fst]. split; [intros [= ->]; auto|]. intros [[= ->]|(_ & C)]; [reflexivity|]. exfalso. apply (C w). reflexivity.
        * apply LAST; [intros w'' [= C _]; contradiction|]. destruct (id =? me) eqn:C; [apply Z.eqb_eq in C; contradiction|]. reflexivity.
      + apply SAME; try (intros k C; exact C). destruct (id =? me); reflexivity.
      + apply DEAD; try discriminate. destruct (id =? me); reflexivity.
      + destruct (id =? me); apply I.
    - unfold onReport in St. set (s1 := set_elems s _) in St.
      pose proof (checkReady_other s1 rid) as (C1 & C2).
      assert (S' : s' = fst (checkReady ord s1 rid)) by (rewrite St; reflexivity).
      assert (O' : o = snd (checkReady ord s1 rid)) by (rewrite St; reflexivity).
      split.
      + apply LAST; [discriminate|]. rewrite S', C1. reflexivity.
      + rewrite S'. apply (put_check s t (Report rid p) o rid {| e_request := e_request (entry s rid); e_states := zset (e_states (entry s rid)) (p_entity p) p |} s1).
        * intros rid'. cbn. split; auto.
        * intros pre l S. apply (report_entry me s t); assumption.
        * intros rid' pre l _ S. apply (i_elem _ _ _ I), S.
        * reflexivity.
        * intros a J. rewrite <- O'. destruct a; auto.
        * intros a J. rewrite O'. exact J.
        * left. exists p. reflexivity.
      + apply DEAD; try discriminate. rewrite S', C2. reflexivity.
      + rewrite S', C2. apply I.
    - unfold onRequest in St. destruct (proper_fresh _ _ _ _ P) as (F & F0).
      set (oo := match last s with Some w => [OutReport (r_id r) {| p_entity := me; p_where := w |}] | None => [] end).
      set (s1 := {| last := last s; elems := zset (elems s) (r_id r) {| e_request := r; e_states := request_states me s (r_id r) |};
                    deadlines := insert (now + r_max r) (r_id r) (deadlines s) |}).
      assert (St' : s' = fst (checkReady ord s1 (r_id r)) /\ o = oo ++ snd (checkReady ord s1 (r_id r))).
      { revert St. unfold s1, oo, request_states. destruct (last s) as [w|]; destruct (checkReady _ _ _) as (sx, ox); intros [= <- <-]; auto. }
      destruct St' as (S' & O'). pose proof (checkReady_other s1 (r_id r)) as (C1 & C2).
      assert (OO : forall a, In a oo -> match a with OutReport _ _ => True | _ => False end).
      { intros a J. unfold oo in J. destruct (last s); [destruct J as [<-|[]]; exact Logic.I|destruct J]. }
      split.
      + apply LAST; [discriminate|]. rewrite S', C1. reflexivity.
      + rewrite S'. apply (put_check s t (Request r now) o (r_id r) {| e_request := r; e_states := request_states me s (r_id r) |} s1).
        * intros rid'. cbn. split; auto.
        * intros pre l S. apply (request_entry me s t); assumption.
        * intros rid' pre l _ S. apply (i_elem _ _ _ I), S.
        * reflexivity.
        * intros a J. rewrite O' in J. apply in_app_or in J. destruct J as [J|J]; [apply OO in J; destruct a; tauto|]. destruct a; auto.
        * intros a J. rewrite O'. apply in_or_app. right. exact J.
        * right. exists r, now. reflexivity.
      + intros d rid. rewrite S', C2. cbn [s1 deadlines]. rewrite insert_In. split.
        * intros [[= -> ->]|J]; [exists r; split; [reflexivity|]; apply pending_snoc; left; exists now; auto|].
          apply (i_dead _ _ _ I) in J. destruct J as (r' & R & Q). exists r'. split; [exact R|]. apply pending_snoc. right. split; [exact Q|]. discriminate.
        * intros (r' & R & Q). apply pending_snoc in Q. cbn [fst] in Q. destruct Q as [(n & [= <- <-] & ->)|(Q & _)]; [left; congruence|].
          right. apply (i_dead _ _ _ I). exists r'. auto.
      + rewrite S', C2. cbn [s1 deadlines].
        apply (Permutation_NoDup (l := map snd ((now + r_max r, r_id r) :: deadlines s)));
          [apply Permutation_map, Permutation_sym, insert_perm|]. cbn. constructor; [|apply I].
        intros J. apply in_map_iff in J. destruct J as ((d, rid) & E & J). cbn in E. subst rid. apply (i_dead _ _ _ I) in J.
        destruct J as (r' & R & a & n & o' & b & E & _). apply F, in_ids. exists r', n. split; [|exact R]. rewrite E.
        apply in_map_iff. exists (Request r' n, o'). split; [reflexivity|]. apply in_or_app. right. left. reflexivity.
    - injection St as <- <-. split.
      + apply LAST; [discriminate|reflexivity].
      + intros rid' pre l S. cbn [set_elems elems]. rewrite zget_del. apply since_snoc in S. destruct S as [(K & -> & ->)|(K & l' & -> & S)].
        * cbn in K. subst rid'. rewrite Z.eqb_refl. apply closed_nil.
        * cbn in K. destruct (Z.eqb_spec rid' rid) as [->|NE]; [contradiction|]. apply entry_other; [intros C; exact C|]. apply (i_elem _ _ _ I), S.
      + apply DEAD; try discriminate; reflexivity.
      + apply I.
    - injection St as <- <-. split.
      + apply LAST; [discriminate|reflexivity].
      + apply SAME; try (intros k C; exact C). reflexivity.
      + intros d rid. cbn [deadlines]. rewrite filter_In. cbn [fst]. rewrite (i_dead _ _ _ I). split.
        * intros ((r & R & Q) & N). exists r. split; [exact R|]. apply pending_snoc. right. split; [exact Q|]. intros n [= <-].
          apply negb_true_iff, Z.ltb_ge in N. exact N.
        * intros (r & R & Q). apply pending_snoc in Q. cbn [fst] in Q. destruct Q as [(n & C & _)|(Q & N)]; [discriminate|].
          split; [exists r; auto|]. apply negb_true_iff, Z.ltb_ge. apply N. reflexivity.
      + cbn [deadlines]. apply NoDup_filter_map, I.
  Qed.

  Lemma inv_run evs : proper me evs -> inv me (snd (run step init evs)) (fst (run step init evs)).
  Proof.
    induction evs as [|ev evs IH] using rev_ind; intros P; [apply inv_init|].
    rewrite run_snoc. cbn [fst snd]. apply (inv_step _ (fst (run step init evs))).
    - apply IH, (proper_prefix _ _ _ P).
    - rewrite run_events. exact P.
    - apply surjective_pairing.
  Qed.
End Step.

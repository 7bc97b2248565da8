(** Invariants of the callback timer. *)
From Coq Require Import List ZArith Bool Lia.
From Verif Require Import Run CallbackModel CallbackSpec.
Import ListNotations.
Open Scope list_scope.
Open Scope Z_scope.

(** The times given to the timer are at least [m]. *)
Definition given (m : Z) (c : call) : Prop :=
  match c with
  | Start d _ => m <= d /\ m <= d mod 4294967296
  | Extend d => m <= d mod 4294967296
  | _ => True
  end.

Lemma forward_snoc h e : forward (h ++ [e]) -> forward h /\ forall e', In e' h -> fst e' <= fst e.
Proof.
  induction h as [|x h IH]; cbn [app forward]; [intros _; split; [exact Logic.I|intros _ []]|].
  intros (A & B). destruct (IH B) as (C & D). split.
  - split; [intros e' H; apply A, in_or_app; auto|exact C].
  - intros e' [<-|H]; [apply A, in_or_app; right; left; reflexivity|auto].
Qed.

Lemma seen_snoc t e o : seen (t ++ [(e, o)]) = seen t ++ map (fun x => (fst e, x)) o.
Proof. unfold seen. rewrite flat_map_app. cbn [flat_map fst snd]. rewrite app_nil_r. reflexivity. Qed.

(** The thread can still call the function. *)
Definition live (r : bool) (p : place) : Prop :=
  match p with Back | Stop | Done => False | Check | Clear => r = true | _ => True end.

(** What is known at each place of the thread. *)
Definition known (m : Z) (t : thread) (N : Z) : Prop :=
  match at_ t with
  | Switch e | Amount e => start t + e * ms <= N /\ e < timeout t
  | Calling Normal => start t + timeout t * ms <= N
  | Later x => start t + timeout t * ms <= N + x * ms /\ m <= x
  | _ => True
  end.

Record works (periodic : bool) (m : Z) (a : list (Z * out)) (s : st) (t : thread) (N : Z) (t0 d : Z) (b : list (Z * out)) : Prop := {
  W_made : made a t0 d (func t) b;
  W_time : t0 <= N;
  W_times : forall x, In x b -> fst x <= N;
  W_begin : at_ t = Begin -> timeout t = d /\ forall x, In x b -> ~ calls x;
  W_min : m <= timeout t;
  W_start : at_ t <> Begin -> start t <= N;
  W_known : known m t N;
  W_due : at_ t <> Begin -> (forall x, In x b -> ~ calls x) -> t0 + d * ms <= start t + timeout t * ms;
  W_live : at_ t <> Begin -> live (running s) (at_ t) -> forall x, In x b -> calls x -> periodic = true /\ fst x <= start t;
  W_normal : live (running s) (at_ t) \/ at_ t = Back -> forall x, In x b -> forall f r, snd x = Called f r -> r = Normal;
  W_func : forall x, In x b -> forall f r, snd x = Called f r -> f = func t;
  W_once : periodic = false -> forall b1 x b2 y b3, b = b1 ++ x :: b2 ++ y :: b3 -> calls x -> ~ calls y;
  W_first : forall b1 x b2 f, b = b1 ++ x :: b2 -> snd x = Called f Normal -> (forall y, In y b1 -> ~ calls y) -> t0 + d * ms <= fst x;
  W_gap : forall b1 x b2 y b3 f, b = b1 ++ x :: b2 ++ y :: b3 -> calls x -> snd y = Called f Normal -> fst x + m * ms <= fst y
}.

Definition asks (m : Z) (w : caller) : Prop :=
  match w with
  | Asking c => given m c
  | Argument x => m <= x
  | Again d _ | Marking d _ | Making d _ | Joining (Some (d, _)) | Telling _ (Some (Some (d, _))) => m <= d
  | _ => True
  end.

Record good (periodic : bool) (m : Z) (a : list (Z * out)) (s : st) (N : Z) : Prop := {
  G_times : forall x, In x a -> fst x <= N;
  G_asks : asks m (who s);
  G_arg : arg s = 0 \/ m <= arg s;
  G_over : match who s with Marking _ _ | Making _ _ => over s = true | _ => True end;
  G_thr : match thr s with
          | None => forall x, In x a -> ~ makes x /\ ~ calls x
          | Some t => exists t0 d b, works periodic m a s t N t0 d b
          end
}.

Lemma not_calls_made t d f : ~ calls (t, Made d f).
Proof. intros (g & r & E). discriminate. Qed.
Lemma not_calls_ret t : ~ calls (t, Returned).
Proof. intros (g & r & E). discriminate. Qed.
Lemma not_makes_ret t : ~ makes (t, Returned).
Proof. intros (g & r & E). discriminate. Qed.
Lemma not_makes_call t f r : ~ makes (t, Called f r).
Proof. intros (g & x & E). discriminate. Qed.

Lemma made_snoc a t0 d f b x : made a t0 d f b -> ~ makes x -> made (a ++ [x]) t0 d f (b ++ [x]).
Proof.
  intros (a0 & E & H) N. exists a0. split; [rewrite E, <- app_assoc; reflexivity|].
  intros y Hy. apply in_app_or in Hy. destruct Hy as [Hy|[<-|[]]]; auto.
Qed.

Lemma quot_le x : 0 <= x -> Z.quot x 1000000 * ms <= x.
Proof. intros H. unfold ms. rewrite Z.quot_div_nonneg by lia. pose proof (Z.mul_div_le x 1000000). lia. Qed.

Lemma snoc_one {A} (b b1 b2 : list A) x y : b ++ [y] = b1 ++ x :: b2 ->
  (b2 = [] /\ x = y /\ b = b1) \/ exists b2', b2 = b2' ++ [y] /\ b = b1 ++ x :: b2'.
Proof.
  intros E. destruct b2 as [|z b2 _] using rev_ind.
  - apply app_inj_tail in E. destruct E as (-> & ->). auto.
  - right. exists b2. change (x :: b2 ++ [z]) with ((x :: b2) ++ [z]) in E. rewrite app_assoc in E.
    apply app_inj_tail in E. destruct E as (-> & ->). auto.
Qed.
Lemma snoc_two {A} (b b1 b2 b3 : list A) x y z : b ++ [z] = b1 ++ x :: b2 ++ y :: b3 ->
  (b3 = [] /\ y = z /\ b = b1 ++ x :: b2) \/ exists b3', b3 = b3' ++ [z] /\ b = b1 ++ x :: b2 ++ y :: b3'.
Proof.
  intros E. change (b1 ++ x :: b2 ++ y :: b3) with (b1 ++ (x :: b2) ++ y :: b3) in E. rewrite app_assoc in E.
  destruct (snoc_one _ _ _ _ _ E) as [(-> & -> & ->)|(c & -> & ->)]; [left; auto|right].
  exists c. split; [reflexivity|]. rewrite <- app_assoc. reflexivity.
Qed.

Section Inv.
  Context (periodic : bool) (m : Z).

  (** A step of the thread that is not seen. *)
  Lemma works_quiet a s s' t t' N N' t0 d b :
    works periodic m a s t N t0 d b -> N <= N' ->
    func t' = func t -> at_ t' <> Begin ->
    m <= timeout t' -> start t' <= N' -> known m t' N' ->
    (at_ t <> Begin -> start t + timeout t * ms <= start t' + timeout t' * ms) ->
    (at_ t = Begin -> t0 + d * ms <= start t' + timeout t' * ms) ->
    (live (running s') (at_ t') -> at_ t <> Begin ->
       (live (running s) (at_ t) /\ start t <= start t') \/ (periodic = true /\ N <= start t' /\ at_ t = Back)) ->
    at_ t' <> Back ->
    works periodic m a s' t' N' t0 d b.
  Proof.
    intros W HN HF HB HM HS HK HD HD0 HL HX.
    assert (C : at_ t = Begin \/ at_ t <> Begin) by (destruct (at_ t); auto; right; discriminate).
    constructor.
    - rewrite HF. apply W.
    - pose proof (W_time _ _ _ _ _ _ _ _ _ W). lia.
    - intros x Hx. pose proof (W_times _ _ _ _ _ _ _ _ _ W x Hx). lia.
    - intros E. destruct (HB E).
    - exact HM.
    - intros _. exact HS.
    - exact HK.
    - intros _ Q. destruct C as [C|C]; [auto|]. specialize (HD C). pose proof (W_due _ _ _ _ _ _ _ _ _ W C Q). lia.
    - intros _ L x Hx Cx. destruct C as [C|C].
      + destruct (W_begin _ _ _ _ _ _ _ _ _ W C) as (_ & Q). destruct (Q x Hx Cx).
      + pose proof (W_times _ _ _ _ _ _ _ _ _ W x Hx). destruct (HL L C) as [(L' & LE)|(P & LE & _)].
        * destruct (W_live _ _ _ _ _ _ _ _ _ W C L' x Hx Cx). split; [assumption|lia].
        * split; [assumption|lia].
    - intros [L|L]; [|destruct (HX L)]. destruct C as [C|C].
      + intros x Hx f r E. destruct (W_begin _ _ _ _ _ _ _ _ _ W C) as (_ & Q). destruct (Q x Hx). exists f, r. exact E.
      + apply (W_normal _ _ _ _ _ _ _ _ _ W). destruct (HL L C) as [(L' & _)|(_ & _ & B)]; auto.
    - intros x Hx f r E. rewrite HF. apply (W_func _ _ _ _ _ _ _ _ _ W x Hx f r E).
    - apply W.
    - apply W.
    - apply W.
  Qed.

  (** The function is called. *)
  Lemma works_call a s t N N' t0 d b r p' :
    works periodic m a s t N t0 d b -> N <= N' -> at_ t = Calling r -> p' = (match r with Normal => Back | Cancelled => Stop end) ->
    works periodic m (a ++ [(N', Called (func t) r)]) (set_thr s (go t p')) (go t p') N' t0 d (b ++ [(N', Called (func t) r)]).
  Proof.
    intros W HN P ->. assert (NB : at_ t <> Begin) by congruence.
    assert (LV : live (running s) (at_ t)) by (rewrite P; exact Logic.I).
    pose proof (W_live _ _ _ _ _ _ _ _ _ W NB LV) as L. pose proof (W_known _ _ _ _ _ _ _ _ _ W) as K. unfold known in K. rewrite P in K.
    pose proof (W_start _ _ _ _ _ _ _ _ _ W NB) as ST. pose proof (W_min _ _ _ _ _ _ _ _ _ W) as HM.
    assert (ND : forall q, (match r with Normal => Back | Cancelled => Stop end) = q -> q = Back \/ q = Stop) by (destruct r; intros q <-; auto).
    constructor; cbn [func start timeout at_ go set_thr running].
    - apply made_snoc; [apply W|apply not_makes_call].
    - pose proof (W_time _ _ _ _ _ _ _ _ _ W). lia.
    - intros x Hx. apply in_app_or in Hx. destruct Hx as [Hx|[<-|[]]]; [|cbn; lia]. pose proof (W_times _ _ _ _ _ _ _ _ _ W x Hx). lia.
    - destruct r; discriminate.
    - exact HM.
    - intros _. lia.
    - unfold known. cbn. destruct r; exact Logic.I.
    - intros _ Q. apply (W_due _ _ _ _ _ _ _ _ _ W NB). intros x Hx. apply Q, in_or_app. auto.
    - destruct r; intros _ [].
    - intros L' x Hx f r' E. assert (RN : r = Normal) by (destruct r; [reflexivity|destruct L' as [[]|L']; discriminate]).
      apply in_app_or in Hx. destruct Hx as [Hx|[<-|[]]]; [|cbn in E; congruence].
      exact (W_normal _ _ _ _ _ _ _ _ _ W (or_introl LV) x Hx f r' E).
    - intros x Hx f r' E. apply in_app_or in Hx. destruct Hx as [Hx|[<-|[]]]; [apply (W_func _ _ _ _ _ _ _ _ _ W x Hx f r' E)|].
      cbn in E. congruence.
    - intros HP b1 x b2 y b3 E Cx Cy. destruct (snoc_two _ _ _ _ _ _ _ E) as [(-> & -> & ->)|(b3' & -> & ->)].
      + destruct (L x ltac:(apply in_or_app; right; left; reflexivity) Cx). congruence.
      + exact (W_once _ _ _ _ _ _ _ _ _ W HP _ _ _ _ _ eq_refl Cx Cy).
    - intros b1 x b2 f E Ex Q. destruct (snoc_one _ _ _ _ _ E) as [(-> & -> & ->)|(b2' & -> & ->)].
      + cbn in Ex |- *. injection Ex as _ ->. pose proof (W_due _ _ _ _ _ _ _ _ _ W NB Q). lia.
      + exact (W_first _ _ _ _ _ _ _ _ _ W _ _ _ _ eq_refl Ex Q).
    - intros b1 x b2 y b3 f E Cx Ey. destruct (snoc_two _ _ _ _ _ _ _ E) as [(-> & -> & ->)|(b3' & -> & ->)].
      + cbn in Ey |- *. injection Ey as _ ->. destruct (L x ltac:(apply in_or_app; right; left; reflexivity) Cx). unfold ms in *. lia.
      + exact (W_gap _ _ _ _ _ _ _ _ _ W _ _ _ _ _ _ eq_refl Cx Ey).
  Qed.

  (** A step of the user. *)
  Lemma works_user a s s' t N N' t0 d b :
    works periodic m a s t N t0 d b -> N <= N' -> (running s' = running s \/ at_ t = Done) ->
    works periodic m a s' t N' t0 d b.
  Proof.
    intros W HN HR. constructor; try apply W.
    - pose proof (W_time _ _ _ _ _ _ _ _ _ W). lia.
    - intros x Hx. pose proof (W_times _ _ _ _ _ _ _ _ _ W x Hx). lia.
    - intros NB. pose proof (W_start _ _ _ _ _ _ _ _ _ W NB). lia.
    - pose proof (W_known _ _ _ _ _ _ _ _ _ W) as K. unfold known in *. destruct (at_ t); auto; try lia. destruct r; auto; lia.
    - intros NB L. apply (W_live _ _ _ _ _ _ _ _ _ W NB). destruct HR as [R|R]; [rewrite <- R; exact L|rewrite R in L; destruct L].
    - intros L. apply (W_normal _ _ _ _ _ _ _ _ _ W). destruct HR as [R|R]; [rewrite <- R; exact L|rewrite R in L; destruct L as [[]|L]; discriminate].
  Qed.

  (** A return is seen. *)
  Lemma works_returned a s t N N' t0 d b :
    works periodic m a s t N t0 d b -> N <= N' -> works periodic m (a ++ [(N', Returned)]) s t N' t0 d (b ++ [(N', Returned)]).
  Proof.
    intros W0 HN. pose proof (works_user _ _ s _ _ _ _ _ _ W0 HN (or_introl eq_refl)) as W.
    assert (Q : forall x, In x (b ++ [(N', Returned)]) -> calls x -> In x b).
    { intros x Hx C. apply in_app_or in Hx. destruct Hx as [Hx|[<-|[]]]; [exact Hx|destruct (not_calls_ret _ C)]. }
    constructor; try apply W.
    - apply made_snoc; [apply W|apply not_makes_ret].
    - intros x Hx. apply in_app_or in Hx. destruct Hx as [Hx|[<-|[]]]; [|cbn; lia]. apply (W_times _ _ _ _ _ _ _ _ _ W x Hx).
    - intros B. destruct (W_begin _ _ _ _ _ _ _ _ _ W B) as (E & F). split; [exact E|]. intros x Hx C. exact (F x (Q x Hx C) C).
    - intros NB F. apply (W_due _ _ _ _ _ _ _ _ _ W NB). intros x Hx. apply F, in_or_app. auto.
    - intros NB L x Hx C. exact (W_live _ _ _ _ _ _ _ _ _ W NB L x (Q x Hx C) C).
    - intros L x Hx f r E. assert (C : calls x) by (exists f, r; exact E). exact (W_normal _ _ _ _ _ _ _ _ _ W L x (Q x Hx C) f r E).
    - intros x Hx f r E. assert (C : calls x) by (exists f, r; exact E). exact (W_func _ _ _ _ _ _ _ _ _ W x (Q x Hx C) f r E).
    - intros HP b1 x b2 y b3 E Cx Cy. destruct (snoc_two _ _ _ _ _ _ _ E) as [(-> & -> & ->)|(b3' & -> & ->)].
      + destruct (not_calls_ret _ Cy).
      + exact (W_once _ _ _ _ _ _ _ _ _ W HP _ _ _ _ _ eq_refl Cx Cy).
    - intros b1 x b2 f E Ex F. destruct (snoc_one _ _ _ _ _ E) as [(-> & -> & ->)|(b2' & -> & ->)]; [discriminate|].
      exact (W_first _ _ _ _ _ _ _ _ _ W _ _ _ _ eq_refl Ex F).
    - intros b1 x b2 y b3 f E Cx Ey. destruct (snoc_two _ _ _ _ _ _ _ E) as [(-> & -> & ->)|(b3' & -> & ->)]; [discriminate|].
      exact (W_gap _ _ _ _ _ _ _ _ _ W _ _ _ _ _ _ eq_refl Cx Ey).
  Qed.

  (** A new thread. *)
  Lemma works_new a s N d f : m <= d ->
    works periodic m (a ++ [(N, Made d f)]) s {| func := f; start := 0; timeout := d; at_ := Begin |} N N d [].
  Proof.
    intros H. constructor; cbn [func start timeout at_ known].
    - exists a. split; [reflexivity|intros y []].
    - lia.
    - intros y [].
    - intros _. split; [reflexivity|intros y []].
    - exact H.
    - congruence.
    - exact Logic.I.
    - congruence.
    - congruence.
    - intros _ y [].
    - intros y [].
    - intros _ b1 x b2 y b3 E. destruct b1; discriminate.
    - intros b1 x b2 g E. destruct b1; discriminate.
    - intros b1 x b2 y b3 g E. destruct b1; discriminate.
  Qed.

  Lemma timer_good q a s t N N' : q = periodic ->
    good periodic m a s N -> thr s = Some t -> N <= N' ->
    good periodic m (a ++ map (fun o => (N', o)) (snd (timer_step q N' s t))) (fst (timer_step q N' s t)) N'.
  Proof.
    intros PE G T HN. pose proof (G_thr _ _ _ _ _ G) as W. rewrite T in W. destruct W as (t0 & d & b & W).
    pose proof (W_min _ _ _ _ _ _ _ _ _ W) as HM. pose proof (W_known _ _ _ _ _ _ _ _ _ W) as K. pose proof (W_start _ _ _ _ _ _ _ _ _ W) as ST.
    pose proof (G_over _ _ _ _ _ G) as OV. pose proof (G_arg _ _ _ _ _ G) as AR. pose proof (W_time _ _ _ _ _ _ _ _ _ W) as HT.
    pose proof (W_begin _ _ _ _ _ _ _ _ _ W) as HB. unfold known in K.
    assert (NO : at_ t <> Done -> match who s with Marking _ _ | Making _ _ => False | _ => True end).
    { intros ND. unfold over in OV. rewrite T in OV. destruct (who s); auto; destruct (at_ t); try discriminate; destruct (ND eq_refl). }
    assert (TM : forall o x, In x (a ++ map (fun o => (N', o)) o) -> fst x <= N').
    { intros o x Hx. apply in_app_or in Hx. destruct Hx as [Hx|Hx]; [pose proof (G_times _ _ _ _ _ G x Hx); lia|].
      apply in_map_iff in Hx. destruct Hx as (y & <- & _). cbn. lia. }
    assert (Fin : forall s' t' o b', at_ t <> Done -> thr s' = Some t' -> who s' = who s -> (arg s' = arg s \/ arg s' = 0) ->
       works periodic m (a ++ map (fun o => (N', o)) o) s' t' N' t0 d b' -> good periodic m (a ++ map (fun o => (N', o)) o) s' N').
    { intros s' t' o b' ND E1 E2 E3 W'. constructor.
      - apply TM.
      - rewrite E2. apply G.
      - destruct E3 as [->| ->]; auto.
      - rewrite E2. specialize (NO ND). destruct (who s); auto; destruct NO.
      - rewrite E1. exists t0, d, b'. exact W'. }
    unfold timer_step. destruct (at_ t) eqn:P; cbn [fst snd map].
    - (* Begin *) destruct (HB eq_refl) as (E & Q). eapply (Fin _ _ [] b); try reflexivity; try discriminate; auto.
      cbn [map]. rewrite app_nil_r. eapply works_quiet; try exact W; auto; cbn; try lia; try discriminate; try congruence.
    - (* Check *) specialize (ST ltac:(discriminate)). eapply (Fin _ _ [] b); try reflexivity; try discriminate; auto.
      cbn [map]. rewrite app_nil_r. eapply works_quiet; try exact W; auto; cbn; try lia; try congruence.
      + destruct (running s); discriminate.
      + destruct (running s); exact Logic.I.
      + rewrite P. cbn. destruct (running s); [intros _ _; left; split; [reflexivity|lia]|intros []].
      + destruct (running s); discriminate.
    - (* Look *) specialize (ST ltac:(discriminate)). pose proof (quot_le (N' - start t) ltac:(lia)) as QL.
      destruct (Z.quot (N' - start t) 1000000 <? timeout t) eqn:LT; [apply Z.ltb_lt in LT|apply Z.ltb_ge in LT];
      (eapply (Fin _ _ [] b); try reflexivity; try discriminate; auto;
       cbn [map]; rewrite app_nil_r; eapply works_quiet; try exact W; auto; cbn; try lia; try discriminate; try congruence;
       try solve [unfold known; cbn; unfold ms in *; lia]; try solve [rewrite P; cbn; intros _ _; left; split; [exact Logic.I|lia]]).
    - (* Switch *) specialize (ST ltac:(discriminate)). eapply (Fin _ _ [] b); try reflexivity; try discriminate; auto.
      cbn [map]. rewrite app_nil_r. eapply works_quiet; try exact W; auto; cbn; try lia; try congruence.
      + destruct (told s); discriminate.
      + unfold known. cbn. destruct (told s); auto. lia.
      + rewrite P. cbn. intros _ _. left. split; [exact Logic.I|lia].
      + destruct (told s); discriminate.
    - (* Calling *) eapply (Fin _ _ [Called (func t) r] (b ++ [(N', Called (func t) r)])); try reflexivity; try discriminate; auto.
      cbn [map]. eapply works_call; eauto.
    - (* Back *) specialize (ST ltac:(discriminate)). destruct q; cbn [fst snd map].
      + eapply (Fin _ _ [] b); try reflexivity; try discriminate; auto.
        cbn [map]. rewrite app_nil_r. eapply works_quiet; try exact W; auto; cbn; try lia; try discriminate; try congruence.
        all: intros; right; split; [auto|split; [lia|exact P]].
      + eapply (Fin _ _ [] b); try reflexivity; try discriminate; auto.
        cbn [map]. rewrite app_nil_r. eapply works_quiet; try exact W; auto; cbn; try lia; try discriminate; try congruence.
    - (* Stop *) specialize (ST ltac:(discriminate)). eapply (Fin _ _ [] b); try reflexivity; try discriminate; auto.
      cbn [map]. rewrite app_nil_r. eapply works_quiet; try exact W; auto; cbn; try lia; try discriminate; try congruence.
    - (* Clear *) specialize (ST ltac:(discriminate)). eapply (Fin _ _ [] b); try reflexivity; try discriminate; auto.
      cbn [map]. rewrite app_nil_r. eapply works_quiet; try exact W; auto; cbn; try lia; try discriminate; try congruence.
      rewrite P. cbn. intros L _. left. split; [exact L|lia].
    - (* Restart *) specialize (ST ltac:(discriminate)). eapply (Fin _ _ [] b); try reflexivity; try discriminate; auto.
      cbn [map]. rewrite app_nil_r. eapply works_quiet; try exact W; auto; cbn; try lia; try discriminate; try congruence.
      rewrite P. cbn. intros L _. left. split; [exact Logic.I|lia].
    - (* Amount *) specialize (ST ltac:(discriminate)). eapply (Fin _ _ [] b); try reflexivity; try discriminate; auto.
      cbn [map]. rewrite app_nil_r. eapply works_quiet; try exact W; auto; cbn; try lia; try congruence.
      + destruct (_ <? _); discriminate.
      + unfold known. cbn. destruct (timeout t - elapsed <? arg s) eqn:LT; [|exact Logic.I]. apply Z.ltb_lt in LT. unfold ms in *. lia.
      + rewrite P. cbn. intros _ _. left. split; [exact Logic.I|lia].
      + destruct (_ <? _); discriminate.
    - (* Later *) specialize (ST ltac:(discriminate)). eapply (Fin _ _ [] b); try reflexivity; try discriminate; auto.
      cbn [map]. rewrite app_nil_r. eapply works_quiet; try exact W; auto; cbn; try lia; try discriminate; try congruence.
      all: try (unfold ms in *; lia). rewrite P. cbn. intros _ _. left. split; [exact Logic.I|lia].
    - (* Clear2 *) specialize (ST ltac:(discriminate)). eapply (Fin _ _ [] b); try reflexivity; try discriminate; auto.
      cbn [map]. rewrite app_nil_r. eapply works_quiet; try exact W; auto; cbn; try lia; try discriminate; try congruence.
      rewrite P. cbn. intros _ _. left. split; [exact Logic.I|lia].
    - (* Clear3 *) specialize (ST ltac:(discriminate)). eapply (Fin _ _ [] b); try reflexivity; try discriminate; auto.
      cbn [map]. rewrite app_nil_r. eapply works_quiet; try exact W; auto; cbn; try lia; try discriminate; try congruence.
      rewrite P. cbn. intros _ _. left. split; [exact Logic.I|lia].
    - (* Done *) rewrite app_nil_r. constructor; try apply G.
      + intros x Hx. pose proof (G_times _ _ _ _ _ G x Hx). lia.
      + rewrite T. exists t0, d, b. eapply works_user; eauto.
  Qed.

  Lemma user_good a s c N N' :
    good periodic m a s N -> given m c -> N <= N' ->
    good periodic m (a ++ map (fun o => (N', o)) (snd (user_step s c))) (fst (user_step s c)) N'.
  Proof.
    intros G C HN. pose proof (G_asks _ _ _ _ _ G) as A. pose proof (G_over _ _ _ _ _ G) as OV. pose proof (G_arg _ _ _ _ _ G) as AR.
    pose proof (G_thr _ _ _ _ _ G) as W.
    assert (TM : forall o x, In x (a ++ map (fun o => (N', o)) o) -> fst x <= N').
    { intros o x Hx. apply in_app_or in Hx. destruct Hx as [Hx|Hx]; [pose proof (G_times _ _ _ _ _ G x Hx); lia|].
      apply in_map_iff in Hx. destruct Hx as (y & <- & _). cbn. lia. }
    assert (Fin : forall s' o, (o = [] \/ o = [Returned]) -> thr s' = thr s -> running s' = running s \/ over s = true ->
       asks m (who s') -> (arg s' = 0 \/ m <= arg s') -> match who s' with Marking _ _ | Making _ _ => over s' = true | _ => True end ->
       good periodic m (a ++ map (fun o => (N', o)) o) s' N').
    { intros s' o Ho E1 E2 E3 E4 E5. constructor; [apply TM|exact E3|exact E4|exact E5|]. rewrite E1.
      destruct (thr s) as [t|] eqn:T.
      - destruct W as (t0 & d & b & W). assert (D : running s' = running s \/ at_ t = Done).
        { destruct E2 as [->|O]; [auto|]. unfold over in O. rewrite T in O. destruct (at_ t); auto; discriminate. }
        pose proof (works_user _ _ _ _ _ _ _ _ _ W HN D) as W'.
        destruct Ho as [->| ->]; cbn [map].
        + rewrite app_nil_r. exists t0, d, b. exact W'.
        + exists t0, d, (b ++ [(N', Returned)]). eapply works_returned; [exact W'|lia].
      - intros x Hx. apply in_app_or in Hx. destruct Hx as [Hx|Hx]; [auto|].
        destruct Ho as [->| ->]; [destruct Hx|]. destruct Hx as [<-|[]]. split; [apply not_makes_ret|apply not_calls_ret]. }
    unfold user_step. destruct (who s) as [|c'|x|k next|x f|next|x f|x f|] eqn:P; cbn [asks] in A.
    - cbn [fst snd]. apply Fin; cbn; auto.
    - destruct c' as [x f| |x| | |]; cbn [given] in A.
      + cbn [fst snd]. apply Fin; cbn; auto; destruct (running s); cbn; tauto.
      + destruct (running s) eqn:R; cbn [fst snd]; apply Fin; cbn; auto.
      + destruct (running s) eqn:R; cbn [fst snd]; apply Fin; cbn; auto.
      + destruct (running s) eqn:R; cbn [fst snd]; apply Fin; cbn; auto.
      + destruct (running s) eqn:R; cbn [fst snd]; apply Fin; cbn; auto.
      + cbn [fst snd]. apply Fin; cbn; auto; destruct (running s); cbn; auto.
    - cbn [fst snd]. apply Fin; cbn; auto.
    - unfold follow. destruct next as [j|]; cbn [fst snd]; apply Fin; cbn; auto.
    - cbn [fst snd]. apply Fin; cbn; auto; destruct (running s); cbn; auto.
    - destruct (over s) eqn:O; [destruct next as [(x & f)|]|]; cbn [fst snd]; apply Fin; cbn; auto; try (rewrite P; cbn; auto).
    - cbn [fst snd]. apply Fin; cbn; auto.
    - cbn [fst snd map]. constructor; cbn [who thr arg set_who set_thr asks]; auto.
      + apply (TM [Made x f; Returned]).
      + exists N', x, [(N', Returned)].
        replace (a ++ [(N', Made x f); (N', Returned)]) with ((a ++ [(N', Made x f)]) ++ [(N', Returned)]) by (rewrite <- app_assoc; reflexivity).
        apply (works_returned _ _ _ N' _ _ _ []); [|lia]. apply works_new. exact A.
    - cbn [fst snd]. apply Fin; cbn; auto. rewrite P. exact Logic.I. rewrite P. exact Logic.I.
  Qed.

  Lemma good_later a s N N' : good periodic m a s N -> N <= N' -> good periodic m a s N'.
  Proof.
    intros G H. constructor; try apply G.
    - intros x Hx. pose proof (G_times _ _ _ _ _ G x Hx). lia.
    - pose proof (G_thr _ _ _ _ _ G) as W. destruct (thr s); [|exact W]. destruct W as (t0 & d & b & W).
      exists t0, d, b. eapply works_user; eauto.
  Qed.

  Theorem run_good h : forward h -> (forall t c, In (t, User c) h -> given m c) ->
    forall N, (forall e, In e h -> fst e <= N) ->
      good periodic m (seen (snd (run (step periodic) init h))) (fst (run (step periodic) init h)) N.
  Proof.
    induction h as [|e h IH] using rev_ind; intros F C N HN.
    - constructor; cbn; auto; intros x [].
    - destruct (forward_snoc _ _ F) as (F1 & F2).
      specialize (IH F1 (fun t c H => C t c (in_or_app _ _ _ (or_introl H))) (fst e) F2).
      rewrite run_snoc. cbn [fst snd]. rewrite seen_snoc. apply (good_later _ _ (fst e)); [|apply HN, in_or_app; right; left; reflexivity].
      set (r := run (step periodic) init h) in *. clearbody r.
      destruct e as (now & [|c]); unfold step; cbn [fst snd] in *.
      + destruct (thr (fst r)) as [t|] eqn:T; cbn [fst snd map]; [|rewrite app_nil_r; exact IH].
        apply (timer_good _ _ _ _ now); auto. lia.
      + apply (user_good _ _ _ now); auto; [|lia]. apply (C now c), in_or_app. right. left. reflexivity.
  Qed.
End Inv.

(** C90, continued: which timers fire and which end. *)
From Coq Require Import List ZArith Bool Lia.
From Verif Require Import Run CallbackModel CallbackSpec CallbackProofs.
Import ListNotations.
Open Scope list_scope.
Open Scope Z_scope.

(** Steps of the timer at the given times, and steps that make a call. *)
Definition ticks (ts : list Z) : list ev := map (fun t => (t, Timer)) ts.
Definition doing (c : call) (ts : list Z) : list ev := map (fun t => (t, User c)) ts.
(** The calls among what is seen. *)
Definition called (a : list (Z * out)) : list (Z * result) :=
  flat_map (fun x => match snd x with Called f r => [(f, r)] | _ => [] end) a.

(** A timer that is started with time [d] and function [f], reads the clock first at [first], and then
    makes steps of which the last, [late], come after the time is over. *)
Record round := { r_start : list Z; r_time : Z; r_func : Z; r_first : Z; r_early : list Z; r_late : list Z }.
Definition complete (r : round) : Prop :=
  length (r_start r) = 6%nat /\ (6 <= length (r_late r))%nat /\ forall t, In t (r_late r) -> r_first r + r_time r * ms <= t.
Definition events (r : round) : list ev :=
  doing (Start (r_time r) (r_func r)) (r_start r) ++ ticks (r_first r :: r_early r ++ r_late r).

Fixpoint exec (periodic : bool) (s : st) (h : list ev) : st * list (Z * out) :=
  match h with
  | [] => (s, [])
  | e :: h' => let (s1, o) := step periodic s e in let (s2, l) := exec periodic s1 h' in (s2, map (fun x => (fst e, x)) o ++ l)
  end.

Lemma exec_app periodic h1 h2 s :
  exec periodic s (h1 ++ h2) =
    (fst (exec periodic (fst (exec periodic s h1)) h2), snd (exec periodic s h1) ++ snd (exec periodic (fst (exec periodic s h1)) h2)).
Proof.
  revert s. induction h1 as [|e h1 IH]; intros s; cbn [app exec fst snd].
  - destruct (exec periodic s h2); reflexivity.
  - destruct (step periodic s e) as (s1, o). rewrite IH. destruct (exec periodic s1 h1) as (s2, l). cbn [fst snd].
    destruct (exec periodic s2 h2) as (s3, l'). cbn [fst snd]. rewrite app_assoc. reflexivity.
Qed.

Lemma run_exec periodic h : (fst (run (step periodic) init h), seen (snd (run (step periodic) init h))) = exec periodic init h.
Proof.
  induction h as [|e h IH] using rev_ind; [reflexivity|].
  rewrite run_snoc, exec_app. cbn [fst snd]. rewrite seen_snoc, <- IH. cbn [fst snd exec].
  destruct (step periodic _ e) as (s1, o). cbn [fst snd]. rewrite app_nil_r. reflexivity.
Qed.

Lemma run_then periodic h k s : fst (run (step periodic) init h) = s ->
  fst (run (step periodic) init (h ++ k)) = fst (exec periodic s k) /\
  seen (snd (run (step periodic) init (h ++ k))) = seen (snd (run (step periodic) init h)) ++ snd (exec periodic s k).
Proof.
  intros <-. pose proof (run_exec periodic (h ++ k)) as E. rewrite exec_app, <- (run_exec periodic h) in E. cbn [fst snd] in E.
  injection E as E1 E2. auto.
Qed.

Lemma called_app a b : called (a ++ b) = called a ++ called b.
Proof. apply flat_map_app. Qed.

(** *** A timer that is only started *)
Definition idle (s : st) : Prop := running s = false /\ told s = NoCommand /\ over s = true /\ who s = Free.

Lemma started periodic s d f us : idle s -> length us = 6%nat -> exists u,
  exec periodic s (doing (Start d f) us) =
    ({| running := true; told := NoCommand; arg := arg s; thr := Some {| func := f; start := 0; timeout := d; at_ := Begin |}; who := Free |},
     [(u, Made d f); (u, Returned)]).
Proof.
  intros (R & T & O & W) L. destruct us as [|u1 [|u2 [|u3 [|u4 [|u5 [|u6 [|]]]]]]]; try discriminate. exists u6.
  destruct s as [r k x th w]. unfold over in *. cbn in *. subst.
  destruct th as [t|]; [destruct t as [g st to p]; destruct p; try discriminate|]; cbn; reflexivity.
Qed.

(** The number of steps that are left once the time is over. *)
Definition left_ (d f t1 : Z) (k : nat) (s : st) : Prop :=
  told s = NoCommand /\ who s = Free /\ exists t, thr s = Some t /\ func t = f /\ start t = t1 /\ timeout t = d /\
    match k with
    | 0%nat => running s = false /\ at_ t = Done
    | 1%nat => running s = false /\ at_ t = Check
    | 2%nat => running s = true /\ at_ t = Back
    | 3%nat => running s = true /\ at_ t = Calling Normal
    | 4%nat => running s = true /\ at_ t = Look
    | 5%nat => running s = true /\ at_ t = Check
    | 6%nat => running s = true /\ exists e, at_ t = Switch e
    | _ => False
    end.

Lemma quot_ge x d : 0 <= x -> d * ms <= x -> d <= Z.quot x 1000000.
Proof. intros H1 H2. unfold ms in H2. rewrite Z.quot_div_nonneg by lia. apply Z.div_le_lower_bound; lia. Qed.
Lemma quot_lt x d : 0 <= x -> x < d * ms -> Z.quot x 1000000 < d.
Proof. intros H1 H2. unfold ms in H2. rewrite Z.quot_div_nonneg by lia. apply Z.div_lt_upper_bound; lia. Qed.

Lemma left_step d f t1 k s t : left_ d f t1 k s -> t1 <= t ->
  exists k', left_ d f t1 k' (fst (step false s (t, Timer))) /\
    called (map (fun x => (t, x)) (snd (step false s (t, Timer)))) = (if (Nat.leb 3 k && Nat.leb k' 2)%bool then [(f, Normal)] else []) /\
    (k' <= 6)%nat /\ (k <= 2 -> k' <= 2)%nat /\ (t1 + d * ms <= t -> (k' <= pred k)%nat).
Proof.
  intros (T & W & th & TH & F & S & D & K) LE. destruct s as [r c x h w]. cbn in T, W, TH. subst c w h. destruct th as [g b to p]. cbn in F, S, D. subst g b to.
  unfold step. cbn [fst snd thr].
  assert (X : forall e, (Z.quot (t - t1) 1000000 <? d) = e -> t1 + d * ms <= t -> e = false).
  { intros e <- H. apply Z.ltb_ge. apply quot_ge; lia. }
  destruct k as [|[|[|[|[|[|[|]]]]]]]; cbn in K; try (exfalso; exact K); destruct K as (K1 & K2); try (destruct K2 as (e & K2)); subst r p; unfold timer_step; cbn [at_ fst snd].
  - exists 0%nat. split; [|split; [reflexivity|split; [lia|split; [lia|lia]]]]. repeat split. eexists. repeat split.
  - exists 0%nat. split; [|split; [reflexivity|split; [lia|split; [lia|lia]]]]. repeat split. eexists. repeat split.
  - exists 1%nat. split; [|split; [reflexivity|split; [lia|split; [lia|cbn; lia]]]]. repeat split. eexists. repeat split.
  - exists 2%nat. split; [|split; [reflexivity|split; [lia|split; [lia|cbn; lia]]]]. repeat split. eexists. repeat split.
  - cbn [start timeout] in *. destruct (Z.quot (t - t1) 1000000 <? d) eqn:E.
    + exists 6%nat. split; [|split; [reflexivity|split; [lia|split; [lia|]]]]. { repeat split. eexists. repeat split. eexists. reflexivity. }
      intros H. specialize (X _ eq_refl H). discriminate.
    + exists 3%nat. split; [|split; [reflexivity|split; [lia|split; [lia|cbn; lia]]]]. repeat split. eexists. repeat split.
  - exists 4%nat. split; [|split; [reflexivity|split; [lia|split; [lia|cbn; lia]]]]. repeat split. eexists. repeat split.
  - exists 5%nat. split; [|split; [reflexivity|split; [lia|split; [lia|cbn; lia]]]]. repeat split. eexists. repeat split.
Qed.

Lemma left_steps d f t1 ts : forall k s, left_ d f t1 k s -> (k <= 6)%nat -> (forall t, In t ts -> t1 <= t) ->
  exists k', left_ d f t1 k' (fst (exec false s (ticks ts))) /\ (k' <= 6)%nat /\ (k <= 2 -> k' <= 2)%nat /\
    called (snd (exec false s (ticks ts))) = (if (Nat.leb 3 k && Nat.leb k' 2)%bool then [(f, Normal)] else []) /\
    ((forall t, In t ts -> t1 + d * ms <= t) -> (k' <= k - length ts)%nat).
Proof.
  induction ts as [|t ts IH]; intros k s L K LE; cbn [ticks map exec].
  - exists k. split; [exact L|]. split; [exact K|]. split; [auto|]. split; [|cbn; lia].
    destruct (Nat.leb_spec 3 k), (Nat.leb_spec k 2); cbn; auto; lia.
  - destruct (left_step d f t1 k s t L (LE t (or_introl eq_refl))) as (k1 & L1 & C1 & K1 & M1 & D1).
    destruct (step false s (t, Timer)) as (s1, o). cbn [fst snd] in *.
    destruct (IH k1 s1 L1 K1 (fun x H => LE x (or_intror H))) as (k2 & L2 & K2 & M2 & C2 & D2).
    unfold ticks in *. destruct (exec false s1 _) as (s2, l). cbn [fst snd] in *. exists k2.
    split; [exact L2|]. split; [exact K2|]. split; [auto|]. split.
    + rewrite called_app, C1, C2.
      destruct (Nat.leb_spec 3 k), (Nat.leb_spec k1 2), (Nat.leb_spec 3 k1), (Nat.leb_spec k2 2); cbn; auto; lia.
    + intros H. specialize (D1 (H t (or_introl eq_refl))). specialize (D2 (fun x I => H x (or_intror I))). cbn [length]. lia.
Qed.

Lemma forward_app h1 h2 : forward (h1 ++ h2) -> forward h1 /\ forward h2 /\ forall x y, In x h1 -> In y h2 -> fst x <= fst y.
Proof.
  induction h1 as [|e h1 IH]; cbn [app forward]; [intros F; split; [exact Logic.I|split; [exact F|intros ? ? []]]|].
  intros (A & B). destruct (IH B) as (C & D & E). split; [|split; [exact D|]].
  - split; [|exact C]. intros e' H. apply A, in_or_app. auto.
  - intros x y [<-|X] Y; [apply A, in_or_app; auto|auto].
Qed.

Lemma one_round r s : complete r -> forward (events r) -> idle s ->
  idle (fst (exec false s (events r))) /\ called (snd (exec false s (events r))) = [(r_func r, Normal)].
Proof.
  intros (L6 & LL & LT) F I. unfold events in *. rewrite exec_app. cbn [fst snd].
  destruct (started false s (r_time r) (r_func r) (r_start r) I L6) as (u & ->). cbn [fst snd].
  apply forward_app in F. destruct F as (_ & F & _). cbn [ticks map exec] in F |- *. destruct F as (F1 & F2).
  match goal with |- context [step false ?x _] => set (s0 := x) end.
  set (s1 := set_thr s0 {| func := r_func r; start := r_first r; timeout := r_time r; at_ := Check |}).
  assert (ST : step false s0 (r_first r, Timer) = (s1, [])) by reflexivity. rewrite ST. cbn [map fst]. assert (L0 : left_ (r_time r) (r_func r) (r_first r) 5 s1) by (repeat split; eexists; repeat split).
  assert (FE : forall t, In t (r_early r ++ r_late r) -> r_first r <= t).
  { intros t H. exact (F1 (t, Timer) (in_map (fun t => (t, Timer)) _ _ H)). }
  rewrite map_app, exec_app. cbn [fst snd].
  destruct (left_steps _ _ _ (r_early r) _ _ L0 ltac:(lia) (fun t H => FE t (in_or_app _ _ _ (or_introl H)))) as (k1 & L1 & K1 & M1 & C1 & _).
  destruct (left_steps _ _ _ (r_late r) _ _ L1 K1 (fun t H => FE t (in_or_app _ _ _ (or_intror H)))) as (k2 & L2 & K2 & M2 & C2 & D2).
  specialize (D2 LT). assert (k2 = 0%nat) by lia. subst k2. unfold ticks in *. cbn [fst snd]. split.
  - destruct L2 as (T & W & th & TH & _ & _ & _ & R & A). unfold idle, over. rewrite TH, A. auto.
  - cbn [map app]. change ((u, Made (r_time r) (r_func r)) :: (u, Returned) :: ?l) with ([(u, Made (r_time r) (r_func r)); (u, Returned)] ++ l).
    rewrite !called_app, C1, C2. change (Nat.leb 3 5) with true. change (Nat.leb 0 2) with true. rewrite andb_true_r. cbn [andb].
    change (called [(u, Made (r_time r) (r_func r)); (u, Returned)]) with (@nil (Z * result)).
    destruct (Nat.leb_spec k1 2), (Nat.leb_spec 3 k1); cbn; auto; lia.
Qed.

(** A timer that is not periodic, is started again and again, and is left alone until its time is over,
    calls each function it is given, once. *)
Theorem C90_rounds : forall rs, (forall r, In r rs -> complete r) -> forward (flat_map events rs) ->
  called (seen (snd (run (step false) init (flat_map events rs)))) = map (fun r => (r_func r, Normal)) rs.
Proof.
  intros rs C F. pose proof (run_exec false (flat_map events rs)) as E. apply (f_equal snd) in E. cbn [snd] in E. rewrite E. clear E.
  assert (I : idle init) by (repeat split). revert I. generalize init as s.
  induction rs as [|r rs IH]; intros s I; [reflexivity|]. cbn [flat_map map] in *.
  rewrite exec_app. cbn [fst snd]. apply forward_app in F. destruct F as (F1 & F2 & _).
  destruct (one_round r s (C r (or_introl eq_refl)) F1 I) as (I' & CR).
  rewrite called_app, CR, (IH (fun x H => C x (or_intror H)) F2 _ I'). reflexivity.
Qed.

(** *** A timer that is killed *)
Definition kills (d : Z) (b : bool) (s : st) : Prop :=
  (told s = NoCommand \/ told s = KillIt) /\ (who s = Free \/ who s = Asking Kill \/ who s = Telling KillIt None) /\
  exists t, thr s = Some t /\ timeout t = d /\
    (if running s
     then match at_ t with Begin | Check | Look | Switch _ | Calling Normal | Back => b = true -> told s = KillIt | Stop => True | _ => False end
     else match at_ t with Clear | Check | Done => True | _ => False end).

Definition quit (o : list out) : bool := match o with [Returned] => true | _ => false end.
Lemma kills_step periodic d b s e : kills d b s -> snd e = Timer \/ snd e = User Kill ->
  kills d (b || quit (snd (step periodic s e))) (fst (step periodic s e)).
Proof.
  intros (T & W & th & TH & D & K) E. destruct s as [r c x h w]. cbn in T, W, TH, K. subst h. destruct th as [g st to p]. cbn in D, K. subst to.
  destruct e as (t & e). cbn [snd] in E. unfold step. cbn [fst snd thr]. destruct E as [-> | ->].
  - unfold timer_step. destruct p as [| | | |[]| | | | | | | | |]; destruct r; cbn in K |- *; try (exfalso; exact K); try destruct periodic;
      try (destruct (Z.quot _ _ <? d)); cbn; rewrite ?orb_false_r; (split; [tauto|split; [tauto|eexists; split; [reflexivity|split; [reflexivity|]]]]); cbn; auto.
    all: destruct c; cbn; auto; destruct T; try discriminate; auto.
  - unfold user_step. cbn [who]. destruct W as [->|[->| ->]]; cbn; [|destruct r; cbn|];
      (split; [tauto|split; [tauto|eexists; split; [reflexivity|split; [reflexivity|]]]]); cbn; rewrite ?orb_false_r, ?orb_true_r; auto.
    all: destruct r; auto. destruct p as [| | | |[]| | | | | | | | |]; auto.
Qed.

(** The number of steps to the end of a thread that is told to end; [t1] is the first of these steps,
    [N] the last one so far. *)
Definition late_left (d t1 N : Z) (k : nat) (s : st) : Prop :=
  exists t, thr s = Some t /\ timeout t = d /\
    match k with
    | 0%nat => at_ t = Done
    | 1%nat => running s = false /\ at_ t = Check
    | 2%nat => running s = false /\ at_ t = Clear
    | 3%nat => running s = true /\ at_ t = Stop
    | 4%nat => running s = true /\ told s = KillIt /\ exists e, at_ t = Switch e
    | 5%nat => running s = true /\ told s = KillIt /\ at_ t = Look /\ t1 <= start t <= N
    | 6%nat => running s = true /\ told s = KillIt /\ at_ t = Check /\ t1 <= start t <= N
    | 7%nat => running s = true /\ told s = KillIt /\ (at_ t = Begin \/ at_ t = Back)
    | 8%nat => running s = true /\ told s = KillIt /\ at_ t = Calling Normal
    | 9%nat => running s = true /\ told s = KillIt /\ at_ t = Look
    | 10%nat => running s = true /\ told s = KillIt /\ at_ t = Check
    | _ => False
    end.

Ltac next k := exists k; split; [eexists; split; [reflexivity|split; [reflexivity|cbn; eauto 8 with zarith]]|split; [lia|reflexivity]].
Lemma late_step periodic d t1 N k s t : late_left d t1 N k s -> N <= t -> t1 <= t -> t - t1 < d * ms ->
  exists k', late_left d t1 t k' (fst (step periodic s (t, Timer))) /\ (k' <= pred k)%nat /\
    length (called (map (fun x => (t, x)) (snd (step periodic s (t, Timer))))) = (if Nat.eqb k 8 then 1 else 0)%nat.
Proof.
  intros (th & TH & D & K) HN H1 HD. destruct s as [r c x h w]. cbn in TH, K. subst h. destruct th as [g st to p]. cbn in D, K. subst to.
  unfold step. cbn [fst snd thr]. unfold timer_step. cbn [at_].
  destruct k as [|[|[|[|[|[|[|[|[|[|[|]]]]]]]]]]]; try (exfalso; exact K).
  - subst p. next 0%nat.
  - destruct K as (-> & ->). next 0%nat.
  - destruct K as (-> & ->). next 1%nat.
  - destruct K as (-> & ->). next 2%nat.
  - destruct K as (-> & -> & e & ->). next 3%nat.
  - destruct K as (-> & -> & -> & S1 & S2). cbn [start timeout].
    assert (Q : (Z.quot (t - st) 1000000 <? d) = true) by (apply Z.ltb_lt, quot_lt; lia). rewrite Q. next 4%nat.
  - destruct K as (-> & -> & -> & S1 & S2). next 5%nat.
  - destruct K as (-> & -> & [-> | ->]).
    + next 6%nat.
    + destruct periodic; [next 6%nat|next 1%nat].
  - destruct K as (-> & -> & ->). next 7%nat.
  - destruct K as (-> & -> & ->). cbn [start timeout]. destruct (Z.quot (t - st) 1000000 <? d); [next 4%nat|next 8%nat].
  - destruct K as (-> & -> & ->). next 9%nat.
Qed.

Lemma late_steps periodic d t1 ts : forall N k s, late_left d t1 N k s -> forward (ticks ts) ->
  (forall t, In t ts -> N <= t /\ t1 <= t /\ t - t1 < d * ms) ->
  exists k' N', late_left d t1 N' k' (fst (exec periodic s (ticks ts))) /\ (k' <= k - length ts)%nat /\
    (length (called (snd (exec periodic s (ticks ts)))) <= (if Nat.leb 8 k then 1 else 0))%nat.
Proof.
  induction ts as [|t ts IH]; intros N k s L F H; cbn [ticks map exec].
  - exists k, N. split; [exact L|]. split; [cbn; lia|]. cbn. lia.
  - destruct (H t (or_introl eq_refl)) as (H1 & H2 & H3). destruct (late_step periodic d t1 N k s t L H1 H2 H3) as (k1 & L1 & K1 & C1).
    destruct (step periodic s (t, Timer)) as (s1, o). cbn [fst snd] in *. cbn [ticks map forward] in F. destruct F as (F1 & F2).
    destruct (IH t k1 s1 L1 F2) as (k2 & N2 & L2 & K2 & C2).
    { intros y Hy. destruct (H y (or_intror Hy)) as (A & B & C). split; [|auto]. exact (F1 (y, Timer) (in_map (fun t => (t, Timer)) _ _ Hy)). }
    unfold ticks in *. destruct (exec periodic s1 _) as (s2, l). cbn [fst snd length] in *. exists k2, N2. split; [exact L2|]. split; [lia|].
    rewrite called_app, app_length, C1. destruct (Nat.eqb_spec k 8), (Nat.leb_spec 8 k), (Nat.leb_spec 8 k1); lia.
Qed.

Lemma kills_exec periodic d h : forall b s, kills d b s -> (forall e, In e h -> snd e = Timer \/ snd e = User Kill) ->
  kills d (b || existsb (fun x => match snd x with Returned => true | _ => false end) (snd (exec periodic s h))) (fst (exec periodic s h)).
Proof.
  induction h as [|e h IH]; intros b s K H; cbn [exec].
  - cbn. rewrite orb_false_r. exact K.
  - pose proof (kills_step periodic d b s e K (H e (or_introl eq_refl))) as K1.
    assert (Q : existsb (fun x => match snd x with Returned => true | _ => false end) (map (fun x => (fst e, x)) (snd (step periodic s e))) =
                quit (snd (step periodic s e))).
    { destruct K as (T & W & th & TH & D & _). destruct (H e (or_introl eq_refl)) as [E|E]; unfold step; rewrite E.
      - rewrite TH. unfold timer_step. destruct (at_ th); try reflexivity. destruct periodic; reflexivity.
      - unfold user_step. destruct W as [->|[->| ->]]; try reflexivity. destruct (running s); reflexivity. }
    destruct (step periodic s e) as (s1, o). cbn [fst snd] in *. specialize (IH _ s1 K1 (fun x I => H x (or_intror I))).
    destruct (exec periodic s1 h) as (s2, l). cbn [fst snd] in *. rewrite existsb_app, Q, orb_assoc. exact IH.
Qed.

(** A timer that is started once and then killed ends within ten steps if they are made in less time
    than that of the timer, and makes no more than one more call.  Before, steps of the timer and calls
    of KillTimer may alternate in any way. *)
Theorem C90_kill : forall periodic d f us mix late,
  let h := doing (Start d f) us ++ mix in
  let trace h := seen (snd (run (step periodic) init h)) in
  length us = 6%nat -> (forall e, In e mix -> snd e = Timer \/ snd e = User Kill) ->
  forward (h ++ ticks late) ->
  (2 <= length (filter (fun x => match snd x with Returned => true | _ => false end) (trace h)))%nat ->
  (10 <= length late)%nat -> (forall x y, In x late -> In y late -> y - x < d * ms) ->
  over (fst (run (step periodic) init (h ++ ticks late))) = true /\
  (length (called (trace (h ++ ticks late))) <= length (called (trace h)) + 1)%nat.
Proof.
  intros periodic d f us mix late h trace L6 HM F R LL SP. subst h trace. cbn beta in *.
  pose proof (run_exec periodic (doing (Start d f) us ++ mix)) as E1. pose proof (run_exec periodic ((doing (Start d f) us ++ mix) ++ ticks late)) as E2.
  set (r1 := run (step periodic) init (doing (Start d f) us ++ mix)) in *. set (r2 := run (step periodic) init _) in E2 |- *.
  rewrite (exec_app _ (doing (Start d f) us ++ mix)) in E2. rewrite <- E1 in E2. cbn [fst snd] in E2. injection E2 as E2 E3. rewrite E2, E3, called_app, app_length.
  destruct (started periodic init d f us ltac:(repeat split) L6) as (u & S0).
  rewrite exec_app, S0 in E1. cbn [fst snd] in E1. injection E1 as E1 E4.
  match type of E1 with _ = fst (exec _ ?x _) => set (s0 := x) in * end.
  assert (K0 : kills d false s0) by (split; [left; reflexivity|split; [left; reflexivity|eexists; split; [reflexivity|split; [reflexivity|cbn; discriminate]]]]).
  pose proof (kills_exec periodic d mix false s0 K0 HM) as K. cbn [orb] in K. rewrite E4 in R. rewrite <- E1 in K.
  assert (X : existsb (fun x => match snd x with Returned => true | _ => false end) (snd (exec periodic s0 mix)) = true).
  { apply existsb_exists. cbn [filter snd length] in R. destruct (filter _ (snd (exec periodic s0 mix))) as [|y l] eqn:FL; [cbn in R; lia|].
    assert (I : In y (y :: l)) by (left; reflexivity). rewrite <- FL in I. apply filter_In in I. exists y. exact I. }
  rewrite X in K. destruct K as (T & _ & th & TH & D & K).
  destruct late as [|t1 late]; [cbn in LL; lia|]. apply forward_app in F. destruct F as (_ & F & _).
  assert (LE : exists k, (k <= 10)%nat /\ late_left d t1 t1 k (fst r1)).
  { destruct (running (fst r1)) eqn:RN; destruct (at_ th) as [| | | |[]| | | | | | | | |] eqn:P; try (exfalso; exact K); try specialize (K eq_refl).
    - exists 7%nat. split; [lia|]. exists th. rewrite RN, K, P. auto 6.
    - exists 10%nat. split; [lia|]. exists th. rewrite RN, K, P. auto 6.
    - exists 9%nat. split; [lia|]. exists th. rewrite RN, K, P. auto 6.
    - exists 4%nat. split; [lia|]. exists th. rewrite RN, K, P. eauto 8.
    - exists 8%nat. split; [lia|]. exists th. rewrite RN, K, P. auto 6.
    - exists 7%nat. split; [lia|]. exists th. rewrite RN, K, P. auto 7.
    - exists 3%nat. split; [lia|]. exists th. rewrite RN, P. auto 6.
    - exists 1%nat. split; [lia|]. exists th. rewrite RN, P. auto 6.
    - exists 2%nat. split; [lia|]. exists th. rewrite RN, P. auto 6.
    - exists 0%nat. split; [lia|]. exists th. auto 6. }
  destruct LE as (k & K10 & LE).
  destruct (late_steps periodic d t1 (t1 :: late) t1 k (fst r1) LE F) as (k' & N' & L' & K' & C').
  { intros t I. split; [|split; [|apply SP; [left; reflexivity|exact I]]];
    (destruct I as [<-|I]; [lia|]; cbn [ticks map forward] in F; destruct F as (F & _); exact (F (t, Timer) (in_map (fun t => (t, Timer)) _ _ I))). }
  assert (k' = 0%nat) by lia. subst k'. destruct L' as (th' & TH' & _ & A'). split.
  - unfold over. rewrite TH', A'. reflexivity.
  - destruct (Nat.leb 8 k); lia.
Qed.

(** A periodic timer with no time does not look at what it is told: it never ends. *)
Theorem C90_no_time_refuted : forall h, forward h ->
  (forall u d f, In (u, User (Start d f)) h -> d <= 0) ->
  (exists u d f, In (u, Made d f) (seen (snd (run (step true) init h)))) ->
  over (fst (run (step true) init h)) = false /\ who (fst (run (step true) init h)) <> Gone.
Proof.
  intros h F G M.
  assert (I : forall N, (forall e, In e h -> fst e <= N) ->
    let s := fst (run (step true) init h) in
    (match who s with Asking (Start d _) | Again d _ | Joining (Some (d, _)) | Telling _ (Some (Some (d, _))) => d <= 0
                    | Marking d _ => d <= 0 /\ thr s = None | Making d _ => d <= 0 /\ thr s = None /\ running s = true | Gone => thr s = None | _ => True end) /\
    match thr s with
    | None => forall u d f, ~ In (u, Made d f) (seen (snd (run (step true) init h)))
    | Some t => timeout t <= 0 /\ running s = true /\
        match at_ t with Begin => True | Check | Look | Calling Normal | Back => start t <= N | _ => False end
    end).
  { clear M. induction h as [|e h IH] using rev_ind; intros N HN; cbn zeta.
    - cbn. auto.
    - destruct (forward_snoc _ _ F) as (F1 & F2). specialize (IH F1 (fun u d f H => G u d f (in_or_app _ _ _ (or_introl H))) (fst e) F2). cbn zeta in IH.
      assert (EN : fst e <= N) by (apply HN, in_or_app; right; left; reflexivity).
      assert (GE : forall d f, snd e = User (Start d f) -> d <= 0).
      { intros d f H. apply (G (fst e) d f), in_or_app. right. left. destruct e. cbn in *. congruence. }
      rewrite run_snoc. cbn [fst snd]. rewrite seen_snoc. set (r := run (step true) init h) in *. clearbody r. destruct IH as (IW & IT).
      destruct r as (s & l). cbn [fst snd] in *. destruct s as [rn tl ar th w]. cbn [who thr running] in *.
      destruct e as (now & [|c]); unfold step; cbn [fst snd thr] in *.
      + destruct th as [[g st to p]|]; cbn [fst snd]; [|split; [exact IW|rewrite app_nil_r; exact IT]].
        destruct IT as (T0 & -> & P). cbn in T0, P.
        unfold timer_step. destruct p as [| | | |[]| | | | | | | | |]; try (exfalso; exact P); cbn -[Z.quot ms].
        * split; [|lia]. destruct w as [|[]| |? [[(? & ?)|]|]| |[(? & ?)|]| | |]; auto; exfalso; intuition discriminate.
        * split; [|lia]. destruct w as [|[]| |? [[(? & ?)|]|]| |[(? & ?)|]| | |]; auto; exfalso; intuition discriminate.
        * assert (Q : (Z.quot (now - st) 1000000 <? to) = false) by (apply Z.ltb_ge; pose proof (Z.quot_pos (now - st) 1000000); lia). rewrite Q. cbn.
          split; [|lia]. destruct w as [|[]| |? [[(? & ?)|]|]| |[(? & ?)|]| | |]; auto; exfalso; intuition discriminate.
        * split; [|lia]. destruct w as [|[]| |? [[(? & ?)|]|]| |[(? & ?)|]| | |]; auto; exfalso; intuition discriminate.
        * split; [|lia]. destruct w as [|[]| |? [[(? & ?)|]|]| |[(? & ?)|]| | |]; auto; exfalso; intuition discriminate.
      + assert (NM : forall o, (forall d f, ~ In (Made d f) o) -> (forall u d f, ~ In (u, Made d f) (seen l)) -> forall u d f, ~ In (u, Made d f) (seen l ++ map (fun x => (now, x)) o)).
        { intros o H1 H2 u d f H. apply in_app_or in H. destruct H as [H|H]; [exact (H2 _ _ _ H)|]. apply in_map_iff in H. destruct H as (y & E & H). injection E as _ ->. exact (H1 _ _ H). }
        assert (K : forall o, (forall d f, ~ In (Made d f) o) ->
          match th with
          | Some t => timeout t <= 0 /\ rn = true /\ match at_ t with Begin => True | Check | Look | Calling Normal | Back => start t <= N | _ => False end
          | None => forall u d f, ~ In (u, Made d f) (seen l ++ map (fun x => (now, x)) o) end).
        { intros o H. destruct th as [t|]; [|apply NM; auto]. destruct IT as (A & B & C). split; [exact A|]. split; [exact B|]. destruct (at_ t) as [| | | |[]| | | | | | | | |]; auto; lia. }
        unfold user_step, follow. cbn [who running]. destruct w as [|[d f| |d| | |]|x|k [[(d & f)|]|]|d f|[(d & f)|]|d f|d f|]; cbn [fst snd running who thr set_who set_told set_arg set_running].
        * split; [destruct c; auto; eapply GE; reflexivity|apply (K []); intros ? ? []].
        * split; [destruct rn; auto|apply (K []); intros ? ? []].
        * destruct rn; cbn; (split; [exact Logic.I|]); [apply (K []); intros ? ? []|apply (K [Returned]); intros ? ? [?|[]]; discriminate].
        * destruct rn; cbn; (split; [exact Logic.I|]); [apply (K []); intros ? ? []|apply (K [Returned]); intros ? ? [?|[]]; discriminate].
        * destruct rn; cbn; (split; [exact Logic.I|]); [apply (K []); intros ? ? []|apply (K [Returned]); intros ? ? [?|[]]; discriminate].
        * destruct rn; cbn; (split; [exact Logic.I|]); [apply (K []); intros ? ? []|apply (K [Returned]); intros ? ? [?|[]]; discriminate].
        * split; [destruct rn; exact Logic.I|apply (K []); intros ? ? []].
        * split; [exact Logic.I|apply (K []); intros ? ? []].
        * split; [exact IW|apply (K []); intros ? ? []].
        * split; [exact Logic.I|apply (K []); intros ? ? []].
        * split; [exact Logic.I|apply (K [Returned]); intros ? ? [?|[]]; discriminate].
        * split; [destruct rn; exact IW|apply (K []); intros ? ? []].
        * assert (O : over {| running := rn; told := tl; arg := ar; thr := th; who := Joining (Some (d, f)) |} = true -> th = None).
          { unfold over. cbn. destruct th as [t|]; [|auto]. destruct IT as (_ & _ & P). destruct (at_ t) as [| | | |[]| | | | | | | | |]; try discriminate; destruct P. }
          destruct (over _); cbn; [rewrite (O eq_refl) in *; split; [auto|]|split; [exact IW|]]; apply (K []); intros ? ? [].
        * assert (O : over {| running := rn; told := tl; arg := ar; thr := th; who := Joining None |} = true -> th = None).
          { unfold over. cbn. destruct th as [t|]; [|auto]. destruct IT as (_ & _ & P). destruct (at_ t) as [| | | |[]| | | | | | | | |]; try discriminate; destruct P. }
          destruct (over _); cbn; [rewrite (O eq_refl) in *; split; [auto|]; apply (K [Returned]); intros ? ? [?|[]]; discriminate|split; [exact IW|]; apply (K []); intros ? ? []].
        * destruct IW as (D & ->). split; [auto|]. apply (K []). intros ? ? [].
        * destruct IW as (D & _ & RT). split; [exact Logic.I|]. cbn. auto.
        * rewrite IW in *. split; [reflexivity|]. apply (K []). intros ? ? []. }
  assert (B : exists N, forall e, In e h -> fst e <= N).
  { clear. induction h as [|e h (N & H)]; [exists 0; intros e []|]. exists (Z.max N (fst e)). intros x [<-|I]; [lia|specialize (H x I); lia]. }
  destruct B as (N & B). specialize (I N B). cbn zeta in I. destruct I as (IW & IT). set (r := run (step true) init h) in *.
  unfold over. destruct (thr (fst r)) as [t|].
  - destruct IT as (_ & _ & P). split; [destruct (at_ t); auto; destruct P|]. intros E. rewrite E in IW. discriminate.
  - destruct M as (u & d & f & M). destruct (IT _ _ _ M).
Qed.

(** *** What is not so *)

(** A kill can be lost: the thread, about to forget a command to reset the time, forgets it instead.
    KillTimer has returned, no other call is in progress, and the function is called again and again. *)
Definition crossing (f : Z) : list ev :=
  doing (Start 1 f) [0; 0; 0; 0; 0; 0] ++ ticks [0; 0; 0] ++ doing Reset [0; 0; 0] ++ ticks [0; 0] ++ doing Kill [0; 0; 0] ++ ticks [0].
Fixpoint periods (t : Z) (n : nat) : list Z :=
  match n with O => [] | S n' => [t + ms; t + ms; t + ms; t + ms] ++ periods (t + ms) n' end.
Lemma periods_forward t n : forward (ticks (periods t n)) /\ forall x, In x (periods t n) -> t <= x.
Proof.
  revert t. induction n as [|n IH]; intros t; [split; [exact Logic.I|intros x []]|].
  destruct (IH (t + ms)) as (A & B). unfold ms in *.
  assert (C : forall e, In e (ticks (periods (t + 1000000) n)) -> t + 1000000 <= fst e).
  { intros e H. unfold ticks in H. apply in_map_iff in H. destruct H as (x & <- & H). cbn. auto. }
  split.
  - cbn [periods ticks map app forward fst]. unfold ms. repeat (split; [intros e H; cbn [In] in H; repeat (destruct H as [<-|H]; [cbn; lia|]); apply C; exact H|]).
    exact A.
  - cbn [periods app]. unfold ms. intros x [<-|[<-|[<-|[<-|H]]]]; try lia. specialize (B x H). lia.
Qed.
Lemma periods_calls f n : forall t,
  called (snd (exec true {| running := true; told := NoCommand; arg := 0; thr := Some {| func := f; start := t; timeout := 1; at_ := Check |}; who := Free |}
    (ticks (periods t n)))) = repeat (f, Normal) n.
Proof.
  induction n as [|n IH]; intros t; [reflexivity|]. cbn [periods]. unfold ticks. rewrite map_app, exec_app. cbn [snd]. rewrite called_app.
  assert (E : exec true {| running := true; told := NoCommand; arg := 0; thr := Some {| func := f; start := t; timeout := 1; at_ := Check |}; who := Free |}
    (map (fun t => (t, Timer)) [t + ms; t + ms; t + ms; t + ms]) =
    ({| running := true; told := NoCommand; arg := 0; thr := Some {| func := f; start := t + ms; timeout := 1; at_ := Check |}; who := Free |}, [(t + ms, Called f Normal)])).
  { cbn -[Z.quot Z.add Z.sub ms]. unfold timer_step. cbn -[Z.quot Z.add Z.sub ms]. replace (t + ms - t) with ms by lia. reflexivity. }
  rewrite E. cbn [fst snd]. unfold ticks in IH. rewrite IH. reflexivity.
Qed.
Lemma crossing_after f : fst (run (step true) init (crossing f)) =
  {| running := true; told := NoCommand; arg := 0; thr := Some {| func := f; start := 0; timeout := 1; at_ := Check |}; who := Free |}.
Proof. vm_compute. reflexivity. Qed.
Lemma crossing_called f : called (seen (snd (run (step true) init (crossing f)))) = [].
Proof. vm_compute. reflexivity. Qed.
Theorem C90_kill_refuted : forall f n, exists ts,
  let h := crossing f ++ ticks ts in
  forward h /\ who (fst (run (step true) init (crossing f))) = Free /\
  called (seen (snd (run (step true) init (crossing f)))) = [] /\
  called (seen (snd (run (step true) init h))) = repeat (f, Normal) n.
Proof.
  intros f n. exists (periods 0 n). cbn zeta. split; [|split; [rewrite crossing_after; reflexivity|split; [apply crossing_called|]]].
  - assert (A : forall h k, forward k -> (forall e, In e h -> fst e = 0) -> (forall e, In e k -> 0 <= fst e) -> forward (h ++ k)).
    { intros h k Fk Z0 P. induction h as [|e h IH]; [exact Fk|]. cbn [app forward]. split.
      - intros e' H. rewrite (Z0 e (or_introl eq_refl)). apply in_app_or in H. destruct H as [H|H]; [rewrite (Z0 e' (or_intror H)); lia|auto].
      - apply IH. intros x H. apply Z0. right. exact H. }
    destruct (periods_forward 0 n) as (F & B). apply A; [exact F| |].
    + cbn. intros e H. repeat (destruct H as [<-|H]; [reflexivity|]). destruct H.
    + intros e H. unfold ticks in H. apply in_map_iff in H. destruct H as (x & <- & H). cbn. auto.
  - destruct (run_then true (crossing f) (ticks (periods 0 n)) _ (crossing_after f)) as (_ & E2). rewrite E2, called_app, crossing_called. apply periods_calls.
Qed.

(** A kill that comes when the time is just over stays behind: the timer that is started next, and left
    alone, ends without a call. *)
Definition too_late (f : Z) : list ev :=
  doing (Start 1 f) [0; 0; 0; 0; 0; 0] ++ ticks [0; ms; ms; ms] ++ doing Kill [ms; ms] ++ ticks [ms; ms] ++ doing Kill [ms].
Definition anew (d g : Z) : list ev := doing (Start d g) [ms; ms; ms; ms; ms; ms] ++ ticks [ms; ms; ms; ms; ms; ms; ms].
Lemma too_late_after f : fst (run (step false) init (too_late f)) =
  {| running := false; told := KillIt; arg := 0; thr := Some {| func := f; start := 0; timeout := 1; at_ := Done |}; who := Free |}.
Proof. vm_compute. reflexivity. Qed.
Lemma too_late_called f : called (seen (snd (run (step false) init (too_late f)))) = [(f, Normal)].
Proof. vm_compute. reflexivity. Qed.
Lemma anew_exec d f g : 0 < d ->
  exec false {| running := false; told := KillIt; arg := 0; thr := Some {| func := f; start := 0; timeout := 1; at_ := Done |}; who := Free |} (anew d g) =
  ({| running := false; told := NoCommand; arg := 0; thr := Some {| func := g; start := ms; timeout := d; at_ := Done |}; who := Free |},
   [(ms, Made d g); (ms, Returned)]).
Proof. intros D. destruct d as [|p|p]; try lia. vm_compute. reflexivity. Qed.
Lemma forward_two h k a b : a <= b -> (forall e, In e h -> fst e = a) -> (forall e, In e k -> fst e = b) -> forward (h ++ k).
Proof.
  intros AB A B. assert (C : forall l c, (forall e, In e l -> fst e = c) -> forward l).
  { induction l as [|e l IH]; intros c H; [exact Logic.I|]. split.
    - intros e' I. rewrite (H e (or_introl eq_refl)), (H e' (or_intror I)). lia.
    - apply (IH c). intros x I. apply H. right. exact I. }
  induction h as [|e h IH]; [exact (C k b B)|]. cbn [app forward]. split.
  - intros e' I. rewrite (A e (or_introl eq_refl)). apply in_app_or in I. destruct I as [I|I]; [rewrite (A e' (or_intror I)); lia|rewrite (B e' I); exact AB].
  - apply IH. intros x I. apply A. right. exact I.
Qed.
Lemma times_ticks c ts : (forall t, In t ts -> t = c) -> forall e, In e (ticks ts) -> fst e = c.
Proof. intros H e I. unfold ticks in I. apply in_map_iff in I. destruct I as (t & <- & I). exact (H t I). Qed.
Lemma times_doing c k ts : (forall t, In t ts -> t = c) -> forall e, In e (doing k ts) -> fst e = c.
Proof. intros H e I. unfold doing in I. apply in_map_iff in I. destruct I as (t & <- & I). exact (H t I). Qed.
Lemma too_late_forward d f g : forward (too_late f ++ anew d g).
Proof.
  assert (R : forall t, In t [ms; ms; ms; ms; ms; ms; ms] -> t = ms) by (intros t H; repeat (destruct H as [H|H]; [auto|]); destruct H).
  assert (E : too_late f ++ anew d g =
    (doing (Start 1 f) [0; 0; 0; 0; 0; 0] ++ ticks [0]) ++
    (ticks [ms; ms; ms] ++ doing Kill [ms; ms] ++ ticks [ms; ms] ++ doing Kill [ms] ++ doing (Start d g) [ms; ms; ms; ms; ms; ms] ++ ticks [ms; ms; ms; ms; ms; ms; ms])) by reflexivity.
  rewrite E. apply (forward_two _ _ 0 ms); [unfold ms; lia| |]; intros e H.
  - apply in_app_or in H. destruct H as [H|H]; [eapply times_doing|eapply times_ticks]; try exact H; cbn; intuition lia.
  - repeat (apply in_app_or in H; destruct H as [H|H]); [eapply times_ticks|eapply times_doing|eapply times_ticks|eapply times_doing|eapply times_doing|eapply times_ticks]; try exact H; intros t I; apply R; cbn in I |- *; tauto.
Qed.
Theorem C90_left_behind_refuted : forall d f g, 0 < d ->
  forward (too_late f ++ anew d g) /\
  called (seen (snd (run (step false) init (too_late f)))) = [(f, Normal)] /\
  seen (snd (run (step false) init (too_late f ++ anew d g))) =
    seen (snd (run (step false) init (too_late f))) ++ [(ms, Made d g); (ms, Returned)] /\
  over (fst (run (step false) init (too_late f ++ anew d g))) = true.
Proof.
  intros d f g D. split; [apply too_late_forward|]. split; [apply too_late_called|].
  destruct (run_then false (too_late f) (anew d g) _ (too_late_after f)) as (E1 & E2). rewrite (anew_exec d f g D) in E1, E2.
  split; [exact E2|]. rewrite E1. reflexivity.
Qed.

(** A start while the timer runs neither cancels it nor replaces the function: the first one is called,
    and the second never. *)
Theorem C90_restart_refuted : forall f g,
  let h := doing (Start 10 f) [0; 0; 0; 0; 0; 0] ++ ticks [0; 0] ++ doing (Start 20 g) [0; 0; 0; 0; 0] ++
           ticks [0; 0; 0; 0; 0; 0; 0; 30 * ms; 30 * ms; 30 * ms; 30 * ms] in
  forward h /\ seen (snd (run (step false) init h)) = [(0, Made 10 f); (0, Returned); (0, Returned); (30 * ms, Called f Normal)] /\
  who (fst (run (step false) init h)) = Free /\ over (fst (run (step false) init h)) = true.
Proof.
  intros f g. cbn zeta. split; [|repeat split; vm_compute; reflexivity].
  cbn. unfold ms. repeat (split; [intros e H; repeat (destruct H as [<-|H]; [cbn; lia|]); destruct H|]). exact Logic.I.
Qed.

(** An extension of a periodic timer that is about to fire makes its period shorter from then on. *)
Theorem C90_period_refuted : forall f,
  let h := doing (Start 1000 f) [0; 0; 0; 0; 0; 0] ++ ticks [0; 0] ++ doing (Extend 200) [900 * ms; 900 * ms; 900 * ms; 900 * ms] ++
           ticks [900 * ms; 900 * ms; 900 * ms; 900 * ms; 900 * ms; 900 * ms; 1100 * ms; 1100 * ms; 1100 * ms; 1100 * ms;
                  1300 * ms; 1300 * ms; 1300 * ms; 1300 * ms; 1500 * ms; 1500 * ms; 1500 * ms] in
  forward h /\ seen (snd (run (step true) init h)) =
    [(0, Made 1000 f); (0, Returned); (900 * ms, Returned); (1100 * ms, Called f Normal); (1300 * ms, Called f Normal); (1500 * ms, Called f Normal)].
Proof.
  intros f. cbn zeta. split; [|vm_compute; reflexivity].
  cbn. unfold ms. repeat (split; [intros e H; repeat (destruct H as [<-|H]; [cbn; lia|]); destruct H|]). exact Logic.I.
Qed.

(** *** Cases *)
Definition two : list round :=
  [{| r_start := [0; 0; 0; 0; 0; 0]; r_time := 5; r_func := 1; r_first := 0; r_early := [1; 2; 3; ms; 2 * ms; 3 * ms]; r_late := repeat (5 * ms) 6 |};
   {| r_start := repeat (6 * ms) 6; r_time := 0; r_func := 2; r_first := 7 * ms; r_early := []; r_late := repeat (7 * ms) 8 |}].
Example C90_rounds_case : (forall r, In r two -> complete r) /\ forward (flat_map events two) /\
  called (seen (snd (run (step false) init (flat_map events two)))) = [(1, Normal); (2, Normal)].
Proof.
  split; [|split; [|vm_compute; reflexivity]].
  - intros r [<-|[<-|[]]]; (split; [reflexivity|split; [cbn; lia|]]); cbn; unfold ms; intros t H; repeat (destruct H as [<-|H]; [lia|]); destruct H.
  - cbn. unfold ms. repeat (split; [intros e H; repeat (destruct H as [<-|H]; [cbn; lia|]); destruct H|]). exact Logic.I.
Qed.

(** Killed while the function is about to be called. *)
Definition killed : list ev :=
  ticks [0; 3 * ms; 3 * ms] ++ doing Kill [3 * ms; 3 * ms] ++ ticks [3 * ms; 3 * ms; 3 * ms] ++ doing Kill [3 * ms].
Example C90_kill_case :
  let h := doing (Start 3 1) [0; 0; 0; 0; 0; 0] ++ killed in
  forward (h ++ ticks (repeat (4 * ms) 10)) /\
  (forall e, In e killed -> snd e = Timer \/ snd e = User Kill) /\
  (2 <= length (filter (fun x => match snd x with Returned => true | _ => false end) (seen (snd (run (step true) init h)))))%nat /\
  called (seen (snd (run (step true) init h))) = [(1, Normal)] /\
  called (seen (snd (run (step true) init (h ++ ticks (repeat (4 * ms) 10))))) = [(1, Normal)] /\
  over (fst (run (step true) init (h ++ ticks (repeat (4 * ms) 10)))) = true.
Proof.
  cbn zeta. split; [|split; [|split; [vm_compute; lia|repeat split; vm_compute; reflexivity]]].
  - cbn. unfold ms. repeat (split; [intros e H; repeat (destruct H as [<-|H]; [cbn; lia|]); destruct H|]). exact Logic.I.
  - cbn. intros e H. repeat (destruct H as [<-|H]; [cbn; auto|]). destruct H.
Qed.

Example C90_no_time_case :
  let h := doing (Start 0 1) [0; 0; 0; 0; 0; 0] ++ ticks [1; 1; 1; 1; 1; 1] ++ doing Kill [2; 2; 2] in
  forward h /\ (forall u d f, In (u, User (Start d f)) h -> d <= 0) /\ In (0, Made 0 1) (seen (snd (run (step true) init h))).
Proof.
  cbn zeta. split; [|split].
  - cbn. repeat (split; [intros e H; repeat (destruct H as [<-|H]; [cbn; lia|]); destruct H|]). exact Logic.I.
  - cbn. intros u d f H. repeat (destruct H as [H|H]; [injection H; intros; subst; lia || discriminate|]). destruct H.
  - vm_compute. auto.
Qed.

Print Assumptions C90_rounds.
Print Assumptions C90_kill.
Print Assumptions C90_no_time_refuted.
Print Assumptions C90_kill_refuted.
Print Assumptions C90_left_behind_refuted.
Print Assumptions C90_restart_refuted.
Print Assumptions C90_period_refuted.

(** C90: what a callback timer calls, and when. *)
From Coq Require Import List ZArith Bool Lia.
From Verif Require Import Run CallbackModel CallbackSpec CallbackProofs.
Import ListNotations.
Open Scope list_scope.
Open Scope Z_scope.

Lemma seen_split periodic h a x c : seen (snd (run (step periodic) init h)) = a ++ x :: c ->
  exists h1 e h2 o1 o2, h = h1 ++ e :: h2 /\ snd (step periodic (fst (run (step periodic) init h1)) e) = o1 ++ snd x :: o2 /\
    fst x = fst e /\ a = seen (snd (run (step periodic) init h1)) ++ map (fun o => (fst e, o)) o1.
Proof.
  revert c. induction h as [|e h IH] using rev_ind; intros c E.
  - destruct a; discriminate.
  - rewrite run_snoc in E. cbn [snd] in E. rewrite seen_snoc in E.
    assert (D : (exists c', seen (snd (run (step periodic) init h)) = a ++ x :: c') \/
                exists l, a = seen (snd (run (step periodic) init h)) ++ l /\
                  map (fun o => (fst e, o)) (snd (step periodic (fst (run (step periodic) init h)) e)) = l ++ x :: c).
    { remember (seen (snd (run (step periodic) init h))) as A. remember (map _ _) as B. clear -E.
      revert a E. induction A as [|y A IH]; intros a E.
      - right. exists a. auto.
      - destruct a as [|z a]; cbn [app] in E; injection E as E1 E2.
        + left. exists A. cbn. congruence.
        + destruct (IH _ E2) as [(c' & ->)|(l & -> & E3)]; subst z; [left; exists c'; reflexivity|right; exists l; auto]. }
    destruct D as [(c' & E')|(l & -> & E')].
    + destruct (IH _ E') as (h1 & e1 & h2 & o1 & o2 & -> & H). exists h1, e1, (h2 ++ [e]), o1, o2.
      split; [rewrite <- app_assoc; reflexivity|exact H].
    + apply map_eq_app in E'. destruct E' as (o1 & o2 & E1 & <- & E2). destruct o2 as [|o o2]; [discriminate|].
      cbn [map] in E2. injection E2 as <- _. exists h, e, [], o1, o2. auto.
Qed.

(** A call comes from the thread of the timer, alone. *)
Lemma call_step periodic s e o1 f r o2 : snd (step periodic s e) = o1 ++ Called f r :: o2 ->
  o1 = [] /\ o2 = [] /\ snd e = Timer /\ exists t, thr s = Some t /\ at_ t = Calling r.
Proof.
  assert (U : forall c, ~ In (Called f r) (snd (user_step s c))).
  { intros c. unfold user_step, follow. destruct (who s) as [|[]| |? []| |[(? & ?)|]| | |]; cbn;
    repeat match goal with |- context [if ?b then _ else _] => destruct b; cbn end; intuition discriminate. }
  destruct e as (now & [|c]); unfold step; cbn [snd fst].
  - destruct (thr s) as [t|]; [|destruct o1; discriminate]. unfold timer_step. destruct (at_ t) eqn:P; cbn [snd]; intros E;
      try (destruct o1; discriminate).
    + destruct o1 as [|? [|]]; try discriminate. injection E as _ <- <-. repeat split. exists t. auto.
    + destruct periodic; destruct o1; discriminate.
  - intros E. destruct (U c). rewrite E. apply in_or_app. right. left. reflexivity.
Qed.

Lemma given_bound (h : list ev) : exists m, forall t c, In (t, User c) h -> given m c.
Proof.
  induction h as [|(t & w) h (m & H)]; [exists 0; intros t c []|].
  assert (M : exists k, match w with User c => given k c | Timer => True end).
  { destruct w as [|[d f| |d| | |]]; try (exists 0; exact Logic.I).
    - exists (Z.min d (d mod 4294967296)). cbn. lia.
    - exists (d mod 4294967296). cbn. lia. }
  destruct M as (k & M). exists (Z.min m k). intros t' c [E|I].
  - injection E as _ ->. destruct c; cbn in *; try exact Logic.I; lia.
  - specialize (H _ _ I). destruct c; cbn in *; try exact Logic.I; lia.
Qed.

Section C90.
  Context (periodic : bool).
  Let after (h : list ev) : st := fst (run (step periodic) init h).
  Let trace (h : list ev) : list (Z * out) := seen (snd (run (step periodic) init h)).

  Lemma call_works m h a t f r c : forward h -> (forall u k, In (u, User k) h -> given m k) ->
    trace h = a ++ (t, Called f r) :: c ->
    exists s th t0 d b, works periodic m (a ++ [(t, Called f r)]) s th t t0 d (b ++ [(t, Called f r)]) /\ func th = f /\ made a t0 d f b.
  Proof.
    intros F G E. destruct (seen_split _ _ _ _ _ E) as (h1 & e & h2 & o1 & o2 & -> & O & ET & EA). cbn [fst snd] in *.
    destruct (call_step _ _ _ _ _ _ _ O) as (-> & -> & T & th & TH & PC). cbn [app map] in *. rewrite app_nil_r in EA.
    assert (F' : forward (h1 ++ [e])).
    { clear -F. induction h1 as [|x h1 IH]; cbn [app forward] in *; [split; [intros ? []|exact Logic.I]|].
      destruct F as (A & B). split; [|auto]. intros e' H. apply A. apply in_app_or in H. apply in_or_app.
      destruct H as [H|[<-|[]]]; [auto|right; left; reflexivity]. }
    destruct (forward_snoc _ _ F') as (_ & LE).
    pose proof (run_good periodic m (h1 ++ [e]) F') as R.
    specialize (R (fun u k H => G u k ltac:(apply in_app_or in H; apply in_or_app; destruct H as [H|[<-|[]]]; [auto|right; left; reflexivity])) (fst e)).
    specialize (R ltac:(intros x H; apply in_app_or in H; destruct H as [H|[<-|[]]]; [auto|lia])).
    rewrite run_snoc in R. cbn [fst snd] in R. rewrite seen_snoc, O in R. cbn [map] in R. rewrite <- EA, <- ET in R.
    pose proof (G_thr _ _ _ _ _ R) as W. unfold step in W at 1. rewrite T, TH in W. unfold timer_step in W. rewrite PC in W. cbn [fst thr set_thr] in W.
    destruct W as (t0 & d & b & W). destruct (W_made _ _ _ _ _ _ _ _ _ W) as (a0 & E1 & NM).
    destruct b as [|y b _] using rev_ind.
    - exfalso. apply (f_equal (@rev _)) in E1. rewrite !rev_app_distr in E1. cbn in E1. discriminate.
    - assert (EY : y = (t, Called f r) /\ a = a0 ++ (t0, Made d (func th)) :: b).
      { change ((t0, Made d (func (go th (match r with Normal => Back | Cancelled => Stop end)))) :: b ++ [y]) with (((t0, Made d (func th)) :: b) ++ [y]) in E1.
        rewrite app_assoc in E1. apply app_inj_tail in E1. destruct E1 as (E1 & <-). auto. }
      destruct EY as (-> & EA2).
      assert (FN : f = func th). { apply (W_func _ _ _ _ _ _ _ _ _ W (t, Called f r) ltac:(apply in_or_app; right; left; reflexivity) f r eq_refl). }
      eexists _, _, t0, d, b. split; [exact W|]. cbn [func go]. split; [auto|].
      exists a0. split; [rewrite FN; exact EA2|]. intros z Hz. apply NM, in_or_app. auto.
  Qed.

  (** Whatever is called when: the function that is called is the one given when the thread at work was
      made.  It is never called before the time given then is over.  A timer that is not periodic calls
      it at most once, and nothing is called after a cancellation, until the timer is started anew. *)
  Theorem C90_calls : forall h a t f r c, forward h -> trace h = a ++ (t, Called f r) :: c ->
    exists t0 d b, made a t0 d f b /\
      (r = Normal -> t0 + d * ms <= t \/ exists x, In x b /\ calls x) /\
      (periodic = false -> forall x, In x b -> ~ calls x) /\
      (forall x f', In x b -> snd x <> Called f' Cancelled).
  Proof.
    intros h a t f r c F E. destruct (given_bound h) as (m & G).
    destruct (call_works m h a t f r c F G E) as (s & th & t0 & d & b & W & FN & M).
    exists t0, d, b. split; [exact M|]. split; [|split].
    - intros ->. assert (D : (exists x, In x b /\ calls x) \/ forall x, In x b -> ~ calls x).
      { clear. induction b as [|[y o] b IH]; [right; intros x []|]. destruct IH as [(x & I & C)|N]; [left; exists x; cbn; auto|].
        destruct o as [g r| |]; [left; exists (y, Called g r); split; [left; reflexivity|exists g, r; reflexivity]| |];
        right; intros x [<-|I]; auto; intros (g & r & E); discriminate. }
      destruct D as [D|D]; [auto|]. left. exact (W_first _ _ _ _ _ _ _ _ _ W b (t, Called f Normal) [] f eq_refl eq_refl D).
    - intros P x Hx C. destruct (in_split _ _ Hx) as (b1 & b2 & ->).
      apply (W_once _ _ _ _ _ _ _ _ _ W P b1 x b2 (t, Called f r) []); [rewrite <- app_assoc; reflexivity|exact C|exists f, r; reflexivity].
    - intros x g Hx EX.
      (* the state before the call *)
      destruct (seen_split _ _ _ _ _ E) as (h1 & e & h2 & o1 & o2 & -> & O & ET & EA). cbn [fst snd] in *.
      destruct (call_step _ _ _ _ _ _ _ O) as (-> & -> & T & th' & TH & PC). cbn [app map] in *. rewrite app_nil_r in EA.
      assert (F1 : forward h1).
      { clear -F. induction h1 as [|y h1 IH]; cbn [app forward] in *; [exact Logic.I|]. destruct F as (A & B). split; [|auto]. intros e' H. apply A, in_or_app. auto. }
      assert (F2 : forall y, In y h1 -> fst y <= fst e).
      { clear -F. induction h1 as [|y h1 IH]; cbn [app forward] in *; [intros ? []|]. destruct F as (A & B). intros z [<-|I]; [apply A, in_or_app; right; left; reflexivity|auto]. }
      pose proof (run_good periodic m h1 F1 (fun u k H => G u k ltac:(apply in_or_app; auto)) (fst e) F2) as R.
      pose proof (G_thr _ _ _ _ _ R) as W'. rewrite TH in W'. destruct W' as (t0' & d' & b' & W'). rewrite <- EA in W'.
      assert (EB : b' = b).
      { destruct M as (a0 & M1 & M2). destruct (W_made _ _ _ _ _ _ _ _ _ W') as (a1 & M3 & M4). rewrite M1 in M3. clear -M2 M3 M4.
        revert b' M3 M4. induction b as [|y b IH] using rev_ind; intros b' M3 M4.
        - destruct b' as [|z b' _] using rev_ind; [reflexivity|].
          change ((t0', Made d' (func th')) :: b' ++ [z]) with (((t0', Made d' (func th')) :: b') ++ [z]) in M3. rewrite app_assoc in M3.
          apply app_inj_tail in M3. destruct M3 as (_ & <-). destruct (M4 (t0, Made d f)); [apply in_or_app; right; left; reflexivity|exists d, f; reflexivity].
        - change ((t0, Made d f) :: b ++ [y]) with (((t0, Made d f) :: b) ++ [y]) in M3. rewrite app_assoc in M3.
          destruct b' as [|z b' _] using rev_ind.
          + apply app_inj_tail in M3. destruct M3 as (_ & ->). destruct (M2 (t0', Made d' (func th'))); [apply in_or_app; right; left; reflexivity|exists d', (func th'); reflexivity].
          + change ((t0', Made d' (func th')) :: b' ++ [z]) with (((t0', Made d' (func th')) :: b') ++ [z]) in M3. rewrite app_assoc in M3.
            apply app_inj_tail in M3. destruct M3 as (M3 & ->). f_equal. apply IH; auto.
            * intros x H. apply M2, in_or_app. auto.
            * intros x H. apply M4, in_or_app. auto. }
      subst b'. assert (L : live (running (fst (run (step periodic) init h1))) (at_ th')) by (rewrite PC; exact Logic.I).
      pose proof (W_normal _ _ _ _ _ _ _ _ _ W' (or_introl L) x Hx g Cancelled EX). discriminate.
  Qed.

  (** Two calls, of a thread, because its time is over are apart by the least time that was given to the
      timer in any call. *)
  Theorem C90_gap : forall m h a t f c, forward h ->
    (forall u d g, In (u, User (Start d g)) h -> m <= d /\ m <= d mod 2 ^ 32) ->
    (forall u d, In (u, User (Extend d)) h -> m <= d mod 2 ^ 32) ->
    trace h = a ++ (t, Called f Normal) :: c ->
    exists t0 d b, made a t0 d f b /\ forall x, In x b -> calls x -> fst x + m * ms <= t.
  Proof.
    intros m h a t f c F G1 G2 E.
    assert (G : forall u k, In (u, User k) h -> given m k).
    { intros u [d g| |d| | |] I; cbn; try exact Logic.I; [exact (G1 _ _ _ I)|exact (G2 _ _ I)]. }
    destruct (call_works m h a t f Normal c F G E) as (s & th & t0 & d & b & W & FN & M).
    exists t0, d, b. split; [exact M|]. intros x Hx C. destruct (in_split _ _ Hx) as (b1 & b2 & ->).
    refine (W_gap _ _ _ _ _ _ _ _ _ W b1 x b2 (t, Called f Normal) [] f _ C eq_refl). rewrite <- app_assoc. reflexivity.
  Qed.

  (** A call for a cancellation comes after one was asked for. *)
  Theorem C90_cancelled : forall h a t f c, forward h -> trace h = a ++ (t, Called f Cancelled) :: c ->
    exists u, In (u, User Cancel) h /\ u <= t.
  Proof.
    intros h a t f c F E. destruct (seen_split _ _ _ _ _ E) as (h1 & e & h2 & o1 & o2 & -> & O & ET & _). cbn [fst snd] in *.
    destruct (call_step _ _ _ _ _ _ _ O) as (_ & _ & _ & th & TH & PC).
    assert (F2 : forall y, In y h1 -> fst y <= fst e).
    { clear -F. induction h1 as [|y h1 IH]; cbn [app forward] in *; [intros ? []|]. destruct F as (A & B). intros z [<-|I]; [apply A, in_or_app; right; left; reflexivity|auto]. }
    assert (I : forall h, let s := fst (run (step periodic) init h) in
      (told s = CancelIt \/ who s = Asking Cancel \/ (exists n, who s = Telling CancelIt n) \/ (exists t, thr s = Some t /\ at_ t = Calling Cancelled)) ->
      exists u, In (u, User Cancel) h).
    { clear. intros h. induction h as [|e h IH] using rev_ind; cbn zeta.
      - cbn. intros [H|[H|[(? & H)|(? & H & _)]]]; discriminate.
      - rewrite run_snoc. cbn [fst]. cbn zeta in IH. set (s := fst (run (step periodic) init h)) in *. clearbody s. intros H.
        assert (D : (told s = CancelIt \/ who s = Asking Cancel \/ (exists n, who s = Telling CancelIt n) \/ (exists t, thr s = Some t /\ at_ t = Calling Cancelled)) \/ snd e = User Cancel).
        { destruct e as (now & [|c]); unfold step in H; cbn [fst snd] in *.
          - destruct (thr s) as [t|] eqn:T; [|cbn in H; rewrite T in H; tauto]. unfold timer_step in H.
            destruct (at_ t) eqn:P; try destruct periodic; try (destruct (told s) eqn:K); cbn in H;
            repeat match type of H with context [if ?b then _ else _] => destruct b; cbn in H end;
            destruct H as [H|[H|[H|(t' & H1 & H2)]]]; try (injection H1 as <-; cbn in H2); try discriminate; eauto 8; try tauto.
            all: try (destruct r; discriminate). all: try (rewrite T in H1; injection H1 as ->; rewrite P in H2; discriminate). all: try (exfalso; congruence).
          - unfold user_step, follow in H.
            destruct (who s) as [|[]| |k []| |[(? & ?)|]| | |] eqn:P; cbn in H;
            repeat match type of H with context [if ?b then _ else _] => destruct b; cbn in H end;
            destruct H as [H|[H|[(n & H)|(t' & H1 & H2)]]]; try (injection H1 as <-; cbn in H2); try discriminate; subst; eauto 8.
            all: try (injection H as -> ->). all: try (injection H as ->). all: eauto 8. all: exfalso; congruence. }
        destruct D as [D|D].
        + destruct (IH D) as (u & Hu). exists u. apply in_or_app. auto.
        + destruct e as (now & w). cbn in D. subst w. exists now. apply in_or_app. right. left. reflexivity. }
    destruct (I h1) as (u & Hu); [right; right; right; exists th; auto|].
    exists u. split; [apply in_or_app; auto|]. specialize (F2 _ Hu). cbn in F2. lia.
  Qed.
End C90.

(** *** A case *)
(** A periodic timer of 2 ms that is extended by 3 ms, fires, and is cancelled. *)
Definition flow : list ev :=
  map (fun t => (t, User (Start 2 7))) [0; 0; 0; 0; 0; 0] ++ map (fun t => (t, Timer)) [1; 1] ++
  map (fun t => (t, User (Extend 3))) [2; 2; 2; 2] ++ map (fun t => (t, Timer)) [3; 3; 3; 3; 3; 3; 3; 5 * ms; 5 * ms; 5 * ms] ++
  map (fun t => (t, User Cancel)) [6 * ms; 6 * ms; 6 * ms] ++ map (fun t => (t, Timer)) (repeat (7 * ms) 8).
Example C90_flow_case : forward flow /\
  seen (snd (run (step true) init flow)) =
    [(0, Made 2 7); (0, Returned); (2, Returned); (5 * ms, Called 7 Normal); (6 * ms, Returned); (7 * ms, Called 7 Cancelled)] /\
  (forall u d g, In (u, User (Start d g)) flow -> 2 <= d /\ 2 <= d mod 2 ^ 32) /\
  (forall u d, In (u, User (Extend d)) flow -> 2 <= d mod 2 ^ 32).
Proof.
  split; [|split; [reflexivity|split]].
  - cbn. unfold ms. repeat (split; [intros e H; repeat (destruct H as [<-|H]; [cbn; lia|]); destruct H|]). exact Logic.I.
  - intros u d g H. cbn in H. repeat (destruct H as [H|H]; [try discriminate; injection H; intros; subst; vm_compute; split; discriminate|]). destruct H.
  - intros u d H. cbn in H. repeat (destruct H as [H|H]; [try discriminate; injection H; intros; subst; vm_compute; discriminate|]). destruct H.
Qed.

Print Assumptions C90_calls.
Print Assumptions C90_gap.
Print Assumptions C90_cancelled.

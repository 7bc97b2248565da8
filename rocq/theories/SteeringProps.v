(** C67: the steering service flies its vehicle along the waypoints of the mission, in their order. *)
From Coq Require Import List ZArith Bool Lia Relations.
From Verif Require Import Run Latest ZMap SteeringModel SteeringSpec SteeringProofs.
Import ListNotations.
Open Scope list_scope.
Open Scope Z_scope.

(** The mission for the vehicle a message brings, and when. *)
Definition brings (vehicle : Z) (e : ev) : option (Z * mission) :=
  match e with
  | Mission now m => if m_vehicle m =? vehicle then Some (now, m) else None
  | Automation now ms => option_map (pair now) (find (fun m => m_vehicle m =? vehicle) ms)
  | _ => None
  end.

(** The waypoint numbers reported. *)
Definition reported (l : list out) : list Z :=
  flat_map (fun o => match o with Report _ _ n _ => [n] | _ => [] end) l.

(** From waypoint number [a] the mission leads to number [b], and the numbers of [l] are reached one
    after the other. *)
Definition leads (ws : list wp) (a b : Z) : Prop :=
  exists w w', numbered ws a w /\ follows ws w w' /\ w_num w' = b.
Inductive along (ws : list wp) : Z -> list Z -> Prop :=
| along_nil : forall a, along ws a []
| along_cons : forall a b l, clos_refl_trans Z (leads ws) a b -> along ws b l -> along ws a (b :: l).

(** The heading of a command for waypoint [w], with the leg from [q]: around the loiter, or along the
    leg, or straight to the waypoint once the mission has ended. *)
Definition heads (rel : place -> place -> point) (p : place) (w : wp) (q : point) (last : bool) (h : heading) : Prop :=
  (exists l, loiters w l /\ h = Around (rel p (l_place l)) (l_radius l) (l_clockwise l) (rel p p)) \/
  (plain w /\ h = Along (if last then rel p p else q) (rel p (w_place w)) (rel p p)).
(** Its speed: the one that overrides, or that of the loiter, or that of the waypoint. *)
Definition speeds (o : option Z) (w : wp) (v : Z) : Prop :=
  match o with
  | Some x => v = x
  | None => (exists l, loiters w l /\ v = l_speed l) \/ (plain w /\ v = w_speed w)
  end.

Section C67.
  Context (vehicle accept : Z) (use_safe : bool) (over : option Z).
  Context (rel : place -> place -> point) (turn : Z -> Z -> Z).
  Notation step := (step vehicle accept use_safe over rel turn).
  Notation history := (run step (init over)).
  Notation passed := (passed accept).
  Notation flies := (flies accept).

  (** The begin of the current leg: the place kept, or else the vehicle's own. *)
  Definition begin (s : st) (p : place) : point := match from s with Some l => rel p l | None => rel p p end.

  (** What the command for waypoint [w] is. *)
  Definition fits (s : st) (p : place) (w : wp) (q : point) (last : bool) (c : out) : Prop :=
    exists h v, heads rel p w q last h /\ speeds (speed s) w v /\
      match c with
      | Safe a => use_safe = true /\ s_vehicle a = vehicle /\ s_region a = region s /\ s_lead a = lead s /\
                  s_radius a = radius s /\ s_heading a = h /\ s_altitude a = w_altitude w /\ s_speed a = v
      | Direct a => use_safe = false /\ d_vehicle a = vehicle /\ d_heading a = h /\ d_altitude a = w_altitude w /\
                    d_speed a = v /\ (plain w -> d_speedType a = w_speedType w)
      | Report _ _ _ _ => False
      end.

  Lemma command_fits s p w q last :
    exists cmd, command vehicle use_safe rel s p w q last = cmd /\
      (by_task s = true -> cmd = []) /\ (by_task s = false -> exists c, cmd = [c] /\ fits s p w q last c).
  Proof.
    eexists. split; [reflexivity|]. unfold command. split; intros ->; [reflexivity|].
    destruct use_safe eqn:US.
    - eexists. split; [reflexivity|]. unfold fits. do 2 eexists. split; [|split].
      3: { rewrite US. repeat split. }
      + unfold heads, point_of. destruct (loiter_of (w_actions w)) as [l|] eqn:E.
        * left. exists l. rewrite <- loiter_of_some. auto.
        * right. rewrite <- loiter_of_none. auto.
      + unfold speeds. destruct (speed s); [reflexivity|]. destruct (loiter_of (w_actions w)) as [l|] eqn:E.
        * left. exists l. rewrite <- loiter_of_some. auto.
        * right. rewrite <- loiter_of_none. auto.
    - eexists. split; [reflexivity|]. unfold fits. do 2 eexists. split; [|split].
      3: { rewrite US. repeat split. cbn [d_speedType]. intros P. apply loiter_of_none in P. rewrite P. reflexivity. }
      + unfold heads, point_of. destruct (loiter_of (w_actions w)) as [l|] eqn:E.
        * left. exists l. rewrite <- loiter_of_some. auto.
        * right. rewrite <- loiter_of_none. auto.
      + unfold speeds. destruct (speed s); [reflexivity|]. destruct (loiter_of (w_actions w)) as [l|] eqn:E.
        * left. exists l. rewrite <- loiter_of_some. auto.
        * right. rewrite <- loiter_of_none. auto.
  Qed.

  (** Each report of the vehicle is passed on with the waypoint the vehicle is sent to now.  It is
      reached by flying past the waypoints [l]; it is not passed itself, unless the mission ends: there
      the way leads back to a waypoint just passed, or nowhere.  One command for it is sent before,
      unless a task controls the heading. *)
  Theorem C67_report : forall s now p w,
    numbered (wps s) (cur s) w ->
    exists l w' q start' last cmd,
      flies (reach s) rel (wps s) now p w (begin s p) (since s) l w' q start' /\ NoDup (map w_num l) /\
      (ended s = true -> l = []) /\
      (last = true <-> ended s = true \/
         (passed (reach s) rel now p w' q start' /\
          (In (w_num w') (map w_num l) \/ forall x, ~ follows (wps s) w' x))) /\
      (last = false -> ~ passed (reach s) rel now p w' q start') /\
      snd (step s (State vehicle now p)) = cmd ++ [Report vehicle p (w_num w') (w_tasks w')] /\
      (by_task s = true -> cmd = []) /\
      (by_task s = false -> exists c, cmd = [c] /\ fits s p w' q last c) /\
      let s' := fst (step s (State vehicle now p)) in
      cur s' = w_num w' /\ ended s' = last /\ since s' = start' /\
      (last = false -> from s' = match rev l with u :: _ => Some (w_place u) | [] => from s end).
  Proof.
    intros s now p w N. apply wp_of_numbered in N. cbn [SteeringModel.step]. rewrite Z.eqb_refl, N.
    pose proof (pass_total accept rel s now p (S (S (length (wps s)))) [] w (begin s p) (from s) (since s) (ended s)) as T.
    destruct T as (r & T).
    { constructor. }
    { intros ? []. }
    { unfold wp_of in N. apply find_some in N. tauto. }
    { cbn [length]. lia. }
    unfold begin in *. rewrite T. destruct r as ((((w', prev'), pl), start'), last).
    apply pass_flies in T. destruct T as (l & q & FL & ND & _ & L1 & L2 & L3).
    destruct (command_fits s p w' prev' last) as (cmd & C1 & C2 & C3).
    exists l, w', q, start', last, cmd. cbn [fst snd].
    split; [exact FL|]. split; [exact ND|]. split; [intros E; apply L1; exact E|]. split; [|split; [|split; [|split; [|split]]]].
    - split.
      + intros E. destruct (L3 E) as [H|(H1 & [H2|[H2|H2]])]; [auto|right; auto|destruct H2|right; auto].
      + intros [E|(P & _)]; [apply L1; exact E|]. destruct last; [reflexivity|]. destruct (L2 eq_refl) as (_ & NP & _). destruct (NP P).
    - intros E. apply L2. exact E.
    - rewrite C1. reflexivity.
    - exact C2.
    - intros B. destruct (C3 B) as (c & -> & F). exists c. split; [reflexivity|].
      destruct last; [|destruct (L2 eq_refl) as (-> & _); exact F].
      destruct F as (h & v & H1 & H2). exists h, v. split; [|exact H2]. exact H1.
    - cbn [cur ended since from]. split; [reflexivity|]. split; [reflexivity|]. split; [reflexivity|]. intros E. apply L2. exact E.
  Qed.

  (** Without the waypoint it is to start with, the vehicle is not steered. *)
  Theorem C67_nowhere : forall s now p,
    (forall w, ~ numbered (wps s) (cur s) w) ->
    step s (State vehicle now p) = (s, [Report vehicle p (cur s) []]).
  Proof.
    intros s now p N. apply wp_of_none in N. cbn [SteeringModel.step]. rewrite Z.eqb_refl, N. reflexivity.
  Qed.

  (** Only the vehicle's own reports are answered. *)
  Theorem C67_silent : forall s e, (forall now p, e <> State vehicle now p) -> snd (step s e) = [].
  Proof.
    intros s e N. destruct e as [? ? ?|? ? ?|? ?|? ?|? ?|? ?|? ?|v now p]; cbn [SteeringModel.step snd]; try reflexivity.
    destruct (Z.eqb_spec v vehicle) as [->|]; [destruct (N _ _ eq_refl)|reflexivity].
  Qed.

  (** *** Histories *)

  Lemma take_step s e now m : brings vehicle e = Some (now, m) -> step s e = (take s now m, []).
  Proof.
    destruct e as [? ? ?|? ? ?|? ?|t ms|t m'|? ?|? ?|? ? ?]; cbn [brings SteeringModel.step]; try discriminate.
    - destruct (find _ ms); [|discriminate]. cbn. intros E. injection E as -> ->. reflexivity.
    - destruct (m_vehicle m' =? vehicle); [|discriminate]. intros E. injection E as -> ->. reflexivity.
  Qed.

  (** Messages that are neither missions nor reports of the vehicle leave the way alone. *)
  Lemma other_step s e :
    brings vehicle e = None -> (forall now p, e <> State vehicle now p) ->
    let s' := fst (step s e) in
    wps s' = wps s /\ cur s' = cur s /\ since s' = since s /\ ended s' = ended s /\ from s' = from s.
  Proof.
    intros B N. destruct e as [v sp b|id sb r|id vs|t ms|t m'|v sp|v l|v now p]; cbn [brings SteeringModel.step fst] in *.
    - destruct (v =? vehicle); repeat split.
    - repeat split.
    - destruct vs; repeat split.
    - destruct (find _ ms); [discriminate|]. repeat split.
    - destruct (m_vehicle m' =? vehicle); [discriminate|]. repeat split.
    - destruct (v =? vehicle); repeat split.
    - destruct (_ && _); repeat split.
    - destruct (Z.eqb_spec v vehicle) as [->|]; [destruct (N _ _ eq_refl)|repeat split].
  Qed.

  (** A report: the way from one waypoint to another. *)
  Lemma state_step s now p :
    let s' := fst (step s (State vehicle now p)) in
    wps s' = wps s /\ reported (snd (step s (State vehicle now p))) = [cur s'] /\
    clos_refl_trans Z (leads (wps s)) (cur s) (cur s') /\ (ended s = true -> ended s' = true /\ cur s' = cur s) /\
    (ended s' = false ->
       (cur s' = cur s /\ since s' = since s /\ from s' = from s) \/
       (exists u, In u (wps s) /\ w_next u = cur s' /\ since s' = now /\ from s' = Some (w_place u))).
  Proof.
    cbn zeta.
    assert (W : wps (fst (step s (State vehicle now p))) = wps s).
    { cbn [SteeringModel.step]. rewrite Z.eqb_refl. destruct (wp_of _ _); [|reflexivity].
      destruct (pass _ _ _ _ _ _ _ _ _ _ _ _) as [((((? & ?) & ?) & ?) & ?)|]; reflexivity. }
    split; [exact W|].
    destruct (wp_of (wps s) (cur s)) as [w|] eqn:N.
    - apply wp_of_numbered in N.
      destruct (C67_report s now p w N) as (l & w' & q & start' & last & cmd & FL & ND & L1 & L2 & L3 & O & C1 & C2 & S1 & S2 & S3 & S4).
      rewrite O, S1, S2, S3.
      assert (RC : reported cmd = []).
      { destruct (by_task s); [rewrite C1 by reflexivity; reflexivity|].
        destruct (C2 eq_refl) as (c & -> & h & v & _ & _ & F). destruct c; [reflexivity|reflexivity|destruct F]. }
      split; [unfold reported in *; rewrite flat_map_app, RC; reflexivity|].
      assert (CW : cur s = w_num w) by (destruct N as (a & b & _ & E & _); congruence).
      rewrite CW.
      assert (NW : numbered (wps s) (w_num w) w) by (rewrite <- CW; exact N).
      assert (R : forall ws w1 q1 st1 l1 w2 q2 st2, flies (reach s) rel ws now p w1 q1 st1 l1 w2 q2 st2 ->
                 numbered ws (w_num w1) w1 ->
                 clos_refl_trans Z (leads ws) (w_num w1) (w_num w2) /\
                 ((l1 = [] /\ w2 = w1 /\ st2 = st1) \/
                  exists u r, rev l1 = u :: r /\ In u ws /\ w_next u = w_num w2 /\ st2 = now)).
      { clear. intros ws w1 q1 st1 l1 w2 q2 st2 F. induction F as [w prev start|w prev start x w1 l w2 prev' start' P (FN & FD) G F IH]; intros NW.
        - split; [apply rt_refl|]. left. auto.
        - assert (NW1 : numbered ws (w_num w1) w1).
          { destruct FN as (a & b & E1 & E2 & E3). exists a, b. split; [exact E1|]. split; [reflexivity|]. rewrite E2. exact E3. }
          assert (WN : w_next w = w_num w1) by (destruct FN as (a & b & _ & E & _); congruence).
          destruct (IH NW1) as (T & D). split.
          + apply rt_trans with (w_num w1); [|exact T]. apply rt_step. exists w, w1. split; [exact NW|]. split; [split; assumption|reflexivity].
          + right. destruct D as [(-> & -> & ->)|(u & r & E1 & I & WU & ->)].
            * exists w, []. cbn. split; [reflexivity|]. split; [|auto].
              destruct NW as (a & b & -> & _). apply in_or_app. right. left. reflexivity.
            * exists u, (r ++ [w]). cbn [rev]. rewrite E1. auto. }
      destruct (R _ _ _ _ _ _ _ _ FL NW) as (T & D). split; [exact T|]. split.
      + intros E. rewrite (L1 E) in D. destruct D as [(_ & -> & _)|(u & r & E1 & _)]; [|discriminate].
        split; [apply L2; auto|reflexivity].
      + intros E. rewrite (S4 E). destruct D as [(-> & -> & ->)|(u & r & -> & I & WU & ->)]; [left; auto|right; eauto].
    - pose proof (proj1 (wp_of_none _ _) N) as N'. clear N. rename N' into N. rewrite (C67_nowhere s now p N). cbn [fst snd]. split; [reflexivity|].
      split; [apply rt_refl|]. split; [auto|]. intros _. left. auto.
  Qed.

  Lemma along_snoc ws : forall l a b, along ws a l -> clos_refl_trans Z (leads ws) (last l a) b -> along ws a (l ++ [b]).
  Proof.
    induction l as [|x l IH]; intros a b A R.
    - constructor; [exact R|constructor].
    - inversion_clear A as [|? ? ? A1 A2]. cbn [app]. constructor; [exact A1|]. apply IH; [exact A2|].
      destruct l as [|z l]; [exact R|]. replace (last (z :: l) x) with (last (x :: z :: l) a); [exact R|].
      cbn [last]. clear. revert z. induction l as [|y l IH]; intros z; [reflexivity|]. cbn [last]. apply IH.
  Qed.

  Definition state (h : list ev) : st := fst (history h).

  Lemma state_snoc h e : state (h ++ [e]) = fst (step (state h) e).
  Proof. unfold state. rewrite run_snoc. reflexivity. Qed.

  (** What was sent after the messages [h1], while the messages [h2] were handled. *)
  Definition after (h1 h2 : list ev) : list out := sent (skipn (length h1) (snd (history (h1 ++ h2)))).

  Lemma trace_length h : length (snd (history h)) = length h.
  Proof. rewrite <- (run_events step (init over) h) at 2. rewrite map_length. reflexivity. Qed.

  Lemma after_nil h : after h [] = [].
  Proof. unfold after. rewrite app_nil_r, skipn_all2; [reflexivity|]. rewrite trace_length. lia. Qed.
  Lemma after_snoc h1 h2 e : after h1 (h2 ++ [e]) = after h1 h2 ++ snd (step (state (h1 ++ h2)) e).
  Proof.
    unfold after. rewrite app_assoc, run_snoc. cbn [snd]. rewrite skipn_app.
    replace (length h1 - length (snd (history (h1 ++ h2))))%nat with 0%nat.
    - cbn [skipn]. rewrite sent_snoc. reflexivity.
    - rewrite trace_length, app_length. lia.
  Qed.

  Lemma reported_app a b : reported (a ++ b) = reported a ++ reported b.
  Proof. apply flat_map_app. Qed.

  (** A message after the mission that is a report of the vehicle, or leaves the way alone. *)
  Lemma own_or_other e : (exists now p, e = State vehicle now p) \/ (forall now p, e <> State vehicle now p).
  Proof.
    destruct e as [? ? ?|? ? ?|? ?|? ?|? ?|? ?|? ?|v now p]; try (right; discriminate).
    destruct (Z.eq_dec v vehicle) as [->|N]; [left; eauto|right; congruence].
  Qed.

  Section Since.
    (** A history in which the message [e] brings the mission [m] at time [t0]. *)
    Context (h1 : list ev) (e : ev) (t0 : Z) (m : mission) (B : brings vehicle e = Some (t0, m)).
    Notation later h2 := (state ((h1 ++ [e]) ++ h2)).
    Notation quiet h2 := (forall e', In e' h2 -> brings vehicle e' = None).

    Lemma later_nil : later [] = take (state h1) t0 m.
    Proof. rewrite app_nil_r, state_snoc, (take_step _ _ _ _ B). reflexivity. Qed.
    Lemma later_snoc h2 e' : later (h2 ++ [e']) = fst (step (later h2) e').
    Proof. rewrite app_assoc, state_snoc. reflexivity. Qed.
    Lemma quiet_snoc h2 e' : quiet (h2 ++ [e']) -> quiet h2 /\ brings vehicle e' = None.
    Proof.
      intros Q. split; [intros x Hx; apply Q; apply in_or_app; auto|]. apply Q. apply in_or_app. right. left. reflexivity.
    Qed.

    Lemma later_wps h2 : quiet h2 -> wps (later h2) = m_wps m.
    Proof.
      induction h2 as [|e' h2 IH] using rev_ind; intros Q; [rewrite later_nil; reflexivity|].
      apply quiet_snoc in Q. destruct Q as (Q & B'). rewrite later_snoc, <- (IH Q).
      destruct (own_or_other e') as [(now & p & ->)|N]; [apply state_step|apply (other_step _ _ B' N)].
    Qed.

    (** The waypoints reported after a mission has come are reached one after the other along the
        mission, beginning at its first waypoint. *)
    Theorem C67_order : forall h2, quiet h2 ->
      along (m_wps m) (m_first m) (reported (after (h1 ++ [e]) h2)) /\
      cur (later h2) = last (reported (after (h1 ++ [e]) h2)) (m_first m).
    Proof.
      induction h2 as [|e' h2 IH] using rev_ind; intros Q.
      - rewrite after_nil, later_nil. split; [constructor|reflexivity].
      - apply quiet_snoc in Q. destruct Q as (Q & B'). destruct (IH Q) as (A & L).
        rewrite after_snoc, reported_app, later_snoc. destruct (own_or_other e') as [(now & p & ->)|N].
        + destruct (state_step (later h2) now p) as (_ & R & T & _). rewrite R. rewrite (later_wps h2 Q) in T.
          split; [apply along_snoc; [exact A|]; rewrite <- L; exact T|]. rewrite last_last. reflexivity.
        + rewrite (C67_silent _ _ N). cbn [reported flat_map]. rewrite app_nil_r. split; [exact A|].
          destruct (other_step (later h2) _ B' N) as (_ & C & _). rewrite C. exact L.
    Qed.

    (** Where the current leg began and since when it is flown: it is the one to the first waypoint,
        since the mission came and from the first waypoint that leads there, if there is one; or the
        one to the current waypoint from one before it, since the report at which that one was passed. *)
    Theorem C67_leg : forall h2, quiet h2 -> ended (later h2) = false ->
      (cur (later h2) = m_first m /\ since (later h2) = t0 /\
       (forall n, In n (reported (after (h1 ++ [e]) h2)) -> n = m_first m) /\
       ((from (later h2) = None /\ forall u, In u (m_wps m) -> w_next u <> m_first m) \/
        exists a u b, m_wps m = a ++ u :: b /\ from (later h2) = Some (w_place u) /\ w_next u = m_first m /\
                      forall x, In x a -> w_next x <> m_first m)) \/
      (exists h3 now p h4 u, h2 = h3 ++ State vehicle now p :: h4 /\ since (later h2) = now /\
         In u (m_wps m) /\ w_next u = cur (later h2) /\ from (later h2) = Some (w_place u) /\
         forall n, In n (reported (after ((h1 ++ [e]) ++ h3 ++ [State vehicle now p]) h4)) -> n = cur (later h2)).
    Proof.
      induction h2 as [|e' h2 IH] using rev_ind; intros Q EN.
      - left. rewrite after_nil, later_nil. cbn [cur since from take]. split; [reflexivity|]. split; [reflexivity|].
        split; [intros ? []|]. destruct (find (fun w => w_next w =? m_first m) (m_wps m)) as [u|] eqn:F.
        + right. apply find_first in F. destruct F as (a & b & -> & F & N). apply Z.eqb_eq in F. exists a, u, b.
          split; [reflexivity|]. split; [reflexivity|]. split; [exact F|]. intros x Hx. apply Z.eqb_neq. apply N. exact Hx.
        + left. split; [reflexivity|]. intros u Hu. apply Z.eqb_neq. apply (find_none _ _ F u Hu).
      - apply quiet_snoc in Q. destruct Q as (Q & B'). rewrite later_snoc in *.
        destruct (own_or_other e') as [(now & p & ->)|N].
        + destruct (state_step (later h2) now p) as (_ & R & _ & E1 & E2).
          assert (EN' : ended (later h2) = false).
          { destruct (ended (later h2)); [|reflexivity]. destruct (E1 eq_refl) as (X & _). congruence. }
          destruct (E2 EN) as [(E3 & E4 & E5)|(u & I & WN & S1 & F1)].
          * rewrite E3, E4, E5. rewrite E3 in R. destruct (IH Q EN') as [(C & S1 & A & F)|(h3 & t & p' & h4 & u & -> & S1 & I & WN & F & A)].
            -- left. split; [exact C|]. split; [exact S1|]. split; [|exact F].
               rewrite after_snoc, reported_app, R. intros n Hn. apply in_app_or in Hn. destruct Hn as [Hn|[<-|[]]]; [auto|exact C].
            -- right. exists h3, t, p', (h4 ++ [State vehicle now p]), u. split; [rewrite <- app_assoc; reflexivity|].
               split; [exact S1|]. split; [exact I|]. split; [exact WN|]. split; [exact F|].
               rewrite after_snoc, reported_app. replace (((h1 ++ [e]) ++ h3 ++ [State vehicle t p']) ++ h4) with ((h1 ++ [e]) ++ h3 ++ State vehicle t p' :: h4)
                 by (rewrite <- !app_assoc; reflexivity).
               rewrite R. intros n Hn. apply in_app_or in Hn. destruct Hn as [Hn|[<-|[]]]; [auto|reflexivity].
          * right. exists h2, now, p, [], u. rewrite (later_wps h2 Q) in I. split; [reflexivity|]. split; [exact S1|].
            split; [exact I|]. split; [exact WN|]. split; [exact F1|]. rewrite after_nil. intros ? [].
        + destruct (other_step (later h2) _ B' N) as (_ & E2 & E3 & E4 & E5). rewrite E4 in EN. rewrite E2, E3, E5.
          destruct (IH Q EN) as [(C & S1 & A & F)|(h3 & t & p' & h4 & u & -> & S1 & I & WN & F & A)].
          * left. split; [exact C|]. split; [exact S1|]. split; [|exact F].
            rewrite after_snoc, reported_app, (C67_silent _ _ N), app_nil_r. exact A.
          * right. exists h3, t, p', (h4 ++ [e']), u. split; [rewrite <- app_assoc; reflexivity|].
            split; [exact S1|]. split; [exact I|]. split; [exact WN|]. split; [exact F|].
            rewrite after_snoc, reported_app, (C67_silent _ _ N), app_nil_r. exact A.
    Qed.

    (** Once the mission has ended, the vehicle is sent to the same waypoint until the next mission. *)
    Theorem C67_end : forall h2 h3, quiet (h2 ++ h3) -> ended (later h2) = true ->
      ended (later (h2 ++ h3)) = true /\ cur (later (h2 ++ h3)) = cur (later h2) /\
      forall n, In n (reported (after ((h1 ++ [e]) ++ h2) h3)) -> n = cur (later h2).
    Proof.
      intros h2 h3. induction h3 as [|e' h3 IH] using rev_ind; intros Q EN.
      - rewrite app_nil_r, after_nil. split; [exact EN|]. split; [reflexivity|intros ? []].
      - rewrite app_assoc in Q. apply quiet_snoc in Q. destruct Q as (Q & B'). destruct (IH Q EN) as (I1 & I2 & I3).
        rewrite (app_assoc h2 h3), later_snoc, after_snoc, reported_app, <- (app_assoc (h1 ++ [e]) h2 h3).
        destruct (own_or_other e') as [(now & p & ->)|N].
        + destruct (state_step (later (h2 ++ h3)) now p) as (_ & R & _ & E1 & _). destruct (E1 I1) as (E2 & E3).
          rewrite R, E3. split; [exact E2|]. split; [exact I2|]. intros n Hn. apply in_app_or in Hn.
          destruct Hn as [Hn|[<-|[]]]; [auto|exact I2].
        + destruct (other_step (later (h2 ++ h3)) _ B' N) as (_ & E2 & _ & E4 & _). rewrite E2, E4, (C67_silent _ _ N), app_nil_r.
          auto.
    Qed.

    (** What overrides: the last speed ordered since the mission came; and a flight director action
        since then stops the commands. *)
    Definition orders (e' : ev) : option Z :=
      match e' with Override v sp => if v =? vehicle then Some sp else None | _ => None end.
    Theorem C67_override : forall h2, quiet h2 ->
      wps (later h2) = m_wps m /\
      (forall v, speed (later h2) = Some v <-> latest orders h2 v) /\
      (by_task (later h2) = true <-> exists l, In (Actions vehicle l) h2 /\ In true l).
    Proof.
      intros h2 Q. split; [apply later_wps; exact Q|].
      assert (H : speed (later h2) = follow orders h2 /\ (by_task (later h2) = true <-> exists l, In (Actions vehicle l) h2 /\ In true l)).
      { induction h2 as [|e' h2 IH] using rev_ind.
        - rewrite later_nil. cbn [speed by_task take]. split; [reflexivity|]. split; [discriminate|intros (? & [] & _)].
        - apply quiet_snoc in Q. destruct Q as (Q & B'). destruct (IH Q) as (I1 & I2). rewrite later_snoc, follow_snoc.
          assert (K : (forall l, e' <> Actions vehicle l \/ ~ In true l) ->
                  ((exists l, In (Actions vehicle l) (h2 ++ [e']) /\ In true l) <-> by_task (later h2) = true)).
          { intros NA. rewrite I2. split; intros (l & I & T); exists l; (split; [|exact T]).
            - apply in_app_or in I. destruct I as [I|[I|[]]]; [exact I|]. destruct (NA l); congruence.
            - apply in_or_app. auto. }
          destruct e' as [v sp b|id sb r|id vs|t ms|t m'|v sp|v l|v now p]; cbn [orders SteeringModel.step fst brings] in *.
          + rewrite K by (intros; left; discriminate). destruct (v =? vehicle); auto using iff_refl.
          + rewrite K by (intros; left; discriminate). auto using iff_refl.
          + rewrite K by (intros; left; discriminate). destruct vs; auto using iff_refl.
          + rewrite K by (intros; left; discriminate). destruct (find _ ms); [discriminate|auto using iff_refl].
          + rewrite K by (intros; left; discriminate). destruct (m_vehicle m' =? vehicle); [discriminate|auto using iff_refl].
          + rewrite K by (intros; left; discriminate). destruct (v =? vehicle); auto using iff_refl.
          + destruct (Z.eqb_spec v vehicle) as [->|NV]; cbn [andb].
            * destruct (existsb (fun b => b) l) eqn:X.
              -- cbn [speed by_task]. split; [exact I1|]. split; [|reflexivity]. intros _. exists l.
                 split; [apply in_or_app; right; left; reflexivity|]. apply existsb_exists in X. destruct X as (b & I & ->). exact I.
              -- rewrite K; [auto using iff_refl|]. intros l'. destruct (list_eq_dec bool_dec l' l) as [->|D]; [|left; congruence].
                 right. intros T. assert (X' : existsb (fun b => b) l = true) by (apply existsb_exists; eauto). congruence.
            * rewrite K; [auto using iff_refl|]. intros. left. congruence.
          + rewrite K by (intros; left; discriminate). destruct (v =? vehicle); [|auto using iff_refl].
            destruct (wp_of _ _); [|auto using iff_refl]. destruct (pass _ _ _ _ _ _ _ _ _ _ _ _) as [((((? & ?) & ?) & ?) & ?)|]; auto using iff_refl. }
      destruct H as (H1 & H2). split; [|exact H2]. intros v. rewrite H1. apply follow_latest.
    Qed.
  End Since.

  (** Before the first mission there are no waypoints. *)
  Theorem C67_idle : forall h, (forall e, In e h -> brings vehicle e = None) ->
    wps (state h) = [] /\ forall x, In x (sent (snd (history h))) -> exists p, x = Report vehicle p 0 [].
  Proof.
    intros h Q. assert (H : wps (state h) = [] /\ cur (state h) = 0 /\ forall x, In x (sent (snd (history h))) -> exists p, x = Report vehicle p 0 []); [|tauto].
    revert Q. induction h as [|e h IH] using rev_ind; intros Q.
    - split; [reflexivity|]. split; [reflexivity|intros ? []].
    - assert (Q' : forall x, In x h -> brings vehicle x = None) by (intros x Hx; apply Q; apply in_or_app; auto).
      assert (B : brings vehicle e = None) by (apply Q; apply in_or_app; right; left; reflexivity).
      destruct (IH Q') as (W & C & S). rewrite state_snoc, run_snoc. cbn [snd]. rewrite sent_snoc. fold (state h).
      destruct (own_or_other e) as [(now & p & ->)|N].
      + rewrite C67_nowhere by (rewrite W; intros w (a & b & E & _); destruct a; discriminate). cbn [fst snd].
        split; [exact W|]. split; [exact C|]. intros x Hx. apply in_app_or in Hx. destruct Hx as [Hx|[<-|[]]]; [auto|].
        rewrite C. eauto.
      + destruct (other_step (state h) e B N) as (E1 & E2 & _). rewrite E1, E2, (C67_silent _ _ N), app_nil_r. auto.
  Qed.

  (** Radius, distance ahead and acceptance distance follow the last configuration of the vehicle. *)
  Definition configures (e : ev) : option (Z * Z) :=
    match e with Config v sp b => if v =? vehicle then Some (sp, b) else None | _ => None end.
  Theorem C67_config : forall h sp b, latest configures h (sp, b) ->
    radius (state h) = turn sp (Z.max 1000 (Z.abs b)) /\ lead (state h) = 3 * radius (state h) /\
    (0 < accept -> reach (state h) = accept * sp).
  Proof.
    assert (H : forall h, match follow configures h with
                          | Some (sp, b) => radius (state h) = turn sp (Z.max 1000 (Z.abs b)) /\
                              lead (state h) = 3 * radius (state h) /\ (0 < accept -> reach (state h) = accept * sp)
                          | None => True end).
    { intros h. induction h as [|e h IH] using rev_ind; [exact I|]. rewrite state_snoc, follow_snoc.
      destruct e as [v sp b|id sb r|id vs|t ms|t m'|v sp|v l|v now p]; cbn [configures SteeringModel.step fst].
      - destruct (v =? vehicle); [|exact IH]. cbn [radius lead reach]. split; [reflexivity|]. split; [reflexivity|].
        intros A. destruct (Z.ltb_spec 0 accept); [reflexivity|lia].
      - exact IH.
      - destruct vs; exact IH.
      - destruct (find _ ms); exact IH.
      - destruct (m_vehicle m' =? vehicle); exact IH.
      - destruct (v =? vehicle); exact IH.
      - destruct (_ && _); exact IH.
      - destruct (v =? vehicle); [|exact IH]. destruct (wp_of _ _); [|exact IH].
        destruct (pass _ _ _ _ _ _ _ _ _ _ _ _) as [((((? & ?) & ?) & ?) & ?)|]; exact IH. }
    intros h sp b L. apply follow_latest in L. specialize (H h). rewrite L in H. exact H.
  Qed.

  (** Before any configuration: a radius of 250 m, a kilometre ahead, no acceptance distance. *)
  Theorem C67_default : forall h, unsaid configures h ->
    radius (state h) = 250000 /\ lead (state h) = 1000000 /\ reach (state h) = 0.
  Proof.
    intros h. induction h as [|e h IH] using rev_ind; intros U; [repeat split|].
    specialize (IH (fun x Hx => U x (in_or_app _ _ _ (or_introl Hx)))). specialize (U e (proj2 (in_app_iff h [e] e) (or_intror (in_eq e [])))).
    rewrite state_snoc. destruct e as [v sp b|id sb r|id vs|t ms|t m'|v sp|v l|v now p]; cbn [configures SteeringModel.step fst] in *.
    - destruct (v =? vehicle); [discriminate|exact IH].
    - exact IH.
    - destruct vs; exact IH.
    - destruct (find _ ms); exact IH.
    - destruct (m_vehicle m' =? vehicle); exact IH.
    - destruct (v =? vehicle); exact IH.
    - destruct (_ && _); exact IH.
    - destruct (v =? vehicle); [|exact IH]. destruct (wp_of _ _); [|exact IH].
      destruct (pass _ _ _ _ _ _ _ _ _ _ _ _) as [((((? & ?) & ?) & ?) & ?)|]; exact IH.
  Qed.

  (** A mission counts as ended from the start exactly if it has a single waypoint. *)
  Theorem C67_start : forall h e now m, brings vehicle e = Some (now, m) ->
    (ended (state (h ++ [e])) = true <-> exists w, m_wps m = [w]).
  Proof.
    intros h e now m B. rewrite state_snoc, (take_step _ _ _ _ B). cbn [fst ended take]. rewrite Nat.eqb_eq.
    destruct (m_wps m) as [|w [|w' l]]; cbn [length]; split; intros H; try discriminate; try (destruct H; discriminate); eauto.
  Qed.

  (** The operating region of safe headings: the one configured, or else that of the request answered
      by the last response with a mission for the vehicle. *)
  Definition serves (e : ev) : option Z :=
    match e with Response id (Some l) => if zin vehicle l then Some id else None | _ => None end.
  (** What a message says on the region of the request [id]. *)
  Definition regards (id : Z) (e : ev) : option (option Z) :=
    match e with
    | Request i sandbox r => if i =? id then Some (if sandbox then None else r) else None
    | Response i (Some _) => if i =? id then Some None else None
    | _ => None
    end.
  Lemma state_regions h id : zget (regions (state h)) id = match follow (regards id) h with Some o => o | None => None end.
  Proof.
    induction h as [|e h IH] using rev_ind; [reflexivity|]. rewrite state_snoc, follow_snoc.
    destruct e as [v sp b|i sb r|i vs|t ms|t m'|v sp|v l|v now p]; cbn [regards SteeringModel.step fst set_region regions].
    - destruct (v =? vehicle); exact IH.
    - destruct sb, r; rewrite ?zget_set, ?zget_del, (Z.eqb_sym id i); destruct (i =? id); auto.
    - destruct vs; [|exact IH]. cbn [set_region regions]. rewrite zget_del, (Z.eqb_sym id i). destruct (i =? id); auto.
    - destruct (find _ ms); exact IH.
    - destruct (m_vehicle m' =? vehicle); exact IH.
    - destruct (v =? vehicle); exact IH.
    - destruct (_ && _); exact IH.
    - destruct (v =? vehicle); [|exact IH]. destruct (wp_of _ _); [|exact IH].
      destruct (pass _ _ _ _ _ _ _ _ _ _ _ _) as [((((? & ?) & ?) & ?) & ?)|]; exact IH.
  Qed.
  Lemma region_step s e : serves e = None -> region (fst (step s e)) = region s.
  Proof.
    destruct e as [v sp b|i sb r|i vs|t ms|t m'|v sp|v l|v now p]; cbn [serves SteeringModel.step fst set_region region].
    - destruct (v =? vehicle); reflexivity.
    - reflexivity.
    - destruct vs; [|reflexivity]. cbn [set_region region]. destruct (zin vehicle l); [discriminate|reflexivity].
    - destruct (find _ ms); reflexivity.
    - destruct (m_vehicle m' =? vehicle); reflexivity.
    - destruct (v =? vehicle); reflexivity.
    - destruct (_ && _); reflexivity.
    - destruct (v =? vehicle); [|reflexivity]. destruct (wp_of _ _); [|reflexivity].
      destruct (pass _ _ _ _ _ _ _ _ _ _ _ _) as [((((? & ?) & ?) & ?) & ?)|]; reflexivity.
  Qed.
  Lemma region_quiet h h2 : unsaid serves h2 -> region (state (h ++ h2)) = region (state h).
  Proof.
    induction h2 as [|e h2 IH] using rev_ind; intros U; [rewrite app_nil_r; reflexivity|].
    rewrite app_assoc, state_snoc, region_step by (apply U; apply in_or_app; right; left; reflexivity).
    apply IH. intros x Hx. apply U. apply in_or_app. auto.
  Qed.
  Theorem C67_region : forall h,
    (forall r, over = Some r -> region (state h) = r) /\
    (over = None -> unsaid serves h -> region (state h) = 0) /\
    (forall h1 e id h2, over = None -> h = h1 ++ e :: h2 -> serves e = Some id -> unsaid serves h2 ->
       (forall r, latest (regards id) h1 (Some r) -> region (state h) = r) /\
       ((forall r, ~ latest (regards id) h1 (Some r)) -> region (state h) = 0)).
  Proof.
    intros h. split; [|split].
    - intros r O. induction h as [|e h IH] using rev_ind; [unfold state; cbn; rewrite O; reflexivity|].
      rewrite state_snoc. destruct (serves e) as [id|] eqn:S; [|rewrite (region_step _ _ S); exact IH].
      destruct e as [v sp b|i sb r'|i vs|t ms|t m'|v sp|v l|v now p]; try discriminate.
      destruct vs; [|discriminate]. cbn [serves] in S. cbn [SteeringModel.step fst set_region region].
      destruct (zin vehicle l); [|discriminate]. rewrite O. reflexivity.
    - intros O U. change h with ([] ++ h); rewrite (region_quiet [] h U). unfold state. cbn. rewrite O. reflexivity.
    - intros h1 e id h2 O -> S U. rewrite (app_assoc h1 [e] h2 : h1 ++ e :: h2 = _), (region_quiet _ _ U), state_snoc.
      destruct e as [v sp b|i sb r'|i vs|t ms|t m'|v sp|v l|v now p]; try discriminate.
      destruct vs; [|discriminate]. cbn [serves] in S. cbn [SteeringModel.step fst set_region region].
      destruct (zin vehicle l); [|discriminate]. injection S as ->. rewrite O, state_regions. split.
      + intros r L. apply follow_latest in L. rewrite L. reflexivity.
      + intros N. destruct (follow (regards id) h1) as [[r|]|] eqn:F; [|reflexivity|reflexivity].
        apply follow_latest in F. destruct (N _ F).
  Qed.
End C67.

(** *** Examples *)

(** A flat world: north and east in millimetres are differences. *)
Definition flat (p x : place) : point := (fst x - fst p, snd x - snd p).
Definition km : Z := 1000 * 1000.
Definition at_wp (n nx : Z) (p : place) : wp :=
  {| w_num := n; w_next := nx; w_place := p; w_short := false; w_speed := 20000; w_speedType := 0;
     w_altitude := 100; w_tasks := [n + 100]; w_actions := [] |}.
Definition at_loiter (n nx : Z) (p : place) (d : Z) : wp :=
  {| w_num := n; w_next := nx; w_place := p; w_short := false; w_speed := 20000; w_speedType := 0;
     w_altitude := 100; w_tasks := [];
     w_actions := [OtherAction; Loiter {| l_place := p; l_radius := 200000; l_clockwise := true;
                                          l_duration := d; l_speed := 15000 |}] |}.
Definition at_short (n nx : Z) (p : place) : wp :=
  {| w_num := n; w_next := nx; w_place := p; w_short := true; w_speed := 20000; w_speedType := 0;
     w_altitude := 100; w_tasks := []; w_actions := [] |}.
(** A square flown to the east, the north and the west, beginning on the leg from 1 to 2; then a loiter. *)
Definition square : mission :=
  {| m_vehicle := 7; m_first := 2;
     m_wps := [at_wp 1 2 (0, 0); at_wp 2 3 (0, km); at_wp 3 4 (km, km); at_loiter 4 4 (km, 0) 60000] |}.
Definition legs : list ev :=
  [Config 7 20000 30000; Request 9 false (Some 3); Response 9 (Some [7]); Mission 0 square;
   State 7 1000 (0, km / 2); State 8 1000 (0, 2 * km); State 7 2000 (1000, km); Override 7 18000;
   State 7 3000 (2 * km, km); State 7 4000 (2 * km, km / 2); State 7 63000 (km, 0); State 7 900000 (0, 0)].
Definition steer (h : list ev) := run (step 7 0 true None flat (fun v _ => v)) (init None) h.
Example square_flown :
  reported (sent (snd (steer legs))) = [2; 3; 4; 4; 4; 4] /\
  brings 7 (Mission 0 square) = Some (0, square) /\
  nth_error (snd (steer legs)) 4 =
    Some (State 7 1000 (0, km / 2),
          [Safe {| s_vehicle := 7; s_region := 3; s_lead := 60000; s_radius := 20000;
                   s_heading := Along (0, - (km / 2)) (0, km / 2) (0, 0); s_altitude := 100; s_speed := 20000 |};
           Report 7 (0, km / 2) 2 [102]]) /\
  nth_error (snd (steer legs)) 8 =
    Some (State 7 3000 (2 * km, km),
          [Safe {| s_vehicle := 7; s_region := 3; s_lead := 60000; s_radius := 20000;
                   s_heading := Around (- km, - km) 200000 true (0, 0); s_altitude := 100; s_speed := 18000 |};
           Report 7 (2 * km, km) 4 []]).
Proof. vm_compute. repeat split. Qed.

(** A history without a configuration, with a mission of two waypoints and one of a single one. *)
Definition single : mission := {| m_vehicle := 7; m_first := 1; m_wps := [at_wp 1 1 (0, 0)] |}.
Example start_case :
  unsaid (configures 7) [Config 8 20000 30000; Mission 0 square] /\
  brings 7 (Mission 0 single) = Some (0, single) /\
  ended (fst (steer [Mission 0 square])) = false /\ ended (fst (steer [Mission 0 square; Mission 5 single])) = true.
Proof. split; [intros e [<-|[<-|[]]]; reflexivity|]. vm_compute. repeat split. Qed.

(** Passing a waypoint means having flown past it only if the leg to it has a begin.  The first
    waypoint of a mission in which no waypoint leads to it is passed by coming within a metre of it:
    the vehicle flies over it at a distance of 2 m, and past it, and is sent back to it. *)
Definition fresh : mission :=
  {| m_vehicle := 7; m_first := 1; m_wps := [at_wp 1 2 (0, 0); at_wp 2 2 (0, km)] |}.
Theorem C67_first_refuted :
  let h := [Mission 0 fresh; State 7 1000 (2000, - km); State 7 2000 (2000, 0); State 7 3000 (2000, km / 10);
            State 7 4000 (2000, km / 2)] in
  reported (sent (snd (steer h))) = [1; 1; 1; 1].
Proof. vm_compute. reflexivity. Qed.

(** A loiter is not flown for its duration: the time counts from the report at which the vehicle was
    sent there.  Here it is 100 km away all the time and is sent on after a minute. *)
Definition patrol : mission :=
  {| m_vehicle := 7; m_first := 2;
     m_wps := [at_wp 1 2 (0, 0); at_wp 2 3 (0, km); at_loiter 3 4 (0, 100 * km) 60000; at_wp 4 4 (0, 0)] |}.
Theorem C67_loiter_refuted :
  let h := [Mission 0 patrol; State 7 0 (0, km); State 7 30000 (0, km + km / 2); State 7 60000 (0, 2 * km)] in
  reported (sent (snd (steer h))) = [3; 3; 4].
Proof. vm_compute. reflexivity. Qed.

(** A circuit is not flown for ever: if the vehicle is within the acceptance distance of all its
    waypoints once, it is sent to one of them from then on, however far away it is. *)
Definition circuit : mission :=
  {| m_vehicle := 7; m_first := 1;
     m_wps := [at_short 1 2 (0, 0); at_short 2 3 (0, 50000); at_short 3 1 (50000, 0)] |}.
Definition round_ (first : list ev) : list ev :=
  [Config 7 20000 30000; Mission 0 circuit] ++ first ++
  [State 7 2000 (0, km); State 7 3000 (km, km); State 7 4000 (2 * km, - km); State 7 5000 (- km, km)].
Definition steer_near (h : list ev) : list Z :=
  reported (sent (snd (run (step 7 5000 true None flat (fun v _ => v)) (init None) h))).
Theorem C67_circuit_refuted :
  steer_near (round_ [State 7 1000 (10000, 10000)]) = [1; 1; 1; 1; 1] /\
  steer_near (round_ [State 7 1000 (km, 0)]) <> [1; 1; 1; 1; 1].
Proof. split; [vm_compute; reflexivity|vm_compute; discriminate]. Qed.

Print Assumptions C67_report.
Print Assumptions C67_nowhere.
Print Assumptions C67_silent.
Print Assumptions C67_order.
Print Assumptions C67_leg.
Print Assumptions C67_end.
Print Assumptions C67_override.
Print Assumptions C67_idle.
Print Assumptions C67_config.
Print Assumptions C67_default.
Print Assumptions C67_start.
Print Assumptions C67_region.
Print Assumptions C67_first_refuted.
Print Assumptions C67_loiter_refuted.
Print Assumptions C67_circuit_refuted.

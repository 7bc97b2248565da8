(** C51: the loiter leash. *)
From Coq Require Import List ZArith Bool Lia.
From Verif Require Import Run ListSplit LeashModel.
Import ListNotations.
Open Scope list_scope.
Open Scope Z_scope.

(** The latest position, or configuration, of the vehicle in the messages [h]. *)
Definition lastPos (v : Z) (h : list ev) (p : Z) : Prop :=
  exists a b, h = a ++ State v p :: b /\ forall p', ~ In (State v p') b.
Definition lastConf (v : Z) (h : list ev) (c : config) : Prop :=
  exists a b, h = a ++ Config v c :: b /\ forall c', ~ In (Config v c') b.

Definition isAsk (x : out) : bool := match x with Ask _ => true | Command _ => false end.

(** The loiter asked for by the action: at the given distance ahead of the position, with the
    values of the action, or those of the configuration where the action has none. *)
Definition fits (vehicle : Z) (lead : option Z) (ahead : Z -> Z -> Z -> Z) (p : Z) (c : config)
           (a : action) (l : loiter) : Prop :=
  l_vehicle l = vehicle /\ l_radius l = a_radius a /\ l_tasks l = a_tasks a /\
  (a_rate a = false ->
     l_centre l = ahead p (a_heading a) (match lead with Some d => d | None => a_lead a end)) /\
  (a_altitude a = None -> l_altitude l = c_altitude c /\ l_altitudeType l = c_altitudeType c) /\
  (a_speed a = None -> l_speed l = c_speed c) /\ (forall v, a_speed a = Some v -> l_speed l = v).

Section C51.
  Context (vehicle : Z) (lead : option Z) (buffer : Z).
  Context (ahead : Z -> Z -> Z -> Z) (origin : Z).
  Notation step := (step vehicle lead buffer ahead origin).
  Notation history := (history vehicle lead buffer ahead origin).

  Definition asks (t : list (ev * list out)) : Z := Z.of_nat (length (filter isAsk (sent t))).

  (** What is known after the history [t]. *)
  Record inv (t : list (ev * list out)) (s : st) : Prop := {
    i_pos : match pos s with
            | Some p => lastPos vehicle (map fst t) p
            | None => forall p, ~ In (State vehicle p) (map fst t)
            end;
    i_conf : match conf s with
             | Some c => lastConf vehicle (map fst t) c
             | None => forall c, ~ In (Config vehicle c) (map fst t)
             end;
    i_id : routeId s = asks t;
    i_next : match next s with
             | Some l => exists t1 a k t2 p c, t = t1 ++ (Heading a, [Ask k]) :: t2 /\ sent t2 = [] /\
                 lastPos vehicle (map fst t1) p /\ lastConf vehicle (map fst t1) c /\
                 k = request vehicle lead buffer ahead (asks t1 + 1) p c a /\
                 l = command vehicle lead ahead origin p c a
             | None => forall t1 e k t2, t = t1 ++ (e, [Ask k]) :: t2 -> sent t2 <> []
             end
  }.

  Lemma lastPos_snoc h e p :
    lastPos vehicle h p -> (forall p', e <> State vehicle p') -> lastPos vehicle (h ++ [e]) p.
  Proof.
    intros (a & b & -> & N) D. exists a, (b ++ [e]). split; [rewrite <- app_assoc; reflexivity|].
    intros p' I. apply in_app_or in I. destruct I as [I|[I|[]]]; [eapply N; eauto|eapply D; eauto].
  Qed.
  Lemma lastConf_snoc h e p :
    lastConf vehicle h p -> (forall p', e <> Config vehicle p') -> lastConf vehicle (h ++ [e]) p.
  Proof.
    intros (a & b & -> & N) D. exists a, (b ++ [e]). split; [rewrite <- app_assoc; reflexivity|].
    intros p' I. apply in_app_or in I. destruct I as [I|[I|[]]]; [eapply N; eauto|eapply D; eauto].
  Qed.
  Lemma lastPos_new h p : lastPos vehicle (h ++ [State vehicle p]) p.
  Proof. exists h, []. auto. Qed.
  Lemma lastConf_new h p : lastConf vehicle (h ++ [Config vehicle p]) p.
  Proof. exists h, []. auto. Qed.
  Lemma asks_snoc t e o : asks (t ++ [(e, o)]) = asks t + Z.of_nat (length (filter isAsk o)).
  Proof. unfold asks. rewrite sent_snoc, filter_app, app_length. lia. Qed.

  Lemma last_split {A} (t : list A) y t1 x t2 :
    t ++ [y] = t1 ++ x :: t2 -> (t2 = [] /\ t = t1 /\ x = y) \/ exists t2', t2 = t2' ++ [y] /\ t = t1 ++ x :: t2'.
  Proof.
    intros E. destruct t2 as [|z t2 _] using rev_ind.
    - apply app_inj_tail in E. intuition.
    - right. exists t2. rewrite app_comm_cons, app_assoc in E. apply app_inj_tail in E. destruct E as (-> & ->). auto.
  Qed.

  (** A message on which nothing is sent and the command stays. *)
  Lemma next_quiet t e s s' :
    inv t s -> next s' = next s ->
    match next s' with
    | Some l => exists t1 a k t2 p c, t ++ [(e, [])] = t1 ++ (Heading a, [Ask k]) :: t2 /\ sent t2 = [] /\
        lastPos vehicle (map fst t1) p /\ lastConf vehicle (map fst t1) c /\
        k = request vehicle lead buffer ahead (asks t1 + 1) p c a /\
        l = command vehicle lead ahead origin p c a
    | None => forall t1 e' k t2, t ++ [(e, [])] = t1 ++ (e', [Ask k]) :: t2 -> sent t2 <> []
    end.
  Proof.
    intros I ->. assert (N := i_next _ _ I). destruct (next s) as [l|].
    - destruct N as (t1 & a & k & t2 & p & c & -> & Q & R). exists t1, a, k, (t2 ++ [(e, [])]), p, c.
      split; [rewrite <- app_assoc; reflexivity|]. split; [rewrite sent_snoc, Q; auto|auto].
    - intros t1 e' k t2 E. apply last_split in E. destruct E as [(_ & _ & Q)|(t2' & -> & E)]; [discriminate|].
      rewrite sent_snoc, app_nil_r. eapply N; eauto.
  Qed.

  Lemma inv_step t s e : inv t s -> inv (t ++ [(e, snd (step s e))]) (fst (step s e)).
  Proof.
    intros I. assert (P := i_pos _ _ I). assert (C := i_conf _ _ I). assert (D := i_id _ _ I).
    assert (Q := fun s' => next_quiet t e s s' I).
    assert (KP : (forall p', e <> State vehicle p') ->
                 match pos s with Some p => lastPos vehicle (map fst t ++ [e]) p
                 | None => forall p, ~ In (State vehicle p) (map fst t ++ [e]) end).
    { intros N. destruct (pos s); [apply lastPos_snoc; auto|]. intros p J. apply in_app_or in J.
      destruct J as [J|[J|[]]]; [eapply P; eauto|eapply N; eauto]. }
    assert (KC : (forall p', e <> Config vehicle p') ->
                 match conf s with Some p => lastConf vehicle (map fst t ++ [e]) p
                 | None => forall p, ~ In (Config vehicle p) (map fst t ++ [e]) end).
    { intros N. destruct (conf s); [apply lastConf_snoc; auto|]. intros p J. apply in_app_or in J.
      destruct J as [J|[J|[]]]; [eapply C; eauto|eapply N; eauto]. }
    assert (quiet : forall s', pos s' = pos s -> conf s' = conf s -> routeId s' = routeId s -> next s' = next s ->
              (forall p', e <> State vehicle p') -> (forall p', e <> Config vehicle p') ->
              inv (t ++ [(e, [])]) s').
    { intros s' E1 E2 E3 E4 N1 N2. constructor.
      - rewrite E1, map_app. apply KP; auto.
      - rewrite E2, map_app. apply KC; auto.
      - rewrite E3, asks_snoc. cbn. lia.
      - apply Q; auto. }
    destruct e as [v p|v c|id ns|a]; cbn [LeashModel.step snd fst].
    - destruct (Z.eqb_spec v vehicle) as [->|N]; [|apply quiet; auto; congruence].
      constructor; cbn [pos conf routeId].
      + rewrite map_app. apply lastPos_new.
      + rewrite map_app. apply KC. congruence.
      + rewrite asks_snoc. cbn. lia.
      + apply Q. reflexivity.
    - destruct (Z.eqb_spec v vehicle) as [->|N]; [|apply quiet; auto; congruence].
      constructor; cbn [pos conf routeId].
      + rewrite map_app. apply KP. congruence.
      + rewrite map_app. apply lastConf_new.
      + rewrite asks_snoc. cbn. lia.
      + apply Q. reflexivity.
    - destruct (next s) as [l|] eqn:EN; [|apply quiet; auto; congruence].
      destruct ns as [|n ns]; [apply quiet; auto; congruence|].
      destruct (_ && _); [|apply quiet; auto; congruence]. cbn [fst snd].
      constructor; cbn [pos conf routeId next].
      + rewrite map_app. apply KP. congruence.
      + rewrite map_app. apply KC. congruence.
      + rewrite asks_snoc. cbn. lia.
      + intros t1 e k t2 E. apply last_split in E. destruct E as [(_ & _ & E)|(t2' & -> & E)]; [discriminate|].
        rewrite sent_snoc. destruct (sent t2'); discriminate.
    - destruct (pos s) as [p|] eqn:EP; [|apply quiet; auto; congruence].
      destruct (conf s) as [c|] eqn:EC; [|apply quiet; auto; congruence].
      destruct (Z.eqb_spec (a_vehicle a) vehicle) as [EV|N]; [|apply quiet; auto; congruence].
      cbn [fst snd]. constructor; cbn [pos conf routeId next].
      + rewrite map_app. apply KP. congruence.
      + rewrite map_app. apply KC. congruence.
      + rewrite asks_snoc. cbn. lia.
      + exists t, a, (request vehicle lead buffer ahead (routeId s + 1) p c a), [], p, c.
        rewrite <- D. repeat split; auto.
  Qed.

  Lemma inv_run evs : inv (history evs) (fst (run step init evs)).
  Proof.
    unfold LeashModel.history. induction evs as [|e evs IH] using rev_ind.
    - constructor; cbn; auto. intros [|? ?]; discriminate.
    - rewrite run_snoc. cbn [fst snd]. apply inv_step; auto.
  Qed.

  Lemma at_state evs h x rest : history evs = h ++ x :: rest ->
    exists s, inv h s /\ snd x = snd (step s (fst x)).
  Proof.
    intros E. destruct (run_split _ _ _ _ _ _ E) as (s & H1 & _ & H2). exists s. split; auto.
    pose proof (inv_run (map fst h)) as I. unfold LeashModel.history in I. rewrite H1 in I. exact I.
  Qed.

  Lemma lastPos_fun h p p' : lastPos vehicle h p -> lastPos vehicle h p' -> p = p'.
  Proof.
    intros (a & b & -> & N) (a' & b' & E & N'). apply split_cases in E.
    destruct E as [(_ & E & _)|[(m & _ & E)|(m & _ & E)]]; [congruence| |]; exfalso.
    - eapply N. rewrite E. apply in_or_app; cbn; eauto.
    - eapply N'. rewrite E. apply in_or_app; cbn; eauto.
  Qed.
  Lemma lastConf_fun h p p' : lastConf vehicle h p -> lastConf vehicle h p' -> p = p'.
  Proof.
    intros (a & b & -> & N) (a' & b' & E & N'). apply split_cases in E.
    destruct E as [(_ & E & _)|[(m & _ & E)|(m & _ & E)]]; [congruence| |]; exfalso.
    - eapply N. rewrite E. apply in_or_app; cbn; eauto.
    - eapply N'. rewrite E. apply in_or_app; cbn; eauto.
  Qed.

  (** Every heading action for the vehicle, once its position and configuration are known, asks at
      once for a route from the position to a point straight ahead beyond the loiter, under a number
      not used before; any other action does nothing. *)
  Theorem C51_asked evs t a o rest :
    history evs = t ++ (Heading a, o) :: rest ->
    (forall p c, a_vehicle a = vehicle -> lastPos vehicle (map fst t) p -> lastConf vehicle (map fst t) c ->
       exists k, o = [Ask k] /\ k_vehicle k = vehicle /\ k_region k = a_region a /\ k_from k = p /\
         k_to k = ahead p (a_heading a)
                        ((match lead with Some d => d | None => a_lead a end) + buffer * a_radius a) /\
         (forall h ty, a_altitude a = Some (h, ty) -> k_altitude k = h) /\
         (a_altitude a = None -> k_altitude k = c_altitude c) /\
         forall k', In (Ask k') (sent t) -> k_id k' < k_id k) /\
    (a_vehicle a <> vehicle \/ (forall p, ~ In (State vehicle p) (map fst t)) \/
       (forall c, ~ In (Config vehicle c) (map fst t)) -> o = []).
  Proof.
    intros E. destruct (at_state _ _ _ _ E) as (s & I & EO). cbn [fst snd LeashModel.step] in EO.
    assert (P := i_pos _ _ I). assert (C := i_conf _ _ I). split.
    - intros p c EV LP LC.
      destruct (pos s) as [p'|]; [|destruct LP as (x & y & Q & _); exfalso; apply (P p); rewrite Q; apply in_or_app; cbn; auto].
      destruct (conf s) as [c'|]; [|destruct LC as (x & y & Q & _); exfalso; apply (C c); rewrite Q; apply in_or_app; cbn; auto].
      rewrite <- (lastPos_fun _ _ _ LP P), <- (lastConf_fun _ _ _ LC C) in EO.
      rewrite (proj2 (Z.eqb_eq _ _) EV) in EO. cbn [snd] in EO. eexists. split; [exact EO|].
      cbn [k_vehicle k_region k_from k_to k_altitude k_id request].
      do 4 (split; [reflexivity|]). split; [intros h ty ->; reflexivity|]. split; [intros ->; reflexivity|].
      intros k' J. rewrite (i_id _ _ I).
      (* numbers of earlier requests *)
      clear -E J. apply in_sent in J. destruct J as (t1 & e & o' & t2 & -> & J).
      rewrite <- app_assoc in E. destruct (at_state _ _ _ _ E) as (s & I & EO). cbn [fst snd] in EO. subst o'.
      assert (L : k_id k' = asks t1 + 1 /\ filter isAsk (snd (step s e)) <> []).
      { destruct e as [v p0|v c0|id ns|a0]; cbn [LeashModel.step snd fst] in *; try (destruct J; fail).
        - destruct (next s); [|destruct J]. destruct ns; [destruct J|]. destruct (_ && _); [|destruct J].
          destruct J as [J|[]]; discriminate.
        - destruct (pos s); [|destruct J]. destruct (conf s); [|destruct J].
          destruct (_ =? _); [|destruct J]. destruct J as [J|[]]; injection J as <-.
          cbn [k_id request]. rewrite (i_id _ _ I). split; [reflexivity|discriminate]. }
      destruct L as (-> & L). unfold asks. unfold sent. rewrite flat_map_app. cbn [flat_map snd].
      rewrite !filter_app, !app_length.
      destruct (filter isAsk (snd (step s e))) eqn:F; [contradiction|].
      cbn [length]. lia.
    - intros H. subst o. destruct (pos s) as [p|]; [|reflexivity]. destruct (conf s) as [c|]; [|reflexivity].
      destruct (Z.eqb_spec (a_vehicle a) vehicle) as [EV|NV]; [|reflexivity]. exfalso.
      destruct H as [H|[H|H]]; auto.
      + destruct P as (x & y & Q & _). apply (H p). rewrite Q. apply in_or_app; cbn; auto.
      + destruct C as (x & y & Q & _). apply (H c). rewrite Q. apply in_or_app; cbn; auto.
  Qed.

  (** A loiter is sent only on a response to the latest route request, whose first route is direct,
      that is has one or two waypoints; the request was not used for a loiter before, and the loiter
      is the one that was asked for. *)
  Theorem C51_only evs t e o rest l :
    history evs = t ++ (e, o) :: rest -> In (Command l) o ->
    exists t1 a k t2 p c n ns,
      t = t1 ++ (Heading a, [Ask k]) :: t2 /\ sent t2 = [] /\ e = Routes (k_id k) (n :: ns) /\
      (n = 1 \/ n = 2)%nat /\ o = [Command l] /\
      lastPos vehicle (map fst t1) p /\ lastConf vehicle (map fst t1) c /\
      fits vehicle lead ahead p c a l.
  Proof.
    intros E J. destruct (at_state _ _ _ _ E) as (s & I & EO). cbn [fst snd] in EO.
    assert (N := i_next _ _ I). assert (D := i_id _ _ I).
    destruct e as [v p|v c|id ns|a]; cbn [LeashModel.step snd] in EO; subst o; try (destruct J; fail).
    - destruct (next s) as [l'|]; [|destruct J]. destruct ns as [|n ns]; [destruct J|].
      destruct (_ && _) eqn:B; [|destruct J]. destruct J as [[= <-]|[]].
      apply andb_true_iff in B. destruct B as (B & B3). apply andb_true_iff in B. destruct B as (B1 & B2).
      apply Z.eqb_eq in B1. apply negb_true_iff, Nat.eqb_neq in B2. apply Nat.ltb_lt in B3.
      destruct N as (t1 & a & k & t2 & p & c & -> & S2 & LP & LC & EK & ->).
      exists t1, a, k, t2, p, c, n, ns. split; auto. split; auto. split.
      { f_equal. rewrite B1, D, EK. cbn [k_id request]. unfold asks, sent. rewrite flat_map_app.
        cbn [flat_map snd]. unfold sent in S2. rewrite S2, app_nil_r, filter_app, app_length. cbn. lia. }
      split; [lia|]. split; auto. split; auto. split; auto.
      unfold fits. cbn [l_vehicle l_radius l_tasks l_centre l_altitude l_altitudeType l_speed command].
      repeat split; auto; intros.
      + rewrite H. reflexivity.
      + rewrite H. reflexivity.
      + rewrite H. reflexivity.
      + rewrite H. reflexivity.
      + rewrite H. reflexivity.
    - destruct (pos s); [|destruct J]. destruct (conf s); [|destruct J]. destruct (_ =? _); [|destruct J].
      destruct J as [J|[]]; discriminate.
  Qed.

  (** A direct route answering the latest request leads to the loiter. *)
  Theorem C51_sent evs t1 a k t2 n ns o rest :
    history evs = t1 ++ (Heading a, [Ask k]) :: t2 ++ (Routes (k_id k) (n :: ns), o) :: rest ->
    sent t2 = [] -> (n = 1 \/ n = 2)%nat -> exists l, o = [Command l].
  Proof.
    intros E S2 L. assert (E2 : history evs = (t1 ++ (Heading a, [Ask k]) :: t2) ++ (Routes (k_id k) (n :: ns), o) :: rest)
      by (rewrite E, <- app_assoc; reflexivity).
    destruct (at_state _ _ _ _ E2) as (s & I & EO). cbn [fst snd LeashModel.step] in EO.
    assert (N := i_next _ _ I). assert (D := i_id _ _ I).
    destruct (next s) as [l|].
    - exists l. rewrite EO.
      assert (EK : k_id k = routeId s).
      { destruct (at_state _ _ _ _ E) as (s1 & I1 & EO1). cbn [fst snd LeashModel.step] in EO1.
        destruct (pos s1); [|cbn in EO1; discriminate EO1]. destruct (conf s1); [|cbn in EO1; discriminate EO1].
        destruct (a_vehicle a =? vehicle); [|cbn in EO1; discriminate EO1]. injection EO1 as ->. cbn [k_id request].
        rewrite D, (i_id _ _ I1). unfold asks, sent. rewrite flat_map_app.
        cbn [flat_map snd]. unfold sent in S2. rewrite S2, app_nil_r, filter_app, app_length. cbn. lia. }
      rewrite EK, Z.eqb_refl. destruct L as [-> | ->]; reflexivity.
    - exfalso. eapply N; eauto.
  Qed.
End C51.

(** The vehicle 7 at place 100, headings and distances add up. *)
Definition sum (p h d : Z) : Z := p + h * d.
Definition cfg : config := {| c_altitude := 50; c_altitudeType := 0; c_speed := 20 |}.
Definition act (rate : bool) (alt : option (Z * Z)) : action :=
  {| a_vehicle := 7; a_region := 3; a_heading := 1; a_lead := 1000; a_radius := 10; a_rate := rate;
     a_altitude := alt; a_speed := None; a_tasks := [4] |}.
Definition play (evs : list ev) : list (ev * list out) := history 7 None 2 sum 0 evs.

Definition turn : list ev :=
  [Heading (act false None); State 7 100; State 8 200; Config 7 cfg; Heading (act false None);
   Routes 1 [3%nat]; State 7 150; Heading (act false None); Routes 1 [2%nat]; Routes 2 [2%nat; 4%nat];
   Routes 2 [1%nat]].

(** The first way is not free and the next heading replaces it; its route is then no longer
    accepted. *)
Example C51_turn :
  map snd (play turn) =
  [[]; []; []; [];
   [Ask {| k_id := 1; k_vehicle := 7; k_region := 3; k_from := 100; k_to := 1120; k_altitude := 50 |}];
   []; [];
   [Ask {| k_id := 2; k_vehicle := 7; k_region := 3; k_from := 150; k_to := 1170; k_altitude := 50 |}];
   [];
   [Command {| l_vehicle := 7; l_centre := 1150; l_altitude := 50; l_altitudeType := 0; l_speed := 20;
               l_radius := 10; l_tasks := [4] |}];
   []].
Proof. vm_compute. reflexivity. Qed.

(** The altitude asked for is not the one of the loiter: its type is. *)
Theorem C51_altitude_refuted :
  exists evs l, In (Heading (act false (Some (300, 0)))) evs /\
    sent (play evs) = [Ask {| k_id := 1; k_vehicle := 7; k_region := 3; k_from := 100; k_to := 1120;
                              k_altitude := 300 |}; Command l] /\
    l_altitude l = 0.
Proof.
  exists [State 7 100; Config 7 cfg; Heading (act false (Some (300, 0))); Routes 1 [2%nat]].
  eexists. split; [cbn; auto|]. split; [vm_compute; reflexivity|]. reflexivity.
Qed.

(** A heading rate leads to a loiter at latitude and longitude 0, wherever the vehicle is, while the
    route is planned straight ahead. *)
Theorem C51_rate_refuted :
  exists evs l, In (Heading (act true None)) evs /\
    sent (play evs) = [Ask {| k_id := 1; k_vehicle := 7; k_region := 3; k_from := 100; k_to := 1120;
                              k_altitude := 50 |}; Command l] /\
    l_centre l = 0.
Proof.
  exists [State 7 100; Config 7 cfg; Heading (act true None); Routes 1 [2%nat]].
  eexists. split; [cbn; auto|]. split; [vm_compute; reflexivity|]. reflexivity.
Qed.

Print Assumptions C51_asked.
Print Assumptions C51_only.
Print Assumptions C51_sent.
Print Assumptions C51_altitude_refuted.
Print Assumptions C51_rate_refuted.

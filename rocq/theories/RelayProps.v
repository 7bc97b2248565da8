(** Proofs about where a radio relay goes. *)
From Coq Require Import Reals Lra List ZArith Lia Bool.
From Verif Require Import ZMap Latest FlatEarthModel FlatEarthProps RelayModel RelaySpec.
Import ListNotations.
Open Scope R_scope.

Definition place_of (o : option (pt * R)) : option pt := option_map fst o.
Lemma reported_at v h : place_of (follow (reported v) h) = follow (at_ v) h.
Proof. induction h as [|e h IH] using rev_ind; [reflexivity|]. rewrite !follow_snoc. destruct e as [u p a k|u c|u|la lo]; cbn [reported at_]; try exact IH. destruct (Z.eqb u v); [reflexivity|exact IH]. Qed.

Definition may (t : task) (v : Z) : bool := (match eligible t with [] => true | _ => false end || zin v (eligible t))%bool.
Lemma may_listed t v : may t v = true <-> listed t v.
Proof.
  unfold may, listed. destruct (eligible t) as [|x l]; [split; [left; reflexivity|reflexivity]|]. cbn [orb]. rewrite zin_In. split; [right; assumption|intros [H|H]; [discriminate H|exact H]].
Qed.

Section Runs.
  Context (t : task).
  Local Notation run := (run t).
  Local Notation step := (step t).
  Definition known (e : earth) : Prop := e = fresh \/ exists la lo, e = initialize la lo fresh.

  Lemma run_snoc s h e : run s (h ++ [e]) = fst (step (run s h) e).
  Proof. unfold RelayModel.run. rewrite fold_left_app. reflexivity. Qed.

  Lemma known_initialize e la lo : known e -> exists a b, initialize la lo e = initialize a b fresh /\ (e = fresh /\ a = la \/ initialize la lo e = e).
  Proof.
    intros [->|(a & b & ->)]; [exists la, lo; split; [reflexivity|left; split; reflexivity]|]. exists a, b. rewrite initialize_ready by apply ready_initialize. split; [reflexivity|right; reflexivity].
  Qed.
  Lemma half_way_converter s x p : known (converter s) -> known (fst (half_way t s x p)).
  Proof.
    intros K. unfold half_way. destruct (tower_place t s) as [y|]; [|exact K]. unfold deg_ne_m. cbv zeta. cbn [fst]. destruct (known_initialize _ (fst y * deg_to_rad) (snd y * deg_to_rad) K) as (a & b & E & _). rewrite E.
    rewrite initialize_ready by apply ready_initialize. right. exists a, b. reflexivity.
  Qed.
  Lemma target_converter s v p a : known (converter s) -> known (fst (target t s v p a)).
  Proof. intros K. unfold target. destruct (last s) as [x|]; [|exact K]. pose proof (half_way_converter s x p K) as H. destruct (half_way t s x p) as (e, q). exact H. Qed.

  Lemma inv h : let s := run (init t) h in
    last s = match follow (at_ (supported t)) h with Some x => Some x | None => if Z.eqb (supported t) 0 then destination t else None end
    /\ (forall v, zget (places s) v = follow (reported v) h) /\ (forall v, zget (configs s) v = if may t v then keep (configured v) h else None) /\ known (converter s).
  Proof.
    cbv zeta. induction h as [|e h (L & M & C & K)] using rev_ind; [cbn; repeat split; [intros v; destruct (may t v); reflexivity|left; reflexivity]|].
    rewrite run_snoc. set (s := run (init t) h) in *. rewrite !follow_snoc. destruct e as [v p a asked|v c|v|la lo]; cbn [RelayModel.step at_].
    - match goal with |- context [target t ?x v p a] => set (s1 := x) end. assert (K1 : known (converter s1)) by exact K. pose proof (target_converter s1 v p a K1) as TC.
      assert (KC : forall c out, (if asked then (let '(c, x) := target t s1 v p a in (c, [x])) else (converter s, [])) = (c, out) -> known c).
      { intros c out. destruct asked; [destruct (target t s1 v p a) as (c', x); intros E; injection E as <- <-; exact TC|intros E; injection E as <- <-; exact K]. }
      cbn [converter] in *. destruct (if asked then _ else _) as (c, out). cbn [fst last places configs converter s1]. split; [destruct (Z.eqb v (supported t)); [reflexivity|exact L]|].
      split; [intros u; rewrite follow_snoc, zget_set; cbn [reported]; rewrite (Z.eqb_sym u v); destruct (Z.eqb v u); [reflexivity|apply M]|]. split; [intros u; rewrite keep_snoc; cbn [configured]; rewrite C; destruct (may t u); [destruct (keep (configured u) h); reflexivity|reflexivity]|exact (KC _ _ eq_refl)].
    - change (match eligible t with [] => true | _ :: _ => false end || zin v (eligible t))%bool with (may t v). cbn [fst].
      assert (KEEP : forall u, Z.eqb v u = false \/ may t v = false \/ zget (configs s) v <> None -> zget (configs s) u = if may t u then keep (configured u) (h ++ [Config v c]) else None).
      { intros u Q. rewrite keep_snoc, C. cbn [configured]. destruct (may t u) eqn:MU; [|reflexivity]. destruct (keep (configured u) h) eqn:KU; [reflexivity|]. destruct (Z.eqb_spec v u) as [->|]; [|reflexivity]. destruct Q as [Q|[Q|Q]]; [discriminate Q|congruence|]. destruct Q. rewrite C, MU. exact KU. }
      destruct (may t v) eqn:MV; [|split; [exact L|]; split; [intros u; rewrite follow_snoc; apply M|]; split; [intros u; apply KEEP; auto|exact K]].
      destruct (zget (configs s) v) as [c'|] eqn:ZV; [split; [exact L|]; split; [intros u; rewrite follow_snoc; apply M|]; split; [intros u; apply KEEP; right; right; discriminate|exact K]|].
      cbn [last places configs converter]. split; [exact L|]. split; [intros u; rewrite follow_snoc; apply M|]. split; [|exact K]. intros u. rewrite zget_set, (Z.eqb_sym u v). destruct (Z.eqb v u) eqn:VU; [|apply KEEP; left; exact VU].
      apply Z.eqb_eq in VU. subst u. rewrite MV, keep_snoc. rewrite C, MV in ZV. rewrite ZV. cbn [configured]. rewrite Z.eqb_refl. reflexivity.
    - assert (KEEP : (forall u, zget (places s) u = follow (reported u) (h ++ [Options v])) /\ (forall u, zget (configs s) u = if may t u then keep (configured u) (h ++ [Options v]) else None)).
      { split; intros u; [rewrite follow_snoc; apply M|rewrite keep_snoc, C; cbn [configured]; destruct (may t u); [destruct (keep (configured u) h); reflexivity|reflexivity]]. }
      destruct KEEP as (K1 & K2). destruct (zget (places s) v) as [(p, a)|]; [|auto]. destruct (zget (configs s) v) as [c|]; [|auto]. pose proof (target_converter s v p a K) as TC. destruct (target t s v p a) as (c', x). cbn [fst last places configs converter] in *. auto.
    - cbn [fst last places configs converter]. split; [exact L|]. split; [intros u; rewrite follow_snoc; apply M|]. split; [intros u; rewrite keep_snoc, C; cbn [configured]; destruct (may t u); [destruct (keep (configured u) h); reflexivity|reflexivity]|].
      unfold deg_ne_m. cbn [fst]. destruct (known_initialize _ (la * deg_to_rad) (lo * deg_to_rad) K) as (a & b & -> & _). right. exists a, b. reflexivity.
  Qed.

  (** What the task believes. *)
  Lemma believed_supported h x : last (run (init t) h) = Some x <-> supported_at t h x.
  Proof.
    destruct (inv h) as (-> & _). unfold supported_at. destruct (follow (at_ (supported t)) h) as [y|] eqn:F.
    - split; [intros E; injection E as <-; left; apply follow_latest, F|]. intros [L|(U & _)]; [apply follow_latest in L; congruence|apply follow_unsaid in U; congruence].
    - destruct (Z.eqb_spec (supported t) 0) as [Z|Z].
      + split; [intros D; right; split; [apply follow_unsaid, F|auto]|]. intros [L|(_ & _ & D)]; [apply follow_latest in L; congruence|exact D].
      + split; [discriminate|]. intros [L|(_ & N & _)]; [apply follow_latest in L; congruence|contradiction].
  Qed.
  Lemma believed_config h v c : zget (configs (run (init t) h)) v = Some c <-> known_config t h v c.
  Proof.
    destruct (inv h) as (_ & _ & C & _). rewrite C. unfold known_config. rewrite <- keep_earliest, <- may_listed. destruct (may t v); [split; [auto|intros (_ & H); exact H]|split; [discriminate|intros (H & _); discriminate H]].
  Qed.
  Lemma believed_tower s h y : (forall v, zget (places s) v = follow (reported v) h) -> (forall v c, zget (configs s) v = Some c <-> known_config t h v c) -> tower_place t s = Some y <-> tower_at t h y.
  Proof.
    intros M C. unfold tower_place, tower_at. rewrite M. pose proof (reported_at (tower t) h) as R. destruct (follow (reported (tower t)) h) as [x|]; cbn [place_of option_map] in R.
    - split; [intros E; injection E as <-; left; apply follow_latest; auto|]. intros [L|(U & _)]; [apply follow_latest in L; congruence|apply follow_unsaid in U; congruence].
    - split.
      + destruct (zget (configs s) (tower t)) as [c|] eqn:Z; [|discriminate]. intros E. right. split; [apply follow_unsaid; auto|]. exists c. split; [apply C, Z|exact E].
      + intros [L|(_ & c & K & E)]; [apply follow_latest in L; congruence|]. apply C in K. rewrite K. exact E.
  Qed.
  Lemma middle_spec x y : middle x y (((y + x) / 2) * (rad_to_deg * deg_to_rad)).
  Proof.
    unfold middle. replace ((y + x) / 2 * (rad_to_deg * deg_to_rad) - (x + y) / 2) with ((rad_to_deg * deg_to_rad - 1) * ((x + y) / 2)) by field. rewrite Rabs_mult. apply Rmult_le_compat_r; [apply Rabs_pos|]. unfold rad_to_deg, deg_to_rad. rewrite Rabs_left; lra.
  Qed.
  Lemma target_sent s hs ht v p a c q b : known (converter s) -> (forall x, last s = Some x <-> supported_at t hs x) -> (forall u d, zget (configs s) u = Some d <-> known_config t hs u d) -> (forall y, tower_place t s = Some y <-> tower_at t ht y) ->
    target t s v p a = (c, (q, b)) -> sent t hs ht v p a (converter s) c q b.
  Proof.
    intros K L C W E. unfold target in E. unfold sent. destruct (last s) as [x|] eqn:LS.
    - right. exists x. split; [apply L; reflexivity|]. unfold half_way in E. destruct (tower_place t s) as [y|] eqn:TP.
      + unfold deg_ne_m in E. cbv zeta in E. destruct (known_initialize _ (fst y * deg_to_rad) (snd y * deg_to_rad) K) as (la & lo & I & O). rewrite I in *. rewrite initialize_ready in E by apply ready_initialize.
        assert (E1 : initialize la lo fresh = c) by congruence. assert (E2 : snd (initialize la lo fresh, b) = b) by reflexivity. pose proof (f_equal (fun z => fst (snd z)) E) as EQ. pose proof (f_equal (fun z => snd (snd z)) E) as EB. cbn [fst snd] in EQ, EB. clear E E2.
        split; [unfold altitude_for; destruct (zget (configs s) v) as [d|] eqn:ZC; [left; exists d; split; [apply C, ZC|auto]|right; split; [intros d D; apply C in D; congruence|auto]]|].
        right. exists y. split; [apply W; reflexivity|]. exists la, lo. split; [auto|]. split; [destruct O as [(O1 & O2)|O]; [left; auto|right; congruence]|]. intros B. pose proof (origin_values la lo) as V. cbv zeta in V. destruct V as (LA & LO & _ & M & _). pose proof (small_pos la lo B) as P.
        rewrite <- EQ. unfold m_ll_deg. cbn [fst snd]. rewrite LA, LO. destruct (Rle_dec (meridional (initialize la lo fresh)) 0); [lra|]. destruct (Rle_dec (small (initialize la lo fresh)) 0); [lra|]. set (m := meridional _) in *. set (sm := small _) in *. cbn [fst snd]. split.
        * replace (_ * rad_to_deg) with ((fst y + fst x) / 2 * (rad_to_deg * deg_to_rad)) by (field; lra). apply middle_spec.
        * replace (_ * rad_to_deg) with ((snd y + snd x) / 2 * (rad_to_deg * deg_to_rad)) by (field; lra). apply middle_spec.
      + injection E as <- <- <-. split; [unfold altitude_for; destruct (zget (configs s) v) as [d|] eqn:ZC; [left; exists d; split; [apply C, ZC|reflexivity]|right; split; [intros d D; apply C in D; congruence|reflexivity]]|].
        left. split; [intros y Y; apply W in Y; discriminate Y|reflexivity].
    - injection E as _ <- <-. left. split; [intros x X; apply L in X; discriminate X|auto].
  Qed.
End Runs.

(** A vehicle that reports itself when a location is asked for is sent half way between tower and supported one. *)
Theorem C84_report : forall t h v p a, let s := run t (init t) h in let e := Report v p a true in
  exists s' q b, step t s e = (s', [(q, b)]) /\ sent t h (h ++ [e]) v p a (converter s) (converter s') q b.
Proof.
  intros t h v p a s e. destruct (inv t h) as (L & M & C & K). fold s in L, M, C, K. unfold e. cbn [step]. set (s1 := {| last := last s; places := _; configs := _; converter := _ |}).
  destruct (target t s1 v p a) as (c, (q, b)) eqn:T. eexists _, q, b. split; [reflexivity|]. cbn [converter].
  assert (CF : forall u d, zget (configs s1) u = Some d <-> known_config t h u d) by (intros u d; apply believed_config).
  apply (target_sent t s1 h _ v p a c q b); [exact K|intros x; apply believed_supported|exact CF| |exact T].
  intros y. apply believed_tower.
  - intros u. cbn [places s1]. rewrite zget_set, follow_snoc. cbn [reported]. rewrite (Z.eqb_sym u v). destruct (Z.eqb v u); [reflexivity|apply M].
  - intros u d. rewrite CF. unfold known_config. rewrite <- !keep_earliest, keep_snoc. cbn [configured]. destruct (keep (configured u) h); reflexivity.
Qed.
(** So is one that is offered as an option, from where it reported itself last. *)
Theorem C84_options : forall t h v p a c0, latest (reported v) h (p, a) -> known_config t h v c0 -> let s := run t (init t) h in
  exists s' q b, step t s (Options v) = (s', [(q, b)]) /\ sent t h h v p a (converter s) (converter s') q b.
Proof.
  intros t h v p a c0 LP KC s. destruct (inv t h) as (L & M & C & K). fold s in L, M, C, K. cbn [step]. rewrite M. apply follow_latest in LP. rewrite LP. apply believed_config in KC. fold s in KC. rewrite KC.
  destruct (target t s v p a) as (c, (q, b)) eqn:T. eexists _, q, b. split; [reflexivity|]. cbn [converter].
  apply (target_sent t s h h v p a c q b); [exact K|intros x; apply believed_supported|intros u d; apply believed_config| |exact T]. intros y. apply believed_tower; [exact M|intros u d; apply believed_config].
Qed.
(** Nothing else is sent anywhere. *)
Theorem C84_silent : forall t h e, match e with Report _ _ _ asked => asked = false | Options v => unsaid (reported v) h \/ (forall c, ~ known_config t h v c) | _ => True end ->
  snd (step t (run t (init t) h) e) = [].
Proof.
  intros t h e H. destruct e as [v p a asked|v c|v|la lo]; cbn [step].
  - subst asked. reflexivity.
  - reflexivity.
  - destruct (inv t h) as (_ & M & _). rewrite M. destruct H as [H|H]; [apply follow_unsaid in H; rewrite H; reflexivity|]. destruct (follow (reported v) h) as [(p, a)|]; [|reflexivity]. destruct (zget (configs _) v) as [c|] eqn:Z; [|reflexivity]. destruct (H c). apply believed_config, Z.
  - reflexivity.
Qed.

(** A tower that is known by its configuration only is overlooked by a task that lists the vehicles that may be sent, but not the tower: the vehicle is to stay. *)
Theorem C84_tower_refuted : forall t h c y v p a, eligible t <> [] -> ~ In (tower t) (eligible t) -> latest (configured (tower t)) h c -> radio c = Some y -> unsaid (at_ (tower t)) h -> v <> tower t ->
  exists s' b, step t (run t (init t) h) (Report v p a true) = (s', [(p, b)]).
Proof.
  intros t h c y v p a NE NI _ _ U NV. destruct (C84_report t h v p a) as (s' & q & b & E & S). rewrite E. exists s', b. assert (Q : q = p); [|rewrite Q; reflexivity].
  destruct S as [(_ & Q & _)|(x & _ & _ & [(_ & Q)|(z & T & _)])]; try exact Q. exfalso. destruct T as [L|(_ & d & (LI & _) & _)]; [|destruct LI; contradiction].
  apply follow_latest in L. apply follow_unsaid in U. rewrite follow_snoc in L. cbn [at_] in L. destruct (Z.eqb_spec v (tower t)); [contradiction|congruence].
Qed.
Lemma supported_one t h x x' : supported_at t h x -> supported_at t h x' -> x = x'.
Proof. intros A B. apply believed_supported in A, B. congruence. Qed.
Lemma tower_one t h x x' : tower_at t h x -> tower_at t h x' -> x = x'.
Proof.
  destruct (inv t h) as (_ & M & _). intros A B. apply (believed_tower t (run t (init t) h) h) in A; [|exact M|intros; apply believed_config]. apply (believed_tower t (run t (init t) h) h) in B; [|exact M|intros; apply believed_config]. congruence.
Qed.
(** Half way between two places near both sides of the date line is on the other side of the earth. *)
Theorem C84_date_line_refuted : forall t h v p a x y la lo, let e := Report v p a true in supported_at t h x -> tower_at t (h ++ [e]) y -> snd x = 179 -> snd y = -179 ->
  converter (run t (init t) h) = initialize la lo fresh -> between_poles la -> exists s' q b, step t (run t (init t) h) e = (s', [(q, b)]) /\ snd q = 0.
Proof.
  intros t h v p a x y la lo e SX TY X Y CE BP. destruct (C84_report t h v p a) as (s' & q & b & E & S). fold e in E, S. exists s', q, b. split; [exact E|]. destruct S as [(N & _)|(x' & SX' & _ & [(N & _)|(y' & TY' & la' & lo' & C' & O & MM)])]; [destruct (N x SX)|destruct (N y TY)|].
  rewrite (supported_one _ _ _ _ SX' SX) in MM. rewrite (tower_one _ _ _ _ TY' TY) in MM. assert (LL : la' = la).
  { destruct O as [(F & _)|O].
    - exfalso. rewrite CE in F. pose proof (ready_initialize la lo fresh) as RD. rewrite F in RD. discriminate RD.
    - rewrite O, CE in C'. pose proof (origin_values la lo) as V1. pose proof (origin_values la' lo') as V2. cbv zeta in V1, V2. rewrite C' in V1. destruct V1 as (V1 & _), V2 as (V2 & _). congruence. }
  rewrite LL in MM. destruct (MM BP) as (_ & M). rewrite X, Y in M. unfold middle in M. replace ((179 + -179) / 2) with 0 in M by field. rewrite Rabs_R0, Rmult_0_r, Rminus_0_r in M. destruct (Req_dec (snd q) 0) as [Z|Z]; [exact Z|]. pose proof (Rabs_pos_lt _ Z). lra.
Qed.

(** A relay between a tower and a vehicle, with the origin of the converter in the area. *)
Definition ex_task : task := {| supported := 7; destination := None; tower := 3; eligible := [1; 3]%Z |}.
Definition ex_history : list ev := [Elsewhere 45 9; Config 3 {| nominal := 0; radio := Some (45, 9) |}; Config 1 {| nominal := 500; radio := None |}; Report 7 (46, 10) 0 false].
Example C84_meets : supported_at ex_task ex_history (46, 10) /\ tower_at ex_task (ex_history ++ [Report 1 (44, 8) 100 true]) (45, 9) /\ (exists c, known_config ex_task ex_history 1 c /\ nominal c = 500)
  /\ converter (run ex_task (init ex_task) ex_history) = initialize (45 * deg_to_rad) (9 * deg_to_rad) fresh /\ between_poles (45 * deg_to_rad).
Proof.
  split; [left; apply follow_latest; reflexivity|]. split; [right; split; [apply follow_unsaid; reflexivity|]; exists {| nominal := 0; radio := Some (45, 9) |}; split; [split; [right; right; left; reflexivity|apply keep_earliest; reflexivity]|reflexivity]|].
  split; [exists {| nominal := 500; radio := None |}; split; [split; [right; left; reflexivity|apply keep_earliest; reflexivity]|reflexivity]|]. split; [reflexivity|]. unfold between_poles, deg_to_rad. pose proof PiBounds.PI_bounds. lra.
Qed.
Example C84_options_meets : latest (reported 1) (ex_history ++ [Report 1 (44, 8) 100 false]) ((44, 8), 100) /\ known_config ex_task (ex_history ++ [Report 1 (44, 8) 100 false]) 1 {| nominal := 500; radio := None |}.
Proof. split; [apply follow_latest; reflexivity|]. split; [right; left; reflexivity|apply keep_earliest; reflexivity]. Qed.
Example C84_tower_meets : let t := {| supported := 7; destination := None; tower := 3; eligible := [1]%Z |} in
  eligible t <> [] /\ ~ In (tower t) (eligible t) /\ latest (configured (tower t)) ex_history {| nominal := 0; radio := Some (45, 9) |} /\ unsaid (at_ (tower t)) ex_history.
Proof. cbv zeta. cbn [eligible tower]. split; [discriminate|]. split; [intros [E|[]]; discriminate E|]. split; [apply follow_latest; reflexivity|apply follow_unsaid; reflexivity]. Qed.

Print Assumptions C84_report.
Print Assumptions C84_options.
Print Assumptions C84_silent.
Print Assumptions C84_tower_refuted.
Print Assumptions C84_date_line_refuted.
Example C84_date_line_meets : let h := [Elsewhere 0 179; Report 7 (0, 179) 0 false; Report 3 (0, -179) 0 false] in
  supported_at ex_task h (0, 179) /\ tower_at ex_task (h ++ [Report 1 (0, 178) 100 true]) (0, -179) /\ converter (run ex_task (init ex_task) h) = initialize (0 * deg_to_rad) (179 * deg_to_rad) fresh /\ between_poles (0 * deg_to_rad).
Proof.
  cbv zeta. split; [left; apply follow_latest; reflexivity|]. split; [left; apply follow_latest; reflexivity|]. split; [reflexivity|]. unfold between_poles. pose proof PiBounds.PI_bounds. lra.
Qed.

(** What the planner keeps after a history of messages. *)
From Coq Require Import List ZArith QArith Bool Lia.
From Verif Require Import ZMap Run Latest AirPlanModel AirPlanSpec AirPlanBuild.
Import ListNotations.
Open Scope list_scope.
Open Scope Z_scope.

Section Proofs.
  Context {B : Type} (outline : B -> option poly) (merge : list (poly * Z) -> option (list poly)) (trim : poly -> poly)
          (fits : list poly -> bool) (inside : list poly -> point -> bool)
          (way : list poly -> point -> point -> list point) (len : list point -> Q)
          (same : zone B -> zone B -> bool).
  Notation build_vehicle := (build_vehicle outline merge trim fits).
  Notation build_region := (build_region outline merge trim fits).
  Notation update_vehicle := (update_vehicle outline merge trim fits).
  Notation update_zone := (update_zone outline merge trim fits).
  Notation step := (step outline merge trim fits inside way len same).
  Notation state := (fun h => fst (run step init h)).

  (** The polygons kept for a region and a vehicle. *)
  Definition look (s : st B) (r v : Z) : option (list poly) := zget (inner (envs s) r) v.
  Definition bld (s : st B) := build outline merge trim fits (ins s) (outs s).
  Definition orelse (a b : option (list poly)) : option (list poly) := match a with Some _ => a | None => b end.

  (** Everything but the polygons. *)
  Definition fields (s s' : st B) : Prop :=
    states s' = states s /\ confs s' = confs s /\ ins s' = ins s /\ outs s' = outs s /\ regions s' = regions s
    /\ airs s' = airs s /\ surfaces s' = surfaces s /\ waters s' = waters s.
  Lemma fields_refl : forall s, fields s s.
  Proof. intros s. unfold fields. auto 10. Qed.
  Lemma fields_trans : forall a b c, fields a b -> fields b c -> fields a c.
  Proof. unfold fields. intuition congruence. Qed.
  Lemma fields_fold : forall (A : Type) (f : st B -> A -> st B), (forall s x, fields s (f s x)) ->
    forall l s, fields s (fold_left f l s).
  Proof.
    intros A f H l. induction l as [|x l IH]; intros s; [apply fields_refl|].
    cbn. eapply fields_trans; [apply H|apply IH].
  Qed.
  Lemma fields_vehicle : forall s r g v w, fields s (build_vehicle s r g v w).
  Proof.
    intros. unfold AirPlanModel.build_vehicle. destruct (build outline merge trim fits (ins s) (outs s) g v w); [|apply fields_refl].
    unfold fields, with_envs. cbn. auto 10.
  Qed.
  Lemma fields_region : forall s r g, fields s (build_region s r g).
  Proof.
    intros. unfold AirPlanModel.build_region. cbv zeta.
    eapply fields_trans; [|apply fields_fold; intros; apply fields_vehicle].
    eapply fields_trans; [|apply fields_fold; intros; apply fields_vehicle].
    unfold fields, with_envs. cbn. auto 10.
  Qed.
  Lemma fields_update : forall s v w z, fields s (update_vehicle s v w z).
  Proof.
    intros. unfold AirPlanModel.update_vehicle. cbv zeta.
    assert (F : fields s (fold_left (fun s rg => build_vehicle s (fst rg) (snd rg) v w) (regions s) s))
      by (apply fields_fold; intros; apply fields_vehicle).
    destruct (z && negb (zhas (regions s) 0)); [|exact F]. eapply fields_trans; [exact F|apply fields_vehicle].
  Qed.
  Lemma fields_zone : forall s f z, fields s (update_zone s f z).
  Proof.
    intros. unfold AirPlanModel.update_zone. apply fields_fold. intros s' x.
    destruct (zin z (f (snd x))); [apply fields_region|apply fields_refl].
  Qed.
  Lemma bld_fields : forall s s', fields s s' -> bld s' = bld s.
  Proof. intros s s' (_ & _ & I & O & _). unfold bld. rewrite I, O. reflexivity. Qed.
  Lemma water_fields : forall s s' v, fields s s' -> water_of s' v = water_of s v.
  Proof. intros s s' v (_ & C & _ & _ & _ & _ & _ & W). unfold water_of. rewrite C, W. reflexivity. Qed.

  (** Lookups. *)

  Lemma orelse_idem : forall a b, orelse a (orelse a b) = orelse a b.
  Proof. intros [a|] b; reflexivity. Qed.

  Lemma look_vehicle : forall s r g v w r' v', look (build_vehicle s r g v w) r' v' =
    if (r' =? r) && (v' =? v) then orelse (bld s g v w) (look s r' v') else look s r' v'.
  Proof.
    intros. unfold AirPlanModel.build_vehicle. fold (bld s). destruct (bld s g v w) as [l|] eqn:E.
    - unfold look, with_envs. cbn [envs]. unfold inner. rewrite zget_set.
      destruct (r' =? r) eqn:R; cbn [andb]; [|reflexivity]. apply Z.eqb_eq in R. subst r'.
      rewrite zget_set. destruct (v' =? v); reflexivity.
    - cbn [orelse]. destruct ((r' =? r) && (v' =? v)); reflexivity.
  Qed.

  Lemma look_vehicles : forall r g (w : st B -> Z -> option B), (forall s s' v, fields s s' -> w s' v = w s v) ->
    forall l s r' v', look (fold_left (fun s v => build_vehicle s r g v (w s v)) l s) r' v' =
      if (r' =? r) && zin v' l then orelse (bld s g v' (w s v')) (look s r' v') else look s r' v'.
  Proof.
    intros r g w HW l. induction l as [|v l IH]; intros s r' v'; cbn [fold_left].
    - cbn. rewrite andb_false_r. reflexivity.
    - pose proof (fields_vehicle s r g v (w s v)) as F.
      rewrite IH, look_vehicle, (bld_fields _ _ F), (HW _ _ _ F). unfold zin. cbn [existsb]. fold (zin v' l).
      destruct (r' =? r) eqn:R; cbn [andb]; [|reflexivity].
      destruct (v' =? v) eqn:V; cbn [orb]; [|reflexivity]. apply Z.eqb_eq in V. subst v'.
      destruct (zin v l); [apply orelse_idem|reflexivity].
  Qed.

  Lemma look_region : forall s r g r' v', look (build_region s r g) r' v' =
    if r' =? r
    then let a := if zin v' (airs s) then bld s g v' None else None in
         if zin v' (surfaces s) then orelse (bld s g v' (water_of s v')) a else a
    else look s r' v'.
  Proof.
    intros. unfold AirPlanModel.build_region. cbv zeta.
    set (s0 := with_envs s _).
    assert (F0 : fields s s0) by (unfold fields, s0, with_envs; cbn; auto 10).
    set (s1 := fold_left _ (airs s) s0).
    assert (F1 : fields s0 s1) by (apply fields_fold; intros; apply fields_vehicle).
    rewrite (look_vehicles r g water_of (fun a b v F => water_fields a b v F)).
    rewrite (bld_fields _ _ F1), (bld_fields _ _ F0), (water_fields _ _ _ F1), (water_fields _ _ _ F0).
    assert (L0 : look s0 r' v' = if r' =? r then None else look s r' v').
    { unfold look, s0, with_envs, inner. cbn [envs]. destruct (zget (envs s) r) as [m|] eqn:E.
      - rewrite zget_set. destruct (r' =? r); reflexivity.
      - destruct (r' =? r) eqn:R; [|reflexivity]. apply Z.eqb_eq in R. subst. rewrite E. reflexivity. }
    assert (L1 : look s1 r' v' = if r' =? r then (if zin v' (airs s) then bld s g v' None else None) else look s r' v').
    { unfold s1. rewrite (look_vehicles r g (fun _ _ => None)) by reflexivity.
      rewrite (bld_fields _ _ F0), L0. destruct (r' =? r); cbn [andb]; [|reflexivity].
      destruct (zin v' (airs s)); [|reflexivity]. destruct (bld s g v' None); reflexivity. }
    rewrite L1. destruct (r' =? r); cbn [andb]; reflexivity.
  Qed.

  Lemma look_regions : forall v w (m : zmap region) s r' v', NoDup (map fst m) ->
    look (fold_left (fun s rg => build_vehicle s (fst rg) (snd rg) v w) m s) r' v' =
      match zget m r' with
      | Some g => if v' =? v then orelse (bld s g v w) (look s r' v') else look s r' v'
      | None => look s r' v'
      end.
  Proof.
    intros v w m. induction m as [|(r, g) m IH]; intros s r' v' ND; [reflexivity|].
    cbn [fold_left fst snd]. inversion ND as [|x y NI ND']; subst.
    pose proof (fields_vehicle s r g v w) as F.
    rewrite IH by exact ND'. rewrite look_vehicle, (bld_fields _ _ F). cbn [zget].
    rewrite (Z.eqb_sym r r'). destruct (r' =? r) eqn:R; cbn [andb]; [|reflexivity].
    apply Z.eqb_eq in R. subst r'. rewrite (proj2 (zget_none m r) NI). reflexivity.
  Qed.

  Lemma look_update : forall s v w z r' v', NoDup (map fst (regions s)) ->
    look (update_vehicle s v w z) r' v' =
      if v' =? v then
        match zget (regions s) r' with
        | Some g => orelse (bld s g v w) (look s r' v')
        | None => if z && (r' =? 0) then orelse (bld s {| g_ins := []; g_outs := [] |} v w) (look s r' v') else look s r' v'
        end
      else look s r' v'.
  Proof.
    intros s v w z r' v' ND. unfold AirPlanModel.update_vehicle. cbv zeta.
    set (s1 := fold_left _ (regions s) s).
    assert (F : fields s s1) by (apply fields_fold; intros; apply fields_vehicle).
    assert (L : look s1 r' v' = match zget (regions s) r' with
      | Some g => if v' =? v then orelse (bld s g v w) (look s r' v') else look s r' v'
      | None => look s r' v' end) by (apply look_regions; exact ND).
    unfold zhas. destruct (z && negb (match zget (regions s) 0 with Some _ => true | None => false end)) eqn:E.
    - rewrite look_vehicle, L, (bld_fields _ _ F). apply andb_true_iff in E. destruct E as (-> & E).
      destruct (r' =? 0) eqn:R; cbn [andb].
      + apply Z.eqb_eq in R. subst r'. destruct (zget (regions s) 0); [discriminate|]. reflexivity.
      + destruct (zget (regions s) r'); destruct (v' =? v); reflexivity.
    - rewrite L. destruct (v' =? v) eqn:V; destruct (zget (regions s) r') eqn:G; try reflexivity.
      destruct (r' =? 0) eqn:R; [|rewrite andb_false_r; reflexivity]. apply Z.eqb_eq in R. subst r'. rewrite G in E.
      destruct z; [discriminate|reflexivity].
  Qed.

  Definition rebuilt (s : st B) (g : region) (v : Z) : option (list poly) :=
    let a := if zin v (airs s) then bld s g v None else None in
    if zin v (surfaces s) then orelse (bld s g v (water_of s v)) a else a.
  Lemma rebuilt_fields : forall s s' g v, fields s s' -> rebuilt s' g v = rebuilt s g v.
  Proof.
    intros s s' g v F. unfold rebuilt. rewrite (bld_fields _ _ F), (water_fields _ _ _ F).
    destruct F as (_ & _ & _ & _ & _ & -> & -> & _). reflexivity.
  Qed.

  Lemma look_zone : forall s f z r' v', NoDup (map fst (regions s)) ->
    look (update_zone s f z) r' v' =
      match zget (regions s) r' with
      | Some g => if zin z (f g) then rebuilt s g v' else look s r' v'
      | None => look s r' v'
      end.
  Proof.
    intros s0 f z r' v' ND. unfold AirPlanModel.update_zone.
    assert (G : forall m s, fields s0 s -> NoDup (map fst m) ->
      look (fold_left (fun s rg => if zin z (f (snd rg)) then build_region s (fst rg) (snd rg) else s) m s) r' v' =
      match zget m r' with
      | Some g => if zin z (f g) then rebuilt s0 g v' else look s r' v'
      | None => look s r' v'
      end).
    { induction m as [|(r, g) m IH]; intros s F N; [reflexivity|]. cbn [fold_left fst snd zget].
      inversion N as [|x y NI N']; subst.
      assert (F' : fields s0 (if zin z (f g) then build_region s r g else s)).
      { destruct (zin z (f g)); [eapply fields_trans; [exact F|apply fields_region]|exact F]. }
      rewrite IH by assumption. rewrite (Z.eqb_sym r r'). destruct (r' =? r) eqn:R.
      - apply Z.eqb_eq in R. subst r'. rewrite (proj2 (zget_none m r) NI).
        destruct (zin z (f g)); [|reflexivity]. rewrite look_region, Z.eqb_refl. apply (rebuilt_fields _ _ _ _ F).
      - destruct (zin z (f g)); [|reflexivity]. rewrite look_region, R. reflexivity. }
    apply G; [apply fields_refl|exact ND].
  Qed.

  Lemma look_waters : forall s0 z r' v', NoDup (map fst (regions s0)) -> forall m s, NoDup (map fst m) -> fields s0 s ->
    look (fold_left (fun s vc => match c_kind (snd vc) with
                                 | CSurface a => if a =? z then update_vehicle s (fst vc) (zget (waters s) a) true else s
                                 | _ => s
                                 end) m s) r' v' =
    match zget m v' with
    | Some c => match c_kind c with
                | CSurface a => if a =? z then
                    match zget (regions s0) r' with
                    | Some g => orelse (bld s0 g v' (zget (waters s0) a)) (look s r' v')
                    | None => if r' =? 0 then orelse (bld s0 {| g_ins := []; g_outs := [] |} v' (zget (waters s0) a)) (look s r' v')
                              else look s r' v'
                    end else look s r' v'
                | _ => look s r' v'
                end
    | None => look s r' v'
    end.
  Proof.
    intros s0 z r' v' NR m. induction m as [|(v, c) m IH]; intros s N F; [reflexivity|].
    cbn [fold_left fst snd zget]. inversion N as [|x y NI N']; subst.
    set (s1 := match c_kind c with CSurface a => if a =? z then update_vehicle s v (zget (waters s) a) true else s | _ => s end).
    assert (F1 : fields s s1).
    { unfold s1. destruct (c_kind c); try apply fields_refl. destruct (water =? z); [apply fields_update|apply fields_refl]. }
    rewrite (IH s1 N' (fields_trans _ _ _ F F1)). rewrite (Z.eqb_sym v v').
    assert (L : look s1 r' v' = if v' =? v then match c_kind c with
                | CSurface a => if a =? z then
                    match zget (regions s0) r' with
                    | Some g => orelse (bld s0 g v' (zget (waters s0) a)) (look s r' v')
                    | None => if r' =? 0 then orelse (bld s0 {| g_ins := []; g_outs := [] |} v' (zget (waters s0) a)) (look s r' v')
                              else look s r' v'
                    end else look s r' v'
                | _ => look s r' v'
                end else look s r' v').
    { unfold s1. destruct (c_kind c); try (destruct (v' =? v); reflexivity).
      destruct (water =? z); [|destruct (v' =? v); reflexivity].
      assert (R : regions s = regions s0) by apply F. assert (W : waters s = waters s0) by apply F.
      rewrite look_update by (rewrite R; exact NR). rewrite R, W, (bld_fields _ _ F). cbn [andb].
      destruct (v' =? v) eqn:V; [|reflexivity]. apply Z.eqb_eq in V. subst. reflexivity. }
    destruct (v' =? v) eqn:V.
    - apply Z.eqb_eq in V. subst v'. rewrite (proj2 (zget_none m v) NI). exact L.
    - rewrite L. reflexivity.
  Qed.

  (** The tables follow the history. *)

  Record inv (h : list (ev B)) (s : st B) : Prop := {
    i_states : forall v, zget (states s) v = follow (says_state v) h;
    i_confs : forall v, zget (confs s) v = follow (says_conf v) h;
    i_ins : forall z, zget (ins s) z = follow (says_in z) h;
    i_outs : forall z, zget (outs s) z = follow (says_out z) h;
    i_regions : forall r, zget (regions s) r = keep (says_region r) h;
    i_waters : forall z, zget (waters s) z = follow (says_water z) h;
    i_airs : forall v, In v (airs s) <-> air h v;
    i_surfaces : forall v, In v (surfaces s) <-> surface h v;
    i_nd_confs : NoDup (map fst (confs s));
    i_nd_regions : NoDup (map fst (regions s))
  }.

  Lemma air_snoc : forall h (e : ev B) v, air (h ++ [e]) v <-> air h v \/ is_air v e.
  Proof.
    intros h e v. unfold air. split.
    - intros (x & I & A). apply in_app_or in I. destruct I as [I|[<-|[]]]; [left; eauto|auto].
    - intros [(x & I & A)|A]; [exists x|exists e]; (split; [apply in_or_app; cbn; auto|exact A]).
  Qed.
  Lemma surface_snoc : forall h (e : ev B) v, surface (h ++ [e]) v <-> surface h v \/ is_surface v e.
  Proof.
    intros h e v. unfold surface. split.
    - intros (x & I & A). apply in_app_or in I. destruct I as [I|[<-|[]]]; [left; eauto|auto].
    - intros [(x & I & A)|A]; [exists x|exists e]; (split; [apply in_or_app; cbn; auto|exact A]).
  Qed.

  (** The fields after a message. *)
  Definition airs_after (s : st B) (e : ev B) : list Z :=
    match e with
    | State v SAir _ => zadd v (airs s)
    | Conf v c => match c_kind c with CAir _ => zadd v (airs s) | _ => airs s end
    | _ => airs s
    end.
  Definition surfaces_after (s : st B) (e : ev B) : list Z :=
    match e with
    | State v SSurface _ => zadd v (surfaces s)
    | Conf v c => match c_kind c with CSurface _ => zadd v (surfaces s) | _ => surfaces s end
    | _ => surfaces s
    end.
  Lemma step_fields : forall s e, let s' := fst (step s e) in
    states s' = match e with State v k x => match k with SOther => states s | _ => zset (states s) v x end | _ => states s end
    /\ confs s' = match e with Conf v c => match c_kind c with COther => confs s | _ => zset (confs s) v c end | _ => confs s end
    /\ ins s' = match e with KeepIn z x => zset (ins s) z x | _ => ins s end
    /\ outs s' = match e with KeepOut z x => zset (outs s) z x | _ => outs s end
    /\ regions s' = match e with Region r g => match zget (regions s) r with Some _ => regions s | None => zset (regions s) r g end
                    | _ => regions s end
    /\ waters s' = match e with Water z b => zset (waters s) z b | _ => waters s end
    /\ airs s' = airs_after s e /\ surfaces s' = surfaces_after s e.
  Proof.
    intros s e. cbv zeta. destruct e as [v k x|v c|z b|z x|z x|r g|sender q|]; cbn [AirPlanModel.step fst].
    - destruct k; cbn; auto 10.
      + pose proof (fields_update (put_state s v x) v None false) as F. unfold fields in F. cbn in F.
        destruct (zin v (airs s)); cbn; [auto 10|]. destruct F as (-> & -> & -> & -> & -> & -> & -> & ->). auto 10.
      + pose proof (fields_update (put_state s v x) v None false) as F. unfold fields in F. cbn in F.
        destruct (zin v (surfaces s)); cbn; [auto 10|]. destruct F as (-> & -> & -> & -> & -> & -> & -> & ->). auto 10.
    - unfold airs_after, surfaces_after. destruct (c_kind c) eqn:K; cbn; auto 10.
      + pose proof (fields_update (put_conf s v c) v None false) as F. unfold fields in F. cbn in F.
        destruct (zin v (airs s) || negb exact); cbn; [auto 10|]. destruct F as (-> & -> & -> & -> & -> & -> & -> & ->). auto 10.
      + pose proof (fields_update s v (zget (waters s) water) true) as F. unfold fields in F. cbn in F.
        destruct (zhas (confs s) v); cbn; [auto 10|]. destruct F as (-> & -> & -> & -> & -> & -> & -> & ->). auto 10.
    - set (s0 := put_water s z b).
      assert (F : fields s0 (fold_left (fun s vc => match c_kind (snd vc) with
                                | CSurface a => if a =? z then update_vehicle s (fst vc) (zget (waters s) a) true else s
                                | _ => s
                                end) (confs s) s0)).
      { apply fields_fold. intros s' (v, c). cbn [fst snd]. destruct (c_kind c); try apply fields_refl.
        destruct (water =? z); [apply fields_update|apply fields_refl]. }
      unfold fields in F. destruct F as (-> & -> & -> & -> & -> & -> & -> & ->). unfold s0. cbn. auto 10.
    - pose proof (fields_zone s g_ins z) as F. unfold fields in F.
      destruct (zget (ins s) z) as [y|]; [destruct (same y x)|]; cbn; auto 10.
      destruct F as (-> & -> & -> & -> & -> & -> & -> & ->). auto 10.
    - pose proof (fields_zone s g_outs z) as F. unfold fields in F.
      destruct (zget (outs s) z) as [y|]; [destruct (same y x)|]; cbn; auto 10.
      destruct F as (-> & -> & -> & -> & -> & -> & -> & ->). auto 10.
    - destruct (zget (regions s) r) as [g0|].
      + destruct (same_region g0 g); [cbn; auto 10|].
        pose proof (fields_region s r g) as (-> & -> & -> & -> & -> & -> & -> & ->). cbn. auto 10.
      + pose proof (fields_region (put_region s r g) r g) as (-> & -> & -> & -> & -> & -> & -> & ->). cbn. auto 10.
    - cbn. auto 10.
    - cbn. auto 10.
  Qed.

  Lemma NoDup_zset : forall (A : Type) (m : zmap A) k x, NoDup (map fst m) -> NoDup (map fst (zset m k x)).
  Proof. intros. apply NoDup_keys_zset. assumption. Qed.

  Lemma inv_step : forall h s e, inv h s -> inv (h ++ [e]) (fst (step s e)).
  Proof.
    intros h s e I. destruct (step_fields s e) as (ES & EC & EI & EO & ER & EW & EA & EF).
    destruct I as [JS JC JI JO JR JW JA JF NC NR].
    constructor; intros.
    - rewrite ES, follow_snoc. destruct e as [u k x| | | | | | |]; cbn [says_state]; auto.
      destruct k; [rewrite zget_set, (Z.eqb_sym v u); destruct (u =? v); auto ..|destruct (u =? v); auto].
    - rewrite EC, follow_snoc. destruct e as [|u c| | | | | |]; cbn [says_conf]; auto.
      destruct (c_kind c); [rewrite zget_set, (Z.eqb_sym v u); destruct (u =? v); auto ..|destruct (u =? v); auto].
    - rewrite EI, follow_snoc. destruct e; cbn [says_in]; auto. rewrite zget_set, (Z.eqb_sym z z0). destruct (z0 =? z); auto.
    - rewrite EO, follow_snoc. destruct e; cbn [says_out]; auto. rewrite zget_set, (Z.eqb_sym z z0). destruct (z0 =? z); auto.
    - rewrite ER, keep_snoc. destruct e; cbn [says_region]; try (rewrite JR; destruct (keep (says_region r) h); reflexivity).
      destruct (zget (regions s) r0) as [g0|] eqn:G.
      + rewrite JR. destruct (keep (says_region r) h) eqn:K; [reflexivity|]. destruct (r0 =? r) eqn:E; [|reflexivity].
        apply Z.eqb_eq in E. subst. rewrite JR in G. congruence.
      + rewrite zget_set, (Z.eqb_sym r r0). destruct (r0 =? r) eqn:E.
        * apply Z.eqb_eq in E. subst. rewrite <- JR, G. reflexivity.
        * rewrite JR. destruct (keep (says_region r) h); reflexivity.
    - rewrite EW, follow_snoc. destruct e; cbn [says_water]; auto. rewrite zget_set, (Z.eqb_sym z z0). destruct (z0 =? z); auto.
    - rewrite EA, air_snoc, <- JA. unfold airs_after, is_air. destruct e as [u k x|u c|z b|z x|z x|r g|sender q|];
        try (split; [auto|]; intros [H|[(? & H)|(? & ? & H & _)]]; [exact H|discriminate H|discriminate H]).
      + destruct k; try (split; [auto|]; intros [H|[(? & H)|(? & ? & H & _)]]; [exact H|discriminate H|discriminate H]).
        rewrite In_zadd. split.
        * intros [->|H]; [right; left; eauto|auto].
        * intros [H|[(y & H)|(? & ? & H & _)]]; [auto|injection H as -> _; auto|discriminate].
      + destruct (c_kind c) eqn:K;
          try (split; [auto|]; intros [H|[(? & H)|(? & ? & H & X)]]; [exact H|discriminate H|injection H as _ <-; congruence]).
        rewrite In_zadd. split.
        * intros [->|H]; [right; right; eauto|auto].
        * intros [H|[(y & H)|(? & ? & H & _)]]; [auto|discriminate|injection H as -> _; auto].
    - rewrite EF, surface_snoc, <- JF. unfold surfaces_after, is_surface. destruct e as [u k x|u c|z b|z x|z x|r g|sender q|];
        try (split; [auto|]; intros [H|[(? & H)|(? & ? & H & _)]]; [exact H|discriminate H|discriminate H]).
      + destruct k; try (split; [auto|]; intros [H|[(? & H)|(? & ? & H & _)]]; [exact H|discriminate H|discriminate H]).
        rewrite In_zadd. split.
        * intros [->|H]; [right; left; eauto|auto].
        * intros [H|[(y & H)|(? & ? & H & _)]]; [auto|injection H as -> _; auto|discriminate].
      + destruct (c_kind c) eqn:K;
          try (split; [auto|]; intros [H|[(? & H)|(? & ? & H & X)]]; [exact H|discriminate H|injection H as _ <-; congruence]).
        rewrite In_zadd. split.
        * intros [->|H]; [right; right; eauto|auto].
        * intros [H|[(y & H)|(? & ? & H & _)]]; [auto|discriminate|injection H as -> _; auto].
    - rewrite EC. destruct e; auto. destruct (c_kind c); auto using NoDup_zset.
    - rewrite ER. destruct e; auto. destruct (zget (regions s) r); auto using NoDup_zset.
  Qed.

  Lemma inv_run : forall h, inv h (state h).
  Proof.
    intros h. induction h as [|e h IH] using rev_ind.
    - constructor; intros; try reflexivity; cbn; try (split; [intros []|intros (e & [] & _)]); constructor.
    - rewrite run_snoc. cbn [fst]. apply inv_step. exact IH.
  Qed.
End Proofs.

(** Invariants of the search. *)
From Coq Require Import List ZArith Lia Bool Wf_nat.
From Verif Require Import ZMap AStarModel AStarSpec.
Import ListNotations.
Open Scope list_scope.
Open Scope Z_scope.

(** *** Chains of predecessors *)
Inductive chain (p : zmap Z) : Z -> list Z -> Prop :=
| chain_root : forall v, zget p v = Some v -> chain p v [v]
| chain_next : forall v u l, zget p v = Some u -> u <> v -> chain p u l -> chain p v (v :: l).

Lemma chain_head p v l : chain p v l -> exists l', l = v :: l'.
Proof. intros C. destruct C; eexists; reflexivity. Qed.

Lemma chain_trail p v l : chain p v l -> forall fuel acc, (length l <= fuel)%nat -> trail fuel p v acc = Some (rev l ++ acc).
Proof.
  induction 1 as [v G|v u l G N C IH]; intros fuel acc F; (destruct fuel as [|fuel]; [cbn in F; lia|]); cbn [trail]; rewrite G.
  - rewrite Z.eqb_refl. reflexivity.
  - rewrite (proj2 (Z.eqb_neq u v) N). rewrite IH by (cbn in F; lia). cbn [rev]. rewrite <- app_assoc. reflexivity.
Qed.

Section Search.
  Context (es : list (Z * Z * Z)) (h : Z -> Z) (both : bool) (choose : list (Z * Z) -> Z).
  Context (choose_best : best_of choose).
  Context (weights : forall a b w, In (a, b, w) es -> 0 <= w).
  Context (start goal slack : Z).
  Context (slack_pos : 0 <= slack) (drops : guess_drops es h slack) (at_goal : h goal = 0).

  Lemma linked_sym a b w : linked es a b w -> linked es b a w.
  Proof. unfold linked. tauto. Qed.
  Lemma linked_pos a b w : linked es a b w -> 0 <= w.
  Proof. intros [H|H]; exact (weights _ _ _ H). Qed.

  Lemma out_edges_spec u v w : In (v, w) (out_edges es u) <-> linked es u v w.
  Proof.
    unfold out_edges. rewrite in_flat_map. split.
    - intros (((a, b), x) & I & H). apply in_app_iff in H. destruct H as [H|H].
      + destruct (a =? u) eqn:E; [|destruct H]. apply Z.eqb_eq in E. destruct H as [H|[]]. injection H as <- <-. subst. left. exact I.
      + destruct (b =? u) eqn:E; [|destruct H]. apply Z.eqb_eq in E. destruct H as [H|[]]. injection H as <- <-. subst. right. exact I.
    - intros [H|H].
      + exists (u, v, w). split; [exact H|]. rewrite Z.eqb_refl. left. reflexivity.
      + exists (v, u, w). split; [exact H|]. rewrite Z.eqb_refl. apply in_app_iff. right. left. reflexivity.
  Qed.

  Definition known (s : search_st) (v : Z) : Prop := zget (dst s) v <> None.
  Lemma known_some s v : known s v <-> exists d, zget (dst s) v = Some d.
  Proof. unfold known. destruct (zget (dst s) v); split; intros H; eauto; try congruence. destruct H as (d & H). discriminate. Qed.

  (** What holds at all times *)
  Record sound (s : search_st) : Prop := {
    so_keys : NoDup (map fst (dst s));
    so_start : zget (dst s) start = Some 0;
    so_root : zget (par s) start = Some start;
    so_pos : forall v d, zget (dst s) v = Some d -> 0 <= d;
    so_open : forall v, In v (opened s) -> known s v;
    so_nodup : NoDup (opened s);
    so_par : forall v dv, zget (dst s) v = Some dv -> v <> start ->
      exists u du w, zget (par s) v = Some u /\ linked es u v w /\ zget (dst s) u = Some du /\ du + w <= dv /\ u <> v;
    so_chain : forall v, known s v -> exists l, chain (par s) v l /\ NoDup l /\ forall x, In x l -> known s x
  }.

  Lemma sound_init : sound (search_init start).
  Proof.
    unfold search_init. constructor; cbn [dst par opened].
    - cbn. constructor; [intros []|constructor].
    - cbn. rewrite Z.eqb_refl. reflexivity.
    - cbn. rewrite Z.eqb_refl. reflexivity.
    - intros v d. cbn. destruct (_ =? _); [|discriminate]. intros E. injection E as <-. lia.
    - intros v [<-|[]]. unfold known. cbn. rewrite Z.eqb_refl. discriminate.
    - constructor; [intros []|constructor].
    - intros v dv E N. cbn in E. destruct (start =? v) eqn:Q; [apply Z.eqb_eq in Q; congruence|].
      destruct (v =? start) eqn:Q'; [apply Z.eqb_eq in Q'; congruence|]. discriminate.
    - intros v K. assert (v = start) as ->.
      { unfold known in K. cbn in K. destruct (start =? v) eqn:Q; [apply Z.eqb_eq in Q; congruence|].
        destruct (v =? start) eqn:Q'; [apply Z.eqb_eq in Q'; congruence|]. congruence. }
      exists [start]. split; [constructor; cbn; rewrite Z.eqb_refl; reflexivity|]. split; [constructor; [intros []|constructor]|].
      intros x [<-|[]]. exact K.
  Qed.

  (** Distances do not grow towards the root. *)
  Lemma chain_le s : sound s -> forall v l, chain (par s) v l -> forall dv, zget (dst s) v = Some dv ->
    forall x dx, In x l -> zget (dst s) x = Some dx -> dx <= dv.
  Proof.
    intros S. induction 1 as [v G|v u l G N C IH]; intros dv E x dx I X.
    - destruct I as [<-|[]]. rewrite E in X. injection X as <-. lia.
    - destruct I as [<-|I]; [rewrite E in X; injection X as <-; lia|].
      destruct (Z.eq_dec v start) as [->|NS]; [rewrite (so_root _ S) in G; congruence|].
      destruct (so_par _ S v dv E NS) as (u' & du & w & G' & L & DU & LE & _). rewrite G in G'. injection G' as <-.
      pose proof (linked_pos _ _ _ L). pose proof (IH du DU x dx I X). lia.
  Qed.

  Lemma chain_other p v u l x : chain p x l -> ~ In v l -> chain (zset p v u) x l.
  Proof.
    induction 1 as [y G|y z l G N C IH]; intros NI.
    - apply chain_root. rewrite zget_set_other; [exact G|]. intros ->. apply NI. left. reflexivity.
    - apply chain_next with z; [|exact N|apply IH; intros I; apply NI; right; exact I].
      rewrite zget_set_other; [exact G|]. intros ->. apply NI. left. reflexivity.
  Qed.

  (** Either way of relaxing an edge: [v] gets the new predecessor [u], with which it is nearer. *)
  Lemma sound_update s u v w du op : sound s -> linked es u v w -> zget (dst s) u = Some du ->
    (forall dv, zget (dst s) v = Some dv -> du + w < dv) ->
    (forall x, In x op -> x = v \/ known s x) -> NoDup op ->
    sound {| dst := zset (dst s) v (du + w); par := zset (par s) v u; opened := op |}.
  Proof.
    intros S L U D O N. pose proof (linked_pos _ _ _ L) as W. pose proof (so_pos _ S _ _ U) as PU.
    assert (VU : u <> v). { intros ->. specialize (D _ U). lia. }
    assert (VS : v <> start). { intros ->. specialize (D _ (so_start _ S)). lia. }
    assert (K : forall x, known {| dst := zset (dst s) v (du + w); par := zset (par s) v u; opened := op |} x <-> x = v \/ known s x).
    { intros x. unfold known. cbn [dst]. rewrite zget_set. destruct (x =? v) eqn:E.
      - apply Z.eqb_eq in E. subst. split; [auto|discriminate].
      - apply Z.eqb_neq in E. tauto. }
    constructor; cbn [dst par opened].
    - apply NoDup_keys_zset, (so_keys _ S).
    - rewrite zget_set_other by congruence. apply (so_start _ S).
    - rewrite zget_set_other by congruence. apply (so_root _ S).
    - intros x d. rewrite zget_set. destruct (x =? v); [intros E; injection E as <-; lia|apply (so_pos _ S)].
    - intros x I. apply K. apply O, I.
    - exact N.
    - intros x dx. rewrite !zget_set. destruct (x =? v) eqn:E.
      + apply Z.eqb_eq in E. subst x. intros Q NS. injection Q as <-. exists u, du, w. split; [reflexivity|]. split; [exact L|].
        rewrite zget_set_other by exact VU. split; [exact U|]. split; [lia|exact VU].
      + apply Z.eqb_neq in E. intros X NS. destruct (so_par _ S x dx X NS) as (y & dy & wy & P1 & P2 & P3 & P4 & P5).
        destruct (Z.eq_dec y v) as [->|NY].
        * exists v, (du + w), wy. split; [exact P1|]. split; [exact P2|]. rewrite zget_set_same. split; [reflexivity|].
          specialize (D _ P3). split; [lia|exact P5].
        * exists y, dy, wy. split; [exact P1|]. split; [exact P2|]. rewrite zget_set_other by exact NY. auto.
    - (* chains *)
      destruct (so_chain _ S u) as (lu & CU & NU & KU); [unfold known; rewrite U; discriminate|].
      assert (NV : ~ In v lu).
      { intros I. destruct (proj1 (known_some s v) (KU v I)) as (dv & DV). pose proof (chain_le s S u lu CU du U v dv I DV). specialize (D _ DV). lia. }
      assert (CV : chain (zset (par s) v u) v (v :: lu)).
      { apply chain_next with u; [apply zget_set_same|exact VU|apply chain_other; assumption]. }
      assert (NDV : NoDup (v :: lu)) by (constructor; assumption).
      assert (KV : forall x, In x (v :: lu) -> x = v \/ known s x). { intros x [<-|I]; [auto|right; apply KU, I]. }
      intros x X. apply K in X.
      destruct (Z.eq_dec x v) as [->|NX].
      { exists (v :: lu). split; [exact CV|]. split; [exact NDV|]. intros y I. apply K. apply KV, I. }
      destruct X as [X|X]; [contradiction|].
      destruct (so_chain _ S x X) as (lx & CX & NDX & KX).
      destruct (in_dec Z.eq_dec v lx) as [IV|IV].
      2:{ exists lx. split; [apply chain_other; assumption|]. split; [exact NDX|]. intros y I. apply K. right. apply KX, I. }
      destruct (proj1 (known_some s v) (KX v IV)) as (dv & DV). specialize (D _ DV).
      (* follow the old chain to [v], then the new one *)
      destruct (proj1 (known_some s x) X) as (dx & DX).
      assert (G : forall y ly, chain (par s) y ly -> NoDup ly -> (forall z, In z ly -> known s z) -> In v ly ->
                  exists m, chain (zset (par s) v u) y m /\ NoDup m /\ (forall z, In z m -> z = v \/ known s z)
                    /\ (forall z, In z m -> In z ly \/ In z lu)).
      { clear x NX X lx CX NDX KX IV dx DX. induction 1 as [y Gy|y z ly Gy Ny Cy IH]; intros ND KY I.
        - destruct I as [->|[]]. exists (v :: lu). split; [exact CV|]. split; [exact NDV|]. split; [exact KV|]. intros z [<-|Iz]; [left; left; reflexivity|right; exact Iz].
        - destruct (Z.eq_dec y v) as [->|NY].
          + exists (v :: lu). split; [exact CV|]. split; [exact NDV|]. split; [exact KV|]. intros q [<-|Iq]; [left; left; reflexivity|right; exact Iq].
          + destruct I as [->|I]; [contradiction|]. inversion ND as [|q r N1 N2]; subst.
            destruct IH as (m & M1 & M2 & M3 & M4); [exact N2|intros q Iq; apply KY; right; exact Iq|exact I|].
            exists (y :: m). split; [apply chain_next with z; [rewrite zget_set_other by exact NY; exact Gy|exact Ny|exact M1]|].
            split; [|split].
            * constructor; [|exact M2]. intros Im. destruct (M4 y Im) as [Iy|Iy]; [contradiction|].
              (* [y] is above [v] in the old chain, so not nearer; the chain of [u] is nearer *)
              destruct (proj1 (known_some s y) (KY y (or_introl eq_refl))) as (dy & DY).
              pose proof (chain_le s S u lu CU du U y dy Iy DY).
              pose proof (chain_le s S y (y :: ly) (chain_next _ _ _ _ Gy Ny Cy) dy DY v dv (or_intror I) DV). lia.
            * intros q [<-|Iq]; [right; apply KY; left; reflexivity|apply M3, Iq].
            * intros q [<-|Iq]; [left; left; reflexivity|]. destruct (M4 q Iq); [left; right; assumption|right; assumption]. }
      destruct (G x lx CX NDX KX IV) as (m & M1 & M2 & M3 & _). exists m. split; [exact M1|]. split; [exact M2|].
      intros y I. apply K. apply M3, I.
  Qed.

  (** Relaxing the edges of [u], which has left the heap with the distance [D0]. *)
  Definition closed_ok (s : search_st) (u : Z) : Prop :=
    forall x dx, zget (dst s) x = Some dx -> ~ In x (opened s) -> x <> u ->
      forall v w, linked es x v w -> exists dv, zget (dst s) v = Some dv /\ dv <= dx + w + slack.

  Record going (s : search_st) (u D0 : Z) : Prop := {
    go_sound : sound s;
    go_closed : closed_ok s u;
    go_out : ~ In u (opened s);
    go_dist : exists du, zget (dst s) u = Some du /\ du <= D0 <= du + slack;
    go_least : forall v w dv, linked es u v w -> zget (dst s) v = Some dv -> D0 <= dv + w + slack
  }.

  (** How the state may change: nothing is forgotten, distances only drop, and the heap only grows. *)
  Definition grows (s s' : search_st) : Prop :=
    (forall v d, zget (dst s) v = Some d -> exists d', zget (dst s') v = Some d' /\ d' <= d)
    /\ (forall v, In v (opened s) -> In v (opened s'))
    /\ (forall v, known s' v -> known s v \/ In v (opened s')).

  Lemma grows_refl s : grows s s.
  Proof. split; [intros v d H; exists d; split; [exact H|lia]|]. split; auto. Qed.
  Lemma grows_trans a b c : grows a b -> grows b c -> grows a c.
  Proof.
    intros (A1 & A2 & A3) (B1 & B2 & B3). split; [|split].
    - intros v d H. destruct (A1 v d H) as (d' & H' & L). destruct (B1 v d' H') as (d'' & H'' & L'). exists d''. split; [exact H''|lia].
    - auto.
    - intros v K. destruct (B3 v K) as [K'|K']; [destruct (A3 v K'); auto|auto].
  Qed.

  Lemma relax_going s u D0 v w : going s u D0 -> linked es u v w ->
    let s' := relax both u s (v, w) in
    going s' u D0 /\ grows s s' /\ exists dv, zget (dst s') v = Some dv /\ dv <= D0 + w.
  Proof.
    intros G L. destruct (go_dist _ _ _ G) as (du & U & DU). pose proof (linked_pos _ _ _ L) as W.
    pose proof (go_sound _ _ _ G) as S. cbv zeta. unfold relax. rewrite U.
    assert (T : forall op, (forall x, In x op <-> x = v \/ In x (opened s)) -> NoDup op ->
                 (forall dv, zget (dst s) v = Some dv -> du + w < dv) ->
                 let s' := {| dst := zset (dst s) v (du + w); par := zset (par s) v u; opened := op |} in
                 going s' u D0 /\ grows s s' /\ exists dv, zget (dst s') v = Some dv /\ dv <= D0 + w).
    { intros op OP NO D. cbv zeta.
      assert (VU : v <> u). { intros ->. specialize (D _ U). lia. }
      split; [|split].
      - constructor.
        + apply sound_update; auto. intros x I. apply OP in I. destruct I as [I|I]; [auto|right; apply (so_open _ S), I].
        + intros x dx X NI NX y wy LY. cbn [dst opened] in *.
          assert (x <> v) by (intros ->; apply NI; apply OP; auto).
          rewrite zget_set_other in X by assumption.
          destruct (go_closed _ _ _ G x dx X) with (v := y) (w := wy) as (dy & Y & LE); auto.
          { intros I. apply NI. apply OP. auto. }
          destruct (Z.eq_dec y v) as [->|NY].
          * exists (du + w). rewrite zget_set_same. split; [reflexivity|]. specialize (D _ Y). lia.
          * exists dy. rewrite zget_set_other by exact NY. auto.
        + cbn [opened]. rewrite OP. intros [I|I]; [congruence|exact (go_out _ _ _ G I)].
        + cbn [dst]. exists du. rewrite zget_set_other by congruence. auto.
        + cbn [dst]. intros y wy dy LY. pose proof (linked_pos _ _ _ LY). rewrite zget_set. destruct (y =? v).
          * intros E. injection E as <-. lia.
          * apply (go_least _ _ _ G); assumption.
      - split; [|split]; cbn [dst opened].
        + intros x d X. rewrite zget_set. destruct (x =? v) eqn:E; [|exists d; split; [exact X|lia]].
          apply Z.eqb_eq in E. subst. exists (du + w). split; [reflexivity|]. specialize (D _ X). lia.
        + intros x I. apply OP. auto.
        + intros x K. unfold known in K. cbn [dst] in K. rewrite zget_set in K. destruct (x =? v) eqn:E; [|left; exact K].
          apply Z.eqb_eq in E. right. apply OP. auto.
      - exists (du + w). cbn [dst]. rewrite zget_set_same. split; [reflexivity|]. lia. }
    destruct (zget (dst s) v) as [dv|] eqn:V.
    - destruct (du + w <? dv) eqn:C.
      + apply Z.ltb_lt in C. apply T; [intros x; apply In_zadd|apply NoDup_zadd, (so_nodup _ S)|]. intros d E. congruence.
      + apply Z.ltb_ge in C. destruct (both && (dv + w <? du)) eqn:B.
        * apply andb_true_iff in B. destruct B as (_ & B). apply Z.ltb_lt in B.
          assert (VU : v <> u). { intros ->. rewrite U in V. injection V as <-. lia. }
          pose proof (go_least _ _ _ G v w dv L V) as LV.
          split; [|split].
          -- constructor.
             ++ apply sound_update; auto using linked_sym.
                ** intros d E. rewrite U in E. injection E as <-. exact B.
                ** intros x I. apply In_zadd in I. destruct I as [->|I]; [right; unfold known; rewrite V; discriminate|right; apply (so_open _ S), I].
                ** apply NoDup_zadd, (so_nodup _ S).
             ++ intros x dx X NI NX y wy LY. cbn [dst opened] in *. rewrite zget_set_other in X by assumption.
                rewrite In_zadd in NI.
                destruct (go_closed _ _ _ G x dx X) with (v := y) (w := wy) as (dy & Y & LE); auto.
                destruct (Z.eq_dec y u) as [->|NY].
                ** exists (dv + w). rewrite zget_set_same. split; [reflexivity|]. rewrite U in Y. injection Y as <-. lia.
                ** exists dy. rewrite zget_set_other by exact NY. auto.
             ++ cbn [opened]. rewrite In_zadd. intros [I|I]; [congruence|exact (go_out _ _ _ G I)].
             ++ cbn [dst]. exists (dv + w). rewrite zget_set_same. split; [reflexivity|]. lia.
             ++ cbn [dst]. intros y wy dy LY. pose proof (linked_pos _ _ _ LY). rewrite zget_set. destruct (y =? u).
                ** intros E. injection E as <-. lia.
                ** apply (go_least _ _ _ G); assumption.
          -- split; [|split]; cbn [dst opened].
             ++ intros x d X. rewrite zget_set. destruct (x =? u) eqn:E; [|exists d; split; [exact X|lia]].
                apply Z.eqb_eq in E. subst. exists (dv + w). split; [reflexivity|]. rewrite U in X. injection X as <-. lia.
             ++ intros x I. apply In_zadd. auto.
             ++ intros x K. unfold known in K. cbn [dst] in K. rewrite zget_set in K. destruct (x =? u) eqn:E; [|left; exact K].
                apply Z.eqb_eq in E. subst. left. unfold known. rewrite U. discriminate.
          -- cbn [dst]. exists dv. rewrite zget_set_other by exact VU. split; [exact V|lia].
        * split; [exact G|]. split; [apply grows_refl|]. exists dv. split; [exact V|lia].
    - apply T; [intros x; cbn; split; intros [H|H]; auto| |intros d E; discriminate].
      constructor; [|apply (so_nodup _ S)]. intros I. apply (so_open _ S) in I. unfold known in I. congruence.
  Qed.

  Lemma relax_all u D0 : forall vs s, going s u D0 -> (forall v w, In (v, w) vs -> linked es u v w) ->
    let s' := fold_left (relax both u) vs s in
    going s' u D0 /\ grows s s' /\ forall v w, In (v, w) vs -> exists dv, zget (dst s') v = Some dv /\ dv <= D0 + w.
  Proof.
    induction vs as [|(v, w) vs IH]; intros s G L; cbv zeta; cbn [fold_left]; [split; [exact G|split; [apply grows_refl|intros v w []]]|].
    destruct (relax_going s u D0 v w G (L _ _ (or_introl eq_refl))) as (G1 & W1 & (dv & V & LE)).
    destruct (IH (relax both u s (v, w)) G1) as (G2 & W2 & R); [intros x y I; apply L; right; exact I|].
    split; [exact G2|]. split; [apply (grows_trans _ _ _ W1 W2)|]. intros x y [E|I]; [|apply R, I].
    injection E as <- <-. destruct W2 as (W2 & _). destruct (W2 v dv V) as (d' & V' & LE'). exists d'. split; [exact V'|lia].
  Qed.

  (** Between two steps *)
  Record ready (s : search_st) : Prop := {
    re_sound : sound s;
    re_closed : forall x dx, zget (dst s) x = Some dx -> ~ In x (opened s) ->
      forall v w, linked es x v w -> exists dv, zget (dst s) v = Some dv /\ dv <= dx + w + slack;
    re_goal : known s goal -> In goal (opened s)
  }.

  Lemma ready_init : ready (search_init start).
  Proof.
    constructor; [apply sound_init| |].
    - intros x dx X NI. exfalso. apply NI. cbn [search_init opened]. cbn [search_init dst] in X. cbn in X.
      destruct (x =? start) eqn:E; [apply Z.eqb_eq in E; left; congruence|].
      destruct (start =? x) eqn:E'; [apply Z.eqb_eq in E'; left; congruence|discriminate].
    - intros K. unfold known in K. cbn in K. cbn. destruct (goal =? start) eqn:E; [apply Z.eqb_eq in E; left; congruence|].
      destruct (start =? goal) eqn:E'; [apply Z.eqb_eq in E'; left; congruence|congruence].
  Qed.

  Definition top (s : search_st) : Z := choose (map (fun v => (v, cost h s v)) (opened s)).
  Definition expand (s : search_st) (u : Z) : search_st :=
    fold_left (relax both u) (out_edges es u) {| dst := dst s; par := par s; opened := zrem u (opened s) |}.

  Lemma top_spec s : sound s -> opened s <> [] -> In (top s) (opened s) /\
    exists du, zget (dst s) (top s) = Some du /\ forall v dv, In v (opened s) -> zget (dst s) v = Some dv -> du + h (top s) <= dv + h v.
  Proof.
    intros S N. destruct (choose_best (map (fun v => (v, cost h s v)) (opened s))) as (c & I & M).
    { destruct (opened s); [congruence|discriminate]. }
    fold (top s) in I. apply in_map_iff in I. destruct I as (v & E & I). injection E as E1 E2. subst v.
    split; [exact I|]. destruct (proj1 (known_some s _) (so_open _ S _ I)) as (du & U). exists du. split; [exact U|].
    intros v dv IV V. assert (C : c <= cost h s v) by (apply (M v); apply in_map_iff; exists v; auto).
    rewrite <- E2 in C. unfold cost in C. rewrite U, V in C. exact C.
  Qed.

  Lemma expand_ready s : ready s -> opened s <> [] -> top s <> goal ->
    ready (expand s (top s)) /\ grows {| dst := dst s; par := par s; opened := zrem (top s) (opened s) |} (expand s (top s)).
  Proof.
    intros R N NG. pose proof (re_sound _ R) as S. destruct (top_spec s S N) as (I & D0 & U & M). set (u := top s) in *.
    set (s0 := {| dst := dst s; par := par s; opened := zrem u (opened s) |}).
    assert (S0 : sound s0).
    { destruct S as [a b c d e f g k]. constructor; cbn [s0 dst par opened]; auto.
      - intros v IV. apply In_zrem in IV. apply e, IV.
      - apply NoDup_zrem, f. }
    assert (G : going s0 u D0).
    { constructor; auto.
      - intros x dx X NI NX. cbn [s0 dst opened] in *. apply (re_closed _ R); auto. intros IX. apply NI. apply In_zrem. auto.
      - cbn [s0 opened]. rewrite In_zrem. tauto.
      - exists D0. split; [exact U|lia].
      - cbn [s0 dst]. intros v w dv L V. pose proof (linked_pos _ _ _ L) as W.
        destruct (in_dec Z.eq_dec v (opened s)) as [IV|IV].
        + pose proof (M v dv IV V). pose proof (drops v u w (linked_sym _ _ _ L)). lia.
        + destruct (re_closed _ R v dv V IV u w (linked_sym _ _ _ L)) as (du & U' & LE). rewrite U in U'. injection U' as <-. lia. }
    destruct (relax_all u D0 (out_edges es u) s0 G) as (G1 & W & P); [intros v w; apply out_edges_spec|].
    change (fold_left (relax both u) (out_edges es u) s0) with (expand s u) in *. split; [|exact W].
    constructor.
    - apply (go_sound _ _ _ G1).
    - intros x dx X NI v w L. destruct (Z.eq_dec x u) as [->|NX]; [|apply (go_closed _ _ _ G1 x dx X NI NX v w L)].
      destruct (P v w (proj2 (out_edges_spec u v w) L)) as (dv & V & LE). exists dv. split; [exact V|].
      destruct (go_dist _ _ _ G1) as (du & U' & B). rewrite X in U'. injection U' as <-. lia.
    - intros K. destruct W as (W1 & W2 & W3). destruct (W3 goal K) as [K'|K']; [|exact K'].
      apply W2. cbn [s0 opened]. apply In_zrem. split; [|congruence]. apply (re_goal _ R). exact K'.
  Qed.

  (** An open vertex on any way to the goal *)
  Lemma frontier s : ready s -> In goal (opened s) -> forall x l c len, route es x l c len -> c = goal ->
    forall dx, zget (dst s) x = Some dx ->
    (exists n dn, In n (opened s) /\ zget (dst s) n = Some dn /\ dn + h n <= dx + len + slack * (Z.of_nat (length l) - 1))
    /\ h x <= len + slack * (Z.of_nat (length l) - 1).
  Proof.
    intros R IG. induction 1 as [a|a b c w l len L P IH]; intros E dx X.
    - subst a. split; [exists goal, dx; split; [exact IG|]; split; [exact X|]; cbn [length]; lia|cbn [length]; lia].
    - specialize (IH E). pose proof (linked_pos _ _ _ L) as W.
      assert (B : exists db, zget (dst s) b = Some db /\ db <= dx + w + slack \/ In a (opened s)).
      { destruct (in_dec Z.eq_dec a (opened s)) as [I|I]; [exists 0; auto|].
        destruct (re_closed _ R a dx X I b w L) as (db & B & LE). exists db. auto. }
      assert (HB : h b <= len + slack * (Z.of_nat (length l) - 1)).
      { clear - P E at_goal drops slack_pos weights. subst c. induction P as [a|a b c w l len L P IH]; [cbn [length]; lia|].
        specialize (IH at_goal). pose proof (drops _ _ _ L). cbn [length]. lia. }
      pose proof (drops _ _ _ L) as DR.
      assert (HA : h a <= w + len + slack * (Z.of_nat (length (a :: l)) - 1)) by (cbn [length]; lia).
      split; [|exact HA]. destruct B as (db & [(B & LE)|I]).
      + destruct (IH db B) as ((n & dn & I & N & LN) & _). exists n, dn. split; [exact I|]. split; [exact N|]. cbn [length]. lia.
      + exists a, dx. split; [exact I|]. split; [exact X|]. lia.
  Qed.

  Lemma search_spec : forall fuel s, ready s ->
    match search es h both choose goal fuel s with
    | Found d s' => ready s' /\ zget (dst s') goal = Some d
        /\ forall l len, route es start l goal len -> d <= len + slack * (Z.of_nat (length l) - 1)
    | NotFound => forall l len, ~ route es start l goal len
    | Running => True
    end.
  Proof.
    induction fuel as [|fuel IH]; intros s R; cbn [search]; [exact I|]. pose proof (re_sound _ R) as S.
    destruct (opened s) as [|o os] eqn:O.
    - (* every way stays within the known vertices *)
      assert (K : forall x l c len, route es x l c len -> known s x -> known s c).
      { induction 1 as [a|a b c w l len L P IHP]; intros K; [exact K|]. apply IHP.
        destruct (proj1 (known_some s a) K) as (da & A). destruct (re_closed _ R a da A) with (v := b) (w := w) as (db & B & _); [rewrite O; intros []|exact L|].
        unfold known. rewrite B. discriminate. }
      intros l len P. apply K in P; [|unfold known; rewrite (so_start _ S); discriminate].
      apply (re_goal _ R) in P. rewrite O in P. exact P.
    - rewrite <- O. assert (N : opened s <> []) by (rewrite O; discriminate). fold (top s). fold (expand s (top s)).
      destruct (top_spec s S N) as (IT & du & U & M). destruct (top s =? goal) eqn:E.
      + apply Z.eqb_eq in E. rewrite U. rewrite E in *. split; [exact R|]. split; [exact U|]. intros l len P.
        destruct (frontier s R IT start l goal len P eq_refl 0 (so_start _ S)) as ((n & dn & IN & ND & LE) & _).
        pose proof (M n dn IN ND). lia.
      + apply Z.eqb_neq in E. apply IH. apply expand_ready; assumption.
  Qed.

  (** *** Termination *)
  Definition total (m : zmap Z) : Z := fold_right (fun e a => snd e + a) 0 m.

  Lemma total_del m k d : NoDup (map fst m) -> zget m k = Some d -> total (zdel m k) = total m - d.
  Proof.
    induction m as [|(j, x) m IH]; intros N E; [discriminate|]. cbn [map fst] in N. inversion N as [|? ? N1 N2]; subst.
    cbn [zget] in E. cbn [zdel filter]. cbn [fst]. destruct (Z.eq_dec j k) as [->|NE].
    - rewrite Z.eqb_refl in *. cbn [negb]. injection E as <-. cbn [total fold_right snd].
      assert (Q : zdel m k = m).
      { clear - N1. induction m as [|(j, y) m IH]; [reflexivity|]. cbn [zdel filter fst]. destruct (j =? k) eqn:E.
        - apply Z.eqb_eq in E. subst. exfalso. apply N1. left. reflexivity.
        - cbn [negb]. f_equal. apply IH. intros I. apply N1. right. exact I. }
      fold (zdel m k). rewrite Q. unfold total. lia.
    - rewrite (proj2 (Z.eqb_neq j k) NE) in *. try rewrite (proj2 (Z.eqb_neq k j)) in * by congruence. cbn [negb total fold_right snd]. fold (zdel m k).
      fold (total (zdel m k)). fold (total m). rewrite IH by assumption. lia.
  Qed.
  Lemma total_del_none m k : zget m k = None -> total (zdel m k) = total m.
  Proof.
    intros E. apply zget_none in E. f_equal. induction m as [|(j, y) m IH]; [reflexivity|]. cbn [zdel filter fst]. destruct (j =? k) eqn:Q.
    - apply Z.eqb_eq in Q. subst. exfalso. apply E. left. reflexivity.
    - cbn [negb]. f_equal. apply IH. intros I. apply E. right. exact I.
  Qed.
  Lemma total_pos m : (forall v d, zget m v = Some d -> 0 <= d) -> NoDup (map fst m) -> 0 <= total m.
  Proof.
    intros P N. assert (Q : forall e, In e m -> 0 <= snd e) by (intros (v, d) I; apply (P v); apply zget_In; assumption).
    clear - Q. induction m as [|e m IH]; cbn [total fold_right]; [lia|]. fold (total m).
    pose proof (Q e (or_introl eq_refl)). assert (0 <= total m) by (apply IH; intros x I; apply Q; right; exact I). lia.
  Qed.

  Definition vertices : list Z := start :: flat_map (fun e => let '(a, b, _) := e in [a; b]) es.
  Definition unknown (s : search_st) : nat := length (filter (fun v => match zget (dst s) v with None => true | _ => false end) vertices).
  Definition weight (s : search_st) : nat := Z.to_nat (2 * total (dst s) + Z.of_nat (length (opened s))).
  Definition below (a b : search_st) : Prop := (unknown a < unknown b)%nat \/ (unknown a = unknown b /\ (weight a < weight b)%nat).
  Definition atmost (a b : search_st) : Prop := (unknown a < unknown b)%nat \/ (unknown a = unknown b /\ (weight a <= weight b)%nat).

  Lemma filter_le {A} (f g : A -> bool) l : (forall x, f x = true -> g x = true) -> (length (filter f l) <= length (filter g l))%nat.
  Proof.
    intros H. induction l as [|x l IH]; [reflexivity|]. cbn [filter]. destruct (f x) eqn:E.
    - rewrite (H _ E). cbn [length]. lia.
    - destruct (g x); cbn [length]; lia.
  Qed.
  Lemma filter_lt {A} (f g : A -> bool) l x : (forall x, f x = true -> g x = true) -> In x l -> g x = true -> f x = false ->
    (length (filter f l) < length (filter g l))%nat.
  Proof.
    intros H I G F. induction l as [|y l IH]; [destruct I|]. cbn [filter]. destruct I as [->|I].
    - rewrite F, G. cbn [length]. pose proof (filter_le f g l H). lia.
    - specialize (IH I). destruct (f y) eqn:E; [rewrite (H _ E); cbn [length]; lia|]. destruct (g y); cbn [length]; lia.
  Qed.

  Lemma zadd_length x l : (length (zadd x l) <= S (length l))%nat.
  Proof. unfold zadd. destruct (zin x l); cbn [length]; lia. Qed.

  Lemma vertices_linked u v w : linked es u v w -> In v vertices.
  Proof.
    intros [H|H]; right; apply in_flat_map; eexists; (split; [exact H|]); cbn; auto.
  Qed.

  Lemma relax_atmost s u v w : sound s -> linked es u v w -> sound (relax both u s (v, w)) -> atmost (relax both u s (v, w)) s.
  Proof.
    intros S L S'. pose proof (total_pos _ (so_pos _ S) (so_keys _ S)) as P0. pose proof (total_pos _ (so_pos _ S') (so_keys _ S')) as P1.
    revert S' P1. unfold relax. destruct (zget (dst s) u) as [du|] eqn:U; [|intros; right; split; lia].
    assert (UK : forall x d k, zget (dst s) x = Some d -> forall p o, unknown {| dst := zset (dst s) x k; par := p; opened := o |} = unknown s).
    { intros x d k X p o. unfold unknown. cbn [dst]. f_equal. apply filter_ext. intros y. rewrite zget_set. destruct (y =? x) eqn:E; [|reflexivity].
      apply Z.eqb_eq in E. subst. rewrite X. reflexivity. }
    destruct (zget (dst s) v) as [dv|] eqn:V.
    - destruct (du + w <? dv) eqn:C; [|destruct (both && (dv + w <? du)) eqn:B]; intros S' P1.
      + apply Z.ltb_lt in C. right. split; [apply (UK v dv); exact V|]. unfold weight. cbn [dst opened] in *. unfold zset in *. cbn [total fold_right snd] in *.
        fold (total (zdel (dst s) v)) in *. rewrite (total_del _ _ dv) in * by (try apply (so_keys _ S); exact V). pose proof (zadd_length v (opened s)). lia.
      + apply andb_true_iff in B. destruct B as (_ & B). apply Z.ltb_lt in B. right. split; [apply (UK u du); exact U|]. unfold weight. cbn [dst opened] in *. unfold zset in *. cbn [total fold_right snd] in *.
        fold (total (zdel (dst s) u)) in *. rewrite (total_del _ _ du) in * by (try apply (so_keys _ S); exact U). pose proof (zadd_length v (opened s)). lia.
      + right. split; lia.
    - intros S' P1. left. unfold unknown. cbn [dst]. apply filter_lt with v.
      + intros x. rewrite zget_set. destruct (x =? v); [discriminate|auto].
      + apply (vertices_linked u v w L).
      + rewrite V. reflexivity.
      + rewrite zget_set_same. reflexivity.
  Qed.

  Lemma atmost_trans a b c : atmost a b -> atmost b c -> atmost a c.
  Proof. unfold atmost. intros [A|(A & A')] [B|(B & B')]; lia. Qed.

  Lemma relax_all_atmost u D0 : forall vs s, going s u D0 -> (forall v w, In (v, w) vs -> linked es u v w) ->
    atmost (fold_left (relax both u) vs s) s.
  Proof.
    induction vs as [|(v, w) vs IH]; intros s G L; cbn [fold_left]; [right; split; lia|].
    pose proof (L _ _ (or_introl eq_refl)) as LV. destruct (relax_going s u D0 v w G LV) as (G1 & _).
    eapply atmost_trans; [apply IH; [exact G1|intros x y I; apply L; right; exact I]|].
    apply relax_atmost; [apply (go_sound _ _ _ G)|exact LV|apply (go_sound _ _ _ G1)].
  Qed.

  Lemma zrem_shorter x l : In x l -> (length (zrem x l) < length l)%nat.
  Proof.
    intros I. unfold zrem. induction l as [|y l IH]; [destruct I|]. cbn [filter]. destruct (y =? x) eqn:E; cbn [negb length].
    - pose proof (filter_le (fun y => negb (y =? x)) (fun _ => true) l (fun _ _ => eq_refl)) as F.
      assert (length (filter (fun _ : Z => true) l) = length l) as Q by (clear; induction l as [|a l IH]; [reflexivity|cbn; rewrite IH; reflexivity]). lia.
    - apply Z.eqb_neq in E. destruct I as [->|I]; [congruence|]. specialize (IH I). lia.
  Qed.

  Lemma expand_below s : ready s -> opened s <> [] -> top s <> goal -> below (expand s (top s)) s.
  Proof.
    intros R N NG. pose proof (re_sound _ R) as S. destruct (top_spec s S N) as (I & D0 & U & M).
    (* the same state as in [expand_ready] *)
    set (u := top s) in *. set (s0 := {| dst := dst s; par := par s; opened := zrem u (opened s) |}).
    assert (G : going s0 u D0).
    { constructor.
      - destruct S as [a b c d e f g k]. constructor; cbn [s0 dst par opened]; auto.
        + intros v IV. apply In_zrem in IV. apply e, IV.
        + apply NoDup_zrem, f.
      - intros x dx X NI NX. cbn [s0 dst opened] in *. apply (re_closed _ R); auto. intros IX. apply NI. apply In_zrem. auto.
      - cbn [s0 opened]. rewrite In_zrem. tauto.
      - exists D0. split; [exact U|lia].
      - cbn [s0 dst]. intros v w dv L V. pose proof (linked_pos _ _ _ L) as W.
        destruct (in_dec Z.eq_dec v (opened s)) as [IV|IV].
        + pose proof (M v dv IV V). pose proof (drops v u w (linked_sym _ _ _ L)). lia.
        + destruct (re_closed _ R v dv V IV u w (linked_sym _ _ _ L)) as (du & U' & LE). rewrite U in U'. injection U' as <-. lia. }
    pose proof (relax_all_atmost u D0 (out_edges es u) s0 G (fun v w => proj1 (out_edges_spec u v w))) as A.
    change (fold_left (relax both u) (out_edges es u) s0) with (expand s u) in A.
    assert (B : unknown s0 = unknown s /\ (weight s0 < weight s)%nat).
    { split; [reflexivity|]. unfold weight. cbn [s0 dst opened]. pose proof (zrem_shorter u (opened s) I).
      pose proof (total_pos _ (so_pos _ S) (so_keys _ S)). lia. }
    unfold below. destruct A as [A|A]; lia.
  Qed.

  Lemma below_wf : well_founded below.
  Proof.
    intros s. remember (unknown s) as n eqn:EN. revert s EN. induction n as [n IHn] using lt_wf_ind. intros s EN.
    remember (weight s) as m eqn:EM. revert s EN EM. induction m as [m IHm] using lt_wf_ind. intros s EN EM.
    constructor. intros t [B|(B1 & B2)].
    - apply (IHn (unknown t)); [lia|reflexivity].
    - apply (IHm (weight t)); [lia|lia|reflexivity].
  Qed.

  Lemma search_ends s : ready s -> exists fuel, search es h both choose goal fuel s <> Running.
  Proof.
    induction s as [s IH] using (well_founded_induction below_wf). intros R.
    destruct (opened s) as [|o os] eqn:O.
    - exists 1%nat. cbn [search]. rewrite O. discriminate.
    - assert (N : opened s <> []) by (rewrite O; discriminate). destruct (Z.eq_dec (top s) goal) as [E|E].
      + exists 1%nat. cbn [search]. rewrite O, <- O. fold (top s). rewrite (proj2 (Z.eqb_eq _ _) E). destruct (zget (dst s) (top s)); discriminate.
      + destruct (IH (expand s (top s))) as (fuel & F); [apply expand_below; assumption|apply expand_ready; assumption|].
        exists (S fuel). cbn [search]. rewrite O, <- O. fold (top s). fold (expand s (top s)). rewrite (proj2 (Z.eqb_neq _ _) E). exact F.
  Qed.

  Lemma search_more : forall fuel s, search es h both choose goal fuel s <> Running -> forall more, (fuel <= more)%nat ->
    search es h both choose goal more s = search es h both choose goal fuel s.
  Proof.
    induction fuel as [|fuel IH]; intros s F more L; [cbn in F; congruence|]. destruct more as [|more]; [lia|].
    cbn [search] in *. destruct (opened s) as [|o os]; [reflexivity|]. destruct (_ =? goal); [reflexivity|]. apply IH; [exact F|lia].
  Qed.

  (** *** The way that is read off *)
  Lemma chain_route s : sound s -> forall v l, chain (par s) v l -> forall dv, zget (dst s) v = Some dv ->
    exists len, route es start (rev l) v len /\ 0 <= len <= dv.
  Proof.
    intros S. assert (J : forall a l b len, route es a l b len -> forall c w, linked es b c w -> route es a (l ++ [c]) c (len + w)).
    { induction 1 as [a|a b c w l len L P IH]; intros d x X.
      - cbn [app]. replace (0 + x) with (x + 0) by lia. apply route_more with d; [exact X|constructor].
      - cbn [app]. replace (w + len + x) with (w + (len + x)) by lia. apply route_more with b; [exact L|apply IH, X]. }
    induction 1 as [v G|v u l G N C IH]; intros dv V.
    - assert (v = start) as ->.
      { destruct (Z.eq_dec v start) as [E|E]; [exact E|]. destruct (so_par _ S v dv V E) as (u & du & w & G' & _ & _ & _ & NE). congruence. }
      exists 0. rewrite (so_start _ S) in V. injection V as <-. split; [constructor|lia].
    - destruct (Z.eq_dec v start) as [->|NS]; [rewrite (so_root _ S) in G; congruence|].
      destruct (so_par _ S v dv V NS) as (u' & du & w & G' & L & U & LE & _). rewrite G in G'. injection G' as <-.
      destruct (IH du U) as (len & P & LL). exists (len + w). cbn [rev]. split; [apply (J _ _ _ _ P _ _ L)|]. pose proof (linked_pos _ _ _ L). lia.
  Qed.

  Lemma trail_spec s d : sound s -> zget (dst s) goal = Some d ->
    exists l len, trail (length (dst s)) (par s) goal [] = Some l /\ route es start l goal len /\ 0 <= len <= d /\ NoDup l.
  Proof.
    intros S D. destruct (so_chain _ S goal) as (l & C & ND & K); [unfold known; rewrite D; discriminate|].
    destruct (chain_route s S goal l C d D) as (len & P & LL). exists (rev l), len.
    rewrite (chain_trail _ _ _ C) with (acc := []).
    - rewrite app_nil_r. split; [reflexivity|]. split; [exact P|]. split; [exact LL|apply NoDup_rev, ND].
    - rewrite <- (map_length fst (dst s)). apply NoDup_incl_length; [exact ND|]. intros x I. apply K in I.
      destruct (in_dec Z.eq_dec x (map fst (dst s))) as [H|H]; [exact H|]. apply zget_none in H. contradiction.
  Qed.
End Search.

(** The invariant of the task manager. *)
From Coq Require Import List ZArith Bool Permutation Lia.
From Verif Require Import ZMap Run TaskMgrModel TaskMgrSpec.
Import ListNotations.
Open Scope list_scope.
Open Scope Z_scope.

(** * Live services *)

(** The pairs [A] are those of map [m], and services are not shared. *)
Record rel (A : list (Z * Z)) (m : zmap Z) : Prop := {
  r_keys : NoDup (map fst A);
  r_vals : NoDup (map snd A);
  r_get : forall k v, In (k, v) A <-> zget m k = Some v }.

Lemma alive_app a b : alive (a ++ b) = fold_left alive_ b (alive a).
Proof. unfold alive. apply fold_left_app. Qed.

Lemma filter_ext_In {A} (f g : A -> bool) l :
  (forall x, In x l -> f x = g x) -> filter f l = filter g l.
Proof.
  induction l as [|x l IH]; [auto|]. cbn. intros H. rewrite (H x) by auto.
  rewrite IH by auto. auto.
Qed.

Lemma filter_id {A} (f : A -> bool) l : (forall x, In x l -> f x = true) -> filter f l = l.
Proof.
  induction l as [|x l IH]; [auto|]. cbn. intros H. rewrite (H x) by auto. rewrite IH by auto. auto.
Qed.

Lemma NoDup_map_filter {A B} (f : A -> B) (p : A -> bool) l :
  NoDup (map f l) -> NoDup (map f (filter p l)).
Proof.
  induction l as [|x l IH]; [auto|]. cbn. intros N. inversion N as [|? ? N1 N2]; subst.
  destruct (p x); cbn; [|auto]. constructor; [|auto]. intros I. apply N1.
  apply in_map_iff in I. destruct I as (y & <- & I). apply filter_In in I. now apply in_map.
Qed.

Lemma snd_inj A (k k' v : Z) :
  NoDup (map snd A) -> In (k, v) A -> In (k', v) A -> k = k'.
Proof.
  induction A as [|(a, b) A IH]; cbn; [easy|]. intros N. inversion N as [|? ? N1 N2]; subst.
  intros [E|I] [E'|I']; try congruence.
  - injection E as -> ->. exfalso. apply N1. apply (in_map snd) in I'. exact I'.
  - injection E' as -> ->. exfalso. apply N1. apply (in_map snd) in I. exact I.
  - auto.
Qed.

Lemma rel_kill A m k v :
  rel A m -> zget m k = Some v ->
  alive_ A (OutKill v) = filter (fun p => negb (fst p =? k)) A.
Proof.
  intros [RK RV RG] G. cbn. apply filter_ext_In. intros (k', v') I. cbn. f_equal.
  apply RG in G. destruct (Z.eqb_spec v' v) as [->|N], (Z.eqb_spec k' k) as [->|M]; auto.
  - exfalso. apply M. eapply snd_inj; eauto.
  - exfalso. apply N. apply RG in G. apply RG in I. congruence.
Qed.

Lemma rel_del A m k : rel A m -> rel (filter (fun p => negb (fst p =? k)) A) (zdel m k).
Proof.
  intros [RK RV RG]. constructor; [now apply NoDup_map_filter..|].
  intros k' v. rewrite filter_In, zget_del, RG. cbn.
  destruct (Z.eqb_spec k' k); cbn; split; try easy; try tauto; intros H; split; auto.
Qed.

Lemma rel_none A m k : rel A m -> zget m k = None -> filter (fun p => negb (fst p =? k)) A = A.
Proof.
  intros [RK RV RG] G. apply filter_id. intros (k', v) I. cbn.
  destruct (Z.eqb_spec k' k) as [->|]; [|auto]. apply RG in I. congruence.
Qed.

Lemma NoDup_snoc_ {A} (l : list A) x : NoDup l -> ~ In x l -> NoDup (l ++ [x]).
Proof.
  intros N I. apply (Permutation_NoDup (l := x :: l)); [apply Permutation_cons_append|].
  now constructor.
Qed.

Lemma rel_set A m k v :
  rel A m -> zget m k = None -> ~ In v (map snd A) -> rel (A ++ [(k, v)]) (zset m k v).
Proof.
  intros [RK RV RG] G N. constructor.
  - rewrite map_app. cbn. apply NoDup_snoc_; [auto|]. intros I. apply in_map_iff in I.
    destruct I as ((k', v') & E & I). cbn in E. subst k'. apply RG in I. congruence.
  - rewrite map_app. cbn. now apply NoDup_snoc_.
  - intros k' v'. rewrite in_app_iff, zget_set. cbn. destruct (Z.eqb_spec k' k) as [->|M].
    + split; [|intros [= ->]; auto]. intros [I|[E|[]]]; [|congruence]. apply RG in I. congruence.
    + rewrite RG. split; [|auto]. intros [I|[E|[]]]; [auto|congruence].
Qed.

(** * Stored messages *)

Lemma kind_eqb_eq a b : kind_eqb a b = true <-> a = b.
Proof. destruct a, b; cbn; split; congruence. Qed.

Lemma kind_eqb_refl a : kind_eqb a a = true.
Proof. now apply kind_eqb_eq. Qed.

(** Map [m] holds the latest values of [l]. *)
Record stored (l : list (Z * Z)) (m : zmap Z) : Prop := {
  s_keys : NoDup (map fst m);
  s_get : forall id d, zget m id = Some d <-> latest l id d }.

Lemma latest_snoc l k x id d :
  latest (l ++ [(k, x)]) id d <-> (if id =? k then d = x else latest l id d).
Proof.
  destruct (Z.eqb_spec id k) as [->|N].
  - split.
    + intros (a & b & E & NB). destruct b as [|y b _] using rev_ind.
      * apply app_inj_tail in E. destruct E as (_ & [= ->]). auto.
      * rewrite app_comm_cons, app_assoc in E. apply app_inj_tail in E. destruct E as (_ & <-).
        exfalso. apply NB. rewrite map_app. apply in_or_app. right. left. auto.
    + intros ->. exists l, []. auto.
  - split.
    + intros (a & b & E & NB). destruct b as [|y b _] using rev_ind.
      * apply app_inj_tail in E. destruct E as (_ & [= -> ->]). easy.
      * rewrite app_comm_cons, app_assoc in E. apply app_inj_tail in E. destruct E as (E & _).
        exists a, b. split; [auto|]. intros I. apply NB. rewrite map_app. apply in_or_app. auto.
    + intros (a & b & -> & NB). exists a, (b ++ [(k, x)]). split; [now rewrite <- app_assoc|].
      rewrite map_app, in_app_iff. cbn. intros [I|[I|[]]]; [easy|congruence].
Qed.

Lemma stored_set l m k x : stored l m -> stored (l ++ [(k, x)]) (zset m k x).
Proof.
  intros [SK SG]. constructor; [now apply NoDup_keys_zset|].
  intros id d. rewrite zget_set, latest_snoc. destruct (id =? k); [|auto].
  split; [intros [= ->]; auto|intros ->; auto].
Qed.

Lemma stored_in l m k : stored l m -> zget m k <> None <-> In k (map fst l).
Proof.
  intros [SK SG]. split.
  - destruct (zget m k) as [d|] eqn:G; [|easy]. intros _. apply SG in G.
    destruct G as (a & b & -> & _). rewrite map_app. apply in_or_app. right. left. auto.
  - intros I. assert (L : exists d, latest l k d).
    { clear SG. induction l as [|(k', x) l IH] using rev_ind; [easy|].
      destruct (Z.eqb_spec k k') as [->|N].
      - exists x. apply latest_snoc. now rewrite Z.eqb_refl.
      - rewrite map_app, in_app_iff in I. destruct I as [I|[I|[]]]; [|cbn in I; congruence].
        destruct (IH I) as (d & L). exists d. apply latest_snoc.
        destruct (Z.eqb_spec k k'); [congruence|auto]. }
    destruct L as (d & L). apply SG in L. congruence.
Qed.

Lemma stored_all l m r : stored l m -> Permutation r m -> all_latest l r.
Proof.
  intros [SK SG] P. split.
  - eapply Permutation_NoDup; [|exact SK]. now apply Permutation_map, Permutation_sym.
  - intros id d. rewrite <- SG. split.
    + intros I. apply zget_In; [auto|]. eapply Permutation_in; eauto.
    + intros G. apply In_zget in G. eapply Permutation_in; [apply Permutation_sym; exact P|auto].
Qed.

Lemma heard_snoc k evs e : heard k (evs ++ [e]) = heard k evs ++ heard k [e].
Proof. unfold heard. apply flat_map_app. Qed.

Lemma stored_missions ms : forall l info,
  (forall k, stored (l k) (info k)) ->
  forall k, stored (l k ++ (if kind_eqb KMission k then ms else []))
                   (fold_left (fun i p => store i KMission (fst p) (snd p)) ms info k).
Proof.
  induction ms as [|(v, d) ms IH]; intros l info H k.
  - cbn [fold_left]. destruct (kind_eqb KMission k); rewrite app_nil_r; auto.
  - cbn [fold_left fst snd].
    specialize (IH (fun k => l k ++ if kind_eqb KMission k then [(v, d)] else [])).
    cbn beta in IH.
    replace (l k ++ (if kind_eqb KMission k then (v, d) :: ms else []))
      with ((l k ++ (if kind_eqb KMission k then [(v, d)] else [])) ++
            (if kind_eqb KMission k then ms else []))
      by (destruct (kind_eqb KMission k); [now rewrite <- app_assoc|now rewrite !app_nil_r]).
    apply IH. intros j. unfold store.
    destruct (kind_eqb KMission j) eqn:E.
    + apply kind_eqb_eq in E as <-. rewrite kind_eqb_refl. now apply stored_set.
    + rewrite app_nil_r. replace (kind_eqb j KMission) with false by (now destruct j). auto.
Qed.

Section Inv.
  Context (ord : zmap Z -> list (Z * Z)) (ord_perm : forall m, Permutation (ord m) m)
          (opts : options) (next : Z).

  Record inv (evs : list event) (s : state) (t : list (event * list out)) : Prop := {
    i_rel : rel (alive (sent t)) (m_live s);
    i_info : forall k, stored (heard k evs) (m_info s k);
    i_fresh : NoDup (created (sent t));
    i_lt : forall v, In v (created (sent t)) -> v <= m_next s;
    i_sub : forall v, In v (map snd (alive (sent t))) -> In v (created (sent t)) }.

  Definition without (id : Z) (A : list (Z * Z)) : list (Z * Z) :=
    filter (fun p => negb (fst p =? id)) A.

  (** What handling a task does. *)
  Lemma newTask_spec s A t :
    rel A (m_live s) ->
    (exists info, gather ord (m_info s) t = Some info /\
       newTask ord opts s t =
         ({| m_live := zset (zdel (m_live s) (t_id t)) (t_id t) (m_next s + 1);
             m_info := m_info s; m_request := m_request s; m_next := m_next s + 1 |},
          (match zget (m_live s) (t_id t) with Some v => [OutKill v] | None => [] end) ++
          [OutCreate {| k_service := m_next s + 1; k_task := t; k_options := taskOptions opts t;
                        k_info := info |}])) \/
    (gather ord (m_info s) t = None /\
       newTask ord opts s t =
         ({| m_live := zdel (m_live s) (t_id t);
             m_info := m_info s; m_request := m_request s; m_next := m_next s + 1 |},
          match zget (m_live s) (t_id t) with Some v => [OutKill v] | None => [] end)).
  Proof.
    intros R. unfold newTask.
    assert (D : zget (m_live s) (t_id t) = None -> zdel (m_live s) (t_id t) = m_live s).
    { intros G. unfold zdel. apply filter_id. intros (k, v) I. cbn.
      destruct (Z.eqb_spec k (t_id t)) as [->|]; [|auto]. exfalso.
      apply zget_none in G. apply G. apply (in_map fst) in I. exact I. }
    assert (Z2 : forall m k v, zset (zdel m k) k v = zset m k (v : Z)).
    { intros m k v. unfold zset. f_equal. unfold zdel. apply filter_id.
      intros x I. now apply filter_In in I. }
    destruct (gather ord (m_info s) t) as [info|]; [left; exists info|right]; (split; [auto|]);
      destruct (zget (m_live s) (t_id t)) as [v|] eqn:G; rewrite ?D by auto; reflexivity.
  Qed.

  Lemma kills_alive A m k :
    rel A m ->
    fold_left alive_ (match zget m k with Some v => [OutKill v] | None => [] end) A = without k A.
  Proof.
    intros R. destruct (zget m k) as [v|] eqn:G; cbn [fold_left].
    - eapply rel_kill; eauto.
    - symmetry. eapply rel_none; eauto.
  Qed.

  Lemma remove_fold ids : forall A m o,
    rel A m ->
    let st := fold_left removeTask ids (m, o) in
    exists o', snd st = o ++ o' /\ created o' = [] /\
      (forall x, In x o' -> exists v, x = OutKill v) /\
      fold_left alive_ o' A = filter (fun p => negb (zin (fst p) ids)) A /\
      rel (filter (fun p => negb (zin (fst p) ids)) A) (fst st) /\
      (forall o1 v o2, o' = o1 ++ OutKill v :: o2 ->
         exists k, In (k, v) (fold_left alive_ o1 A)).
  Proof.
    induction ids as [|id ids IH]; intros A m o R; cbn [fold_left].
    - exists []. cbn. rewrite app_nil_r. rewrite filter_id by auto.
      do 5 (split; [easy|]). intros [|? ?]; discriminate.
    - assert (F : filter (fun p => negb (zin (fst p) (id :: ids))) A =
                  filter (fun p => negb (zin (fst p) ids)) (without id A)).
      { unfold without, zin. clear. induction A as [|(k, v) A IH]; [auto|]. cbn [filter fst existsb].
        cbn [existsb] in IH. destruct (k =? id); cbn [orb negb]; [exact IH|]. cbn [filter fst].
        destruct (existsb (Z.eqb k) ids); cbn [negb]; [exact IH|]. f_equal. exact IH. }
      destruct (zget m id) as [v|] eqn:G.
      + replace (removeTask (m, o) id) with (zdel m id, o ++ [OutKill v])
          by (unfold removeTask; cbn [fst snd]; now rewrite G).
        destruct (IH (without id A) (zdel m id) (o ++ [OutKill v]) (rel_del _ _ _ R))
          as (o' & E & C & K & AL & RR & KA).
        assert (E1 : alive_ A (OutKill v) = without id A) by (eapply rel_kill; eauto).
        exists (OutKill v :: o'). split; [now rewrite E, <- app_assoc|]. split; [exact C|].
        split; [intros x [<-|I]; eauto|]. cbn [fold_left]. rewrite E1, F. split; [auto|].
        split; [auto|]. intros [|y o1] w o2 Q.
        * injection Q as -> _. exists id. cbn. now apply (r_get _ _ R).
        * cbn in Q. injection Q as <- Q. cbn [fold_left]. rewrite E1. eauto.
      + replace (removeTask (m, o) id) with (m, o)
          by (unfold removeTask; cbn [fst snd]; now rewrite G).
        rewrite F. unfold without. rewrite (rel_none _ _ _ R G). apply IH. auto.
  Qed.

  Lemma created_app a b : created (a ++ b) = created a ++ created b.
  Proof. apply flat_map_app. Qed.

  Lemma created_kills m k :
    created (match zget m k with Some v => [OutKill v] | None => [] end) = [].
  Proof. now destruct (zget m k). Qed.

  Lemma incl_without id A v : In v (map snd (without id A)) -> In v (map snd A).
  Proof.
    intros I. apply in_map_iff in I. destruct I as (x & <- & I). apply filter_In in I.
    now apply in_map.
  Qed.

  Lemma inv_run evs :
    inv evs (fst (run (mstep ord opts) (minit next) evs))
            (snd (run (mstep ord opts) (minit next) evs)).
  Proof.
    revert evs. apply run_inv.
    - constructor; cbn; try easy; try constructor; cbn; try easy; try constructor.
      + discriminate.
      + intros (a & b & E & _). destruct a; discriminate.
    - intros evs e s t s' o [R I F L S] V _.
      assert (INFO : forall k, stored (heard k (evs ++ [e])) (m_info s' k)).
      { intros k. rewrite heard_snoc. destruct e as [x|j id d|ms|r|ids|n]; cbn [heard flat_map mstep] in *.
        - rewrite app_nil_r. destruct (newTask_spec s _ x R) as [(info & _ & E)|(_ & E)];
            rewrite E in V; injection V as <- <-; apply I.
        - injection V as <- <-. cbn [m_info]. unfold store. rewrite app_nil_r.
          destruct (kind_eqb j k) eqn:E.
          + apply kind_eqb_eq in E as <-. rewrite kind_eqb_refl. now apply stored_set.
          + rewrite app_nil_r. replace (kind_eqb k j) with false by (now destruct j, k). auto.
        - injection V as <- <-. cbn [m_info]. rewrite app_nil_r. now apply (stored_missions ms (fun k => heard k evs)).
        - injection V as <- <-. cbn. rewrite app_nil_r. auto.
        - destruct (fold_left removeTask ids (m_live s, [])) as (l, o'). injection V as <- <-.
          cbn. rewrite app_nil_r. auto.
        - injection V as <- <-. cbn. rewrite app_nil_r. auto. }
      destruct e as [x|j id d|ms|r|ids|n]; cbn [mstep] in V.
      + destruct (newTask_spec s _ x R) as [(info & G & E)|(G & E)];
          rewrite E in V; injection V as <- <-; constructor; auto; cbn [m_live m_next];
          rewrite ?sent_snoc, ?alive_app, ?created_app, ?fold_left_app, ?(kills_alive _ _ _ R), ?created_kills;
          cbn [fold_left alive_ k_task k_service created flat_map app].
        * apply rel_set; [now apply rel_del|apply zget_del_same|].
          intros C. apply incl_without, S, L in C. lia.
        * apply NoDup_snoc_; [auto|]. intros C. apply L in C. lia.
        * intros v. rewrite in_app_iff. cbn. intros [C|[<-|[]]]; [|lia]. apply L in C. lia.
        * intros v. rewrite map_app, !in_app_iff. cbn.
          intros [C|C]; [left; now apply incl_without, S in C|auto].
        * now apply rel_del.
        * now rewrite app_nil_r.
        * rewrite app_nil_r. intros v C. apply L in C. lia.
        * rewrite app_nil_r. intros v C. now apply incl_without, S in C.
      + injection V as <- <-. constructor; auto; rewrite sent_snoc, app_nil_r; auto.
      + injection V as <- <-. constructor; auto; rewrite sent_snoc, app_nil_r; auto.
      + injection V as <- <-. constructor; auto; rewrite sent_snoc, ?alive_app, ?created_app;
          cbn [created flat_map fold_left alive_]; rewrite ?app_nil_r; auto.
      + destruct (remove_fold ids _ _ [] R) as (o' & E & C & K & AL & RR & _).
        destruct (fold_left removeTask ids (m_live s, [])) as (l, o''). injection V as <- <-.
        cbn [fst snd app] in *. subst o''.
        constructor; auto; rewrite sent_snoc, ?alive_app, ?created_app, ?AL, ?C, ?app_nil_r; auto.
        intros v J. apply S. apply in_map_iff in J. destruct J as (y & <- & J).
        apply filter_In in J. now apply in_map.
      + injection V as <- <-. constructor; auto; rewrite sent_snoc, app_nil_r; auto.
        cbn. intros v C. apply L in C. lia.
  Qed.
End Inv.

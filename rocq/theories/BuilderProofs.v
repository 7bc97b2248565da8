(** The invariant behind the plan builder properties. *)
From Coq Require Import List ZArith Bool Permutation Lia.
From Verif Require Import ZMap Run BuilderModel BuilderSpec.
Import ListNotations.
Open Scope list_scope.
Open Scope Z_scope.

(** * Joining routes *)

Lemma linkLast_snoc l w n :
  linkLast (l ++ [w]) n = l ++ [{| w_num := w_num w; w_next := n; w_data := w_data w |}].
Proof.
  induction l as [|a l IH]; [reflexivity|].
  cbn [app]. rewrite <- IH. destruct l; reflexivity.
Qed.

Lemma lead_to_snoc l w n :
  lead_to n (l ++ [w]) = l ++ [{| w_num := w_num w; w_next := n; w_data := w_data w |}].
Proof.
  unfold lead_to. rewrite rev_app_distr. cbn [rev app]. now rewrite rev_involutive.
Qed.

Lemma linkLast_lead_to l n : linkLast l n = lead_to n l.
Proof.
  destruct l as [|w l _] using rev_ind; [reflexivity|].
  now rewrite linkLast_snoc, lead_to_snoc.
Qed.

Lemma linkLast_app a b n : b <> [] -> linkLast (a ++ b) n = a ++ linkLast b n.
Proof.
  destruct b as [|w b _] using rev_ind; [easy|]. intros _.
  now rewrite app_assoc, !linkLast_snoc, app_assoc.
Qed.

Lemma linkLast_hd l n : hd_error (map w_num (linkLast l n)) = hd_error (map w_num l).
Proof. destruct l as [|a [|b l]]; reflexivity. Qed.

Lemma linkLast_nil l n : linkLast l n = [] -> l = [].
Proof. destruct l as [|a [|b l]]; cbn; congruence. Qed.

Lemma lead_to_hd n p : hd_error (map w_num (lead_to n p)) = hd_error (map w_num p).
Proof. rewrite <- linkLast_lead_to. apply linkLast_hd. Qed.

Lemma join_hd p ps : p <> [] -> hd_error (map w_num (join (p :: ps))) = hd_error (map w_num p).
Proof.
  intros N. cbn [join]. destruct (join ps) as [|w l]; [reflexivity|].
  rewrite map_app. pose proof (lead_to_hd (w_num w) p) as H.
  destruct (map w_num (lead_to (w_num w) p)); cbn in *; [|exact H].
  destruct p; [easy|discriminate].
Qed.

Lemma join_nil ps : Forall (fun p => p <> []) ps -> join ps = [] -> ps = [].
Proof.
  intros F E. destruct F as [|p ps N F]; [reflexivity|]. exfalso.
  pose proof (join_hd p ps N) as H. rewrite E in H. destruct p; [easy|discriminate].
Qed.

Lemma join_snoc ps w p :
  Forall (fun p => p <> []) ps ->
  join (ps ++ [w :: p]) = linkLast (join ps) (w_num w) ++ w :: p.
Proof.
  intros F. induction F as [|p1 ps N F IH]; [reflexivity|].
  cbn [app join]. rewrite IH.
  destruct (join ps) as [|w1 l1] eqn:J.
  - cbn [linkLast app]. now rewrite linkLast_lead_to.
  - destruct (linkLast (w1 :: l1) (w_num w) ++ w :: p) as [|w2 l2] eqn:L.
    + destruct (linkLast (w1 :: l1) (w_num w)); discriminate.
    + assert (E : w_num w2 = w_num w1).
      { pose proof (linkLast_hd (w1 :: l1) (w_num w)) as H.
        destruct (linkLast (w1 :: l1) (w_num w)) as [|y ys] eqn:V.
        - now apply linkLast_nil in V.
        - cbn in L, H. congruence. }
      rewrite E, <- L, linkLast_app by easy. now rewrite app_assoc.
Qed.

(** * One answer *)

Definition has_route (x : iresp) : bool := negb (match x_wps x with [] => true | _ => false end).

Lemma pieces_snoc v xs x :
  pieces v (xs ++ [x]) =
  pieces v xs ++ (if (x_vehicle x =? v) && has_route x then [x_wps x] else []).
Proof.
  unfold pieces, has_route. rewrite filter_app, map_app. cbn [filter].
  destruct (_ && _); reflexivity.
Qed.

Lemma pieces_nonempty v xs : Forall (fun p => p <> []) (pieces v xs).
Proof.
  unfold pieces. apply Forall_forall. intros p I. apply in_map_iff in I.
  destruct I as (x & <- & I). apply filter_In in I. destruct I as (_ & B).
  apply andb_true_iff in B. destruct B as (_ & B). destruct (x_wps x); easy.
Qed.

Lemma latest_snoc v xs x :
  latest v (xs ++ [x]) = if (x_vehicle x =? v) && has_route x then Some x else latest v xs.
Proof. unfold latest, has_route. rewrite rev_app_distr. cbn [rev app find]. reflexivity. Qed.

Lemma extend_spec ms v ws n :
  match extend ms v ws n with
  | None => ~ In v (map m_vehicle ms)
  | Some ms' => exists a m b, ms = a ++ m :: b /\ m_vehicle m = v /\
      ms' = a ++ {| m_cmd := m_cmd m; m_vehicle := m_vehicle m; m_first := m_first m;
                    m_wps := linkLast (m_wps m) n ++ ws |} :: b
  end.
Proof.
  induction ms as [|m ms IH]; cbn [extend]; [easy|].
  destruct (Z.eqb_spec (m_vehicle m) v) as [E|E].
  - exists [], m, ms. auto.
  - destruct (extend ms v ws n) as [ms'|]; cbn [option_map].
    + destruct IH as (a & m1 & b & -> & Ev & ->). exists (m :: a), m1, b. auto.
    + cbn. intros [H|H]; auto.
Qed.

Lemma is_plan_skip xs x ms : has_route x = false -> is_plan xs ms -> is_plan (xs ++ [x]) ms.
Proof.
  intros H (N & V & M).
  assert (P : forall v, pieces v (xs ++ [x]) = pieces v xs).
  { intros v. rewrite pieces_snoc, H, andb_false_r. apply app_nil_r. }
  split; [exact N|]. split; [intros v; rewrite P; apply V|].
  intros m I. rewrite P. apply M, I.
Qed.

Lemma is_plan_extend xs x ms ms' w ws :
  x_wps x = w :: ws -> is_plan xs ms ->
  extend ms (x_vehicle x) (x_wps x) (w_num w) = Some ms' ->
  is_plan (xs ++ [x]) ms' /\ map m_cmd ms' = map m_cmd ms.
Proof.
  intros W (N & V & M) E. pose proof (extend_spec ms (x_vehicle x) (x_wps x) (w_num w)) as S.
  rewrite E in S. destruct S as (a & m & b & -> & Ev & ->).
  assert (R : has_route x = true) by (unfold has_route; now rewrite W).
  split; [|now rewrite !map_app].
  assert (VE : map m_vehicle (a ++ {| m_cmd := m_cmd m; m_vehicle := m_vehicle m;
     m_first := m_first m; m_wps := linkLast (m_wps m) (w_num w) ++ x_wps x |} :: b)
     = map m_vehicle (a ++ m :: b)) by now rewrite !map_app.
  split; [now rewrite VE|]. split.
  - intros v. rewrite VE, V, pieces_snoc, R, andb_true_r.
    destruct (Z.eqb_spec (x_vehicle x) v) as [Q|Q]; [|now rewrite app_nil_r].
    subst v. split; [intros _ Z; now apply app_eq_nil in Z|].
    intros _. apply V. rewrite map_app. apply in_or_app. right. left. exact Ev.
  - assert (O : forall y, In y (a ++ b) -> m_vehicle y <> x_vehicle x).
    { intros y I Q. rewrite map_app in N. cbn [map] in N. apply NoDup_remove_2 in N. apply N.
      rewrite <- map_app, Ev, <- Q. apply in_map, I. }
    assert (OM : forall y, In y (a ++ b) -> m_wps y = join (pieces (m_vehicle y) (xs ++ [x])) /\
        (exists w0, hd_error (m_wps y) = Some w0 /\ m_first y = w_num w0)).
    { intros y I. rewrite pieces_snoc. destruct (Z.eqb_spec (x_vehicle x) (m_vehicle y)) as [Q|Q].
      - exfalso. apply (O y I). auto.
      - cbn [andb]. rewrite app_nil_r. apply M. apply in_app_or in I. apply in_or_app.
        destruct I; [left|right; right]; auto. }
    intros y I. apply in_app_or in I. destruct I as [I|[<-|I]];
      [apply OM, in_or_app; auto| |apply OM, in_or_app; auto].
    cbn [m_wps m_vehicle m_first].
    destruct (M m) as (Mw & w0 & Mh & Mf); [apply in_or_app; right; left; auto|].
    rewrite pieces_snoc, Ev, Z.eqb_refl, R, W. cbn [andb]. rewrite join_snoc by apply pieces_nonempty.
    rewrite Mw, Ev. split; [reflexivity|].
    pose proof (linkLast_hd (join (pieces (x_vehicle x) xs)) (w_num w)) as H.
    rewrite <- Ev, <- Mw in H. rewrite <- Ev, <- Mw.
    destruct (m_wps m) as [|w1 l1]; [discriminate|]. cbn in Mh. injection Mh as ->.
    destruct (linkLast (w0 :: l1) (w_num w)) as [|w2 l2]; [discriminate|].
    cbn in H. injection H as H. exists w2. split; [reflexivity|congruence].
Qed.

Lemma NoDup_snoc {A} (l : list A) x : NoDup l -> ~ In x l -> NoDup (l ++ [x]).
Proof.
  intros N I. apply NoDup_rev in N. rewrite <- (rev_involutive (l ++ [x])). apply NoDup_rev.
  rewrite rev_app_distr. cbn. constructor; auto. now rewrite <- in_rev.
Qed.

Lemma is_plan_new xs x ms w ws c :
  x_wps x = w :: ws -> is_plan xs ms ->
  extend ms (x_vehicle x) (x_wps x) (w_num w) = None ->
  is_plan (xs ++ [x]) (ms ++ [{| m_cmd := c; m_vehicle := x_vehicle x; m_first := w_num w;
                                 m_wps := x_wps x |}]).
Proof.
  intros W (N & V & M) E. pose proof (extend_spec ms (x_vehicle x) (x_wps x) (w_num w)) as S.
  rewrite E in S.
  assert (R : has_route x = true) by (unfold has_route; now rewrite W).
  assert (P0 : pieces (x_vehicle x) xs = []).
  { destruct (pieces (x_vehicle x) xs) eqn:Q; [reflexivity|]. exfalso. apply S, V.
    rewrite Q. discriminate. }
  split; [|split].
  - rewrite map_app. cbn. apply NoDup_snoc; auto.
  - intros v. rewrite map_app, in_app_iff, pieces_snoc, R, andb_true_r. cbn. rewrite V.
    destruct (Z.eqb_spec (x_vehicle x) v) as [Q|Q].
    + split; [intros _ Z; now apply app_eq_nil in Z|]. intros _. right. left. auto.
    + rewrite app_nil_r. split; [intros [H|[H|[]]]; easy|auto].
  - intros m I. apply in_app_or in I. destruct I as [I|[<-|[]]].
    + rewrite pieces_snoc. destruct (Z.eqb_spec (x_vehicle x) (m_vehicle m)) as [Q|Q].
      * exfalso. apply S. rewrite Q. apply in_map, I.
      * cbn [andb]. rewrite app_nil_r. apply M, I.
    + cbn [m_wps m_vehicle m_first]. rewrite pieces_snoc, P0, Z.eqb_refl, R, W. cbn.
      split; [reflexivity|]. exists w. auto.
Qed.

(** * The projected states *)

Section Proj.
  Context (ord : list Z -> list Z) (ord_perm : forall l, Permutation (ord l) l)
          (lead : pose -> pose).

  Definition projOK (u : ureq) (ta : trace) (xs : list iresp) (js : list proj) : Prop :=
    forall v, match find (fun j => j_vehicle j =? v) js with
              | Some j => participates u ta v /\
                          reached lead u ta v xs = Some (j_final j + 1, j_pose j, j_time j)
              | None => ~ participates u ta v
              end.

  Lemma reached_skip u ta v xs x :
    (x_vehicle x =? v) && has_route x = false ->
    reached lead u ta v (xs ++ [x]) = reached lead u ta v xs.
  Proof. intros H. unfold reached. now rewrite latest_snoc, H. Qed.

  Lemma find_advance js x f v :
    find (fun j => j_vehicle j =? v) (advance js x f) =
    match find (fun j => j_vehicle j =? v) js with
    | None => None
    | Some j => if x_vehicle x =? v
                then Some {| j_vehicle := j_vehicle j; j_final := f; j_time := x_time x;
                             j_pose := x_pose x |}
                else Some j
    end.
  Proof.
    induction js as [|j js IH]; [reflexivity|]. cbn [advance].
    destruct (Z.eqb_spec (j_vehicle j) (x_vehicle x)) as [E|E]; cbn [find j_vehicle].
    - destruct (Z.eqb_spec (j_vehicle j) v) as [Q|Q].
      + rewrite <- Q, E, Z.eqb_refl. reflexivity.
      + destruct (Z.eqb_spec (x_vehicle x) v); [congruence|].
        destruct (find _ js); reflexivity.
    - destruct (Z.eqb_spec (j_vehicle j) v) as [Q|Q]; [|exact IH].
      destruct (Z.eqb_spec (x_vehicle x) v); [congruence|reflexivity].
  Qed.

  Lemma last_default {A} (l : list A) a d d' : last (a :: l) d = last (a :: l) d'.
  Proof. revert a. induction l as [|b l IH]; intros a; [reflexivity|]. apply (IH b). Qed.

  Lemma projOK_advance u ta xs js x w ws :
    x_wps x = w :: ws -> projOK u ta xs js ->
    projOK u ta (xs ++ [x]) (advance js x (w_num (last (x_wps x) w))).
  Proof.
    intros W P v. specialize (P v). rewrite find_advance.
    destruct (find _ js) as [j|]; [|exact P]. destruct P as (P1 & P2).
    destruct (Z.eqb_spec (x_vehicle x) v) as [Q|Q].
    - split; [exact P1|]. unfold reached. rewrite latest_snoc.
      unfold has_route. rewrite W, (proj2 (Z.eqb_eq _ _) Q). cbn [andb negb j_final j_pose j_time].
      rewrite W. f_equal. f_equal. f_equal. f_equal. f_equal. apply last_default.
    - split; [exact P1|]. rewrite reached_skip; [exact P2|].
      apply Z.eqb_neq in Q. now rewrite Q.
  Qed.

  Lemma projOK_skip u ta xs js x :
    has_route x = false -> projOK u ta xs js -> projOK u ta (xs ++ [x]) js.
  Proof.
    intros H P v. specialize (P v). destruct (find _ js); [|exact P].
    rewrite reached_skip; [exact P|]. now rewrite H, andb_false_r.
  Qed.

  Lemma find_map_pose js v :
    find (fun y : Z * pose => fst y =? v) (map (fun n => (j_vehicle n, j_pose n)) js) =
    option_map (fun n => (j_vehicle n, j_pose n)) (find (fun j => j_vehicle j =? v) js).
  Proof.
    induction js as [|j js IH]; [reflexivity|]. cbn [map find fst].
    destruct (j_vehicle j =? v); [reflexivity|exact IH].
  Qed.

  Lemma find_filter_other js v k : v <> k ->
    find (fun j => j_vehicle j =? v) (filter (fun n => negb (j_vehicle n =? k)) js) =
    find (fun j => j_vehicle j =? v) js.
  Proof.
    intros N. induction js as [|j js IH]; [reflexivity|]. cbn [filter].
    destruct (Z.eqb_spec (j_vehicle j) k) as [E|E]; cbn [negb find].
    - destruct (Z.eqb_spec (j_vehicle j) v); [congruence|exact IH].
    - destruct (j_vehicle j =? v); [reflexivity|exact IH].
  Qed.

  Lemma find_filter_same js k :
    find (fun j => j_vehicle j =? k) (filter (fun n => negb (j_vehicle n =? k)) js) = None.
  Proof.
    induction js as [|j js IH]; [reflexivity|]. cbn [filter].
    destruct (j_vehicle j =? k) eqn:E; cbn [negb find]; [exact IH|]. now rewrite E.
  Qed.

  Lemma poses_neighbours u ta xs js k :
    projOK u ta xs js ->
    poses lead u ta xs (eq k)
      (map (fun n => (j_vehicle n, j_pose n)) (filter (fun n => negb (j_vehicle n =? k)) js)).
  Proof.
    intros P v. specialize (P v). rewrite find_map_pose.
    destruct (Z.eq_dec v k) as [->|N].
    - rewrite find_filter_same. cbn. auto.
    - rewrite (find_filter_other _ _ _ N).
      destruct (find _ js) as [j|]; cbn [option_map snd]; [|auto].
      destruct P as (P1 & P2). split; [auto|]. split; [congruence|]. eauto.
  Qed.

  Lemma poses_finals u ta xs js :
    projOK u ta xs js ->
    poses lead u ta xs (fun _ => False) (map (fun j => (j_vehicle j, j_pose j)) js).
  Proof.
    intros P v. specialize (P v). rewrite find_map_pose.
    destruct (find _ js) as [j|]; cbn [option_map snd]; [|auto].
    destruct P as (P1 & P2). split; [auto|]. split; [easy|]. eauto.
  Qed.

  (** The starting states. *)
  Lemma find_start s u vs v :
    find (fun j => j_vehicle j =? v) (flat_map (startProj lead s u) vs) =
    if existsb (Z.eqb v) vs then hd_error (startProj lead s u v) else None.
  Proof.
    induction vs as [|a vs IH]; [reflexivity|]. cbn [flat_map existsb].
    destruct (Z.eqb_spec v a) as [<-|N].
    - cbn [orb]. unfold startProj in *. destruct (zget (b_states s) v) as [(p, tm)|].
      + cbn. now rewrite Z.eqb_refl.
      + cbn [app]. rewrite IH. now destruct (existsb _ vs).
    - cbn [orb]. rewrite <- IH. unfold startProj at 1. destruct (zget (b_states s) a) as [(p, tm)|];
        [|reflexivity]. cbn. destruct (Z.eqb_spec a v); [congruence|reflexivity].
  Qed.

  Lemma existsb_In v vs : existsb (Z.eqb v) vs = true <-> In v vs.
  Proof.
    rewrite existsb_exists. split.
    - intros (x & I & E). apply Z.eqb_eq in E. now subst.
    - intros I. exists v. split; [auto|apply Z.eqb_refl].
  Qed.

  Lemma projOK_start s u ta :
    (forall v, zget (b_states s) v = lastState v ta) ->
    (forall v, In v (u_entities u) -> lastState v ta <> None) ->
    projOK u ta []
      (flat_map (startProj lead s u)
         (match u_entities u with [] => ord (map fst (b_states s)) | l => l end)).
  Proof.
    intros S K v. rewrite find_start.
    set (vs := match u_entities u with [] => _ | _ => _ end).
    assert (PV : In v vs <-> participates u ta v).
    { unfold vs, participates. destruct (u_entities u); [|reflexivity].
      rewrite <- S. split.
      - intros I Z. apply zget_none in Z. apply Z. eapply Permutation_in; [apply ord_perm|exact I].
      - intros H. eapply Permutation_in; [symmetry; apply ord_perm|].
        destruct (in_dec Z.eq_dec v (map fst (b_states s))) as [I|I]; [exact I|].
        apply zget_none in I. contradiction. }
    assert (PS : participates u ta v -> lastState v ta <> None).
    { unfold participates. specialize (K v). destruct (u_entities u); auto. }
    destruct (existsb (Z.eqb v) vs) eqn:X.
    - apply existsb_In in X. apply PV in X. unfold startProj. rewrite S.
      specialize (PS X). unfold reached. cbn [latest rev find].
      destruct (lastState v ta) as [(p, tm)|]; [|easy]. cbn. auto.
    - intros H. apply PV in H. apply existsb_In in H. congruence.
  Qed.
End Proj.

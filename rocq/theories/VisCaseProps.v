(** C54 and C55: concrete zones that meet the hypotheses, and zones on which more would be wanted. *)
From Coq Require Import List ZArith QArith Bool Lia Lqa.
From Verif Require Import SegModel SegSpec SegProps VisModel VisSpec VisProps.
Import ListNotations.
Open Scope list_scope.
Open Scope Z_scope.

Definition tri (keep_in : bool) (k x : Z) : polygon :=
  {| p_in := keep_in;
     p_verts := [ (k, at_ (inject_Z x) 0); (k + 1, at_ (inject_Z (x + 300)) 0); (k + 2, at_ (inject_Z x) 400) ] |}.

Definition tri_edges (k : Z) : list wedge := [ (k, k + 1, 300); (k + 1, k + 2, 500); (k + 2, k, 400) ].

(** The graph of one triangle or of two, its lengths and parents. *)
Definition tri_graph (two : bool) : list wedge := tri_edges 0 ++ (if two then tri_edges 3 else []).
Definition in_first (i : Z) : bool := (0 <=? i) && (i <=? 2).
Definition in_second (i : Z) : bool := (3 <=? i) && (i <=? 5).
Definition tri_len (i j : Z) : Z :=
  if i =? j then 0 else if i + j =? 1 then 300 else if i + j =? 3 then 500 else 400.
Definition tri_dist (two : bool) (i j : Z) : Z :=
  if i =? j then 0
  else if in_first i && in_first j then tri_len i j
  else if two && in_second i && in_second j then tri_len (i - 3) (j - 3)
  else 2147483647.
Definition tri_parent (two : bool) (i j : Z) : Z := if tri_dist two i j <? 2147483647 then i else j.

Definition far (i : Z) : Prop := in_first i = false /\ in_second i = false.
Lemma tri_cases : forall i, i = 0 \/ i = 1 \/ i = 2 \/ i = 3 \/ i = 4 \/ i = 5 \/ far i.
Proof.
  intros i. unfold far, in_first, in_second.
  destruct (0 <=? i) eqn:A, (i <=? 2) eqn:B, (3 <=? i) eqn:C, (i <=? 5) eqn:D; cbn;
    rewrite ?Z.leb_le, ?Z.leb_gt in *; try lia; auto 10.
Qed.

Lemma tri_far : forall two i z, far z ->
  tri_dist two i z = (if i =? z then 0 else 2147483647) /\ tri_dist two z i = (if z =? i then 0 else 2147483647).
Proof.
  intros two i z (H1 & H2). unfold tri_dist. rewrite H1, H2, !andb_false_r. cbn [andb]. auto.
Qed.

Lemma tri_joined : forall two a b w, In (a, b, w) (tri_graph two) -> ~ far a /\ ~ far b /\ 0 <= w.
Proof.
  intros two a b w H. unfold far. destruct two; cbn in H;
    repeat match type of H with _ \/ _ => destruct H as [H|H] end; try contradiction; injection H as <- <- <-;
    (split; [|split]); try lia; vm_compute; intros (X & Y); discriminate.
Qed.

Lemma walk_least : forall es dist,
  (forall z, dist z z <= 0) -> (forall a b w z, joined es a b w -> dist a z <= w + dist b z) ->
  forall vs l, walk es vs l -> forall a b, starts vs a -> ends vs b -> dist a b <= l.
Proof.
  intros es dist D0 D vs l W. induction W as [c|c d w r l J W IH]; intros a b (q & S) (t & E).
  - injection S as -> _. destruct t as [|? [|? ?]]; try discriminate. injection E as ->. apply D0.
  - injection S as -> _. destruct t as [|u t]; [discriminate|]. injection E as _ E.
    pose proof (D _ _ _ b J). pose proof (IH d b (ex_intro _ r eq_refl) (ex_intro _ t E)). lia.
Qed.

Lemma two_nodes : forall (i j : Z) l x y r, [i; j] = l ++ x :: y :: r -> x = i /\ y = j.
Proof. intros i j [|? [|? [|? ?]]] x y r E; try discriminate. injection E as -> -> _. auto. Qed.

Lemma tri_shortest : forall two n, (2 <= n)%nat -> shortest_walks (tri_graph two) n (tri_dist two) (tri_parent two).
Proof.
  intros two n N. constructor.
  - intros a b vs l S E W. revert vs l W a b S E. apply walk_least.
    + intros z. unfold tri_dist. rewrite Z.eqb_refl. lia.
    + intros a b w z J.
      assert (K : forall a b w, In (a, b, w) (tri_graph two) ->
                  tri_dist two a z <= w + tri_dist two b z /\ tri_dist two b z <= w + tri_dist two a z).
      { clear a b w J. intros a b w J. destruct (tri_joined _ _ _ _ J) as (FA & FB & W).
        destruct (tri_cases z) as [->|[->|[->|[->|[->|[->|F]]]]]].
        7: { destruct (tri_far two a z F) as (-> & _). destruct (tri_far two b z F) as (-> & _).
             rewrite (proj2 (Z.eqb_neq a z)), (proj2 (Z.eqb_neq b z)) by (intros ->; contradiction). lia. }
        all: destruct two; cbn in J; repeat match type of J with _ \/ _ => destruct J as [J|J] end; try contradiction;
          injection J as <- <- <-; vm_compute; split; discriminate. }
      destruct J as [J|J]; apply K in J; apply J.
  - intros a b. unfold tri_dist, tri_len. repeat match goal with |- context [if ?c then _ else _] => destruct c end; lia.
  - intros a b L.
    destruct (Z.eq_dec a b) as [->|NE].
    + exists [b]. split; [exists []; reflexivity|]. split; [exists []; reflexivity|].
      split; [unfold tri_dist; rewrite Z.eqb_refl; constructor|]. split; [cbn; lia|].
      split; [repeat constructor; auto|]. intros l x y r E. destruct l as [|? [|? ?]]; discriminate.
    + exists [a; b]. split; [exists [b]; reflexivity|]. split; [exists [a]; reflexivity|]. split; [|split; [cbn; lia|split]].
      * assert (J : joined (tri_graph two) a b (tri_dist two a b)).
        { assert (FA : ~ far a). { intros F. destruct (tri_far two b a F) as (_ & X). rewrite X, (proj2 (Z.eqb_neq a b) NE) in L. lia. }
          assert (FB : ~ far b). { intros F. destruct (tri_far two a b F) as (X & _). rewrite X, (proj2 (Z.eqb_neq a b) NE) in L. lia. }
          destruct (tri_cases a) as [->|[->|[->|[->|[->|[->|F]]]]]]; try contradiction;
          destruct (tri_cases b) as [->|[->|[->|[->|[->|[->|F]]]]]]; try contradiction;
            try (exfalso; apply NE; reflexivity);
            destruct two; try (exfalso; vm_compute in L; discriminate);
            unfold joined; cbn; tauto. }
        replace (tri_dist two a b) with (tri_dist two a b + 0) by lia. apply walk_more; [exact J|constructor].
      * apply NoDup_cons; [|repeat constructor; auto]. intros [E|[]]. apply NE. symmetry. exact E.
      * intros l x y r E. apply two_nodes in E. destruct E as (-> & ->). unfold tri_parent.
        rewrite (proj2 (Z.ltb_lt _ _) L). reflexivity.
  - intros a. unfold tri_parent, tri_dist. rewrite Z.eqb_refl. reflexivity.
Qed.

(** A zone to keep out of, between the start and the end. *)
Definition outside (p : polygon) (x : pos) : bool := false.
Definition convex (p : polygon) : bool := false.
Definition zone1 : list polygon := [tri false 0 0].

Lemma zone1_graph : build outside convex zone1 = tri_graph false.
Proof. vm_compute. reflexivity. Qed.

Lemma zone1_numbered : numbered zone1.
Proof.
  split.
  - cbn. repeat constructor; cbn; lia.
  - intros v (p & [<-|[]] & IV). cbn in IV. repeat destruct IV as [<-|IV]; cbn; try lia.
Qed.

Definition here : pos := at_ (-100) 100.
Definition there : pos := at_ 400 100.

Lemma not_seen : forall ps A B ia ib, blocked ps A B ia ib = true -> ~ sees ps A B ia ib.
Proof. intros ps A B ia ib H S. apply blocked_sees in S. congruence. Qed.

(** The way turns at the corners 0 and 1; there is one over corner 2 as well. *)
Example C54_around :
  way zone1 (tri_graph false) here there [2] 816
  /\ let p := find_path (tri_dist false) zone1 here there in
     pa_len p = Some 582 /\ trail (tri_parent false) 3 p = Some [0; 1].
Proof.
  split; [|vm_compute; auto].
  exists (2, at_ 0 400), (2, at_ 0 400), 316, 0, 500.
  assert (C : corner zone1 (2, at_ 0 400)) by (exists (tri false 0 0); split; [left; reflexivity|right; right; left; reflexivity]).
  split; [exact C|]. split; [exact C|]. split; [exists []; reflexivity|]. split; [exists []; reflexivity|].
  split; [apply blocked_sees; vm_compute; reflexivity|]. split; [apply blocked_sees; vm_compute; reflexivity|].
  split; [vm_compute; repeat split; intros; discriminate|]. split; [constructor|].
  split; [vm_compute; repeat split; intros; discriminate|]. reflexivity.
Qed.

Example C54_around_by_theorem :
  exists vs l, pa_len (find_path (tri_dist false) zone1 here there) = Some l /\ way zone1 (tri_graph false) here there vs l.
Proof.
  destruct (C54_shortest zone1 (tri_graph false) 3 (tri_dist false) (tri_parent false) zone1_numbered
              (tri_shortest false 3 ltac:(lia)) here there [2] 816) as (vs & l & H1 & H2 & _).
  - apply not_seen. vm_compute. reflexivity.
  - apply C54_around.
  - lia.
  - exists vs, l. auto.
Qed.

(** Turning at one corner only, the corner is passed twice. *)
Example C54_twice :
  let p := find_path (tri_dist false) zone1 here (at_ 200 300) in
  pa_len p = Some 539 /\ trail (tri_parent false) 3 p = Some [2; 2].
Proof. vm_compute. auto. Qed.

(** Start and end in the middle of a zone to keep out of: the direct way is taken. *)
Theorem C54_inside_refuted :
  exists (p : polygon) a b c A B,
    p_in p = false /\ p_verts p = [a; b; c]
    /\ (0 < east A /\ 0 < north A /\ 4 * east A + 3 * north A < 1200)%Q
    /\ (0 < east B /\ 0 < north B /\ 4 * east B + 3 * north B < 1200)%Q
    /\ (snd a, snd b, snd c) = (at_ 0 0, at_ 300 0, at_ 0 400)
    /\ forall dist, find_path dist [p] A B
         = {| pa_first := -1; pa_last := -1; pa_len := Some 50; pa_start := A; pa_end := B |}.
Proof.
  exists (tri false 0 0), (0, at_ 0 0), (1, at_ 300 0), (2, at_ 0 400), (at_ 50 50), (at_ 80 90).
  split; [reflexivity|]. split; [reflexivity|]. split; [vm_compute; auto|]. split; [vm_compute; auto|].
  split; [reflexivity|]. intros dist. unfold find_path.
  assert (E : blocked [tri false 0 0] (at_ 50 50) (at_ 80 90) (-1) (-1) = false) by (vm_compute; reflexivity).
  rewrite E. vm_compute. reflexivity.
Qed.
Print Assumptions C54_inside_refuted.

(** No way: two separate zones to stay in, the start in one and the end in the other. *)
Definition zone2 : list polygon := [tri true 0 0; tri true 3 1000].

Lemma zone2_graph : build outside convex zone2 = tri_graph true.
Proof. vm_compute. reflexivity. Qed.

Lemma zone2_numbered : numbered zone2.
Proof.
  split.
  - cbn. repeat constructor; cbn; lia.
  - intros v (p & [<-|[<-|[]]] & IV); cbn in IV; repeat destruct IV as [<-|IV]; cbn; try lia.
Qed.

Lemma apart_walk : forall vs l, walk (tri_graph true) vs l ->
  forall a b, starts vs a -> ends vs b -> (a <= 2 <-> b <= 2).
Proof.
  intros vs l W. induction W as [c|c d w r l J W IH]; intros a b (q & S) (t & E).
  - injection S as -> _. destruct t as [|? [|? ?]]; try discriminate. injection E as ->. tauto.
  - injection S as -> _. destruct t as [|u t]; [discriminate|]. injection E as _ E.
    rewrite <- (IH d b (ex_intro _ r eq_refl) (ex_intro _ t E)).
    destruct J as [J|J]; cbn in J; repeat match type of J with _ \/ _ => destruct J as [J|J] end; try contradiction;
      injection J as <- <- <-; lia.
Qed.

Definition inA : pos := at_ 50 50.
Definition inB : pos := at_ 1050 50.

Lemma apart_none : forall vs l, ~ way zone2 (tri_graph true) inA inB vs l.
Proof.
  intros vs l (v & w & la & lw & lb & (p & IP & IV) & (q & IQ & IW) & S & E & SV & SW & _ & W & _ & _).
  pose proof (apart_walk _ _ W _ _ S E) as H.
  assert (V : fst v <= 2).
  { destruct IP as [<-|[<-|[]]]; cbn in IV; repeat destruct IV as [<-|IV]; try destruct IV; cbn [fst]; try lia;
      exfalso; revert SV; apply not_seen; vm_compute; reflexivity. }
  assert (V' : 2 < fst w).
  { destruct IQ as [<-|[<-|[]]]; cbn in IW; repeat destruct IW as [<-|IW]; try destruct IW; cbn [fst]; try lia;
      exfalso; revert SW; apply not_seen; vm_compute; reflexivity. }
  lia.
Qed.

(** A way is reported, with an undefined length, and its corners cannot be listed. *)
Theorem C54_two_zones_refuted :
  (forall vs l, ~ way zone2 (build outside convex zone2) inA inB vs l)
  /\ ~ sees zone2 inA inB nowhere nowhere
  /\ shortest_walks (build outside convex zone2) 6 (tri_dist true) (tri_parent true)
  /\ let r := is_find_path (tri_dist true) zone2 inA inB in
     fst r = true /\ pa_len (snd r) = None /\ trail (tri_parent true) 6 (snd r) = None.
Proof.
  rewrite zone2_graph. split; [exact apart_none|]. split; [apply not_seen; vm_compute; reflexivity|].
  split; [apply tri_shortest; lia|]. vm_compute. auto.
Qed.
Print Assumptions C54_two_zones_refuted.

Definition wall (k x1 y1 x2 y2 x3 y3 : Z) : polygon :=
  {| p_in := false;
     p_verts := [ (k, at_ (inject_Z x1) (inject_Z y1)); (k + 1, at_ (inject_Z x2) (inject_Z y2)); (k + 2, at_ (inject_Z x3) (inject_Z y3)) ] |}.

(** No corner is seen from the start, in the middle of two zones that overlap like a star. *)
Definition star : list polygon :=
  [ {| p_in := true; p_verts := p_verts (wall 0 (-300) (-200) 300 (-200) 0 400) |}; wall 3 (-300) 200 300 200 0 (-400) ].
Example C54_star : forall dist, is_find_path dist star (at_ 0 0) (at_ 1000 0) = (true, no_path).
Proof.
  intros dist. apply C54_lost_refuted.
  - apply not_seen. vm_compute. reflexivity.
  - left. intros v (p & [<-|[<-|[]]] & IV); cbn in IV; repeat destruct IV as [<-|IV]; try contradiction;
      apply not_seen; vm_compute; reflexivity.
Qed.

(** The side of a zone to stay in is an edge although a zone to keep out of lies across it. *)
Theorem C55_keepin_refuted :
  exists ps v w q a b, numbered ps /\ In (fst v, fst w, 300) (build outside convex ps)
    /\ In q ps /\ p_in q = false /\ side q a b
    /\ meet (snd a) (snd b) (snd v) (snd w) /\ ~ parallel (snd a) (snd b) (snd v) (snd w).
Proof.
  exists [tri true 0 0; wall 3 100 50 200 50 150 (-50)], (0, at_ 0 0), (1, at_ 300 0), (wall 3 100 50 200 50 150 (-50)),
    (5, at_ 150 (-50)), (3, at_ 100 50).
  split.
  { split.
    - cbn. repeat constructor; cbn; lia.
    - intros v (p & [<-|[<-|[]]] & IV); cbn in IV; repeat destruct IV as [<-|IV]; cbn; try lia. }
  split; [vm_compute; tauto|]. split; [right; left; reflexivity|]. split; [reflexivity|].
  split.
  { right. exists [(3, at_ 100 50); (4, at_ 200 50)], [(4, at_ 200 50); (5, at_ 150 (-50))]. split; reflexivity. }
  apply and_comm. apply C53_crosses. vm_compute. reflexivity.
Qed.
Print Assumptions C55_keepin_refuted.

(** Edges of every kind. *)
Definition boomerang : polygon :=
  {| p_in := false; p_verts := [ (3, at_ 1000 0); (4, at_ 1300 0); (5, at_ 1100 100); (6, at_ 1000 400) ] |}.
Example C55_kinds :
  let es := build outside (fun p => 4 <=? Z.of_nat (length (p_verts p))) [tri false 0 0; boomerang] in
  In (0, 1, 300) es /\ In (1, 3, 700) es /\ In (4, 6, 500) es /\ ~ In (0, 4, 1300) es.
Proof. vm_compute. intuition discriminate. Qed.

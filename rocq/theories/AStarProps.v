(** Theorems about the search for a way in the road network (C60). *)
From Coq Require Import List ZArith Lia Bool.
From Verif Require Import ZMap AStarModel AStarSpec AStarProofs.
Import ListNotations.
Open Scope list_scope.
Open Scope Z_scope.

Section Search.
  Context (es : list (Z * Z * Z)) (h : Z -> Z) (both : bool) (choose : list (Z * Z) -> Z).
  Context (choose_best : best_of choose).
  Context (weights : forall a b w, In (a, b, w) es -> 0 <= w).
  Context (start goal : Z).

  (** C60: if along every edge the guess drops by no more than the length of the edge, the way that is read off the
      result is a shortest one, has the reported length, and passes no vertex twice. *)
  Theorem C60_shortest : guess_drops es h 0 -> h goal = 0 ->
    forall fuel d s, search es h both choose goal fuel (search_init start) = Found d s ->
    exists l, trail (length (dst s)) (par s) goal [] = Some l /\ NoDup l /\ route es start l goal d
      /\ forall l' d', route es start l' goal d' -> d <= d'.
  Proof using choose_best weights.
    intros G0 HG fuel d s E.
    pose proof (search_spec es h both choose choose_best weights start goal 0 (Z.le_refl 0) G0 HG fuel (search_init start)
                  (ready_init es start goal 0)) as P. rewrite E in P. destruct P as (R & D & B).
    assert (SH : forall l' d', route es start l' goal d' -> d <= d') by (intros l' d' Q; specialize (B l' d' Q); lia).
    destruct (trail_spec es weights start goal s d (re_sound _ _ _ _ _ R) D) as (l & len & T & Q & LE & ND).
    exists l. split; [exact T|]. split; [exact ND|]. split; [|exact SH]. specialize (SH l len Q). replace d with len by lia. exact Q.
  Qed.

  (** C60: if the guess may drop by [slack] more, the way is longer than any other one by at most [slack] per edge of
      the other; it is not longer than reported. *)
  Theorem C60_nearly_shortest : forall slack, 0 <= slack -> guess_drops es h slack -> h goal = 0 ->
    forall fuel d s, search es h both choose goal fuel (search_init start) = Found d s ->
    exists l len, trail (length (dst s)) (par s) goal [] = Some l /\ NoDup l /\ route es start l goal len /\ len <= d
      /\ forall l' len', route es start l' goal len' -> d <= len' + slack * (Z.of_nat (length l') - 1).
  Proof using choose_best weights.
    intros slack SP G0 HG fuel d s E.
    pose proof (search_spec es h both choose choose_best weights start goal slack SP G0 HG fuel (search_init start)
                  (ready_init es start goal slack)) as P. rewrite E in P. destruct P as (R & D & B).
    destruct (trail_spec es weights start goal s d (re_sound _ _ _ _ _ R) D) as (l & len & T & Q & LE & ND).
    exists l, len. split; [exact T|]. split; [exact ND|]. split; [exact Q|]. split; [lia|exact B].
  Qed.

  (** C60: the search always ends, *)
  Theorem C60_ends : forall slack, 0 <= slack -> guess_drops es h slack -> h goal = 0 ->
    exists n, forall fuel, (n <= fuel)%nat -> search es h both choose goal fuel (search_init start) <> Running.
  Proof using choose_best weights.
    intros slack SP G0 HG.
    destruct (search_ends es h both choose choose_best weights start goal slack SP G0 (search_init start)
                (ready_init es start goal slack)) as (n & N).
    exists n. intros fuel L. rewrite (search_more es h both choose goal n _ N fuel L). exact N.
  Qed.

  (** and it finds a way exactly if there is one. *)
  Theorem C60_found : forall slack, 0 <= slack -> guess_drops es h slack -> h goal = 0 ->
    forall fuel, search es h both choose goal fuel (search_init start) <> Running ->
    ((exists d s, search es h both choose goal fuel (search_init start) = Found d s) <-> exists l len, route es start l goal len).
  Proof using choose_best weights.
    intros slack SP G0 HG fuel N.
    pose proof (search_spec es h both choose choose_best weights start goal slack SP G0 HG fuel (search_init start)
                  (ready_init es start goal slack)) as P.
    destruct (search es h both choose goal fuel (search_init start)) as [d s| |] eqn:E.
    - split; [intros _|intros _; eauto]. destruct P as (R & D & B).
      destruct (trail_spec es weights start goal s d (re_sound _ _ _ _ _ R) D) as (l & len & T & Q & LE & ND). eauto.
    - split; [intros (d & s & Q); discriminate|intros (l & len & Q); exfalso; exact (P l len Q)].
    - congruence.
  Qed.
End Search.

(** The first of the best *)
Definition first_best (l : list (Z * Z)) : Z :=
  match l with [] => 0 | e :: r => fst (fold_left (fun b x => if snd x <? snd b then x else b) r e) end.
Lemma first_best_ok : best_of first_best.
Proof.
  intros [|e l] N; [congruence|]. unfold first_best. clear N.
  assert (G : forall l e, exists c, fold_left (fun b x : Z * Z => if snd x <? snd b then x else b) l e = (fst (fold_left (fun b x : Z * Z => if snd x <? snd b then x else b) l e), c)
              /\ (fold_left (fun b x : Z * Z => if snd x <? snd b then x else b) l e = e \/ In (fold_left (fun b x : Z * Z => if snd x <? snd b then x else b) l e) l)
              /\ c <= snd e /\ forall v c', In (v, c') l -> c <= c').
  { clear. induction l as [|x l IH]; intros e.
    - exists (snd e). cbn. split; [destruct e; reflexivity|]. split; [auto|]. split; [lia|intros v c' []].
    - cbn [fold_left]. destruct (IH (if snd x <? snd e then x else e)) as (c & E & I & L & M). exists c. split; [exact E|].
      destruct (snd x <? snd e) eqn:Q.
      + apply Z.ltb_lt in Q. split; [right; destruct I as [->|I]; [left; reflexivity|right; exact I]|]. split; [lia|].
        intros v c' [J|J]; [subst x; exact L|apply (M v), J].
      + apply Z.ltb_ge in Q. split; [destruct I as [->|I]; [left; reflexivity|right; right; exact I]|]. split; [lia|].
        intros v c' [J|J]; [subst x; cbn in Q; lia|apply (M v), J]. }
  destruct (G l e) as (c & E & I & L & M). exists c. rewrite <- E. split; [destruct I as [->|I]; [left; reflexivity|right; exact I]|].
  intros v c' [J|J]; [subst e; exact L|apply (M v), J].
Qed.

(** A direct road of 10 and a way around of 4 + 5 *)
Example shortest_example :
  let es := [(1, 3, 10); (1, 2, 4); (3, 2, 5); (4, 5, 1)] in let h v := if v =? 1 then 8 else if v =? 2 then 5 else 0 in
  best_of first_best /\ (forall a b w, In (a, b, w) es -> 0 <= w) /\ guess_drops es h 0 /\ h 3 = 0
  /\ exists s, search es h false first_best 3 10 (search_init 1) = Found 9 s /\ trail (length (dst s)) (par s) 3 [] = Some [1; 2; 3].
Proof.
  split; [exact first_best_ok|]. split; [|split; [|split; [reflexivity|]]].
  - intros a b w H. cbn in H. repeat (destruct H as [H|H]; [injection H as <- <- <-; lia|]). destruct H.
  - intros a b w [H|H]; cbn in H; repeat (destruct H as [H|H]; [injection H as <- <- <-; vm_compute; discriminate|]); destruct H.
  - eexists. split; vm_compute; reflexivity.
Qed.

(** C60: with a guess that drops by up to 1 more than the length of an edge - as it does when both are rounded down -
    the way need not be a shortest one. *)
Theorem C60_shortest_refuted : exists es h choose start goal fuel d s,
  best_of choose /\ (forall a b w, In (a, b, w) es -> 0 <= w) /\ guess_drops es h 1 /\ h goal = 0
  /\ search es h false choose goal fuel (search_init start) = Found d s
  /\ exists l len, route es start l goal len /\ len < d.
Proof.
  exists [(1, 2, 0); (2, 4, 0); (4, 3, 0); (1, 3, 1)], (fun v => if v =? 1 then 2 else if v =? 2 then 2 else if v =? 4 then 1 else 0), first_best, 1, 3, 10%nat, 1.
  eexists. split; [exact first_best_ok|]. split; [|split; [|split; [reflexivity|split; [vm_compute; reflexivity|]]]].
  - intros a b w H. cbn in H. repeat (destruct H as [H|H]; [injection H as <- <- <-; lia|]). destruct H.
  - intros a b w [H|H]; cbn in H; repeat (destruct H as [H|H]; [injection H as <- <- <-; vm_compute; discriminate|]); destruct H.
  - exists [1; 2; 4; 3], 0. split; [|lia]. change 0 with (0 + (0 + (0 + 0))). apply route_more with 2; [left; cbn; auto|].
    apply route_more with 4; [left; cbn; auto|]. apply route_more with 3; [left; cbn; auto|]. apply route_end.
Qed.

Print Assumptions C60_shortest.
Print Assumptions C60_nearly_shortest.
Print Assumptions C60_ends.
Print Assumptions C60_found.
Print Assumptions C60_shortest_refuted.

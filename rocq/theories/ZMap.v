(** Finite maps and sets with 64 bit ids as keys: [std::unordered_map<int64_t, T>] and
    [std::unordered_set<int64_t>] as association lists and lists.  Only lookup, insertion
    and removal are given here; the (unspecified) iteration order of the C++ containers is
    treated where a container is iterated over. *)
From Coq Require Import List ZArith Bool Lia.
Import ListNotations.
Open Scope list_scope.
Open Scope Z_scope.

Definition zmap (A : Type) := list (Z * A).

(** [find]. *)
Fixpoint zget {A} (m : zmap A) (k : Z) : option A :=
  match m with
  | [] => None
  | (k', x) :: m' => if k' =? k then Some x else zget m' k
  end.

(** [erase]. *)
Definition zdel {A} (m : zmap A) (k : Z) : zmap A :=
  filter (fun p => negb (fst p =? k)) m.

(** [operator[]] with assignment. *)
Definition zset {A} (m : zmap A) (k : Z) (x : A) : zmap A := (k, x) :: zdel m k.

Definition zhas {A} (m : zmap A) (k : Z) : bool :=
  match zget m k with Some _ => true | None => false end.

(** Sets of ids. *)
Definition zin (x : Z) (s : list Z) : bool := existsb (Z.eqb x) s.
Definition zadd (x : Z) (s : list Z) : list Z := if zin x s then s else x :: s.
Definition zrem (x : Z) (s : list Z) : list Z := filter (fun y => negb (y =? x)) s.

Lemma zget_del_same {A} (m : zmap A) k : zget (zdel m k) k = None.
Proof.
  induction m as [|(k', x) m IH]; cbn; auto.
  destruct (Z.eqb_spec k' k); cbn; auto. destruct (Z.eqb_spec k' k); [congruence|auto].
Qed.

Lemma zget_del_other {A} (m : zmap A) k j : j <> k -> zget (zdel m k) j = zget m j.
Proof.
  intros N. induction m as [|(k', x) m IH]; cbn; auto.
  destruct (Z.eqb_spec k' k); cbn.
  - subst. destruct (Z.eqb_spec k j); [congruence|auto].
  - destruct (k' =? j); auto.
Qed.

Lemma zget_set_same {A} (m : zmap A) k x : zget (zset m k x) k = Some x.
Proof. unfold zset. cbn. rewrite Z.eqb_refl. auto. Qed.

Lemma zget_set_other {A} (m : zmap A) k j x : j <> k -> zget (zset m k x) j = zget m j.
Proof.
  intros N. unfold zset. cbn. destruct (Z.eqb_spec k j); [congruence|].
  apply zget_del_other; auto.
Qed.

Lemma zget_del {A} (m : zmap A) k j :
  zget (zdel m k) j = if j =? k then None else zget m j.
Proof.
  destruct (Z.eqb_spec j k); [subst; apply zget_del_same|apply zget_del_other; auto].
Qed.

Lemma zget_set {A} (m : zmap A) k j x :
  zget (zset m k x) j = if j =? k then Some x else zget m j.
Proof.
  destruct (Z.eqb_spec j k); [subst; apply zget_set_same|apply zget_set_other; auto].
Qed.

Lemma zin_In x s : zin x s = true <-> In x s.
Proof.
  unfold zin. rewrite existsb_exists. split.
  - intros (y & I & E). apply Z.eqb_eq in E. subst. auto.
  - intros I. exists x. rewrite Z.eqb_refl. auto.
Qed.

Lemma zin_false x s : zin x s = false <-> ~ In x s.
Proof. rewrite <- zin_In. destruct (zin x s); split; congruence. Qed.

Lemma In_zadd x y s : In x (zadd y s) <-> x = y \/ In x s.
Proof.
  unfold zadd. destruct (zin y s) eqn:E.
  - apply zin_In in E. split; [auto|]. intros [->|]; auto.
  - cbn. intuition.
Qed.

Lemma In_zrem x y s : In x (zrem y s) <-> In x s /\ x <> y.
Proof.
  unfold zrem. rewrite filter_In. split; intros (I & N); split; auto.
  - intros ->. rewrite Z.eqb_refl in N. discriminate.
  - destruct (Z.eqb_spec x y); [congruence|auto].
Qed.

Lemma NoDup_zadd x s : NoDup s -> NoDup (zadd x s).
Proof.
  unfold zadd. destruct (zin x s) eqn:E; auto. apply zin_false in E. constructor; auto.
Qed.

Lemma NoDup_zrem x s : NoDup s -> NoDup (zrem x s).
Proof. apply NoDup_filter. Qed.

Lemma In_zget {A} (m : zmap A) k x : zget m k = Some x -> In (k, x) m.
Proof.
  induction m as [|(k', y) m IH]; cbn; [discriminate|].
  destruct (Z.eqb_spec k' k); [intros [= ->]; subst; auto|auto].
Qed.

Lemma zget_In {A} (m : zmap A) k x : NoDup (map fst m) -> In (k, x) m -> zget m k = Some x.
Proof.
  induction m as [|(k', y) m IH]; cbn; [intros _ []|].
  intros N [E|I]; inversion N as [|? ? N1 N2]; subst.
  - injection E as -> ->. rewrite Z.eqb_refl. auto.
  - destruct (Z.eqb_spec k' k); [|auto]. subst. exfalso. apply N1.
    apply (in_map fst) in I. auto.
Qed.

Lemma In_zdel {A} (m : zmap A) k j x : In (j, x) (zdel m k) <-> In (j, x) m /\ j <> k.
Proof.
  unfold zdel. rewrite filter_In. cbn. split; intros (I & N); split; auto.
  - intros ->. rewrite Z.eqb_refl in N. discriminate.
  - destruct (Z.eqb_spec j k); [congruence|auto].
Qed.

Lemma keys_zdel {A} (m : zmap A) k : map fst (zdel m k) = zrem k (map fst m).
Proof.
  unfold zdel, zrem. induction m as [|(k', x) m IH]; cbn; auto.
  destruct (k' =? k); cbn; congruence.
Qed.

Lemma zget_none {A} (m : zmap A) k : zget m k = None <-> ~ In k (map fst m).
Proof.
  induction m as [|(k', x) m IH]; cbn; [tauto|].
  destruct (Z.eqb_spec k' k); split; intros; try discriminate; try tauto.
Qed.

Lemma NoDup_keys_zdel {A} (m : zmap A) k : NoDup (map fst m) -> NoDup (map fst (zdel m k)).
Proof. rewrite keys_zdel. apply NoDup_zrem. Qed.

Lemma NoDup_keys_zset {A} (m : zmap A) k x :
  NoDup (map fst m) -> NoDup (map fst (zset m k x)).
Proof.
  intros N. cbn. constructor; [|apply NoDup_keys_zdel; auto].
  rewrite keys_zdel, In_zrem. tauto.
Qed.

(** Two ways to split the same list at an element. *)
From Coq Require Import List.
Import ListNotations.
Open Scope list_scope.

Lemma split_cases {A} (l1 l2 r1 r2 : list A) (x y : A) :
  l1 ++ x :: l2 = r1 ++ y :: r2 ->
  (l1 = r1 /\ x = y /\ l2 = r2) \/ (exists m, r1 = l1 ++ x :: m /\ l2 = m ++ y :: r2) \/
  (exists m, l1 = r1 ++ y :: m /\ r2 = m ++ x :: l2).
Proof.
  revert r1. induction l1 as [|a l1 IH]; intros [|b r1] H; cbn in H.
  - injection H as -> ->. auto.
  - injection H as -> ->. right; left. exists r1. auto.
  - injection H as -> <-. right; right. exists l1. auto.
  - injection H as -> H. destruct (IH r1 H) as [(-> & -> & ->)|[(m & -> & ->)|(m & -> & ->)]]; auto.
    + right; left. exists m. auto.
    + right; right. exists m. auto.
Qed.


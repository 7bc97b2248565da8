(** Model of src/cpp/Utilities/Algebra.cpp: the parse tree of task relationships and the
    computation of the next executable actions. *)
From Coq Require Import String Ascii List Arith ZArith NArith Bool.
From Verif Require Import Base Decimal10.
Import ListNotations.
Open Scope list_scope.

(** AlgebraBase.h:41-46, [operatorType_t].  [OP_UNDEFINED] is left out: [parseFormula]
    never builds an operator node with it (Algebra.cpp:392-430). *)
Inductive opk := Seq | Alt | Par.

(** AlgebraBase.h:50-104, [actionNode] and [operatorNode]; parent pointers are left out. *)
Inductive expr :=
| Act (a : Z)
| Op (o : opk) (cs : list expr).

(** Algebra.cpp:169-186, the loop of [OP_SEQUENTIAL] over the results of the children:
    [first] says that no child has been passed yet ([i == 0]). *)
Fixpoint seq_scan (first : bool) (rs : list (list Z * bool)) : list Z * bool :=
  match rs with
  | [] => ([], true)
  | (r, enc) :: rs' =>
      match r with
      | [] => seq_scan false rs'
      | _ => (r, if first then enc else true)
      end
  end.

(** Algebra.cpp:191-214, [OP_ALTERNATIVE]: the first child that has encountered an executed
    action decides; otherwise the results are collected in order. *)
Fixpoint alt_scan (rs : list (list Z * bool)) (acc : list Z) : list Z * bool :=
  match rs with
  | [] => (acc, false)
  | (r, enc) :: rs' => if enc then (r, true) else alt_scan rs' (acc ++ r)
  end.

(** Algebra.cpp:216-229, [OP_PARALLEL]. *)
Definition par_scan (rs : list (list Z * bool)) : list Z * bool :=
  (concat (map fst rs), existsb snd rs).

(** Algebra.cpp:69-88 and 154-238, [nextActions] of action and operator nodes.  The second
    component is [encounterExecutedOut].  The loops of the code stop early at 181 and 200;
    here all children are evaluated, which makes no difference as the calls have no side
    effects. *)
Fixpoint nextActions (executed : list Z) (e : expr) : list Z * bool :=
  match e with
  | Act a => if existsb (Z.eqb a) executed then ([], true) else ([a], false)
  | Op o cs =>
      let rs := map (nextActions executed) cs in
      match o with
      | Seq => seq_scan true rs
      | Alt => alt_scan rs []
      | Par => par_scan rs
      end
  end.

(** Algebra.cpp:95-100 and 245-260, [getChildrenActions]. *)
Fixpoint getChildrenActions (e : expr) : list Z :=
  match e with
  | Act a => [a]
  | Op _ cs => flat_map getChildrenActions cs
  end.

(** Algebra.cpp:646-651, [CAlgebra::searchNext]. *)
Definition searchNext (e : expr) (executed : list Z) : list Z :=
  fst (nextActions executed e).

(** Algebra.cpp:305-323: repeatedly pick the ([rand() % i])-th of the [i] children not yet
    picked.  The code marks picked indices; here the picked child is removed from the list
    of remaining ones.  [rnd k] is the [k]-th value of [rand()]. *)
Fixpoint pick_all (rnd : nat -> nat) (k : nat) (i : nat) (rest : list expr) : list expr :=
  match i with
  | O => []
  | S i' =>
      let j := rnd k mod i in
      match nth_error rest j with
      | None => []
      | Some c => c :: pick_all rnd (S k) i' (firstn j rest ++ skipn (S j) rest)
      end
  end.

(** Algebra.cpp:288-334, [randomlyShuffleChildren]: alternatives and parallel compositions
    are shuffled if a random number (compared as [double], here the predicate [small]) says
    so; then the children are visited in their new order.  Returns the tree and the number
    of random values used. *)
Fixpoint shuffle (small : nat -> bool) (rnd : nat -> nat) (depth : nat) (k : nat) (e : expr)
  : option (expr * nat) :=
  match depth with
  | O => None
  | S d =>
      match e with
      | Act a => Some (Act a, k)
      | Op o cs =>
          let draws := match o with Seq => false | _ => true end in
          let k1 := if draws then S k else k in
          let doit := draws && small (rnd k) in
          let cs1 := if doit then pick_all rnd k1 (length cs) cs else cs in
          let k2 := if doit then k1 + length cs else k1 in
          match (fix go (k : nat) (cs : list expr) : option (list expr * nat) :=
                   match cs with
                   | [] => Some ([], k)
                   | c :: cs' =>
                       match shuffle small rnd d k c with
                       | None => None
                       | Some (c', k') =>
                           match go k' cs' with
                           | None => None
                           | Some (cs'', k'') => Some (c' :: cs'', k'')
                           end
                       end
                   end) k2 cs1 with
          | None => None
          | Some (cs2, k3) => Some (Op o cs2, k3)
          end
      end
  end.

(** Depth of a tree; [shuffle] recurses at most that deep. *)
Fixpoint depth (e : expr) : nat :=
  match e with
  | Act _ => 1
  | Op _ cs => S (fold_right (fun c m => Nat.max (depth c) m) 0 cs)
  end.

(** Model of src/cpp/Utilities/Permute.h: enumeration of combinations and permutations, and the
    functions that count them.

    The range [first, mid) is the list [a], the range [mid, last) the list [b]; iterators into them
    are positions.  All ranges passed on by the code end where [a] or [b] ends, so a range is given
    by its first position.  The function object called for each arrangement is [g], which sees the
    range [first, mid) and has a state; it is taken not to change the range.  The functions with
    "reversible" in their name and [combine_discontinuous3] are modelled only as far as they
    count. *)
From Coq Require Import List ZArith Bool.
Import ListNotations.
Open Scope list_scope.

Section Ranges.
  Context {T : Type}.

  (** [swap( *p, *q)] of two positions of one list. *)
  Definition put (l : list T) (i : nat) (x : T) : list T := firstn i l ++ x :: skipn (S i) l.

  Definition swap (l : list T) (i p : nat) : list T :=
    match nth_error l i, nth_error l p with
    | Some x, Some y => put (put l i y) p x
    | _, _ => l
    end.

  (** [swap( *p, *q)] with one position in each list. *)
  Definition swap2 (a : list T) (i : nat) (b : list T) (j : nat) : list T * list T :=
    match nth_error a i, nth_error b j with
    | Some x, Some y => (put a i y, put b j x)
    | _, _ => (a, b)
    end.

  (** [std::rotate(first, first + n, last)]. *)
  Definition rotate (n : nat) (l : list T) : list T := skipn n l ++ firstn n l.

  (** [std::reverse(first + i, last)]. *)
  Definition reverse (i : nat) (l : list T) : list T := firstn i l ++ rev (skipn i l).

  (** Permute.h:34-51, on the contents of the two ranges.  [swap_ranges] exchanges the first
      range with as many elements of the second; the loop at 47 exchanges the second range with
      the end of the first. *)
  Definition rotate_discontinuous (a b : list T) : list T * list T :=
    let d1 := length a in
    let d2 := length b in
    if d1 <=? d2 then (firstn d1 b, rotate d1 (a ++ skipn d1 b))
    else (rotate (d1 - d2) (firstn (d1 - d2) a ++ b), skipn (d1 - d2) a).

  (** The same on the ranges that start at [i] and [j]. *)
  Definition rotate_at (a : list T) (i : nat) (b : list T) (j : nat) : list T * list T :=
    let (a', b') := rotate_discontinuous (skipn i a) (skipn j b) in
    (firstn i a ++ a', firstn j b ++ b').

  Context {St : Type}.

  (** A function object without arguments: it may permute the first range. *)
  Definition thunk := list T -> St -> bool * list T * St.

  (** What a loop returns: whether it was stopped, the ranges and the state. *)
  Definition result : Type := bool * list T * list T * St.

  Definition lift (f : thunk) (a b : list T) (s : St) : result :=
    let '(stop, a', s') := f a s in (stop, a', b, s').

  (** The loops at Permute.h:97-102 and 108-113: [n] positions of the second range from [j] on
      are left. *)
  Fixpoint combine_loop (inner : nat -> list T -> list T -> St -> result)
    (n i j : nat) (a b : list T) (s : St) : result :=
    match n with
    | O => (false, a, b, s)
    | S n' =>
        let '(stop, a1, b1, s1) := inner j a b s in
        if stop then (true, a1, b1, s1)
        else let (a2, b2) := swap2 a1 i b1 j in
             combine_loop inner n' i (S j) a2 b2 s1
    end.

  (** Permute.h:82-121.  [d1] is the length of the first range, [top] tells whether [d] is 0. *)
  Fixpoint combine_discontinuous (f : thunk) (d1 : nat) (top : bool) (i j : nat) (a b : list T) (s : St)
    : result :=
    let d2 := length b - j in
    match d1 with
    | O => lift f a b s
    | S d1' =>
        if d2 =? 0 then lift f a b s else
        let inner jj a b s :=
          match d1' with
          | O => lift f a b s
          | S _ => combine_discontinuous f d1' false (S i) jj a b s
          end in
        let '(stop, a1, b1, s1) := combine_loop inner d2 i j a b s in
        if stop then (true, a1, b1, s1) else
        let '(stop, a2, b2, s2) := lift f a1 b1 s1 in
        if stop then (true, a2, b2, s2) else
        let (a3, b3) := if top then rotate_at a2 i b2 j else rotate_at a2 i b2 (S j) in
        (false, a3, b3, s2)
    end.

  Context (g : list T -> St -> bool * St).

  (** [bound_range] (Permute.h:363-384). *)
  Definition call (a : list T) (s : St) : bool * list T * St :=
    let (stop, s') := g a s in (stop, a, s').

  (** The sequence of calls and exchanges at Permute.h:256-275 and 320-340 for three elements. *)
  Definition permute_three (i : nat) (a : list T) (s : St) : bool * list T * St :=
    let '(stop, a, s) := call a s in if stop then (true, a, s) else
    let a := swap a (i + 1) (i + 2) in
    let '(stop, a, s) := call a s in if stop then (true, a, s) else
    let a := swap a i (i + 2) in
    let a := swap a (i + 1) (i + 2) in
    let '(stop, a, s) := call a s in if stop then (true, a, s) else
    let a := swap a (i + 1) (i + 2) in
    let '(stop, a, s) := call a s in if stop then (true, a, s) else
    let a := swap a i (i + 1) in
    let a := swap a (i + 1) (i + 2) in
    let '(stop, a, s) := call a s in if stop then (true, a, s) else
    let a := swap a (i + 1) (i + 2) in
    call a s.

  Definition permute_two (i : nat) (a : list T) (s : St) : bool * list T * St :=
    let '(stop, a, s) := call a s in if stop then (true, a, s) else
    call (swap a i (i + 1)) s.

  (** The loops at Permute.h:279-285 and 346-352: [n] positions from [p] on are left. *)
  Fixpoint permute_loop (inner : list T -> St -> bool * list T * St)
    (n i p : nat) (a : list T) (s : St) : bool * list T * St :=
    match n with
    | O => (false, a, s)
    | S n' =>
        let '(stop, a1, s1) := inner a s in
        if stop then (true, a1, s1)
        else permute_loop inner n' i (S p) (swap (reverse (S i) a1) i p) s1
    end.

  (** Permute.h:240-287: the range starts at [i] and has [d1] elements. *)
  Fixpoint permute_ (d1 i : nat) (a : list T) (s : St) : bool * list T * St :=
    match d1 with
    | O | 1%nat => call a s
    | 2%nat => permute_two i a s
    | 3%nat => permute_three i a s
    | S d1' =>
        let '(stop, a1, s1) := permute_loop (permute_ d1' (S i)) d1' i (S i) a s in
        if stop then (true, a1, s1) else permute_ d1' (S i) a1 s1
    end.

  (** Permute.h:292-359; [permute] is called on ranges that start at position [i]. *)
  Definition permute (d1 i : nat) (a : list T) (s : St) : bool * list T * St :=
    match d1 with
    | O | 1%nat => call a s
    | 2%nat =>
        let '(stop, a, s) := permute_two i a s in
        if stop then (true, a, s) else (false, swap a i (i + 1), s)
    | 3%nat =>
        let '(stop, a, s) := permute_three i a s in
        if stop then (true, a, s) else (false, swap a i (i + 2), s)
    | S d1' =>
        let '(stop, a1, s1) := permute_loop (permute_ d1' (S i)) d1' i (S i) a s in
        if stop then (true, a1, s1) else
        let '(stop, a2, s2) := permute_ d1' (S i) a1 s1 in
        if stop then (true, a2, s2) else (false, reverse i a2, s2)
    end.

  (** Permute.h:408-418. *)
  Definition for_each_combination (a b : list T) (s : St) : result :=
    combine_discontinuous call (length a) true 0 0 a b s.

  (** Permute.h:471-486. *)
  Definition for_each_permutation (a b : list T) (s : St) : result :=
    combine_discontinuous (permute (length a) 0) (length a) true 0 0 a b s.

  (** Permute.h:520-539: the first element is held, the others are permuted. *)
  Definition circular_permutation (d1 : nat) (a : list T) (s : St) : bool * list T * St :=
    match d1 with
    | O | 1%nat => call a s
    | S d1' => permute d1' 1 a s
    end.

  (** Permute.h:543-552. *)
  Definition for_each_circular_permutation (a b : list T) (s : St) : result :=
    combine_discontinuous (circular_permutation (length a)) (length a) true 0 0 a b s.
End Ranges.

Open Scope Z_scope.

(** Counting, in an unsigned type with largest value [max].  [None] is the overflow exception. *)
Section Counting.
  Context (max : Z).

  (** Permute.h:420-431.  The second argument decreases, so it bounds the number of turns. *)
  Fixpoint gcd_loop (fuel : nat) (x y : Z) : Z :=
    match fuel with
    | O => x
    | S fuel' => if y =? 0 then x else gcd_loop fuel' y (x mod y)
    end.

  Definition gcd (x y : Z) : Z := gcd_loop (S (Z.to_nat y)) x y.

  (** [r *= t] guarded by the test [r > max / t]. *)
  Definition times (r t : Z) : option Z := if max / t <? r then None else Some (r * t).

  (** Permute.h:446-455: [turns] values of [k] are left. *)
  Fixpoint combination_loop (turns : nat) (k n r : Z) : option Z :=
    match turns with
    | O => Some r
    | S turns' =>
        let g := gcd r k in
        let r := r / g in
        let t := n / (k / g) in
        match times r t with
        | None => None
        | Some r => combination_loop turns' (k + 1) (n - 1) r
        end
    end.

  (** Permute.h:433-457. *)
  Definition count_each_combination (d1 d2 : Z) : option Z :=
    let (d1, d2) := if d2 <? d1 then (d2, d1) else (d1, d2) in
    if d1 =? 0 then Some 1 else
    if max - d2 <? d1 then None else
    let n := d1 + d2 in
    combination_loop (Z.to_nat (d1 - 1)) 2 (n - 1) n.

  (** [for (; n > low; --n) { if (r > max / n) throw; r *= n; }] *)
  Fixpoint product_loop (turns : nat) (n r : Z) : option Z :=
    match turns with
    | O => Some r
    | S turns' => match times r n with
                  | None => None
                  | Some r => product_loop turns' (n - 1) r
                  end
    end.

  Definition product (n low r : Z) : option Z := product_loop (Z.to_nat (n - low)) n r.

  (** Permute.h:488-504. *)
  Definition count_each_permutation (d1 d2 : Z) : option Z :=
    if max - d2 <? d1 then None else product (d1 + d2) d2 1.

  (** Permute.h:554-599. *)
  Definition count_each_circular_permutation (d1 d2 : Z) : option Z :=
    if d1 =? 0 then Some 1 else
    if d1 <=? d2 then
      match count_each_combination d1 d2 with
      | None => None
      | Some r => product (d1 - 1) 1 r
      end
    else if max - d2 <? d1 then None else
      match product (d1 + d2) d1 1 with
      | None => None
      | Some r => product (d1 - 1) d2 r
      end.

  (** Permute.h:818-848. *)
  Definition count_each_reversible_permutation (d1 d2 : Z) : option Z :=
    if max - d2 <? d1 then None else
    let n := d1 + d2 in
    if 1 <? d1 then
      let r := if Z.even n then n / 2 else n in
      let t := if Z.even (n - 1) then (n - 1) / 2 else n - 1 in
      match times r t with
      | None => None
      | Some r => product (n - 2) d2 r
      end
    else product n d2 1.

  (** Permute.h:901-925. *)
  Definition count_each_reversible_circular_permutation (d1 d2 : Z) : option Z :=
    match count_each_combination d1 d2 with
    | None => None
    | Some r => if 3 <? d1 then product (d1 - 1) 2 r else Some r
    end.
End Counting.

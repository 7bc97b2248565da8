(** Model of the test whether two line segments cross, /repo/src/cpp/Plans/Edge.cpp:37-153.

    Simplification: the coordinates are rational numbers and the arithmetic is exact; the rounding of
    floating point numbers is not modelled. *)
From Coq Require Import QArith Qabs Bool.
Open Scope Q_scope.

(** The two coordinates of a position that matter, Position.h. *)
Record pos := { east : Q; north : Q }.

(** Edge.cpp:37 *)
Definition sign (a : Q) : Q := if Qeq_bool a 0 then 1 else a / Qabs a.
Definition same_signs (a b : Q) : bool := Qeq_bool (sign a) (sign b).

Definition nonzero (a : Q) : bool := negb (Qeq_bool a 0).
Definition negative (a : Q) : bool := negb (Qle_bool 0 a).

(** Edge.cpp:39-153: [None] if the segments [A1 A2] and [B1 B2] do not cross, else the point given out. *)
Definition find (A1 A2 B1 B2 : pos) : option pos :=
  let x1 := east A1 in let y1 := north A1 in let x2 := east A2 in let y2 := north A2 in
  let x3 := east B1 in let y3 := north B1 in let x4 := east B2 in let y4 := north B2 in
  let a1 := y2 - y1 in let b1 := x1 - x2 in let c1 := x2 * y1 - x1 * y2 in
  let r3 := a1 * x3 + b1 * y3 + c1 in
  let r4 := a1 * x4 + b1 * y4 + c1 in
  if nonzero r3 && nonzero r4 && same_signs r3 r4 then None
  else
    let a2 := y4 - y3 in let b2 := x3 - x4 in let c2 := x4 * y3 - x3 * y4 in
    let r1 := a2 * x1 + b2 * y1 + c2 in
    let r2 := a2 * x2 + b2 * y2 + c2 in
    if nonzero r1 && nonzero r2 && same_signs r1 r2 then None
    else
      let denom := a1 * b2 - a2 * b1 in
      if Qeq_bool denom 0 then None
      else
        let offset := if negative denom then - denom / 2 else denom / 2 in
        let numx := b1 * c2 - b2 * c1 in
        let numy := a2 * c1 - a1 * c2 in
        Some {| east := (if negative numx then numx - offset else numx + offset) / denom;
                north := (if negative numy then numy - offset else numy + offset) / denom |}.

(** The value returned. *)
Definition crosses (A1 A2 B1 B2 : pos) : bool :=
  match find A1 A2 B1 B2 with Some _ => true | None => false end.

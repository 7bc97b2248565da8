(** Flying with a smallest turn, and ways of waypoints that follow a flight.  Of the model only the types are used: senses, places, circles
    and waypoints. *)
From Coq Require Import Reals List ZArith.
From Verif Require Import DubinsModel.
Import ListNotations.
Open Scope R_scope.

(** A place (metres north and east) and a heading (radians, clockwise from north). *)
Notation pose := (R * R * R)%type.

(** A piece of a flight: turning to the right (clockwise) or to the left by an angle, or straight ahead for a distance. *)
Inductive piece := Turn (s : sense) (a : R) | Ahead (l : R).

Definition fly1 (r : R) (P : pose) (x : piece) : pose :=
  let '(n, e, h) := P in
  match x with
  | Turn Cw a => (n + r * (sin (h + a) - sin h), e + r * (cos h - cos (h + a)), h + a)
  | Turn Ccw a => (n + r * (sin h - sin (h - a)), e + r * (cos (h - a) - cos h), h - a)
  | Ahead l => (n + l * cos h, e + l * sin h, h)
  end.
Definition fly (r : R) (P : pose) (xs : list piece) : pose := fold_left (fly1 r) xs P.

(** [fly1] is flying: the place moves with the heading, one metre for each metre flown, and the heading changes by one radian for each radius. *)
Lemma fly1_right r n e h a :
  derivable_pt_lim (fun t => fst (fst (fly1 r (n, e, h) (Turn Cw t)))) a (r * cos (snd (fly1 r (n, e, h) (Turn Cw a)))) /\
  derivable_pt_lim (fun t => snd (fst (fly1 r (n, e, h) (Turn Cw t)))) a (r * sin (snd (fly1 r (n, e, h) (Turn Cw a)))).
Proof.
  cbn. assert (L : derivable_pt_lim (fun t => h + t) a 1).
  { replace 1 with (0 + 1) by ring. apply (derivable_pt_lim_plus (fun _ => h) (fun t => t)); [apply derivable_pt_lim_const|apply derivable_pt_lim_id]. }
  split.
  - replace (r * cos (h + a)) with (0 + (0 * (sin (h + a) - sin h) + r * (cos (h + a) * 1 - 0))) by ring.
    apply (derivable_pt_lim_plus (fun _ => n)); [apply derivable_pt_lim_const|].
    apply (derivable_pt_lim_mult (fun _ => r) (fun t => sin (h + t) - sin h)); [apply derivable_pt_lim_const|].
    apply (derivable_pt_lim_minus (fun t => sin (h + t)) (fun _ => sin h)); [|apply derivable_pt_lim_const].
    apply (derivable_pt_lim_comp (fun t => h + t) sin); [exact L|apply derivable_pt_lim_sin].
  - replace (r * sin (h + a)) with (0 + (0 * (cos h - cos (h + a)) + r * (0 - - sin (h + a) * 1))) by ring.
    apply (derivable_pt_lim_plus (fun _ => e)); [apply derivable_pt_lim_const|].
    apply (derivable_pt_lim_mult (fun _ => r) (fun t => cos h - cos (h + t))); [apply derivable_pt_lim_const|].
    apply (derivable_pt_lim_minus (fun _ => cos h) (fun t => cos (h + t))); [apply derivable_pt_lim_const|].
    apply (derivable_pt_lim_comp (fun t => h + t) cos); [exact L|apply derivable_pt_lim_cos].
Qed.
Lemma fly1_left r n e h a :
  derivable_pt_lim (fun t => fst (fst (fly1 r (n, e, h) (Turn Ccw t)))) a (r * cos (snd (fly1 r (n, e, h) (Turn Ccw a)))) /\
  derivable_pt_lim (fun t => snd (fst (fly1 r (n, e, h) (Turn Ccw t)))) a (r * sin (snd (fly1 r (n, e, h) (Turn Ccw a)))).
Proof.
  cbn. assert (L : derivable_pt_lim (fun t => h - t) a (-1)).
  { replace (-1) with (0 - 1) by ring. apply (derivable_pt_lim_minus (fun _ => h) (fun t => t)); [apply derivable_pt_lim_const|apply derivable_pt_lim_id]. }
  split.
  - replace (r * cos (h - a)) with (0 + (0 * (sin h - sin (h - a)) + r * (0 - cos (h - a) * -1))) by ring.
    apply (derivable_pt_lim_plus (fun _ => n)); [apply derivable_pt_lim_const|].
    apply (derivable_pt_lim_mult (fun _ => r) (fun t => sin h - sin (h - t))); [apply derivable_pt_lim_const|].
    apply (derivable_pt_lim_minus (fun _ => sin h) (fun t => sin (h - t))); [apply derivable_pt_lim_const|].
    apply (derivable_pt_lim_comp (fun t => h - t) sin); [exact L|apply derivable_pt_lim_sin].
  - replace (r * sin (h - a)) with (0 + (0 * (cos (h - a) - cos h) + r * (- sin (h - a) * -1 - 0))) by ring.
    apply (derivable_pt_lim_plus (fun _ => e)); [apply derivable_pt_lim_const|].
    apply (derivable_pt_lim_mult (fun _ => r) (fun t => cos (h - t) - cos h)); [apply derivable_pt_lim_const|].
    apply (derivable_pt_lim_minus (fun t => cos (h - t)) (fun _ => cos h)); [|apply derivable_pt_lim_const].
    apply (derivable_pt_lim_comp (fun t => h - t) cos); [exact L|apply derivable_pt_lim_cos].
Qed.

Definition dist (p q : place) : R := sqrt ((fst p - fst q) * (fst p - fst q) + (snd p - snd q) * (snd p - snd q)).
Definition same_heading (h h' : R) : Prop := cos h = cos h' /\ sin h = sin h'.

(** The centre of a turn to the right or to the left. *)
Definition hub (P : pose) (r : R) (s : sense) : place :=
  let '(n, e, h) := P in
  match s with Cw => (n - r * sin h, e + r * cos h) | Ccw => (n + r * sin h, e - r * cos h) end.

(** The place at distance [r] from [c] in the direction [x], measured from east to north. *)
Definition around (c : place) (r x : R) : place := (fst c + r * sin x, snd c + r * cos x).

(** The waypoints [ws] go from [p] along a turn of length [arc] about [c] to [q]: one every [sep], seen from the centre starting at the
    direction of [p], on the circle, until between one and two separations are left; then [q]. *)
Definition arc_way (c : place) (r : R) (s : sense) (sep : R) (p q : place) (arc : R) (ws : list waypoint) : Prop :=
  exists x rho k, 0 <= rho /\ p = around c rho x /\
  ws = map (fun i => {| spot := around c r (match s with Cw => x - INR i * (sep / r) | Ccw => x + INR i * (sep / r) end); long := sep;
                        turn := Some {| mid := c; rad := r; way := s |} |}) (seq 1 k)
       ++ [{| spot := q; long := Rmax 0 (arc - INR k * sep); turn := Some {| mid := c; rad := r; way := s |} |}] /\
  (arc <= sep -> k = 0%nat) /\ (sep < arc -> (INR k + 1) * sep <= arc < (INR k + 2) * sep).

(** An angle [a] of a turn and the angle [b] that is used for it: the same, unless it is within 0.005 of nothing, either way. *)
Definition about (a b : R) : Prop := (b = a /\ 5 / 1000 <= a <= 2 * PI - 5 / 1000) \/ (b = 0 /\ Rabs a < 5 / 1000).

(** A turn of less than a metre has no waypoints. *)
Definition maybe_arc (c : place) (r : R) (s : sense) (sep : R) (p q : place) (arc : R) (ws : list waypoint) : Prop :=
  (1 <= arc /\ arc_way c r s sep p q arc ws) \/ (arc < 1 /\ ws = []).
Definition at_least_one (x : R) : R := if Rle_dec 1 x then x else 0.

(** The waypoints follow a flight of a turn, a straight leg and a turn, which comes to the heading [h'] within a metre of [finish]. *)
Definition follows_straight (r sep : R) (P : pose) (finish : place) (h' : R) (s1 s2 : sense) (len : R) (ws : list waypoint) : Prop :=
  exists a1 b1 l l' a2 b2 w1 q w3,
    let P1 := fly r P [Turn s1 a1] in
    let P2 := fly r P [Turn s1 a1; Ahead l] in
    let P3 := fly r P [Turn s1 a1; Ahead l; Turn s2 a2] in
    about a1 b1 /\ about a2 b2 /\ 0 <= l /\ 0 <= l' /\ Rabs (l' - l) <= 1 / 2 /\ (s1 = s2 -> l' = l) /\
    same_heading (snd P3) h' /\ dist (fst P3) finish <= 1 /\ (s1 = s2 -> dist (fst P3) finish <= 1 / 2) /\
    dist q (fst P2) <= 1 / 2 /\ (s1 = s2 -> q = fst P2) /\
    maybe_arc (hub P r s1) r s1 sep (fst P) (fst P1) (r * b1) w1 /\
    maybe_arc (hub (finish, h') r s2) r s2 sep q finish (r * b2) w3 /\
    ws = w1 ++ {| spot := q; long := l'; turn := None |} :: w3 /\
    len = at_least_one (r * b1) + l' + at_least_one (r * b2).

Definition other (s : sense) : sense := match s with Cw => Ccw | Ccw => Cw end.

(** The waypoints follow a flight of three turns, which comes to the heading [h'] at [finish]. *)
Definition follows_turns (r sep : R) (P : pose) (finish : place) (h' : R) (s : sense) (len : R) (ws : list waypoint) : Prop :=
  exists a b c w1 w2 w3,
    let P1 := fly r P [Turn s a] in
    let P2 := fly r P [Turn s a; Turn (other s) b] in
    let P3 := fly r P [Turn s a; Turn (other s) b; Turn s c] in
    - (1 / 1000000000) <= a <= 2 * PI /\ PI <= b <= 2 * PI /\ 0 <= c <= 2 * PI /\
    same_heading (snd P3) h' /\ fst P3 = finish /\
    arc_way (hub P r s) r s sep (fst P) (fst P1) (r * a) w1 /\
    arc_way (hub P1 r (other s)) r (other s) sep (fst P1) (fst P2) (r * b) w2 /\
    arc_way (hub P2 r s) r s sep (fst P2) finish (r * c) w3 /\
    ws = w1 ++ w2 ++ w3 /\ len = r * (Rmax 0 a + b + c).

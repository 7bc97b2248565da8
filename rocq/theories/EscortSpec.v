(** Where an escort should be. *)
From Coq Require Import Reals List ZArith.
From Verif Require Import Latest FlatEarthModel EscortModel.
Import ListNotations.
Open Scope R_scope.

(** What was told about an entity and a line. *)
Definition seen (v : Z) (e : ev) : option track := match e with Seen u k => if Z.eqb u v then Some k else None | _ => None end.
Definition told (v : Z) (e : ev) : option (list pt) :=
  match e with
  | Mission u ws | FollowPath u ws => if Z.eqb u v then Some ws else None
  | Response ms => option_map snd (find (fun x => Z.eqb (fst x) v) (rev ms))
  | _ => None
  end.
Definition lined (i : Z) (e : ev) : option (list pt) := match e with Line j ps => if Z.eqb j i then Some ps else None | _ => None end.

(** Points are meters east and north. *)
Definition gap (p q : pt) : R := sqrt ((fst q - fst p) ^ 2 + (snd q - snd p) ^ 2).
Definition between (a b p : pt) : Prop := exists k, 0 <= k <= 1 /\ p = (fst a + k * (fst b - fst a), snd a + k * (snd b - snd a)).
Definition leg (ps : list pt) (i : nat) (a b : pt) : Prop := nth_error ps i = Some a /\ nth_error ps (S i) = Some b.
(** A point of the path. *)
Definition on (ps : list pt) (p : pt) : Prop := exists i a b, leg ps i a b /\ between a b p.

(** How far the way from [a] to [b] leads in direction [h], in degrees from north: clearly along it, or clearly against it. *)
Definition progress (h : R) (a b : pt) : R := sin (h * PI / 180) * (fst b - fst a) + cos (h * PI / 180) * (snd b - snd a).
Definition along (h : R) (a b : pt) : Prop := / 10 ^ 6 * (1 + gap a b) < progress h a b.
Definition against (h : R) (a b : pt) : Prop := progress h a b < - (/ 10 ^ 6 * (1 + gap a b)).

Definition hair : R := / 10 ^ 5.
(** [c] is the point of the way from [a] to [b] nearest to [t], up to a hair. *)
Definition nearest (a b t c : pt) : Prop :=
  (exists p, between a b p /\ gap p c <= hair) /\ forall q, between a b q -> gap t c <= gap t q + hair.

(** [q] is [d] meters from [p] along the way to the points of the list, or the last one if this is too far. *)
Inductive travel : list pt -> pt -> R -> pt -> Prop :=
| at_end p d : travel [] p d p
| on_leg n rest p d q : between p n q -> gap p q = d -> travel (n :: rest) p d q
| beyond n rest p d q : gap p n <= d -> travel rest n (d - gap p n) q -> travel (n :: rest) p d q.

(** [p] is where one at [t] that moves with speed [sp] in direction [h] is on the path: at the nearest point of a leg [i] that does not lead clearly
    against this direction; not on the path if there is none. *)
Definition enters (t : pt) (h sp : R) (ps : list pt) (p : pt) (start : option nat) : Prop :=
  match start with
  | None => p = t /\ forall i a b, leg ps i a b -> 1 <= Rabs sp /\ ~ along h a b
  | Some i => exists a b, leg ps i a b /\ nearest a b t p /\ (Rabs sp < 1 \/ ~ against h a b)
              /\ forall j a' b' q, leg ps j a' b' -> Rabs sp < 1 \/ along h a' b' -> between a' b' q -> gap t p <= gap t q + hair
  end.

(** [q] is [d] meters ahead of it on the path, up to a centimeter; behind it if [d] is negative. *)
Definition escorted (d : R) (t : pt) (h sp : R) (ps : list pt) (q : pt) : Prop :=
  exists p start q0, enters t h sp ps p start /\ gap q0 q <= / 10 ^ 2
    /\ (0 < d -> travel (match start with None => ps | Some i => skipn (S i) ps end) p d q0)
    /\ (d < 0 -> travel (rev (firstn (match start with None => 1%nat | Some i => S i end) ps)) p (- d) q0).

Definition at_place (e : earth) (x : pt) : pt := (snd (snd (deg_ne_m (fst x) (snd x) e)), fst (snd (deg_ne_m (fst x) (snd x) e))).
Definition based (e : earth) : Prop := exists la lo, e = initialize la lo fresh.

(** The line is followed against its direction: some leg that does not lead clearly along the direction of movement is nearer than
    each that does. *)
Definition backwards (t : pt) (h : R) (ps : list pt) : Prop :=
  (exists i a b, leg ps i a b /\ ~ against h a b)
  /\ exists c j a' b', leg ps j a' b' /\ ~ along h a' b' /\ nearest b' a' t c /\ forall i a b q, leg ps i a b -> along h a b -> between a b q -> gap t c <= gap t q + hair.
(** It is followed in its direction. *)
Definition forwards (t : pt) (h : R) (ps : list pt) : Prop :=
  (forall i a b, leg ps i a b -> ~ along h a b)
  \/ (exists p, on ps p /\ gap t p <= hair)
  \/ (forall i a b, leg ps i a b -> ~ against h a b)
  \/ exists c i a b, leg ps i a b /\ ~ against h a b /\ nearest a b t c /\ forall j a' b' q, leg ps j a' b' -> against h a' b' -> between a' b' q -> gap t c <= gap t q + hair.

(** The line with identifier [i] is the nearest; lines that the entity is on do not count, and one without identifier is none. *)
Definition nearest_known (h : list ev) (e : earth) (t : pt) (i : Z) : Prop :=
  exists l p, latest (lined i) h l /\ (exists q, on (map (at_place e) l) q /\ gap q p <= hair) /\ 0 < gap t p
  /\ forall j l' q, latest (lined j) h l' -> (forall r, on (map (at_place e) l') r -> hair < gap t r) -> on (map (at_place e) l') q -> gap t p <= gap t q + hair.

(** The path the entity is taken to follow. *)
Definition follows (h : list ev) (t : task) (k : track) (e : earth) (ps : list pt) : Prop :=
  route t <> 0%Z /\ (latest (lined (route t)) h ps \/ unsaid (lined (route t)) h /\ ps = [])
  \/ route t = 0%Z /\ latest (told (supported t)) h ps
  \/ route t = 0%Z /\ unsaid (told (supported t)) h /\ prescribed t <> [] /\ ps = prescribed t
  \/ route t = 0%Z /\ unsaid (told (supported t)) h /\ prescribed t = [] /\ ps = []
     /\ (nearest_known h e (at_place e (lat k, lon k)) 0
         \/ forall j l, latest (lined j) h l -> (forall r, on (map (at_place e) l) r -> hair < gap (at_place e (lat k, lon k)) r) -> forall q, ~ on (map (at_place e) l) q)
  \/ route t = 0%Z /\ unsaid (told (supported t)) h /\ prescribed t = []
     /\ exists i l, i <> 0%Z /\ latest (lined i) h l /\ nearest_known h e (at_place e (lat k, lon k)) i
        /\ (ps = l \/ ps = rev l)
        /\ (1 <= Rabs (speed k) -> -180 <= heading k < 360 ->
            ps = l /\ forwards (at_place e (lat k, lon k)) (heading k) (map (at_place e) l)
            \/ ps = rev l /\ backwards (at_place e (lat k, lon k)) (heading k) (map (at_place e) l)).

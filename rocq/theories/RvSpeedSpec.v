(** How fast the vehicles of a rendezvous should fly. *)
From Coq Require Import Reals List ZArith.
From Verif Require Import Latest FlatEarthModel RvSpeedModel.
Import ListNotations.
Open Scope R_scope.

(** The configuration and the mission of a vehicle. *)
Definition configured (v : Z) (e : ev) : option (option speeds) := match e with Config u c => if Z.eqb u v then Some c else None | _ => None end.
Definition ordered (v : Z) (e : ev) : option (list point) := match e with Mission u ws => if Z.eqb u v then Some ws else None | _ => None end.

(** The first waypoint with a number. *)
Definition first_with (ws : list point) (n : Z) (i : nat) (w : point) : Prop :=
  nth_error ws i = Some w /\ p_num w = n /\ forall j x, (j < i)%nat -> nth_error ws j = Some x -> p_num x <> n.

Section Spec.
  Context (task : Z).

  (** The waypoints from number [n] on as each leads to the next, as long as they are for the task and were not met before. *)
  Inductive ahead (ws : list point) : list nat -> Z -> list point -> Prop :=
  | ahead_none : forall seen n, (forall x, In x ws -> p_num x <> n) -> ahead ws seen n []
  | ahead_other : forall seen n i w, first_with ws n i w -> ~ In task (p_tasks w) -> ahead ws seen n []
  | ahead_again : forall seen n i w, first_with ws n i w -> In i seen -> ahead ws seen n []
  | ahead_on : forall seen n i w p, first_with ws n i w -> In task (p_tasks w) -> ~ In i seen -> ahead ws (i :: seen) (p_next w) p -> ahead ws seen n (w :: p).

  (** Where a waypoint is, in meters north and east of a vehicle, and the length of a way from a place. *)
  Definition spot (st : report) (w : point) : R * R := snd (deg_ne_m (p_lat w) (p_lon w) (fst (deg_ne_m (r_lat st) (r_lon st) fresh))).
  Fixpoint far (st : report) (p : R * R) (ws : list point) : R :=
    match ws with [] => 0 | w :: ws => sqrt ((fst (spot st w) - fst p) ^ 2 + (snd (spot st w) - snd p) ^ 2) + far st (spot st w) ws end.

  (** The distance that is left: 0 without a mission. *)
  Definition remaining (h : list ev) (st : report) (d : R) : Prop :=
    unsaid (ordered (r_id st)) h /\ d = 0
    \/ exists ws p, latest (ordered (r_id st)) h ws /\ ahead ws [] (r_current st) p /\ d = far st (0, 0) p.

  (** Vehicle [v] last reported at time [t], when [d] was left. *)
  Definition reported (h : list ev) (v t : Z) (d : R) : Prop :=
    exists h1 st a h2, h = h1 ++ Report st a :: h2 /\ r_id st = v /\ r_time st = t /\ remaining h1 st d
      /\ forall st' a', In (Report st' a') h2 -> r_id st' <> v.

  (** The limits of the speed of a vehicle, and its nominal speed, for which [n] stands in. *)
  Definition limits (c : option speeds) (n lo hi nom : R) : Prop :=
    match c with
    | None => lo = n /\ hi = n /\ nom = n
    | Some c => (s_nominal c < / 10 ^ 4 /\ nom = n \/ / 10 ^ 4 <= s_nominal c /\ nom = s_nominal c)
                /\ (/ 10 ^ 4 <= s_min c <= nom /\ lo = s_min c \/ ~ / 10 ^ 4 <= s_min c <= nom /\ lo = nom)
                /\ hi = Rmax (s_max c) nom
    end.

  (** Rounding towards 0. *)
  Definition cut (x : R) (z : Z) : Prop := 0 <= x /\ IZR z <= x < IZR z + 1 \/ x < 0 /\ IZR z - 1 < x <= IZR z.

  (** The times in milliseconds at which a way is done: at the highest speed, at the nominal one and at the lowest. *)
  Record times := { t_min : Z; t_mid : Z; t_max : Z }.
  Definition takes (d lo hi nom : R) (since : Z) (x : times) : Prop :=
    cut (d / hi * 1000 - IZR since) (t_min x) /\ cut (d / nom * 1000 - IZR since) (t_mid x) /\ cut (d / lo * 1000 - IZR since) (t_max x).

  (** A neighbour that counts: it reported within five seconds and is more than a second away. *)
  Definition counts (h : list ev) (st : report) (nom : R) (v : Z) (x : times) : Prop :=
    v <> r_id st /\ exists t d c lo hi n, reported h v t d /\ nom <= d /\ latest (configured v) h c /\ limits c nom lo hi n
      /\ (Z.max 0 (r_time st - t) < 5000)%Z /\ takes d lo hi n (Z.max 0 (r_time st - t)) x /\ (1000 < t_mid x)%Z.

  (** The time to meet: the mean of the nominal times, within what is possible for all.  If nothing is: half of what is missing after the
      earliest time. *)
  Definition total (l : list Z) : Z := fold_right Z.add 0%Z l.
  Definition aims (l : list times) (t : Z) : Prop :=
    exists e f, In e (map t_min l) /\ (forall x, In x l -> (t_min x <= e)%Z) /\ In f (map t_max l) /\ (forall x, In x l -> (f <= t_max x)%Z)
      /\ ((e <= f)%Z /\ t = Z.max e (Z.min f (Z.quot (total (map t_mid l)) (Z.of_nat (length l)))) \/ (f < e)%Z /\ t = (e + Z.quot (e - f) 2)%Z).

  (** The speed to be there at a time, further from the nominal one by twice the difference; the nominal one for the last second. *)
  Definition clip (lo hi x : R) : R := Rmax lo (Rmin hi x).
  Definition steers (lo hi nom d : R) (t : Z) (s : R) : Prop :=
    exists a, ((1000 < t)%Z /\ nom < d /\ a = clip lo hi (1000 * d / IZR t) \/ ~ ((1000 < t)%Z /\ nom < d) /\ a = nom)
      /\ s = clip lo hi (a + 2 * (a - nom)).

  (** What stands in for the nominal speed. *)
  Definition stand_in (st : report) (n : R) : Prop := match r_air st with Some a => n = a | None => n = r_ground st end.
  (** A vehicle that can be controlled, with its limits. *)
  Definition controlled (h : list ev) (st : report) (lo hi nom : R) : Prop :=
    exists c n, latest (configured (r_id st)) h (Some c) /\ stand_in st n /\ limits (Some c) n lo hi nom /\ / 10 ^ 4 <= nom.
End Spec.

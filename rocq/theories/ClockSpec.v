(** What the clock says, in words of its users: the calendar, the moments of dates, and what follows from
    the accesses to the clock that is in use. *)
From Coq Require Import List ZArith.
Import ListNotations.
From Verif Require Import ClockModel.
Open Scope list_scope.
Open Scope Z_scope.

(** *** The calendar *)
Definition date : Type := Z * Z * Z. (* year, month, day *)
Definition leap (y : Z) : Prop := (4 | y) /\ (~ (100 | y) \/ (400 | y)).
Inductive month_length : Z -> Z -> Z -> Prop :=
| long y m : In m [1; 3; 5; 7; 8; 10; 12] -> month_length y m 31
| short y m : In m [4; 6; 9; 11] -> month_length y m 30
| february y : ~ leap y -> month_length y 2 28
| february_leap y : leap y -> month_length y 2 29.
Inductive a_date : date -> Prop := Valid y m d n : month_length y m n -> 1 <= d <= n -> a_date (y, m, d).
Inductive tomorrow : date -> date -> Prop :=
| next_day y m d n : month_length y m n -> 1 <= d < n -> tomorrow (y, m, d) (y, m, d + 1)
| next_month y m n : month_length y m n -> m < 12 -> tomorrow (y, m, n) (y, m + 1, 1)
| next_year y : tomorrow (y, 12, 31) (y + 1, 1, 1).
(** [n] days from a date to another *)
Inductive days : Z -> date -> date -> Prop :=
| same a : a_date a -> days 0 a a
| later n a b c : days n a b -> tomorrow b c -> days (n + 1) a c.
(** the number of a day: days since 1 January 1970, negative before *)
Definition day_number (a : date) (n : Z) : Prop := days n (1970, 1, 1) a \/ days (- n) a (1970, 1, 1).

(** *** Dates that are given to the clock *)
(** The milliseconds since 1970 at a time of the [d]-th day counted from the first of a month. *)
Definition moment (y mo d h mi s ms r : Z) : Prop :=
  exists n, day_number (y, mo, 1) n /\ r = ((((n + (d - 1)) * 24 + h) * 60 + mi) * 60 + s) * 1000 + ms.
Definition since_2016 (r : Z) : Prop := exists r0, moment 2016 1 1 0 0 0 0 r0 /\ r0 <= r.
(** The system clock counts nanoseconds in 64 bits. *)
Definition representable (s : Z) : Prop := - 2 ^ 63 <= s * 10 ^ 9 < 2 ^ 63.
(** [demands a t r]: the call asks for the time [r]; [t] is the date it gives, without milliseconds. *)
Inductive demands : act -> Z -> Z -> Prop :=
| by_time y mo d h mi s ms t r : 2016 <= y -> 1 <= mo <= 12 -> 1 <= d <= 31 -> 0 <= h <= 23 -> 0 <= mi <= 59 -> 0 <= s <= 60 ->
    moment y mo d h mi s 0 t -> r = t + ms -> demands (Calibrate y mo d h mi s ms) t r
| by_weeks y mo d w ms t r : 1 <= mo <= 12 -> 1 <= d <= 31 -> 0 <= w ->
    moment y mo d 0 0 0 0 t -> r = t + w * (7 * 24 * 60 * 60 * 1000) + ms -> demands (CalibrateWeeks y mo d w ms) t r.
Definition fits (t r : Z) : Prop := representable (t / 1000) /\ representable (Z.quot r 1000).
(** the clock is set to [r] by the call *)
Definition sets (a : act) (r : Z) : Prop := exists t, demands a t r /\ fits t r /\ since_2016 r.

(** *** The clock that is in use *)
(** The mode that is wished: the last one that was set, real time at the start. *)
Definition wished (h : list ev) (m : mode) : Prop :=
  (exists h1 h2, h = h1 ++ SetMode m :: h2 /\ forall n, ~ In (SetMode n) h2) \/ (m = RealTime /\ forall n, ~ In (SetMode n) h).
(** The accesses so far, each with the mode that was wished then. *)
Inductive accesses : list ev -> list (mode * access) -> Prop :=
| no_access : accesses [] []
| mode_set h l m : accesses h l -> accesses (h ++ [SetMode m]) l
| accessed h l a m : accesses h l -> wished h m -> accesses (h ++ [Use a]) (l ++ [(m, a)]).
(** The clock in use was made at the first of the last accesses that are all in the same mode. *)
Definition in_use (h : list ev) (m : mode) (p : list access) : Prop :=
  exists q, accesses h (q ++ map (pair m) p) /\ (p = [] -> q = []) /\ forall q' n b, q = q' ++ [(n, b)] -> n <> m.

(** *** What the clock in use knows, from its accesses *)
Definition in_unit (u : time_unit) (t : Z) : Z :=
  Z.quot t (match u with Hr => 3600000000000 | Min => 60000000000 | Sec => 1000000000 | Ms => 1000000 | Us => 1000 | Ns => 1 end).
(** It is ahead of the system clock by [d] milliseconds. *)
Definition ahead (p : list access) (d : Z) : Prop :=
  (exists p1 a p2 r, p = p1 ++ a :: p2 /\ sets (what a) r /\ d = r - in_unit Ms (now a) /\ forall b r, In b p2 -> ~ sets (what b) r) \/
  (d = 0 /\ forall b r, In b p -> ~ sets (what b) r).
(** Number of settings *)
Inductive settings : list access -> Z -> Prop :=
| never : settings [] 0
| again p a r n : settings p n -> sets (what a) r -> settings (p ++ [a]) (n + 1)
| not_now p a n : settings p n -> (forall r, ~ sets (what a) r) -> settings (p ++ [a]) n.
(** Discrete time *)
Definition stands_at (p : list access) (t : Z) : Prop :=
  (exists p1 a p2, p = p1 ++ a :: p2 /\ (what a = SetDiscrete t \/ what a = ResetDiscrete t) /\
     forall b u, In b p2 -> what b <> SetDiscrete u /\ what b <> ResetDiscrete u) \/
  (t = 0 /\ forall b u, In b p -> what b <> SetDiscrete u /\ what b <> ResetDiscrete u).
(** The time of the start, in a unit; [p] with the present access. *)
Definition started (p : list access) (u : time_unit) (s : Z) : Prop :=
  ((exists a t, In a p /\ what a = ResetDiscrete t) /\ s = 0) \/
  ((forall a t, In a p -> what a <> ResetDiscrete t) /\ exists a p', p = a :: p' /\ s = in_unit u (made a u)).
(** The calls that ask to set the clock. *)
Definition asks_to_set (a : act) : Prop :=
  (exists y mo d h mi s ms, a = Calibrate y mo d h mi s ms) \/ (exists y mo d w ms, a = CalibrateWeeks y mo d w ms).
(** [d] milliseconds in a unit; times in micro- and nanoseconds are those of the system clock. *)
Definition shift (u : time_unit) (d : Z) : Z := match u with Us | Ns => 0 | _ => in_unit u (d * 1000000) end.
(** Milliseconds in an hour, a minute, a second *)
Definition per (u : time_unit) (k : Z) : Prop :=
  match u with Hr => k = 60 * 60 * 1000 | Min => k = 60 * 1000 | Sec => k = 1000 | _ => False end.
Definition in_64_bits (z : Z) : Prop := - 2 ^ 63 <= z < 2 ^ 63.

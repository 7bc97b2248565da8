(** Model of the conversions between latitude and longitude and local north and east coordinates,
    /repo/src/cpp/Utilities/FlatEarth.cpp (whole file) and /repo/src/cpp/Utilities/UnitConversions.cpp, which is the same code
    with one converter for the whole program, in real numbers.

    The assertions are taken as disabled, as in a release build: where they would stop the program the conversions go on with
    the values that are written there.  Rounding of doubles is left out, but the decimal constants are the ones of the code. *)
From Coq Require Import Reals List.
Import ListNotations.
Open Scope R_scope.

(** FlatEarth.h:124-126 (UnitConversions.h:112-114). *)
Definition equatorial : R := 6378135.
Definition ecc2 : R := 6694379990096503 / 10 ^ 18.

(** Includes/Constants/Convert.h:80-90, 98-102, 110-114. *)
Definition m_to_ft : R := 3280839895 / 10 ^ 9.
Definition ft_to_m : R := 3048 / 10 ^ 4.
Definition deg_to_rad : R := 1745329251994 / 10 ^ 14.
Definition rad_to_deg : R := 5729577951308232 / 10 ^ 14.

(** FlatEarth.h:130-135. *)
Record earth := { lat0 : R; lon0 : R; meridional : R; transverse : R; small : R; ready : bool }.

(** The initial values there. *)
Definition fresh : earth := {| lat0 := 0; lon0 := 0; meridional := 0; transverse := 0; small := 0; ready := false |}.

(** FlatEarth.cpp:39, 42: the denominators of the two radii; the power 3/2 is the third power of the root. *)
Definition root (lat : R) : R := sqrt (1 - ecc2 * sin lat ^ 2).
Definition den_meridional (lat : R) : R := root lat ^ 3.

(** 30-48 (Initialize); only the first call has an effect. *)
Definition initialize (lat lon : R) (e : earth) : earth :=
  if ready e then e else
  let m := if Rle_dec (den_meridional lat) 0 then 0 else equatorial * (1 - ecc2) / den_meridional lat in
  let t := if Rle_dec (root lat) 0 then 0 else equatorial / root lat in
  {| lat0 := lat; lon0 := lon; meridional := m; transverse := t; small := t * cos lat; ready := true |}.

(** 68-78 (ConvertLatLong_radToNorthEast_m). *)
Definition rad_ne_m (lat lon : R) (e : earth) : earth * (R * R) :=
  let e := initialize lat lon e in
  (e, (meridional e * (lat - lat0 e), small e * (lon - lon0 e))).

(** 53-66 (ConvertLatLong_radToNorthEast_ft). *)
Definition rad_ne_ft (lat lon : R) (e : earth) : earth * (R * R) :=
  let e := initialize lat lon e in
  (e, (meridional e * (lat - lat0 e) * m_to_ft, small e * (lon - lon0 e) * m_to_ft)).

(** 80-93 (ConvertLatLong_degToNorthEast_m). *)
Definition deg_ne_m (lat lon : R) (e : earth) : earth * (R * R) :=
  let la := lat * deg_to_rad in let lo := lon * deg_to_rad in
  let e := initialize la lo e in
  (e, (meridional e * (la - lat0 e), small e * (lo - lon0 e))).

(** 95-111 (ConvertLatLong_degToNorthEast_ft). *)
Definition deg_ne_ft (lat lon : R) (e : earth) : earth * (R * R) :=
  let la := lat * deg_to_rad in let lo := lon * deg_to_rad in
  let e := initialize la lo e in
  (e, (meridional e * (la - lat0 e) * m_to_ft, small e * (lo - lon0 e) * m_to_ft)).

(** 117-124 (ConvertNorthEast_mToLatLong_rad). *)
Definition m_ll_rad (n w : R) (e : earth) : R * R :=
  ((if Rle_dec (meridional e) 0 then 0 else n / meridional e + lat0 e),
   (if Rle_dec (small e) 0 then 0 else w / small e + lon0 e)).

(** 126-133 (ConvertNorthEast_mToLatLong_deg). *)
Definition m_ll_deg (n w : R) (e : earth) : R * R :=
  ((if Rle_dec (meridional e) 0 then 0 else (n / meridional e + lat0 e) * rad_to_deg),
   (if Rle_dec (small e) 0 then 0 else (w / small e + lon0 e) * rad_to_deg)).

(** 135-146 (ConvertNorthEast_ftToLatLong_rad). *)
Definition ft_ll_rad (n w : R) (e : earth) : R * R := m_ll_rad (n * ft_to_m) (w * ft_to_m) e.

(** 148-161 (ConvertNorthEast_ftToLatLong_deg). *)
Definition ft_ll_deg (n w : R) (e : earth) : R * R :=
  let p := m_ll_rad (n * ft_to_m) (w * ft_to_m) e in (fst p * rad_to_deg, snd p * rad_to_deg).

(** 171, 183: the last line of both distances. *)
Definition straight (p q : R * R) : R := sqrt ((fst q - fst p) ^ 2 + (snd q - snd p) ^ 2).

(** 163-173 (dGetLinearDistance_m_Lat1Long1_deg_To_Lat2Long2_deg). *)
Definition distance_deg (a b c d : R) (e : earth) : earth * R :=
  let (e, p) := deg_ne_m a b e in let (e, q) := deg_ne_m c d e in (e, straight p q).

(** 175-185 (dGetLinearDistance_m_Lat1Long1_rad_To_Lat2Long2_rad). *)
Definition distance_rad (a b c d : R) (e : earth) : earth * R :=
  let (e, p) := rad_ne_m a b e in let (e, q) := rad_ne_m c d e in (e, straight p q).

(** A use of a converter that may set its origin; the conversions back change nothing. *)
Inductive call :=
| Init (lat lon : R) | RadM (lat lon : R) | RadFt (lat lon : R) | DegM (lat lon : R) | DegFt (lat lon : R)
| DistDeg (a b c d : R) | DistRad (a b c d : R).

Definition after (e : earth) (c : call) : earth :=
  match c with
  | Init a b => initialize a b e
  | RadM a b => fst (rad_ne_m a b e)
  | RadFt a b => fst (rad_ne_ft a b e)
  | DegM a b => fst (deg_ne_m a b e)
  | DegFt a b => fst (deg_ne_ft a b e)
  | DistDeg a b c d => fst (distance_deg a b c d e)
  | DistRad a b c d => fst (distance_rad a b c d e)
  end.

(** A converter after the given calls. *)
Definition history (cs : list call) : earth := fold_left after cs fresh.

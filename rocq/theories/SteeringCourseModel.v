(** Model of the heading commanded by the steering service, over the real numbers:
    /repo/src/cpp/Services/SteeringService.cpp:459-524, with the points in metres north and east.

    Simplifications: exact real arithmetic instead of floating point; the comparisons of angles in
    n_Const::c_Convert::dNormalizeAngleDeg, which have a tolerance, are exact. *)
From Coq Require Import Reals ZArith.
From Verif Require Import SteeringModel.
Open Scope R_scope.

(** North and east. *)
Definition rpoint := (R * R)%type.
(** Difference and product of points. *)
Definition rsub (a b : rpoint) : rpoint := (fst a - fst b, snd a - snd b).
Definition rdot (a b : rpoint) : R := fst a * fst b + snd a * snd b.
(** SteeringService.cpp:65-68 *)
Definition mag (a : rpoint) : R := sqrt (fst a * fst a + snd a * snd a).

(** [std::atan2]. *)
Definition atan2 (y x : R) : R :=
  if Rlt_dec 0 x then atan (y / x)
  else if Rlt_dec x 0 then (if Rle_dec 0 y then atan (y / x) + PI else atan (y / x) - PI)
  else if Rlt_dec 0 y then PI / 2 else if Rlt_dec y 0 then - (PI / 2) else 0.

(** /repo/src/cpp/VisilibityLib/visilibity.cpp:366-378 (rotate, normalize) *)
Definition rotate (p : rpoint) (th : R) : rpoint :=
  (cos th * fst p - sin th * snd p, sin th * fst p + cos th * snd p).
Definition normalize (p : rpoint) : rpoint :=
  if Req_EM_T (mag p) 0 then (0, 0) else (fst p / mag p, snd p / mag p).

(** [std::fmod]: the quotient is cut towards zero. *)
Definition cut (x : R) : Z := if Rle_dec 0 x then Int_part x else (- Int_part (- x))%Z.
Definition fmod (x m : R) : R := x - m * IZR (cut (x / m)).

(** Radians to degrees, and /repo/src/cpp/Includes/Constants/Convert.h:244-260 (dNormalizeAngleDeg)
    with the reference -180. *)
Definition to_deg (x : R) : R := x * 180 / PI.
Definition normalize_deg (x : R) : R :=
  let y := fmod x 360 in
  if Rlt_dec y (-180) then y + 360 else if Rle_dec (-180 + 360) y then y - 360 else y.

Section Course.
  (** The largest angle to the path and the gains (SteeringService.cpp:242-258). *)
  Context (cinf kline korbit : R).

  (** SteeringService.cpp:503-521: along the leg from [prev] to [cur]. *)
  Definition line_heading (prev cur at_ : rpoint) : R :=
    let path := rsub cur prev in
    let y := rdot (rotate (normalize path) (PI / 2)) (rsub at_ prev) in
    normalize_deg (to_deg (-2 * cinf / PI * atan (kline * y) + atan2 (snd path) (fst path))).

  (** SteeringService.cpp:464-491: around the loiter. *)
  Definition orbit_heading (centre : rpoint) (r : R) (clockwise : bool) (at_ : rpoint) : R :=
    let q := rsub at_ centre in
    let gamma := atan2 (snd q) (fst q) in
    let d := mag q in
    normalize_deg (to_deg
      (if clockwise then gamma + PI / 2 + atan (korbit * (d - r) / r)
       else gamma - PI / 2 - atan (korbit * (d - r) / r))).

  (** The heading computed for a command (SteeringService.cpp:459-524); millimetres to metres. *)
  Definition metres (x : point) : rpoint := (IZR (fst x) / 1000, IZR (snd x) / 1000).
  Definition course (h : heading) : R :=
    match h with
    | Along a b x => line_heading (metres a) (metres b) (metres x)
    | Around c r cw x => orbit_heading (metres c) (IZR r / 1000) cw (metres x)
    end.
End Course.

(** Specification vocabulary for the framing of payloads on a byte stream.
    The checksum is stated independently of the model: sum of the byte values modulo 2^32. *)
From Coq Require Import String Ascii List Arith NArith Lia.
From Verif Require Import Base Decimal10 MsgSpec.
Import ListNotations.
Open Scope list_scope.

Fixpoint byte_sum (s : str) : N :=
  match s with
  | [] => 0
  | c :: s' => N_of_ascii c + byte_sum s'
  end%N.

Definition spec_checksum (s : str) : N := (byte_sum s mod 2 ^ 32)%N.

(** A frame: sentinels around a length text, the payload and a checksum text. *)
Definition frame (sz payload chk : str) : str :=
  lit "+=+=+=+=" ++ sz ++ lit "#@#@#@#@" ++ payload ++ lit "!%!%!%!%" ++ chk ++ lit "?^?^?^?^".

Definition all_digits (s : str) : Prop := Forall (fun c => In c (lit "0123456789")) s.

(** The frame says the truth about its payload.  The code compares the length as a 32 bit
    number; for payloads below 2^32 bytes this is the length itself. *)
Definition truthful (sz payload chk : str) : Prop :=
  all_digits sz /\ all_digits chk /\ sz <> [] /\ chk <> [] /\
  dec_value sz = (N.of_nat (length payload) mod 2 ^ 32)%N /\
  dec_value chk = spec_checksum payload.

(** Payloads that can be framed: not empty, without the end sentinel, without the size
    sentinel (also not as an overlap with the one in front of it), length and checksum
    below 2^31. *)
Definition frameable (p : str) : Prop :=
  p <> [] /\
  ~ occurs (lit "?^?^?^?^") p /\
  (forall a b, lit "#@#@#@#@" ++ p = a ++ lit "#@#@#@#@" ++ b -> a = []) /\
  (N.of_nat (length p) < 2 ^ 31)%N /\
  (spec_checksum p < 2 ^ 31)%N.

(** A byte stream in which the frames of exactly these payloads occur, in this order and
    without overlap, with arbitrary bytes in between. *)
Inductive stream_of : list str -> str -> Prop :=
| stream_nil junk : stream_of [] junk
| stream_snoc ps s junk sz p chk tail :
    stream_of ps s -> truthful sz p chk ->
    stream_of (ps ++ [p]) (s ++ junk ++ frame sz p chk ++ tail).

(** Model of src/cpp/Utilities/UxAS_SentinelSerialBuffer.{h,cpp}. *)
From Coq Require Import String Ascii List Arith NArith Bool ZArith.
From Verif Require Import Base Decimal10.
Import ListNotations.
Open Scope list_scope.

(** UxAS_SentinelSerialBuffer.h:44-45, 56-57, 68-69, 80-81: the four sentinels. *)
Definition beforeSize : str := lit "+=+=+=+=".
Definition afterSize : str := lit "#@#@#@#@".
Definition beforeChk : str := lit "!%!%!%!%".
Definition afterChk : str := lit "?^?^?^?^".

(** [std::string::rfind(p, pos)]: the last index [<= pos] at which [p] occurs. *)
Fixpoint rfind (p : str) (pos : nat) (s : str) : option nat :=
  if is_prefix p (skipn pos s) then Some pos
  else match pos with
       | O => None
       | S k => rfind p k s
       end.

(** UxAS_SentinelSerialBuffer.cpp:26-37, [calculateChecksum]: sum of the bytes as
    [uint32_t].  (Strings longer than 2^32-1 bytes, of which the code only sums a part,
    are not treated specially.) *)
Definition checksum (s : str) : N :=
  (fold_left (fun acc c => (acc + N_of_ascii c) mod 4294967296) s 0)%N.

(** UxAS_SentinelSerialBuffer.cpp:39-50, [createSentinelizedString].
    The log message about contained sentinels is left out. *)
Definition createSentinelized (data : str) : str :=
  beforeSize ++ to_string (N.of_nat (length data)) ++ afterSize ++ data ++ beforeChk
  ++ to_string (checksum data) ++ afterChk.

(** [std::stoi] of a string of digits only: throws on the empty string
    ([invalid_argument]) and on values above [INT_MAX] ([out_of_range]). *)
Definition stoi (s : str) : option N :=
  match s with
  | [] => None
  | _ => if (dec_value s <=? 2147483647)%N then Some (dec_value s) else None
  end.

(** [static_cast<int>] of an unsigned number. *)
Definition to_int (n : N) : Z :=
  let m := (n mod 4294967296)%N in
  if (m <? 2147483648)%N then Z.of_N m else (Z.of_N m - 4294967296)%Z.

(** UxAS_SentinelSerialBuffer.h:129-132: the member variables.  The counters are
    [uint32_t] in the code and do not wrap here. *)
Record sbuf := mkSbuf {
  sb_data : str;
  sb_valid : nat;
  sb_invalid : nat;
  sb_disregarded : nat }.

(** UxAS_SentinelSerialBuffer.h:95. *)
Definition new_sbuf : sbuf := mkSbuf [] 0 0 0.

(** What a call ends with: a returned string or an exception thrown by [std::stoi]. *)
Inductive sres :=
| Returned (s : str)
| Thrown.

(** UxAS_SentinelSerialBuffer.cpp:105-242, [getNextPayloadString].
    The three [rfind] calls at 120, 126 and 132 are chained: once one of them fails the
    segment is erased (138-144) whatever the later ones return.  Index differences do not
    underflow because the sentinels have no character in common. *)
Definition getNextPayload (b : sbuf) (chunk : str) : sbuf * sres :=
  let data := sb_data b ++ chunk in
  match find_sub afterChk data with
  | None => (mkSbuf data (sb_valid b) (sb_invalid b) (sb_disregarded b), Returned [])
  | Some aftChecksum =>
      let inspectLength := aftChecksum + length afterChk in
      let erased :=
        (mkSbuf (skipn inspectLength data) (sb_valid b) (sb_invalid b) (sb_disregarded b),
         Returned []) in
      match rfind beforeChk aftChecksum data with
      | None => erased
      | Some befChecksum =>
          match rfind afterSize befChecksum data with
          | None => erased
          | Some aftPayloadSz =>
              match rfind beforeSize aftPayloadSz data with
              | None => erased
              | Some befPayloadSz =>
                  let totalLen := aftChecksum + length afterChk - befPayloadSz in
                  let whole := substr befPayloadSz totalLen data in
                  let data1 := firstn befPayloadSz data
                               ++ skipn (befPayloadSz + totalLen) data in
                  let data2 := skipn befPayloadSz data1 in
                  let disr := if 0 <? befPayloadSz then S (sb_disregarded b)
                              else sb_disregarded b in
                  let aP := aftPayloadSz - befPayloadSz in
                  let bC := befChecksum - befPayloadSz in
                  let aC := aftChecksum - befPayloadSz in
                  let szStr := substr (length beforeSize) (aP - length beforeSize) whole in
                  let chkStr := substr (bC + length beforeChk)
                                       (aC - bC - length beforeChk) whole in
                  let invalid := (mkSbuf data2 (sb_valid b) (S (sb_invalid b)) disr,
                                  Returned []) in
                  let thrown := (mkSbuf data2 (sb_valid b) (sb_invalid b) disr, Thrown) in
                  if forallb is_digit szStr && forallb is_digit chkStr then
                    let payload := substr (aP + length afterSize)
                                          (bC - aP - length afterSize) whole in
                    match stoi szStr with
                    | None => thrown
                    | Some sz =>
                        if (to_int (N.of_nat (length payload)) =? Z.of_N sz)%Z then
                          match stoi chkStr with
                          | None => thrown
                          | Some ck =>
                              if (to_int (checksum payload) =? Z.of_N ck)%Z
                              then (mkSbuf data2 (S (sb_valid b)) (sb_invalid b) disr,
                                    Returned payload)
                              else invalid
                          end
                        else invalid
                    end
                  else invalid
              end
          end
      end
  end.

(** The receive loop of the users of the buffer
    (ZeroMqAddressedAttributedMessageReceiver.cpp:77-92,
    LmcpObjectNetworkSerialBridge.cpp:207-232): one call with the new chunk, then calls
    with an empty chunk until an empty string is returned.  An exception ends the loop and
    is caught by the caller (lines 101 and 235); the payloads found before it are kept.
    [fuel] bounds the number of calls; [None] means it was hit. *)
Fixpoint drain (fuel : nat) (b : sbuf) (chunk : str) : option (sbuf * list str) :=
  match fuel with
  | O => None
  | S f =>
      match getNextPayload b chunk with
      | (b', Thrown) => Some (b', [])
      | (b', Returned []) => Some (b', [])
      | (b', Returned p) =>
          match drain f b' [] with
          | None => None
          | Some (b'', ps) => Some (b'', p :: ps)
          end
      end
  end.

(** Feeding a sequence of chunks, draining after each. *)
Fixpoint feed (b : sbuf) (chunks : list str) : option (sbuf * list str) :=
  match chunks with
  | [] => Some (b, [])
  | c :: cs =>
      match drain (S (length (sb_data b ++ c))) b c with
      | None => None
      | Some (b', ps) =>
          match feed b' cs with
          | None => None
          | Some (b'', qs) => Some (b'', ps ++ qs)
          end
      end
  end.

(** Any sequence of calls of [getNextPayloadString], whatever the caller does with the
    results (LmcpObjectNetworkZeroMqZyreBridge.cpp:413 makes one call per received chunk). *)
Fixpoint calls (b : sbuf) (chunks : list str) : sbuf * list sres :=
  match chunks with
  | [] => (b, [])
  | c :: cs => let (b', r) := getNextPayload b c in
               let (b'', rs) := calls b' cs in (b'', r :: rs)
  end.

(** The non-empty payloads among the results. *)
Definition payloads (rs : list sres) : list str :=
  flat_map (fun r => match r with Returned (c :: p) => [c :: p] | _ => [] end) rs.

(** The state after [n] calls with no new bytes. *)
Fixpoint empty_calls (n : nat) (b : sbuf) : sbuf :=
  match n with
  | O => b
  | S k => empty_calls k (fst (getNextPayload b []))
  end.

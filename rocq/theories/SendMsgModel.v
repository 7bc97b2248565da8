(** Model of src/cpp/Services/SendMessagesService.cpp: the sending loop.

    The loading of the message files is not modelled: a configured message is what configure
    reads from the attributes of a Message entry whose file was loaded. *)
From Coq Require Import List ZArith Bool.
Import ListNotations.
Open Scope list_scope.
Open Scope Z_scope.

(** The attributes SendTime_ms, SendPeriod_ms and NumberTimesToSend, unsigned 32 bit numbers. *)
Record entry := { a_time : option Z; a_period : option Z; a_times : option Z }.

(** TestMessage (h:102-118); [key] stands for the payload and address. *)
Record message := { key : nat; isUseSendTime : bool; sendTime : Z; period : Z; toSend : Z; timesSent : Z }.

Definition UINT32_MAX : Z := 4294967295.
Definition u32 (x : Z) : Z := x mod 4294967296.

(** configure (166-184) with the defaults of TestMessage (h:105-108). *)
Definition configured (k : nat) (e : entry) : message :=
  match a_time e with
  | Some t => {| key := k; isUseSendTime := true; sendTime := t; period := 0; toSend := UINT32_MAX; timesSent := 0 |}
  | None =>
      {| key := k;
         isUseSendTime := match a_period e with Some _ => false | None => true end;
         sendTime := 0;
         period := match a_period e with Some p => p | None => 0 end;
         toSend := match a_times e with Some n => n | None => UINT32_MAX end;
         timesSent := 0 |}
  end.

(** The list that configure builds: the messages in the order of their entries. *)
Fixpoint configure (k : nat) (es : list entry) : list message :=
  match es with
  | [] => []
  | e :: es' => configured k e :: configure (S k) es'
  end.

(** 264-265. *)
Definition advance (m : message) : message :=
  {| key := key m; isUseSendTime := isUseSendTime m; sendTime := u32 (sendTime m + period m);
     period := period m; toSend := toSend m; timesSent := u32 (timesSent m + 1) |}.

(** The for loop (223-286) at the position between [kept] and [rest]: the messages left, the
    messages sent and isFinished. *)
Fixpoint pass (timeFromStart : Z) (kept rest : list message) : list message * list nat * bool :=
  match rest with
  | [] => (kept, [], false)
  | m :: rest' =>
      let sends := sendTime m <? timeFromStart in
      let '(kept', o) :=
        if isUseSendTime m then
          if sends then (kept, [key m]) else (kept ++ [m], [])
        else
          if sends then
            let m' := advance m in
            (if toSend m' <=? timesSent m' then kept else kept ++ [m'], [key m])
          else (kept ++ [m], []) in
      match kept' ++ rest' with
      | [] => ([], o, true)                                  (* 281-285 *)
      | _ => let '(l, o', fin) := pass timeFromStart kept' rest' in (l, o ++ o', fin)
      end
  end.

(** The while loop (220-288), given the times from start of its turns: the messages left, what was
    sent with the time of the turn, and whether the loop ended. *)
Fixpoint sendMessages (times : list Z) (ms : list message) : list message * list (Z * nat) * bool :=
  match times with
  | [] => (ms, [], false)
  | t :: times' =>
      let '(ms', o, fin) := pass t [] ms in
      if fin then (ms', map (fun k => (t, k)) o, true)
      else let '(ms'', o', fin') := sendMessages times' ms' in
           (ms'', map (fun k => (t, k)) o ++ o', fin')
  end.

(** The service from StartupComplete on (198-212). *)
Definition service (es : list entry) (times : list Z) : list (Z * nat) * bool :=
  let '(_, o, fin) := sendMessages times (configure 0 es) in (o, fin).

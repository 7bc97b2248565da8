(** What a client of the bus is promised. *)
From Coq Require Import String Ascii List Arith Bool.
From Verif Require Import Base MsgModel MsgSpec Run NetModel.
Import ListNotations.
Open Scope list_scope.

Record message := {
  address : str; contentType : str; descriptor : str; group : str;
  sourceEntity : str; sourceService : str; payload : str }.

Definition wire (m : message) : str :=
  wire_text (address m) (contentType m) (descriptor m) (group m) (sourceEntity m) (sourceService m) (payload m).

(** The fields the setter accepts and that contain no delimiter. *)
Definition good (m : message) : Prop :=
  free_of "$" (address m) /\ clean (contentType m) /\ clean (descriptor m) /\ clean (group m) /\
  clean (sourceEntity m) /\ clean (sourceService m) /\
  contentType m <> [] /\ descriptor m <> [] /\ sourceEntity m <> [] /\ sourceService m <> [] /\ payload m <> [].

(** A received object with these fields. *)
Definition carries (x : aamsg) (m : message) : Prop :=
  aam_valid x = true /\ aam_address x = address m /\ aam_payload x = payload m /\
  exists t, aam_attrs x = Some t /\ at_contentType t = contentType m /\ at_descriptor t = descriptor m /\
    at_group t = group m /\ at_entity t = sourceEntity m /\ at_service t = sourceService m.

Definition begins_with (p s : str) : Prop := exists r, s = p ++ r.

(** The operations that take effect: all but the changes of subscriptions between the creation of
    the socket and the start of the thread. *)
Fixpoint effective (init started : bool) (evs : list event) : list event :=
  match evs with
  | [] => []
  | Add a :: l => (if init && negb started then [] else [Add a]) ++ effective init started l
  | Remove a :: l => (if init && negb started then [] else [Remove a]) ++ effective init started l
  | RemoveAll :: l => (if init && negb started then [] else [RemoveAll]) ++ effective init started l
  | Init :: l => Init :: effective true started l
  | Start :: l => Start :: effective init (init || started) l
  | e :: l => e :: effective init started l
  end.

(** The last effective operation on the subscription [p] added it, and the client is initialised. *)
Definition in_force (evs : list event) (p : str) : Prop :=
  In Init evs /\
  exists x y, effective false false evs = x ++ Add p :: y /\ ~ In (Remove p) y /\ ~ In RemoveAll y.

(** The texts published while a prefix of them was subscribed, in order. *)
Inductive arrived : list event -> list str -> Prop :=
| arrived_nil : arrived [] []
| arrived_other evs l e : arrived evs l -> (forall t, e <> Bus t) -> arrived (evs ++ [e]) l
| arrived_yes evs l t : arrived evs l -> (exists p, in_force evs p /\ begins_with p t) ->
    arrived (evs ++ [Bus t]) (l ++ [t])
| arrived_no evs l t : arrived evs l -> ~ (exists p, in_force evs p /\ begins_with p t) ->
    arrived (evs ++ [Bus t]) l.

(** The messages to be handed to the client: those whose address begins with a subscription in
    force when they were published, and that do not come from the client itself. *)
Inductive due (e s : str) : list event -> list message -> Prop :=
| due_nil : due e s [] []
| due_other evs l ev : due e s evs l -> (forall t, ev <> Bus t) -> due e s (evs ++ [ev]) l
| due_yes evs l m : due e s evs l ->
    (exists p, in_force evs p /\ begins_with p (address m)) ->
    ~ (sourceEntity m = e /\ sourceService m = s) ->
    due e s (evs ++ [Bus (wire m)]) (l ++ [m])
| due_no evs l m : due e s evs l ->
    ~ ((exists p, in_force evs p /\ begins_with p (address m)) /\
       ~ (sourceEntity m = e /\ sourceService m = s)) ->
    due e s (evs ++ [Bus (wire m)]) l.

(** removeAllSubscriptionAddresses is not called after the start. *)
Fixpoint no_late_clear (init started : bool) (evs : list event) : Prop :=
  match evs with
  | [] => True
  | RemoveAll :: l => started = false /\ no_late_clear init started l
  | Init :: l => no_late_clear true started l
  | Start :: l => no_late_clear init (init || started) l
  | _ :: l => no_late_clear init started l
  end.

(** What the calls of getNextMessage returned. *)
Fixpoint received (o : list out) : list aamsg :=
  match o with
  | [] => []
  | Got m :: l => m :: received l
  | Null :: l => received l
  end.

(** A text that is a well formed message of another client. *)
Definition accepted (e s : str) (t : str) (x : aamsg) : Prop :=
  setAamFromDelimitedString new_aam t = (x, true) /\
  exists a, aam_attrs x = Some a /\ ~ (at_entity a = e /\ at_service a = s).

(** The well formed messages of other clients among some texts, in order. *)
Inductive handed (e s : str) : list str -> list aamsg -> Prop :=
| handed_nil : handed e s [] []
| handed_yes t x l lx : accepted e s t x -> handed e s l lx -> handed e s (t :: l) (x :: lx)
| handed_no t l lx : (forall x, ~ accepted e s t x) -> handed e s l lx -> handed e s (t :: l) lx.

(** What a client received in a history. *)
Definition got (e s : str) (evs : list event) : list aamsg :=
  received (Run.sent (snd (Run.run step (init e s) evs))).

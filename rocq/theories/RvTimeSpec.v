(** When the vehicles of a rendezvous arrive. *)
From Coq Require Import List ZArith.
From Verif Require Import RvTimeModel.
Import ListNotations.
Open Scope list_scope.
Open Scope Z_scope.

Section Spec.
  Context (task r : Z).

  (** A message tells when vehicle [v] is free: a request to carry out a task, or the response for another task. *)
  Definition tells (v : Z) (e : ev) (t : Z) : Prop :=
    (exists k, e = Request r v k t) \/ (exists k, e = Response r v k t /\ k <> task).
  (** The request to carry out the rendezvous. *)
  Definition own (v : Z) (e : ev) : Prop := exists t, e = Request r v task t.

  (** The last time told, up to the first request for the rendezvous. *)
  Definition told (v : Z) (h : list ev) (t : Z) : Prop :=
    exists h1 e h2, h = h1 ++ e :: h2 /\ tells v e t /\ (forall e', In e' h1 -> ~ own v e')
      /\ (own v e \/ forall e' t', In e' h2 -> ~ tells v e' t').

  (** The last assignment and the last costs. *)
  Definition known (h : list ev) (l : list assign) : Prop :=
    exists h1 h2, h = h1 ++ Summary r l :: h2 /\ forall l', ~ In (Summary r l') h2.
  Definition priced (h : list ev) (m : list cost) : Prop :=
    exists h1 h2, h = h1 ++ Matrix r m :: h2 /\ forall m', ~ In (Matrix r m') h2.

  (** The first request for any vehicle after an assignment that names [v]. *)
  Definition assumes (v : Z) (h : list ev) (e : ev) (t : Z) : Prop :=
    exists u k l, e = Request r u k t /\ known h l /\ In v (map a_vehicle l).
  Definition assumed (v : Z) (h : list ev) (t : Z) : Prop :=
    exists h1 e h2, h = h1 ++ e :: h2 /\ assumes v h1 e t
      /\ forall h3 e' h4 t', h1 = h3 ++ e' :: h4 -> ~ assumes v h3 e' t'.

  (** The start time of a vehicle: as told, or else as for another vehicle. *)
  Definition starts_at (h : list ev) (v t : Z) : Prop :=
    told v h t \/ (forall e t', In e h -> ~ tells v e t') /\ assumed v h t.

  (** The last option of a vehicle for the rendezvous. *)
  Definition takes (l : list assign) (v o : Z) : Prop :=
    exists l1 l2, l = l1 ++ {| a_task := task; a_option := o; a_vehicle := v |} :: l2
      /\ forall o', ~ In {| a_task := task; a_option := o'; a_vehicle := v |} l2.
  (** What a vehicle does right before the rendezvous; 0 and 0 if nothing. *)
  Definition after (l : list assign) (v : Z) (p : Z * Z) : Prop :=
    (exists l1 l2 l3 o, l = l1 ++ {| a_task := fst p; a_option := snd p; a_vehicle := v |} :: l2 ++ {| a_task := task; a_option := o; a_vehicle := v |} :: l3
       /\ fst p <> task /\ (forall o', ~ In {| a_task := task; a_option := o'; a_vehicle := v |} l1) /\ (forall a, In a l2 -> a_vehicle a <> v))
    \/ (exists l1 l3 o, l = l1 ++ {| a_task := task; a_option := o; a_vehicle := v |} :: l3 /\ p = (0, 0) /\ forall a, In a l1 -> a_vehicle a <> v).

  (** Vehicle [v] arrives at [t]; [now] is taken as the start of vehicles for which there is none. *)
  Definition arrives (h : list ev) (now : Z) (l : list assign) (m : list cost) (v t : Z) : Prop :=
    exists o p c s, takes l v o /\ after l v p
      /\ In c m /\ c_vehicle c = v /\ c_to c = task /\ c_to_option c = o /\ (c_from c, c_from_option c) = p
      /\ (starts_at h v s \/ s = now /\ forall s', ~ starts_at h v s') /\ t = c_time c + s.
End Spec.

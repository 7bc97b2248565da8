(** What a history of messages says about vehicles, zones and regions. *)
From Coq Require Import List ZArith QArith.
From Verif Require Import RouteVisModel.
Import ListNotations.
Open Scope list_scope.
Open Scope Z_scope.

Section Spec.
  Context {P : Type}.

  (** The last message of a history that says something. *)
  Definition latest {A : Type} (says : ev P -> option A) (h : list (ev P)) (x : A) : Prop :=
    exists h1 e h2, h = h1 ++ e :: h2 /\ says e = Some x /\ forall e', In e' h2 -> says e' = None.

  Definition says_config (i : Z) (e : ev P) : option kind :=
    match e with Config j k => if j =? i then Some k else None | _ => None end.
  Definition says_zone (i : Z) (e : ev P) : option (zone P) :=
    match e with
    | Zone j b (Some ps) pad =>
        if j =? i then Some {| z_id := j; z_in := b; z_points := ps; z_pad := pad |} else None
    | _ => None
    end.

  (** Two zones are taken for the same one if their ids agree in the low 32 bits. *)
  Definition confused (a b : zone P) : Prop := z_id a mod 4294967296 = z_id b mod 4294967296.

  (** The zones that count: those with corners, of confused ones the last one in the place of the first. *)
  Inductive put (z : zone P) : list (zone P) -> list (zone P) -> Prop :=
  | put_end : forall l, (forall x, In x l -> ~ confused x z) -> put z l (l ++ [z])
  | put_in : forall l1 x l2, (forall y, In y l1 -> ~ confused y z) -> confused x z ->
      put z (l1 ++ x :: l2) (l1 ++ z :: l2).
  Inductive count : list (zone P) -> list (zone P) -> list (zone P) -> Prop :=
  | count_nil : forall acc, count [] acc acc
  | count_skip : forall z zs acc r, z_points z = [] -> count zs acc r -> count (z :: zs) acc r
  | count_put : forall z zs acc acc' r, z_points z <> [] -> put z acc acc' -> count zs acc' r -> count (z :: zs) acc r.

  Context {G : Type} (make : list (zone P) -> option G).

  (** Region message [(ins, outs)] leads to the graph [g], with the zones known after [h]. *)
  Definition makes (h : list (ev P)) (ins outs : list Z) (g : G) : Prop :=
    exists zs l, Forall2 (fun i z => latest (says_zone i) h z) (ins ++ outs) zs
      /\ count zs [] l /\ make l = Some g.

  (** The graph of region [i] after [h]: from the last region message that led to one; for region 0 there is one
      without zones from the beginning. *)
  Definition region_graph (h : list (ev P)) (i : Z) (g : G) : Prop :=
    (exists h1 ins outs h2, h = h1 ++ Region i ins outs :: h2 /\ makes h1 ins outs g
       /\ forall h2a ins' outs' h2b, h2 = h2a ++ Region i ins' outs' :: h2b ->
            forall g', ~ makes (h1 ++ Region i ins outs :: h2a) ins' outs' g')
    \/ (i = 0 /\ make [] = Some g
       /\ forall h1 ins outs h2, h = h1 ++ Region i ins outs :: h2 -> forall g', ~ makes h1 ins outs g').

  (** A whole number of milliseconds for [l] metres at speed [v]. *)
  Definition milliseconds (l : Z) (v : Q) (c : Z) : Prop :=
    if Qlt_le_dec 0 v then
      let t := (inject_Z l / v * 1000)%Q in
      (0 <= l -> (inject_Z c <= t)%Q /\ (t < inject_Z (c + 1))%Q)
      /\ (l <= 0 -> (t <= inject_Z c)%Q /\ (inject_Z (c - 1) < t)%Q)
    else c = 0.

  Context {W : Type} (len : G -> P -> P -> Z) (points : G -> P -> P -> list W).

  (** An answer to [q], given the kind of the vehicle and the graph of the region. *)
  Definition answers (k : kind) (g : G) (q : request P) (a : response W) : Prop :=
    a_id a = q_id q /\ a_vehicle a = q_vehicle q /\ a_region a = q_region q /\ a_task a = q_task q
    /\ Forall2 (fun r p => p_id p = r_id r
         /\ (match k with Air v => milliseconds (len g (r_start r) (r_end r)) v (p_cost p) | _ => p_cost p = 0 end)
         /\ p_points p = if q_cost_only q then [] else points g (r_start r) (r_end r)) (q_routes q) (a_plans a).
End Spec.

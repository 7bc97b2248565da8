(** What a history of messages says for a task that follows a moving target. *)
From Coq Require Import List ZArith QArith.
From Verif Require Import Latest DynModel.
Import ListNotations.
Open Scope list_scope.
Open Scope Z_scope.

Section Spec.
  Context {P N : Type}.
  Context (service task : Z) (eligible : list Z) (pause : Z) (threshold : Q).
  Context (shift gap : P -> P -> Q) (inside : N -> P -> bool) (touches : N -> P -> Q -> bool).
  Context (out_of away_from : N -> P -> Q -> P) (lead : P -> P -> P) (radius : Q -> Q).

  (** The configuration of an allowed vehicle. *)
  Definition says_config (v : Z) (e : ev P N) : option config :=
    match e with
    | Config w c => if w =? v then
                      match eligible with
                      | [] => Some c
                      | _ => if in_dec Z.eq_dec v eligible then Some c else None
                      end
                    else None
    | _ => None
    end.
  Definition says_zone (i : Z) (e : ev P N) : option N :=
    match e with Zone j z => if j =? i then Some z else None | _ => None end.
  (** The keep-out zones of region 0. *)
  Definition says_region (e : ev P N) : option (list Z) :=
    match e with Region j ids => if j =? 0 then Some ids else None | _ => None end.
  (** The waypoints of a route for [v] that this service asked for. *)
  Definition says_route (v : Z) (e : ev P N) : option (list (wp P)) :=
    match e with
    | Routes id w ((r, ws) :: _) =>
        if (id =? service) && (w =? v) && (r =? 1) then match ws with [] => None | _ => Some ws end else None
    | _ => None
    end.
  (** All missions given out by automation responses, and what the last waypoint of one of them says for [v]. *)
  Definition given (h : list (ev P N)) : list (Z * list (wp P)) :=
    flat_map (fun e => match e with Automation ms => ms | _ => [] end) h.
  Definition says_order (v : Z) (m : Z * list (wp P)) : option (Q * Q) :=
    if fst m =? v then match rev (snd m) with w :: _ => Some (w_speed w, w_alt w) | [] => None end else None.

  (** A zone contains the place, or meets the circle of radius [r] around it. *)
  Definition meets (z : N) (p : P) (r : Q) : Prop := inside z p = true \/ touches z p r = true.
  (** Where a place is moved because of a zone. *)
  Definition pushed (z : N) (p : P) (r : Q) : P := if inside z p then out_of z p r else away_from z p r.

  (** The first zone of the list that the place meets decides. *)
  Definition settled (h : list (ev P N)) (ids : list Z) (r : Q) (p x : P) : Prop :=
    (exists l i l' z, ids = l ++ i :: l' /\ latest (says_zone i) h z /\ meets z p r
       /\ (forall j z', In j l -> latest (says_zone j) h z' -> ~ meets z' p r) /\ x = pushed z p r)
    \/ ((forall j z', In j ids -> latest (says_zone j) h z' -> ~ meets z' p r) /\ x = p).

  (** Where vehicle [v], if [air], is sent for the target [p]. *)
  Definition around (h : list (ev P N)) (v : Z) (air : Prop) (p x : P) : Prop :=
    (air /\ exists c ids, earliest (says_config v) h c /\ latest says_region h ids
       /\ settled h ids (radius (c_speed c) * (3 # 2)) p x)
    \/ ((~ air \/ unsaid (says_config v) h \/ unsaid says_region h) /\ x = p).

  (** The vehicle reported itself on the task. *)
  Definition reported (h : list (ev P N)) (v : Z) : Prop :=
    exists k c p tg t1 t2 t3, In (Active v k c p tg t1 t2 t3) h.

  (** The time from which the pause of [v] counts: that of the last report attended to, or of the first one. *)
  Inductive mark : list (ev P N) -> Z -> Z -> Prop :=
  | mark_first : forall h v k c p tg t1 t2 t3,
      ~ reported h v -> t2 < t1 + pause -> mark (h ++ [Active v k c p tg t1 t2 t3]) v t1
  | mark_at_once : forall h v k c p tg t1 t2 t3,
      ~ reported h v -> t1 + pause <= t2 -> mark (h ++ [Active v k c p tg t1 t2 t3]) v t3
  | mark_attended : forall h v k c p tg t1 t2 t3 m,
      mark h v m -> m + pause <= t2 -> mark (h ++ [Active v k c p tg t1 t2 t3]) v t3
  | mark_wait : forall h v k c p tg t1 t2 t3 m,
      mark h v m -> t2 < m + pause -> mark (h ++ [Active v k c p tg t1 t2 t3]) v m
  | mark_other : forall h e v m,
      mark h v m -> (forall k c p tg t1 t2 t3, e <> Active v k c p tg t1 t2 t3) -> mark (h ++ [e]) v m.

  (** The pause is over. *)
  Definition due (h : list (ev P N)) (v t1 t2 : Z) : Prop :=
    (exists m, mark h v m /\ m + pause <= t2) \/ (~ reported h v /\ t1 + pause <= t2).

  (** A ground vehicle is at the last waypoint of the route it was last given, if any. *)
  Definition arrived (h : list (ev P N)) (v : Z) (k : kind) (current : Z) : Prop :=
    k = Ground -> forall ws l w, latest (says_route v) h ws -> ws = l ++ [w] -> w_number w = current.

  (** The report [e] makes [v] head for [x], given where it was last sent. *)
  Definition followed (h : list (ev P N)) (e : ev P N) (v : Z) (old : option P) (x : P) : Prop :=
    exists k c here q t1 t2 t3, e = Active v k c here (Some q) t1 t2 t3
      /\ due h v t1 t2 /\ arrived h v k c
      /\ (forall y, old = Some y -> (threshold <= shift q y)%Q)
      /\ around h v (k = Air) q x.

  (** Where [v] was last sent. *)
  Inductive aim_of : list (ev P N) -> Z -> option P -> Prop :=
  | aim_none : forall v, aim_of [] v None
  | aim_new : forall h e v old x, aim_of h v old -> followed h e v old x -> aim_of (h ++ [e]) v (Some x)
  | aim_same : forall h e v old, aim_of h v old -> (forall x, ~ followed h e v old x) -> aim_of (h ++ [e]) v old.

  (** The mission made of the route [ws]. *)
  Definition flight (h : list (ev P N)) (v : Z) (ws : list (wp P)) (m : mission P) : Prop :=
    m_vehicle m = v
    /\ (exists w r, ws = w :: r /\ m_first m = w_number w)
    /\ length (m_wps m) = length ws
    /\ forall i w, nth_error ws i = Some w -> exists w', nth_error (m_wps m) i = Some w'
       /\ w_number w' = w_number w
       /\ w_next w' = (if Nat.eqb (S i) (length ws) then w_number w else w_next w)
       /\ w_tasks w' = w_tasks w ++ [task]
       /\ (forall s a, latest (says_order v) (given h) (s, a) -> w_speed w' = s /\ w_alt w' = a)
       /\ (unsaid (says_order v) (given h) -> w_speed w' = w_speed w /\ w_alt w' = w_alt w)
       /\ (forall c x, earliest (says_config v) h c -> aim_of h v (Some x) ->
            exists alt, w_acts w' = w_acts w
              ++ (if Nat.eqb i 0 then map (fun g => Stare g x) (c_gimbals c) else [])
              ++ (if Nat.eqb (S i) (length ws)
                  then [match c_kind c with
                        | Air => Loiter x alt (radius (c_speed c)) (c_speed c) false
                        | _ => Loiter x alt 0 (c_speed c) true
                        end] else [])
              /\ (forall s a, latest (says_order v) (given h) (s, a) -> alt = a)
              /\ (unsaid (says_order v) (given h) -> alt = c_alt c))
       /\ (unsaid (says_config v) h \/ aim_of h v None -> w_acts w' = w_acts w).

  (** The readings of the clock never go back. *)
  Definition reading (e : ev P N) : option (Z * Z * Z) :=
    match e with Active _ _ _ _ _ t1 t2 t3 => Some (t1, t2, t3) | _ => None end.
  Definition clock (h : list (ev P N)) : Prop :=
    (forall e t1 t2 t3, In e h -> reading e = Some (t1, t2, t3) -> t1 <= t2 <= t3)
    /\ (forall a e b e' c t1 t2 t3 u1 u2 u3, h = a ++ e :: b ++ e' :: c ->
          reading e = Some (t1, t2, t3) -> reading e' = Some (u1, u2, u3) -> t3 <= u1).

  (** The options offered for the vehicles [l]: those that are known, numbered from [n]. *)
  Inductive offered (h : list (ev P N)) : Z -> list (Z * bool * option P) -> list (option_ P) -> Prop :=
  | offered_nil : forall n, offered h n [] []
  | offered_skip : forall n v known tg l os,
      known = false \/ unsaid (says_config v) h -> offered h n l os -> offered h n ((v, known, tg) :: l) os
  | offered_one : forall n v p x c l os,
      earliest (says_config v) h c -> around h v (c_kind c = Air) p x ->
      offered h (n + 1) l os ->
      offered h n ((v, true, Some p) :: l) ({| o_id := n; o_vehicle := v; o_loc := x |} :: os).
End Spec.

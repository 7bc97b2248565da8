(** Model of the task that posts vehicles at the exits of a place, /repo/src/cpp/Tasks/CordonTaskService.cpp:38-116,
    204-302, with the requests as TaskServiceBase.cpp:322-331, 502-538 and 556-593 keep them.

    The exits of the place are found by an external ground planner; they are numbered from 1 and only their number
    counts here.  Eligible vehicles come in groups of the same speed and altitude, in the order in which the map of
    groups is gone through.  Requests that resume an interrupted task (386-500) are left out, as are the places in
    the options.  Option numbers are unbounded. *)
From Coq Require Import String Ascii List ZArith Bool.
From Verif Require Import Base ZMap Run FormulaModel PermuteModel.
Import ListNotations.
Open Scope list_scope.
Open Scope Z_scope.

Record option_ := { o_id : Z; o_vehicle : Z; o_exit : Z }.

(** An automation request with its vehicles and, if it includes the task, the groups of eligible ones among them;
    an automation response; the exits found. *)
Inductive ev :=
| Ask (id : Z) (entities : list Z) (mine : option (list (list Z)))
| Done (id : Z)
| Egress (id : Z) (n : nat).

(** The options published with their composition; [Crash] is the use of the null pointer [m_taskPlanOptions]. *)
Inductive out := Options (l : list option_) (composition : str) | Crash.

Record st := {
  latest : Z;                       (* m_latestUniqueAutomationRequestId *)
  requests : zmap (list Z);         (* m_idVsUniqueAutomationRequest *)
  groups : list (list Z);           (* m_speedAltitudeVsEligibleEntityIdsRequested *)
  plan : option (list option_);     (* m_taskPlanOptions *)
  pairs : list (Z * Z * Z);         (* m_vehicleIdNodeIdVsOptionId: vehicle, exit and option *)
  dead : bool
}.
Definition init : st := {| latest := 0; requests := []; groups := []; plan := None; pairs := []; dead := false |}.

(** TaskServiceBase.cpp:51 *)
Definition first_option : Z := 10.

(** [std::unordered_map::find] *)
Fixpoint find_pair (m : list (Z * Z * Z)) (v x : Z) : option Z :=
  match m with
  | [] => None
  | (v', x', o) :: m' => if (v' =? v) && (x' =? x) then Some o else find_pair m' v x
  end.
(** [std::unordered_map::insert], which keeps an entry that is there. *)
Definition insert_pair (m : list (Z * Z * Z)) (v x o : Z) : list (Z * Z * Z) :=
  match find_pair m v x with Some _ => m | None => m ++ [(v, x, o)] end.

(** 66-110: the text for one permutation; [pair] gives the vehicle and exit at an index of the permutation, as 66-87
    or 89-109.  The tests of the index, which hold, are part of [pair]. *)
Definition term (m : list (Z * Z * Z)) (ps : list (Z * Z)) : str :=
  concat (map (fun p => match find_pair m (fst p) (snd p) with
                        | Some o => lit "p" ++ to_string_Z o ++ lit " "
                        | None => []
                        end) ps).
(** 57-115 *)
Definition functor (m : list (Z * Z * Z)) (pair : list Z -> list (Z * Z)) (x : list Z) (s : str) : bool * str :=
  match x with
  | [] => (false, s)
  | _ => (false, s ++ lit " .(" ++ term m (pair x) ++ lit ")")
  end.

(** 249-270 *)
Definition composition (m : list (Z * Z * Z)) (exits vehicles : list Z) : str :=
  let n := length exits in
  let k := length vehicles in
  let r := if (n <? k)%nat
           then for_each_permutation (functor m (fun x => combine x exits)) (firstn n vehicles) (skipn n vehicles) (lit "+(")
           else for_each_permutation (functor m (fun x => combine vehicles x)) (firstn k exits) (skipn k exits) (lit "+(") in
  snd r ++ lit ")".

(** 282-302, and the loops at 228-235. *)
Definition add_option (x : Z) (a : Z * list option_ * list (Z * Z * Z)) (v : Z) : Z * list option_ * list (Z * Z * Z) :=
  let '(o, l, m) := a in
  (o + 1, l ++ [{| o_id := o; o_vehicle := v; o_exit := x |}], insert_pair m v x o).
Definition add_exit (gs : list (list Z)) (a : Z * list option_ * list (Z * Z * Z)) (x : Z) : Z * list option_ * list (Z * Z * Z) :=
  fold_left (fun a g => fold_left (add_option x) g a) gs a.

Section Step.
  Context (task : Z).

  (** 216-243 *)
  Definition egress (s : st) (vehicles : list Z) (n : nat) : st * list out :=
    match plan s with
    | None => ({| latest := latest s; requests := requests s; groups := groups s; plan := None; pairs := pairs s; dead := true |}, [Crash])
    | Some l =>
        let exits := map Z.of_nat (seq 1 n) in
        let '(_, l', m') := fold_left (add_exit (groups s)) exits (first_option, l, pairs s) in
        ({| latest := latest s; requests := requests s; groups := groups s; plan := Some l'; pairs := m'; dead := dead s |},
         [Options l' (composition m' exits vehicles)])
    end.

  Definition step (s : st) (e : ev) : st * list out :=
    if dead s then (s, []) else
    match e with
    | Ask id es mine =>
        ({| latest := id; requests := zset (requests s) id es;
            groups := match mine with Some gs => gs | None => groups s end;
            plan := match mine with Some _ => Some [] | None => plan s end;
            pairs := pairs s; dead := dead s |}, [])
    | Done id =>
        ({| latest := latest s; requests := zdel (requests s) id; groups := groups s; plan := plan s; pairs := pairs s; dead := dead s |}, [])
    | Egress id n =>
        match zget (requests s) (latest s) with
        | None => (s, [])
        | Some es => if id =? task then egress s es n else (s, [])
        end
    end.

  Definition history (evs : list ev) : list (ev * list out) := snd (run step init evs).
End Step.

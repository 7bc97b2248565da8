(** Model of src/cpp/Services/PlanBuilderService.{h,cpp} with the default configuration (no
    loiter added, turn type not overridden).

    Positions with headings are opaque numbers ([pose]).  Left out: the override planning
    conditions of ImpactAutomationRequests (taken to be empty), camera actions, the contents
    of error texts, and [m_assignmentSummaries], which is written but never read. *)
From Coq Require Import List ZArith Bool.
From Verif Require Import ZMap.
Import ListNotations.
Open Scope list_scope.
Open Scope Z_scope.

Definition pose := Z.

(** A waypoint; [w_data] stands for position, speed and so on. *)
Record wp := { w_num : Z; w_next : Z; w_data : Z }.

(** A UniqueAutomationRequest. *)
Record ureq := {
  u_id : Z;
  u_entities : list Z;
  u_region : Z;
  u_planning : list (Z * pose)
}.

(** A TaskAssignment. *)
Record asg := { g_task : Z; g_option : Z; g_vehicle : Z; g_threshold : Z }.

(** A TaskImplementationRequest. *)
Record ireq := {
  i_corr : Z;
  i_id : Z;
  i_start : Z;
  i_vehicle : Z;
  i_task : Z;
  i_option : Z;
  i_region : Z;
  i_threshold : Z;
  i_pose : pose;
  i_time : Z;
  i_neighbours : list (Z * pose)
}.

(** A TaskImplementationResponse. *)
Record iresp := {
  x_id : Z;
  x_vehicle : Z;
  x_wps : list wp;
  x_time : Z;
  x_pose : pose
}.

(** A MissionCommand. *)
Record mission := { m_cmd : Z; m_vehicle : Z; m_first : Z; m_wps : list wp }.

(** PlanBuilderService.h:131-153, [ProjectedState]. *)
Record proj := { j_vehicle : Z; j_final : Z; j_time : Z; j_pose : pose }.

(** PlanBuilderService.cpp:94-136: what is received. *)
Inductive event :=
| EvState (v : Z) (p : pose) (time : Z)
| EvUnique (u : ureq)
| EvSummary (q : Z) (tasks : list asg)
| EvImpl (x : iresp).

Inductive out :=
| OutImpl (i : ireq)
| OutResp (q : Z) (ms : list mission) (finals : list (Z * pose))
| OutSent (q : Z)
| OutError.

(** PlanBuilderService.h:157-186, the member variables.  An entry [None] in [b_prog] is a
    null pointer. *)
Record bstate := {
  b_reqs : zmap ureq;
  b_prog : zmap (option (list mission));
  b_proj : zmap (list proj);
  b_rest : zmap (list asg);
  b_expect : zmap Z;
  b_states : zmap (pose * Z);
  b_impl : Z;
  b_cmd : Z
}.

Definition binit : bstate :=
  {| b_reqs := []; b_prog := []; b_proj := []; b_rest := []; b_expect := []; b_states := [];
     b_impl := 1; b_cmd := 1 |}.

Section Order.
  (** The iteration order of an unordered map, and the displacement of the start point along
      the heading (PlanBuilderService.cpp:235-247). *)
  Context (ord : list Z -> list Z) (lead : pose -> pose).

  (** PlanBuilderService.cpp:262-304, [sendNextTaskImplementationRequest]. *)
  Definition sendNext (q : Z) (s : bstate) : bstate * list out :=
    match zget (b_reqs s) q, zget (b_rest s) q, zget (b_proj s) q with
    | Some u, Some (a :: rest), Some js =>
        match find (fun j => j_vehicle j =? g_vehicle a) js with
        | None => (s, [])
        | Some j =>
            ({| b_reqs := b_reqs s; b_prog := b_prog s; b_proj := b_proj s;
                b_rest := zset (b_rest s) q rest;
                b_expect := zset (b_expect s) (b_impl s) q;
                b_states := b_states s; b_impl := b_impl s + 1; b_cmd := b_cmd s |},
             [OutImpl {| i_corr := q; i_id := b_impl s; i_start := j_final j + 1;
                         i_vehicle := g_vehicle a; i_task := g_task a; i_option := g_option a;
                         i_region := u_region u; i_threshold := g_threshold a;
                         i_pose := j_pose j; i_time := j_time j;
                         i_neighbours :=
                           map (fun n => (j_vehicle n, j_pose n))
                               (filter (fun n => negb (j_vehicle n =? j_vehicle j)) js) |}])
        end
    | _, _, _ => (s, [])
    end.

  (** PlanBuilderService.cpp:213-252: the state a vehicle starts planning from. *)
  Definition startProj (s : bstate) (u : ureq) (v : Z) : list proj :=
    match zget (b_states s) v with
    | None => []
    | Some (p, t) =>
        [{| j_vehicle := v; j_final := 0; j_time := t;
            j_pose := match find (fun x => fst x =? v) (u_planning u) with
                      | Some x => snd x
                      | None => lead p
                      end |}]
    end.

  (** PlanBuilderService.cpp:150-260, [processTaskAssignmentSummary]. *)
  Definition processSummary (q : Z) (tasks : list asg) (s : bstate) : bstate * list out :=
    match zget (b_reqs s) q with
    | None => (s, [OutError])
    | Some u =>
        match tasks with
        | [] => (s, [OutError])
        | _ =>
            if forallb (fun v => zhas (b_states s) v) (u_entities u) then
              let vs := match u_entities u with
                        | [] => ord (map fst (b_states s))
                        | l => l
                        end in
              sendNext q
                {| b_reqs := b_reqs s; b_prog := zset (b_prog s) q (Some []);
                   b_proj := zset (b_proj s) q (flat_map (startProj s u) vs);
                   b_rest := zset (b_rest s) q tasks;
                   b_expect := b_expect s; b_states := b_states s; b_impl := b_impl s;
                   b_cmd := b_cmd s |}
            else (s, [OutError])
        end
    end.

  (** PlanBuilderService.cpp:421-466, [checkNextTaskImplementationRequest]. *)
  Definition checkNext (q : Z) (s : bstate) : bstate * list out :=
    match zget (b_rest s) q with
    | None => (s, [])
    | Some [] =>
        ({| b_reqs := b_reqs s; b_prog := zdel (b_prog s) q; b_proj := b_proj s;
            b_rest := b_rest s; b_expect := b_expect s; b_states := b_states s;
            b_impl := b_impl s; b_cmd := b_cmd s |},
         [OutResp q (match zget (b_prog s) q with Some (Some ms) => ms | _ => [] end)
            (match zget (b_proj s) q with
             | Some js => map (fun j => (j_vehicle j, j_pose j)) js
             | None => []
             end);
          OutSent q])
    | Some _ => sendNext q s
    end.

  (** PlanBuilderService.cpp:339-342: the last waypoint of the mission so far is linked to the
      first new one. *)
  Fixpoint linkLast (l : list wp) (n : Z) : list wp :=
    match l with
    | [] => []
    | [w] => [{| w_num := w_num w; w_next := n; w_data := w_data w |}]
    | w :: l' => w :: linkLast l' n
    end.

  (** PlanBuilderService.cpp:334-344: the first mission of the vehicle is extended. *)
  Fixpoint extend (ms : list mission) (v : Z) (ws : list wp) (n : Z) : option (list mission) :=
    match ms with
    | [] => None
    | m :: ms' =>
        if m_vehicle m =? v
        then Some ({| m_cmd := m_cmd m; m_vehicle := m_vehicle m; m_first := m_first m;
                      m_wps := linkLast (m_wps m) n ++ ws |} :: ms')
        else option_map (cons m) (extend ms' v ws n)
    end.

  (** PlanBuilderService.cpp:402-415: the first projected state of the vehicle is moved on. *)
  Fixpoint advance (js : list proj) (x : iresp) (final : Z) : list proj :=
    match js with
    | [] => []
    | j :: js' =>
        if j_vehicle j =? x_vehicle x
        then {| j_vehicle := j_vehicle j; j_final := final; j_time := x_time x;
                j_pose := x_pose x |} :: js'
        else j :: advance js' x final
    end.

  (** PlanBuilderService.cpp:306-419, [processTaskImplementationResponse]. *)
  Definition processImpl (x : iresp) (s : bstate) : bstate * list out :=
    match zget (b_expect s) (x_id x) with
    | None => (s, [])
    | Some q =>
        match zget (b_prog s) q with
        | Some (Some ms) =>
            match x_wps x with
            | [] => let (s1, o) := checkNext q s in (s1, OutError :: o)
            | w :: _ =>
                let '(ms1, cmd1) :=
                  match extend ms (x_vehicle x) (x_wps x) (w_num w) with
                  | Some ms' => (ms', b_cmd s)
                  | None => (ms ++ [{| m_cmd := b_cmd s; m_vehicle := x_vehicle x;
                                       m_first := w_num w; m_wps := x_wps x |}], b_cmd s + 1)
                  end in
                checkNext q
                  {| b_reqs := b_reqs s; b_prog := zset (b_prog s) q (Some ms1);
                     b_proj := match zget (b_proj s) q with
                               | None => b_proj s
                               | Some js => zset (b_proj s) q
                                              (advance js x (w_num (last (x_wps x) w)))
                               end;
                     b_rest := b_rest s; b_expect := b_expect s; b_states := b_states s;
                     b_impl := b_impl s; b_cmd := cmd1 |}
            end
        | _ => (s, [])
        end
    end.

  (** PlanBuilderService.cpp:94-136, [processReceivedLmcpMessage]. *)
  Definition bstep (s : bstate) (e : event) : bstate * list out :=
    match e with
    | EvState v p t =>
        ({| b_reqs := b_reqs s; b_prog := b_prog s; b_proj := b_proj s; b_rest := b_rest s;
            b_expect := b_expect s; b_states := zset (b_states s) v (p, t);
            b_impl := b_impl s; b_cmd := b_cmd s |}, [])
    | EvUnique u =>
        ({| b_reqs := zset (b_reqs s) (u_id u) u; b_prog := zset (b_prog s) (u_id u) None;
            b_proj := zset (b_proj s) (u_id u) []; b_rest := zset (b_rest s) (u_id u) [];
            b_expect := b_expect s; b_states := b_states s; b_impl := b_impl s;
            b_cmd := b_cmd s |}, [])
    | EvSummary q ts => processSummary q ts s
    | EvImpl x => processImpl x s
    end.
End Order.

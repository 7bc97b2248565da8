(** Model of src/cpp/Services/OperatingRegionStateService.cpp. *)
From Coq Require Import List ZArith Bool.
Import ListNotations.
Open Scope list_scope.
Open Scope Z_scope.

(** A zone message (KeepInZone or KeepOutZone): only the fields the service uses.  Lengths are in
    units of 0.1 mm, so that the constant 1e-4 at lines 81 and 117 is 1. *)
Record zone := { z_id : Z; z_start : Z; z_end : Z; z_padding : Z }.

Inductive event :=
| EvKeepIn (z : zone)
| EvKeepOut (z : zone)
| EvRemove (ids : list Z)
| EvWater (id : Z).

Inductive output :=
| OutKeepIn (z : zone)                     (* a zone with added padding *)
| OutKeepOut (z : zone)
| OutRegion (keepIn keepOut : list Z).

(** m_region (h:103). *)
Record state := { keepIn : list Z; keepOut : list Z }.

(** configure (54-55). *)
Definition init : state := {| keepIn := []; keepOut := [] |}.

(** The loops at 70-77 and 105-112: no zone with this id yet. *)
Definition isNew (id : Z) (l : list Z) : bool := negb (existsb (fun z => z =? id) l).

(** 78 and 113. *)
Definition isRemoval (z : zone) : bool := (z_start z =? -1) && (z_end z =? -1).

(** remove_if and erase (91-95, 128-132, 148-152, 156-160). *)
Definition drop (id : Z) (l : list Z) : list Z := filter (fun v => negb (v =? id)) l.

(** 83 and 119. *)
Definition padded (additional : Z) (z : zone) : zone :=
  {| z_id := z_id z; z_start := z_start z; z_end := z_end z; z_padding := z_padding z + additional |}.

(** 69-98 and 104-134: the new list, whether the region is sent, and whether the padded zone is. *)
Definition update (additional : Z) (z : zone) (l : list Z) : list Z * bool * bool :=
  let addZone := isNew (z_id z) l in
  let removeZone := isRemoval z in
  let isPadded := addZone && negb removeZone && (1 <? additional) in
  let l := if addZone && negb removeZone then l ++ [z_id z] else l in
  let l := if removeZone then drop (z_id z) l else l in
  (l, addZone || removeZone, isPadded).

(** 60-173. *)
Definition step (additional : Z) (s : state) (e : event) : state * list output :=
  match e with
  | EvKeepIn z =>
      let '(l, send, pad) := update additional z (keepIn s) in
      ({| keepIn := l; keepOut := keepOut s |},
       (if pad then [OutKeepIn (padded additional z)] else []) ++
       (if send then [OutRegion l (keepOut s)] else []))
  | EvKeepOut z =>
      let '(l, send, pad) := update additional z (keepOut s) in
      ({| keepIn := keepIn s; keepOut := l |},
       (if pad then [OutKeepOut (padded additional z)] else []) ++
       (if send then [OutRegion (keepIn s) l] else []))
  | EvWater _ => (s, [])
  | EvRemove ids =>
      let ki := fold_left (fun l z => drop z l) ids (keepIn s) in
      let ko := fold_left (fun l z => drop z l) ids (keepOut s) in
      ({| keepIn := ki; keepOut := ko |}, [OutRegion ki ko])
  end.

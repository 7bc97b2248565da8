(** Splitting, legs of missions and filling in of summaries. *)
From Coq Require Import List ZArith Bool Permutation Lia.
From Verif Require Import ZMap Run BatchModel BatchSpec.
Import ListNotations.
Open Scope list_scope.
Open Scope Z_scope.

(** ** Splitting *)
Lemma fold_snd {A B X} (F : A * list B -> X -> A * list B) (g : X -> list B) (l : list X) acc :
  (forall acc x, snd (F acc x) = snd acc ++ g x) -> snd (fold_left F l acc) = snd acc ++ flat_map g l.
Proof.
  intros H. revert acc. induction l as [|x l IH]; intros acc; cbn; [rewrite app_nil_r; reflexivity|].
  rewrite IH, H, app_assoc. reflexivity.
Qed.

Definition adding (acc : list tsum) (p : Z * vsum) : list tsum := addTo (fst p) (snd p) acc.

Lemma fold_fst {B X} (F : list tsum * list B -> X -> list tsum * list B) (g : X -> list (Z * vsum)) (l : list X) acc :
  (forall acc x, fst (F acc x) = fold_left adding (g x) (fst acc)) ->
  fst (fold_left F l acc) = fold_left adding (flat_map g l) (fst acc).
Proof.
  intros H. revert acc. induction l as [|x l IH]; intros acc; cbn; [reflexivity|].
  rewrite IH, H, fold_left_app. reflexivity.
Qed.

Lemma flat_map_if {A B} (f : A -> bool) (g : A -> B) (l : list A) :
  flat_map (fun x => if f x then [] else [g x]) l = map g (filter (fun x => negb (f x)) l).
Proof. induction l as [|x l IH]; [reflexivity|]. cbn. destruct (f x); cbn; rewrite IH; reflexivity. Qed.

Lemma split_plans q : snd (split q) = wanted q.
Proof.
  unfold split, wanted. destruct (q_related q).
  - rewrite (fold_snd _ (fun v => flat_map (fun i => map (fun j => {| a_tasks := [i; j]; a_vehicle := v; a_order := Some (i, j) |})
      (filter (fun j => negb (i =? j)) (q_tasks q))) (q_tasks q))); [reflexivity|]. intros acc v.
    apply (fold_snd _ (fun i => map (fun j => {| a_tasks := [i; j]; a_vehicle := v; a_order := Some (i, j) |})
      (filter (fun j => negb (i =? j)) (q_tasks q)))). intros acc' i.
    rewrite (fold_snd _ (fun j => if i =? j then [] else [{| a_tasks := [i; j]; a_vehicle := v; a_order := Some (i, j) |}])).
    + cbn [snd]. f_equal. apply (flat_map_if (fun j => i =? j)).
    + intros acc'' j. destruct (i =? j); cbn; [rewrite app_nil_r|]; reflexivity.
  - rewrite (fold_snd _ (fun t => map (fun v => {| a_tasks := [t]; a_vehicle := v; a_order := None |}) (q_vehicles q))); [reflexivity|].
    intros acc t. rewrite (fold_snd _ (fun v => [{| a_tasks := [t]; a_vehicle := v; a_order := None |}])); [|intros; reflexivity].
    reflexivity.
Qed.

Definition adds (q : query) : list (Z * vsum) :=
  if q_related q then
    flat_map (fun v => flat_map (fun i => (i, blank v 0 i) :: map (fun j => (j, blank v i j)) (filter (fun j => negb (i =? j)) (q_tasks q)))
                                (q_tasks q)) (q_vehicles q)
  else flat_map (fun t => map (fun v => (t, blank v 0 t)) (q_vehicles q)) (q_tasks q).

Definition bare (q : query) : list tsum := map (fun t => {| t_task := t; t_vehicles := [] |}) (q_tasks q).

Lemma split_sums q : fst (split q) = fold_left adding (adds q) (bare q).
Proof.
  unfold split, adds, bare. destruct (q_related q).
  - apply fold_fst. intros acc v. apply (fold_fst _ (fun i => (i, blank v 0 i) :: map (fun j => (j, blank v i j)) (filter (fun j => negb (i =? j)) (q_tasks q)))).
    intros acc' i. rewrite (fold_fst _ (fun j => if i =? j then [] else [(j, blank v i j)])).
    + cbn [fst fold_left]. rewrite (flat_map_if (fun j => i =? j) (fun j => (j, blank v i j))). reflexivity.
    + intros acc'' j. destruct (i =? j); reflexivity.
  - apply fold_fst. intros acc t. rewrite (fold_fst _ (fun v => [(t, blank v 0 t)])); [|reflexivity].
    reflexivity.
Qed.

Definition view (l : list tsum) : list (Z * list (Z * Z * Z)) := map (fun y => (t_task y, map line (t_vehicles y))) l.

Lemma addTo_view T g t0 x l : NoDup T -> view l = map (fun t => (t, g t)) T ->
  view (addTo t0 x l) = map (fun t => (t, g t ++ (if t0 =? t then [line x] else []))) T.
Proof.
  revert l. induction T as [|t T IH]; intros [|y l] N H; try discriminate; [reflexivity|]. cbn in H. injection H as H1 H2 H3.
  inversion N as [|? ? N1 N2]; subst. cbn. rewrite (Z.eqb_sym t0 (t_task y)). destruct (Z.eqb_spec (t_task y) t0) as [E|E]; cbn.
  - rewrite map_app, H2. cbn. f_equal. rewrite H3. apply map_ext_in. intros t I. destruct (Z.eqb_spec t0 t) as [E'|_]; [|rewrite app_nil_r; reflexivity].
    exfalso. apply N1. rewrite E, E'. exact I.
  - rewrite app_nil_r, H2. f_equal. apply IH; assumption.
Qed.


Lemma adding_view T : NoDup T -> forall ps g l, view l = map (fun t => (t, g t)) T ->
  view (fold_left adding ps l) = map (fun t => (t, g t ++ flat_map (fun p => if fst p =? t then [line (snd p)] else []) ps)) T.
Proof.
  intros N ps. induction ps as [|p ps IH]; intros g l H; cbn [fold_left flat_map].
  - rewrite H. apply map_ext. intros t. rewrite app_nil_r. reflexivity.
  - unfold adding at 2. rewrite (IH _ _ (addTo_view T g (fst p) (snd p) l N H)).
    apply map_ext. intros t. rewrite <- app_assoc. reflexivity.
Qed.

Lemma flat_map_flat_map {A B C} (f : A -> list B) (g : B -> list C) (l : list A) :
  flat_map g (flat_map f l) = flat_map (fun x => flat_map g (f x)) l.
Proof. induction l as [|x l IH]; [reflexivity|]. cbn. rewrite flat_map_app, IH. reflexivity. Qed.

Lemma flat_map_map {A B C} (f : A -> B) (g : B -> list C) (l : list A) : flat_map g (map f l) = flat_map (fun x => g (f x)) l.
Proof. induction l as [|x l IH]; [reflexivity|]. cbn. rewrite IH. reflexivity. Qed.

Lemma flat_map_ext_in {A B} (f g : A -> list B) (l : list A) : (forall x, In x l -> f x = g x) -> flat_map f l = flat_map g l.
Proof.
  induction l as [|x l IH]; intros H; [reflexivity|]. cbn. rewrite (H x (or_introl eq_refl)), IH; [reflexivity|]. intros y I. apply H. right. exact I.
Qed.

Lemma flat_map_single {A B} (f : A -> B) (l : list A) : flat_map (fun x => [f x]) l = map f l.
Proof. induction l as [|x l IH]; [reflexivity|]. cbn. rewrite IH. reflexivity. Qed.

Lemma flat_map_nil {A B} (l : list A) : flat_map (fun _ : A => @nil B) l = [].
Proof. induction l; auto. Qed.

Lemma flat_map_none {A B} (f : A -> list B) (l : list A) : (forall x, In x l -> f x = []) -> flat_map f l = [].
Proof. intros H. rewrite <- (flat_map_nil l). apply flat_map_ext_in. exact H. Qed.

(** The only element of a list without repetition that equals [t]. *)
Lemma flat_map_pick {B} (T : list Z) (t : Z) (x : list B) : NoDup T -> In t T -> flat_map (fun j => if j =? t then x else []) T = x.
Proof.
  induction T as [|j T IH]; intros N I; [destruct I|]. inversion N as [|? ? N1 N2]; subst. cbn. destruct (Z.eqb_spec j t) as [->|E].
  - replace (flat_map _ T) with (@nil B); [apply app_nil_r|]. symmetry. apply flat_map_none.
    intros y J. destruct (Z.eqb_spec y t) as [->|_]; [contradiction|reflexivity].
  - destruct I as [I|I]; [congruence|]. apply IH; assumption.
Qed.

Lemma adds_lines q t : NoDup (q_tasks q) -> In t (q_tasks q) ->
  flat_map (fun p => if fst p =? t then [line (snd p)] else []) (adds q) = lines q t.
Proof.
  intros N I. unfold adds, lines. destruct (q_related q); rewrite flat_map_flat_map.
  - apply flat_map_ext_in. intros v _. rewrite flat_map_flat_map, <- flat_map_single. apply flat_map_ext_in. intros i Ii.
    cbn [flat_map fst snd]. rewrite flat_map_map. cbn [fst snd]. destruct (Z.eqb_spec i t) as [->|E].
    + replace (flat_map _ _) with (@nil (Z * Z * Z)); [reflexivity|]. symmetry. apply flat_map_none. intros j J. apply filter_In in J. destruct J as (_ & J). rewrite Z.eqb_sym in J. destruct (j =? t); [discriminate|reflexivity].
    + cbn. assert (X : flat_map (fun j => if j =? t then [(v, i, j)] else []) (filter (fun j => negb (i =? j)) (q_tasks q)) = [(v, i, t)]).
      { rewrite <- (flat_map_pick (filter (fun j => negb (i =? j)) (q_tasks q)) t [(v, i, t)]).
        - apply flat_map_ext_in. intros j _. destruct (Z.eqb_spec j t) as [->|_]; reflexivity.
        - apply NoDup_filter, N.
        - apply filter_In. split; [exact I|]. destruct (Z.eqb_spec i t); [contradiction|reflexivity]. }
      unfold line. cbn [v_vehicle v_init v_dest blank]. rewrite X. reflexivity.
  - rewrite <- (flat_map_pick (q_tasks q) t (map (fun v => (v, 0, t)) (q_vehicles q)) N I). apply flat_map_ext_in. intros t' _.
    rewrite flat_map_map. cbn [fst snd]. destruct (Z.eqb_spec t' t) as [->|_]; [|apply flat_map_nil].
    apply flat_map_single.
Qed.

Lemma split_view q : NoDup (q_tasks q) -> view (fst (split q)) = map (fun t => (t, lines q t)) (q_tasks q).
Proof.
  intros N. rewrite split_sums, (adding_view (q_tasks q) N (adds q) (fun _ => [])).
  - apply map_ext_in. intros t I. cbn [app]. rewrite adds_lines; auto.
  - unfold view, bare. rewrite map_map. reflexivity.
Qed.

Lemma addTo_tasks t x l : map t_task (addTo t x l) = map t_task l.
Proof. induction l as [|y l IH]; [reflexivity|]. cbn. destruct (t_task y =? t); cbn; [|rewrite IH]; reflexivity. Qed.

Lemma split_tasks q : map t_task (fst (split q)) = q_tasks q.
Proof.
  rewrite split_sums. assert (E : map t_task (bare q) = q_tasks q) by (unfold bare; rewrite map_map; apply map_id).
  rewrite <- E. generalize (bare q). induction (adds q) as [|p ps IH]; intros l; [reflexivity|]. cbn. rewrite IH. apply addTo_tasks.
Qed.

Lemma addTo_in t x l y z : In y (addTo t x l) -> In z (t_vehicles y) -> z = x \/ exists y', In y' l /\ In z (t_vehicles y').
Proof.
  induction l as [|u l IH]; cbn; [intros []|]. destruct (t_task u =? t); cbn.
  - intros [<-|I] J; [cbn in J; apply in_app_or in J; destruct J as [J|[J|[]]]; [right; exists u; auto|left; auto]|right; exists y; auto].
  - intros [<-|I] J; [right; exists u; auto|]. destruct (IH I J) as [E|(y' & A & B)]; [left; exact E|right; exists y'; auto].
Qed.

Lemma split_blank q y x : In y (fst (split q)) -> In x (t_vehicles y) -> exists v i d, x = blank v i d.
Proof.
  rewrite split_sums.
  assert (A : forall p, In p (adds q) -> exists v i d, snd p = blank v i d).
  { unfold adds. destruct (q_related q); intros p I; apply in_flat_map in I; destruct I as (u & _ & I).
    - apply in_flat_map in I. destruct I as (i & _ & [<-|I]); [do 3 eexists; reflexivity|]. apply in_map_iff in I. destruct I as (j & <- & _). do 3 eexists; reflexivity.
    - apply in_map_iff in I. destruct I as (j & <- & _). do 3 eexists; reflexivity. }
  assert (B : forall y x, In y (bare q) -> In x (t_vehicles y) -> exists v i d, x = blank v i d).
  { intros y0 x0 I J. unfold bare in I. apply in_map_iff in I. destruct I as (t & <- & _). destruct J. }
  revert A B. generalize (bare q). generalize (adds q). intros ps. induction ps as [|p ps IH]; intros l A B I J; [exact (B y x I J)|].
  cbn in I. apply (IH (adding l p)); auto; [intros p' I'; apply A; right; exact I'|]. intros y0 x0 I0 J0.
  destruct (addTo_in _ _ _ _ _ I0 J0) as [->|(y' & C & D)]; [apply A; left; reflexivity|exact (B y' x0 C D)].
Qed.

(** ** Legs *)
Lemma walk_idle a : Forall idle a -> forall acc wk pv r, walk acc true wk pv (a ++ r) = walk (acc ++ a) true wk pv r.
Proof.
  induction 1 as [|w a H _ IH]; intros acc wk pv r; [rewrite app_nil_r; reflexivity|]. cbn [app walk]. rewrite H, IH, <- app_assoc. reflexivity.
Qed.

Lemma walk_busy k : Forall busy k -> forall acc wk pv r, r <> [] -> walk acc false wk pv (k ++ r) = walk (acc ++ k) false wk pv r.
Proof.
  induction 1 as [|w k H _ IH]; intros acc wk pv r N; [rewrite app_nil_r; reflexivity|]. cbn [app walk].
  destruct (w_tasks w) as [|t ts] eqn:E; [contradiction|]. destruct (k ++ r) as [|u l] eqn:X; [destruct k; [contradiction|discriminate]|].
  rewrite <- X, IH, <- app_assoc by exact N. reflexivity.
Qed.

Lemma walk_task acc wk pv k t r : on_task k t -> r <> [] -> -2147483648 <= t < 2147483648 ->
  walk acc true wk pv (k ++ r) = walk (acc ++ k) false t wk r.
Proof.
  intros (w & k' & ts & -> & E & F) N B. inversion F as [|? ? _ F']; subst. cbn [app walk]. rewrite E.
  destruct (k' ++ r) as [|u l] eqn:X; [destruct k'; [contradiction|discriminate]|]. rewrite <- X, walk_busy, <- app_assoc by assumption.
  replace (int32 t) with t; [reflexivity|]. unfold int32. rewrite Z.mod_small; lia.
Qed.

Lemma on_task_in k t : on_task k t -> exists w, In w k /\ In t (w_tasks w).
Proof. intros (w & k' & ts & -> & E & _). exists w. split; [left; reflexivity|]. rewrite E. left. reflexivity. Qed.

Lemma walk_legs z c p ws L : legs z c p ws L ->
  (forall w t, In w ws -> In t (w_tasks w) -> -2147483648 <= t < 2147483648) ->
  forall pv, walk c true p pv (ws ++ [z]) = L.
Proof.
  induction 1 as [c p a A|c p a k t A K|c p a k t e r L A K E _ IH]; intros S pv.
  - rewrite walk_idle by exact A. cbn. destruct (w_tasks z); reflexivity.
  - rewrite <- app_assoc, walk_idle by exact A. rewrite (walk_task _ _ _ k t); [|exact K|discriminate|].
    + cbn. rewrite <- !app_assoc. destruct (w_tasks z); reflexivity.
    + destruct (on_task_in _ _ K) as (w & I & J). apply (S w); [apply in_or_app; right; exact I|exact J].
  - rewrite <- !app_assoc, walk_idle by exact A. rewrite (walk_task _ _ _ k t); [|exact K|discriminate|].
    + cbn [app walk]. rewrite E. rewrite IH; [rewrite <- !app_assoc; reflexivity|]. intros w t' I. apply S. apply in_or_app. right.
      apply in_or_app. right. right. exact I.
    + destruct (on_task_in _ _ K) as (w & I & J). apply (S w); [apply in_or_app; right; apply in_or_app; left; exact I|exact J].
Qed.

Lemma walk_mission m L : small m -> mission_legs m L -> walk [] true 0 0 (m_wps m) = L.
Proof.
  intros S [(-> & ->)|(ws & z & E & H)]; [reflexivity|]. rewrite E. apply walk_legs; [exact H|]. intros w t I. apply S. rewrite E. apply in_or_app. auto.
Qed.

Lemma span_idle ws : exists a r, ws = a ++ r /\ Forall idle a /\ match r with [] => True | w :: _ => busy w end.
Proof.
  induction ws as [|w ws IH]; [exists [], []; auto|]. destruct (w_tasks w) as [|t ts] eqn:E.
  - destruct IH as (a & r & -> & A & R). exists (w :: a), r. split; [reflexivity|]. split; [constructor; assumption|exact R].
  - exists [], (w :: ws). split; [reflexivity|]. split; [constructor|]. unfold busy. rewrite E. discriminate.
Qed.

Lemma span_busy ws : exists a r, ws = a ++ r /\ Forall busy a /\ match r with [] => True | w :: _ => idle w end.
Proof.
  induction ws as [|w ws IH]; [exists [], []; auto|]. destruct (w_tasks w) as [|t ts] eqn:E.
  - exists [], (w :: ws). split; [reflexivity|]. split; [constructor|exact E].
  - destruct IH as (a & r & -> & A & R). exists (w :: a), r. split; [reflexivity|]. split; [constructor; [unfold busy; rewrite E; discriminate|exact A]|exact R].
Qed.

Lemma legs_exist z : forall n ws c p, (length ws <= n)%nat -> exists L, legs z c p ws L.
Proof.
  induction n as [|n IH]; intros ws c p B.
  - destruct ws; [|cbn in B; lia]. exists []. constructor. constructor.
  - destruct (span_idle ws) as (a & r & -> & A & R). destruct r as [|w r].
    + exists []. rewrite app_nil_r. constructor. exact A.
    + destruct (span_busy r) as (k & r' & -> & K & R'). destruct (w_tasks w) as [|t ts] eqn:E; [contradiction|].
      assert (OT : on_task (w :: k) t) by (exists w, k, ts; split; [reflexivity|]; split; [exact E|constructor; assumption]).
      destruct r' as [|e r'].
      * rewrite app_nil_r. eexists. apply legs_last; eassumption.
      * destruct (IH r' [e] t) as (L & H).
        { rewrite app_length in B. cbn in B. rewrite app_length in B. cbn in B. lia. }
        exists ((p, t, c ++ a ++ (w :: k) ++ [e]) :: L). apply (legs_more z c p a (w :: k) t e r' L A OT R' H).
Qed.

Lemma mission_legs_exist m : exists L, mission_legs m L.
Proof.
  destruct (m_wps m) as [|w ws] eqn:E using rev_ind; [exists []; left; auto|]. clear IHws.
  destruct (legs_exist w (length ws) ws [] 0 (le_n _)) as (L & H). exists L. right. exists ws, w. auto.
Qed.

(** C58: the composition published for a cordon allows exactly the ways of posting vehicles at exits. *)
From Coq Require Import String Ascii List ZArith Bool Lia Arith.
From Verif Require Import Base ZMap Run Decimal10 AlgebraModel AlgebraSpec FormulaModel FormulaSpec FormulaProofs PermuteModel PermuteSpec PermuteProps FormulaProps ListSplit CordonModel CordonSpec.
Import ListNotations.
Open Scope list_scope.
Open Scope Z_scope.

(** *** Options *)

Fixpoint opts (o x : Z) (el : list Z) : list option_ :=
  match el with [] => [] | v :: el' => {| o_id := o; o_vehicle := v; o_exit := x |} :: opts (o + 1) x el' end.
Fixpoint all_opts (o : Z) (xs el : list Z) : list option_ :=
  match xs with [] => [] | x :: xs' => opts o x el ++ all_opts (o + Z.of_nat (length el)) xs' el end.
Definition ins (m : list (Z * Z * Z)) (l : list option_) : list (Z * Z * Z) :=
  fold_left (fun m o => insert_pair m (o_vehicle o) (o_exit o) (o_id o)) l m.

Lemma fold_concat {A B} (f : A -> B -> A) gs : forall a, fold_left (fun a g => fold_left f g a) gs a = fold_left f (concat gs) a.
Proof. induction gs as [|g gs IH]; intros a; [reflexivity|]. cbn [fold_left concat]. rewrite fold_left_app. apply IH. Qed.

Lemma fold_option x el : forall o l m,
  fold_left (add_option x) el (o, l, m) = (o + Z.of_nat (length el), l ++ opts o x el, ins m (opts o x el)).
Proof.
  induction el as [|v el IH]; intros o l m; cbn [fold_left opts length].
  - rewrite app_nil_r. f_equal. f_equal. lia.
  - unfold add_option at 2. rewrite IH. cbn [ins fold_left o_vehicle o_exit o_id]. rewrite <- app_assoc. cbn [app]. f_equal. f_equal. lia.
Qed.

Lemma fold_exits gs xs : forall o l m,
  fold_left (add_exit gs) xs (o, l, m)
  = (o + Z.of_nat (length xs * length (concat gs)), l ++ all_opts o xs (concat gs), ins m (all_opts o xs (concat gs))).
Proof.
  induction xs as [|x xs IH]; intros o l m; cbn [fold_left all_opts length].
  - rewrite app_nil_r. f_equal. f_equal. lia.
  - unfold add_exit at 2. rewrite fold_concat, fold_option, IH. rewrite <- app_assoc. unfold ins. rewrite fold_left_app.
    f_equal. f_equal. lia.
Qed.

(** The option that belongs to a vehicle and an exit. *)
Definition slot (el : list Z) (v x o : Z) : Prop :=
  exists j, nth_error el j = Some v /\ 1 <= x /\ o = first_option + (x - 1) * Z.of_nat (length el) + Z.of_nat j.

Lemma slot_fun el v x o o' : NoDup el -> slot el v x o -> slot el v x o' -> o = o'.
Proof.
  intros ND (j & J & _ & ->) (j' & J' & _ & ->).
  assert (j = j'); [|subst; reflexivity].
  assert (j < length el)%nat by (apply nth_error_Some; congruence).
  rewrite NoDup_nth_error in ND. apply ND; congruence.
Qed.

Lemma slot_inj el v x v' x' o : slot el v x o -> slot el v' x' o -> v = v' /\ x = x'.
Proof.
  intros (j & J & P & ->) (j' & J' & P' & E).
  assert (L : (j < length el)%nat) by (apply nth_error_Some; congruence).
  assert (L' : (j' < length el)%nat) by (apply nth_error_Some; congruence).
  assert (X : x = x' /\ Z.of_nat j = Z.of_nat j').
  { set (K := Z.of_nat (length el)) in *. assert (0 <= Z.of_nat j < K) by lia. assert (0 <= Z.of_nat j' < K) by lia.
    assert (x - 1 = x' - 1) by nia. split; [lia|nia]. }
  destruct X as (-> & X). apply Nat2Z.inj in X. subst j'. split; congruence.
Qed.

Lemma in_opts el : forall o x y, In y (opts o x el) <->
  exists j v, nth_error el j = Some v /\ y = {| o_id := o + Z.of_nat j; o_vehicle := v; o_exit := x |}.
Proof.
  induction el as [|v el IH]; intros o x y; cbn [opts In].
  - split; [intros []|]. intros ([|j] & v & H & _); discriminate.
  - rewrite IH. split.
    + intros [<-|(j & w & H & ->)].
      * exists 0%nat, v. split; [reflexivity|]. f_equal. lia.
      * exists (S j), w. split; [exact H|]. f_equal. lia.
    + intros ([|j] & w & H & ->).
      * left. injection H as ->. f_equal. lia.
      * right. exists j, w. split; [exact H|]. f_equal. lia.
Qed.

Definition exits (n : nat) : list Z := map Z.of_nat (seq 1 n).
Lemma in_exits n x : In x (exits n) <-> is_exit n x.
Proof.
  unfold exits, is_exit. rewrite in_map_iff. split.
  - intros (i & <- & H). apply in_seq in H. lia.
  - intros H. exists (Z.to_nat x). split; [lia|]. apply in_seq. lia.
Qed.
Lemma exits_nodup n : NoDup (exits n).
Proof. apply FinFun.Injective_map_NoDup; [intros a b; apply Nat2Z.inj|apply seq_NoDup]. Qed.
Lemma exits_length n : length (exits n) = n.
Proof. unfold exits. rewrite map_length, seq_length. reflexivity. Qed.

Lemma in_all el y : forall m a o, In y (all_opts o (map Z.of_nat (seq a m)) el) <->
  exists i j v, (i < m)%nat /\ nth_error el j = Some v
    /\ y = {| o_id := o + Z.of_nat i * Z.of_nat (length el) + Z.of_nat j; o_vehicle := v; o_exit := Z.of_nat (a + i) |}.
Proof.
  induction m as [|m IH]; intros a o; cbn [seq map all_opts].
  - split; [intros []|]. intros (i & _ & _ & H & _). lia.
  - rewrite in_app_iff, in_opts, IH. split.
    + intros [(j & v & H & ->)|(i & j & v & L & H & ->)].
      * exists 0%nat, j, v. split; [lia|]. split; [exact H|]. f_equal; [lia|f_equal; lia].
      * exists (S i), j, v. split; [lia|]. split; [exact H|]. f_equal; [lia|f_equal; lia].
    + intros ([|i] & j & v & L & H & ->).
      * left. exists j, v. split; [exact H|]. f_equal; [lia|f_equal; lia].
      * right. exists i, j, v. split; [lia|]. split; [exact H|]. f_equal; [lia|f_equal; lia].
Qed.

Lemma in_plan el n y : In y (all_opts first_option (exits n) el) <-> slot el (o_vehicle y) (o_exit y) (o_id y) /\ o_exit y <= Z.of_nat n.
Proof.
  unfold exits. rewrite in_all. unfold slot. split.
  - intros (i & j & v & L & H & ->). cbn [o_id o_vehicle o_exit]. split; [|lia]. exists j. split; [exact H|]. split; [lia|]. nia.
  - intros ((j & H & P & E) & L). destruct y as [o v x]. cbn [o_id o_vehicle o_exit] in *. subst o.
    exists (Z.to_nat (x - 1)), j, v. split; [lia|]. split; [exact H|]. f_equal; [nia|lia].
Qed.

Lemma opts_ids el : forall o x, map o_id (opts o x el) = map (fun j => o + Z.of_nat j) (seq 0 (length el)).
Proof.
  induction el as [|v el IH]; intros o x; [reflexivity|]. cbn [opts map length seq]. rewrite IH. f_equal; [cbn; lia|].
  rewrite <- seq_shift, map_map. apply map_ext. intros j. lia.
Qed.

Lemma all_ids el : forall xs o, map o_id (all_opts o xs el) = map (fun j => o + Z.of_nat j) (seq 0 (length xs * length el)).
Proof.
  induction xs as [|x xs IH]; intros o; [reflexivity|]. cbn [all_opts length]. rewrite map_app, opts_ids, IH.
  cbn [Nat.mul]. rewrite seq_app, map_app. f_equal. cbn [Nat.add].
  generalize (length xs * length el)%nat as q. intros q.
  assert (G : forall q a, map (fun j => o + Z.of_nat (length el) + Z.of_nat j) (seq a q) = map (fun j => o + Z.of_nat j) (seq (length el + a) q)).
  { clear. induction q as [|q IH]; intros a; [reflexivity|]. cbn [seq map]. rewrite IH. f_equal; [lia|]. f_equal. f_equal. lia. }
  rewrite G, Nat.add_0_r. reflexivity.
Qed.

Lemma all_nodup el xs o : NoDup (map o_id (all_opts o xs el)).
Proof. rewrite all_ids. apply FinFun.Injective_map_NoDup; [intros a b E; lia|apply seq_NoDup]. Qed.

(** *** The map of pairs *)

Lemma find_app m m' v x : find_pair (m ++ m') v x = match find_pair m v x with Some o => Some o | None => find_pair m' v x end.
Proof. induction m as [|[[a b] o] m IH]; [reflexivity|]. cbn [find_pair app]. destruct ((a =? v) && (b =? x)); [reflexivity|exact IH]. Qed.

Lemma find_insert m v x o v' x' : find_pair (insert_pair m v x o) v' x'
  = match find_pair m v' x' with Some y => Some y | None => if (v =? v') && (x =? x') then Some o else None end.
Proof.
  unfold insert_pair. destruct (find_pair m v x) as [y|] eqn:F.
  - destruct (find_pair m v' x') as [z|] eqn:F'; [reflexivity|].
    destruct (Z.eqb_spec v v') as [->|]; [|reflexivity]. destruct (Z.eqb_spec x x') as [->|]; [|reflexivity]. congruence.
  - rewrite find_app. reflexivity.
Qed.

Lemma ins_slot el : forall l m, (forall y, In y l -> slot el (o_vehicle y) (o_exit y) (o_id y)) ->
  (forall v x o, find_pair m v x = Some o -> slot el v x o) ->
  forall v x o, find_pair (ins m l) v x = Some o -> slot el v x o.
Proof.
  induction l as [|y l IH]; intros m HL HM; [exact HM|]. cbn [ins fold_left]. apply IH.
  - intros z Hz. apply HL. right. exact Hz.
  - intros v x o. rewrite find_insert. destruct (find_pair m v x) as [z|] eqn:F; [intros E; injection E as <-; apply HM; exact F|].
    destruct (Z.eqb_spec (o_vehicle y) v) as [<-|]; [|discriminate]. destruct (Z.eqb_spec (o_exit y) x) as [<-|]; [|discriminate].
    intros E. injection E as <-. apply HL. left. reflexivity.
Qed.

Lemma ins_keeps : forall l m v x o, find_pair m v x = Some o -> find_pair (ins m l) v x = Some o.
Proof. induction l as [|y l IH]; intros m v x o F; [exact F|]. cbn [ins fold_left]. apply IH. rewrite find_insert, F. reflexivity. Qed.

Lemma ins_found : forall l m y, In y l -> find_pair (ins m l) (o_vehicle y) (o_exit y) <> None.
Proof.
  induction l as [|z l IH]; intros m y Hy; [destruct Hy|]. destruct Hy as [<-|H]; change (ins m (z :: l)) with (ins (insert_pair m (o_vehicle z) (o_exit z) (o_id z)) l).
  - destruct (find_pair (insert_pair m (o_vehicle z) (o_exit z) (o_id z)) (o_vehicle z) (o_exit z)) as [o|] eqn:F.
    + rewrite (ins_keeps _ _ _ _ _ F). discriminate.
    + rewrite find_insert, !Z.eqb_refl in F. destruct (find_pair m _ _); discriminate.
  - apply IH. exact H.
Qed.

(** *** Permutations by value *)

Lemma at_positions_spec {T} (l : list T) : forall x y, at_positions l x y -> length x = length y /\ incl y l
  /\ (forall p t, nth_error y p = Some t -> exists i, nth_error x p = Some i /\ nth_error l i = Some t).
Proof.
  intros x y H. induction H as [|i t x y Hi H IH]; [split; [reflexivity|]; split; [intros ? []|intros [|p] t; discriminate]|].
  destruct IH as (E & I & N). split; [cbn; congruence|]. split.
  - intros z [<-|Hz]; [apply nth_error_In with i; exact Hi|apply I; exact Hz].
  - intros [|p] u Hu; [exists i; cbn in *; split; [reflexivity|congruence]|apply N; exact Hu].
Qed.

Lemma positions_exist {T} (l y : list T) : incl y l -> exists x, at_positions l x y.
Proof.
  induction y as [|t y IH]; intros I; [exists []; constructor|].
  destruct IH as (x & X); [intros z Hz; apply I; right; exact Hz|].
  destruct (In_nth_error l t) as (i & Hi); [apply I; left; reflexivity|]. exists (i :: x). constructor; assumption.
Qed.

Lemma positions_inj {T} (l : list T) x y y' : at_positions l x y -> at_positions l x y' -> y = y'.
Proof.
  intros H. revert y'. induction H as [|i t x y Hi H IH]; intros y' H'; inversion H'; subst; [reflexivity|].
  f_equal; [congruence|apply IH; assumption].
Qed.

Lemma positions_inj' {T} (l : list T) : NoDup l -> forall x x' y, at_positions l x y -> at_positions l x' y -> x = x'.
Proof.
  intros ND x x' y H. revert x'. induction H as [|i t x y Hi H IH]; intros x' H'; inversion H' as [|i' t' x'' y' Hi' H'']; subst; [reflexivity|].
  f_equal; [|apply IH; assumption]. rewrite NoDup_nth_error in ND. apply ND; [apply nth_error_Some; congruence|congruence].
Qed.

Lemma positions_nodup {T} (l : list T) : NoDup l -> forall x y, at_positions l x y -> (NoDup x <-> NoDup y).
Proof.
  intros ND x y H. destruct (at_positions_spec _ _ _ H) as (EL & _ & N). split; intros D; rewrite NoDup_nth_error in *.
  - intros p q L E. destruct (nth_error y p) as [t|] eqn:P; [|apply nth_error_Some in L; congruence].
    destruct (N _ _ P) as (i & I1 & I2). symmetry in E. destruct (N _ _ E) as (i' & J1 & J2).
    apply D; [congruence|]. rewrite I1, J1. f_equal. apply ND; [apply nth_error_Some; congruence|congruence].
  - intros p q L E. apply D; [congruence|].
    destruct (nth_error x p) as [i|] eqn:P; [|apply nth_error_Some in L; congruence].
    assert (NY : forall r j, nth_error x r = Some j -> nth_error y r = nth_error l j).
    { intros r j Hr. destruct (nth_error y r) as [t|] eqn:Y.
      - destruct (N _ _ Y) as (j' & A & B). congruence.
      - apply nth_error_None in Y. assert (r < length x)%nat by (apply nth_error_Some; congruence). lia. }
    rewrite (NY _ _ P), (NY _ _ (eq_sym E)). reflexivity.
Qed.

(** What [for_each_permutation] visits. *)
Lemma permutations_by_value (l : list Z) r sel ys : NoDup l -> all_permutations (length l) r sel -> Forall2 (at_positions l) sel ys ->
  NoDup ys /\ forall y, In y ys <-> length y = r /\ incl y l /\ NoDup y.
Proof.
  intros ND (NS & AS) F. 
  assert (F1 : forall y, In y ys -> exists x, In x sel /\ at_positions l x y).
  { clear - F. induction F as [|x y sel ys H F IH]; intros z; [intros []|]. intros [<-|Hz]; [exists x; split; [left; reflexivity|exact H]|].
    destruct (IH _ Hz) as (u & U1 & U2). exists u. split; [right; exact U1|exact U2]. }
  assert (F2 : forall x, In x sel -> exists y, In y ys /\ at_positions l x y).
  { clear - F. induction F as [|x y sel ys H F IH]; intros z; [intros []|]. intros [<-|Hz]; [exists y; split; [left; reflexivity|exact H]|].
    destruct (IH _ Hz) as (u & U1 & U2). exists u. split; [right; exact U1|exact U2]. }
  split.
  - clear - ND NS F. induction F as [|x y sel ys H F IH]; [constructor|]. inversion NS as [|? ? NI NS']; subst. constructor; [|apply IH; exact NS'].
    intros Hy. apply NI. clear IH NS NS' NI. induction F as [|x' y' sel ys H' F IH]; [destruct Hy|].
    destruct Hy as [<-|Hy]; [left; apply (positions_inj' l ND _ _ _ H' H)|right; apply IH; exact Hy].
  - intros y. split.
    + intros Hy. destruct (F1 _ Hy) as (x & Hx & P). apply AS in Hx. destruct Hx as (L & _ & D).
      destruct (at_positions_spec _ _ _ P) as (E & I & _). split; [congruence|]. split; [exact I|]. apply (positions_nodup l ND _ _ P). exact D.
    + intros (L & I & D). destruct (positions_exist l y I) as (x & P). destruct (at_positions_spec _ _ _ P) as (E & _ & _).
      assert (HX : In x sel).
      { apply AS. split; [congruence|]. split; [|apply (positions_nodup l ND _ _ P); exact D].
        intros i Hi. apply In_nth_error in Hi. destruct Hi as (p & Hp). clear - P Hp. revert p Hp. induction P as [|j t x y Hj P IH]; intros [|p] Hp; try discriminate.
        - cbn in Hp. injection Hp as ->. apply nth_error_Some. congruence.
        - apply (IH p). exact Hp. }
      destruct (F2 _ HX) as (y' & Hy' & P'). rewrite (positions_inj _ _ _ _ P P'). exact Hy'.
Qed.

(** *** The written composition *)

Definition formula (ls : list (list Z)) : expr := Op Alt (map (fun l => Op Seq (map Act l)) ls).

Lemma visits_functor m pair : forall ys s, (forall y, In y ys -> y <> []) ->
  visits (functor m pair) ys s = (false, s ++ concat (map (fun y => lit " .(" ++ term m (pair y) ++ lit ")") ys)).
Proof.
  induction ys as [|y ys IH]; intros s H; cbn [visits map concat]; [rewrite app_nil_r; reflexivity|].
  unfold functor at 1. destruct y as [|a y]; [exfalso; apply (H []); [left; reflexivity|reflexivity]|].
  rewrite IH by (intros z Hz; apply H; right; exact Hz). rewrite !app_assoc. reflexivity.
Qed.

Lemma term_writes m ps ids : Forall2 (fun a p => find_pair m (fst p) (snd p) = Some a) ids ps ->
  Forall (fun a => 0 <= a < 2 ^ 63) ids -> writes_list (map Act ids) (term m ps).
Proof.
  unfold term. intros F B. induction F as [|a p ids ps H F IH]; [constructor|]. inversion B; subst. cbn [map concat]. rewrite H.
  rewrite <- app_assoc. change (lit " ") with [" "%char]. rewrite <- !app_assoc. cbn [lit app String.list_ascii_of_string].
  change ("p"%char :: to_string_Z a ++ " "%char :: concat (map (fun p0 : Z * Z => match find_pair m (fst p0) (snd p0) with
                        | Some o => "p"%char :: to_string_Z o ++ [" "%char]
                        | None => []
                        end) ps))
    with (("p"%char :: to_string_Z a) ++ " "%char :: concat (map (fun p0 : Z * Z => match find_pair m (fst p0) (snd p0) with
                        | Some o => "p"%char :: to_string_Z o ++ [" "%char]
                        | None => []
                        end) ps)).
  apply wl_cons; [apply writes_number; assumption|]. apply IH. assumption.
Qed.

Lemma formula_writes m (pair : list Z -> list (Z * Z)) (ys : list (list Z)) (idss : list (list Z)) : Forall2 (fun ids y => Forall2 (fun a p => find_pair m (fst p) (snd p) = Some a) ids (pair y)) idss ys ->
  Forall (Forall (fun a => 0 <= a < 2 ^ 63)) idss ->
  writes (formula idss) ((lit "+(" ++ concat (map (fun y => lit " .(" ++ term m (pair y) ++ lit ")") ys)) ++ lit ")").
Proof.
  intros F B. unfold formula.
  change (writes (Op Alt (map (fun l => Op Seq (map Act l)) idss))
    (op_char Alt :: "("%char :: concat (map (fun y => lit " .(" ++ term m (pair y) ++ lit ")") ys) ++ [")"%char])).
  apply w_op. induction F as [|ids y idss ys H F IH]; [constructor|]. inversion B; subst. cbn [map concat].
  change ((lit " .(" ++ term m (pair y) ++ lit ")") ++ concat (map (fun y0 => lit " .(" ++ term m (pair y0) ++ lit ")") ys))
    with (" "%char :: (op_char Seq :: "("%char :: term m (pair y) ++ [")"%char]) ++ concat (map (fun y0 => lit " .(" ++ term m (pair y0) ++ lit ")") ys)).
  apply wl_space. apply wl_cons_op; [exact I| |apply IH; assumption]. apply w_op. apply (term_writes m); assumption.
Qed.

Lemma seq_traces l : forall t, traces (Op Seq (map Act l)) t <-> t = l.
Proof.
  induction l as [|a l IH]; intros t; cbn [map]; [cbn; tauto|]. split.
  - intros (t1 & t2 & -> & -> & G). apply IH in G. subst. reflexivity.
  - intros ->. exists [a], l. split; [reflexivity|]. split; [reflexivity|]. apply IH. reflexivity.
Qed.

Lemma formula_traces ls t : traces (formula ls) t <-> In t ls.
Proof.
  unfold formula. induction ls as [|l ls IH]; [cbn; tauto|]. cbn [map In].
  change (traces (Op Seq (map Act l)) t \/ traces (Op Alt (map (fun l0 => Op Seq (map Act l0)) ls)) t <-> l = t \/ In t ls).
  rewrite IH, seq_traces. intuition congruence.
Qed.

Lemma formula_actions ls a : In a (actions (formula ls)) <-> exists l, In l ls /\ In a l.
Proof.
  unfold formula. cbn [actions]. rewrite in_flat_map. split.
  - intros (e & He & Ha). apply in_map_iff in He. destruct He as (l & <- & Hl). exists l. split; [exact Hl|].
    cbn [actions] in Ha. apply in_flat_map in Ha. destruct Ha as (c & Hc & Ha). apply in_map_iff in Hc. destruct Hc as (b & <- & Hb).
    cbn in Ha. destruct Ha as [<-|[]]. exact Hb.
  - intros (l & Hl & Ha). exists (Op Seq (map Act l)). split; [apply in_map_iff; exists l; split; [reflexivity|exact Hl]|].
    cbn [actions]. apply in_flat_map. exists (Act a). split; [apply in_map; exact Ha|left; reflexivity].
Qed.

(** *** The search through the composition *)

Lemma existsb_in a h : existsb (Z.eqb a) h = true <-> In a h.
Proof.
  rewrite existsb_exists. split; [intros (b & Hb & E); apply Z.eqb_eq in E; subst; exact Hb|].
  intros H. exists a. split; [exact H|apply Z.eqb_refl].
Qed.

(** A chain of which a beginning has been executed. *)
Lemma chain_scan h : forall p r b, (forall a, In a p -> In a h) -> (forall a, hd_error r = Some a -> ~ In a h) ->
  seq_scan b (map (nextActions h) (map Act (p ++ r)))
  = match r with [] => ([], true) | a :: _ => ([a], match p with [] => if b then false else true | _ => true end) end.
Proof.
  induction p as [|c p IH]; intros r b HP HR; cbn [app map].
  - destruct r as [|a r]; [reflexivity|]. cbn [map nextActions seq_scan].
    destruct (existsb (Z.eqb a) h) eqn:E; [exfalso; apply (HR a); [reflexivity|apply existsb_in; exact E]|reflexivity].
  - cbn [nextActions]. assert (E : existsb (Z.eqb c) h = true) by (apply existsb_in, HP; left; reflexivity). rewrite E. cbn [seq_scan].
    rewrite (IH r false) by (try exact HR; intros a Ha; apply HP; right; exact Ha). destruct r; [reflexivity|]. destruct p; reflexivity.
Qed.

Lemma chain_next h p r : (forall a, In a p -> In a h) -> (forall a, hd_error r = Some a -> ~ In a h) ->
  nextActions h (Op Seq (map Act (p ++ r))) = match r with [] => ([], true) | a :: _ => ([a], match p with [] => false | _ => true end) end.
Proof. intros HP HR. cbn [nextActions]. rewrite chain_scan by assumption. reflexivity. Qed.

Lemma scan_skip h : forall l1 rest acc, (forall l, In l l1 -> exists a r, l = a :: r /\ ~ In a h) ->
  alt_scan (map (nextActions h) (map (fun l => Op Seq (map Act l)) l1) ++ rest) acc = alt_scan rest (acc ++ map (hd 0) l1).
Proof.
  induction l1 as [|l l1 IH]; intros rest acc H; cbn [map app]; [rewrite app_nil_r; reflexivity|].
  destruct (H l) as (a & r & -> & NI); [left; reflexivity|].
  assert (C : nextActions h (Op Seq (map Act (a :: r))) = ([a], false)).
  { apply (chain_next h [] (a :: r)); [intros b []|intros b Hb; cbn in Hb; injection Hb as <-; exact NI]. }
  rewrite C. clear C.
  cbn [alt_scan]. rewrite IH by (intros l Hl; apply H; right; exact Hl). rewrite <- app_assoc. reflexivity.
Qed.

Lemma search_runs ls : (forall l, In l ls -> l <> [] /\ NoDup l) ->
  (forall l l' a r, In l ls -> In l' ls -> l = a :: r -> ~ In a (tl l')) ->
  forall h, offered_run (searchNext (formula ls)) h ->
  h = [] \/ exists l1 p r l2, ls = l1 ++ (p ++ r) :: l2 /\ p = h /\ p <> [] /\ forall l a r', In l l1 -> l = a :: r' -> ~ In a h.
Proof.
  intros HN HD h R. induction R as [|h a R IH Ha]; [left; reflexivity|]. right.
  assert (SKIP : forall l1 l2 h, ls = l1 ++ l2 -> (forall l a r', In l l1 -> l = a :: r' -> ~ In a h) ->
            forall l, In l l1 -> exists a r, l = a :: r /\ ~ In a h).
  { intros l1 l2 h' E H l Hl. destruct (HN l) as (NE & _); [rewrite E; apply in_or_app; left; exact Hl|].
    destruct l as [|b r']; [congruence|]. exists b, r'. split; [reflexivity|]. apply (H (b :: r') b r' Hl eq_refl). }
  destruct IH as [->|(l1 & p & r & l2 & E & -> & NE & F)].
  - unfold searchNext, formula in Ha. cbn [nextActions] in Ha. rewrite <- (app_nil_r (map (nextActions []) _)), scan_skip in Ha.
    2:{ apply (SKIP ls []); [rewrite app_nil_r; reflexivity|intros l b r' _ _ []]. }
    cbn [alt_scan fst app] in Ha. clear SKIP R.
    assert (X : exists l1 r l2, ls = l1 ++ (a :: r) :: l2 /\ forall l b r', In l l1 -> l = b :: r' -> b <> a).
    { assert (HN' : forall l, In l ls -> l <> []) by (intros l Hl; apply (HN l Hl)). clear HN HD.
      induction ls as [|l ls IH]; [destruct Ha|]. destruct l as [|b r]; [exfalso; apply (HN' []); [left; reflexivity|reflexivity]|].
      destruct (Z.eq_dec b a) as [->|NE]; [exists [], r, ls; split; [reflexivity|intros ? ? ? []]|].
      destruct Ha as [Ha|Ha]; [cbn in Ha; congruence|].
      destruct IH as (l1 & r2 & l2 & -> & F); [exact Ha|intros l Hl; apply HN'; right; exact Hl|].
      exists ((b :: r) :: l1), r2, l2. split; [reflexivity|]. intros l c r' [<-|Hl] E; [congruence|apply (F _ _ _ Hl E)]. }
    destruct X as (l1 & r & l2 & E & F). exists l1, [a], r, l2. split; [exact E|]. split; [reflexivity|]. split; [discriminate|].
    intros l b r' Hl El [<-|[]]. apply (F _ _ _ Hl El). reflexivity.
  - assert (IL : In (h ++ r) ls) by (rewrite E; apply in_or_app; right; left; reflexivity).
    destruct (HN _ IL) as (_ & ND).
    assert (HR : forall b, hd_error r = Some b -> ~ In b h).
    { intros b Hb Hin. destruct r as [|c r]; [discriminate|]. injection Hb as ->. apply NoDup_remove_2 in ND. apply ND, in_or_app. left. exact Hin. }
    unfold searchNext, formula in Ha. cbn [nextActions] in Ha. rewrite E, !map_app, scan_skip in Ha by (apply (SKIP l1 ((h ++ r) :: l2)); [exact E|exact F]).
    cbn [map] in Ha. rewrite chain_next in Ha by (try exact HR; intros b Hb; exact Hb).
    destruct r as [|c r]; [cbn in Ha; destruct Ha|]. destruct h as [|h0 h]; [congruence|]. cbn [alt_scan fst] in Ha. destruct Ha as [<-|[]].
    exists l1, ((h0 :: h) ++ [c]), r, l2. split; [rewrite <- app_assoc; exact E|]. split; [reflexivity|]. split; [discriminate|].
    intros l b r' Hl El Hb. apply in_app_or in Hb. destruct Hb as [Hb|[<-|[]]]; [apply (F _ _ _ Hl El Hb)|].
    apply (HD l ((h0 :: h) ++ c :: r) c r'); [rewrite E; apply in_or_app; left; exact Hl|exact IL|exact El|].
    cbn [tl app]. apply in_or_app. right. left. reflexivity.
Qed.

Lemma search_ends ls : ls <> [] -> (forall l, In l ls -> l <> [] /\ NoDup l) ->
  (forall l l' a r, In l ls -> In l' ls -> l = a :: r -> ~ In a (tl l')) ->
  forall h, offered_run (searchNext (formula ls)) h -> searchNext (formula ls) h = [] -> In h ls.
Proof.
  intros HE HN HD h R N. destruct (search_runs ls HN HD h R) as [->|(l1 & p & r & l2 & E & -> & NE & F)].
  - exfalso. unfold searchNext, formula in N. cbn [nextActions] in N. rewrite <- (app_nil_r (map (nextActions []) _)), scan_skip in N.
    + cbn [alt_scan fst app] in N. apply map_eq_nil in N. congruence.
    + intros l Hl. destruct (HN l Hl) as (X & _). destruct l as [|b r']; [congruence|]. exists b, r'. split; [reflexivity|intros []].
  - assert (IL : In (h ++ r) ls) by (rewrite E; apply in_or_app; right; left; reflexivity).
    destruct r as [|c r]; [rewrite app_nil_r in IL; exact IL|]. exfalso.
    destruct (HN _ IL) as (_ & ND). unfold searchNext, formula in N. cbn [nextActions] in N. rewrite E, !map_app, scan_skip in N.
    + cbn [map] in N. rewrite chain_next in N.
      * destruct h; [congruence|]. discriminate.
      * intros b Hb. exact Hb.
      * intros b Hb Hin. injection Hb as ->. apply NoDup_remove_2 in ND. apply ND, in_or_app. left. exact Hin.
    + intros l Hl. destruct (HN l) as (X & _); [rewrite E; apply in_or_app; left; exact Hl|].
      destruct l as [|b r']; [congruence|]. exists b, r'. split; [reflexivity|]. apply (F _ b r' Hl eq_refl).
Qed.

(** *** The postings *)

Lemma combine_fst {A B} : forall (a : list A) (b : list B), length a = length b -> map fst (combine a b) = a.
Proof. induction a as [|x a IH]; intros [|y b] H; try discriminate; [reflexivity|]. cbn in *. f_equal. apply IH. lia. Qed.
Lemma combine_snd {A B} : forall (a : list A) (b : list B), length a = length b -> map snd (combine a b) = b.
Proof. induction a as [|x a IH]; intros [|y b] H; try discriminate; [reflexivity|]. cbn in *. f_equal. apply IH. lia. Qed.
Lemma combine_map {A B} : forall ps : list (A * B), combine (map fst ps) (map snd ps) = ps.
Proof. induction ps as [|[x y] ps IH]; [reflexivity|]. cbn. f_equal. exact IH. Qed.
Lemma firstn_nodup {A} (l : list A) n : NoDup l -> NoDup (firstn n l).
Proof.
  revert n. induction l as [|a l IH]; intros [|n] H; try constructor.
  - inversion H as [|? ? NI D]; subst. intros X. apply NI. rewrite <- (firstn_skipn n l). apply in_or_app. left. exact X.
  - inversion H; subst. apply IH. assumption.
Qed.

Lemma first_skip_length {A} (l : list A) r : (r <= length l)%nat -> length (firstn r l) = r.
Proof. intros H. rewrite firstn_length. lia. Qed.

Lemma composition_text m n es : NoDup es -> es <> [] -> (1 <= n)%nat ->
  exists (ys : list (list Z)) (pair : list Z -> list (Z * Z)),
    composition m (exits n) es = (lit "+(" ++ concat (map (fun y => lit " .(" ++ term m (pair y) ++ lit ")") ys)) ++ lit ")"
    /\ ys <> [] /\ (forall ps, posting es n ps <-> exists y, In y ys /\ ps = pair y).
Proof.
  intros ND NE N. unfold composition. rewrite exits_length. destruct (Nat.ltb_spec n (length es)) as [L|L].
  - destruct (C35_permutations Z str (functor m (fun x => combine x (exits n))) (firstn n es) (skipn n es) (lit "+(")) as (sel & ys & stop & s' & a' & b' & P & F & V & E & _ & _).
    rewrite firstn_skipn, first_skip_length in P by lia. rewrite firstn_skipn in F.
    destruct (permutations_by_value es n sel ys ND P F) as (_ & Y).
    assert (YN : forall y, In y ys -> y <> []). { intros y Hy ->. apply Y in Hy. destruct Hy as (Hy & _). cbn in Hy. lia. }
    rewrite visits_functor in V by exact YN. injection V as <- <-. rewrite E. cbn [snd]. exists ys, (fun x => combine x (exits n)).
    split; [reflexivity|]. split.
    + intros ->. apply (in_nil (a := firstn n es)). apply Y. split; [apply first_skip_length; lia|]. split; [|apply firstn_nodup; exact ND].
      intros z Hz. rewrite <- (firstn_skipn n es). apply in_or_app. left. exact Hz.
    + intros ps. unfold posting. split.
      * intros (D1 & D2 & M & X & _). specialize (X L). exists (map fst ps). split.
        -- apply Y. assert (LP : length ps = n) by (rewrite <- (map_length snd), X, map_length, seq_length; reflexivity).
           split; [rewrite map_length; exact LP|]. split; [|exact D1]. intros v Hv. apply in_map_iff in Hv. destruct Hv as ([v' x] & <- & Hv). apply (M _ _ Hv).
        -- change (exits n) with (map Z.of_nat (seq 1 n)). rewrite <- X. symmetry. apply combine_map.
      * intros (y & Hy & ->). apply Y in Hy. destruct Hy as (LY & IY & DY). assert (LE : length y = length (exits n)) by (rewrite exits_length; exact LY).
        rewrite combine_fst, combine_snd by exact LE. split; [exact DY|]. split; [apply exits_nodup|]. split; [|split; [reflexivity|intros; lia]].
        intros v x Hv. split; [apply IY; apply in_combine_l in Hv; exact Hv|]. apply in_exits. apply in_combine_r in Hv. exact Hv.
  - destruct (C35_permutations Z str (functor m (fun x => combine es x)) (firstn (length es) (exits n)) (skipn (length es) (exits n)) (lit "+(")) as (sel & ys & stop & s' & a' & b' & P & F & V & E & _ & _).
    rewrite firstn_skipn, first_skip_length in P by (rewrite exits_length; exact L). rewrite firstn_skipn in F.
    destruct (permutations_by_value (exits n) (length es) sel ys (exits_nodup n) P F) as (_ & Y).
    assert (YN : forall y, In y ys -> y <> []). { intros y Hy ->. apply Y in Hy. destruct Hy as (Hy & _). destruct es; [congruence|cbn in Hy; lia]. }
    rewrite visits_functor in V by exact YN. injection V as <- <-. rewrite E. cbn [snd]. exists ys, (fun x => combine es x).
    split; [reflexivity|]. split.
    + intros ->. apply (in_nil (a := firstn (length es) (exits n))). apply Y. split; [apply first_skip_length; rewrite exits_length; exact L|]. split; [|apply firstn_nodup; apply exits_nodup].
      intros z Hz. rewrite <- (firstn_skipn (length es) (exits n)). apply in_or_app. left. exact Hz.
    + intros ps. unfold posting. split.
      * intros (D1 & D2 & M & _ & X). specialize (X L). exists (map snd ps). split.
        -- apply Y. assert (LP : length ps = length es) by (rewrite <- (map_length fst), X; reflexivity).
           split; [rewrite map_length; exact LP|]. split; [|exact D2]. intros x Hx. apply in_map_iff in Hx. destruct Hx as ([v x'] & <- & Hx). apply in_exits. apply (M _ _ Hx).
        -- rewrite <- X. symmetry. apply combine_map.
      * intros (y & Hy & ->). apply Y in Hy. destruct Hy as (LY & IY & DY). symmetry in LY.
        rewrite combine_fst, combine_snd by exact LY. split; [exact ND|]. split; [exact DY|]. split; [|split; [intros; lia|reflexivity]].
        intros v x Hv. split; [apply in_combine_l in Hv; exact Hv|]. apply in_exits, IY. apply in_combine_r in Hv. exact Hv.
Qed.

(** *** The service *)

Section Service.
  Context (task : Z).

  Lemma dead_crash evs : dead (fst (run (step task) init evs)) = true ->
    exists e o, In (e, o) (history task evs) /\ In Crash o.
  Proof.
    unfold history. induction evs as [|e evs IH] using rev_ind; [discriminate|]. rewrite run_snoc.
    destruct (run (step task) init evs) as (s & t) eqn:R. cbn [fst snd] in *. unfold step at 1 2. destruct (dead s) eqn:D.
    - cbn [fst snd]. intros _. destruct (IH eq_refl) as (e' & o & H & C). exists e', o. split; [apply in_or_app; left; exact H|exact C].
    - destruct e as [id es mine|id|id n]; cbn [fst snd dead]; try discriminate; try (intros X; rewrite D in X; discriminate).
      destruct (zget (requests s) (latest s)) as [es|]; [|cbn [fst]; congruence]. destruct (id =? task); [|cbn [fst]; congruence].
      unfold egress. destruct (plan s) as [l|].
      + destruct (fold_left _ _ _) as ((o & l') & m'). cbn [fst dead]. congruence.
      + intros _. exists (Egress id n), [Crash]. split; [apply in_or_app; right; left; reflexivity|left; reflexivity].
  Qed.

  (** What is remembered of pairs, if the eligible vehicles are always the same. *)
  Definition pinv (el : list Z) (s : st) : Prop :=
    (forall v x o, find_pair (pairs s) v x = Some o -> slot el v x o) /\ (plan s <> None -> concat (groups s) = el).

  Lemma pinv_step el s e : pinv el s -> (forall id es gs, e = Ask id es (Some gs) -> concat gs = el) -> pinv el (fst (step task s e)).
  Proof.
    intros (P & G) H. unfold step. destruct (dead s); [split; assumption|]. destruct e as [id es mine|id|id n]; cbn [fst].
    - split; cbn [pairs plan groups]; [exact P|]. destruct mine as [gs|]; [intros _; apply (H id es gs); reflexivity|exact G].
    - split; [exact P|exact G].
    - destruct (zget (requests s) (latest s)) as [es|]; [|split; assumption]. destruct (id =? task); [|split; assumption].
      unfold egress. destruct (plan s) as [l|] eqn:PL; [|split; cbn [fst pairs plan]; [exact P|congruence]].
      rewrite fold_exits. cbn [fst]. specialize (G ltac:(discriminate)). split; cbn [pairs plan groups]; [|intros _; exact G].
      apply ins_slot; [|exact P]. intros y Hy. rewrite G in Hy. apply in_plan in Hy. apply Hy.
  Qed.

  Lemma pinv_at el evs : (forall id es gs, In (Ask id es (Some gs)) evs -> concat gs = el) -> pinv el (fst (run (step task) init evs)).
  Proof.
    induction evs as [|e evs IH] using rev_ind; intros H.
    - split; [intros v x o; discriminate|intros X; exfalso; apply X; reflexivity].
    - rewrite run_snoc. destruct (run (step task) init evs) as (s & t) eqn:R. cbn [fst] in *.
      apply pinv_step; [apply IH; intros id es gs Hin; apply (H id es gs); apply in_or_app; left; exact Hin|].
      intros id es gs ->. apply (H id es gs). apply in_or_app. right. left. reflexivity.
  Qed.

  Lemma since_state before id es gs evs : dead (fst (run (step task) init (map fst before))) = false -> forall o1 since,
    snd (run (step task) init evs) = before ++ (Ask id es (Some gs), o1) :: since ->
    (forall e o', In (e, o') since -> o' = [] /\ e <> Done id /\ forall id' es' m, e <> Ask id' es' m) ->
    let s := fst (run (step task) init evs) in
    dead s = false /\ latest s = id /\ zget (requests s) id = Some es /\ groups s = gs /\ plan s = Some []
    /\ pairs s = pairs (fst (run (step task) init (map fst before))).
  Proof.
    intros D0. induction evs as [|e evs IH] using rev_ind; intros o1 since E C.
    { cbn in E. destruct before; discriminate. }
    rewrite run_snoc in *. cbn [fst snd] in *. destruct since as [|(e' & o') since _] using rev_ind.
    - apply app_inj_tail in E. destruct E as (E & X). injection X as -> _.
      assert (EV : evs = map fst before) by (rewrite <- E; symmetry; apply run_events). rewrite EV in *. clear IH EV E.
      set (s := fst (run (step task) init (map fst before))) in *. unfold step. rewrite D0. cbn [fst dead latest requests groups plan pairs]. rewrite zget_set_same. auto 8.
    - rewrite app_comm_cons, app_assoc in E. apply app_inj_tail in E. destruct E as (E & X). injection X as <- X.
      destruct (IH o1 since E) as (A1 & A2 & A3 & A4 & A5 & A6); [intros e' o2 H; apply (C e' o2); apply in_or_app; left; exact H|].
      destruct (C e o') as (-> & ND & NA); [apply in_or_app; right; left; reflexivity|].
      set (s := fst (run (step task) init evs)) in *. unfold step in X |- *. rewrite A1 in *. destruct e as [id' es' m|id'|id' n'].
      + exfalso. apply (NA id' es' m). reflexivity.
      + cbn [fst dead latest requests groups plan pairs]. rewrite zget_del_other by congruence. auto 8.
      + rewrite A2, A3 in *. destruct (id' =? task); [|cbn [fst]; auto 8]. exfalso. unfold egress in X. rewrite A5 in X.
        destruct (fold_left _ _ _) as ((q & l') & m'). discriminate.
  Qed.

  (** The answer when exits are found. *)
  Lemma found_answer evs before es gs n o : found task (history task evs) before es gs n o ->
    exists m, o = [Options (all_opts first_option (exits n) (concat gs)) (composition (ins m (all_opts first_option (exits n) (concat gs))) (exits n) es)]
      /\ (same_vehicles before (concat gs) -> forall v x y, find_pair m v x = Some y -> slot (concat gs) v x y).
  Proof.
    intros (id & o1 & since & later & E & S & C). unfold history in E.
    assert (E0 := E). apply run_split in E0. destruct E0 as (s0 & R0 & _ & _).
    assert (E1 : snd (run (step task) init evs) = (before ++ (Ask id es (Some gs), o1) :: since) ++ (Egress task n, o) :: later)
      by (rewrite <- app_assoc; exact E).
    apply run_split in E1. destruct E1 as (s & R1 & _ & O). cbn [fst snd] in O.
    assert (D0 : dead (fst (run (step task) init (map fst before))) = false).
    { destruct (dead (fst (run (step task) init (map fst before)))) eqn:D; [|reflexivity]. exfalso.
      destruct (dead_crash (map fst before)) as (e & o' & H & HC); [exact D|].
      unfold history in H. rewrite R0 in H. apply (C _ _ H HC). }
    destruct (since_state before id es gs _ D0 o1 since (f_equal snd R1) S) as (A1 & A2 & A3 & A4 & A5 & A6).
    rewrite R1 in A1, A2, A3, A4, A5, A6. cbn [fst] in A1, A2, A3, A4, A5, A6.
    exists (pairs s). split.
    - rewrite O. unfold step. rewrite A1, A2, A3, Z.eqb_refl. unfold egress. rewrite A5, A4. fold (exits n). rewrite fold_exits. reflexivity.
    - intros SV. rewrite A6. apply (pinv_at (concat gs) (map fst before)).
      intros id' es' gs' H. apply in_map_iff in H. destruct H as ((e & o') & H1 & H2). cbn in H1. subst e. apply (SV _ _ _ _ H2).
  Qed.
End Service.

(** *** Theorems *)

Lemma plan_complete el n : NoDup el -> complete (all_opts first_option (exits n) el) el n.
Proof.
  intros ND. unfold complete. split; [apply all_nodup|]. split.
  - intros o H. apply in_plan in H. destruct H as ((j & J & P & _) & L). split; [apply nth_error_In in J; exact J|]. split; assumption.
  - intros v x Hv (X1 & X2). apply In_nth_error in Hv. destruct Hv as (j & J).
    assert (SL : slot el v x (first_option + (x - 1) * Z.of_nat (length el) + Z.of_nat j)) by (exists j; auto).
    exists {| o_id := first_option + (x - 1) * Z.of_nat (length el) + Z.of_nat j; o_vehicle := v; o_exit := x |}.
    split; [apply in_plan; split; [exact SL|exact X2]|]. split; [reflexivity|]. split; [reflexivity|].
    intros [a v' x'] H <- <-. apply in_plan in H. cbn [o_id o_vehicle o_exit] in *. destruct H as (H & _).
    f_equal. apply (slot_fun _ _ _ _ _ ND H SL).
Qed.

(** Every eligible vehicle gets one option for every exit. *)
Theorem C58_options : forall task evs before es gs n o,
  found task (history task evs) before es gs n o -> NoDup (concat gs) ->
  exists l c, o = [Options l c] /\ complete l (concat gs) n.
Proof.
  intros task evs before es gs n o F ND. destruct (found_answer _ _ _ _ _ _ _ F) as (m & -> & _).
  eexists _, _. split; [reflexivity|]. apply plan_complete. exact ND.
Qed.
Print Assumptions C58_options.

Definition ident (m : list (Z * Z * Z)) (p : Z * Z) : Z := match find_pair m (fst p) (snd p) with Some o => o | None => 0 end.

Lemma answer_formula task evs before es gs n o :
  found task (history task evs) before es gs n o -> same_vehicles before (concat gs) -> NoDup (concat gs) ->
  NoDup es -> es <> [] -> incl es (concat gs) -> (1 <= n)%nat ->
  first_option + Z.of_nat n * Z.of_nat (length (concat gs)) <= 2 ^ 63 ->
  exists l c ls, o = [Options l c] /\ complete l (concat gs) n /\ writes (formula ls) c /\ ls <> []
    /\ (forall t, In t ls <-> exists ps, posting es n ps /\ done_by l t ps).
Proof.
  intros F SV ND NDE NE IN N B. destruct (found_answer _ _ _ _ _ _ _ F) as (m & -> & M). specialize (M SV).
  set (el := concat gs) in *. set (l := all_opts first_option (exits n) el). set (m' := ins m l).
  destruct (composition_text m' n es NDE NE N) as (ys & pair & T & YN & YP).
  assert (MS : forall v x y, find_pair m' v x = Some y -> slot el v x y).
  { apply ins_slot; [|exact M]. intros y Hy. apply in_plan in Hy. apply Hy. }
  assert (PL := plan_complete el n ND). destruct PL as (PL1 & PL2 & PL3).
  assert (FI : forall v x, In v es -> is_exit n x -> exists a, find_pair m' v x = Some a /\ In {| o_id := a; o_vehicle := v; o_exit := x |} l /\ 0 <= a < 2 ^ 63).
  { intros v x Hv Hx. destruct (PL3 v x (IN _ Hv) Hx) as ([a v' x'] & Hy & <- & <- & _). cbn [o_vehicle o_exit] in *.
    assert (NF := ins_found l m _ Hy). cbn [o_vehicle o_exit] in NF. fold m' in NF.
    destruct (find_pair m' v' x') as [b|] eqn:FB; [|congruence]. exists b. split; [reflexivity|].
    assert (SB := MS _ _ _ FB). assert (SA := proj1 (proj1 (in_plan el n _) Hy)). cbn [o_id o_vehicle o_exit] in SA.
    rewrite (slot_fun _ _ _ _ _ ND SB SA). split; [exact Hy|]. destruct SA as (j & J & X1 & ->).
    assert (j < length el)%nat by (apply nth_error_Some; congruence). destruct Hx as (_ & X2). unfold first_option in *. nia. }
  assert (PF : forall ps, posting es n ps -> Forall2 (fun a p => find_pair m' (fst p) (snd p) = Some a) (map (ident m') ps) ps
            /\ Forall (fun a => 0 <= a < 2 ^ 63) (map (ident m') ps) /\ done_by l (map (ident m') ps) ps).
  { intros ps (_ & _ & Q & _). unfold done_by. induction ps as [|(v & x) ps IH]; [cbn; split; [constructor|]; split; constructor|].
    destruct IH as (I1 & I2 & I3); [intros v' x' H; apply Q; right; exact H|].
    destruct (Q v x) as (Q1 & Q2); [left; reflexivity|]. destruct (FI v x Q1 Q2) as (a & FA & IA & BA). cbn [map].
    assert (EA : ident m' (v, x) = a) by (unfold ident; cbn [fst snd]; rewrite FA; reflexivity). rewrite EA.
    split; [constructor; [exact FA|exact I1]|]. split; [constructor; [exact BA|exact I2]|].
    constructor; [|exact I3]. exists {| o_id := a; o_vehicle := v; o_exit := x |}. auto. }
  exists l, (composition m' (exits n) es), (map (fun y => map (ident m') (pair y)) ys).
  split; [reflexivity|]. split; [exact (conj PL1 (conj PL2 PL3))|]. split; [|split].
  - rewrite T. apply formula_writes.
    + assert (G : forall y, In y ys -> posting es n (pair y)) by (intros y Hy; apply YP; exists y; auto).
      clear - G PF. induction ys as [|y ys IH]; constructor; [apply PF, G; left; reflexivity|apply IH; intros z Hz; apply G; right; exact Hz].
    + apply Forall_forall. intros ids H. apply in_map_iff in H. destruct H as (y & <- & Hy). apply PF. apply YP. exists y. auto.
  - intros E. apply map_eq_nil in E. congruence.
  - intros t. rewrite in_map_iff. split.
    + intros (y & <- & Hy). exists (pair y). assert (PY : posting es n (pair y)) by (apply YP; exists y; auto). split; [exact PY|apply PF; exact PY].
    + intros (ps & PP & D). destruct (proj1 (YP ps) PP) as (y & Hy & ->). exists y. split; [|exact Hy].
      destruct PP as (_ & _ & Q & _). clear - D Q FI PL1 ND. unfold done_by in D. induction D as [|a (v & x) t ps H D IH]; [reflexivity|]. cbn [map]. f_equal.
      * destruct H as ([b v' x'] & H1 & H2 & H3 & H4). cbn [o_id o_vehicle o_exit fst snd] in *. subst b v' x'.
        destruct (Q v x) as (Q1 & Q2); [left; reflexivity|]. destruct (FI v x Q1 Q2) as (c & FC & IC & _).
        unfold ident. cbn [fst snd]. rewrite FC. apply in_plan in H1. apply in_plan in IC. cbn [o_id o_vehicle o_exit] in *.
        apply (slot_fun el v x _ _ ND); [apply IC|apply H1].
      * apply IH. intros v' x' H'. apply Q. right. exact H'.
Qed.

(** The composition allows exactly the postings, each in order, and mentions only options that were published. *)
Theorem C58_composition : forall task evs before es gs n o,
  found task (history task evs) before es gs n o -> same_vehicles before (concat gs) -> NoDup (concat gs) ->
  NoDup es -> es <> [] -> incl es (concat gs) -> (1 <= n)%nat ->
  10 + Z.of_nat n * Z.of_nat (length (concat gs)) <= 2 ^ 63 ->
  exists l c e, o = [Options l c] /\ complete l (concat gs) n /\ writes e c
    /\ incl (actions e) (map o_id l)
    /\ (forall t, traces e t <-> exists ps, posting es n ps /\ done_by l t ps).
Proof.
  intros task evs before es gs n o F SV ND NDE NE IN N B.
  destruct (answer_formula task evs before es gs n o F SV ND NDE NE IN N B) as (l & c & ls & -> & C & W & _ & T).
  exists l, c, (formula ls). split; [reflexivity|]. split; [exact C|]. split; [exact W|]. split.
  - intros a Ha. apply formula_actions in Ha. destruct Ha as (t & Ht & Ha). apply T in Ht. destruct Ht as (ps & _ & D). unfold done_by in D.
    induction D as [|b p t ps (x & X1 & X2 & _) D IH]; [destruct Ha|]. destruct Ha as [<-|Ha]; [rewrite <- X2; apply in_map; exact X1|apply IH; exact Ha].
  - intros t. rewrite formula_traces. apply T.
Qed.
Print Assumptions C58_composition.

(** The options of a posting. *)
Lemma done_functional l el n t t' ps : complete l el n -> done_by l t ps -> done_by l t' ps -> t = t'.
Proof.
  intros (_ & C1 & C2) D. revert t'. unfold done_by in *. induction D as [|a p t ps (x & X1 & X2 & X3 & X4) D IH]; intros t' D'; inversion D' as [|b q t'' ps' (y & Y1 & Y2 & Y3 & Y4) D'']; subst; [reflexivity|].
  f_equal; [|apply IH; assumption]. destruct (C1 _ X1) as (V & E). destruct (C2 _ _ V E) as (z & Z1 & _ & _ & ZU).
  rewrite (ZU x X1 eq_refl eq_refl), (ZU y Y1); congruence.
Qed.

Lemma done_in l t ps a : done_by l t ps -> In a t -> exists x, In x l /\ o_id x = a /\ In (o_vehicle x, o_exit x) ps.
Proof.
  unfold done_by. intros D. induction D as [|b (v & y) t ps (x & X1 & X2 & X3 & X4) D IH]; intros [].
  - subst. exists x. cbn in *. split; [exact X1|]. split; [congruence|]. left. congruence.
  - destruct (IH H) as (z & Z1 & Z2 & Z3). exists z. split; [exact Z1|]. split; [exact Z2|]. right. exact Z3.
Qed.

Lemma option_unique l el n x y : complete l el n -> In x l -> In y l -> o_id x = o_id y -> x = y.
Proof.
  intros (C & _) X Y E. clear - C X Y E. induction l as [|z l IH]; [destruct X|]. cbn [map] in C. inversion C as [|? ? NI C']; subst.
  destruct X as [->|X]; destruct Y as [->|Y]; [reflexivity| | |apply IH; assumption].
  - exfalso. apply NI. rewrite E. apply in_map. exact Y.
  - exfalso. apply NI. rewrite <- E. apply in_map. exact X.
Qed.

Lemma done_nodup l el n t ps : complete l el n -> done_by l t ps -> NoDup (map fst ps) -> NoDup t.
Proof.
  intros C D. unfold done_by in D. induction D as [|a (v & y) t ps (x & X1 & X2 & X3 & X4) D IH]; intros ND; [constructor|]. cbn [map fst] in ND. inversion ND as [|? ? NI ND']; subst.
  constructor; [|apply IH; exact ND']. intros H. destruct (done_in l t ps _ D H) as (z & Z1 & Z2 & Z3).
  assert (x = z) by (apply (option_unique l el n); auto). subst z. apply NI. cbn in X3. rewrite <- X3. apply (in_map fst) in Z3. exact Z3.
Qed.

Lemma heads_apart l el es n : complete l el n -> NoDup es -> es <> [] -> (1 <= n)%nat -> forall t t' a r ps ps',
  posting es n ps -> done_by l t ps -> posting es n ps' -> done_by l t' ps' -> t = a :: r -> ~ In a (tl t').
Proof.
  intros C NDE NE N t t' a r ps ps' P D P' D' -> H. unfold done_by in D. inversion D as [|b p r' q (x & X1 & X2 & X3 & X4) Dr]; subst.
  unfold done_by in D'. destruct D' as [|b p' t'' q' _ D']; [destruct H|]. cbn [tl] in H.
  destruct (done_in l t'' q' _ D' H) as (z & Z1 & Z2 & Z3). assert (x = z) by (apply (option_unique l el n); auto). subst z.
  destruct P as (_ & _ & _ & P1 & P2). destruct P' as (_ & _ & _ & P1' & P2'). destruct (Nat.lt_ge_cases n (length es)) as [L|L].
  - specialize (P1 L). specialize (P1' L). assert (ND := exits_nodup n). unfold exits in ND. rewrite <- P1' in ND. rewrite <- P1 in P1'.
    cbn [map] in P1', ND. injection P1' as E _. inversion ND as [|? ? NI _]; subst. apply NI. rewrite E, <- X4. apply (in_map snd) in Z3. exact Z3.
  - specialize (P2 L). specialize (P2' L). rewrite <- P2' in NDE. rewrite <- P2 in P2'.
    cbn [map] in P2', NDE. injection P2' as E _. inversion NDE as [|? ? NI _]; subst. apply NI. rewrite E, <- X3. apply (in_map fst) in Z3. exact Z3.
Qed.

Lemma done_length l t ps : done_by l t ps -> length t = length ps.
Proof. intros D. unfold done_by in D. induction D; cbn; congruence. Qed.

Section Search.
  Context (task : Z) (evs : list ev) (before : list (ev * list out)) (es : list Z) (gs : list (list Z)) (n : nat) (l : list option_) (c : str) (e : expr).
  Context (F : found task (history task evs) before es gs n [Options l c]) (SV : same_vehicles before (concat gs)) (ND : NoDup (concat gs))
    (NDE : NoDup es) (NE : es <> []) (IN : incl es (concat gs)) (N : (1 <= n)%nat)
    (B : 10 + Z.of_nat n * Z.of_nat (length (concat gs)) <= 2 ^ 63) (W : writes e c).

  Lemma search_facts : exists ls, e = formula ls /\ complete l (concat gs) n /\ ls <> []
    /\ (forall t, In t ls <-> exists ps, posting es n ps /\ done_by l t ps)
    /\ (forall t, In t ls -> t <> [] /\ NoDup t)
    /\ (forall t t' a r, In t ls -> In t' ls -> t = a :: r -> ~ In a (tl t')).
  Proof.
    destruct (answer_formula task evs before es gs n _ F SV ND NDE NE IN N B) as (l' & c' & ls & EQ & C & W' & LN & T).
    injection EQ as <- <-. exists ls. split; [apply (C45_unambiguous _ _ _ W W')|]. split; [exact C|]. split; [exact LN|]. split; [exact T|]. split.
    - intros t Ht. apply T in Ht. destruct Ht as (ps & P & D). split.
      + intros ->. unfold done_by in D. inversion D; subst. destruct P as (_ & _ & _ & P1 & P2). destruct (Nat.lt_ge_cases n (length es)) as [L|L].
        * specialize (P1 L). destruct n; [lia|discriminate].
        * specialize (P2 L). cbn in P2. congruence.
      + apply (done_nodup l (concat gs) n t ps C D). apply P.
    - intros t t' a r Ht Ht'. apply T in Ht, Ht'. destruct Ht as (ps & P & D). destruct Ht' as (ps' & P' & D').
      apply (heads_apart l (concat gs) es n C NDE NE N t t' a r ps ps' P D P' D').
  Qed.

  Lemma search_sound h : offered_run (searchNext e) h ->
    (exists k ps, posting es n ps /\ done_by l (h ++ k) ps)
    /\ (searchNext e h = [] -> exists ps, posting es n ps /\ done_by l h ps).
  Proof.
    destruct search_facts as (ls & -> & C & LN & T & H1 & H2). intros R. split.
    - destruct (search_runs ls H1 H2 h R) as [->|(l1 & p & r & l2 & E & -> & _ & _)].
      + destruct ls as [|t ls]; [congruence|]. destruct (proj1 (T t)) as (ps & P & D); [left; reflexivity|]. exists t, ps. split; assumption.
      + destruct (proj1 (T (h ++ r))) as (ps & P & D); [rewrite E; apply in_or_app; right; left; reflexivity|]. exists r, ps. split; assumption.
    - intros X. apply T. apply (search_ends ls LN H1 H2 h R X).
  Qed.

  Lemma search_first h h' : offered_run (searchNext e) h -> offered_run (searchNext e) h' ->
    searchNext e h = [] -> searchNext e h' = [] -> hd_error h = hd_error h' -> h = h'.
  Proof.
    destruct search_facts as (ls & -> & C & LN & T & H1 & H2). intros R R' X X' HD.
    assert (I := search_ends ls LN H1 H2 h R X). assert (I' := search_ends ls LN H1 H2 h' R' X').
    assert (Q : forall h, offered_run (searchNext (formula ls)) h -> In h ls -> exists l1 l2, ls = l1 ++ h :: l2 /\ forall t a r, In t l1 -> t = a :: r -> ~ In a h).
    { intros g RG IG. destruct (search_runs ls H1 H2 g RG) as [->|(l1 & p & r & l2 & E & -> & NP & A)]; [exfalso; apply (H1 [] IG); reflexivity|].
      destruct r as [|b r]; [rewrite app_nil_r in E; exists l1, l2; split; [exact E|exact A]|]. exfalso.
      assert (IL : In (g ++ b :: r) ls) by (rewrite E; apply in_or_app; right; left; reflexivity).
      assert (LEN : forall t, In t ls -> length t = Nat.min n (length es)).
      { intros t Ht. apply T in Ht. destruct Ht as (ps & P & D). apply done_length in D. rewrite D.
        destruct P as (_ & _ & _ & P1 & P2). destruct (Nat.lt_ge_cases n (length es)) as [L|L].
        - apply (f_equal (@length Z)) in P1; [|exact L]. rewrite !map_length, seq_length in P1. lia.
        - apply (f_equal (@length Z)) in P2; [|exact L]. rewrite map_length in P2. lia. }
      assert (L1 := LEN _ IL). assert (L2 := LEN _ IG). rewrite app_length in L1. cbn in L1. lia. }
    destruct (Q h R I) as (l1 & l2 & E & A). destruct (Q h' R' I') as (l1' & l2' & E' & A').
    assert (HN : h <> []) by apply (H1 h I). destruct h as [|a h]; [congruence|]. destruct h' as [|a' h']; [discriminate|]. injection HD as <-.
    rewrite E in E'. destruct (split_cases _ _ _ _ _ _ E') as [(Q1 & Q2 & Q3)|[(w & Q1 & Q2)|(w & Q1 & Q2)]].
    - exact Q2.
    - exfalso. apply (A' (a :: h) a h); [|reflexivity|left; reflexivity]. rewrite Q1. apply in_or_app. right. left. reflexivity.
    - exfalso. apply (A (a :: h') a h'); [|reflexivity|left; reflexivity]. rewrite Q1. apply in_or_app. right. left. reflexivity.
  Qed.
End Search.

(** Every choice of actions that the search through the composition offers leads to a posting. *)
Theorem C58_search : forall task evs before es gs n l c e h,
  found task (history task evs) before es gs n [Options l c] -> same_vehicles before (concat gs) -> NoDup (concat gs) ->
  NoDup es -> es <> [] -> incl es (concat gs) -> (1 <= n)%nat ->
  10 + Z.of_nat n * Z.of_nat (length (concat gs)) <= 2 ^ 63 ->
  writes e c -> offered_run (searchNext e) h ->
  (exists k ps, posting es n ps /\ done_by l (h ++ k) ps)
  /\ (searchNext e h = [] -> exists ps, posting es n ps /\ done_by l h ps).
Proof. intros task evs before es gs n l c e h F SV ND NDE NE IN N B W R. apply (search_sound task evs before es gs n l c e F SV ND NDE NE IN N B W h R). Qed.
Print Assumptions C58_search.

(** But the first action decides: of the postings that begin with the same vehicle at the same exit, one is offered. *)
Theorem C58_first_decides : forall task evs before es gs n l c e h h',
  found task (history task evs) before es gs n [Options l c] -> same_vehicles before (concat gs) -> NoDup (concat gs) ->
  NoDup es -> es <> [] -> incl es (concat gs) -> (1 <= n)%nat ->
  10 + Z.of_nat n * Z.of_nat (length (concat gs)) <= 2 ^ 63 ->
  writes e c -> offered_run (searchNext e) h -> offered_run (searchNext e) h' ->
  searchNext e h = [] -> searchNext e h' = [] -> hd_error h = hd_error h' -> h = h'.
Proof. intros task evs before es gs n l c e h h' F SV ND NDE NE IN N B W. apply (search_first task evs before es gs n l c e F SV ND NDE NE IN N B W h h'). Qed.
Print Assumptions C58_first_decides.

(** *** Cases *)

Definition written (o : list (ev * list out)) : list string :=
  flat_map (fun x => flat_map (fun y => match y with Options _ c => [string_of_list_ascii c] | Crash => ["crash"%string] end) (snd x)) o.

(** Two vehicles and one exit, one vehicle and two exits, and a second request with the vehicles of the first. *)
Definition two_for_one : list ev := [Ask 1 [4; 5] (Some [[4]; [5]]); Egress 8 3; Egress 9 1].
Definition again : list ev := two_for_one ++ [Done 1; Ask 2 [5] (Some [[4]; [5]]); Egress 9 2].

Example C58_again : written (history 9 again) = ["+( .(p10 ) .(p11 ))"; "+( .(p11 ) .(p13 ))"]%string.
Proof. vm_compute. reflexivity. Qed.

Example C58_again_found : exists l c, found 9 (history 9 again) (history 9 (two_for_one ++ [Done 1])) [5] [[4]; [5]] 2 [Options l c]
  /\ same_vehicles (history 9 (two_for_one ++ [Done 1])) [4; 5] /\ NoDup [4; 5] /\ NoDup [5] /\ incl [5] [4; 5].
Proof.
  eexists _, _. split; [|split; [|split; [|split]]].
  - exists 2, [], [], []. split; [vm_compute; reflexivity|]. split; [intros e o []|].
    intros e o H. vm_compute in H. destruct H as [H|[H|[H|[H|[]]]]]; injection H as <- <-; cbn; intuition discriminate.
  - intros id es gs o H. vm_compute in H. destruct H as [H|[H|[H|[H|[]]]]]; try discriminate. injection H as <- <- <- <-. reflexivity.
  - repeat constructor; cbn; intuition lia.
  - repeat constructor; cbn; intuition lia.
  - intros x [<-|[]]. right. left. reflexivity.
Qed.

Lemma run_last f h a : offered_run f (h ++ [a]) -> offered_run f h /\ In a (f h).
Proof.
  intros R. inversion R as [E|h' a' R' H' E]; [destruct h; discriminate|]. apply app_inj_tail in E. destruct E as (<- & <-). split; assumption.
Qed.

(** Three vehicles and three exits: half of the six postings are never offered. *)
Definition three : list ev := [Ask 1 [4; 5; 6] (Some [[4; 5; 6]]); Egress 9 3].

Definition answered (task : Z) (evs : list ev) : list option_ * str :=
  match last (history task evs) (Done 0, []) with (_, [Options l c]) => (l, c) | _ => ([], []) end.

Theorem C58_lost_refuted : exists evs l c e ps t,
  found 9 (history 9 evs) [] [4; 5; 6] [[4; 5; 6]] 3 [Options l c] /\ writes e c
  /\ posting [4; 5; 6] 3 ps /\ done_by l t ps /\ traces e t /\ ~ offered_run (searchNext e) t.
Proof.
  assert (F : found 9 (history 9 three) [] [4; 5; 6] [[4; 5; 6]] 3 [Options (fst (answered 9 three)) (snd (answered 9 three))]).
  { exists 1, [], [], []. split; [vm_compute; reflexivity|]. split; intros e o []. }
  destruct (C58_composition 9 three [] [4; 5; 6] [[4; 5; 6]] 3 _ F) as (l & c & e & EQ & C & W & A & T).
  - intros ? ? ? ? [].
  - repeat constructor; cbn; intuition lia.
  - repeat constructor; cbn; intuition lia.
  - discriminate.
  - intros x H. exact H.
  - lia.
  - cbn. lia.
  - injection EQ as <- <-. exists three, (fst (answered 9 three)), (snd (answered 9 three)), e, [(4, 1); (5, 3); (6, 2)], [10; 17; 15].
    assert (PO : posting [4; 5; 6] 3 [(4, 1); (5, 3); (6, 2)]).
    { split; [cbn; repeat constructor; cbn; intuition lia|]. split; [cbn; repeat constructor; cbn; intuition lia|]. split; [|split; [cbn; lia|reflexivity]].
      intros v x [H|[H|[H|[]]]]; injection H as <- <-; (split; [cbn; tauto|unfold is_exit; cbn; lia]). }
    assert (DO : done_by (fst (answered 9 three)) [10; 17; 15] [(4, 1); (5, 3); (6, 2)]).
    { repeat constructor.
      - exists {| o_id := 10; o_vehicle := 4; o_exit := 1 |}. split; [vm_compute; tauto|auto].
      - exists {| o_id := 17; o_vehicle := 5; o_exit := 3 |}. split; [vm_compute; tauto|auto].
      - exists {| o_id := 15; o_vehicle := 6; o_exit := 2 |}. split; [vm_compute; tauto|auto]. }
    split; [exact F|]. split; [exact W|]. split; [exact PO|]. split; [exact DO|]. split; [apply T; exists [(4, 1); (5, 3); (6, 2)]; split; assumption|].
    assert (X := C45_parse e _ _ W A). vm_compute in X. injection X as <-.
    intros R. change [10; 17; 15] with ([10; 17] ++ [15]) in R. apply run_last in R. destruct R as (R & _).
    change [10; 17] with ([10] ++ [17]) in R. apply run_last in R. destruct R as (_ & R). vm_compute in R. intuition discriminate.
Qed.
Print Assumptions C58_lost_refuted.

Lemma writes_p n : 0 <= n < 2 ^ 63 -> writes (Act n) (lit "p" ++ to_string_Z n).
Proof. apply writes_number. Qed.

(** A request after one with other vehicles: what is remembered of the options of the first spoils the second.  Here
    the only action of the composition is no option at all, so the assignment service, which looks it up, fails. *)
Definition fewer : list ev := [Ask 1 [4; 5] (Some [[4; 5]]); Egress 9 1; Done 1; Ask 2 [5] (Some [[5]]); Egress 9 1].

Theorem C58_stale_refuted : exists evs before l c,
  found 9 (history 9 evs) before [5] [[5]] 1 [Options l c] /\ complete l [5] 1
  /\ (forall e, writes e c -> ~ incl (actions e) (map o_id l)) /\ initAlgebraString (map o_id l) c = Some PCrash.
Proof.
  exists fewer, (history 9 (firstn 3 fewer)), (fst (answered 9 fewer)), (snd (answered 9 fewer)).
  assert (F : found 9 (history 9 fewer) (history 9 (firstn 3 fewer)) [5] [[5]] 1 [Options (fst (answered 9 fewer)) (snd (answered 9 fewer))]).
  { exists 2, [], [], []. split; [vm_compute; reflexivity|]. split; [intros e o []|].
    intros e o H. vm_compute in H. destruct H as [H|[H|[H|[]]]]; injection H as <- <-; cbn; try tauto. intros [X|[]]; discriminate. }
  split; [exact F|]. split.
  - destruct (C58_options _ _ _ _ _ _ _ F) as (l & c & E & C); [repeat constructor; cbn; intuition lia|]. injection E as <- <-. exact C.
  - assert (X : initAlgebraString (map o_id (fst (answered 9 fewer))) (snd (answered 9 fewer)) = Some PCrash) by (vm_compute; reflexivity).
    split; [|exact X]. intros e W I. rewrite (C45_parse e _ _ W I) in X. discriminate.
Qed.
Print Assumptions C58_stale_refuted.

(** And here a vehicle that could be posted is not. *)
Definition more : list ev := [Ask 1 [4] (Some [[4]]); Egress 9 1; Done 1; Ask 2 [5; 4] (Some [[5; 4]]); Egress 9 1].

Theorem C58_stale_vehicle_refuted : exists evs before l c e ps,
  found 9 (history 9 evs) before [5; 4] [[5; 4]] 1 [Options l c] /\ complete l [5; 4] 1 /\ writes e c
  /\ incl (actions e) (map o_id l) /\ posting [5; 4] 1 ps /\ forall t, done_by l t ps -> ~ traces e t.
Proof.
  exists more, (history 9 (firstn 3 more)), (fst (answered 9 more)), (snd (answered 9 more)), (formula [[10]; [10]]), [(4, 1)].
  assert (F : found 9 (history 9 more) (history 9 (firstn 3 more)) [5; 4] [[5; 4]] 1 [Options (fst (answered 9 more)) (snd (answered 9 more))]).
  { exists 2, [], [], []. split; [vm_compute; reflexivity|]. split; [intros e o []|].
    intros e o H. vm_compute in H. destruct H as [H|[H|[H|[]]]]; injection H as <- <-; cbn; try tauto. intros [X|[]]; discriminate. }
  assert (C : complete (fst (answered 9 more)) [5; 4] 1).
  { destruct (C58_options _ _ _ _ _ _ _ F) as (l & c & E & C); [repeat constructor; cbn; intuition lia|]. injection E as <- <-. exact C. }
  split; [exact F|]. split; [exact C|]. split; [|split; [|split]].
  - change (snd (answered 9 more)) with ((lit "+(" ++ concat (map (fun y => lit " .(" ++ term [(5, 1, 10)] (combine y [1]) ++ lit ")") [[5]; [5]])) ++ lit ")").
    apply (formula_writes [(5, 1, 10)] (fun y => combine y [1])); repeat constructor; cbn; lia.
  - intros a H. vm_compute in H. vm_compute. tauto.
  - split; [repeat constructor; cbn; tauto|]. split; [repeat constructor; cbn; tauto|]. split; [|split; [reflexivity|cbn; lia]].
    intros v x [H|[]]. injection H as <- <-. split; [cbn; tauto|unfold is_exit; cbn; lia].
  - intros t D TR. apply formula_traces in TR. assert (t = [11]).
    { apply (done_functional _ _ _ t [11] [(4, 1)] C D). repeat constructor. exists {| o_id := 11; o_vehicle := 4; o_exit := 1 |}. split; [vm_compute; tauto|auto]. }
    subst t. destruct TR as [TR|[TR|[]]]; discriminate.
Qed.
Print Assumptions C58_stale_vehicle_refuted.

(** A vehicle of the request that is not eligible leaves an empty alternative, and then nothing is offered, although
    another vehicle could be posted. *)
Theorem C58_ineligible_refuted : exists evs l c e ps t,
  found 9 (history 9 evs) [] [7; 4] [[4]] 1 [Options l c] /\ writes e c
  /\ posting [4] 1 ps /\ done_by l t ps /\ traces e t /\ searchNext e [] = [].
Proof.
  set (evs := [Ask 1 [7; 4] (Some [[4]]); Egress 9 1]).
  exists evs, (fst (answered 9 evs)), (snd (answered 9 evs)), (formula [[]; [10]]), [(4, 1)], [10].
  split; [exists 1, [], [], []; split; [vm_compute; reflexivity|]; split; intros e o []|].
  split; [|split; [|split; [|split]]].
  - change (snd (answered 9 evs)) with ((lit "+(" ++ concat (map (fun y => lit " .(" ++ term [(4, 1, 10)] (combine y [1]) ++ lit ")") [[]; [4]])) ++ lit ")").
    apply (formula_writes [(4, 1, 10)] (fun y => combine y [1])); repeat constructor; cbn; lia.
  - split; [repeat constructor; cbn; tauto|]. split; [repeat constructor; cbn; tauto|]. split; [|split; [reflexivity|reflexivity]].
    intros v x [H|[]]. injection H as <- <-. split; [cbn; tauto|unfold is_exit; cbn; lia].
  - repeat constructor. exists {| o_id := 10; o_vehicle := 4; o_exit := 1 |}. split; [vm_compute; tauto|auto].
  - apply formula_traces. right. left. reflexivity.
  - reflexivity.
Qed.
Print Assumptions C58_ineligible_refuted.

(** A request that names no vehicles means all of them, but then the composition is empty. *)
Theorem C58_default_refuted : exists evs l c,
  found 9 (history 9 evs) [] [] [[4]] 1 [Options l c] /\ complete l [4] 1
  /\ forall e, writes e c -> forall t, ~ traces e t.
Proof.
  set (evs := [Ask 1 [] (Some [[4]]); Egress 9 1]).
  exists evs, (fst (answered 9 evs)), (snd (answered 9 evs)).
  assert (F : found 9 (history 9 evs) [] [] [[4]] 1 [Options (fst (answered 9 evs)) (snd (answered 9 evs))]).
  { exists 1, [], [], []; split; [vm_compute; reflexivity|]; split; intros e o []. }
  split; [exact F|]. split.
  - destruct (C58_options _ _ _ _ _ _ _ F) as (l & c & E & C); [repeat constructor; cbn; intuition lia|]. injection E as <- <-. exact C.
  - intros e W t T. assert (W' : writes (Op Alt []) (snd (answered 9 evs))) by (apply (w_op Alt [] []); constructor).
    rewrite (C45_unambiguous _ _ _ W W') in T. destruct T.
Qed.
Print Assumptions C58_default_refuted.

(** Exits found when the last request was not for the task: the service uses options it does not have. *)
Theorem C58_crash_refuted : exists evs, exists o, In (Egress 9 1, o) (history 9 evs) /\ In Crash o.
Proof. exists [Ask 1 [4] None; Egress 9 1], [Crash]. vm_compute. tauto. Qed.
Print Assumptions C58_crash_refuted.

(** The same exits found twice: every option is published twice. *)
Theorem C58_twice_refuted : exists evs l c, In (Egress 9 1, [Options l c]) (history 9 evs) /\ ~ NoDup (map o_id l).
Proof.
  set (evs := [Ask 1 [4] (Some [[4]]); Egress 9 1; Egress 9 1]).
  exists evs, (fst (answered 9 evs)), (snd (answered 9 evs)). split; [vm_compute; tauto|].
  intros H. vm_compute in H. inversion H as [|? ? X _]; subst. apply X. left. reflexivity.
Qed.
Print Assumptions C58_twice_refuted.

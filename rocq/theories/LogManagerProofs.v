From Coq Require Import String Ascii List Bool NArith Lia Arith.
From Verif Require Import Base Decimal10 Run DbLogModel DbLogSpec DbLogProofs LogManagerModel
  LogManagerSpec.
Import ListNotations.
Open Scope list_scope.

(** * Delivery *)

Fixpoint state (m : manager) (ops : list op) : manager :=
  match ops with [] => m | o :: r => state (fst (step m o)) r end.
Fixpoint outs (m : manager) (ops : list op) : list (nat * record) :=
  match ops with [] => [] | o :: r => snd (step m o) ++ outs (fst (step m o)) r end.

Lemma state_snoc ops : forall m o, state m (ops ++ [o]) = fst (step (state m ops) o).
Proof. induction ops as [|x ops IH]; intros m o; cbn [app state]; auto. Qed.

Lemma outs_app a : forall m b, outs m (a ++ b) = outs m a ++ outs (state m a) b.
Proof.
  induction a as [|x a IH]; intros m b; [reflexivity|]. cbn [app outs state].
  rewrite IH. now rewrite app_assoc.
Qed.

Lemma run_outs m ops : fst (run step m ops) = state m ops /\
  flat_map snd (snd (run step m ops)) = outs m ops.
Proof.
  induction ops as [|o ops IH] using rev_ind; [split; reflexivity|].
  destruct IH as (IH1 & IH2). rewrite run_snoc. cbn [fst snd]. rewrite IH1, state_snoc.
  split; [reflexivity|]. rewrite flat_map_app, IH2, outs_app. cbn [flat_map outs snd].
  now rewrite app_nil_r.
Qed.

Definition to (me : nat) (l : list (nat * record)) : list record :=
  map snd (filter (fun x => Nat.eqb (fst x) me) l).

Lemma to_app me a b : to me (a ++ b) = to me a ++ to me b.
Proof. unfold to. now rewrite filter_app, map_app. Qed.

Definition absent (me : nat) (l : list sink) : Prop := forall s, In s l -> number s <> me.

Lemma wants_rank t s : (rank t <=? rank s)%N = wants t s.
Proof. destruct t, s; reflexivity. Qed.

Lemma output_app r l1 l2 n1 n2 n3 :
  output r {| sinks := l1 ++ l2; added := n1 |} =
  output r {| sinks := l1; added := n2 |} ++ output r {| sinks := l2; added := n3 |}.
Proof. unfold output. cbn [sinks]. now rewrite filter_app, map_app. Qed.

Lemma output_absent r m me : absent me (sinks m) -> to me (output r m) = [].
Proof.
  unfold output, to. intros A. induction (sinks m) as [|s l IH]; [reflexivity|].
  cbn [filter]. assert (L : absent me l) by (intros x I; apply A; now right).
  destruct (_ <=? _)%N; [|auto]. cbn [map filter fst].
  destruct (Nat.eqb_spec (number s) me) as [E|E]; [|auto].
  exfalso. apply (A s); [now left|auto].
Qed.

Lemma str_eqb_same a b : str_eqb a b = same a b.
Proof. reflexivity. Qed.

Lemma gets_present me k n : forall ops m t l1 l2,
  sinks m = l1 ++ {| kind := k; name := n; threshold := t; number := me |} :: l2 ->
  absent me l1 -> absent me l2 -> me < added m ->
  to me (outs m ops) = gets k n t ops.
Proof.
  (* a logger that is gone gets nothing *)
  assert (GONE : forall ops m, absent me (sinks m) -> me < added m -> to me (outs m ops) = []).
  { induction ops as [|o ops IH]; intros m A L; [reflexivity|]. cbn [outs]. rewrite to_app.
    assert (F : forall k' n' a b, absent me (sinks (remove k' n' a b m))).
    { intros k' n' a b s I. cbn [remove sinks] in I. apply filter_In in I. apply A, I. }
    assert (G : forall k' n' t' a b, absent me (sinks (set_level k' n' t' a b m))).
    { intros k' n' t' a b s I. cbn [set_level sinks] in I. apply in_map_iff in I.
      destruct I as (s' & <- & I). specialize (A _ I). destruct (if _ && _ then _ else _);
        auto. }
    destruct o as [n' k' t' [|] x|k'|n'|k' n'|k' t'|n' t'|k' n' t'|s x]; cbn [step fst snd].
    all: try (rewrite IH by (auto; apply F || apply G); reflexivity).
    - match goal with |- to me (output _ ?m') ++ _ = _ =>
        assert (A' : absent me (sinks m')) end.
      { cbn [sinks]. intros s I. apply in_app_iff in I. destruct I as [I|[<-|[]]]; [auto|].
        cbn [number]. lia. }
      rewrite output_absent by exact A'. rewrite IH; [reflexivity|exact A'|cbn [added]; lia].
    - rewrite IH by auto. rewrite output_absent by auto. reflexivity. }
  assert (OUT : forall r m t l1 l2,
    sinks m = l1 ++ {| kind := k; name := n; threshold := t; number := me |} :: l2 ->
    absent me l1 -> absent me l2 ->
    to me (output r m) = if wants t (severity r) then [r] else []).
  { intros r m t l1 l2 E A1 A2. destruct m as [l c]. cbn [sinks] in E. subst l.
    rewrite (output_app _ _ _ _ 0 0), to_app, output_absent by exact A1.
    change ({| kind := k; name := n; threshold := t; number := me |} :: l2)
      with ([{| kind := k; name := n; threshold := t; number := me |}] ++ l2).
    rewrite (output_app _ _ _ _ 0 0), to_app, (output_absent _ {| sinks := l2; added := 0 |})
      by exact A2.
    rewrite app_nil_r. unfold output, to. cbn [sinks filter threshold]. rewrite wants_rank.
    destruct (wants t (severity r)); [|reflexivity]. cbn [map filter fst number].
    rewrite Nat.eqb_refl. reflexivity. }
  induction ops as [|o ops IH]; intros m t l1 l2 E A1 A2 L; [reflexivity|].
  cbn [outs]. rewrite to_app.
  assert (SPL : forall P, absent me (filter P l1) /\ absent me (filter P l2)).
  { intros P. split; intros s I; apply filter_In in I; [apply A1|apply A2]; apply I. }
  assert (REM : forall k' n' a b,
    (if (if a && b then same k k' && same n n' else if a then same k k'
         else if b then same n n' else false) then
      to me (outs (remove k' n' a b m) ops) = []
     else to me (outs (remove k' n' a b m) ops) = gets k n t ops)).
  { intros k' n' a b. set (c := if a && b then _ else _).
    set (P := fun s : sink => negb (if a && b then str_eqb (kind s) k' && str_eqb (name s) n'
       else if a then str_eqb (kind s) k' else if b then str_eqb (name s) n' else false)).
    destruct (SPL P) as (B1 & B2).
    assert (X : sinks (remove k' n' a b m) = filter P l1 ++
      (if c then [] else [{| kind := k; name := n; threshold := t; number := me |}]) ++
      filter P l2).
    { cbn [remove sinks]. rewrite E. fold P. rewrite filter_app. cbn [filter].
      unfold P at 2. cbn [kind name]. change (str_eqb k k') with (same k k'); change (str_eqb n n') with (same n n'). fold c. destruct c; reflexivity. }
    destruct c.
    - apply GONE; [|exact L]. rewrite X. intros s I. cbn [app] in I. apply in_app_iff in I.
      destruct I as [I|I]; [apply B1|apply B2]; exact I.
    - apply (IH _ t (filter P l1) (filter P l2)); auto. }
  assert (SET : forall k' n' t' a b,
    to me (outs (set_level k' n' t' a b m) ops) =
    gets k n (if (if a && b then same k k' && same n n' else if a then same k k'
         else if b then same n n' else false) then t' else t) ops).
  { intros k' n' t' a b. set (c := if a && b then _ else _).
    set (f := fun s : sink =>
       if (if a && b then str_eqb (kind s) k' && str_eqb (name s) n'
           else if a then str_eqb (kind s) k'
           else if b then str_eqb (name s) n' else false)
       then {| kind := kind s; name := name s; threshold := t'; number := number s |} else s).
    assert (NUM : forall s, number (f s) = number s).
    { intros s. unfold f. match goal with |- number (if ?x then _ else _) = _ => destruct x end;
        reflexivity. }
    assert (AB : forall l, absent me l -> absent me (map f l)).
    { intros l A s I. apply in_map_iff in I. destruct I as (s' & <- & I). rewrite NUM. auto. }
    apply (IH _ (if c then t' else t) (map f l1) (map f l2)); auto.
    cbn [set_level sinks]. rewrite E. fold f. rewrite map_app. cbn [map]. f_equal. f_equal.
    unfold f. cbn [kind name number]. change (str_eqb k k') with (same k k'); change (str_eqb n n') with (same n n'). fold c. destruct c; reflexivity. }
  destruct o as [n' k' t' w x|k'|n'|k' n'|k' t'|n' t'|k' n' t'|s x]; cbn [step fst snd gets].
  - destruct w; cbn [andb fst snd]; [|cbn [app]; eapply IH; eauto].
    set (new := {| kind := k'; name := n'; threshold := t'; number := added m |}).
    set (m' := {| sinks := sinks m ++ [new]; added := S (added m) |}).
    assert (E' : sinks m' = l1 ++ {| kind := k; name := n; threshold := t; number := me |} ::
                            (l2 ++ [new])).
    { cbn [m' sinks]. rewrite E, <- app_assoc. reflexivity. }
    assert (A2' : absent me (l2 ++ [new])).
    { intros s I. apply in_app_iff in I. destruct I as [I|[<-|[]]]; [auto|]. cbn. lia. }
    rewrite (OUT _ _ _ _ _ E' A1 A2'). cbn [severity]. f_equal.
    apply (IH m' t l1 (l2 ++ [new])); auto. cbn. lia.
  - specialize (REM k' [] true false). cbn [andb] in REM. destruct (same k k'); exact REM.
  - specialize (REM [] n' false true). cbn [andb] in REM. destruct (same n n'); exact REM.
  - specialize (REM k' n' true true). cbn [andb] in REM. destruct (same k k' && same n n');
      exact REM.
  - exact (SET k' [] t' true false).
  - exact (SET [] n' t' false true).
  - exact (SET k' n' t' true true).
  - rewrite (OUT _ _ _ _ _ E A1 A2). cbn [severity]. f_equal. eapply IH; eauto.
Qed.

Lemma added_adds ops : forall m, added (state m ops) = added m + adds ops.
Proof.
  induction ops as [|o ops IH]; intros m; [cbn; lia|].
  cbn [state]. rewrite IH.
  destruct o as [n' k' t' [|] x|k'|n'|k' n'|k' t'|n' t'|k' n' t'|s x]; cbn [step fst adds added];
    try reflexivity; lia.
Qed.

(** Before it is added a logger gets nothing, and its number is new. *)
Lemma before me : forall ops m,
  (forall s, In s (sinks m) -> number s < added m) -> added m + adds ops <= me ->
  to me (outs m ops) = [] /\ (forall s, In s (sinks (state m ops)) -> number s < me).
Proof.
  induction ops as [|o ops IH]; intros m B L.
  - cbn [adds] in L. split; [reflexivity|]. intros s I. specialize (B s I). cbn. lia.
  - cbn [outs state]. rewrite to_app.
    assert (B' : forall s, In s (sinks (fst (step m o))) -> number s < added (fst (step m o))).
    { assert (F : forall k' n' a b s, In s (sinks (remove k' n' a b m)) -> number s < added m).
      { intros k' n' a b s I. cbn [remove sinks] in I. apply filter_In in I. apply B, I. }
      assert (G : forall k' n' t' a b s, In s (sinks (set_level k' n' t' a b m)) ->
                  number s < added m).
      { intros k' n' t' a b s I. cbn [set_level sinks] in I. apply in_map_iff in I.
        destruct I as (s' & <- & I). specialize (B _ I). destruct (if _ && _ then _ else _);
          auto. }
      destruct o as [n' k' t' [|] x|k'|n'|k' n'|k' t'|n' t'|k' n' t'|s0 x]; intros s I;
        cbn [step fst] in *.
      1:{ cbn [sinks added] in *. apply in_app_iff in I. destruct I as [I|[<-|[]]];
          [specialize (B _ I); lia|cbn; lia]. }
      1: exact (B _ I).
      1-3: eapply F; exact I.
      1-3: eapply G; exact I.
      exact (B _ I). }
    assert (AA : added (fst (step m o)) + adds ops = added m + adds (o :: ops)).
    { destruct o as [n' k' t' [|] x|k'|n'|k' n'|k' t'|n' t'|k' n' t'|s0 x];
        cbn [step fst adds added remove set_level]; lia. }
    destruct (IH (fst (step m o)) B') as (I1 & I2); [lia|]. split; [|exact I2].
    rewrite I1, app_nil_r.
    assert (NB : forall m' r, (forall s, In s (sinks m') -> number s < added m') ->
                 added m' <= me -> to me (output r m') = []).
    { intros m' r BB LL. apply output_absent. intros s I. specialize (BB s I). lia. }
    destruct o as [n' k' t' [|] x|k'|n'|k' n'|k' t'|n' t'|k' n' t'|s0 x]; cbn [step snd];
      try reflexivity.
    + apply NB; [exact B'|]. cbn [added]. cbn [adds] in L. lia.
    + apply NB; [exact B|]. cbn [adds] in L. lia.
Qed.

(** * Escaping *)

Definition replaced (c : ascii) (new t : str) : str :=
  flat_map (fun x => if Ascii.eqb x c then new else [x]) t.

Lemma replaced_without c new t : ~ In c t -> replaced c new t = t.
Proof.
  unfold replaced. induction t as [|x t IH]; intros N; [reflexivity|]. cbn [flat_map].
  destruct (Ascii.eqb_spec x c) as [->|E]; [exfalso; apply N; now left|].
  cbn [app]. rewrite IH; auto. intros I. apply N. now right.
Qed.

Lemma replace_last_none c new t : replace_last c new t = None -> ~ In c t.
Proof.
  induction t as [|x t IH]; intros H; [intros []|]. cbn [replace_last] in H.
  destruct (replace_last c new t); [discriminate|].
  destruct (Ascii.eqb_spec x c) as [E|E]; [discriminate|].
  intros [I|I]; [auto|]. exact (IH eq_refl I).
Qed.

Lemma replace_last_some c new t t' : replace_last c new t = Some t' ->
  exists a b, t = a ++ c :: b /\ ~ In c b /\ t' = a ++ new ++ b.
Proof.
  revert t'. induction t as [|x t IH]; intros t' H; [discriminate|]. cbn [replace_last] in H.
  destruct (replace_last c new t) as [r|] eqn:V.
  - injection H as <-. destruct (IH r eq_refl) as (a & b & -> & NB & ->).
    exists (x :: a), b. auto.
  - destruct (Ascii.eqb_spec x c) as [->|E]; [|discriminate]. injection H as <-.
    exists [], t. split; [reflexivity|]. split; [|reflexivity].
    exact (replace_last_none _ _ _ V).
Qed.

Definition occurs (c : ascii) (t : str) : nat := count_occ ascii_dec t c.

Lemma replace_loop_all c new : ~ In c new -> forall fuel t, occurs c t < fuel ->
  replace_loop fuel c new t = Some (replaced c new t).
Proof.
  intros NN. induction fuel as [|f IH]; intros t L; [lia|]. cbn [replace_loop].
  destruct (replace_last c new t) as [t'|] eqn:V.
  - destruct (replace_last_some _ _ _ _ V) as (a & b & -> & NB & ->).
    rewrite IH.
    + f_equal. unfold replaced. rewrite !flat_map_app. cbn [flat_map]. rewrite Ascii.eqb_refl.
      f_equal. f_equal. apply (replaced_without c new new NN).
    + unfold occurs in *. rewrite count_occ_app in *. rewrite count_occ_app.
      cbn [count_occ] in L. destruct (ascii_dec c c); [|contradiction].
      rewrite (proj1 (count_occ_not_In ascii_dec new c) NN). lia.
  - f_equal. symmetry. apply replaced_without. exact (replace_last_none _ _ _ V).
Qed.

Lemma occurs_le c t : occurs c t <= length t.
Proof. apply count_occ_bound. Qed.

Lemma escape_quoted t : escapeXmlQuoteApostropheChars t = Some (quoted t).
Proof.
  unfold escapeXmlQuoteApostropheChars.
  rewrite (replace_loop_all dquote (lit "&quot;"));
    [|cbn; intuition discriminate|pose proof (occurs_le dquote t); lia].
  rewrite (replace_loop_all apostrophe (lit "&apos;"));
    [|cbn; intuition discriminate|
     pose proof (occurs_le apostrophe (replaced dquote (lit "&quot;") t)); lia].
  f_equal. unfold replaced, quoted. induction t as [|c t IH]; [reflexivity|].
  cbn [flat_map]. rewrite flat_map_app, IH. f_equal.
  change """"%char with dquote. destruct (Ascii.eqb c dquote); [reflexivity|].
  cbn [flat_map]. rewrite app_nil_r. reflexivity.
Qed.

Lemma quoted_clean t : ~ In Ascii.zero t -> clean (quoted t).
Proof.
  intros NZ. unfold quoted. split; intros I; apply in_flat_map in I; destruct I as (c & IC & I).
  - destruct (Ascii.eqb_spec c """"%char) as [E|E]; [cbn in I; intuition discriminate|].
    destruct (Ascii.eqb_spec c "'"%char) as [E'|E']; [cbn in I; intuition discriminate|].
    destruct I as [I|[]]. auto.
  - destruct (Ascii.eqb_spec c """"%char) as [E|E]; [cbn in I; intuition discriminate|].
    destruct (Ascii.eqb_spec c "'"%char) as [E'|E']; [cbn in I; intuition discriminate|].
    destruct I as [I|[]]. subst c. auto.
Qed.

(** A loop that puts in the character it looks for does not end. *)
Lemma replace_loop_never c new : In c new -> forall fuel t, In c t ->
  replace_loop fuel c new t = None.
Proof.
  intros IN. induction fuel as [|f IH]; intros t I; [reflexivity|]. cbn [replace_loop].
  destruct (replace_last c new t) as [t'|] eqn:V.
  - destruct (replace_last_some _ _ _ _ V) as (a & b & -> & _ & ->). apply IH.
    rewrite !in_app_iff. auto.
  - destruct (replace_last_none _ _ _ V I).
Qed.

(** Reading back. *)
Lemma prefix_quoted p : forall t, ~ In "&"%char p -> ~ In """"%char p -> ~ In "'"%char p ->
  is_prefix p (quoted t) = true -> is_prefix p t = true.
Proof.
  induction p as [|x p IH]; intros t N1 N2 N3 P; [reflexivity|].
  destruct t as [|c t]; [discriminate|]. unfold quoted in P. cbn [flat_map] in P.
  destruct (Ascii.eqb_spec c """"%char) as [E|E].
  { cbn in P. destruct (Ascii.eqb_spec x "&"%char) as [E'|E']; [|discriminate].
    exfalso. apply N1. now left. }
  destruct (Ascii.eqb_spec c "'"%char) as [E2|E2].
  { cbn in P. destruct (Ascii.eqb_spec x "&"%char) as [E'|E']; [|discriminate].
    exfalso. apply N1. now left. }
  cbn [app is_prefix] in *. apply andb_true_iff in P. destruct P as (P1 & P2). rewrite P1.
  cbn [andb]. apply IH; [intros I; apply N1; now right|intros I; apply N2; now right|
    intros I; apply N3; now right|exact P2].
Qed.

Lemma prefix_split p : forall t, is_prefix p t = true -> exists b, t = p ++ b.
Proof.
  induction p as [|x p IH]; intros t P; [exists t; reflexivity|].
  destruct t as [|c t]; [cbn in P; discriminate|].
  cbn [is_prefix] in P. apply andb_true_iff in P. destruct P as (P1 & P2). apply Ascii.eqb_eq in P1.
  subst c. destruct (IH t P2) as (b & ->). exists b. reflexivity.
Qed.

Lemma unquoted_quoted t : no_entity t -> unquoted 0 (quoted t) = t.
Proof.
  induction t as [|c t IH]; intros NE; [reflexivity|].
  assert (NE' : no_entity t).
  { intros a b. destruct (NE (c :: a) b) as (A & B). split; intros ->; [now apply A|now apply B]. }
  specialize (IH NE'). unfold quoted. cbn [flat_map]. fold (quoted t).
  destruct (Ascii.eqb_spec c """"%char) as [->|E].
  { change (""""%char :: unquoted 0 (quoted t) = """"%char :: t). now rewrite IH. }
  destruct (Ascii.eqb_spec c "'"%char) as [->|E2].
  { change ("'"%char :: unquoted 0 (quoted t) = "'"%char :: t). now rewrite IH. }
  cbn [app unquoted].
  destruct (is_prefix (lit "&quot;") (c :: quoted t)) eqn:P1.
  { exfalso. change (lit "&quot;") with ("&"%char :: lit "quot;") in P1. cbn [is_prefix] in P1.
    apply andb_true_iff in P1. destruct P1 as (Q & P). apply Ascii.eqb_eq in Q. subst c.
    apply prefix_quoted in P; try (vm_compute; intuition discriminate).
    destruct (prefix_split _ _ P) as (b & ->). destruct (NE [] b) as (A & _). now apply A. }
  destruct (is_prefix (lit "&apos;") (c :: quoted t)) eqn:P2.
  { exfalso. change (lit "&apos;") with ("&"%char :: lit "apos;") in P2. cbn [is_prefix] in P2.
    apply andb_true_iff in P2. destruct P2 as (Q & P). apply Ascii.eqb_eq in Q. subst c.
    apply prefix_quoted in P; try (vm_compute; intuition discriminate).
    destruct (prefix_split _ _ P) as (b & ->). destruct (NE [] b) as (_ & A). now apply A. }
  now rewrite IH.
Qed.

(** C76: what a rendezvous offers. *)
From Coq Require Import String Ascii List ZArith Bool Lia Permutation Arith.
From Verif Require Import Base AlgebraModel AlgebraSpec FormulaModel FormulaSpec FormulaProofs FormulaProps CordonProps RendezvousModel RendezvousSpec NextPerm RendezvousProofs RendezvousTurns.
Import ListNotations.
Open Scope list_scope.
Open Scope Z_scope.

Lemma group_body l : Forall (fun a => 0 <= a < 2 ^ 63) l -> writes_list (map Act l) (concat (map (fun o => lit "p" ++ to_string_Z o ++ lit " ") l)).
Proof.
  intros B. induction B as [|a l A B IH]; [constructor|]. cbn [map concat]. rewrite <- !app_assoc.
  change (lit "p" ++ to_string_Z a ++ lit " " ++ ?x) with (("p"%char :: to_string_Z a) ++ " "%char :: x).
  apply wl_cons; [apply writes_number; assumption|exact IH].
Qed.
Lemma group_writes l : Forall (fun a => 0 <= a < 2 ^ 63) l -> writes (Op Seq (map Act l)) (group l).
Proof.
  intros B. unfold group.
  change (lit ".( " ++ ?x ++ lit ")") with (op_char Seq :: "("%char :: (" "%char :: x) ++ [")"%char]).
  apply w_op, wl_space, group_body, B.
Qed.
Lemma groups_writes ls : Forall (Forall (fun a => 0 <= a < 2 ^ 63)) ls ->
  exists s, writes (formula ls) s /\ lit "+( " ++ concat (map (fun l => group l ++ lit " ") ls) ++ lit ") " = s ++ [" "%char].
Proof.
  intros B. exists (op_char Alt :: "("%char :: (" "%char :: concat (map (fun l => group l ++ lit " ") ls)) ++ [")"%char]). split.
  - apply w_op, wl_space. induction B as [|l ls L B IH]; [constructor|]. cbn [map concat]. rewrite <- app_assoc.
    change (lit " " ++ ?x) with (" "%char :: x). apply wl_cons; [apply group_writes, L|exact IH].
  - change (lit ") ") with ([")"%char] ++ [" "%char]). rewrite !app_assoc. cbn [app lit String.list_ascii_of_string op_char]. rewrite <- app_assoc. reflexivity.
Qed.

Lemma pl_length v : forall states i, (length (pl v i states) <= length states)%nat.
Proof. induction states as [|p s IH]; intros i; cbn [pl length]; [lia|]. specialize (IH (S i)). destruct ((p =? 0) || (p =? v)); cbn [length]; lia. Qed.
Lemma all_pairs_length vs states : (length (all_pairs vs states) <= length vs * length states)%nat.
Proof.
  induction vs as [|v vs IH]; [cbn; lia|]. cbn [all_pairs flat_map length]. rewrite app_length, map_length. fold (all_pairs vs states).
  pose proof (pl_length v states 0). lia.
Qed.
Lemma option_bound groups states x : In x (options groups states) ->
  10 + Z.of_nat (length (concat groups) * length states) <= 2 ^ 63 -> 0 <= o_id x < 2 ^ 63.
Proof.
  intros X B. apply (in_map o_id) in X. rewrite options_num, num_ids in X. apply in_map_iff in X. destruct X as (n & <- & X). apply in_seq in X.
  pose proof (all_pairs_length (concat groups) states). lia.
Qed.

Lemma consistent_same k : forall sizes, (forall n, In n sizes -> n = k) -> consistent k k sizes = Some k.
Proof.
  induction sizes as [|n sizes IH]; intros H; [reflexivity|]. cbn [consistent]. rewrite (H n) by (left; reflexivity). rewrite Nat.eqb_refl.
  apply IH. intros m M. apply H. right. exact M.
Qed.
Lemma consistent_all k sizes : sizes <> [] -> (forall n, In n sizes -> n = k) -> consistent k 1 sizes = Some k.
Proof.
  intros NE H. destruct sizes as [|n sizes]; [congruence|]. assert (n = k) by (apply H; left; reflexivity). subst n. cbn [consistent].
  assert (R : consistent k k sizes = Some k) by (apply consistent_same; intros m M; apply H; right; exact M).
  destruct (Nat.eqb_spec 1 k) as [<-|]; [exact R|]. rewrite !Nat.eqb_refl. cbn [andb]. exact R.
Qed.
Lemma consistent_sizes k : forall sizes r r', consistent k r sizes = Some r' -> r = 1%nat \/ r = k -> forall n, In n sizes -> n = 1%nat \/ n = k.
Proof.
  induction sizes as [|m sizes IH]; intros r r' H R n N; [destruct N|]. cbn [consistent] in H. destruct (Nat.eqb_spec r m) as [<-|].
  - destruct N as [<-|N]; [exact R|]. eapply IH; eassumption.
  - destruct (Nat.eqb r 1 && Nat.eqb m k) eqn:E; [|discriminate]. apply andb_prop in E. destruct E as (_ & E). apply Nat.eqb_eq in E. subst m.
    destruct N as [<-|N]; [right; reflexivity|]. apply (IH k r' H); [right; reflexivity|exact N].
Qed.

Section Offer.
  Context (order : list Z -> list Z) (order_perm : forall l, Permutation l (order l)).
  Context (groups : list (list Z)) (states : list Z) (ND : NoDup (concat groups)).
  Let l := options groups states.
  Let vs := order (vehicles l).

  Lemma vs_in v : In v vs <-> In v (concat groups) /\ pl v 0 states <> [].
  Proof.
    rewrite <- (vehicles_in groups states ND). unfold vs. split; apply Permutation_in; [apply Permutation_sym|]; apply order_perm.
  Qed.
  Lemma vs_nodup : NoDup vs.
  Proof. apply (Permutation_NoDup (order_perm _)). apply NoDup_nodup. Qed.

  Definition chosen (t : list Z) (w : list (Z * nat)) : Prop := Forall2 (fun a p => nth_error (ids l (fst p)) (snd p) = Some a) t w.

  Lemma chosen_done t w : (forall p, In p w -> In (fst p) (concat groups)) -> (chosen t w <-> done_by l states t w).
  Proof.
    intros H. split; intros F.
    - induction F as [|a p t w A F IH]; constructor.
      + apply (ids_nth groups states ND) in A; [|apply H; left; reflexivity]. destruct A as (x & X1 & X2 & X3 & X4).
        exists x, (pl (fst p) 0 states). split; [exact X1|]. split; [exact X2|]. split; [exact X3|]. split; [apply pl_places|exact X4].
      + apply IH. intros q Q. apply H. right. exact Q.
    - induction F as [|a p t w A F IH]; constructor.
      + destruct A as (x & ps & X1 & X2 & X3 & X4 & X5). apply (ids_nth groups states ND); [apply H; left; reflexivity|].
        exists x. rewrite <- (places_pl _ _ _ X4). auto.
      + apply IH. intros q Q. apply H. right. exact Q.
  Qed.
  Lemma chosen_fun t t' w : chosen t w -> chosen t' w -> t = t'.
  Proof.
    intros F. revert t'. induction F as [|a p t w A F IH]; intros t' G; inversion G; subst; [reflexivity|]. f_equal; [congruence|]. apply IH. assumption.
  Qed.
  Lemma chosen_known t w a : chosen t w -> (forall p, In p w -> In (fst p) (concat groups)) -> In a t -> exists x, In x l /\ o_id x = a.
  Proof.
    intros F H A. apply (chosen_done t w H) in F. induction F as [|b p t w (x & ps & X1 & X2 & _) F IH]; [destruct A|].
    destruct A as [<-|A]; [exists x; auto|]. apply IH; [intros q Q; apply H; right; exact Q|exact A].
  Qed.

  Lemma pick_spec : forall us mask o, length mask = length us -> length (select us mask) = length o ->
    (forall v j, In v us -> In j o -> exists a, nth_error (ids l v) j = Some a) ->
    exists t, pick (map (ids l) us) mask o = Some t /\ chosen t (combine (select us mask) o).
  Proof.
    induction us as [|v us IH]; intros mask o L S H; destruct mask as [|b mask]; try discriminate; [exists []; split; [reflexivity|constructor]|].
    cbn in L. injection L as L. destruct b; cbn [map pick select] in *.
    - destruct o as [|j o]; [discriminate|]. cbn in S. injection S as S. destruct (H v j) as (a & A); [left; reflexivity|left; reflexivity|].
      destruct (IH mask o L S) as (t & T & C); [intros; apply H; right; assumption|]. rewrite A, T. exists (a :: t). split; [reflexivity|]. constructor; assumption.
    - apply IH; [exact L|exact S|]. intros u j U J. apply H; [right; exact U|exact J].
  Qed.
  Lemma picks_spec k ts : (k <= length vs)%nat -> (forall v, In v vs -> length (pl v 0 states) = k) -> (forall t, In t ts -> turn vs k t) ->
    exists ls, picks (map (ids l) vs) ts = Some ls /\ Forall2 chosen ls (map (way vs) ts).
  Proof.
    intros K E. induction ts as [|[m o] ts IH]; intros T; [exists []; split; [reflexivity|constructor]|].
    destruct IH as (ls & P & F); [intros t I; apply T; right; exact I|]. pose proof (T (m, o) (or_introl eq_refl)) as T0.
    destruct (turn_lengths vs k K (m, o) T0) as (L1 & L2 & L3). cbn [fst snd] in *.
    destruct (pick_spec vs m o L1 ltac:(congruence)) as (t & Q & C).
    { intros v j V J. destruct T0 as (_ & T2). cbn in T2. apply (Permutation_in _ (Permutation_sym T2)), in_seq in J.
      destruct (nth_error (ids l v) j) as [a|] eqn:A; [exists a; reflexivity|]. exfalso. apply nth_error_None in A.
      apply vs_in in V as V'. unfold l in A. rewrite (ids_length groups states ND v (proj1 V')), (E v V) in A. lia. }
    cbn [picks]. rewrite Q, P. exists (t :: ls). split; [reflexivity|]. constructor; [exact C|exact F].
  Qed.

  Lemma sizes_eq : map (@length Z) (map (ids l) vs) = map (fun v => length (pl v 0 states)) vs.
  Proof. rewrite map_map. apply map_ext_in. intros v V. apply vs_in in V. apply (ids_length groups states ND), V. Qed.
End Offer.

Lemma forall2_in {A B} (R : A -> B -> Prop) a b x : Forall2 R a b -> In x a -> exists y, In y b /\ R x y.
Proof. intros F. induction F as [|u v a b U F IH]; intros []; [subst; exists v; split; [left; reflexivity|exact U]|]. destruct (IH H) as (y & Y & Q). exists y. split; [right; exact Y|exact Q]. Qed.
Lemma forall2_in' {A B} (R : A -> B -> Prop) a b y : Forall2 R a b -> In y b -> exists x, In x a /\ R x y.
Proof. intros F. induction F as [|u v a b U F IH]; intros []; [subst; exists u; split; [left; reflexivity|exact U]|]. destruct (IH H) as (x & X & Q). exists x. split; [right; exact X|exact Q]. Qed.

Lemma forall2_len {A B} (R : A -> B -> Prop) a b : Forall2 R a b -> length a = length b.
Proof. intros F. induction F; cbn; congruence. Qed.

(** Vehicles with no place for them are left out.  If every other vehicle has as many places as vehicles are to meet, and there are enough of
    them, then the composition allows ways of meeting only, no two of them the same: either all there are, or 64 of them. *)
Theorem C76_meeting : forall order groups states k,
  (forall l, Permutation l (order l)) -> NoDup (concat groups) -> (1 <= k)%nat ->
  (forall v ps, In v (concat groups) -> places states v ps -> ps = [] \/ length ps = k) ->
  (exists us, NoDup us /\ length us = k /\ forall v, In v us -> In v (concat groups) /\ exists i, suits states v i) ->
  10 + Z.of_nat (length (concat groups) * length states) <= 2 ^ 63 ->
  exists l c e ws, offer order groups states k = Some (l, c) /\ complete l (concat groups) states
    /\ reads c e /\ incl (actions e) (map o_id l)
    /\ (forall t, traces e t <-> exists w, In w ws /\ done_by l states t w)
    /\ (forall w, In w ws -> meeting (concat groups) states k w)
    /\ NoDup ws /\ (forall w w', In w ws -> In w' ws -> Permutation w w' -> w = w')
    /\ (length ws = 64%nat \/ (length ws < 64)%nat /\ forall w, meeting (concat groups) states k w -> exists w', In w' ws /\ Permutation w w').
Proof.
  intros order groups states k OP ND K1 EACH (us & UN & UL & UI) B.
  set (l := options groups states). set (vs := order (vehicles l)).
  assert (VI := vs_in order OP groups states ND). fold l vs in VI. assert (VN := vs_nodup order OP groups states). fold l vs in VN.
  assert (K : (k <= length vs)%nat).
  { rewrite <- UL. apply NoDup_incl_length; [exact UN|]. intros v V. apply VI. destruct (UI v V) as (G & i & S). split; [exact G|].
    destruct (pl_places states v) as (_ & P & _). apply P in S. destruct (pl v 0 states); [destruct S|discriminate]. }
  assert (PK : forall v, In v vs -> length (pl v 0 states) = k).
  { intros v V. apply VI in V. destruct V as (V & NE). destruct (EACH v _ V (pl_places states v)); [congruence|assumption]. }
  destruct (all_turns_spec (length vs) k K) as (A1 & A2 & A3 & A4). set (T := all_turns (length vs) k) in *.
  assert (TT : forall t, In t T -> turn vs k t) by (intros [m o] I; apply A1 in I; exact I).
  destruct (picks_spec order OP groups states ND k T) as (ls & P & F); [exact K|exact PK|exact TT|]. fold l vs in P, F.
  set (ws := map (way vs) T) in *.
  assert (WM : forall w, In w ws -> meeting (concat groups) states k w).
  { intros w W. apply in_map_iff in W. destruct W as (t & <- & I). pose proof (TT t I) as TU. destruct TU as (T1 & T2). split; [|split].
    - rewrite (way_fst vs k K t (TT t I)). apply select_nodup, VN.
    - rewrite (way_snd vs k K t (TT t I)). apply Permutation_sym, T2.
    - intros v j V. assert (VV : In v vs).
      { apply (in_map fst) in V. rewrite (way_fst vs k K t (TT t I)) in V. apply select_in in V. exact V. }
      split; [apply VI, VV|]. apply (in_map snd) in V. rewrite (way_snd vs k K t (TT t I)) in V. cbn in V.
      apply (Permutation_in _ (Permutation_sym T2)), in_seq in V.
      exists (pl v 0 states). destruct (nth_error (pl v 0 states) j) as [i|] eqn:E; [exists i; split; [apply pl_places|reflexivity]|].
      apply nth_error_None in E. rewrite (PK v VV) in E. lia. }
  assert (WG : forall w, In w ws -> forall p, In p w -> In (fst p) (concat groups)).
  { intros w W [v j] Q. apply (WM w W) in Q. apply Q. }
  assert (LB : Forall (Forall (fun a => 0 <= a < 2 ^ 63)) ls).
  { apply Forall_forall. intros t I. apply Forall_forall. intros a A. destruct (forall2_in _ _ _ _ F I) as (w & W & C).
    destruct (chosen_known groups states ND t w a C (WG w W) A) as (x & X & <-). apply (option_bound groups states x X B). }
  assert (LK : forall t a, In t ls -> In a t -> In a (map o_id l)).
  { intros t a I A. destruct (forall2_in _ _ _ _ F I) as (w & W & C). destruct (chosen_known groups states ND t w a C (WG w W) A) as (x & X & <-).
    apply in_map, X. }
  assert (LT : forall t, In t ls <-> exists w, In w ws /\ done_by l states t w).
  { intros t. split.
    - intros I. destruct (forall2_in _ _ _ _ F I) as (w & W & C). exists w. split; [exact W|]. apply (chosen_done groups states ND t w (WG w W)), C.
    - intros (w & W & D). apply (chosen_done groups states ND t w (WG w W)) in D. destruct (forall2_in' _ _ _ _ F W) as (t' & I & C).
      rewrite (chosen_fun groups states t t' w D C). exact I. }
  assert (CO : exists c e, composition k k (map (ids l) vs) = Some c /\ reads c e /\ incl (actions e) (map o_id l) /\ forall t, traces e t <-> In t ls).
  { unfold composition. rewrite map_length. destruct (Nat.eqb k 1 && Nat.eqb k (length vs)) eqn:E.
    - apply andb_prop in E. destruct E as (E1 & E2). apply Nat.eqb_eq in E1, E2. unfold T in P. rewrite <- E2, E1 in P.
      change (all_turns 1 1) with [(repeat true 1, repeat 0%nat 1)] in P. rewrite E1, P.
      assert (L1 : length ls = 1%nat).
      { rewrite (forall2_len _ _ _ F). unfold ws, T. rewrite map_length, <- E2, E1. reflexivity. }
      destruct ls as [|t [|? ?]]; try discriminate. exists (group t), (Op Seq (map Act t)). split; [reflexivity|]. inversion LB; subst. split; [|split].
      + exists (group t). split; [apply group_writes; assumption|left; reflexivity].
      + intros a A. apply (LK t a); [left; reflexivity|]. cbn [actions] in A. apply in_flat_map in A. destruct A as (e & E3 & A). apply in_map_iff in E3.
        destruct E3 as (b & <- & BI). destruct A as [<-|[]]. exact BI.
      + intros t'. rewrite seq_traces. cbn. intuition congruence.
    - fold T. rewrite P. destruct (groups_writes ls LB) as (s & W & ES). eexists _, (formula ls). split; [reflexivity|]. split; [|split].
      + exists s. split; [exact W|right; exact ES].
      + intros a A. apply formula_actions in A. destruct A as (t & I & A). exact (LK t a I A).
      + apply formula_traces. }
  destruct CO as (c & e & C1 & C2 & C3 & C4). exists l, c, e, ws.
  assert (INJ : forall w w', In w ws -> In w' ws -> Permutation w w' -> w = w').
  { intros w w' W W' Q. apply in_map_iff in W, W'. destruct W as (t & <- & I). destruct W' as (t' & <- & I').
    rewrite (way_inj vs VN k K t t' (TT t I) (TT t' I') Q). reflexivity. }
  split; [|split; [apply options_complete, ND|split; [exact C2|split; [exact C3|split; [|split; [exact WM|split; [|split; [exact INJ|]]]]]]]].
  - unfold offer. cbv zeta. rewrite (sizes_eq order OP groups states ND). fold l vs. rewrite consistent_all; [rewrite C1; reflexivity| |].
    + intros E. apply map_eq_nil in E. rewrite E in K. cbn in K. lia.
    + intros n N. apply in_map_iff in N. destruct N as (v & <- & V). apply PK, V.
  - intros t. rewrite C4. apply LT.
  - unfold ws. clear - A2 TT VN K. induction A2 as [|t T NI A2 IH]; [constructor|]. cbn. constructor; [|apply IH; intros u U; apply TT; right; exact U].
    intros I. apply in_map_iff in I. destruct I as (t' & E & I). apply NI. rewrite <- (way_inj vs VN k K t' t); [exact I|apply TT; right; exact I|apply TT; left; reflexivity|rewrite E; reflexivity].
  - assert (WL : length ws = length T) by apply map_length. change limit with 64%nat in A3, A4. destruct A4 as [A4|A4]; [left; lia|].
    destruct (Nat.eq_dec (length ws) 64) as [E|E]; [left; exact E|right]. split; [lia|].
    intros w (W1 & W2 & W3). destruct (way_exists vs VN k K w W1 W2) as (t & TU & Q).
    { intros v V. apply in_map_iff in V. destruct V as ([v' j] & <- & V). apply VI. destruct (W3 _ _ V) as (G & ps & i & PP & N). split; [exact G|].
      cbn [fst] in *. rewrite <- (places_pl _ _ _ PP). intros ->. destruct j; discriminate. }
    exists (way vs t). split; [|exact Q]. apply in_map. destruct t as [m o]. apply A4; apply TU.
Qed.
Print Assumptions C76_meeting.

(** Options are published for every vehicle at every place for it, or none. *)
Theorem C76_options : forall order groups states k l c,
  NoDup (concat groups) -> offer order groups states k = Some (l, c) -> l = [] /\ c = [] \/ complete l (concat groups) states.
Proof.
  intros order groups states k l c ND H. unfold offer in H. cbv zeta in H. destruct (consistent _ _ _) as [r|]; [|injection H as <- <-; left; auto].
  destruct (composition _ _ _) as [c'|]; [|discriminate]. injection H as <- <-. right. apply options_complete, ND.
Qed.
Print Assumptions C76_options.

(** If every vehicle has one place at most, and as many have one as are to meet, then all of them meet. *)
Theorem C76_everyone : forall order groups states us,
  (forall l, Permutation l (order l)) -> NoDup (concat groups) -> NoDup us ->
  (forall v, In v us <-> In v (concat groups) /\ exists i, suits states v i) ->
  (forall v i j, In v us -> suits states v i -> suits states v j -> i = j) ->
  10 + Z.of_nat (length (concat groups) * length states) <= 2 ^ 63 ->
  exists l c e w, offer order groups states (length us) = Some (l, c) /\ complete l (concat groups) states
    /\ reads c e /\ incl (actions e) (map o_id l)
    /\ Permutation us (map fst w) /\ (forall v j, In (v, j) w -> j = 0%nat)
    /\ (forall t, traces e t <-> done_by l states t w) /\ exists t, traces e t.
Proof.
  intros order groups states us OP ND UN UI ONE B.
  set (l := options groups states). set (vs := order (vehicles l)).
  assert (VI := vs_in order OP groups states ND). fold l vs in VI. assert (VN := vs_nodup order OP groups states). fold l vs in VN.
  assert (VU : Permutation us vs).
  { apply NoDup_Permutation; [exact UN|exact VN|]. intros v. rewrite UI, VI. destruct (pl_places states v) as (_ & P & _). split; intros (G & H); (split; [exact G|]).
    - destruct H as (i & H). apply P in H. destruct (pl v 0 states); [destruct H|discriminate].
    - destruct (pl v 0 states) as [|i ?]; [congruence|]. exists i. apply P. left. reflexivity. }
  assert (LV : length us = length vs) by (apply Permutation_length, VU).
  assert (P1 : forall v, In v vs -> length (pl v 0 states) = 1%nat).
  { intros v V. apply VI in V as V2. destruct V2 as (_ & NE). destruct (pl_places states v) as (PN & P & _).
    destruct (pl v 0 states) as [|i [|j q]]; [congruence|reflexivity|]. exfalso.
    assert (i = j) by (apply (ONE v); [apply (Permutation_in _ (Permutation_sym VU)), V|apply P; left; reflexivity|apply P; right; left; reflexivity]).
    subst j. inversion PN as [|? ? X _]. apply X. left. reflexivity. }
  set (w := combine vs (repeat 0%nat (length vs))).
  assert (W1 : map fst w = vs) by (apply combine_fst; rewrite repeat_length; reflexivity).
  assert (W2 : map snd w = repeat 0%nat (length vs)) by (apply combine_snd; rewrite repeat_length; reflexivity).
  assert (WG : forall p, In p w -> In (fst p) (concat groups)).
  { intros p Q. apply (in_map fst) in Q. rewrite W1 in Q. apply VI, Q. }
  assert (SEL : forall (us : list Z), select us (repeat true (length us)) = us) by (induction us0 as [|u us0 IH]; [reflexivity|]; cbn; rewrite IH; reflexivity).
  destruct (pick_spec groups states vs (repeat true (length vs)) (repeat 0%nat (length vs))) as (t & P & C).
  { apply repeat_length. } { rewrite SEL, repeat_length. reflexivity. }
  { intros v j V J. apply repeat_spec in J. subst j. destruct (nth_error (ids (options groups states) v) 0) as [a|] eqn:A; [exists a; reflexivity|].
    apply nth_error_None in A. rewrite (ids_length groups states ND v) in A by apply VI, V. rewrite (P1 v V) in A. lia. }
  rewrite SEL in C. fold w in C. fold l in P.
  exists l, (group t), (Op Seq (map Act t)), w.
  assert (TK : forall a, In a t -> exists x, In x l /\ o_id x = a) by (intros a A; exact (chosen_known groups states ND t w a C WG A)).
  split; [|split; [apply options_complete, ND|split; [|split; [|split; [rewrite W1; exact VU|split; [|split]]]]]].
  - unfold offer. cbv zeta. rewrite (sizes_eq order OP groups states ND). fold l vs.
    replace (consistent (length us) 1 _) with (Some 1%nat).
    + unfold composition. rewrite map_length, LV. rewrite !Nat.eqb_refl. cbn [andb picks]. rewrite P. reflexivity.
    + symmetry. assert (Q : forall sizes, (forall n, In n sizes -> n = 1%nat) -> consistent (length us) 1 sizes = Some 1%nat).
      { induction sizes as [|n sizes IH]; intros H; [reflexivity|]. cbn [consistent]. rewrite (H n) by (left; reflexivity). apply IH. intros m M. apply H. right. exact M. }
      apply Q. intros n N. apply in_map_iff in N. destruct N as (v & <- & V). apply P1, V.
  - exists (group t). split; [|left; reflexivity]. apply group_writes. apply Forall_forall. intros a A. destruct (TK a A) as (x & X & <-).
    apply (option_bound groups states x X B).
  - intros a A. cbn [actions] in A. apply in_flat_map in A. destruct A as (e & E3 & A). apply in_map_iff in E3.
    destruct E3 as (b & <- & BI). destruct A as [<-|[]]. destruct (TK b BI) as (x & X & <-). apply in_map, X.
  - intros v j Q. apply (in_map snd) in Q. rewrite W2 in Q. apply repeat_spec in Q. exact Q.
  - intros t'. unfold l. rewrite seq_traces, <- (chosen_done groups states ND t' w WG). split; [intros ->; exact C|intros Q; exact (chosen_fun groups states t' t w Q C)].
  - exists t. apply seq_traces. reflexivity.
Qed.
Print Assumptions C76_everyone.

(** If some vehicle has several places, but not as many as vehicles are to meet, then nothing is offered. *)
Theorem C76_mismatch : forall order groups states k v ps,
  (forall l, Permutation l (order l)) -> NoDup (concat groups) ->
  In v (concat groups) -> places states v ps -> (2 <= length ps)%nat -> length ps <> k ->
  offer order groups states k = Some ([], []).
Proof.
  intros order groups states k v ps OP ND V P L K. unfold offer. cbv zeta. rewrite (sizes_eq order OP groups states ND).
  destruct (consistent _ _ _) as [r|] eqn:E; [|reflexivity]. exfalso.
  destruct (consistent_sizes k _ _ _ E (or_introl eq_refl) (length ps)) as [H|H]; [|lia|congruence].
  apply in_map_iff. exists v. apply places_pl in P. subst ps. split; [reflexivity|]. apply (vs_in order OP groups states ND). split; [exact V|].
  intros Z. rewrite Z in L. cbn in L. lia.
Qed.
Print Assumptions C76_mismatch.

(** But if there is one place for each and only some of the vehicles are to meet, no options are published. *)
Theorem C76_one_place_fails : forall order groups states us k,
  (forall l, Permutation l (order l)) -> NoDup (concat groups) -> NoDup us ->
  (forall v, In v us <-> In v (concat groups) /\ exists i, suits states v i) ->
  (forall v i j, In v us -> suits states v i -> suits states v j -> i = j) ->
  (2 <= k)%nat -> (2 <= length us)%nat -> k <> length us ->
  offer order groups states k = None.
Proof.
  intros order groups states us k OP ND UN UI ONE K L2 KN.
  set (l := options groups states). set (vs := order (vehicles l)).
  assert (VI := vs_in order OP groups states ND). fold l vs in VI. assert (VN := vs_nodup order OP groups states). fold l vs in VN.
  assert (VU : Permutation us vs).
  { apply NoDup_Permutation; [exact UN|exact VN|]. intros v. rewrite UI, VI. destruct (pl_places states v) as (_ & P & _). split; intros (G & H); (split; [exact G|]).
    - destruct H as (i & H). apply P in H. destruct (pl v 0 states); [destruct H|discriminate].
    - destruct (pl v 0 states) as [|i ?]; [congruence|]. exists i. apply P. left. reflexivity. }
  assert (P1 : forall v, In v vs -> length (pl v 0 states) = 1%nat).
  { intros v V. apply VI in V as V2. destruct V2 as (_ & NE). destruct (pl_places states v) as (PN & P & _).
    destruct (pl v 0 states) as [|i [|j q]]; [congruence|reflexivity|]. exfalso.
    assert (i = j) by (apply (ONE v); [apply (Permutation_in _ (Permutation_sym VU)), V|apply P; left; reflexivity|apply P; right; left; reflexivity]).
    subst j. inversion PN as [|? ? X _]. apply X. left. reflexivity. }
  rewrite (Permutation_length VU) in L2, KN.
  unfold offer. cbv zeta. rewrite (sizes_eq order OP groups states ND). fold l vs.
  replace (consistent k 1 _) with (Some 1%nat).
  2:{ symmetry. assert (Q : forall sizes, (forall n, In n sizes -> n = 1%nat) -> consistent k 1 sizes = Some 1%nat).
      { induction sizes as [|n sizes IH]; intros H; [reflexivity|]. cbn [consistent]. rewrite (H n) by (left; reflexivity). apply IH. intros m M. apply H. right. exact M. }
      apply Q. intros n N. apply in_map_iff in N. destruct N as (v & <- & V). apply P1, V. }
  unfold composition. rewrite map_length. destruct (Nat.eqb_spec k (length vs)) as [|_]; [contradiction|]. cbn [Nat.eqb andb].
  assert (TH : exists T, all_turns (length vs) k = (first_mask (length vs) k, seq 0 k) :: T).
  { unfold all_turns. destruct limit as [|n] eqn:E; [discriminate|]. eexists. cbn [turns masks map app]. reflexivity. }
  destruct TH as (T & ->). cbn [picks].
  destruct vs as [|v1 [|v2 vs']]; cbn [length] in *; [lia|lia|]. destruct k as [|[|k]]; [lia|lia|].
  change (first_mask (S (S (length vs'))) (S (S k))) with (true :: true :: firstn (length vs') (repeat true k ++ repeat false (S (S (length vs'))))).
  change (seq 0 (S (S k))) with (0%nat :: 1%nat :: seq 2 k). cbn [map pick].
  assert (N2 : nth_error (ids l v2) 1 = None).
  { apply nth_error_None. assert (V2 : In v2 (v1 :: v2 :: vs')) by (right; left; reflexivity). unfold l. rewrite (ids_length groups states ND v2) by apply VI, V2.
    rewrite (P1 v2 V2). lia. }
  rewrite N2. destruct (nth_error (ids l v1) 0); reflexivity.
Qed.
Print Assumptions C76_one_place_fails.

Definition text (o : option (list option_ * str)) : option string := option_map (fun x => string_of_list_ascii (snd x)) o.

(** *** Cases *)

(** Three vehicles and two places for every one of them; four vehicles, one of them without a place. *)
Example C76_meeting_meets :
  text (offer (fun l => l) [[1; 2]; [3]] [0; 0] 2)
  = Some "+( .( p10 p13 ) .( p10 p15 ) .( p12 p15 ) .( p11 p12 ) .( p11 p14 ) .( p13 p14 ) ) "%string
  /\ NoDup (concat [[1; 2]; [3]])
  /\ (forall v ps, In v (concat [[1; 2]; [3]]) -> places [0; 0] v ps -> ps = [] \/ length ps = 2%nat)
  /\ (exists us, NoDup us /\ length us = 2%nat /\ forall v, In v us -> In v (concat [[1; 2]; [3]]) /\ exists i, suits [0; 0] v i).
Proof.
  split; [reflexivity|]. split; [repeat constructor; cbn; intuition lia|]. split.
  - intros v ps V P. right. rewrite (places_pl _ _ _ P). destruct V as [<-|[<-|[<-|[]]]]; reflexivity.
  - exists [1; 2]. split; [repeat constructor; cbn; intuition lia|]. split; [reflexivity|]. intros v V. split; [cbn in *; tauto|].
    exists 0%nat. left. reflexivity.
Qed.
Example C76_everyone_meets :
  text (offer (fun l => l) [[1; 2; 3]; [4]] [3; 2; 1] 3) = Some ".( p10 p11 p12 )"%string
  /\ (forall v, In v [1; 2; 3] <-> In v (concat [[1; 2; 3]; [4]]) /\ exists i, suits [3; 2; 1] v i)
  /\ (forall v i j, In v [1; 2; 3] -> suits [3; 2; 1] v i -> suits [3; 2; 1] v j -> i = j).
Proof.
  split; [reflexivity|]. split.
  - intros v. split.
    + intros V. split; [cbn in *; tauto|]. destruct V as [<-|[<-|[<-|[]]]]; [exists 2%nat|exists 1%nat|exists 0%nat]; right; reflexivity.
    + intros (V & i & S). destruct V as [<-|[<-|[<-|[<-|[]]]]]; try (cbn; tauto). exfalso. destruct S as [S|S]; destruct i as [|[|[|i]]]; cbn in S; try discriminate; destruct i; discriminate.
  - intros v i j V [S|S] [S'|S']; destruct i as [|[|[|i]]]; destruct j as [|[|[|j]]]; cbn in S, S'; try discriminate; try reflexivity; try (destruct i; discriminate); try (destruct j; discriminate);
    exfalso; congruence.
Qed.
(** Three vehicles, of which two are to meet at one place; two places where three are to meet. *)
Example C76_one_place_meets :
  offer (fun l => l) [[1; 2; 3]] [0] 2 = None
  /\ (forall v, In v [1; 2; 3] <-> In v (concat [[1; 2; 3]]) /\ exists i, suits [0] v i)
  /\ (forall v i j, In v [1; 2; 3] -> suits [0] v i -> suits [0] v j -> i = j)
  /\ offer (fun l => l) [[1; 2; 3]] [0; 0] 3 = Some ([], []) /\ places [0; 0] 1 [0%nat; 1%nat].
Proof.
  split; [reflexivity|]. split; [|split; [|split; [reflexivity|apply (pl_places [0; 0] 1)]]].
  - intros v. split; [intros V; split; [exact V|exists 0%nat; left; reflexivity]|intros (V & _); exact V].
  - intros v i j _ [S|S] [S'|S']; destruct i as [|i]; destruct j as [|j]; cbn in S, S'; try reflexivity; try (destruct i; discriminate); destruct j; discriminate.
Qed.

(** Refuted: what is published depends on the vehicles and the places only.  With one place for the one vehicle and two for the other,
    nothing is published or no options are, depending on the order in which a hash table is gone through. *)
Theorem C76_order_refuted :
  exists groups states k order order', (forall l, Permutation l (order l)) /\ (forall l, Permutation l (order' l))
    /\ offer order groups states k = None /\ offer order' groups states k = Some ([], []).
Proof.
  exists [[1; 2]], [1; 2; 2], 2%nat, (fun l => l), (@rev Z). split; [reflexivity|]. split; [apply Permutation_rev|]. split; reflexivity.
Qed.
Print Assumptions C76_order_refuted.

(** Refuted: only as many vehicles as are to meet can do the task.  If there are fewer, fewer do. *)
Theorem C76_too_few_refuted :
  exists groups states k l c e t, offer (fun l => l) groups states k = Some (l, c) /\ reads c e /\ traces e t
    /\ (length (concat groups) < k)%nat /\ (length t < k)%nat.
Proof.
  exists [[1]], [0; 0], 2%nat. eexists _, _. exists (formula [[10]; [11]]), [10]. split; [reflexivity|]. split; [|split; [apply formula_traces; left; reflexivity|cbn; lia]].
  destruct (groups_writes [[10]; [11]]) as (s & W & E); [repeat constructor; lia|]. exists s. split; [exact W|right; exact E].
Qed.
Print Assumptions C76_too_few_refuted.

(** Refuted: every way of meeting can be done.  Twelve vehicles have 132 ways of meeting at two places, of which 64 are offered. *)
Theorem C76_all_refuted :
  exists groups states k l c e w, offer (fun l => l) groups states k = Some (l, c) /\ reads c e
    /\ meeting (concat groups) states k w /\ forall t w', traces e t -> done_by l states t w' -> ~ Permutation w w'.
Proof.
  set (gs := [[1; 2; 3; 4; 5; 6; 7; 8; 9; 10; 11; 12]]). set (l := options gs [0; 0]).
  assert (ND : NoDup (concat gs)) by (repeat constructor; cbn; intuition lia).
  exists gs, [0; 0], 2%nat.
  destruct (picks (map (ids l) (vehicles l)) (all_turns 12 2)) as [ls|] eqn:P; [|vm_compute in P; discriminate].
  assert (C : offer (fun l => l) gs [0; 0] 2 = Some (l, lit "+( " ++ concat (map (fun l => group l ++ lit " ") ls) ++ lit ") ")).
  { unfold offer. cbv zeta. fold l. replace (consistent 2 1 _) with (Some 2%nat) by (vm_compute; reflexivity). unfold composition.
    replace (length (map (ids l) (vehicles l))) with 12%nat by (vm_compute; reflexivity). cbn [Nat.eqb andb]. rewrite P. reflexivity. }
  vm_compute in P. injection P as <-.
  match type of C with context [concat (map _ ?x)] => set (ls := x) in * end.
  exists l. eexists. exists (formula ls), [(1, 1%nat); (2, 0%nat)]. split; [exact C|].
  assert (LB : Forall (Forall (fun a => 0 <= a < 2 ^ 63)) ls).
  { apply Forall_forall. intros t T. apply Forall_forall. intros a A.
    assert (Q : forallb (forallb (fun a => (0 <=? a) && (a <? 1000))) ls = true) by (vm_compute; reflexivity).
    rewrite forallb_forall in Q. specialize (Q t T). rewrite forallb_forall in Q. specialize (Q a A). lia. }
  destruct (groups_writes ls LB) as (s & W & E). split; [exists s; split; [exact W|right; exact E]|]. split.
  - split; [repeat constructor; cbn; intuition lia|]. split; [apply perm_swap|]. intros v j [H|[H|[]]]; injection H as <- <-.
    + split; [left; reflexivity|]. exists [0%nat; 1%nat], 1%nat. split; [apply (pl_places [0; 0] 1)|reflexivity].
    + split; [right; left; reflexivity|]. exists [0%nat; 1%nat], 0%nat. split; [apply (pl_places [0; 0] 2)|reflexivity].
  - intros t w' T D PM. apply formula_traces in T.
    assert (G : forall p, In p w' -> In (fst p) (concat gs)).
    { intros p I. apply (Permutation_in _ (Permutation_sym PM)) in I. destruct I as [<-|[<-|[]]]; cbn; tauto. }
    apply (chosen_done gs [0; 0] ND t w' G) in D. unfold chosen in D. fold l in D.
    assert (HA : In 11 t).
    { assert (I : In (1, 1%nat) w') by (apply (Permutation_in _ PM); left; reflexivity). destruct (forall2_in' _ _ _ _ D I) as (a & A & X). vm_compute in X. injection X as <-. exact A. }
    assert (HB : In 12 t).
    { assert (I : In (2, 0%nat) w') by (apply (Permutation_in _ PM); right; left; reflexivity). destruct (forall2_in' _ _ _ _ D I) as (a & A & X). vm_compute in X. injection X as <-. exact A. }
    assert (Q : forallb (fun t => negb (existsb (Z.eqb 11) t && existsb (Z.eqb 12) t)) ls = true) by (vm_compute; reflexivity).
    rewrite forallb_forall in Q. specialize (Q t T).
    assert (E1 : existsb (Z.eqb 11) t = true) by (apply existsb_exists; exists 11; split; [exact HA|reflexivity]).
    assert (E2 : existsb (Z.eqb 12) t = true) by (apply existsb_exists; exists 12; split; [exact HB|reflexivity]).
    rewrite E1, E2 in Q. discriminate.
Qed.
Print Assumptions C76_all_refuted.

(** Refuted: the search for an assignment goes through every way that the composition allows.  Of the ways that begin with the same option
    it finds one. *)
Theorem C76_search_refuted :
  exists groups states k l c e t, offer (fun l => l) groups states k = Some (l, c) /\ reads c e /\ traces e t
    /\ forall t', Permutation t t' -> ~ offered_run (searchNext e) t'.
Proof.
  exists [[1; 2]; [3]], [0; 0], 2%nat. eexists _, _. exists (formula [[10; 13]; [10; 15]; [12; 15]; [11; 12]; [11; 14]; [13; 14]]), [10; 15].
  split; [reflexivity|]. split; [|split; [apply formula_traces; right; left; reflexivity|]].
  - match goal with |- reads _ (formula ?x) => destruct (groups_writes x) as (s & W & E) end; [repeat constructor; lia|]. exists s. split; [exact W|right; exact E].
  - intros t' P R. assert (T : t' = [10; 15] \/ t' = [15; 10]) by (apply Permutation_length_2_inv; exact P).
    destruct T as [->| ->].
    + inversion R as [|h a R' A E]. apply (app_inj_tail h [10]) in E. destruct E as (-> & ->). vm_compute in A. lia.
    + inversion R as [|h a R' A E]. apply (app_inj_tail h [15]) in E. destruct E as (-> & ->). clear A R.
      inversion R' as [|h a R A E]. apply (app_inj_tail h []) in E. destruct E as (-> & ->). vm_compute in A. lia.
Qed.
Print Assumptions C76_search_refuted.

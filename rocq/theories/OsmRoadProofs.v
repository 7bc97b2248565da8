(** Lemmas about lines along roads. *)
From Coq Require Import List ZArith Lia Bool.
From Verif Require Import ZMap AStarModel OsmMapModel OsmMapSpec OsmMapProofs OsmMapBuild OsmMapFacts OsmMapProps OsmWayProofs OsmWayProps
  OsmNearModel OsmNearProps OsmPlanModel OsmPlanSpec OsmPlanProofs OsmEgressModel OsmEgressProps OsmRoadModel.
Import ListNotations.
Open Scope list_scope.
Open Scope Z_scope.

(** *** Walking over a section without the extra nodes *)

Section Plain.
  Context (s e : Z) (s_pos : 0 < s) (e_pos : 0 < e).

  Lemma s_leb f : (s <=? 0) && f = false.
  Proof using s_pos. rewrite (proj2 (Z.leb_gt _ _)) by lia. reflexivity. Qed.

  Lemma plain_skip : forall l1 r f last, ~ In s l1 -> ~ In e l1 -> exists f' last', scan false s e f last (l1 ++ r) [] = scan false s e f' last' r [].
  Proof using s_pos e_pos.
    induction l1 as [|n l1 IH]; intros r f last S E; [exists f, last; reflexivity|]. cbn [app scan]. rewrite s_leb. cbn [orb].
    rewrite (proj2 (Z.eqb_neq n s)) by (intros ->; apply S; left; reflexivity). rewrite (proj2 (Z.eqb_neq n e)) by (intros ->; apply E; left; reflexivity).
    rewrite andb_false_r. apply IH; intros H; [apply S|apply E]; right; exact H.
  Qed.

  (** Once begun, all nodes are taken, up to the end. *)
  Lemma plain_all : forall r f last acc, acc <> [] -> (e = s \/ ~ In e r) -> scan false s e f last r acc = acc ++ r.
  Proof using s_pos.
    induction r as [|n r IH]; intros f last acc A E; cbn [scan]; [rewrite app_nil_r; reflexivity|]. rewrite s_leb. cbn [orb].
    assert (E' : e = s \/ ~ In e r) by (destruct E as [E|E]; [auto|right; intros H; apply E; right; exact H]).
    assert (A' : acc ++ [n] <> []) by (destruct acc; discriminate).
    destruct (Z.eqb_spec n s) as [->|N]; [rewrite IH by assumption; rewrite <- app_assoc; reflexivity|].
    rewrite (proj2 (Z.eqb_neq n e)) by (intros ->; destruct E as [E|E]; [congruence|apply E; left; reflexivity]). rewrite andb_false_r.
    destruct acc as [|x acc]; [congruence|]. rewrite IH by assumption. rewrite <- app_assoc. reflexivity.
  Qed.
  Lemma plain_stop : forall r1 r2 f last acc, acc <> [] -> e <> s -> ~ In e r1 -> scan false s e f last (r1 ++ e :: r2) acc = acc ++ r1 ++ [e; e].
  Proof using s_pos e_pos.
    induction r1 as [|n r1 IH]; intros r2 f last acc A E N; cbn [app scan]; rewrite s_leb; cbn [orb].
    - rewrite (proj2 (Z.eqb_neq e s)) by exact E. rewrite (proj2 (Z.ltb_lt 0 e)) by exact e_pos. rewrite Z.eqb_refl. cbn [andb]. destruct acc; [congruence|reflexivity].
    - assert (A' : acc ++ [n] <> []) by (destruct acc; discriminate). assert (N' : ~ In e r1) by (intros H; apply N; right; exact H).
      destruct (Z.eqb_spec n s) as [->|NS]; [rewrite IH by assumption; rewrite <- app_assoc; reflexivity|].
      rewrite (proj2 (Z.eqb_neq n e)) by (intros ->; apply N; left; reflexivity). rewrite andb_false_r.
      destruct acc as [|x acc]; [congruence|]. rewrite IH by assumption. rewrite <- app_assoc. reflexivity.
  Qed.
  Lemma plain_start l2 f last : scan false s e f last (s :: l2) [] = scan false s e false s l2 [s].
  Proof using s_pos. cbn [scan app]. rewrite s_leb. cbn [orb]. rewrite Z.eqb_refl. reflexivity. Qed.
End Plain.

Lemma in_first (x : Z) l : In x l -> exists l1 l2, l = l1 ++ x :: l2 /\ ~ In x l1.
Proof.
  induction l as [|y l IH]; intros H; [destruct H|]. destruct (Z.eq_dec y x) as [->|N].
  - exists [], l. split; [reflexivity|intros []].
  - destruct H as [H|H]; [congruence|]. destruct (IH H) as (l1 & l2 & -> & Q). exists (y :: l1), l2. split; [reflexivity|]. intros [H'|H']; [congruence|exact (Q H')].
Qed.

(** *** and with them *)

Section Extra.
  Context (s e : Z) (s_pos : 0 < s) (e_pos : 0 < e).

  (** Once begun: up to the end, or to the end of the section *)
  Lemma extra_begun : forall r f last acc, acc <> [] -> exists p q, last :: r = p ++ q /\ p <> [] /\ scan true s e f last r acc = acc ++ p
    /\ (In e (last :: r) -> In e p) /\ (hd_error (rev p) = Some e \/ (q = [] /\ (In e (last :: r) -> next_in (last :: r) e s))).
  Proof using s_pos e_pos.
    induction r as [|n r IH]; intros f last acc A; cbn [scan].
    - exists [last], []. split; [reflexivity|]. split; [discriminate|]. split; [destruct acc; [congruence|reflexivity]|]. split; [auto|].
      destruct (Z.eq_dec last e) as [->|N]; [left; reflexivity|right]. split; [reflexivity|]. intros [H|[]]; congruence.
    - rewrite s_leb by exact s_pos. cbn [orb].
      assert (ON : (n = s \/ last <> e) -> forall x, x = acc ++ [last] -> exists p q, last :: n :: r = p ++ q /\ p <> [] /\ scan true s e false n r x = acc ++ p
        /\ (In e (last :: n :: r) -> In e p) /\ (hd_error (rev p) = Some e \/ (q = [] /\ (In e (last :: n :: r) -> next_in (last :: n :: r) e s)))).
      { intros C x ->. destruct (IH false n (acc ++ [last])) as (p & q & E1 & P & E2 & I & F); [destruct acc; discriminate|].
        exists (last :: p), q. split; [rewrite E1; reflexivity|]. split; [discriminate|]. split; [rewrite E2, <- app_assoc; reflexivity|].
        split; [intros [->|H]; [left; reflexivity|right; apply I; exact H]|].
        destruct F as [F|(Q & F)]; [left; cbn [rev]; destruct (rev p); [discriminate|exact F]|right]. split; [exact Q|]. intros H.
        destruct (Z.eq_dec last e) as [->|NE].
        - destruct C as [->|C]; [|congruence]. exists [], r. reflexivity.
        - destruct H as [H|H]; [congruence|]. destruct (F H) as (k1 & k2 & K). exists (last :: k1), k2. rewrite K. reflexivity. }
      destruct (Z.eqb_spec n s) as [->|N]; [apply ON; [left; reflexivity|reflexivity]|].
      destruct (Z.eqb_spec last e) as [->|L].
      + rewrite (proj2 (Z.ltb_lt 0 e)) by exact e_pos. cbn [andb]. exists [e], (n :: r). split; [reflexivity|]. split; [discriminate|].
        split; [destruct acc; [congruence|reflexivity]|]. split; [intros _; left; reflexivity|left; reflexivity].
      + rewrite andb_false_r. apply ON; [right; exact L|destruct acc; [congruence|reflexivity]].
  Qed.

  (** Before: nothing, or up to the start *)
  Lemma extra_wait : forall nodes f last, scan true s e f last nodes [] = []
    \/ exists l1 l2, nodes = l1 ++ s :: l2 /\ ~ In s l1 /\ scan true s e f last nodes [] = scan true s e false s l2 [List.last l1 last]
       /\ (forall x, In x (removelast (last :: l1)) -> x <> e).
  Proof using s_pos e_pos.
    induction nodes as [|n r IH]; intros f last; [left; reflexivity|]. cbn [scan]. rewrite s_leb by exact s_pos. cbn [orb].
    destruct (Z.eqb_spec n s) as [->|N].
    - right. exists [], r. split; [reflexivity|]. split; [intros []|]. split; [reflexivity|intros x []].
    - destruct (Z.eqb_spec last e) as [->|L]; [rewrite (proj2 (Z.ltb_lt 0 e)) by exact e_pos; left; reflexivity|]. rewrite andb_false_r.
      destruct (IH false n) as [H|(l1 & l2 & E & NI & H & X)]; [left; exact H|right]. exists (n :: l1), l2. split; [rewrite E; reflexivity|].
      split; [intros [H'|H']; [congruence|exact (NI H')]|]. split.
      + rewrite H. f_equal. f_equal. destruct l1 as [|y l1]; [reflexivity|]. change (List.last (y :: l1) n = List.last (y :: l1) last).
        clear. revert y. induction l1 as [|z l1 IH]; intros y; [reflexivity|]. apply IH.
      + intros x I. change (removelast (last :: n :: l1)) with (last :: removelast (n :: l1)) in I. destruct I as [<-|I]; [exact L|apply X, I].
  Qed.
  Lemma extra_reaches : forall l1 l2 f last, ~ In s l1 -> ~ In e l1 -> last <> e \/ l1 = [] -> scan true s e f last (l1 ++ s :: l2) [] <> [].
  Proof using s_pos e_pos.
    induction l1 as [|n l1 IH]; intros l2 f last NS NE L; cbn [app scan]; rewrite s_leb by exact s_pos; cbn [orb].
    - rewrite Z.eqb_refl. destruct (extra_begun l2 false s [last] ltac:(discriminate)) as (p & q & _ & _ & -> & _). discriminate.
    - rewrite (proj2 (Z.eqb_neq n s)) by (intros ->; apply NS; left; reflexivity).
      destruct L as [L|L]; [|discriminate]. rewrite (proj2 (Z.eqb_neq last e)) by exact L. rewrite andb_false_r. apply IH.
      + intros H. apply NS. right. exact H.
      + intros H. apply NE. right. exact H.
      + left. intros ->. apply NE. left. reflexivity.
  Qed.

  (** A line on one section: begins just before the start, at it at the latest, and has both. *)
  Lemma extra_line L n0 : hd_error L = Some n0 -> In e L -> scan true s e true n0 L [] <> [] ->
    exists x p, scan true s e true n0 L [] = x :: s :: p /\ (x = s \/ next_in L x s) /\ (forall y z, next_in (s :: p) y z -> next_in L y z)
      /\ In e (x :: s :: p) /\ (hd_error (rev (x :: s :: p)) = Some e \/ next_in L e s).
  Proof using s_pos e_pos.
    intros HD IE NE. destruct (extra_wait L true n0) as [H|(l1 & l2 & EL & NS & EQ & X)]; [congruence|].
    destruct (extra_begun l2 false s [List.last l1 n0] ltac:(discriminate)) as (p & q & E1 & P & E2 & I & F). rewrite EQ, E2.
    destruct p as [|s' p]; [congruence|]. cbn [app] in E1. injection E1 as E0 E1. subst s'. exists (List.last l1 n0), p. split; [reflexivity|].
    assert (XS : (List.last l1 n0 = s /\ l1 = []) \/ exists l1', l1 = l1' ++ [List.last l1 n0]).
    { destruct l1 as [|y l1]; [left|right].
      - rewrite EL in HD. cbn in HD. injection HD as <-. split; reflexivity.
      - exists (removelast (y :: l1)). apply app_removelast_last. discriminate. }
    assert (NX : List.last l1 n0 = s \/ next_in L (List.last l1 n0) s).
    { destruct XS as [(XS & _)|(l1' & XS)]; [left; exact XS|right]. exists l1', l2. rewrite EL. rewrite XS at 1. rewrite <- app_assoc. reflexivity. }
    split; [exact NX|]. split; [|split].
    - intros y z (k1 & k2 & K). exists (l1 ++ k1), (k2 ++ q). rewrite EL, E1. change (s :: p ++ q) with ((s :: p) ++ q). rewrite K, <- !app_assoc. reflexivity.
    - destruct (in_dec Z.eq_dec e (s :: l2)) as [IE'|NI]; [right; apply I; exact IE'|]. left.
      assert (IL : In e l1) by (rewrite EL in IE; apply in_app_iff in IE; destruct IE as [IE|IE]; [exact IE|contradiction]).
      destruct XS as [(_ & XS)|(l1' & XS)]; [rewrite XS in IL; destruct IL|]. rewrite XS in IL. apply in_app_iff in IL. destruct IL as [IL|[IL|[]]]; [|exact IL].
      exfalso. apply (X e); [|reflexivity]. rewrite XS. rewrite app_comm_cons. rewrite removelast_last. right. exact IL.
    - assert (RV : hd_error (rev (List.last l1 n0 :: s :: p)) = hd_error (rev (s :: p))) by (cbn [rev]; destruct (rev p); reflexivity).
      rewrite RV. destruct F as [F|(Q & F)]; [left; exact F|right].
      destruct (in_dec Z.eq_dec e (s :: l2)) as [IE'|NI].
      + destruct (F IE') as (k1 & k2 & K). exists (l1 ++ k1), k2. rewrite EL, K, <- app_assoc. reflexivity.
      + assert (IL : In e l1) by (rewrite EL in IE; apply in_app_iff in IE; destruct IE as [IE|IE]; [exact IE|contradiction]).
        destruct XS as [(_ & XS)|(l1' & XS)]; [rewrite XS in IL; destruct IL|]. rewrite XS in IL. apply in_app_iff in IL. destruct IL as [IL|[IL|[]]].
        * exfalso. apply (X e); [|reflexivity]. rewrite XS. rewrite app_comm_cons. rewrite removelast_last. right. exact IL.
        * exists l1', l2. rewrite EL, XS, IL, <- app_assoc. reflexivity.
  Qed.
End Extra.

(** Of the two directions one works, unless the section is closed. *)
Lemma extra_either s e L n0 n1 : 0 < s -> 0 < e -> NoDup L -> In s L -> In e L -> hd_error L = Some n0 -> hd_error (rev L) = Some n1 ->
  scan true s e true n0 L [] <> [] \/ scan true s e true n1 (rev L) [] <> [].
Proof.
  intros SP EP ND IS IE H0 H1. destruct (in_split _ _ IS) as (l1 & l2 & E). subst L.
  assert (NS : ~ In s l1 /\ ~ In s l2). { apply NoDup_remove_2 in ND. rewrite in_app_iff in ND. tauto. }
  destruct (in_dec Z.eq_dec e l1) as [I1|N1].
  - right. rewrite rev_app_distr. cbn [rev]. rewrite <- app_assoc. cbn [app].
    assert (N2 : ~ In e l2). { intros I2. apply in_split in I1, I2. destruct I1 as (a & b & ->). destruct I2 as (c & d & ->).
      rewrite <- app_assoc in ND. cbn [app] in ND. apply NoDup_remove_2 in ND. apply ND. apply in_app_iff. right. apply in_app_iff. right. right. apply in_app_iff. right. left. reflexivity. }
    apply extra_reaches; [exact SP|exact EP|rewrite <- in_rev; tauto|rewrite <- in_rev; exact N2|].
    destruct (rev l2) as [|y r] eqn:R; [right; reflexivity|left]. rewrite rev_app_distr in H1. cbn [rev] in H1. rewrite R in H1. cbn in H1. injection H1 as <-.
    intros ->. apply N2. rewrite in_rev, R. left. reflexivity.
  - left. apply extra_reaches; [exact SP|exact EP|tauto|exact N1|]. destruct l1 as [|y l1]; [right; reflexivity|left]. cbn in H0. injection H0 as <-. intros ->. apply N1. left. reflexivity.
Qed.

(** *** The table of sections *)

Definition uniq (t : table) : Prop := forall k s, In (k, s) t -> tget t k = Some s.

Lemma tget_app t t' k : tget (t ++ t') k = match tget t k with Some s => Some s | None => tget t' k end.
Proof. induction t as [|((a, b), s) t IH]; [reflexivity|]. cbn [app tget]. destruct (_ && _); [reflexivity|exact IH]. Qed.

Lemma uniq_tput t k s : uniq t -> uniq (tput t k s).
Proof.
  intros U. unfold tput. destruct (tget t k) eqn:E; [exact U|]. intros k' s' I. rewrite tget_app. apply in_app_iff in I. destruct I as [I|[I|[]]].
  - rewrite (U _ _ I). reflexivity.
  - injection I as <- <-. rewrite E. destruct k as (a, b). cbn. rewrite !Z.eqb_refl. reflexivity.
Qed.

Lemma uniq_cut dist fl ps id : forall l cur t t' ok, uniq t -> cut dist fl ps id cur t l = Some (t', ok) -> uniq t'.
Proof.
  induction l as [|n l IH]; intros cur t t' ok U E; cbn [cut] in E; [injection E as <- <-; exact U|].
  destruct (zget fl n) as [[|]|]; [| |injection E as <- <-; exact U].
  - destruct (zget ps n) as [p|]; [|discriminate]. destruct cur as [(((a, c), prev), d)|]; [|exact (IH _ _ _ _ U E)].
    refine (IH _ _ _ _ _ E). apply uniq_tput, uniq_tput, U.
  - destruct cur as [(((a, c), prev), d)|]; [|exact (IH _ _ _ _ U E)]. destruct (zget ps n) as [p|]; [|discriminate]. exact (IH _ _ _ _ U E).
Qed.
Lemma uniq_cut_all dist ord fl ps ws : forall ids t t' ok, uniq t -> cut_all dist ord fl ps ws t ids = Some (t', ok) -> uniq t'.
Proof.
  induction ids as [|id ids IH]; intros t t' ok U E; cbn [cut_all] in E; [injection E as <- <-; exact U|].
  destruct (cut _ _ _ _ _ _ _) as [(t1, ok1)|] eqn:C; [|discriminate]. destruct (cut_all _ _ _ _ _ _ _) as [(t2, ok2)|] eqn:C2; [|discriminate].
  injection E as <- <-. exact (IH _ _ _ (uniq_cut _ _ _ _ _ _ _ _ _ U C) C2).
Qed.
Lemma uniq_built dist ord ws ns m : build dist ord ws ns = Built m -> uniq (m_table m).
Proof.
  unfold build. destruct (cut_all _ _ _ _ _ _ _) as [(t & [|])|] eqn:C; [|discriminate|discriminate]. destruct (walk_all _ _ _ _ _ _) as [st|]; [|discriminate].
  destruct (k_ok st); [|discriminate]. intros E. injection E as <-. cbn [m_table]. apply (uniq_cut_all _ _ _ _ _ _ _ _ _ (fun k s (I : In (k, s) []) => match I with end) C).
Qed.

(** *** Sections *)

Lemma passes_road ws r n : road ws r -> (count_occ Z.eq_dec r n <= passes ws n)%nat.
Proof.
  intros (w & I & R & <-). unfold passes. apply in_split in I. destruct I as (l1 & l2 & ->). rewrite flat_map_app, count_occ_app. cbn [flat_map]. rewrite R, count_occ_app. lia.
Qed.

Lemma stretch_inner ws a b l : stretch ws a b l -> exists mid, l = a :: mid ++ [b] /\ NoDup mid /\ forall x, In x mid -> ~ junction ws x.
Proof.
  intros (r & mid & l1 & l2 & R & E & -> & _ & _ & M). exists mid. split; [reflexivity|]. split; [|exact M].
  apply (NoDup_count_occ Z.eq_dec). intros x. destruct (in_dec Z.eq_dec x mid) as [I|N].
  - pose proof (passes_road ws r x R) as P. rewrite E in P. cbn [app] in P. rewrite !count_occ_app in P. cbn [count_occ] in P. rewrite !count_occ_app in P.
    assert (~ (2 <= passes ws x)%nat) by (intros Q; apply (M x I); right; exact Q). destruct (Z.eq_dec a x); lia.
  - apply (count_occ_not_In Z.eq_dec) in N. lia.
Qed.
Lemma section_inner ws a b l : section_between ws a b l -> exists mid, l = a :: mid ++ [b] /\ NoDup mid /\ (forall x, In x mid -> ~ junction ws x) /\ junction ws a /\ junction ws b.
Proof.
  intros S. pose proof (section_junctions ws a b l S) as (JA & JB). destruct S as [S|S].
  - destruct (stretch_inner _ _ _ _ S) as (mid & E & N & M). exists mid. auto.
  - destruct (stretch_inner _ _ _ _ S) as (mid & E & N & M). exists (rev mid). split; [|split; [apply NoDup_rev, N|split; [intros x X; apply M, in_rev, X|auto]]].
    apply (f_equal (@rev Z)) in E. rewrite rev_involutive in E. cbn [rev] in E. rewrite rev_app_distr in E. exact E.
Qed.
Lemma section_NoDup ws a b l : section_between ws a b l -> a <> b -> NoDup l.
Proof.
  intros S N. destruct (section_inner _ _ _ _ S) as (mid & -> & ND & M & JA & JB). constructor.
  - rewrite in_app_iff. intros [H|[H|[]]]; [exact (M a H JA)|congruence].
  - apply NoDup_rev in ND. rewrite <- (rev_involutive (mid ++ [b])). apply NoDup_rev. rewrite rev_app_distr. cbn. constructor; [|exact ND].
    rewrite <- in_rev. intros H. exact (M b H JB).
Qed.
Lemma section_drive ws a b l x : section_between ws a b l -> In x l -> drive ws a x.
Proof.
  intros S I. destruct (section_shape _ _ _ _ S) as (mid & E). pose proof (drive_along ws l (fun y z => section_next ws a b l y z S) x I) as D. rewrite E in D. exact D.
Qed.

(** *** Lines *)

Section Along.
  Context (ws : list way).

  Lemma along_app l1 x l2 : along_roads ws (l1 ++ [x]) -> along_roads ws (x :: l2) -> along_roads ws (l1 ++ x :: l2).
  Proof.
    intros A B y z N. change (x :: l2) with ([x] ++ l2) in N. rewrite app_assoc in N. destruct (next_in_cut _ _ _ _ N) as [H|[H|(H1 & H2)]].
    - apply A, H.
    - apply B. destruct H as (k1 & k2 & ->). exists (x :: k1), k2. reflexivity.
    - apply B. rewrite rev_app_distr in H1. cbn in H1. injection H1 as ->. destruct l2 as [|w l2]; [discriminate|]. cbn in H2. injection H2 as ->. exists [], l2. reflexivity.
  Qed.
  Lemma along_section a b l : section_between ws a b l -> along_roads ws l.
  Proof. intros S x y N. right. exact (section_next _ _ _ _ _ _ S N). Qed.
  Lemma along_part l1 l l2 : along_roads ws (l1 ++ l ++ l2) -> along_roads ws l.
  Proof. intros A x y (k1 & k2 & ->). apply A. exists (l1 ++ k1), (k2 ++ l2). rewrite <- !app_assoc. reflexivity. Qed.
  Lemma along_twice l x : along_roads ws (l ++ [x]) -> along_roads ws (l ++ [x; x]).
  Proof.
    intros A. apply along_app; [exact A|]. intros y z (k1 & k2 & E). left. destruct k1 as [|c [|d k1]]; cbn in E; injection E as E; subst; [congruence| |].
    - destruct k2; discriminate.
    - destruct k1; discriminate.
  Qed.
  Lemma along_join l1 l2 x : along_roads ws l1 -> along_roads ws l2 -> hd_error (rev l1) = Some x -> hd_error l2 = Some x -> along_roads ws (l1 ++ l2).
  Proof.
    intros A B H1 H2 y z N. destruct (next_in_cut _ _ _ _ N) as [H|[H|(H3 & H4)]]; [apply A, H|apply B, H|]. left. congruence.
  Qed.
End Along.

Lemma last_hd (l : list Z) d : l <> [] -> hd_error (rev l) = Some (List.last l d).
Proof. intros N. rewrite (app_removelast_last d N) at 1. rewrite rev_app_distr. reflexivity. Qed.

Section Legs.
  Context (dist : pos -> pos -> Z) (dist_ok : metric dist) (ord : list Z -> list Z) (ord_ok : forall l, ord l = l \/ ord l = rev l).
  Context (ws : list way) (ns : list (Z * option pos)) (pos_of : Z -> pos) (good : good_file ws ns pos_of).
  Context (ids_pos : forall l n, road ws l -> In n l -> 0 < n).
  Context (m : road_map) (BM : build dist ord ws ns = Built m).

  Lemma sec k s : tget (m_table m) k = Some s -> section_between ws (fst k) (snd k) (s_nodes s).
  Proof using dist_ok ord_ok good BM. intros E. destruct k as (a, b). apply (C61_sections dist ord ord_ok ws ns dist_ok pos_of good m BM), E. Qed.
  Lemma sec_pos k s x : tget (m_table m) k = Some s -> In x (s_nodes s) -> 0 < x.
  Proof using dist_ok ord_ok good BM ids_pos. intros E I. destruct (section_road _ _ _ _ _ (sec k s E) I) as (r & R & J). exact (ids_pos r x R J). Qed.

  (** A leg between two junctions *)
  Lemma leg_all a b s front : tget (m_table m) (a, b) = Some s -> front = a \/ ~ In front (s_nodes s) -> on_segment (m_table m) (a, b) false a front = s_nodes s.
  Proof using dist_ok ord_ok good BM ids_pos.
    intros E F. unfold on_segment. rewrite E. pose proof (sec_pos _ _ a E) as P. destruct (section_shape _ _ _ _ (sec _ _ E)) as (mid & Q). cbn [fst snd] in Q. rewrite Q in *.
    specialize (P (or_introl eq_refl)). rewrite plain_start by exact P. rewrite plain_all; [reflexivity|exact P|discriminate|].
    destruct F as [F|F]; [left; exact F|right; intros H; apply F; right; exact H].
  Qed.

  (** The first leg *)
  Lemma leg_first a b t s : tget (m_table m) (a, b) = Some t -> In s (s_nodes t) -> a <> b ->
    let l := on_segment (m_table m) (a, b) false s b in
    hd_error l = Some s /\ hd_error (rev l) = Some b /\ along_roads ws l /\ forall x, In x l -> In x (s_nodes t).
  Proof using dist_ok ord_ok good BM ids_pos.
    intros E I N. cbv zeta. unfold on_segment. rewrite E. pose proof (sec_pos _ _ s E I) as SP.
    destruct (section_inner _ _ _ _ (sec _ _ E)) as (mid & Q & ND & M & JA & JB). cbn [fst snd] in Q, JA, JB.
    assert (BP : 0 < b) by (apply (sec_pos _ _ b E); rewrite Q; right; apply in_app_iff; right; left; reflexivity).
    assert (AL := along_section _ _ _ _ (sec _ _ E)). rewrite Q in *.
    assert (NB : ~ In b (a :: mid)) by (intros [H|H]; [congruence|exact (M b H JB)]).
    destruct (in_first s _ I) as (l1 & l2 & EL & NS). rewrite EL. destruct (Z.eq_dec s b) as [->|SB].
    - assert (X : l1 = a :: mid /\ l2 = []).
      { clear -EL NB NS. change (a :: mid ++ [b]) with ((a :: mid) ++ [b]) in EL. revert l1 EL NS. generalize (a :: mid) as r, NB. clear. induction r as [|y r IH]; intros NB l1 EL NS; (destruct l1 as [|z l1]; cbn in EL; [|injection EL as E1 E2]).
        - injection EL as E2. subst. auto.
        - destruct l1; discriminate.
        - injection EL as E1 E2. subst. exfalso. apply NB. left. reflexivity.
        - subst. destruct (IH (fun H => NB (or_intror H)) l1 E2 (fun H => NS (or_intror H))) as (-> & ->). auto. }
      destruct X as (-> & ->). destruct (plain_skip b b SP BP (a :: mid) [b] true a NB NB) as (f' & last' & SK).
      cbn [app] in SK |- *. rewrite SK. rewrite plain_start by exact SP. cbn [scan]. split; [reflexivity|]. split; [reflexivity|]. split.
      + intros x y (k1 & k2 & K). destruct k1 as [|c [|? ?]]; discriminate.
      + intros x [<-|[]]. right. apply in_app_iff. right. left. reflexivity.
    - assert (X : exists r1, l2 = r1 ++ [b] /\ a :: mid = l1 ++ s :: r1).
      { clear -EL SB. change (a :: mid ++ [b]) with ((a :: mid) ++ [b]) in EL. revert l1 EL. generalize (a :: mid) as r. clear -SB. induction r as [|y r IH]; intros l1 EL; destruct l1 as [|z l1]; cbn in EL; injection EL as E1 E2.
        - congruence.
        - destruct l1; discriminate.
        - subst. exists r. auto.
        - subst. destruct (IH l1 E2) as (r1 & -> & ->). exists r1. auto. }
      destruct X as (r1 & -> & X). assert (B1 : ~ In b l1 /\ ~ In b r1) by (rewrite X in NB; rewrite in_app_iff in NB; cbn in NB; tauto).
      destruct (plain_skip s b SP BP l1 (s :: r1 ++ [b]) true a NS (proj1 B1)) as (f' & last' & SK).
      rewrite SK. rewrite plain_start by exact SP. rewrite plain_stop; [|exact SP|exact BP|discriminate|congruence|apply B1].
      split; [reflexivity|]. split; [cbn [app rev]; rewrite rev_app_distr; reflexivity|]. split.
      + change ([s] ++ r1 ++ [b; b]) with ((s :: r1) ++ [b; b]). apply along_twice. apply (along_part ws l1 _ []). rewrite app_nil_r. change ((s :: r1) ++ [b]) with (s :: r1 ++ [b]). rewrite <- EL. exact AL.
      + intros x H. apply in_app_iff. right. cbn [app] in H |- *. destruct H as [->|H]; [left; reflexivity|right]. apply in_app_iff in H. apply in_app_iff. destruct H as [H|[H|[H|[]]]]; [auto|right; left; exact H|right; left; exact H].
  Qed.

  (** The last leg *)
  Lemma leg_last a b t e : tget (m_table m) (a, b) = Some t -> In e (s_nodes t) ->
    let l := on_segment (m_table m) (a, b) false a e in
    hd_error l = Some a /\ along_roads ws l /\ In e l /\ (e = a \/ hd_error (rev l) = Some e) /\ forall x, In x l -> In x (s_nodes t).
  Proof using dist_ok ord_ok good BM ids_pos.
    intros E I. cbv zeta. pose proof (along_section _ _ _ _ (sec _ _ E)) as AL. destruct (Z.eq_dec e a) as [->|EA].
    - rewrite (leg_all a b t a E (or_introl eq_refl)). destruct (section_shape _ _ _ _ (sec _ _ E)) as (mid & Q). cbn [fst snd] in Q.
      split; [rewrite Q; reflexivity|]. split; [exact AL|]. split; [exact I|]. split; [left; reflexivity|auto].
    - unfold on_segment. rewrite E. pose proof (sec_pos _ _ e E I) as EP. destruct (section_shape _ _ _ _ (sec _ _ E)) as (mid & Q). cbn [fst snd] in Q.
      assert (AP : 0 < a) by (apply (sec_pos _ _ a E); rewrite Q; left; reflexivity). rewrite Q in *. rewrite plain_start by exact AP.
      destruct I as [I|I]; [congruence|]. destruct (in_first e _ I) as (r1 & r2 & ER & NI). rewrite ER. rewrite plain_stop; [|exact AP|exact EP|discriminate|exact EA|exact NI].
      split; [reflexivity|]. split; [|split; [|split]].
      + change ([a] ++ r1 ++ [e; e]) with ((a :: r1) ++ [e; e]). apply along_twice. apply (along_part ws [] _ r2). cbn [app]. rewrite <- app_assoc. cbn [app]. rewrite <- ER. exact AL.
      + cbn [app]. right. apply in_app_iff. right. left. reflexivity.
      + right. cbn [app rev]. rewrite rev_app_distr. reflexivity.
      + intros x H. cbn [app] in H |- *. destruct H as [->|H]; [left; reflexivity|right]. apply in_app_iff in H. apply in_app_iff. destruct H as [H|[H|[H|[]]]]; [auto|right; left; exact H|right; left; exact H].
  Qed.

  (** The legs between *)
  Lemma legs_expand front : forall path a b d, by_sections dist pos_of ws a path b d -> NoDup path -> (front = a \/ ~ In front path) -> junction ws front ->
    exists k, legs (m_table m) front path = (k, true) /\ k ++ [b] = expand (m_table m) path.
  Proof using dist_ok ord_ok good BM ids_pos.
    intros path a b d B. induction B as [a|a b c s l len S B IH]; intros ND F JF; [exists []; split; reflexivity|].
    assert (HL : exists r, l = b :: r) by (inversion B; eauto). destruct HL as (r & ->).
    destruct (C61_sections dist ord ord_ok ws ns dist_ok pos_of good m BM) as (_ & T2). destruct (T2 a b s S) as (t & E).
    inversion ND as [|? ? NI ND']; subst.
    assert (FB : ~ In front (b :: r)). { destruct F as [->|F]; [exact NI|intros H; apply F; right; exact H]. }
    destruct (IH ND' (or_intror FB) JF) as (k & LK & EK). exists (s_nodes t ++ k).
    assert (LA : on_segment (m_table m) (a, b) false a front = s_nodes t).
    { apply leg_all; [exact E|]. destruct F as [F|F]; [left; exact F|right]. destruct (section_inner _ _ _ _ (sec _ _ E)) as (mid & Q & _ & M & _). cbn [fst snd] in Q.
      rewrite Q. intros [H|H]; [subst a; apply F; left; reflexivity|]. apply in_app_iff in H. destruct H as [H|[H|[]]]; [exact (M _ H JF)|subst b; apply FB; left; reflexivity]. }
    change (legs (m_table m) front (a :: b :: r)) with (let l := on_segment (m_table m) (a, b) false a front in let (k, ok) := legs (m_table m) front (b :: r) in (l ++ k, match l with [] => false | _ => ok end)).
    cbv zeta. rewrite LA, LK. destruct (section_shape _ _ _ _ (sec _ _ E)) as (mid & Q). cbn [fst snd] in Q. split.
    - rewrite Q at 2. reflexivity.
    - change (expand (m_table m) (a :: b :: r)) with ((match tget (m_table m) (a, b) with Some s => s_nodes s | None => [] end) ++ expand (m_table m) (b :: r)). rewrite E, <- EK, app_assoc. reflexivity.
  Qed.
End Legs.

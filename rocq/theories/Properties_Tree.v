(** * Properties of tines and interval trees: C27-C42, C57 *)
From Coq Require Import List Bool ZArith Lia Sorted QArith Qcanon.
From Verif Require Import Base OrdFacts Pos MBound MRaw MTine MBTree MTineTree Ints Spec Spec_Tree Instances
  PRaw PRaw2 PBTree PTree PTreeOps PTreeIsect PTree2 PTree3 PTree4 PTree5 PTree6 PTree7 PIter PDebug.
Import ListNotations.
Local Open Scope Z_scope.

#[local] Arguments cmp : simpl never.

(** Trees used in the examples, over [Z]: [[0,1] U (3,5) U (5,inf)], and
    over the rationals [[0,1] U (3,5) U (5,7)]. *)
Definition exZ : TineTree Z :=
  [TLower (Include 0); TUpper (Include 1); TLower (Exclude 3); TPoint (Exclude 5); TUpper Infinite].
Lemma exZ_wf : tree_wf exZ.
Proof. split; [repeat constructor|reflexivity]. Qed.
Lemma exZ_built dbg : built dbg exZ.
Proof.
  apply (B_collect dbg [UpFrom 5; Open 3 5; Closed 0 1]).
  - repeat constructor.
  - destruct dbg; reflexivity.
Qed.
Definition q (z : Z) : Qc := Q2Qc (inject_Z z).
Definition exQ : TineTree Qc :=
  [TLower (Include (q 0)); TUpper (Include (q 1)); TLower (Exclude (q 3)); TPoint (Exclude (q 5)); TUpper (Exclude (q 7))].
Lemma exQ_wf : tree_wf exQ.
Proof. split; [repeat constructor|reflexivity]. Qed.

(** ** The trees in the theorems are the ones the API builds *)
Theorem tree_wf_iff_built {T} {O : Ord T} (dbg : bool) (s : TineTree T) : tree_wf s <-> built dbg s.
Proof.
  rewrite <- wf_tree_wf. split.
  - intros W. apply (B_collect dbg (pieces None s)); [apply pieces_wf|now apply from_iter_pieces].
  - induction 1 as [|i Wi|l s Wl E|s i s' B IH Wi E|s1 s2 s' B1 IH1 B2 IH2 E|s s' B IH E|s1 s2 s' B1 IH1 B2 IH2 E].
    + apply new_wf.
    + destruct (from_raw_wf i Wi) as (W & E & _). now rewrite E.
    + destruct (from_iter_ok dbg l Wl) as (r & E' & W & _). congruence.
    + destruct (union_in_place_ok dbg s i IH Wi) as (r & E' & W & _). congruence.
    + destruct (tree_union_ok dbg s1 s2 IH1 IH2) as (r & E' & W & _). congruence.
    + destruct (complement_ok dbg s IH) as (r & E' & W & _). congruence.
    + destruct (tree_intersect_sound dbg s1 s2 IH1 IH2) as (r & E' & W & _). congruence.
Qed.
Print Assumptions tree_wf_iff_built.

(** ** C27 *)

(** Any tines but [Point(Infinite)] are compared, by a total preorder whose
    equivalence is being at the same place. *)
Theorem C27_tine_order {T} {O : Ord T} (a b c : Tine T) :
  a <> TPoint Infinite -> b <> TPoint Infinite -> c <> TPoint Infinite ->
  tine_partial_cmp a b = Ok (tine_cmp a b) /\
  tine_cmp a a = Eq /\
  tine_cmp b a = CompOpp (tine_cmp a b) /\
  (tine_cmp a b = Eq <-> same_place a b) /\
  (tine_cmp a b <> Gt -> tine_cmp b c <> Gt -> tine_cmp a c <> Gt).
Proof.
  intros Ha Hb Hc.
  assert (okt a = true /\ okt b = true /\ okt c = true) as (Ka & Kb & Kc).
  { destruct a as [|[]|], b as [|[]|], c as [|[]|]; try congruence; auto. }
  rewrite !tine_cmp_loc by auto. split; [now rewrite tine_partial_cmp_loc|].
  split; [apply cmp_refl|]. split; [apply cmp_antisym|]. split.
  - rewrite cmp_eq. unfold same_place, loc.
    destruct a as [[]|[]|[]], b as [[]|[]|[]]; simpl; try discriminate; try tauto; split; intros H; try discriminate; try congruence; try contradiction.
  - generalize (loc a) (loc b) (loc c). clear. intros p r w H1 H2.
    assert (K1 : le p r) by exact H1. assert (K2 : le r w) by exact H2. assert (le p w) by porder. assumption.
Qed.
Print Assumptions C27_tine_order.

(** [Point(Infinite)] does not arise. *)
Theorem C27_tines_arising {T} {O : Ord T} :
  (forall (i : RawInterval T) t, In t (tine_from_raw_interval i) -> t <> TPoint Infinite) /\
  (forall (s : TineTree T) t, tree_wf s -> In t s -> t <> TPoint Infinite) /\
  (forall (t t' : Tine T), tine_invert t = Ok t' -> t' <> TPoint Infinite) /\
  (forall dbg (a b t : Tine T), a <> TPoint Infinite -> b <> TPoint Infinite ->
     tine_union dbg a b = Ok (Some t) \/ tine_intersect dbg a b = Ok (Some t) \/ tine_minus dbg a b = Ok (Some t) ->
     t <> TPoint Infinite).
Proof.
  repeat match goal with |- _ /\ _ => split end.
  - intros i t H ->. destruct i; simpl in H; intuition discriminate.
  - intros s t W Ht ->. apply wf_tree_wf in W as [_ H]. pose proof (chain_ok _ _ _ H) as K. rewrite Forall_forall in K.
    specialize (K _ Ht). discriminate.
  - intros [[]|[]|[]] t' H ->; discriminate.
  - intros dbg a b t Ha Hb H ->. unfold tine_union, tine_intersect, tine_minus in H.
    destruct (debug_assert dbg (opt_eqb (tine_as_ref a) (tine_as_ref b))); [|simpl in H; intuition discriminate].
    cbn [bind] in H.
    destruct a as [[]|[]|[]]; try congruence; destruct b as [[]|[]|[]]; try congruence; simpl in H; intuition discriminate.
Qed.
Print Assumptions C27_tines_arising.

Example C27_ex : TLower (Include 3) <> TPoint Infinite /\ TUpper (Exclude 3) <> TPoint Infinite /\
  tine_cmp (TLower (Include 3)) (TUpper (Exclude 3)) = Eq /\ tine_cmp (TLower Infinite) (TUpper (Exclude 3)) = Lt /\
  tine_cmp (TUpper Infinite) (TPoint (Include 3)) = Gt /\ tine_partial_cmp (TPoint Infinite) (TPoint (Include 3)) = Panic.
Proof. repeat split; discriminate. Qed.

(** ** C28 *)
Ltac tine_cells a b :=
  destruct a as [[?|?|]|[?|?|]|[?|?|]], b as [[?|?|]|[?|?|]|[?|?|]]; try congruence;
  unfold same_place in *; simpl in *; try contradiction; subst.

Theorem C28_tine_union_exact {T} {O : Ord T} dbg (a b : Tine T) :
  a <> TPoint Infinite -> b <> TPoint Infinite -> same_place a b ->
  exists o, tine_union dbg a b = Ok o /\ describes o (combine orb (neighbourhood a) (neighbourhood b)) /\
    (forall t, o = Some t -> same_place t a).
Proof.
  intros Ha Hb S. unfold tine_union.
  assert (E : debug_assert dbg (opt_eqb (tine_as_ref a) (tine_as_ref b)) = Ok tt).
  { tine_cells a b; unfold debug_assert; rewrite ?eqb_refl; now destruct dbg. }
  rewrite E. cbn [bind].
  tine_cells a b; (eexists; split; [reflexivity|]); simpl; (split; [auto|]); intros t Et; inversion Et; subst; simpl; auto.
Qed.
Print Assumptions C28_tine_union_exact.

(** [intersect] is exact in all but two cells of its table. *)
Theorem C28_tine_intersect_exact_partial {T} {O : Ord T} dbg (a b : Tine T) :
  a <> TPoint Infinite -> b <> TPoint Infinite -> same_place a b ->
  exists o, tine_intersect dbg a b = Ok o /\
    (describes o (combine andb (neighbourhood a) (neighbourhood b)) <->
     match a, b with
     | TLower (Include _), TPoint (Exclude _) | TUpper (Include _), TPoint (Exclude _) => False
     | _, _ => True
     end).
Proof.
  intros Ha Hb S. unfold tine_intersect.
  assert (E : debug_assert dbg (opt_eqb (tine_as_ref a) (tine_as_ref b)) = Ok tt).
  { tine_cells a b; unfold debug_assert; rewrite ?eqb_refl; now destruct dbg. }
  rewrite E. cbn [bind].
  tine_cells a b; (eexists; split; [reflexivity|]); simpl; intuition discriminate.
Qed.
Print Assumptions C28_tine_intersect_exact_partial.

(** [minus] is exact in all but the cells listed. *)
Theorem C28_tine_minus_exact_partial {T} {O : Ord T} dbg (a b : Tine T) :
  a <> TPoint Infinite -> b <> TPoint Infinite -> same_place a b ->
  exists o, tine_minus dbg a b = Ok o /\
    (describes o (combine (fun x y => x && negb y) (neighbourhood a) (neighbourhood b)) <->
     match a, b with
     | TLower (Exclude _), TPoint (Include _) | TUpper (Exclude _), TPoint (Include _) => False
     | TLower (Include _), TPoint (Exclude _) | TUpper (Include _), TPoint (Exclude _) => False
     | TPoint (Exclude _), TLower _ | TPoint (Exclude _), TUpper _ => False
     | _, _ => True
     end).
Proof.
  intros Ha Hb S. unfold tine_minus.
  assert (E : debug_assert dbg (opt_eqb (tine_as_ref a) (tine_as_ref b)) = Ok tt).
  { tine_cells a b; unfold debug_assert; rewrite ?eqb_refl; now destruct dbg. }
  rewrite E. cbn [bind].
  tine_cells a b; (eexists; split; [reflexivity|]); simpl; intuition discriminate.
Qed.
Print Assumptions C28_tine_minus_exact_partial.

(** The neighbourhood of [x] in [[x,..)] without that of [(..,x) U (x,..)]: the
    point alone; but the code drops it.  And [(x,..)] minus the point [x]. *)
Theorem C28_tine_refuted :
  (exists a b : Tine Z, same_place a b /\ tine_intersect false a b = Ok None /\
     ~ @describes Z None (combine andb (neighbourhood a) (neighbourhood b))) /\
  (exists a b : Tine Z, same_place a b /\ tine_minus false a b = Ok None /\
     ~ @describes Z None (combine (fun x y => x && negb y) (neighbourhood a) (neighbourhood b))).
Proof.
  split.
  - exists (TLower (Include 3)), (TPoint (Exclude 3)). split; [reflexivity|]. split; [reflexivity|]. intros [H|H]; discriminate.
  - exists (TLower (Exclude 3)), (TPoint (Include 3)). split; [reflexivity|]. split; [reflexivity|]. intros [H|H]; discriminate.
Qed.
Print Assumptions C28_tine_refuted.

Example C28_ex : same_place (TUpper (Exclude 3)) (TLower (Exclude 3)) /\
  tine_union true (TUpper (Exclude 3)) (TLower (Exclude 3)) = Ok (Some (TPoint (Exclude 3))) /\
  tine_union true (TUpper (Exclude 3)) (TLower (Include 3)) = Ok None.
Proof. repeat split. Qed.

(** ** C29 *)
Theorem C29_union_in_place {T} {O : Ord T} dbg (s : TineTree T) (i : RawInterval T) : tree_wf s -> raw_wf i ->
  exact dbg (tree_union_in_place dbg s i) (fun x => holds dbg s x \/ raw_contains i x = true).
Proof.
  intros W Wi. apply wf_tree_wf in W. apply exact_of_den.
  destruct (union_in_place_ok dbg s i W Wi) as (s' & E & W' & H). exists s'. split; auto. split; auto.
  intros x. now rewrite H, orb_true_iff, holds_den, covers_At.
Qed.
Print Assumptions C29_union_in_place.

Example C29_ex : tree_wf exZ /\ raw_wf (RightOpen (-4) 0) /\
  tree_union_in_place true exZ (RightOpen (-4) 0) =
    Ok [TLower (Include (-4)); TUpper (Include 1); TLower (Exclude 3); TPoint (Exclude 5); TUpper Infinite] /\
  tree_union_in_place true exZ (Point 5) = Ok [TLower (Include 0); TUpper (Include 1); TLower (Exclude 3); TUpper Infinite].
Proof. split; [apply exZ_wf|]. repeat split. Qed.

(** ** C30 *)
Theorem C30_union_semilattice {T} {O : Ord T} dbg (a b c : TineTree T) : tree_wf a -> tree_wf b -> tree_wf c ->
  (exists ab, tree_union dbg a b = Ok ab /\ tree_wf ab /\ tree_union dbg b a = Ok ab /\ tree_eqb ab ab = true /\
     exists bc r, tree_union dbg b c = Ok bc /\ tree_union dbg ab c = Ok r /\ tree_union dbg a bc = Ok r) /\
  tree_union dbg a a = Ok a /\
  tree_union dbg a tree_new = Ok a /\ tree_union dbg tree_new a = Ok a /\
  tree_union dbg a (tree_from_raw_interval Full) = Ok (tree_from_raw_interval Full) /\
  tree_union dbg (tree_from_raw_interval Full) a = Ok (tree_from_raw_interval Full).
Proof.
  intros Wa Wb Wc. apply wf_tree_wf in Wa, Wb, Wc.
  destruct (from_raw_wf (@Full T) I) as (Wf & _ & Df). pose proof (new_wf (T:=T)) as Wn.
  change (tree_from_raw_interval (@Full T)) with (tine_from_raw_interval (@Full T)).
  assert (Eq : forall s s' (r : list (Tine T)), wf s -> wf s' -> wf r -> (forall p, den false r p = den false s p || den false s' p) ->
            tree_union dbg s s' = Ok r).
  { intros s s' r Ws Ws' Wr H. destruct (tree_union_ok dbg s s' Ws Ws') as (r' & -> & W' & H'). f_equal.
    apply den_ext; auto. intros p. now rewrite H, H'. }
  split.
  - destruct (tree_union_ok dbg a b Wa Wb) as (ab & E1 & W1 & H1).
    destruct (tree_union_ok dbg b c Wb Wc) as (bc & E2 & W2 & H2).
    destruct (tree_union_ok dbg ab c W1 Wc) as (r & E3 & W3 & H3).
    exists ab. split; auto. split; [now apply wf_tree_wf|]. split.
    { apply Eq; auto. intros p. rewrite H1. apply orb_comm. }
    split; [now apply tree_eqb_eq|]. exists bc, r. split; auto. split; auto. apply Eq; auto.
    intros p. rewrite H3, H1, H2. symmetry. apply orb_assoc.
  - repeat match goal with |- _ /\ _ => split end; apply Eq; auto; intros p; simpl (den false [] p).
    + now rewrite orb_diag.
    + now rewrite orb_false_r.
    + rewrite Df, covers_full. now rewrite orb_true_r.
    + now rewrite Df, covers_full.
Qed.
Print Assumptions C30_union_semilattice.

Theorem C30_equality {T} {O : Ord T} (s s' : TineTree T) : tree_eqb s s' = true <-> s = s'.
Proof. apply tree_eqb_eq. Qed.
Print Assumptions C30_equality.

(** Collecting does not depend on order or multiplicity, only on which
    intervals are there. *)
Theorem C30_collect {T} {O : Ord T} dbg (l l' : list (RawInterval T)) :
  Forall raw_wf l -> (forall i, In i l <-> In i l') ->
  exists s, tree_from_iter dbg l = Ok s /\ tree_from_iter dbg l' = Ok s /\ tree_wf s /\
    tree_is dbg s (some_contains l).
Proof.
  intros Wl E. assert (Wl' : Forall raw_wf l') by (rewrite Forall_forall in *; intros i Hin; apply Wl, E, Hin).
  destruct (from_iter_ok dbg l Wl) as (s & E1 & W1 & H1). destruct (from_iter_ok dbg l' Wl') as (s' & E2 & W2 & H2).
  assert (s' = s) as ->.
  { apply den_ext; auto. intros p. rewrite H1, H2. apply eq_true_iff_eq. rewrite !lcovers_ex.
    split; intros (i & Hin & C); exists i; (split; [|auto]); now apply E. }
  exists s. split; auto. split; auto. split; [now apply wf_tree_wf|]. apply is_den; auto.
  intros x. now rewrite H1, some_contains_lcovers.
Qed.
Print Assumptions C30_collect.

Example C30_ex : tree_wf exZ /\ Forall raw_wf [Open 1 3; Point 3; Point 1] /\
  tree_from_iter true [Open 1 3; Point 3; Point 1] = tree_from_iter true [Point 1; Point 3; Open 1 3; Point 1] /\
  tree_from_iter true [Open 1 3; Point 3; Point 1] = Ok [TLower (Include 1); TUpper (Include 3)].
Proof. split; [apply exZ_wf|]. repeat split; repeat constructor. Qed.

(** ** C31 *)
Theorem C31_complement {T} {O : Ord T} dbg (s : TineTree T) : tree_wf s ->
  exists s', tree_complement dbg s = Ok s' /\ tree_wf s' /\
    (forall x, exists b, tree_contains dbg s x = Ok b /\ tree_contains dbg s' x = Ok (negb b)) /\
    tree_complement dbg s' = Ok s.
Proof.
  intros W. apply wf_tree_wf in W. destruct (complement_ok dbg s W) as (s' & E & W' & H). exists s'. split; auto.
  split; [now apply wf_tree_wf|]. split.
  - intros x. exists (den false s (At x)). rewrite !tree_contains_den by auto. split; auto. now rewrite H.
  - destruct (complement_ok dbg s' W') as (s2 & E2 & W2 & H2). rewrite E2. f_equal. apply den_ext; auto.
    intros p. now rewrite H2, H, negb_involutive.
Qed.
Print Assumptions C31_complement.

Example C31_ex : tree_complement true exZ =
  Ok [TLower Infinite; TUpper (Exclude 0); TLower (Exclude 1); TUpper (Include 3); TPoint (Include 5)].
Proof. reflexivity. Qed.

(** ** C32 *)

(** De Morgan, point by point; and read backwards it gives an exact
    intersection and difference, canonical like every tree, which the crate's
    own [intersect] and [minus] are not (C36, C38). *)
Theorem C32_de_morgan {T} {O : Ord T} dbg (a b : TineTree T) : tree_wf a -> tree_wf b ->
  exists ab a' b' ab',
    tree_union dbg a b = Ok ab /\ tree_complement dbg ab = Ok ab' /\
    tree_complement dbg a = Ok a' /\ tree_complement dbg b = Ok b' /\
    tree_is dbg ab' (fun x => holds dbg a' x /\ holds dbg b' x) /\
    (exists u, tree_union dbg a' b' = Ok u /\
       exact dbg (tree_complement dbg u) (fun x => holds dbg a x /\ holds dbg b x)) /\
    (exists u, tree_union dbg a' b = Ok u /\
       exact dbg (tree_complement dbg u) (fun x => holds dbg a x /\ ~ holds dbg b x)).
Proof.
  intros Wa Wb. apply wf_tree_wf in Wa, Wb.
  destruct (tree_union_ok dbg a b Wa Wb) as (ab & E1 & W1 & H1).
  destruct (complement_ok dbg ab W1) as (ab' & E2 & W2 & H2).
  destruct (complement_ok dbg a Wa) as (a' & E3 & W3 & H3).
  destruct (complement_ok dbg b Wb) as (b' & E4 & W4 & H4).
  exists ab, a', b', ab'. repeat (split; [assumption|]).
  split; [apply is_den; auto; intros x; rewrite H2, H1, !holds_den, H3, H4 by auto; rewrite negb_orb, andb_true_iff; reflexivity|].
  split.
  - destruct (tree_union_ok dbg a' b' W3 W4) as (u & E & W & H). exists u. split; auto.
    destruct (complement_ok dbg u W) as (r & E' & W' & H'). apply exact_of_den. exists r. split; auto. split; auto.
    intros x. rewrite H', H, H3, H4, !holds_den by auto. now rewrite negb_orb, !negb_involutive, andb_true_iff.
  - destruct (tree_union_ok dbg a' b W3 Wb) as (u & E & W & H). exists u. split; auto.
    destruct (complement_ok dbg u W) as (r & E' & W' & H'). apply exact_of_den. exists r. split; auto. split; auto.
    intros x. rewrite H', H, H3, !holds_den by auto. rewrite negb_orb, negb_involutive, andb_true_iff, negb_true_iff.
    destruct (den false b (At x)); intuition congruence.
Qed.
Print Assumptions C32_de_morgan.

Example C32_ex : tree_wf exZ /\ tree_wf [TPoint (Include 5)] /\
  tree_union true exZ [TPoint (Include 5)] = Ok [TLower (Include 0); TUpper (Include 1); TLower (Exclude 3); TUpper Infinite].
Proof. split; [apply exZ_wf|]. split; [split; [repeat constructor|]|]; reflexivity. Qed.

(** ** C33 *)
Theorem C33_interval_iter {T} {O : Ord T} dbg (s : TineTree T) : tree_wf s ->
  exists l, intervals_are dbg s l /\ iter_collect dbg (tree_interval_iter s) = Ok l /\
    Forall raw_wf l /\ Forall (fun i => raw_is_empty i = false) l /\
    StronglySorted separated l /\
    StronglySorted (fun i j => forall x y, raw_contains i x = true -> raw_contains j y = true -> lt x y) l /\
    pairwise_disjoint l /\
    tree_is dbg s (some_contains l) /\
    tree_from_iter dbg l = Ok s.
Proof.
  intros W. apply wf_tree_wf in W. exists (pieces None s).
  assert (Sep : StronglySorted separated (pieces None s)) by (apply pieces_separated; [apply W|discriminate|apply W]).
  assert (Lt : StronglySorted (fun i j => forall x y, raw_contains i x = true -> raw_contains j y = true -> lt x y) (pieces None s)).
  { induction Sep as [|i l S IH F]; constructor; auto. rewrite Forall_forall in *. intros j Hj x y Hx Hy. specialize (F j Hj).
    rewrite <- covers_At in Hx, Hy.
    destruct (raw_bounds_cases i) as [(-> & _)|(li & ui & ELi & EUi)]; [discriminate|].
    destruct (raw_bounds_cases j) as [(-> & _)|(lj & uj & ELj & EUj)]; [discriminate|].
    rewrite (covers_bounds i _ _ _ ELi EUi) in Hx. rewrite (covers_bounds j _ _ _ ELj EUj) in Hy.
    unfold separated in F. rewrite EUi, ELj in F. destruct Hx as [_ Hx], Hy as [Hy _].
    destruct ui, lj; simpl in *; try contradiction; porder. }
  split; [now apply pieces_drains|]. split; [now apply iter_collect_pieces|]. split; [apply pieces_wf|].
  split. { apply Forall_forall. intros i Hin. apply (pieces_nonempty s None i); auto; [apply W|discriminate|apply W]. }
  split; auto. split; auto. split.
  { clear Sep. unfold pairwise_disjoint. induction Lt as [|i l S IH F]; constructor; auto.
    rewrite Forall_forall in *. intros j Hj x Hx Hy. specialize (F j Hj x x Hx Hy). order. }
  split; [|now apply from_iter_pieces].
  apply is_den; auto. intros x. now rewrite some_contains_lcovers, pieces_den.
Qed.
Print Assumptions C33_interval_iter.

Example C33_ex : tree_wf exZ /\ iter_collect true (tree_interval_iter exZ) = Ok [Closed 0 1; Open 3 5; UpFrom 5].
Proof. split; [apply exZ_wf|reflexivity]. Qed.

(** ** C34 *)

(** Forward calls, including calls after the end, on every tree. *)
Theorem C34_forward_partial {T} {O : Ord T} dbg (s : TineTree T) n : tree_wf s ->
  exists l, intervals_are dbg s l /\
    runs (iter_next dbg) (iter_next_back dbg) (tree_interval_iter s) (repeat Front n) (deque_run l (repeat Front n)).
Proof.
  intros W. apply wf_tree_wf in W. exists (pieces None s). split; [now apply pieces_drains|].
  assert (H : stok s (@None (Tine T))) by (split; [apply W|discriminate]).
  change (tree_interval_iter s) with (st s None). clear W. revert s H. generalize (@None (Tine T)).
  induction n as [|n IH]; intros o s [Hc Hp]; [constructor|].
  generalize (iter_next_pieces dbg s o Hc Hp). cbn [repeat deque_run]. destruct (pieces o s) as [|a l] eqn:E.
  - intros [-> ->]. apply (runs_front _ _ _ (st [] None)); [reflexivity|].
    change (@nil (RawInterval T)) with (pieces (@None (Tine T)) []). apply IH. split; [reflexivity|discriminate].
  - intros (s' & o' & H' & P' & -> & _ & _ & Eq). apply (runs_front _ _ _ (st s' o')); auto. apply IH. now split.
Qed.
Print Assumptions C34_forward_partial.

(** Any interleaving, on trees without pinholes. *)
Theorem C34_both_ends_partial {T} {O : Ord T} dbg (s : TineTree T) l sched :
  tree_wf s -> intervals_are dbg s l -> (forall x, ~ pinhole l x) ->
  runs (iter_next dbg) (iter_next_back dbg) (tree_interval_iter s) sched (deque_run l sched).
Proof.
  intros W Hl N. apply wf_tree_wf in W. rewrite (intervals_pieces dbg s l W Hl) in *.
  apply brep_runs; auto. apply Forall_forall. intros t Ht. destruct (is_point_exclude t) eqn:E; auto. exfalso.
  destruct t as [|[|x|]|]; try discriminate. apply (N x). apply hole_pieces; auto. now apply hole_tine.
Qed.
Print Assumptions C34_both_ends_partial.

Example C34_ex : let s := [TLower (Include 0); TUpper (Include 1); TPoint (Include 4); TLower (Exclude 6); TUpper Infinite] in
  tree_wf s /\ intervals_are true s [Closed 0 1; Point 4; UpFrom 6] /\ (forall x, ~ pinhole [Closed 0 1; Point 4; UpFrom 6] x) /\
  runs (iter_next true) (iter_next_back true) (tree_interval_iter s) [Back; Front; Back; Front]
    [Some (UpFrom 6); Some (Closed 0 1); Some (Point 4); None].
Proof.
  assert (W : tree_wf [TLower (Include 0); TUpper (Include 1); TPoint (Include 4); TLower (Exclude 6); TUpper Infinite])
    by (split; [repeat constructor|reflexivity]).
  assert (N : forall x, ~ pinhole [Closed 0 1; Point 4; UpFrom 6] x).
  { intros x (i & j & Hi1 & _ & E & _). simpl in Hi1. intuition subst; discriminate. }
  assert (D : intervals_are true [TLower (Include 0); TUpper (Include 1); TPoint (Include 4); TLower (Exclude 6); TUpper Infinite]
    [Closed 0 1; Point 4; UpFrom 6]) by (repeat econstructor).
  split; [exact W|]. split; [exact D|]. split; [exact N|].
  exact (C34_both_ends_partial true _ _ [Back; Front; Back; Front] W D N).
Qed.

(** With a pinhole, [(0,2) U (2,4)]: calling [next_back] until it returns
    [None] gives [(2,4)] and then, release, [Empty] for ever new; debug, a panic. *)
Theorem C34_both_ends_refuted :
  exists s l, tree_wf s /\ built false s /\ intervals_are false s l /\ l = [Open 0 2; Open 2 4] /\
    deque_run l [Back; Back] = [Some (Open 2 4); Some (Open 0 2)] /\
    runs (iter_next false) (iter_next_back false) (tree_interval_iter s) [Back; Back] [Some (Open 2 4); Some Empty] /\
    (forall out, ~ runs (iter_next true) (iter_next_back true) (tree_interval_iter s) [Back; Back] out).
Proof.
  exists [TLower (Exclude 0); TPoint (Exclude 2); TUpper (Exclude 4)], [Open 0 2; Open 2 4].
  assert (W : tree_wf [TLower (Exclude 0); TPoint (Exclude 2); TUpper (Exclude 4)]) by (split; [repeat constructor|reflexivity]).
  split; [exact W|]. split; [now apply tree_wf_iff_built|]. split; [repeat econstructor|]. split; [reflexivity|]. split; [reflexivity|].
  split; [repeat econstructor|].
  intros out H. inversion H as [| |it it' o sched out' E R]; subst. vm_compute in E. inversion E; subst.
  inversion R as [| |it2 it2' o2 sched2 out2 E2 R2]; subst. vm_compute in E2. discriminate.
Qed.
Print Assumptions C34_both_ends_refuted.

(** ** C35 *)
Theorem C35_equality_dense {T} {O : Ord T} dbg (s s' : TineTree T) (x0 : T) : dense T -> unbounded T ->
  tree_wf s -> tree_wf s' ->
  (tree_eqb s s' = true <-> forall x, tree_contains dbg s x = tree_contains dbg s' x) /\
  (tree_is_empty s = true <-> forall x, tree_contains dbg s x = Ok false) /\
  (tree_is_full s = true <-> forall x, tree_contains dbg s x = Ok true).
Proof.
  intros D U W W'. apply wf_tree_wf in W, W'.
  assert (K : forall s', wf s' -> (forall x, den false s (At x) = den false s' (At x)) -> s = s')
    by (intros r Wr H; now apply (dense_ext D U x0)).
  assert (E : forall x, tree_contains dbg s x = Ok (den false s (At x))) by (intros; now apply tree_contains_den).
  repeat match goal with |- _ /\ _ => split end.
  - rewrite tree_eqb_eq. split; [now intros ->|]. intros H. apply K; auto. intros x. specialize (H x). rewrite !tree_contains_den in H by auto. congruence.
  - split.
    + intros Em x. rewrite E. destruct s; [reflexivity|discriminate].
    + intros H. rewrite (K [] new_wf); [reflexivity|]. intros x. specialize (H x). rewrite E in H. simpl. congruence.
  - destruct (from_raw_wf (@Full T) I) as (Wf & _ & Df). split.
    + intros Fu x. rewrite E. f_equal.
      assert (s = tine_from_raw_interval Full) as ->.
      { apply tree_eqb_eq. unfold tree_is_full in Fu. destruct s as [|a [|b [|? ?]]]; try discriminate. simpl. now rewrite andb_true_r. }
      now rewrite Df, covers_full.
    + intros H. rewrite (K (tine_from_raw_interval Full) Wf); [reflexivity|].
      intros x. specialize (H x). rewrite E in H. rewrite Df, covers_full. congruence.
Qed.
Print Assumptions C35_equality_dense.

Example C35_ex : dense Qc /\ unbounded Qc /\ tree_wf exQ.
Proof. split; [apply Qc_dense|]. split; [apply Qc_unbounded|apply exQ_wf]. Qed.

(** Density is needed: over the integers [(0,1)] and the empty tree have the
    same points. *)
Example C35_not_dense : exists s s' : TineTree Z, tree_wf s /\ tree_wf s' /\ tree_eqb s s' = false /\
  forall x, tree_contains true s x = tree_contains true s' x.
Proof.
  assert (W : tree_wf [TLower (Exclude 0); TUpper (Exclude 1)]) by (split; [repeat constructor|reflexivity]).
  exists [TLower (Exclude 0); TUpper (Exclude 1)], []. split; [exact W|]. split; [split; [constructor|reflexivity]|].
  split; [reflexivity|]. intros x. apply wf_tree_wf in W. rewrite tree_contains_den by auto.
  change (tree_contains true [] x) with (Ok false). rewrite <- pieces_den by auto. f_equal. change (pieces None [TLower (Exclude 0); TUpper (Exclude 1)]) with [Open 0 1].
  unfold lcovers. cbn [existsb]. rewrite covers_At, orb_false_r.
  apply not_true_iff_false. rewrite raw_contains_points. simpl. rewrite !Z_lt_iff. lia.
Qed.

(** ** C36 *)

(** Never panics on a well-formed tree, never loses a point it should keep; see
    C37 for when it is right. *)
Theorem C36_minus_in_place_partial {T} {O : Ord T} dbg (s : TineTree T) (i : RawInterval T) : tree_wf s -> raw_wf i ->
  exists s', tree_minus_in_place dbg s i = Ok s' /\
    ((forall x, i <> Point x) -> tree_wf s' /\
      forall x, (holds dbg s x -> raw_contains i x = false -> holds dbg s' x) /\
                (holds dbg s' x -> (holds dbg s x /\ raw_contains i x = false) \/ ends_at i x)).
Proof.
  intros W Wi. apply wf_tree_wf in W. destruct (point_or i) as [[x ->]|NP].
  - destruct (rim s x) eqn:R.
    + destruct (minus_in_place_rim dbg s x W R) as (s' & E & _). exists s'. split; auto. intros N. now destruct (N x).
    + destruct (minus_in_place_point dbg s x W R) as (s' & E & _). exists s'. split; auto. intros N. now destruct (N x).
  - destruct (minus_in_place_proper dbg s i W Wi NP) as (s' & E & W' & H). exists s'. split; auto. intros _.
    split; [now apply wf_tree_wf|]. intros x. rewrite !holds_den by auto. rewrite H, covers_At. split.
    + intros -> ->. reflexivity.
    + rewrite orb_true_iff, andb_true_iff, negb_true_iff. intros [?|F]; auto. right.
      destruct (raw_bounds_cases i) as [(-> & _)|(lo & up & EL & EU)]; [discriminate|].
      rewrite EL, EU in F. apply (bound_fills s i lo up _ EL EU) in F as (y & Y1 & _ & Y2). inversion Y2; subst. auto.
Qed.
Print Assumptions C36_minus_in_place_partial.

Example C36_ex : tree_wf exZ /\ raw_wf (Closed 1 7) /\
  tree_minus_in_place true exZ (Closed 1 7) = Ok [TLower (Include 0); TUpper (Exclude 1); TLower (Exclude 7); TUpper Infinite].
Proof. split; [apply exZ_wf|]. split; reflexivity. Qed.

(** Removing the absent point 3 from [[0,3)] leaves half an interval, on which
    [contains] panics; removing [(0,2)] from [(0,2) U (2,4)] adds the point 2. *)
Theorem C36_minus_in_place_refuted :
  (exists (s s' : TineTree Z) p, tree_wf s /\ tree_minus_in_place false s (Point p) = Ok s' /\ ~ tree_wf s' /\
     tree_contains false s' 7 = Panic) /\
  (exists (s : TineTree Z) i s', tree_wf s /\ raw_wf i /\ tree_minus_in_place true s i = Ok s' /\ tree_wf s' /\
     tree_contains true s 2 = Ok false /\ tree_contains true s' 2 = Ok true).
Proof.
  split.
  - exists [TLower (Include 0); TUpper (Exclude 3)], [TLower (Include 0)], 3.
    split; [split; [repeat constructor|reflexivity]|]. split; [reflexivity|]. split; [|reflexivity].
    intros [_ H]. discriminate.
  - exists [TLower (Exclude 0); TPoint (Exclude 2); TUpper (Exclude 4)], (Open 0 2), [TLower (Include 2); TUpper (Exclude 4)].
    split; [split; [repeat constructor|reflexivity]|]. split; [reflexivity|]. split; [reflexivity|].
    split; [split; [repeat constructor|reflexivity]|]. split; reflexivity.
Qed.
Print Assumptions C36_minus_in_place_refuted.

(** ** C37 *)
Theorem C37_minus_domain {T} {O : Ord T} dbg (s : TineTree T) l (i : RawInterval T) :
  tree_wf s -> intervals_are dbg s l -> raw_wf i ->
  (exact dbg (tree_minus_in_place dbg s i) (fun x => holds dbg s x /\ raw_contains i x = false)
   <-> ~ minus_obstacle l i).
Proof.
  intros W Hl Wi. apply wf_tree_wf in W. rewrite (intervals_pieces dbg s l W Hl). rewrite obstacle_pieces by auto. split.
  - intros Ex Ob. apply exact_den in Ex as (s' & E & W' & H).
    destruct (minus_obstacle_wrong dbg s i W Wi Ob) as (s2 & E2 & [N|(_ & x & D1 & D2)]).
    + assert (s2 = s') by congruence. subst. contradiction.
    + assert (s2 = s') by congruence. subst. apply H in D2 as [D2 _]. rewrite holds_den in D2 by auto. congruence.
  - intros N. apply exact_of_den. destruct (minus_exact dbg s i W Wi N) as (s' & E & W' & H). exists s'. split; auto. split; auto.
    intros x. rewrite H, holds_den, covers_At by auto. now rewrite andb_true_iff, negb_true_iff.
Qed.
Print Assumptions C37_minus_domain.

(** The whole-tree difference is exact when no interval of the second tree
    meets an obstacle in the first. *)
Theorem C37_minus_tree {T} {O : Ord T} dbg (s s' : TineTree T) l l' :
  tree_wf s -> tree_wf s' -> intervals_are dbg s l -> intervals_are dbg s' l' ->
  (forall i, In i l' -> ~ minus_obstacle l i) ->
  exact dbg (tree_minus dbg s s') (fun x => holds dbg s x /\ ~ holds dbg s' x).
Proof.
  intros W W' Hl Hl' N. apply wf_tree_wf in W, W'. apply exact_of_den.
  rewrite (intervals_pieces dbg s l W Hl), (intervals_pieces dbg s' l' W' Hl') in N.
  destruct (tree_minus_exact dbg s s' W W') as (r & E & Wr & H).
  - intros i Hin. rewrite <- obstacle_pieces by auto. now apply N.
  - exists r. split; auto. split; auto. intros x. rewrite H, !holds_den by auto.
    rewrite andb_true_iff, negb_true_iff. destruct (den false s' (At x)); intuition congruence.
Qed.
Print Assumptions C37_minus_tree.

Example C37_ex : tree_wf exZ /\ intervals_are true exZ [Closed 0 1; Open 3 5; UpFrom 5] /\
  ~ minus_obstacle [Closed 0 1; Open 3 5; UpFrom 5] (LeftOpen 1 3) /\
  minus_obstacle [Closed 0 1; Open 3 5; UpFrom 5] (Point 3) /\ minus_obstacle [Closed 0 1; Open 3 5; UpFrom 5] (Closed 4 5).
Proof.
  split; [apply exZ_wf|]. split; [repeat econstructor|]. split; [|split].
  - intros (x & E & (i & j & Hi1 & Hj & E1 & E2)).
    assert (x = 5) by (simpl in Hi1; intuition subst; simpl in E1; try discriminate; congruence).
    subst. destruct E as [(b & E & B)|(b & E & B)]; inversion E; subst; simpl in B; discriminate.
  - exists (Open 3 5). simpl. auto.
  - exists 5. split; [right; exists (Include 5); split; reflexivity|].
    exists (Open 3 5), (UpFrom 5). simpl. auto 10.
Qed.

(** ** C38 *)

(** Exact when [self] is one interval that meets every interval of [other]. *)
Theorem C38_intersect_partial {T} {O : Ord T} dbg (a b : TineTree T) i l :
  tree_wf a -> tree_wf b -> intervals_are dbg a [i] -> intervals_are dbg b l ->
  Forall (fun j => raw_is_empty (raw_intersect i j) = false) l ->
  exact dbg (tree_intersect dbg a b) (fun x => holds dbg a x /\ holds dbg b x).
Proof.
  intros Wa Wb Hi1 Hl F. apply wf_tree_wf in Wa, Wb.
  apply (intervals_pieces dbg a [i] Wa) in Hi1. apply (intervals_pieces dbg b l Wb) in Hl. subst l.
  destruct (tree_intersect_single dbg a b i Wa Wb (eq_sym Hi1) F) as (r & E & W & H).
  apply exact_of_den. exists r. split; auto. split; auto. intros x. now rewrite H, andb_true_iff, !holds_den.
Qed.
Print Assumptions C38_intersect_partial.

Example C38_ex : let a := [TLower (Include 0); TUpper (Include 4)] in
  tree_wf a /\ intervals_are true a [Closed 0 4] /\ intervals_are true exZ [Closed 0 1; Open 3 5; UpFrom 5] /\
  Forall (fun j => raw_is_empty (raw_intersect (Closed 0 4) j) = false) [Closed 0 1; Open 3 5] /\
  tree_intersect true a [TLower (Include 0); TUpper (Include 1); TLower (Exclude 3); TUpper (Exclude 5)] =
    Ok [TLower (Include 0); TUpper (Include 1); TLower (Exclude 3); TUpper (Include 4)].
Proof.
  split; [split; [repeat constructor|reflexivity]|]. split; [repeat econstructor|]. split; [repeat econstructor|].
  split; [repeat constructor|reflexivity].
Qed.

(** A tree intersected with itself, or with everything, loses points. *)
Theorem C38_intersect_refuted :
  exists a f : TineTree Z, tree_wf a /\ tree_wf f /\ tree_is_full f = true /\ tree_contains true a 3 = Ok true /\
    (exists r, tree_intersect true a a = Ok r /\ tree_contains true r 3 = Ok false) /\
    (exists r, tree_intersect true a f = Ok r /\ tree_contains true r 3 = Ok false).
Proof.
  exists [TLower (Include 0); TUpper (Include 1); TLower (Include 3); TUpper (Include 4)], (tree_from_raw_interval Full).
  split; [split; [repeat constructor|reflexivity]|]. split; [split; [repeat constructor|reflexivity]|].
  split; [reflexivity|]. split; [reflexivity|]. split; (eexists; split; [reflexivity|reflexivity]).
Qed.
Print Assumptions C38_intersect_refuted.

(** ** C39 *)
Theorem C39_intersect_sound {T} {O : Ord T} dbg (a b : TineTree T) : tree_wf a -> tree_wf b ->
  exists r, tree_intersect dbg a b = Ok r /\ tree_wf r /\
    forall x, holds dbg r x -> holds dbg a x /\ holds dbg b x.
Proof.
  intros Wa Wb. apply wf_tree_wf in Wa, Wb.
  destruct (tree_intersect_sound dbg a b Wa Wb) as (r & E & W & H). exists r. split; auto. split; [now apply wf_tree_wf|].
  intros x. rewrite !holds_den by auto. apply H.
Qed.
Print Assumptions C39_intersect_sound.

Example C39_ex : tree_wf exZ /\ tree_intersect true exZ exZ = Ok [TLower (Include 0); TUpper (Include 1)].
Proof. split; [apply exZ_wf|reflexivity]. Qed.

(** ** C40 *)
Theorem C40_intersect_in_place_partial {T} {O : Ord T} dbg (s : TineTree T) (i : RawInterval T) : tree_wf s ->
  i = Empty \/ i = Full \/ (exists p, i = Point p) \/ s = [] ->
  exact dbg (tree_intersect_in_place dbg s i) (fun x => holds dbg s x /\ raw_contains i x = true).
Proof.
  intros W C. apply wf_tree_wf in W. apply exact_of_den.
  assert (K : exists s', tree_intersect_in_place dbg s i = Ok s' /\ wf s' /\ forall p, den false s' p = den false s p && covers i p).
  { destruct C as [->|[->|[[p ->]| ->]]]; try (apply isect_in_place_easy; auto; intros []).
    exists []. split; auto. }
  destruct K as (s' & E & W' & H). exists s'. split; auto. split; auto. intros x. now rewrite H, andb_true_iff, holds_den, covers_At.
Qed.
Print Assumptions C40_intersect_in_place_partial.

Example C40_ex : tree_wf exZ /\ tree_intersect_in_place true exZ (Point 4) = Ok [TPoint (Include 4)].
Proof. split; [apply exZ_wf|reflexivity]. Qed.

(** [[0,3] ∩ [0,5]] panics; [(0,3) ∩ (3,5)] does too; [[0,1] ∩ [6,7]] is
    [[6,7]]. *)
Theorem C40_intersect_in_place_refuted :
  exists a b : TineTree Z, tree_wf a /\ tree_wf b /\
    tree_intersect_in_place false a (Closed 0 5) = Panic /\
    tree_intersect_in_place false b (Open 3 5) = Panic /\
    tree_intersect_in_place true b (Closed 6 7) = Ok [TLower (Include 6); TUpper (Include 7)].
Proof.
  exists [TLower (Include 0); TUpper (Include 3)], [TLower (Exclude 0); TUpper (Exclude 3)].
  split; [split; [repeat constructor|reflexivity]|]. split; [split; [repeat constructor|reflexivity]|].
  repeat split.
Qed.
Print Assumptions C40_intersect_in_place_refuted.

(** ** C41 *)
Lemma intersect_domain_den {T} {O : Ord T} dbg (s : TineTree T) (i : RawInterval T) : wf s -> raw_wf i ->
  (intersect_domain dbg (pieces None s) i <->
   exists s', tree_intersect_in_place dbg s i = Ok s' /\ wf s' /\ forall p, den false s' p = den false s p && covers i p).
Proof.
  intros W Wi.
  assert (P : proper i \/ ~ proper i) by (destruct i; simpl; auto).
  destruct P as [P|P].
  - destruct s as [|t s].
    + split; [intros _|].
      * exists []. split; [reflexivity|]. split; [apply new_wf|reflexivity].
      * intros _. destruct i; simpl in *; auto.
    + destruct (raw_bounds_cases i) as [(-> & _)|(lo & up & EL & EU)]; [destruct P|].
      rewrite (domain_fine dbg (t :: s) i lo up) by (auto; discriminate). symmetry. apply isect_in_place_iff; auto. discriminate.
  - split; [intros _; now apply isect_in_place_easy|]. intros _. destruct i; simpl in *; auto; now destruct P.
Qed.

(** Inside the domain the result is exact, for every type; *)
Theorem C41_intersect_domain_exact {T} {O : Ord T} dbg (s : TineTree T) l (i : RawInterval T) :
  tree_wf s -> intervals_are dbg s l -> raw_wf i -> intersect_domain dbg l i ->
  exact dbg (tree_intersect_in_place dbg s i) (fun x => holds dbg s x /\ raw_contains i x = true).
Proof.
  intros W Hl Wi D. apply wf_tree_wf in W. rewrite (intervals_pieces dbg s l W Hl) in D.
  apply (intersect_domain_den dbg s i W Wi) in D as (s' & E & W' & H). apply exact_of_den. exists s'. split; auto. split; auto.
  intros x. now rewrite H, andb_true_iff, holds_den, covers_At.
Qed.
Print Assumptions C41_intersect_domain_exact.

(** and on a dense type only there. *)
Theorem C41_intersect_domain_iff {T} {O : Ord T} dbg (s : TineTree T) l (i : RawInterval T) (x0 : T) :
  dense T -> unbounded T -> tree_wf s -> intervals_are dbg s l -> raw_wf i ->
  (exact dbg (tree_intersect_in_place dbg s i) (fun x => holds dbg s x /\ raw_contains i x = true) <-> intersect_domain dbg l i).
Proof.
  intros D U W Hl Wi. split; [|now apply C41_intersect_domain_exact].
  intros Ex. apply wf_tree_wf in W. rewrite (intervals_pieces dbg s l W Hl). apply intersect_domain_den; auto.
  apply exact_den in Ex as (s' & E & W' & H). exists s'. split; auto. split; auto.
  destruct (from_raw_wf i Wi) as (Wf & _ & Df).
  intros p. rewrite <- Df. revert p. apply (dense_den D U x0 s' s (tine_from_raw_interval i) andb); auto.
  intros x. rewrite Df, covers_At. apply eq_true_iff_eq. rewrite H, holds_den by auto. now rewrite andb_true_iff.
Qed.
Print Assumptions C41_intersect_domain_iff.

(** In particular when both ends fall inside intervals of the tree. *)
Corollary C41_intersect_inside {T} {O : Ord T} dbg (s : TineTree T) l (i : RawInterval T) lo up :
  tree_wf s -> intervals_are dbg s l -> raw_wf i -> raw_lower_bound i = Some lo -> raw_upper_bound i = Some up ->
  in_lower l lo -> in_upper l up ->
  exact dbg (tree_intersect_in_place dbg s i) (fun x => holds dbg s x /\ raw_contains i x = true).
Proof.
  intros W Hl Wi EL EU IL IU. apply (C41_intersect_domain_exact dbg s l i W Hl Wi).
  destruct i; simpl; auto; right; exists lo, up; simpl; auto.
Qed.
Print Assumptions C41_intersect_inside.

Example C41_ex : intervals_are true exQ [Closed (q 0) (q 1); Open (q 3) (q 5); Open (q 5) (q 7)] /\
  raw_wf (Closed (q 0) (q 6)) /\ intersect_domain true [Closed (q 0) (q 1); Open (q 3) (q 5); Open (q 5) (q 7)] (Closed (q 0) (q 6)) /\
  tree_intersect_in_place true exQ (Closed (q 0) (q 6)) =
    Ok [TLower (Include (q 0)); TUpper (Include (q 1)); TLower (Exclude (q 3)); TPoint (Exclude (q 5)); TUpper (Include (q 6))].
Proof.
  split; [repeat econstructor|]. split; [reflexivity|]. split; [|reflexivity].
  right. exists (Include (q 0)), (Include (q 6)). split; [reflexivity|]. split; [reflexivity|]. left. split.
  - exists (Closed (q 0) (q 1)). simpl. split; auto. split; [discriminate|reflexivity].
  - exists (Open (q 5) (q 7)). simpl. split; auto. split; [reflexivity|discriminate].
Qed.

(** ** C42 *)
Theorem C42_enclose_contains {T} {O : Ord T} dbg (s : TineTree T) : tree_wf s ->
  exists i, tree_enclose dbg s = Ok i /\ raw_wf i /\ (raw_is_empty i = true <-> tree_is_empty s = true) /\
    (forall x, holds dbg s x -> raw_contains i x = true).
Proof.
  intros W. apply wf_tree_wf in W. destruct (enclose_ok dbg s W) as (i & E & Wi & Em & In & _).
  exists i. split; auto. split; auto. split.
  - rewrite Em. destruct s; simpl; split; auto; discriminate.
  - intros x. rewrite holds_den by auto. rewrite <- covers_At. apply In.
Qed.
Print Assumptions C42_enclose_contains.

(** On a dense type it is the smallest. *)
Theorem C42_enclose_smallest {T} {O : Ord T} dbg (s : TineTree T) i (j : RawInterval T) : dense T -> unbounded T -> tree_wf s ->
  tree_enclose dbg s = Ok i -> (forall x, holds dbg s x -> raw_contains j x = true) ->
  forall x, raw_contains i x = true -> raw_contains j x = true.
Proof.
  intros D U W Ei Hj x Hx. apply wf_tree_wf in W. destruct (enclose_ok dbg s W) as (i' & E & Wi & Em & In & Hull).
  assert (i' = i) by congruence. subst i'. rewrite <- covers_At in Hx.
  destruct (Hull _ Hx) as (a & b & Ha & Hb & La & Lb).
  assert (A : exists y, den false s (At y) = true /\ le y x).
  { destruct (from_raw_wf (To x) I) as (W1 & _ & D1).
    destruct (approx3 D U x s (tine_from_raw_interval (To x)) s a W W1 W) as (y & E1 & E2 & _). exists y. split; [congruence|].
    rewrite !D1 in E2. assert (C : covers (To x) a = true) by (unfold covers; simpl; revert La; clear; porder).
    rewrite C in E2. symmetry in E2. revert E2. unfold covers. simpl. clear. porder. }
  assert (B : exists z, den false s (At z) = true /\ le x z).
  { destruct (from_raw_wf (From x) I) as (W1 & _ & D1).
    destruct (approx3 D U x s (tine_from_raw_interval (From x)) s b W W1 W) as (y & E1 & E2 & _). exists y. split; [congruence|].
    rewrite !D1 in E2. assert (C : covers (From x) b = true) by (unfold covers; simpl; revert Lb; clear; destruct b; porder).
    rewrite C in E2. symmetry in E2. revert E2. unfold covers. simpl. clear. porder. }
  destruct A as (y & Ay & Ly), B as (z & Bz & Lz).
  rewrite <- holds_den with (dbg := dbg) in Ay, Bz by auto. apply Hj in Ay, Bz.
  rewrite raw_contains_points in *. destruct j; simpl in *; try contradiction; clear -Ay Bz Ly Lz; order.
Qed.
Print Assumptions C42_enclose_smallest.

Example C42_ex : tree_enclose true exQ = Ok (RightOpen (q 0) (q 7)) /\ dense Qc /\ unbounded Qc /\ tree_wf exQ.
Proof. split; [reflexivity|]. split; [apply Qc_dense|]. split; [apply Qc_unbounded|apply exQ_wf]. Qed.

(** Over the integers it is not: [(0,1) U {5}] is enclosed by [(0,5]], but [{5}]
    is enough. *)
Example C42_not_dense : let s := [TLower (Exclude 0); TUpper (Exclude 1); TPoint (Include 5)] in
  tree_wf s /\ tree_enclose true s = Ok (LeftOpen 0 5) /\ forall x, holds true s x -> raw_contains (Point 5) x = true.
Proof.
  cbv zeta. assert (W : tree_wf [TLower (Exclude 0); TUpper (Exclude 1); TPoint (Include 5)]) by (split; [repeat constructor|reflexivity]).
  split; [exact W|]. split; [reflexivity|]. intros x. apply wf_tree_wf in W. rewrite holds_den by auto. rewrite <- pieces_den by auto.
  change (pieces None [TLower (Exclude 0); TUpper (Exclude 1); TPoint (Include 5)]) with [Open 0 1; Point 5].
  rewrite lcovers_ex. intros (i & Hin & C). rewrite covers_At in C. destruct Hin as [<-|[<-|[]]]; auto.
  rewrite raw_contains_points in C. simpl in C. rewrite !Z_lt_iff in C. lia.
Qed.

(** ** C57 *)

(** Whatever the tree, even a malformed one: if the debug build returns, the
    release build returns the same. *)
Theorem C57_release_follows_debug {T} {O : Ord T} (s s' : TineTree T) (i : RawInterval T) (it : Iter T) l x :
  (forall r, tree_union_in_place true s i = Ok r -> tree_union_in_place false s i = Ok r) /\
  (forall r, tree_minus_in_place true s i = Ok r -> tree_minus_in_place false s i = Ok r) /\
  (forall r, tree_intersect_in_place true s i = Ok r -> tree_intersect_in_place false s i = Ok r) /\
  (forall r, tree_union true s s' = Ok r -> tree_union false s s' = Ok r) /\
  (forall r, tree_minus true s s' = Ok r -> tree_minus false s s' = Ok r) /\
  (forall r, tree_intersect true s s' = Ok r -> tree_intersect false s s' = Ok r) /\
  (forall r, tree_complement true s = Ok r -> tree_complement false s = Ok r) /\
  (forall r, tree_contains true s x = Ok r -> tree_contains false s x = Ok r) /\
  (forall r, tree_enclose true s = Ok r -> tree_enclose false s = Ok r) /\
  (forall r, tree_closure true s = Ok r -> tree_closure false s = Ok r) /\
  (forall r, tree_from_iter true l = Ok r -> tree_from_iter false l = Ok r) /\
  (forall r, iter_next true it = Ok r -> iter_next false it = Ok r) /\
  (forall r, iter_next_back true it = Ok r -> iter_next_back false it = Ok r).
Proof.
  repeat match goal with |- _ /\ _ => split end.
  - apply union_in_place_ref.
  - apply minus_in_place_ref.
  - apply intersect_in_place_ref.
  - apply union_ref.
  - apply minus_ref.
  - apply intersect_ref.
  - apply complement_ref.
  - apply contains_ref.
  - apply enclose_ref.
  - apply closure_ref.
  - apply extend_ref.
  - apply iter_next_ref.
  - apply iter_next_back_ref.
Qed.
Print Assumptions C57_release_follows_debug.

(** On well-formed trees neither build panics and they agree, for these
    operations; missing: [minus] of trees, [intersect_in_place], [next_back]. *)
Theorem C57_debug_agrees_partial {T} {O : Ord T} (s s' : TineTree T) (i : RawInterval T) l x :
  tree_wf s -> tree_wf s' -> raw_wf i -> Forall raw_wf l ->
  (exists r, tree_union_in_place true s i = Ok r /\ tree_union_in_place false s i = Ok r) /\
  (exists r, tree_minus_in_place true s i = Ok r /\ tree_minus_in_place false s i = Ok r) /\
  (exists r, tree_union true s s' = Ok r /\ tree_union false s s' = Ok r) /\
  (exists r, tree_intersect true s s' = Ok r /\ tree_intersect false s s' = Ok r) /\
  (exists r, tree_complement true s = Ok r /\ tree_complement false s = Ok r) /\
  (exists r, tree_contains true s x = Ok r /\ tree_contains false s x = Ok r) /\
  (exists r, tree_enclose true s = Ok r /\ tree_enclose false s = Ok r) /\
  (exists r, tree_closure true s = Ok r /\ tree_closure false s = Ok r) /\
  (exists r, tree_from_iter true l = Ok r /\ tree_from_iter false l = Ok r) /\
  (exists r, intervals_are true s r /\ intervals_are false s r).
Proof.
  intros W W' Wi Wl. apply wf_tree_wf in W, W'.
  assert (R : forall A (a b : res A), refines a b -> (exists r, a = Ok r) -> exists r, a = Ok r /\ b = Ok r) by (intros A a b H [r E]; eauto).
  repeat match goal with |- _ /\ _ => split end.
  - apply R; [apply union_in_place_ref|]. destruct (union_in_place_ok true s i W Wi) as (r & E & _). eauto.
  - apply R; [apply minus_in_place_ref|]. apply wf_tree_wf in W. destruct (C36_minus_in_place_partial true s i W Wi) as (r & E & _). eauto.
  - apply R; [apply union_ref|]. destruct (tree_union_ok true s s' W W') as (r & E & _). eauto.
  - apply R; [apply intersect_ref|]. destruct (tree_intersect_sound true s s' W W') as (r & E & _). eauto.
  - apply R; [apply complement_ref|]. destruct (complement_ok true s W) as (r & E & _). eauto.
  - apply R; [apply contains_ref|]. rewrite tree_contains_den by auto. eauto.
  - apply R; [apply enclose_ref|]. destruct (enclose_ok true s W) as (r & E & _). eauto.
  - apply R; [apply closure_ref|]. unfold tree_closure. destruct (enclose_ok true s W) as (r & -> & _). simpl. eauto.
  - apply R; [apply extend_ref|]. destruct (from_iter_ok true l Wl) as (r & E & _). eauto.
  - exists (pieces None s). split; now apply pieces_drains.
Qed.
Print Assumptions C57_debug_agrees_partial.

Example C57_ex : tree_wf exZ /\ raw_wf (Closed 2 5) /\ Forall raw_wf [Closed 2 5; Point 9].
Proof. split; [apply exZ_wf|]. split; [reflexivity|repeat constructor]. Qed.

(** [{0} U {3}] intersected in place with [[0,3]]: exact in release, a panic in
    debug; the second [next_back] on [(0,2) U (2,4)] too, and removing [{3} U {5}]
    from [[0,3)]. *)
Theorem C57_debug_refuted :
  (exists s : TineTree Z, tree_wf s /\ tree_intersect_in_place true s (Closed 0 3) = Panic /\
     exact false (tree_intersect_in_place false s (Closed 0 3)) (fun x => holds false s x /\ raw_contains (Closed 0 3) x = true)) /\
  (exists (s : TineTree Z) i it, tree_wf s /\
     iter_next_back true (tree_interval_iter s) = Ok (Some i, it) /\ iter_next_back false (tree_interval_iter s) = Ok (Some i, it) /\
     iter_next_back true it = Panic /\ exists r, iter_next_back false it = Ok r) /\
  (exists s s' : TineTree Z, tree_wf s /\ tree_wf s' /\ tree_minus true s s' = Panic /\ exists r, tree_minus false s s' = Ok r).
Proof.
  split; [|split].
  - exists [TPoint (Include 0); TPoint (Include 3)].
    assert (W : tree_wf [TPoint (Include 0); TPoint (Include 3)]) by (split; [repeat constructor|reflexivity]).
    split; [exact W|]. split; [reflexivity|].
    apply (C41_intersect_domain_exact false _ [Point 0; Point 3]); auto.
    + repeat econstructor.
    + reflexivity.
    + right. exists (Include 0), (Include 3). split; [reflexivity|]. split; [reflexivity|]. right. right. right. right.
      split; [reflexivity|]. split; [|split; [|split]].
      * intros (i & Hin & A & B). destruct Hin as [<-|[<-|[]]]; unfold starts_by, stops_after in *; simpl in *; discriminate || (now destruct A).
      * intros (i & Hin & A & B). destruct Hin as [<-|[<-|[]]]; unfold starts_before, stops_from in *; simpl in *; discriminate || (now destruct B).
      * split; [exists (Point 0); simpl; auto|exact I].
      * split; [exists (Point 3); simpl; auto|exact I].
  - exists [TLower (Exclude 0); TPoint (Exclude 2); TUpper (Exclude 4)], (Open 2 4),
      {| tine_iter := [TLower (Exclude 0)]; saved_lower := Some (TPoint (Exclude 2)); saved_upper := None |}.
    split; [split; [repeat constructor|reflexivity]|]. split; [reflexivity|]. split; [reflexivity|].
    split; [reflexivity|]. eexists. reflexivity.
  - exists [TLower (Include 0); TUpper (Exclude 3)], [TPoint (Include 3); TPoint (Include 5)].
    split; [split; [repeat constructor|reflexivity]|]. split; [split; [repeat constructor|reflexivity]|].
    split; [reflexivity|]. eexists. reflexivity.
Qed.
Print Assumptions C57_debug_refuted.

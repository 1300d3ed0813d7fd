(** * C104: what a panic leaves behind *)
From Coq Require Import List Bool ZArith Lia Sorted Permutation.
From Verif Require Import Base OrdFacts Pos PFinite Ints MBound MRaw MNormalize MTine MBTree MTineTree MInterval MSelection MCrash
  Spec Spec_Tree Spec_Sel Spec_More Spec_Domain Spec_Panic PRaw PRaw2 PNorm PIter PInterval PBTree PTree PTreeOps PTreeIsect PTree2 PTree3 PTree4 PTree5 PTree6 PTree7
  PSel PSel2 PSel3 PSel4 Instances Properties_Raw Properties_Parse Properties_Interval Properties_Tree Properties_Selection Properties_Tree2
  Properties_Selection2 Properties_Selection4 Properties_Both PDomain PDomain2 Properties_Domain PPanic Properties_Panic PCrash.
Import ListNotations.
Local Open Scope Z_scope.
Local Arguments cmp : simpl never.

(** The calls return, and panic, exactly as in the model without crash states. *)
Theorem C104_same_result {T} {O : Cmp T} dbg (s : TineTree T) (i : RawInterval T) :
  ((forall r, tree_union_in_place_crash dbg s i = Returned r <-> tree_union_in_place dbg s i = Ok r) /\
   ((exists r, tree_union_in_place_crash dbg s i = Unwound r) <-> tree_union_in_place dbg s i = Panic)) /\
  ((forall r, tree_minus_in_place_crash dbg s i = Returned r <-> tree_minus_in_place dbg s i = Ok r) /\
   ((exists r, tree_minus_in_place_crash dbg s i = Unwound r) <-> tree_minus_in_place dbg s i = Panic)) /\
  ((forall r, tree_intersect_in_place_crash dbg s i = Returned r <-> tree_intersect_in_place dbg s i = Ok r) /\
   ((exists r, tree_intersect_in_place_crash dbg s i = Unwound r) <-> tree_intersect_in_place dbg s i = Panic)).
Proof.
  rewrite <- union_agree, <- minus_agree, <- intersect_agree.
  assert (K : forall o : outcome (TineTree T), (forall r, o = Returned r <-> outcome_res o = Ok r) /\ ((exists r, o = Unwound r) <-> outcome_res o = Panic)).
  { intros [a|a]; simpl; (split; [intros r; split; congruence|]); split; try discriminate; eauto; intros (r & E); discriminate. }
  split; [|split]; apply K.
Qed.
Print Assumptions C104_same_result.

(** [union_in_place] and [minus_in_place] do not panic; [extend] panics only
    when its iterator does, and then the Selection holds the values handed out
    so far. *)
Theorem C104_extend {T} {O : Ord T} {F : Finite T} dbg (p : prog T) s (l : list (Interval T)) rest :
  inputs false p -> run dbg p = Ok s -> Forall (reach false) l ->
  (exists s', sel_extend_crash dbg s (map Item l) = Returned s' /\ sel_is dbg s' (fun x => member dbg s x \/ some_icontains l x)) /\
  (exists s', sel_extend_crash dbg s (map Item l ++ Crash :: rest) = Unwound s' /\ run dbg (P_extend p l) = Ok s' /\
     sel_is dbg s' (fun x => member dbg s x \/ some_icontains l x)).
Proof.
  intros H E R. pose proof (run_wf dbg p s H E) as W.
  assert (Q : forall l s, wf s -> Forall (reach false) l -> exists s', sel_extend dbg s l = Ok s' /\ wf s' /\
     (forall x, inS s' x <-> inS s x \/ some_icontains l x) /\
     sel_extend_crash dbg s (map Item l) = Returned s' /\ sel_extend_crash dbg s (map Item l ++ Crash :: rest) = Unwound s').
  { clear. intros l. induction l as [|i l IH]; intros s W R.
    - exists s. split; [reflexivity|]. split; [exact W|]. split; [|split; reflexivity]. intros x. split; [now left|]. intros [K|(i & [] & _)]; auto.
    - inversion R as [|? ? Ri Rl]; subst. destruct (denorm_in i Ri) as (Wi & _ & C).
      destruct (union_in_place_ok dbg s _ W Wi) as (s1 & E1 & W1 & D1).
      destruct (IH s1 W1 Rl) as (s' & Es' & W' & D' & A & B). exists s'. simpl.
      assert (E1' : sel_union_in_place_crash dbg s i = Returned s1) by (apply (proj1 (proj1 (C104_same_result dbg s _))); exact E1).
      rewrite E1'. unfold sel_union_in_place in *. simpl in *.
      split; [now rewrite E1|]. split; [auto|]. split; [|auto]. intros x. rewrite D'. unfold inS. rewrite D1, orb_true_iff, C.
      unfold some_icontains, ipoints. split.
      + intros [[K|K]|(k & Hk & K)]; [now left|right; exists i; split; [now left|exact K]|right; exists k; split; [now right|exact K]].
      + intros [K|(k & [<-|Hk] & K)]; [now left; left|now left; right|right; exists k; now split]. }
  destruct (Q l s W R) as (s' & Es' & W' & D' & A & B).
  assert (S : sel_is dbg s' (fun x => member dbg s x \/ some_icontains l x)).
  { intros x. exists (den false s' (At x)). unfold sel_contains. rewrite tree_contains_den by auto. split; [reflexivity|].
    change (inS s' x <-> member dbg s x \/ some_icontains l x). now rewrite D', member_in by auto. }
  split; exists s'; [now split|]. split; [exact B|]. split; [|exact S]. simpl. rewrite E. exact Es'.
Qed.
Print Assumptions C104_extend.

Theorem C104_union_minus {T} {O : Ord T} {F : Finite T} dbg (p : prog T) s (i : Interval T) :
  inputs false p -> run dbg p = Ok s -> reach false i ->
  (exists r, sel_union_in_place_crash dbg s i = Returned r /\ run dbg (P_union_in_place p i) = Ok r) /\
  (exists r, sel_minus_in_place_crash dbg s i = Returned r /\ run dbg (P_minus_in_place p i) = Ok r).
Proof.
  intros H E R. destruct (C104_same_result dbg s (denormalized (interval_raw i))) as ((U & _) & (M & _) & _).
  destruct (run_ok dbg (P_union_in_place p i) (conj H R)) as (r & Er & _).
  destruct (run_ok dbg (P_minus_in_place p i) (conj H R)) as (r' & Er' & _).
  split; [exists r|exists r']; (split; [|assumption]); [apply U|apply M]; simpl in Er, Er'; rewrite E in Er, Er'; assumption.
Qed.
Print Assumptions C104_union_minus.

(** After a panic of [intersect_in_place] a debug build's [contains] answers
    true only for values of the tree that lie in the interval. *)
Theorem C104_intersect_debug_partial {T} {O : Ord T} dbg dbg' (s s' : TineTree T) (i : RawInterval T) x :
  tree_wf s -> raw_wf i -> tree_intersect_in_place_crash dbg s i = Unwound s' ->
  tree_contains true s' x = Ok true ->
  tree_contains dbg' s x = Ok true /\ raw_contains i x = true.
Proof.
  intros W Wi E K. apply wf_tree_wf in W.
  destruct (intersect_unwound dbg s i s' W Wi E) as (l & u & L & R & c0 & vl & c1 & c2 & vu & c3 & Pi & EL & EU & Hlu & Es & A & A' & HL & HC & HR & BL & AC & BC & AR & Ss).
  assert (Ok' : Forall (fun t => okt t = true) s') by now apply (chain_ok c1 s' c2).
  assert (No : pend_ok (@None (Tine T))) by (intros ? ?; discriminate).
  assert (D : forall b, den b s' (At x) = true) by (apply (contains_debug_sound (S (iter_size (tree_interval_iter s'))) s' None x); auto).
  assert (G1 : lt (loc (TLower l)) (At x)).
  { specialize (D false). destruct (cmp (loc (TLower l)) (At x)) eqn:Q; auto; exfalso; rewrite den_low in D; try discriminate; intros t Ht;
      pose proof (ab_in _ _ _ AC Ht) as B.
    - apply cmp_eq in Q. now rewrite <- Q.
    - revert Q B. clear. generalize (loc (TLower l)) (At x) (loc t). porder. }
  assert (G2 : lt (At x) (loc (TUpper u))).
  { destruct (contains_debug_below (S (iter_size (tree_interval_iter s'))) s' None x) as (t & Ht & Q); auto.
    pose proof (bl_in _ _ _ BC Ht) as B. revert Q B. clear. generalize (loc (TUpper u)) (At x) (loc t). porder. }
  split.
  - rewrite tree_contains_den by auto. f_equal. rewrite Es, den_split2 by auto.
    assert (Q1 : cmp (At x) (loc (TLower l)) = Gt) by (revert G1; clear; generalize (loc (TLower l)) (At x); porder).
    unfold lt in G2. rewrite Q1, G2. apply D.
  - destruct (tines_cases i Wi) as [(-> & _)|[(z & -> & _)|(l' & u' & EL' & EU' & _ & _ & Hcov)]]; try contradiction.
    assert (l' = l) as -> by congruence. assert (u' = u) as -> by congruence.
    rewrite <- covers_At, Hcov.
    assert (Q1 : cmp (At x) (loc (TLower l)) = Gt) by (revert G1; clear; generalize (loc (TLower l)) (At x); porder).
    unfold lt in G2. rewrite ?Q1, ?G2. reflexivity.
Qed.
Print Assumptions C104_intersect_debug_partial.

(** If the tree is absent just inside both ends of the interval, what is left
    is a well-formed tree of the values strictly inside the interval. *)
Theorem C104_intersect_clean_partial {T} {O : Ord T} dbg dbg' (s s' : TineTree T) l (i : RawInterval T) lo up :
  tree_wf s -> intervals_are dbg' s l -> raw_wf i -> tree_intersect_in_place_crash dbg s i = Unwound s' ->
  raw_lower_bound i = Some lo -> raw_upper_bound i = Some up -> ~ in_lower l lo -> ~ in_upper l up ->
  tree_wf s' /\
  forall x, exists b, tree_contains dbg' s' x = Ok b /\
    (b = true <-> tree_contains dbg' s x = Ok true /\ raw_contains i x = true /\ lo <> Include x /\ up <> Include x).
Proof.
  intros W Hl Wi E EL' EU' NL NU. apply wf_tree_wf in W.
  destruct (intersect_unwound dbg s i s' W Wi E) as (lo' & up' & L & R & c0 & vl & c1 & c2 & vu & c3 & Pi & EL & EU & Hlu & Es & A & A' & HL & HC & HR & BL & AC & BC & AR & Ss).
  assert (lo' = lo) as -> by congruence. assert (up' = up) as -> by congruence.
  destruct (near_split lo up L s' R c0 vl c1 c2 vu c3) as [N1 N2]; auto. rewrite <- Es in N1, N2.
  rewrite (intervals_pieces dbg' s l W Hl) in NL, NU.
  pose proof (near_lower_spec s lo W) as SL. rewrite N1 in SL. destruct SL as (_ & _ & SL). rewrite SL in NL.
  pose proof (near_upper_spec s up W) as SU. rewrite N2 in SU. destruct SU as (SU & _ & _). rewrite SU in NU.
  assert (c1 = false) as -> by now destruct c1. assert (c2 = false) as -> by now destruct c2.
  assert (W' : wf s') by now split. split; [now apply wf_tree_wf|]. intros x.
  rewrite !tree_contains_den by auto. exists (den false s' (At x)). split; [reflexivity|].
  destruct (tines_cases i Wi) as [(-> & _)|[(z & -> & _)|(l' & u' & El & Eu & _ & _ & Hcov)]]; try contradiction.
  assert (l' = lo) as -> by congruence. assert (u' = up) as -> by congruence.
  rewrite <- covers_At, Hcov. replace (den false s (At x)) with (den false (L ++ opt (mk (loc (TLower lo)) c0 vl false) ++ s' ++ opt (mk (loc (TUpper up)) false vu c3) ++ R) (At x)) by now rewrite <- Es.
  rewrite den_split2 by auto.
  destruct (cmp (At x) (loc (TLower lo))) eqn:Q1.
  - apply cmp_eq in Q1. rewrite den_low. 2:{ intros t Ht. rewrite Q1. now apply (ab_in _ _ _ AC). }
    split; [discriminate|]. intros (_ & K1 & K2 & _). destruct lo as [y|y|]; try discriminate. exfalso. apply K2. f_equal. symmetry. simpl in Q1. now injection Q1.
  - rewrite den_low. 2:{ intros t Ht. pose proof (ab_in _ _ _ AC Ht) as B. revert Q1 B. clear. generalize (loc (TLower lo)) (At x) (loc t). porder. }
    split; [discriminate|]. intros (_ & K & _). discriminate.
  - destruct (cmp (At x) (loc (TUpper up))) eqn:Q2.
    + apply cmp_eq in Q2. rewrite (den_high false s' (At x) false); auto. 2:{ intros t Ht. rewrite Q2. now apply (bl_in _ _ _ BC). }
      split; [discriminate|]. intros (_ & K1 & _ & K2). destruct up as [y|y|]; try discriminate. exfalso. apply K2. f_equal. symmetry. simpl in Q2. now injection Q2.
    + split; [intros K; rewrite K; repeat split|intros (K & _); congruence].
      * intros ->. simpl in Q1. rewrite cmp_refl in Q1. discriminate.
      * intros ->. simpl in Q2. rewrite cmp_refl in Q2. discriminate.
    + rewrite (den_high false s' (At x) false); auto.
      2:{ intros t Ht. pose proof (bl_in _ _ _ BC Ht) as B. revert Q2 B. clear. generalize (loc (TUpper up)) (At x) (loc t). porder. }
      split; [discriminate|]. intros (_ & K & _). discriminate.
Qed.
Print Assumptions C104_intersect_clean_partial.

Section SelectionCrash.
  Context {T : Type} {O : Ord T} {F : Finite T}.

  (** The same for a Selection built by unions: if it keeps clear of the least
      and the greatest value of the interval and their outer neighbours, the
      panic leaves exactly the values in both. *)
  Theorem C104_selection_partial dbg (p : prog T) (s s' : Selection T) i l u :
    inputs true p -> unions_only p -> run dbg p = Ok s -> reach true i ->
    least (ipoints i) l -> greatest (ipoints i) u ->
    sel_intersect_in_place_crash dbg s i = Unwound s' ->
    (forall x, sel_contains true s' x = Ok true -> member dbg s x /\ ipoints i x) /\
    (~ at_or_before (member dbg s) l -> ~ at_or_after (member dbg s) u ->
     sel_is dbg s' (fun x => member dbg s x /\ ipoints i x)).
  Proof.
    intros H U E R Hl Hu Un. destruct (run_open dbg p s H U E) as [W Op].
    assert (Wi : raw_wf (denormalized (interval_raw i))) by (apply denormalized_tight_wf, solid_tight; now apply reach_solid).
    assert (Cv : forall x, raw_contains (denormalized (interval_raw i)) x = true <-> ipoints i x).
    { intros x. rewrite denormalized_tight_contains by (apply solid_tight; now apply reach_solid). reflexivity. }
    assert (W' := proj1 (wf_tree_wf s) W).
    split.
    - intros x K. destruct (C104_intersect_debug_partial dbg dbg s s' _ x W' Wi Un K) as [K1 K2]. split; [exact K1|now apply Cv].
    - intros NL NU.
      assert (M : forall x, member dbg s x <-> inS s x) by (intros; now apply member_in).
      destruct (call_cases i R) as [(Ei & K)|[(Ei & K)|(l' & u' & Hl' & Hu' & Hx & Pi & _ & EL & EU)]].
      + destruct Hl as [X _]. now apply K in X.
      + exfalso. unfold sel_intersect_in_place_crash in Un. rewrite Ei in Un. unfold tree_intersect_in_place_crash in Un.
        cbn [raw_is_full] in Un. rewrite orb_true_r in Un. discriminate.
      + assert (l' = l) as -> by (eapply least_same; eauto). assert (u' = u) as -> by (eapply greatest_same; eauto).
        assert (NLU : (~ at_or_before (inS s) l) /\ ~ at_or_after (inS s) u).
        { split; intros X; [apply NL|apply NU]; (destruct X as [X|(a & Ea & Ha)]; [left; now apply M|right; exists a; split; [auto|now apply M]]). }
        destruct (C104_intersect_clean_partial dbg dbg s s' (pieces None s) _ _ _ W' (pieces_drains dbg s W) Wi Un EL EU) as [W2 D].
        * pose proof (near_lower_spec s (lo_of l) W) as SL. destruct (near_lower s (lo_of l)) as [[b0 vl] c1] eqn:N1.
          destruct SL as (_ & _ & ->). destruct (low_flags s l Op _ _ _ N1) as (A1 & _). intros ->. now apply (proj1 NLU), A1.
        * pose proof (near_upper_spec s (up_of u) W) as SU. destruct (near_upper s (up_of u)) as [[c2 vu] b1] eqn:N2.
          destruct SU as (-> & _). destruct (high_flags s u Op _ _ _ N2) as (A1 & _). intros ->. now apply (proj2 NLU), A1.
        * intros x. destruct (D x) as (b & Eb & Hb). exists b. split; [exact Eb|]. rewrite Hb, Cv. unfold member, sel_contains.
          split; [tauto|]. intros [K1 K2]. repeat split; auto; [unfold lo_of; destruct (pred l)|unfold up_of; destruct (succ u)]; discriminate.
  Qed.
End SelectionCrash.
Print Assumptions C104_selection_partial.

(** In general a panic of [intersect_in_place] leaves a broken Selection: a
    release build finds values that were in neither operand, a debug build
    loses common values, or cannot answer at all. *)
Theorem C104_intersect_refuted :
  ~ (forall dbg (p : prog i8) s s' i x, inputs true p -> unions_only p -> run dbg p = Ok s -> reach true i ->
       sel_intersect_in_place_crash dbg s i = Unwound s' -> sel_contains false s' x = Ok true -> member dbg s x) /\
  ~ (forall dbg (p : prog i8) s s' i x, inputs true p -> unions_only p -> run dbg p = Ok s -> reach true i ->
       sel_intersect_in_place_crash dbg s i = Unwound s' -> member dbg s x -> ipoints i x -> sel_contains true s' x <> Ok false) /\
  ~ (forall dbg (p : prog i8) s s' i x, inputs true p -> unions_only p -> run dbg p = Ok s -> reach true i ->
       sel_intersect_in_place_crash dbg s i = Unwound s' -> sel_contains true s' x <> Panic).
Proof.
  assert (I1 : inputs true (P_union_in_place (P_from (cl 0 3)) (cl 8 9)) /\ unions_only (P_union_in_place (P_from (cl 0 3)) (cl 8 9)))
    by (split; [simpl; repeat constructor|exact I]).
  assert (I2 : inputs true (P_points [v 1; v 3]) /\ unions_only (P_points [v 1; v 3])) by (split; [simpl; repeat constructor|exact I]).
  split; [|split]; intros H.
  - discriminate (H false _ _ _ (cl 0 20) (v 5) (proj1 I1) (proj2 I1) eq_refl ltac:(repeat constructor) eq_refl eq_refl).
  - exact (H true _ _ _ (cl 1 20) (v 1) (proj1 I2) (proj2 I2) eq_refl ltac:(repeat constructor) eq_refl eq_refl eq_refl eq_refl).
  - exact (H true _ _ _ (cl 0 20) (v 5) (proj1 I1) (proj2 I1) eq_refl ltac:(repeat constructor) eq_refl eq_refl).
Qed.
Print Assumptions C104_intersect_refuted.

Example C104_ex :
  (* an iterator that panics after two intervals *)
  (exists s', sel_extend_crash true (sel_from (cl 0 3)) [Item (cl 8 9); Item (pt 5); Crash; Item (pt 7)] = Unwound s' /\
     sel_contains true s' (v 9) = Ok true /\ sel_contains true s' (v 7) = Ok false) /\
  (* a tree that meets the hypotheses of the clean case, and its remainder *)
  (let s := [TPoint (Include 0); TLower (Include 3); TUpper (Include 5)] : TineTree Z in
   tree_wf s /\ intervals_are true s [Point 0; Closed 3 5] /\
   tree_intersect_in_place_crash true s (Closed 0 9) = Unwound [TLower (Include 3); TUpper (Include 5)] /\
   ~ in_lower [Point 0; Closed 3 5] (Include 0) /\ ~ in_upper [Point 0; Closed 3 5] (Include 9)) /\
  (* a Selection that keeps clear of the interval's least and greatest value *)
  (let p := P_union_in_place (P_from (cl 5 6)) (pt (-2)) in
   inputs true p /\ unions_only p /\
   exists s s', run true p = Ok s /\ sel_intersect_in_place_crash true s (cl 0 9) = Unwound s' /\
     ~ at_or_before (member true s) (v 0) /\ ~ at_or_after (member true s) (v 9) /\
     sel_contains true s' (v 5) = Ok true /\ sel_contains true s' (v (-2)) = Ok false) /\
  (* a debug build still answers about the remains of {0..3} *)
  (exists s', sel_intersect_in_place_crash true (sel_from (cl 0 3)) (cl 0 20) = Unwound s').
Proof.
  split; [eexists; split; [reflexivity|]; split; reflexivity|].
  split.
  - assert (W : tree_wf ([TPoint (Include 0); TLower (Include 3); TUpper (Include 5)] : TineTree Z)) by (split; [repeat constructor|reflexivity]).
    assert (L : intervals_are true ([TPoint (Include 0); TLower (Include 3); TUpper (Include 5)] : TineTree Z) [Point 0; Closed 3 5]) by repeat econstructor.
    split; [exact W|]. split; [exact L|]. split; [reflexivity|].
    apply wf_tree_wf in W. rewrite (intervals_pieces true _ _ W L).
    split; [pose proof (near_lower_spec _ (Include 0) W) as (_ & _ & ->)|pose proof (near_upper_spec _ (Include 9) W) as (-> & _)]; discriminate.
  - split; [|eexists; reflexivity]. split; [simpl; repeat constructor|]. split; [exact I|].
    do 2 eexists. split; [reflexivity|]. split; [reflexivity|].
    repeat split; (intros [X|(a & Ea & X)]; [|injection Ea as <-]; discriminate X).
Qed.

(** ** C105: a panicking [Clone] of the value type *)

(** [s'] is the value of [*self] at some call of [T::clone] in an in-place
    operation: the old tree, or its part before the interval. *)
Theorem C105_clone_partial {T} {O : Ord T} dbg dbg' (s s' : TineTree T) (i : RawInterval T) :
  tree_wf s -> raw_wf i ->
  In s' (tree_union_in_place_clones s i) \/ In s' (tree_minus_in_place_clones s i) \/ In s' (tree_intersect_in_place_clones dbg s i) ->
  s' = s \/
  forall x,
    (forall a, raw_infimum i = Some a -> lt x a ->
       tree_contains dbg' s' x = Panic \/ tree_contains dbg' s' x = tree_contains dbg' s x) /\
    (raw_infimum i = None \/ (exists a, raw_infimum i = Some a /\ le a x) -> tree_contains dbg' s' x <> Ok true).
Proof.
  intros W Wi I. apply wf_tree_wf in W.
  destruct (clone_state dbg s i s' W Wi I) as [->|(q & R & c0 & v & c1 & Eq & Es & A & HL & BL & AR & Sl)]; [now left|]. right. intros x.
  destruct (prefix_answers dbg' s' c0 x q Sl HL BL) as [P1 P2].
  assert (Q : match raw_infimum i with Some a => q = At a | None => q = NInf end).
  { destruct i; simpl in Eq; try discriminate Eq; injection Eq as <-; reflexivity. }
  split.
  - intros a Ea Lx. rewrite Ea in Q. subst q.
    assert (Lx' : lt (At x) (At a)) by exact Lx.
    rewrite (tree_contains_den dbg' s x W). replace (den false s (At x)) with (den false s' (At x)); [now apply P1|].
    rewrite Es. symmetry. apply den_app_low. intros t Ht. apply in_app_or in Ht as [Ht|Ht].
    + pose proof (mk_at (At a) c0 v c1) as M. destruct (mk (At a) c0 v c1) as [m|]; [|destruct Ht]. destruct Ht as [<-|[]].
      destruct M as [_ M]. now rewrite M.
    + pose proof (ab_in _ _ _ AR Ht) as B. revert B Lx'. clear. generalize (At x) (At a) (loc t). porder.
  - intros K. apply P2. destruct K as [K|(a & K & L)]; rewrite K in Q; subst q; [|exact L].
    unfold le. simpl. discriminate.
Qed.
Print Assumptions C105_clone_partial.

(** So no value is ever found that was not there. *)
Corollary C105_clone_sound_partial {T} {O : Ord T} dbg dbg' (s s' : TineTree T) (i : RawInterval T) x :
  tree_wf s -> raw_wf i ->
  In s' (tree_union_in_place_clones s i) \/ In s' (tree_minus_in_place_clones s i) \/ In s' (tree_intersect_in_place_clones dbg s i) ->
  tree_contains dbg' s' x = Ok true -> tree_contains dbg' s x = Ok true.
Proof.
  intros W Wi I K. destruct (C105_clone_partial dbg dbg' s s' i W Wi I) as [<-|H]; [exact K|]. destruct (H x) as [H1 H2].
  destruct (raw_infimum i) as [a|] eqn:E; [|now destruct H2; [left|]].
  destruct (leb a x) eqn:L; [destruct H2; [right; exists a; split; [reflexivity|now apply leb_iff]|exact K]|].
  destruct (H1 a eq_refl) as [X|X]; [revert L; clear; order|congruence|congruence].
Qed.
Print Assumptions C105_clone_sound_partial.

(** The values above the interval are lost, or can no longer be asked for. *)
Theorem C105_clone_refuted :
  ~ (forall dbg (s s' : TineTree Z) i x, tree_wf s -> raw_wf i -> In s' (tree_union_in_place_clones s i) ->
       tree_contains dbg s x = Ok true -> tree_contains dbg s' x <> Ok false) /\
  ~ (forall dbg (s s' : TineTree Z) i x, tree_wf s -> raw_wf i -> In s' (tree_minus_in_place_clones s i) ->
       tree_contains dbg s' x <> Panic).
Proof.
  assert (W1 : tree_wf ([TLower (Include 0); TUpper (Include 3); TPoint (Include 8)] : TineTree Z)) by (split; [repeat constructor|reflexivity]).
  assert (W2 : tree_wf ([TLower (Include 0); TUpper (Include 9)] : TineTree Z)) by (split; [repeat constructor|reflexivity]).
  split; intros H.
  - exact (H true _ [TLower (Include 0); TUpper (Include 3)] (Point 5) 8 W1 I (or_intror (or_introl eq_refl)) eq_refl eq_refl).
  - exact (H true _ [TLower (Include 0)] (Point 5) 8 W2 I (or_intror (or_introl eq_refl)) eq_refl).
Qed.
Print Assumptions C105_clone_refuted.

Example C105_ex :
  let s := [TLower (Include 0); TUpper (Include 3); TLower (Include 8); TUpper (Include 9)] : TineTree Z in
  let i := Closed 5 8 in
  tree_wf s /\ raw_wf i /\
  tree_union_in_place_clones s i = [s; [TLower (Include 0); TUpper (Include 3)]; [TLower (Include 0); TUpper (Include 3)]] /\
  tree_intersect_in_place_clones true s i = [s; [TLower (Include 0); TUpper (Include 3)]; [TLower (Include 0); TUpper (Include 3)]] /\
  raw_infimum i = Some 5 /\ tree_contains true [TLower (Include 0); TUpper (Include 3)] 2 = Ok true.
Proof. split; [split; [repeat constructor|reflexivity]|]. repeat split. Qed.

(** * Left and right are treated alike: C99, and where they are not: C100 *)
From Coq Require Import List Bool ZArith Lia.
From Verif Require Import Base OrdFacts Pos MBound MRaw MNormalize MTine MBTree MTineTree Ints MInterval MSelection
  Spec Spec_Tree Spec_Sel Spec_Key Spec_History Spec_Mirror PRaw PRaw2 PTree PTree3 PTree4 PTree6 PTree7 PSel PSel2 PMirror PMirror2 PMirror3
  Properties_Interval Properties_Selection.
Import ListNotations.

(** ** [std::cmp::Reverse] is a lawful type, and the reversal the theorems below
    ask for. *)
Definition Reverse_Ord {T} {O : Ord T} : Ord (Reverse T).
Proof.
  refine {| ord_cmp := Reverse_Cmp |}.
  - intros [x] [y]. cbn. rewrite (cmp_eq y x). split; intros E; [now subst|now injection E].
  - intros [x] [y]. cbn. apply cmp_antisym.
  - intros [x] [y] [z]. cbn. intros A B. exact (cmp_lt_trans z y x B A).
Defined.
Definition Reverse_Finite {T} {O : Ord T} {F : Finite T} : @Finite (Reverse T) Reverse_Ord.
Proof.
  unshelve refine (@Build_Finite (Reverse T) Reverse_Ord Reverse_FiniteOps _ _ _ _ _ _ _).
  - intros [x]. unfold le. cbn. apply max_ge.
  - intros [x]. unfold le. cbn. apply min_le.
  - intros [x]. cbn. destruct (pred x) as [y|] eqn:E; cbn.
    + split; [discriminate|]. intros [= ->]. assert (pred (MINIMUM : T) = None) by now apply pred_none. congruence.
    + split; auto. intros _. apply pred_none in E. now subst.
  - intros [x] [y]. cbn. transitivity (pred x = Some y).
    + destruct (pred x); cbn; split; congruence.
    + rewrite pred_some. split; intros [A B]; (split; [exact A|]); intros z.
      * exact (B (reversed z)).
      * exact (B (reverse z)).
  - intros [x]. cbn. destruct (succ x) as [y|] eqn:E; cbn.
    + split; [discriminate|]. intros [= ->]. assert (succ (MAXIMUM : T) = None) by now apply succ_none. congruence.
    + split; auto. intros _. apply succ_none in E. now subst.
  - intros [x] [y]. cbn. transitivity (succ x = Some y).
    + destruct (succ x); cbn; split; congruence.
    + rewrite succ_some. split; intros [A B]; (split; [exact A|]); intros z.
      * exact (B (reversed z)).
      * exact (B (reverse z)).
  - destruct values_finite as (l & Hl). exists (map reverse l). intros [x]. now apply in_map.
Defined.

Theorem C99_reverse {T} {O : Ord T} {F : Finite T} :
  @reverses T (Reverse T) _ Reverse_Cmp reverse /\
  @finite_reverses T (Reverse T) _ Reverse_FiniteOps reverse /\
  @ord_cmp _ (@Reverse_Ord T O) = Reverse_Cmp /\
  @finite_ops _ _ (@Reverse_Finite T O F) = Reverse_FiniteOps.
Proof. repeat split. Qed.
Print Assumptions C99_reverse.

(** So is bitwise negation of any integer type: [!x] is [-1 - x] on signed and
    [MAX - x] on unsigned types, that is [MIN + MAX - x]. *)
Definition int_not {lo hi} {I : IntType lo hi} (x : int lo hi) : int lo hi := int_of_Z (lo + hi - ival x).
Theorem C99_not {lo hi} {I : IntType lo hi} :
  reverses (@int_not lo hi I) /\ finite_reverses (@int_not lo hi I).
Proof.
  assert (V : forall x, ival (int_not x) = (lo + hi - ival x)%Z).
  { intros x. unfold int_not. rewrite int_of_Z_val, wrap_id; pose proof (int_bounds x); lia. }
  split; [|repeat apply conj].
  - intros x y. change (Z.compare (ival (int_not x)) (ival (int_not y)) = Z.compare (ival y) (ival x)). rewrite !V. destruct (Z.compare_spec (ival y) (ival x)); [apply Z.compare_eq_iff|apply Z.compare_lt_iff|apply Z.compare_gt_iff]; lia.
  - apply int_ext. rewrite V. change (lo + hi - ival int_MIN = ival int_MAX)%Z. rewrite int_min_val, int_max_val. lia.
  - apply int_ext. rewrite V. change (lo + hi - ival int_MAX = ival int_MIN)%Z. rewrite int_min_val, int_max_val. lia.
  - intros x. change (option_map int_not (int_pred x) = int_succ (int_not x)). unfold int_pred, int_succ. rewrite !int_eqb_val, V, int_min_val, int_max_val. pose proof (int_bounds x).
    destruct (ival x =? lo)%Z eqn:E, (lo + hi - ival x =? hi)%Z eqn:E'; cbn [negb option_map]; try lia; auto.
    f_equal. apply int_ext. rewrite V, !int_of_Z_val, !wrap_id; lia.
  - intros x. change (option_map int_not (int_succ x) = int_pred (int_not x)). unfold int_pred, int_succ. rewrite !int_eqb_val, V, int_min_val, int_max_val. pose proof (int_bounds x).
    destruct (ival x =? hi)%Z eqn:E, (lo + hi - ival x =? lo)%Z eqn:E'; cbn [negb option_map]; try lia; auto.
    f_equal. apply int_ext. rewrite V, !int_of_Z_val, !wrap_id; lia.
Qed.
Print Assumptions C99_not.

(** ** Intervals of any ordered type *)
Theorem C99_raw {T U} {OT : Ord T} {OU : Ord U} (f : T -> U) : reverses f ->
  (forall x y, raw_open (f y) (f x) = raw_mirror f (raw_open x y)) /\
  (forall x y, raw_left_open (f y) (f x) = raw_mirror f (raw_right_open x y)) /\
  (forall x y, raw_right_open (f y) (f x) = raw_mirror f (raw_left_open x y)) /\
  (forall x y, raw_closed (f y) (f x) = raw_mirror f (raw_closed x y)) /\
  (forall l u, raw_new (bound_key f u) (bound_key f l) = raw_mirror f (raw_new l u)) /\
  (forall i, raw_lower_bound (raw_mirror f i) = option_map (bound_key f) (raw_upper_bound i)) /\
  (forall i, raw_infimum (raw_mirror f i) = option_map f (raw_supremum i)) /\
  (forall i, raw_closure (raw_mirror f i) = raw_mirror f (raw_closure i)) /\
  (forall i, raw_complement (raw_mirror f i) = raws_mirror f (raw_complement i)) /\
  (forall i x, raw_contains (raw_mirror f i) (f x) = raw_contains i x) /\
  (forall i j, raw_intersects (raw_mirror f i) (raw_mirror f j) = raw_intersects i j) /\
  (forall i j, raw_is_adjacent_to (raw_mirror f i) (raw_mirror f j) = raw_is_adjacent_to i j) /\
  (forall i j, raw_intersect (raw_mirror f i) (raw_mirror f j) = raw_mirror f (raw_intersect i j)) /\
  (forall i j, raw_enclose (raw_mirror f i) (raw_mirror f j) = raw_mirror f (raw_enclose i j)) /\
  (forall i j, raw_union (raw_mirror f i) (raw_mirror f j) = map (raw_mirror f) (raw_union i j)) /\
  (forall i j, raw_minus (raw_mirror f i) (raw_mirror f j) = raws_mirror f (raw_minus i j)) /\
  (forall l, raw_union_all (map (raw_mirror f) l) = map (raw_mirror f) (raw_union_all l)) /\
  (forall l, raw_intersect_all (map (raw_mirror f) l) = raw_mirror f (raw_intersect_all l)) /\
  (forall l, raw_enclose_all (map (raw_mirror f) l) = raw_mirror f (raw_enclose_all l)).
Proof.
  intros H. repeat apply conj; intros.
  - now apply m_open.
  - now apply m_left_open.
  - now apply m_right_open.
  - now apply m_closed.
  - now apply m_new.
  - apply m_lower_bound.
  - apply m_infimum.
  - apply m_closure.
  - apply m_complement.
  - now apply m_contains.
  - now apply m_intersects.
  - now apply m_is_adjacent_to.
  - now apply m_intersect.
  - now apply m_enclose.
  - now apply m_union.
  - now apply m_minus.
  - now apply m_union_all.
  - now apply m_intersect_all.
  - now apply m_enclose_all.
Qed.
Print Assumptions C99_raw.

(** ** Trees: every query, and every history of calls *)
Theorem C99_tree {T U} {OT : Ord T} {OU : Ord U} (f : T -> U) : reverses f ->
  (forall i, raw_wf i -> tree_from_raw_interval (raw_mirror f i) = tree_mirror f (tree_from_raw_interval i)) /\
  (forall s, tree_wf s -> tree_wf (tree_mirror f s)) /\
  (forall dbg s x, tree_wf s -> tree_contains dbg (tree_mirror f s) (f x) = tree_contains dbg s x) /\
  (forall dbg s l, tree_wf s -> intervals_are dbg s l -> intervals_are dbg (tree_mirror f s) (raws_mirror f l)) /\
  (forall s, tree_is_full (tree_mirror f s) = tree_is_full s) /\
  (forall s, tree_is_empty (tree_mirror f s) = tree_is_empty s) /\
  (forall s, tree_lower_bound (tree_mirror f s) = option_map (bound_key f) (tree_upper_bound s)) /\
  (forall s, tree_upper_bound (tree_mirror f s) = option_map (bound_key f) (tree_lower_bound s)) /\
  (forall dbg s, tree_enclose dbg (tree_mirror f s) = res_key (raw_mirror f) (tree_enclose dbg s)) /\
  (forall dbg s, tree_closure dbg (tree_mirror f s) = res_key (raw_mirror f) (tree_closure dbg s)) /\
  (forall dbg s o, tree_wf s -> tree_wf o ->
     tree_union dbg (tree_mirror f s) (tree_mirror f o) = res_key (tree_mirror f) (tree_union dbg s o)) /\
  (forall dbg s x, tree_wf s ->
     tree_intersect_in_place dbg (tree_mirror f s) (Point (f x)) = res_key (tree_mirror f) (tree_intersect_in_place dbg s (Point x))) /\
  (forall dbg l s, tree_wf s -> Forall step_in l ->
     do_steps dbg (map (step_mirror f) l) (tree_mirror f s) = res_key (tree_mirror f) (do_steps dbg l s)).
Proof.
  intros H. repeat apply conj.
  - intros i W. now apply m_from_raw.
  - intros s W. apply wf_tree_wf, m_wf_tree; auto. now apply wf_tree_wf.
  - intros dbg s x W. apply m_tree_contains; auto. now apply wf_tree_wf.
  - intros dbg s l W D. apply wf_tree_wf in W. apply intervals_pieces in D; auto. subst. rewrite <- m_pieces by auto.
    apply pieces_drains. now apply m_wf_tree.
  - apply m_tree_is_full.
  - apply m_tree_is_empty.
  - apply m_tree_lower.
  - apply m_tree_upper.
  - intros dbg s. now apply m_tree_enclose.
  - intros dbg s. now apply m_tree_closure.
  - intros dbg s o W W'. apply m_tree_union; auto; now apply wf_tree_wf.
  - intros dbg s x W. apply wf_tree_wf in W. apply (m_tree_intersect_in_place f H dbg s (Point x)); [exact I|now apply wf_asc|].
    intros y _. now apply m_tree_contains.
  - intros dbg l s W F. apply wf_tree_wf, wf_asc in W. revert s W. induction F as [|c l Hc F IH]; intros s A; [reflexivity|].
    cbn [map do_steps].
    set (r := match c with S_union i => tree_union_in_place dbg s i | S_minus i => tree_minus_in_place dbg s i
                         | S_intersect i => tree_intersect_in_place dbg s i | S_complement => tree_complement dbg s end).
    assert (G : match step_mirror f c with
                | S_union i => tree_union_in_place dbg (tree_mirror f s) i | S_minus i => tree_minus_in_place dbg (tree_mirror f s) i
                | S_intersect i => tree_intersect_in_place dbg (tree_mirror f s) i | S_complement => tree_complement dbg (tree_mirror f s)
                end = res_key (tree_mirror f) r /\ (forall s', r = Ok s' -> asc s')).
    { unfold r. destruct c as [i|i|i|]; cbn [step_mirror step_in] in *.
      - now apply m_tree_union_in_place.
      - now apply m_tree_minus_in_place.
      - destruct Hc as [Hc N]. apply m_tree_intersect_in_place; auto. intros x E. now destruct (N x).
      - now apply m_tree_complement. }
    destruct G as [-> G]. destruct r as [s'|]; cbn [res_key bind]; auto.
Qed.
Print Assumptions C99_tree.

(** ** Intervals of a [Finite] type *)
Theorem C99_interval {T U} {OT : Ord T} {OU : Ord U} {FT : Finite T} {FU : Finite U} (f : T -> U) :
  reverses f -> finite_reverses f ->
  (forall i, normalized (raw_mirror f i) = raw_mirror f (normalized i)) /\
  (forall i, denormalized (raw_mirror f i) = raw_mirror f (denormalized i)) /\
  (forall l u, interval_new (bound_key f u) (bound_key f l) = interval_mirror f (interval_new l u)) /\
  (forall r, interval_from_raw (raw_mirror f r) = interval_mirror f (interval_from_raw r)) /\
  (forall i, interval_lower_bound (interval_mirror f i) = option_map (bound_key f) (interval_upper_bound i)) /\
  (forall i, interval_upper_bound (interval_mirror f i) = option_map (bound_key f) (interval_lower_bound i)) /\
  (forall i x, interval_contains (interval_mirror f i) (f x) = interval_contains i x) /\
  (forall i j, interval_intersects (interval_mirror f i) (interval_mirror f j) = interval_intersects i j) /\
  (forall i j, interval_is_adjacent_to (interval_mirror f i) (interval_mirror f j) = interval_is_adjacent_to i j) /\
  (forall i, interval_complement (interval_mirror f i) = intervals_mirror f (interval_complement i)) /\
  (forall i j, interval_intersect (interval_mirror f i) (interval_mirror f j) = interval_mirror f (interval_intersect i j)) /\
  (forall i j, interval_union (interval_mirror f i) (interval_mirror f j) = map (interval_mirror f) (interval_union i j)) /\
  (forall i j, interval_minus (interval_mirror f i) (interval_mirror f j) = intervals_mirror f (interval_minus i j)) /\
  (forall i j, interval_enclose (interval_mirror f i) (interval_mirror f j) = interval_mirror f (interval_enclose i j)) /\
  (forall i, interval_closure (interval_mirror f i) = interval_mirror f (interval_closure i)) /\
  (forall i, interval_next (interval_mirror f i) = res_key (pair_key (option_map f) (interval_mirror f)) (interval_next_back i)) /\
  (forall i, interval_next_back (interval_mirror f i) = res_key (pair_key (option_map f) (interval_mirror f)) (interval_next i)).
Proof.
  intros H HF. repeat apply conj; intros.
  - now apply m_normalized.
  - now apply m_denormalized.
  - now apply m_i_new.
  - now apply m_interval_from.
  - apply m_i_lower.
  - apply m_i_upper.
  - now apply m_contains.
  - now apply m_intersects.
  - now apply m_is_adjacent_to.
  - now apply m_i_complement.
  - now apply m_i_intersect.
  - now apply m_i_union.
  - now apply m_i_minus.
  - now apply m_i_enclose.
  - now apply m_i_closure.
  - now apply m_i_next.
  - now apply m_i_next_back.
Qed.
Print Assumptions C99_interval.

(** The classification predicates need no order at all. *)
Theorem C99_kinds {T U} (f : T -> U) (i : Interval T) :
  interval_is_empty (interval_mirror f i) = interval_is_empty i /\
  interval_is_degenerate (interval_mirror f i) = interval_is_degenerate i /\
  interval_is_proper (interval_mirror f i) = interval_is_proper i /\
  interval_is_open (interval_mirror f i) = interval_is_open i /\
  interval_is_left_open (interval_mirror f i) = interval_is_right_open i /\
  interval_is_right_open (interval_mirror f i) = interval_is_left_open i /\
  interval_is_half_open (interval_mirror f i) = interval_is_half_open i /\
  interval_is_closed (interval_mirror f i) = interval_is_closed i /\
  interval_is_left_closed (interval_mirror f i) = interval_is_right_closed i /\
  interval_is_right_closed (interval_mirror f i) = interval_is_left_closed i /\
  interval_is_half_closed (interval_mirror f i) = interval_is_half_closed i /\
  interval_is_bounded (interval_mirror f i) = interval_is_bounded i /\
  interval_is_left_bounded (interval_mirror f i) = interval_is_right_bounded i /\
  interval_is_right_bounded (interval_mirror f i) = interval_is_left_bounded i /\
  interval_is_half_bounded (interval_mirror f i) = interval_is_half_bounded i.
Proof. destruct i as [[]]; repeat split. Qed.
Print Assumptions C99_kinds.

(** ** Selections: programs, what can be asked of the result, and histories *)
Theorem C99_program {T U} {OT : Ord T} {OU : Ord U} {FT : Finite T} {FU : Finite U} (f : T -> U) :
  reverses f -> finite_reverses f -> forall dbg p, inputs false p -> no_intersect p ->
  exists s, run dbg p = Ok s /\ run dbg (prog_mirror f p) = Ok (tree_mirror f s) /\
  (forall x, sel_contains dbg (tree_mirror f s) (f x) = sel_contains dbg s x) /\
  sel_lower_bound dbg (tree_mirror f s) = res_key (option_map (bound_key f)) (sel_upper_bound dbg s) /\
  sel_upper_bound dbg (tree_mirror f s) = res_key (option_map (bound_key f)) (sel_lower_bound dbg s) /\
  sel_infimum (tree_mirror f s) = option_map f (sel_supremum s) /\
  sel_supremum (tree_mirror f s) = option_map f (sel_infimum s) /\
  sel_enclose dbg (tree_mirror f s) = res_key (interval_mirror f) (sel_enclose dbg s) /\
  sel_closure dbg (tree_mirror f s) = res_key (interval_mirror f) (sel_closure dbg s) /\
  (forall l, sel_intervals_are dbg s l -> sel_intervals_are dbg (tree_mirror f s) (intervals_mirror f l)).
Proof.
  intros H HF dbg p I N. destruct (run_ok dbg p I) as (s & E & W & _). exists s. split; auto.
  split; [rewrite (m_run f H HF) by auto; now rewrite E|].
  repeat apply conj.
  - intros x. now apply m_tree_contains.
  - now apply m_sel_lower.
  - now apply m_sel_upper.
  - apply m_sel_infimum.
  - apply m_sel_supremum.
  - now apply m_sel_enclose.
  - now apply m_sel_closure.
  - intros l D. apply sel_intervals_pieces in D; auto. subst l.
    assert (E' : intervals_mirror f (map nrm (pieces None s)) = map nrm (pieces None (tree_mirror f s))).
    { rewrite m_pieces by auto. unfold intervals_mirror, raws_mirror. rewrite map_rev, !map_map. f_equal. apply map_ext.
      intros r. symmetry. now apply m_nrm. }
    rewrite E'. apply interval_iter_drains. now apply m_wf_tree.
Qed.
Print Assumptions C99_program.

(** Any sequence of [union_in_place], [minus_in_place], [intersect_in_place],
    [extend] and [complement], also where they lose values or panic. *)
Theorem C99_history {T U} {OT : Ord T} {OU : Ord U} {FT : Finite T} {FU : Finite U} (f : T -> U) :
  reverses f -> finite_reverses f -> forall dbg p l, inputs false p -> no_intersect p -> Forall interval_call l ->
  (do s <- run dbg (prog_mirror f p); do_calls dbg (map (call_mirror f) l) s) =
  res_key (tree_mirror f) (do s <- run dbg p; do_calls dbg l s).
Proof.
  intros H HF dbg p l I N F. rewrite (m_run f H HF) by auto. destruct (run_ok dbg p I) as (s & -> & W & _). cbn [res_key bind].
  apply wf_asc in W. revert s W. induction F as [|c l Hc F IH]; intros s A; [reflexivity|].
  cbn [map do_calls].
  assert (G : do_call dbg (call_mirror f c) (tree_mirror f s) = res_key (tree_mirror f) (do_call dbg c s) /\
              (forall s', do_call dbg c s = Ok s' -> asc s')).
  { destruct c as [i|k|q| |i|q|i]; cbn [call_mirror do_call interval_call] in *; try contradiction.
    - unfold sel_union_in_place. cbn [interval_mirror interval_raw]. rewrite (m_denormalized f HF).
      apply m_tree_union_in_place; auto. now apply denorm_in.
    - split; [now apply m_sel_extend|]. rewrite sel_extend_tree. apply (m_tree_extend f H); auto. now apply inputs_wf.
    - now apply m_tree_complement.
    - unfold sel_minus_in_place. cbn [interval_mirror interval_raw]. rewrite (m_denormalized f HF).
      apply m_tree_minus_in_place; auto. now apply denorm_in.
    - unfold sel_intersect_in_place. cbn [interval_mirror interval_raw]. rewrite (m_denormalized f HF).
      apply m_tree_intersect_in_place; auto; [now apply denorm_in|]. intros x E. exfalso.
      destruct (interval_raw i); cbn in E; try discriminate;
        repeat match type of E with context [match ?o with Some _ => _ | None => _ end] => destruct o end; discriminate. }
  destruct G as [-> G]. destruct (do_call dbg c s) as [s'|]; cbn [res_key bind]; auto.
Qed.
Print Assumptions C99_history.

(** *** Examples *)
Lemma Z_opp_reverses : reverses Z.opp.
Proof. intros x y. cbn. apply Z.compare_opp. Qed.
(** On Z, negation: (1, 5] minus [2, 3], and the reverse. *)
Example C99_raw_ex :
  raw_minus (LeftOpen 1 5)%Z (Closed 2 3)%Z = [Open 1 2; LeftOpen 3 5]%Z /\
  raw_minus (RightOpen (-5) (-1))%Z (Closed (-3) (-2))%Z = [RightOpen (-5) (-3); Open (-2) (-1)]%Z /\
  raws_mirror Z.opp [Open 1 2; LeftOpen 3 5]%Z = [RightOpen (-5) (-3); Open (-2) (-1)]%Z.
Proof. repeat split. Qed.
(** A history that loses values and leaves a tree no union could build: the
    reversed history does the same at the other end. *)
Definition exsteps : list (step Z) :=
  [S_union (Closed 1 9); S_minus (Point 4); S_intersect (Closed 0 4); S_union (From 7); S_complement]%Z.
Example C99_tree_ex :
  tree_wf (@nil (Tine Z)) /\ Forall step_in exsteps /\
  do_steps false (firstn 3 exsteps) [] = Ok [TLower (Include 1); TUpper (Exclude 4)]%Z /\
  do_steps false exsteps [] = Ok [TLower Infinite; TUpper (Exclude 1); TLower (Include 4); TUpper (Exclude 7)]%Z /\
  do_steps false (map (step_mirror Z.opp) exsteps) [] =
    Ok [TLower (Exclude (-7)); TUpper (Include (-4)); TLower (Exclude (-1)); TUpper Infinite]%Z.
Proof.
  split; [apply wf_tree_wf, new_wf|]. split; [|repeat split].
  repeat apply Forall_cons; try apply Forall_nil; cbn; auto; try easy.
Qed.
Definition exmirror : prog i8 := P_minus_in_place (P_complement ex1) (cl 20 30).
Example C99_program_ex :
  inputs false exmirror /\ no_intersect exmirror /\
  (exists s, run true exmirror = Ok s /\ map (fun t => tine_key ival t) s <> [] /\
    run true (prog_mirror int_not exmirror) = Ok (tree_mirror int_not s) /\
    sel_infimum s = None /\ sel_contains true s (v 31) = Ok true /\ sel_contains true (tree_mirror int_not s) (v (-32)) = Ok true).
Proof.
  assert (I : inputs false exmirror) by (cbn; repeat split; try constructor; repeat constructor).
  split; [exact I|]. split; [cbn; tauto|].
  destruct (C99_program int_not (proj1 C99_not) (proj2 C99_not) true exmirror I) as (s & E & E' & _); [cbn; tauto|].
  exists s. split; auto. vm_compute in E. injection E as <-. repeat split; auto. discriminate.
Qed.
Example C99_history_ex :
  let l := [C_minus_in_place (pt 4); C_intersect_in_place (cl 2 8); C_union_in_place (pt 12); C_complement] in
  Forall interval_call l /\
  (do s <- run false (P_from (cl 1 9)); do s' <- do_calls false (firstn 3 l) s;
   do a <- sel_contains false s' (v 1); do b <- sel_contains false s' (v 8); do c <- sel_contains false s' (v 12); Ok [a; b; c]) =
  Ok [false; true; true].
Proof. cbn zeta. split; [|vm_compute; reflexivity]. repeat constructor. Qed.

(** * C100: [intersect] and [minus] of two Selections *)

(** [intersect]: {3} with {1, 3} gives nothing, while reversed it gives the
    (reversed) 3. *)
Theorem C100_intersect_refuted : forall dbg, exists p q s o,
  run dbg p = Ok s /\ run dbg q = Ok o /\ inputs true p /\ inputs true q /\ unions_only p /\ unions_only q /\
  means p (v 3) /\ means q (v 3) /\
  sel_intersect dbg s o = Ok [] /\
  exists r, sel_intersect dbg (tree_mirror int_not s) (tree_mirror int_not o) = Ok r /\ sel_contains dbg r (int_not (v 3)) = Ok true.
Proof.
  intros dbg. exists (P_points [v 3]), (P_points [v 1; v 3]). eexists. eexists.
  split; [destruct dbg; vm_compute; reflexivity|]. split; [destruct dbg; vm_compute; reflexivity|].
  do 6 (split; [cbn; auto|]). split; [destruct dbg; vm_compute; reflexivity|].
  eexists. split; destruct dbg; vm_compute; reflexivity.
Qed.
Print Assumptions C100_intersect_refuted.

(** [minus]: taking everything but 1 and 3 from {3} gives nothing (3 is lost),
    while reversed it gives the reversed 1, 2 and 3. *)
Theorem C100_minus_refuted : forall dbg, exists p q s o,
  run dbg p = Ok s /\ run dbg q = Ok o /\ inputs true p /\ inputs true q /\ shallow p /\ shallow q /\
  means p (v 3) /\ ~ means q (v 3) /\
  sel_minus dbg s o = Ok [] /\
  exists r, sel_minus dbg (tree_mirror int_not s) (tree_mirror int_not o) = Ok r /\
    sel_contains dbg r (int_not (v 3)) = Ok true /\ sel_contains dbg r (int_not (v 2)) = Ok true.
Proof.
  intros dbg. exists (P_points [v 3]), (P_complement (P_points [v 1; v 3])). eexists. eexists.
  split; [destruct dbg; vm_compute; reflexivity|]. split; [destruct dbg; vm_compute; reflexivity|].
  do 6 (split; [cbn; tauto|]). split; [destruct dbg; vm_compute; reflexivity|].
  eexists. split; [|split]; destruct dbg; vm_compute; reflexivity.
Qed.
Print Assumptions C100_minus_refuted.

(** [minus] of a Selection of at most one interval is one step, and symmetric. *)
Theorem C100_minus_one_partial {T U} {OT : Ord T} {OU : Ord U} (f : T -> U) : reverses f ->
  forall dbg s o l, tree_wf s -> tree_wf o -> intervals_are dbg o l -> (length l <= 1)%nat ->
  tree_minus dbg (tree_mirror f s) (tree_mirror f o) = res_key (tree_mirror f) (tree_minus dbg s o).
Proof.
  intros H dbg s o l W Wo D L. apply wf_tree_wf in W, Wo. apply intervals_pieces in D; auto. subst l. unfold tree_minus.
  rewrite !tree_fold_pieces by (auto; now apply m_wf_tree). rewrite m_pieces by auto.
  pose proof (pieces_wf o None) as F.
  destruct (pieces None o) as [|i [|j k]]; cbn in *; [reflexivity| |lia].
  inversion F as [|? ? Fi _]; subst. destruct (m_tree_minus_in_place f H dbg s i Fi (wf_asc _ W)) as [-> _].
  now destruct (tree_minus_in_place dbg s i).
Qed.
Print Assumptions C100_minus_one_partial.
Example C100_minus_one_ex :
  let s := [TLower (Include 1); TUpper (Exclude 4); TPoint (Include 6)]%Z in
  let o := [TLower (Include 2); TUpper (Include 9)]%Z in
  tree_wf s /\ tree_wf o /\ tree_minus false s o = Ok [TLower (Include 1); TUpper (Exclude 2)]%Z /\
  tree_minus false (tree_mirror Z.opp s) (tree_mirror Z.opp o) = Ok [TLower (Exclude (-2)); TUpper (Include (-1))]%Z.
Proof. repeat split; repeat constructor. Qed.

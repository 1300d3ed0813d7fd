(** * Results depend on values only through their order: C96, continued *)
From Coq Require Import List Bool ZArith Lia.
From Verif Require Import Base OrdFacts MBound MRaw MNormalize MTine MBTree MTineTree Ints MInterval MSelection MHash
  Spec Spec_Sel Spec_Key PKey Properties_Interval Properties_Selection Properties_Key PTree6 Properties_Fused.
Import ListNotations.

(** The other functions of a raw interval. *)
Theorem C96_raw_queries {T U} {CT : Cmp T} {CU : Cmp U} (f : T -> U) : ordered_by f ->
  (forall l r, raw_open (f l) (f r) = raw_key f (raw_open l r) /\ raw_left_open (f l) (f r) = raw_key f (raw_left_open l r) /\
     raw_right_open (f l) (f r) = raw_key f (raw_right_open l r) /\ raw_closed (f l) (f r) = raw_key f (raw_closed l r)) /\
  (forall i, raw_is_empty (raw_key f i) = raw_is_empty i /\ raw_is_full (raw_key f i) = raw_is_full i) /\
  (forall i, raw_lower_bound (raw_key f i) = option_map (bound_key f) (raw_lower_bound i) /\
     raw_upper_bound (raw_key f i) = option_map (bound_key f) (raw_upper_bound i)) /\
  (forall i, raw_infimum (raw_key f i) = option_map f (raw_infimum i) /\ raw_supremum (raw_key f i) = option_map f (raw_supremum i)) /\
  (forall i, raw_closure (raw_key f i) = raw_key f (raw_closure i)) /\
  (forall i, raw_complement (raw_key f i) = map (raw_key f) (raw_complement i)) /\
  (forall i j, raw_eqb (raw_key f i) (raw_key f j) = raw_eqb i j).
Proof.
  intros H. split; [intros; split; [now apply k_open|split; [now apply k_left_open|split; [now apply k_right_open|now apply k_closed]]]|].
  split; [intros; split; [apply k_is_empty|apply k_is_full]|]. split; [intros; split; [apply k_lower|apply k_upper]|].
  split; [intros; split; [apply k_infimum|apply k_supremum]|]. split; [intros; apply k_closure|]. split; [intros; apply k_complement|].
  intros [] []; cbn; auto; now rewrite !(k_eqb f H).
Qed.
Print Assumptions C96_raw_queries.

(** Every function of an Interval. *)
Theorem C96_interval {T U} {CT : Cmp T} {CU : Cmp U} {FT : FiniteOps T} {FU : FiniteOps U} (f : T -> U) :
  ordered_by f -> finite_by f ->
  (forall i, normalized (raw_key f i) = raw_key f (normalized i) /\ denormalized (raw_key f i) = raw_key f (denormalized i)) /\
  (forall l u, interval_new (bound_key f l) (bound_key f u) = interval_key f (interval_new l u)) /\
  (forall r, interval_from_raw (raw_key f r) = interval_key f (interval_from_raw r)) /\
  interval_full = interval_key f interval_full /\
  (forall i x, interval_contains (interval_key f i) (f x) = interval_contains i x) /\
  (forall i, interval_lower_bound (interval_key f i) = option_map (bound_key f) (interval_lower_bound i) /\
     interval_upper_bound (interval_key f i) = option_map (bound_key f) (interval_upper_bound i)) /\
  (forall i, interval_infimum (interval_key f i) = option_map f (interval_infimum i) /\
     interval_supremum (interval_key f i) = option_map f (interval_supremum i)) /\
  (forall i, interval_is_empty (interval_key f i) = interval_is_empty i /\ interval_is_degenerate (interval_key f i) = interval_is_degenerate i /\
     interval_is_proper (interval_key f i) = interval_is_proper i) /\
  (forall i j, interval_intersects (interval_key f i) (interval_key f j) = interval_intersects i j) /\
  (forall i j, interval_is_adjacent_to (interval_key f i) (interval_key f j) = interval_is_adjacent_to i j) /\
  (forall i j, interval_eqb (interval_key f i) (interval_key f j) = interval_eqb i j) /\
  (forall i, interval_complement (interval_key f i) = map (interval_key f) (interval_complement i)) /\
  (forall i j, interval_intersect (interval_key f i) (interval_key f j) = interval_key f (interval_intersect i j)) /\
  (forall i j, interval_union (interval_key f i) (interval_key f j) = map (interval_key f) (interval_union i j)) /\
  (forall i j, interval_minus (interval_key f i) (interval_key f j) = map (interval_key f) (interval_minus i j)) /\
  (forall i j, interval_enclose (interval_key f i) (interval_key f j) = interval_key f (interval_enclose i j)) /\
  (forall i, interval_closure (interval_key f i) = interval_key f (interval_closure i)).
Proof.
  intros H HF.
  split; [intros; split; [now apply k_normalized|now apply k_denormalized]|].
  split; [intros; unfold interval_new; now rewrite (k_new f H), (k_norm_of f HF)|].
  split; [intros; now apply k_from_raw_interval|].
  split; [unfold interval_full; change Full with (raw_key f Full) at 1; now rewrite (k_norm_of f HF)|].
  split; [intros; now apply k_interval_contains|].
  split; [intros; split; [apply k_lower|apply k_upper]|].
  split; [intros; split; [apply k_infimum|apply k_supremum]|].
  split; [intros [[]]; cbn; auto|].
  split; [intros; now apply k_intersects|].
  split; [intros; now apply k_is_adjacent|].
  split; [intros; now apply (C96_raw_queries f H)|].
  split; [intros; unfold interval_complement; cbn [interval_key interval_raw]; rewrite k_complement; now apply k_map_norm|].
  split; [intros; unfold interval_intersect; cbn [interval_key interval_raw]; now rewrite (k_intersect f H), (k_normalized f HF), (k_from_raw_interval f HF)|].
  split; [intros; unfold interval_union; cbn [interval_key interval_raw]; rewrite (k_union f H); now apply k_map_norm|].
  split; [intros; now apply k_interval_minus|].
  split; [intros; unfold interval_enclose; cbn [interval_key interval_raw]; now rewrite (k_enclose f H), (k_normalized f HF), (k_from_raw_interval f HF)|].
  intros; unfold interval_closure; cbn [interval_key interval_raw]; now rewrite k_closure, (k_normalized f HF), (k_from_raw_interval f HF).
Qed.
Print Assumptions C96_interval.

(** The other queries of a Selection. *)
Theorem C96_selection {T U} {CT : Cmp T} {CU : Cmp U} {FT : FiniteOps T} {FU : FiniteOps U} (f : T -> U) :
  ordered_by f -> finite_by f -> forall dbg (s o : Selection T),
  sel_is_empty (tree_key f s) = sel_is_empty s /\ sel_is_full (tree_key f s) = sel_is_full s /\
  sel_infimum (tree_key f s) = option_map f (sel_infimum s) /\ sel_supremum (tree_key f s) = option_map f (sel_supremum s) /\
  sel_enclose dbg (tree_key f s) = res_key (interval_key f) (sel_enclose dbg s) /\
  sel_closure dbg (tree_key f s) = res_key (interval_key f) (sel_closure dbg s) /\
  sel_intersects dbg (tree_key f s) (tree_key f o) = sel_intersects dbg s o /\
  sel_is_bounded dbg (tree_key f s) = sel_is_bounded dbg s /\
  sel_is_left_bounded dbg (tree_key f s) = sel_is_left_bounded dbg s /\
  sel_is_right_bounded dbg (tree_key f s) = sel_is_right_bounded dbg s /\
  sel_is_half_bounded dbg (tree_key f s) = sel_is_half_bounded dbg s /\
  tree_eqb (tree_key f s) (tree_key f o) = tree_eqb s o.
Proof.
  intros H HF dbg s o. unfold tree_key.
  assert (L : sel_is_left_bounded dbg (map (tine_key f) s) = sel_is_left_bounded dbg s).
  { unfold sel_is_left_bounded. rewrite (k_sel_lower f H HF). now destruct (sel_lower_bound dbg s) as [[[]|]|]. }
  assert (R : sel_is_right_bounded dbg (map (tine_key f) s) = sel_is_right_bounded dbg s).
  { unfold sel_is_right_bounded. rewrite (k_sel_upper f H HF). now destruct (sel_upper_bound dbg s) as [[[]|]|]. }
  split; [apply k_tree_is_empty|]. split; [now apply (k_tree_is_full f H)|].
  split; [unfold sel_infimum; rewrite k_tree_lower; destruct (tree_lower_bound s); [apply k_as_ref|reflexivity]|].
  split; [unfold sel_supremum; rewrite k_tree_upper; destruct (tree_upper_bound s); [apply k_as_ref|reflexivity]|].
  split; [unfold sel_enclose; rewrite (k_tree_enclose f H); destruct (tree_enclose dbg s); cbn; [now rewrite (k_norm_of f HF)|reflexivity]|].
  split; [unfold sel_closure; rewrite (k_tree_closure f H); destruct (tree_closure dbg s); cbn; [now rewrite (k_norm_of f HF)|reflexivity]|].
  split; [unfold sel_intersects; rewrite (k_tree_intersect f H); destruct (tree_intersect dbg s o); cbn; [now rewrite k_tree_is_empty|reflexivity]|].
  split; [unfold sel_is_bounded; rewrite (k_sel_lower f H HF), (k_sel_upper f H HF); destruct (sel_lower_bound dbg s) as [[[]|]|]; cbn; auto;
    now destruct (sel_upper_bound dbg s) as [[[]|]|]|].
  split; [exact L|]. split; [exact R|]. split; [unfold sel_is_half_bounded; now rewrite L, R|]. now apply k_tree_eqb.
Qed.
Print Assumptions C96_selection.

(** Iterators: the keyed iterator gives on a schedule of calls what the other
    gives, keyed, and panics exactly on the schedules the other panics on. *)
Lemma k_runs {S S' A A'} (n b : S -> res (option A * S)) (n' b' : S' -> res (option A' * S')) (g : A -> A') (h : S -> S')
  (Hn : forall s, n' (h s) = res_key (pair_key (option_map g) h) (n s)) (Hb : forall s, b' (h s) = res_key (pair_key (option_map g) h) (b s)) :
  forall sched s out, runs n' b' (h s) sched out <-> exists out0, runs n b s sched out0 /\ out = map (option_map g) out0.
Proof.
  intros sched. induction sched as [|c sched IH]; intros s out; split.
  - intros R. inversion R; subst. exists []. split; [constructor|reflexivity].
  - intros (out0 & R & ->). inversion R; subst. constructor.
  - intros R. destruct (runs_uncons _ _ _ _ _ _ R) as (o & it & out' & -> & E & R').
    assert (Q : exists o0 it0, call n b c s = Ok (o0, it0) /\ o = option_map g o0 /\ it = h it0).
    { destruct c; simpl in *; [rewrite Hn in E; destruct (n s) as [[o0 it0]|]|rewrite Hb in E; destruct (b s) as [[o0 it0]|]];
      try discriminate; injection E as <- <-; eauto. }
    destruct Q as (o0 & it0 & E0 & -> & ->). apply IH in R' as (out0 & R0 & ->).
    exists (o0 :: out0). split; [eapply runs_cons; eauto|reflexivity].
  - intros (out0 & R & ->). destruct (runs_uncons _ _ _ _ _ _ R) as (o & it & out' & -> & E & R').
    cbn [map]. eapply runs_cons; [|apply IH; eauto]. destruct c; simpl in *; [rewrite Hn, E|rewrite Hb, E]; reflexivity.
Qed.
Theorem C96_schedules {T U} {CT : Cmp T} {CU : Cmp U} {FT : FiniteOps T} {FU : FiniteOps U} (f : T -> U) :
  ordered_by f -> finite_by f -> forall dbg sched,
  (forall (i : Interval T) out, runs interval_next interval_next_back (interval_key f i) sched out <->
     exists o, runs interval_next interval_next_back i sched o /\ out = map (option_map f) o) /\
  (forall (s : TineTree T) out, runs (iter_next dbg) (iter_next_back dbg) (tree_interval_iter (tree_key f s)) sched out <->
     exists o, runs (iter_next dbg) (iter_next_back dbg) (tree_interval_iter s) sched o /\ out = map (option_map (raw_key f)) o) /\
  (forall (s : Selection T) out, runs (sel_interval_next dbg) (sel_interval_next_back dbg) (sel_interval_iter (tree_key f s)) sched out <->
     exists o, runs (sel_interval_next dbg) (sel_interval_next_back dbg) (sel_interval_iter s) sched o /\ out = map (option_map (interval_key f)) o) /\
  (forall (s : Selection T) out, runs (sel_next dbg) (sel_next_back dbg) (sel_iter (tree_key f s)) sched out <->
     exists o, runs (sel_next dbg) (sel_next_back dbg) (sel_iter s) sched o /\ out = map (option_map f) o).
Proof.
  intros H HF dbg sched. split; [|split; [|split]]; intros s out.
  - exact (k_runs _ _ _ _ f (interval_key f) (k_interval_next f H HF) (k_interval_next_back f H HF) sched s out).
  - exact (k_runs _ _ _ _ (raw_key f) (iter_key f) (k_iter_next f H dbg) (k_iter_next_back f H dbg) sched (tree_interval_iter s) out).
  - exact (k_runs _ _ _ _ (interval_key f) (iter_key f) (k_sel_interval_next f H HF dbg) (k_sel_interval_next_back f H HF dbg) sched (sel_interval_iter s) out).
  - exact (k_runs _ _ _ _ f (sel_iter_key f) (k_sel_next f H HF dbg) (k_sel_next_back f H HF dbg) sched (sel_iter s) out).
Qed.
Print Assumptions C96_schedules.

(** On values carrying a tag that the order ignores: the tags come out of the
    functions, and the answers are those given for the untagged values. *)
Section Tagged2.
  #[local] Existing Instance tagged_Cmp. #[local] Existing Instance tagged_Finite.
  Definition tg_i : Interval tagged := interval_closed (v 3, true) (v 7, false).
  Definition tg_i' : Interval tagged := interval_closed (v 3, false) (v 7, true).
  Definition tg_j : Interval tagged := interval_closed (v 3, false) (v 5, false).
  Example C96_tagged_ex : ordered_by (fst : tagged -> i8) /\ finite_by (fst : tagged -> i8) /\
    tg_i <> tg_i' /\ interval_eqb tg_i tg_i' = true /\ interval_key fst tg_i = interval_key fst tg_i' /\
    interval_minus tg_i tg_j <> interval_minus tg_i' tg_j /\
    map (interval_key fst) (interval_minus tg_i tg_j) = [interval_closed (v 6) (v 7)] /\
    (exists o, runs interval_next interval_next_back tg_i [Back; Front; Back] o /\
       map (option_map fst) o = [Some (v 7); Some (v 3); Some (v 6)]).
  Proof.
    split; [exact tagged_ordered|]. split; [exact tagged_finite|]. split; [discriminate|].
    split; [reflexivity|]. split; [reflexivity|]. split; [discriminate|]. split; [reflexivity|].
    eexists. split; [eapply runs_back; [reflexivity|]; eapply runs_front; [reflexivity|]; eapply runs_back; [reflexivity|]; constructor|reflexivity].
  Qed.
End Tagged2.

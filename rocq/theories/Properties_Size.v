(** * The number of intervals stays proportional to the inputs: C98 *)
From Coq Require Import List Bool Lia Arith ZArith.
From Verif Require Import Base OrdFacts MBound MRaw MNormalize MTine MBTree MTineTree Ints MInterval MSelection
  Spec Spec_Tree Spec_Sel PRaw PNorm PBTree PTree PTreeOps PTree2 PTree3 PTree6 PTree7 PSel PSel2 PSize Properties_Interval Properties_Selection.
Import ListNotations.

(** How many intervals and values a program is handed. *)
Fixpoint given {T} (p : prog T) : nat :=
  match p with
  | P_new | P_full => 0
  | P_from _ => 1
  | P_intervals l => length l
  | P_points l => length l
  | P_extend p l => given p + length l
  | P_union_in_place p _ | P_minus_in_place p _ => given p + 1
  | P_union p q | P_intersect p q => given p + given q
  | P_complement p => given p
  end.
(** ... and how often it calls [full()]. *)
Fixpoint fulls {T} (p : prog T) : nat :=
  match p with
  | P_full => 1
  | P_extend p _ | P_union_in_place p _ | P_minus_in_place p _ | P_complement p => fulls p
  | P_union p q | P_intersect p q => fulls p + fulls q
  | _ => 0
  end.

Section Size.
  Context {T : Type} {O : Ord T} {F : Finite T}.
  Implicit Types (p q : prog T) (s : Selection T).

  Lemma sum_sel_extend m : (forall a b c, tine_union_match a b = Ok (Some c) -> m c <= m a + m b) ->
    (forall i : RawInterval T, sum m (tine_from_raw_interval i) <= 2) ->
    forall dbg l s s', sel_extend dbg s l = Ok s' -> sum m s' <= sum m s + 2 * length l.
  Proof.
    intros Hm Hr dbg. induction l as [|i l IH]; simpl; intros s s' H; [injection H as <-; lia|].
    destruct (tree_union_in_place dbg s _) as [s1|] eqn:E; [|discriminate]. simpl in H.
    apply (sum_union_in_place m Hm) in E. apply IH in H. pose proof (Hr (denormalized (interval_raw i))). lia.
  Qed.
  Lemma sel_from_et i : sum et (sel_from i) <= 2.
  Proof. unfold sel_from. etransitivity; [apply sum_from|apply et_raw]. Qed.
  Lemma sel_from_wt i : sum wt (sel_from i) <= 2.
  Proof. unfold sel_from. etransitivity; [apply sum_from|apply wt_raw]. Qed.

  Lemma sel_full_tree : @sel_full T _ _ = tree_from_raw_interval Full.
  Proof.
    unfold sel_full, sel_from, interval_full. cbn [interval_raw normalized denormalized]. f_equal.
    now rewrite (proj2 (pred_none MINIMUM)), (proj2 (succ_none MAXIMUM)).
  Qed.

  Ltac step H := match type of H with bind ?r _ = Ok _ => destruct r as [?a|] eqn:?E; [|discriminate H]; cbn [bind] in H end.
  Lemma run_et dbg p : forall s, inputs false p -> run dbg p = Ok s -> sum et s <= 2 * given p.
  Proof.
    induction p as [| |i|l|l|p IH l|p IH i|p IH1 q IH2|p IH|p IH1 q IH2|p IH i]; intros s I H; cbn [run given inputs] in *.
    - injection H as <-. simpl. lia.
    - injection H as <-. rewrite sel_full_tree. simpl. lia.
    - injection H as <-. pose proof (sel_from_et i). lia.
    - apply (sum_sel_extend et et_union et_raw) in H. simpl in H. lia.
    - apply (sum_sel_extend et et_union et_raw) in H. rewrite map_length in H. simpl in H. lia.
    - step H. apply (sum_sel_extend et et_union et_raw) in H. specialize (IH _ (proj1 I) eq_refl). lia.
    - step H. apply (sum_union_in_place et et_union) in H. specialize (IH _ (proj1 I) eq_refl). pose proof (et_raw (denormalized (interval_raw i))). lia.
    - destruct I as [I1 I2]. step H. step H. specialize (IH1 _ I1 eq_refl). specialize (IH2 _ I2 eq_refl).
      apply et_tree_union in H; [lia|]. now apply (run_wf dbg q).
    - step H. apply (sum_complement et et_invert dbg _ _ 0) in H; simpl; try lia. specialize (IH _ I eq_refl). lia.
    - destruct I as [I1 I2]. step H. step H. specialize (IH1 _ I1 eq_refl). specialize (IH2 _ I2 eq_refl).
      apply et_tree_intersect in H; [lia|now apply (run_wf dbg p)|now apply (run_wf dbg q)].
    - step H. apply (sum_minus_in_place et et_minus et_invert) in H. specialize (IH _ (proj1 I) eq_refl). pose proof (et_raw (denormalized (interval_raw i))). lia.
  Qed.
  Lemma run_wt dbg p : forall s, inputs false p -> unions_only p -> run dbg p = Ok s -> sum wt s <= 2 * (given p + fulls p).
  Proof.
    induction p as [| |i|l|l|p IH l|p IH i|p IH1 q IH2|p IH|p IH1 q IH2|p IH i]; intros s I U H; cbn [run given fulls inputs unions_only] in *; try tauto.
    - injection H as <-. simpl. lia.
    - injection H as <-. rewrite sel_full_tree. simpl. lia.
    - injection H as <-. pose proof (sel_from_wt i). lia.
    - apply (sum_sel_extend wt wt_union wt_raw) in H. simpl in H. lia.
    - apply (sum_sel_extend wt wt_union wt_raw) in H. rewrite map_length in H. simpl in H. lia.
    - step H. apply (sum_sel_extend wt wt_union wt_raw) in H. specialize (IH _ (proj1 I) U eq_refl). lia.
    - step H. apply (sum_union_in_place wt wt_union) in H. specialize (IH _ (proj1 I) U eq_refl). pose proof (wt_raw (denormalized (interval_raw i))). lia.
    - destruct I as [I1 I2], U as [U1 U2]. step H. step H. specialize (IH1 _ I1 U1 eq_refl). specialize (IH2 _ I2 U2 eq_refl).
      apply wt_tree_union in H; [lia|]. now apply (run_wf dbg q).
  Qed.

  (** Whatever the program does with the [n] intervals and values it is handed,
      the Selection it builds yields at most [n + 1] intervals; built by unions
      only, at most one per interval and value. *)
  Theorem C98_program dbg p s l : inputs false p -> run dbg p = Ok s -> sel_intervals_are dbg s l ->
    length l <= given p + 1 /\ (unions_only p -> length l <= given p + fulls p).
  Proof.
    intros I H D. pose proof (run_wf dbg p s I H) as W. rewrite (sel_intervals_pieces dbg s l W D), map_length. split.
    - pose proof (run_et dbg p s I H). pose proof (wf_ends s W). pose proof (inner_length _ (wf_inner s W)). lia.
    - intros U. pose proof (run_wt dbg p s I U H). pose proof (wf_pieces s W). lia.
  Qed.
End Size.
Print Assumptions C98_program.

(** One call.  The results need not be well-formed trees (C36, C40): the bounds
    hold for whatever they yield. *)
Theorem C98_step {T} {O : Ord T} dbg (a b r : TineTree T) (i : RawInterval T) A B R : tree_wf a -> tree_wf b ->
  intervals_are dbg a A -> intervals_are dbg b B -> intervals_are dbg r R ->
  (tree_union_in_place dbg a i = Ok r -> length R <= length A + 1) /\
  (tree_minus_in_place dbg a i = Ok r -> length R <= length A + 1) /\
  (tree_intersect_in_place dbg a i = Ok r -> length R <= length A + 1) /\
  (tree_complement dbg a = Ok r -> length R <= length A + 1) /\
  (tree_union dbg a b = Ok r -> length R <= length A + length B) /\
  (tree_minus dbg a b = Ok r -> length R <= length A + length B) /\
  (tree_intersect dbg a b = Ok r -> length R <= length B).
Proof.
  intros Wa Wb HA HB HR. apply wf_tree_wf in Wa, Wb. apply intervals_pieces in HA, HB; auto. subst A B.
  apply any_tree_wt in HR. pose proof (wf_pieces a Wa) as Ea. pose proof (wf_pieces b Wb) as Eb. pose proof (wt_raw i) as Ei.
  repeat split; intros H.
  - apply (sum_union_in_place wt wt_union) in H. lia.
  - apply (sum_minus_in_place wt wt_minus wt_invert) in H. lia.
  - apply any_intersect_in_place in H. lia.
  - apply (sum_complement wt wt_invert dbg _ _ 1) in H; simpl; lia.
  - apply wt_tree_union in H; auto. lia.
  - apply any_minus in H. lia.
  - apply wt_tree_intersect in H; auto. lia.
Qed.
Print Assumptions C98_step.

(** Both bounds are reached. *)
Example C98_ex : let p := P_union (P_from (cl 1 3)) (P_points [v 7]) in
  inputs false p /\ given p = 2 /\ unions_only p /\
  (exists s, run true p = Ok s /\ sel_intervals_are true s [cl 1 3; one 7]) /\
  (exists s, run true (P_complement p) = Ok s /\ exists l, sel_intervals_are true s l /\ length l = 3).
Proof.
  split; [cbn; split; [apply R_closed|exact I]|]. split; [reflexivity|]. split; [cbn; tauto|]. split.
  - eexists. split; [reflexivity|]. drain.
  - eexists. split; [reflexivity|]. eexists. split; [drain|reflexivity].
Qed.
Example C98_step_ex : exists (a b : TineTree Z) r, tree_wf a /\ tree_wf b /\ intervals_are true a [Closed 1 9]%Z /\
  tree_minus_in_place true a (Open 3 5)%Z = Ok r /\ intervals_are true r [Closed 1 3; Closed 5 9]%Z.
Proof.
  exists (tree_from_raw_interval (Closed 1 9)%Z), [], (tree_from_raw_interval (Closed 1 3)%Z ++ tree_from_raw_interval (Closed 5 9)%Z).
  split; [apply wf_tree_wf; exact (proj1 (from_raw_wf (O := _ : Ord Z) (Closed 1 9)%Z eq_refl))|]. split; [apply wf_tree_wf, new_wf|].
  split; [unfold intervals_are; drain|]. split; [reflexivity|]. unfold intervals_are; drain.
Qed.

(** * Properties of Selections: C55, C56 *)
From Coq Require Import List Bool ZArith Lia Sorted.
From Verif Require Import Base OrdFacts Pos PFinite MBound MRaw MNormalize MTine MBTree MTineTree Ints MInterval MSelection
  Spec Spec_Tree Spec_Sel Instances PRaw PRaw2 PNorm PIter PInterval PBTree PTree PTreeOps PTreeIsect PTree2 PTree3 PTree4 PTree5 PTree6 PTree7
  PSel PSel2 PSel3 PSel4 PDebug Properties_Interval Properties_Selection.
Import ListNotations.
Local Open Scope Z_scope.
#[local] Arguments cmp : simpl never.

(** ** C55 *)

(** What [closure] really returns on Selections built by unions: one value too
    many on each side (when there is one). *)
Theorem C55_closure_partial {T} {O : Ord T} {F : Finite T} dbg (p : prog T) s :
  inputs true p -> unions_only p -> run dbg p = Ok s ->
  exists i, sel_closure dbg s = Ok i /\
    ((forall x, ~ member dbg s x) -> forall x, ~ ipoints i x) /\
    (forall m n, least (member dbg s) m -> greatest (member dbg s) n ->
       forall x, ipoints i x <-> (le m x \/ pred m = Some x) /\ (le x n \/ succ n = Some x)).
Proof.
  intros H U E. destruct (run_open dbg p s H U E) as [W Op]. unfold sel_closure, tree_closure.
  destruct s as [|t s].
  { eexists. split; [reflexivity|]. split; [intros _ x K; discriminate K|]. intros m n [K _]. discriminate K. }
  assert (NE : s <> []).
  { intros ->. pose proof (first_open [] t W Op) as K. destruct W as [_ W]. 
    destruct t as [b|b|b]; try discriminate W; destruct b; simpl in K, W; try contradiction; discriminate. }
  destruct (snoc_cases s) as [->|(s' & u & ->)]; [now destruct NE|].
  pose proof (first_open _ t W Op) as Ft. pose proof (last_open (t :: s') u W Op) as Lu.
  assert (En : tree_enclose dbg (t :: s' ++ [u]) = Ok (raw_new (tine_into_inner t) (tine_into_inner u))).
  { pose proof (last_app_one s' u) as K. unfold tree_enclose. destruct (s' ++ [u]) eqn:Q; [now destruct s'|]. now rewrite K. }
  rewrite En. cbn [bind]. eexists. split; [reflexivity|].
  set (P := inS (t :: s' ++ [u])) in *.
  assert (Ex : exists m, least P m).
  { destruct (tine_into_inner t); [contradiction|destruct Ft as (m & _ & ?); eauto|eauto]. }
  split.
  - intros N. exfalso. destruct Ex as (m & Hm & _). apply (N m). now apply (member_in dbg).
  - intros m n Hm Hn x. rewrite (least_member dbg) in Hm by auto. rewrite (greatest_member dbg) in Hn by auto. fold P in Hm, Hn.
    unfold ipoints, interval_contains. cbn [interval_raw]. rewrite normalized_contains, raw_contains_points.
    assert (Lmn : le m n) by (destruct Hm as [K _], Hn as [_ Kn]; now apply Kn).
    change (inS ((t :: s') ++ [u])) with P in Lu.
    assert (TL : le m x \/ lt x m) by (destruct (cmp_spec m x) as [|[|]]; [left|left|right]; clear - H0; order).
    assert (TU : le x n \/ lt n x) by (destruct (cmp_spec n x) as [|[|]]; [right|left|left]; clear - H0; order).
    destruct (tine_into_inner t) as [a|a|] eqn:Et, (tine_into_inner u) as [c|c|] eqn:Eu; try contradiction;
      repeat match goal with
      | H : exists m, pred m = Some _ /\ _ |- _ => let m' := fresh "m" in let Pm := fresh "Pm" in let Lm := fresh "Lm" in
          destruct H as (m' & Pm & Lm); rewrite (least_unique _ _ _ Lm Hm) in Pm
      | H : exists m, succ m = Some _ /\ _ |- _ => let m' := fresh "m" in let Pm := fresh "Sn" in let Lm := fresh "Lm" in
          destruct H as (m' & Pm & Lm); rewrite (greatest_unique _ _ _ Lm Hn) in Pm
      | H : least P MINIMUM |- _ => rewrite <- (least_unique _ _ _ H Hm) in *; clear H
      | H : greatest P MAXIMUM |- _ => rewrite <- (greatest_unique _ _ _ H Hn) in *; clear H
      end.
    + assert (A : lt a c) by (clear - Pm Sn Lmn; forder).
      assert (B : raw_new (Exclude a) (Exclude c) = Open a c).
      { unfold raw_new, raw_open. unfold lt in A. now rewrite A. }
      rewrite B, Pm, Sn. cbn [raw_closure points]. split.
      * intros [K1 K2]. split; [destruct TL as [|K]; [auto|right; f_equal; clear - K K1 Pm; forder]|].
        destruct TU as [|K]; [auto|right; f_equal; clear - K K2 Sn; forder].
      * intros [[K1|[= ->]] [K2|[= ->]]]; split; try (clear - K1 Pm Sn Lmn A; forder); try (clear - K2 Pm Sn Lmn A; forder); try (clear - A Pm Sn Lmn; forder).
    + rewrite Pm. cbn [raw_new raw_closure points]. split.
      * intros K1. split; [destruct TL as [|K]; [auto|right; f_equal; clear - K K1 Pm; forder]|left; apply max_ge].
      * intros [[K1|[= ->]] _]; [clear - K1 Pm; forder|clear; order].
    + rewrite Sn. cbn [raw_new raw_closure points]. split.
      * intros K1. split; [left; apply min_le|]. destruct TU as [|K]; [auto|right; f_equal; clear - K K1 Sn; forder].
      * intros [_ [K1|[= ->]]]; [clear - K1 Sn; forder|clear; order].
    + cbn [raw_new raw_closure points]. split; auto. intros _. split; left; [apply min_le|apply max_ge].
Qed.
Print Assumptions C55_closure_partial.

Example C55_ex : exists s, run true ex1 = Ok s /\ sel_closure true s = Ok (cl 0 10) /\ sel_enclose true s = Ok (cl 1 9).
Proof. eexists. split; [reflexivity|]. split; reflexivity. Qed.

(** The closure of [[1, 3]] holds 0 and 4. *)
Theorem C55_closure_refuted :
  exists s i, run true (P_from (cl 1 3)) = Ok s /\ sel_closure true s = Ok i /\
    sel_contains true s (v 0) = Ok false /\ sel_contains true s (v 4) = Ok false /\
    (forall x, member true s x -> 1 <= ival x <= 3) /\
    interval_contains i (v 0) = true /\ interval_contains i (v 4) = true.
Proof.
  destruct (C43_set_semantics true (P_from (cl 1 3))) as (s & E & K); [constructor|exact I|].
  exists s. eexists. split; [exact E|]. injection E as <-. split; [reflexivity|]. split; [reflexivity|]. split; [reflexivity|].
  split; [|split; reflexivity]. intros x M. destruct (K x) as (b & Eb & Kb). unfold member in M. rewrite Eb in M. injection M as ->.
  apply cl_points; try lia. now apply Kb.
Qed.
Print Assumptions C55_closure_refuted.

(** ** C56 *)

(** For every program: a claimed emptiness or fullness is true. *)
Theorem C56_sound_partial {T} {O : Ord T} {F : Finite T} dbg (p : prog T) s :
  inputs false p -> run dbg p = Ok s ->
  (sel_is_empty s = true -> forall x, ~ member dbg s x) /\ (sel_is_full s = true -> forall x, member dbg s x).
Proof.
  intros H E. pose proof (run_wf dbg p s H E) as W. split.
  - intros K x. rewrite member_in by auto. destruct s; [|discriminate]. discriminate.
  - intros K x. rewrite member_in by auto. unfold sel_is_full, tree_is_full in K.
    destruct s as [|a [|b [|? ?]]]; try discriminate. apply andb_prop in K as [K1 K2].
    assert (K : tree_eqb [a; b] [TLower Infinite; TUpper Infinite] = true) by (simpl; now rewrite K1, K2).
    apply tree_eqb_eq in K. rewrite K. reflexivity.
Qed.
Print Assumptions C56_sound_partial.

Theorem C56_is_empty_partial {T} {O : Ord T} {F : Finite T} dbg (p : prog T) s :
  inputs true p -> shallow p -> run dbg p = Ok s ->
  (sel_is_empty s = true <-> forall x, ~ member dbg s x).
Proof.
  intros H S E. destruct (run_gapless dbg p s H S E) as [W G].
  assert (A : sel_is_empty s = true <-> s = []) by (destruct s; simpl; split; congruence).
  rewrite A, gapless_empty by auto. split; intros K x; specialize (K x); rewrite member_in in * by auto; auto.
Qed.
Print Assumptions C56_is_empty_partial.

Theorem C56_is_full_partial {T} {O : Ord T} {F : Finite T} dbg (p : prog T) s :
  inputs true p -> unions_only p -> run dbg p = Ok s ->
  (sel_is_full s = true <-> forall x, member dbg s x).
Proof.
  intros H U E. split; [apply (C56_sound_partial dbg p); auto using inputs_weak|]. intros K.
  assert (Q : tree_eqb s sel_full = true).
  { apply (C48_canonical dbg p P_full s sel_full); simpl; auto. intros x. split; auto. intros _.
    destruct (C43_set_semantics dbg p (inputs_weak p H) (unions_boolean p U)) as (s' & E' & M). rewrite E in E'. injection E' as <-.
    destruct (M x) as (b & Eb & Kb). apply Kb. specialize (K x). unfold member in K. congruence. }
  apply tree_eqb_eq in Q. rewrite Q. unfold sel_full, sel_from, interval_full. cbn [interval_raw normalized denormalized].
  rewrite (proj2 (pred_none _) eq_refl), (proj2 (succ_none _) eq_refl). reflexivity.
Qed.
Print Assumptions C56_is_full_partial.

Example C56_ex : inputs true (P_union (P_from (cl (-128) 3)) (P_from (cl 4 127))) /\
  exists s, run true (P_union (P_from (cl (-128) 3)) (P_from (cl 4 127))) = Ok s /\ sel_is_full s = true /\ sel_is_empty s = false.
Proof. split; [split; constructor|]. eexists. split; [reflexivity|]. split; reflexivity. Qed.

(** The union of two complementary Selections need not be full, and the
    Selection of the empty interval (3,4) is not empty. *)
Theorem C56_refuted :
  (exists s, run true (P_union (P_complement (P_from (cl 3 127))) (P_complement (P_from (cl (-128) 2)))) = Ok s /\
     (forall x, member true s x) /\ sel_is_full s = false) /\
  (exists s, run true (P_from (interval_open (v 3) (v 4))) = Ok s /\ (forall x, ~ member true s x) /\ sel_is_empty s = false).
Proof.
  split.
  - destruct (C43_set_semantics true (P_union (P_complement (P_from (cl 3 127))) (P_complement (P_from (cl (-128) 2))))) as (s & E & K);
      [split; constructor|split; constructor|].
    exists s. split; auto. split; [|injection E as <-; reflexivity].
    intros x. destruct (K x) as (b & Eb & Kb). unfold member. rewrite Eb. f_equal. apply Kb. simpl. rewrite !cl_points by lia. lia.
  - eexists. split; [reflexivity|]. split; [|reflexivity]. intros x. now apply vac_empty.
Qed.
Print Assumptions C56_refuted.

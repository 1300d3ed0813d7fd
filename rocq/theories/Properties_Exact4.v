(** * Exact forms of refuted properties: C24, C26, C56 *)
From Coq Require Import List Bool ZArith Lia Sorted.
From Verif Require Import Base OrdFacts Pos PFinite MBound MRaw MNormalize MTine MBTree MTineTree Ints MInterval MSelection Spec Spec_Tree Spec_Sel
  PRaw PRaw2 PNorm PIter PInterval PBTree PTree PTreeOps PTree2 PTree3 PTree4 PTree5 PSel PSel2 Properties_Selection
  Properties_Interval Properties_Exact Properties_Exact2.
Import ListNotations.
Local Open Scope Z_scope.

(** ** C24: [size] of every Interval that is not [is_empty], one without values
    included: it is the difference of the bounds if the type can hold that, else
    a panic in debug builds and the difference modulo 2^bits in release builds.
    The interval has one value more than that difference. *)
Theorem C24_size_iff_partial {lo hi} {I : IntType lo hi} (i : Interval (int lo hi)) (m n : int lo hi) :
  reach false i -> interval_lower_bound i = Some (Include m) -> interval_upper_bound i = Some (Include n) ->
  (forall l, lists l (ipoints i) -> Z.of_nat (length l) = ival n - ival m + 1) /\
  (forall dbg, (exists d, interval_size (int_sub dbg) i = Ok (Some d) /\ ival d = ival n - ival m) <-> lo <= ival n - ival m <= hi) /\
  (interval_size (int_sub true) i = Panic <-> ~ (lo <= ival n - ival m <= hi)) /\
  (exists d, interval_size (int_sub false) i = Ok (Some d) /\ exists k, ival d = ival n - ival m + k * (hi - lo + 1)).
Proof.
  intros R La Ub. destruct (bounded_points i m n R La Ub) as (P & K & _).
  assert (S : forall dbg, interval_size (int_sub dbg) i = do d <- int_sub dbg n m; Ok (Some d)).
  { intros d. unfold interval_lower_bound, interval_upper_bound in La, Ub.
    unfold interval_size, interval_infimum, interval_supremum, raw_infimum, raw_supremum. now rewrite La, Ub. }
  assert (W : exists k, ival (int_of_Z (lo:=lo) (hi:=hi) (ival n - ival m)) = ival n - ival m + k * (hi - lo + 1)).
  { rewrite int_of_Z_val. unfold wrap. exists (- ((ival n - ival m - lo) / (hi - lo + 1))).
    unfold IntType in I. pose proof (Z.div_mod (ival n - ival m - lo) (hi - lo + 1)). lia. }
  split; [|split; [|split]].
  - intros l L. destruct K as [K|K].
    + apply int_list_length; auto. destruct L as [L1 L2]. split; auto. intros x. rewrite L2. apply P.
    + destruct (C18_integer_finite_lawful true n) as (_ & (o & E & _ & V) & _).
      assert (D : ival m = ival n + 1).
      { assert (o = succ n) as ->; [|now apply V]. clear - E.
        rewrite int_succ_ok in E. now injection E as <-. }
      destruct l as [|x l]; [simpl; lia|]. destruct L as [_ L]. specialize (proj1 (L x) (or_introl eq_refl)).
      intros Q. apply P in Q as [Q1 Q2]. rewrite int_le_val in Q1, Q2. lia.
  - intros dbg. rewrite S. unfold int_sub. split.
    + intros (d & E & V). pose proof (int_bounds d). lia.
    + intros B. assert (C : (lo <=? ival n - ival m) && (ival n - ival m <=? hi) = true) by lia.
      rewrite C, andb_false_r. eexists. split; [reflexivity|]. rewrite int_of_Z_val. apply wrap_id. lia.
  - rewrite S. unfold int_sub. destruct ((lo <=? ival n - ival m) && (ival n - ival m <=? hi)) eqn:C; simpl; split; try discriminate; try lia; auto.
  - rewrite S. unfold int_sub. simpl. eexists. split; [reflexivity|exact W].
Qed.
Print Assumptions C24_size_iff_partial.

(** The types without negative values: [size] of an Interval without values that
    is not [is_empty] panics in debug builds and is MAX in release builds. *)
Theorem C24_size_hollow_partial {hi} {I : IntType 0 hi} (i : Interval (int 0 hi)) : reach false i ->
  interval_is_empty i = false -> (forall x, ~ ipoints i x) ->
  interval_size (int_sub true) i = Panic /\ interval_size (int_sub false) i = Ok (Some int_MAX).
Proof.
  intros R E N. destruct (C21_is_empty_iff_partial i R) as [Q _].
  destruct Q as (m & n & La & Ub & K).
  { split; [exact E|]. intros x. specialize (N x). unfold ipoints in N. destruct (interval_contains i x); congruence. }
  destruct (C24_size_iff_partial i m n R La Ub) as (_ & _ & P & (d & V & k & W)).
  assert (D : ival m = ival n + 1).
  { destruct (C18_integer_finite_lawful true n) as (_ & (o & E' & _ & V') & _).
    rewrite int_succ_ok in E'. injection E' as <-. now apply V'. }
  split; [apply P; lia|]. rewrite V. do 2 f_equal. apply int_ext. rewrite int_max_val.
  pose proof (int_bounds d). unfold IntType in I. assert (k = 1) by nia. lia.
Qed.
Print Assumptions C24_size_hollow_partial.
Example C24_hollow_ex : exists i : Interval (int 0 255), i = interval_open (int_of_Z 3) (int_of_Z 4) /\ reach false i /\
  interval_is_empty i = false /\ interval_lower_bound i = Some (Include (int_of_Z 4)) /\
  interval_upper_bound i = Some (Include (int_of_Z 3)) /\ interval_size (int_sub false) i = Ok (Some (int_of_Z 255)).
Proof. eexists. split; [reflexivity|]. split; [apply R_open; discriminate|]. vm_compute. auto. Qed.

(** ** C26: two pieces that are side by side *)
Definition side_by_side {T} {C : Cmp T} {F : FiniteOps T} (i j : Interval T) : Prop :=
  exists x y, succ x = Some y /\ ((ipoints i x /\ ipoints j y) \/ (ipoints j x /\ ipoints i y)).
Theorem C26_union_iff_partial {T} {O : Ord T} {F : Finite T} (i j : Interval T) : reach false i -> reach false j ->
  (ForallOrdPairs (fun a b => (forall x, ipoints a x -> ~ ipoints b x) /\ ~ side_by_side a b) (interval_union i j) <->
   ~ (side_by_side i j /\ forall x, ipoints i x -> ~ ipoints j x)).
Proof.
  intros Ri Rj. apply reach_tight in Ri, Rj. destruct i as [a], j as [b]. simpl in Ri, Rj.
  assert (Q : forall c, tight c -> forall x, ipoints (mkInterval c) x -> solid c).
  { intros c Tc x Hx. destruct c; simpl in *; auto. unfold ipoints, interval_contains in Hx. simpl in Hx. order. }
  assert (N : forall c, tight c -> normalized c = c).
  { intros c Tc. apply normalized_id. destruct c; simpl in *; auto. }
  unfold interval_union, raw_union. cbn [interval_raw].
  destruct (raw_is_empty a) eqn:Ea.
  { assert (a = Empty) as -> by (destruct a; simpl in Ea; congruence).
    split; [|destruct (raw_is_empty b); simpl; repeat constructor].
    intros _ [(x & y & _ & [[H _]|[_ H]]) _]; discriminate H. }
  destruct (raw_is_empty b) eqn:Eb.
  { assert (b = Empty) as -> by (destruct b; simpl in Eb; congruence).
    split; [|simpl; repeat constructor].
    intros _ [(x & y & _ & [[_ H]|[H _]]) _]; discriminate H. }
  fold (meets a b). destruct (meets a b) eqn:M; cbn [map].
  - split; [|intros; repeat constructor]. intros _ [(x & y & _ & S) D].
    destruct (solid_meets a b) as (z & Za & Zb); auto.
    + destruct S as [[S _]|[_ S]]; eauto.
    + destruct S as [[_ S]|[S _]]; eauto.
    + exact (D z Za Zb).
  - rewrite !N by auto. split.
    + intros A [S D]. inversion A as [|? ? A' _]; subst. inversion A' as [|? ? [_ K] _]; subst. exact (K S).
    + intros H. assert (D : forall x, ipoints (mkInterval a) x -> ~ ipoints (mkInterval b) x).
      { intros x Ha Hb. unfold meets in M. apply orb_false_iff in M as [M _].
        assert (K : raw_intersects a b = true); [|congruence].
        apply raw_intersects_covers. exists (Pos.At x). rewrite !covers_At. auto. }
      repeat constructor; auto.
Qed.
Print Assumptions C26_union_iff_partial.
Example C26_union_iff_ex : reach true (interval_closed (v 0) (v 4)) /\ reach true (interval_closed (v 5) (v 6)) /\
  side_by_side (interval_closed (v 0) (v 4)) (interval_closed (v 5) (v 6)) /\
  ~ side_by_side (interval_closed (v 0) (v 3)) (interval_closed (v 5) (v 6)).
Proof.
  split; [constructor|]. split; [constructor|]. split.
  - exists (v 4), (v 5). split; [reflexivity|]. left. now split.
  - assert (P : forall a b x, ipoints (interval_closed (v a) (v b)) x <-> ival (v a) <= ival x <= ival (v b)).
    { intros a b x. unfold ipoints. destruct (C20_constructors_exact x) as (_ & _ & _ & _ & _ & _ & _ & C & _). apply C. }
    intros (x & y & E & S). destruct (C18_integer_finite_lawful true x) as (_ & (o & E' & _ & V') & _).
    rewrite int_succ_ok in E'. injection E' as <-. apply V' in E. rewrite !P, !v_val in S by lia. lia.
Qed.

(** ** C56: [is_full] says whether one interval is yielded and neither [infimum]
    nor [supremum] is given. *)
Theorem C56_is_full_iff_partial {T} {O : Ord T} {F : Finite T} dbg (p : prog T) s li : inputs false p -> run dbg p = Ok s ->
  sel_intervals_are dbg s li ->
  (sel_is_full s = true <-> length li = 1%nat /\ sel_infimum s = None /\ sel_supremum s = None).
Proof.
  intros H E D. destruct (intervals_reach dbg p s li H E D) as (W & -> & _). rewrite map_length. split.
  - intros K. unfold sel_is_full, tree_is_full in K. destruct s as [|t [|t' [|]]]; try discriminate.
    apply andb_true_iff in K as [K K']. destruct t as [[]|[]|[]]; try discriminate K; destruct t' as [[]|[]|[]]; try discriminate K'.
    auto.
  - intros (L & I & S). destruct (pieces None s) as [|r [|]] eqn:Ep; try discriminate L.
    assert (Wr : raw_wf r) by (apply (piece_wf s); rewrite Ep; now left).
    destruct (from_raw_wf r Wr) as (Wf & Ef & Df).
    assert (s = tree_from_raw_interval r) as ->.
    { rewrite Ef. apply den_ext; auto. intros q. rewrite Df, <- pieces_den, Ep by auto. simpl. now rewrite orb_false_r. }
    rewrite Ef in *. destruct r; simpl in *; try discriminate; auto.
Qed.
Print Assumptions C56_is_full_iff_partial.
(** Everything, as the union of two complements: two intervals are yielded. *)
Example C56_is_full_ex : inputs false (P_full : prog i8) /\ (exists s, run true (P_full : prog i8) = Ok s /\ sel_is_full s = true) /\
  exists s, run true (P_union (P_complement (P_from (cl 3 127))) (P_complement (P_from (cl (-128) 2)))) = Ok s /\
    sel_is_full s = false /\ sel_infimum s = None /\ sel_supremum s = None /\ exists i j, sel_intervals_are true s [i; j].
Proof.
  split; [exact I|]. split; [eexists; split; reflexivity|]. eexists. split; [reflexivity|]. split; [reflexivity|]. split; [reflexivity|]. split; [reflexivity|].
  do 2 eexists. drain.
Qed.

(** * Every operation commutes with replacing values by their keys *)
From Coq Require Import List Bool.
From Verif Require Import Base MBound MRaw MNormalize MInterval MTine MBTree MTineTree MSelection Spec Spec_Sel Spec_Key.
Import ListNotations.
Local Arguments cmp : simpl never.

Section PKey.
  Context {T U : Type} {CT : Cmp T} {CU : Cmp U} (f : T -> U) (H : ordered_by f).
  Notation bk := (bound_key f).
  Notation rk := (raw_key f).
  Notation tk := (tine_key f).
  Notation ik := (iter_key f).

  Lemma k_cmp x y : cmp (f x) (f y) = cmp x y.
  Proof. symmetry. apply H. Qed.
  Lemma k_ltb x y : ltb (f x) (f y) = ltb x y.
  Proof. unfold ltb. now rewrite k_cmp. Qed.
  Lemma k_leb x y : leb (f x) (f y) = leb x y.
  Proof. unfold leb. now rewrite k_cmp. Qed.
  Lemma k_gtb x y : gtb (f x) (f y) = gtb x y.
  Proof. unfold gtb. now rewrite k_cmp. Qed.
  Lemma k_geb x y : geb (f x) (f y) = geb x y.
  Proof. unfold geb. now rewrite k_cmp. Qed.
  Lemma k_eqb x y : eqb (f x) (f y) = eqb x y.
  Proof. unfold eqb. now rewrite k_cmp. Qed.

  Ltac cmps := rewrite ?k_cmp, ?k_ltb, ?k_leb, ?k_gtb, ?k_geb, ?k_eqb.
  Ltac cases :=
    cmps; repeat match goal with
    | |- context [match cmp ?x ?y with _ => _ end] => destruct (cmp x y)
    | |- context [if ?b then _ else _] => destruct b
    end; try reflexivity.

  (** ** Bounds *)
  Lemma k_least_union a b : least_union (bk a) (bk b) = bk (least_union a b).
  Proof. destruct a, b; cbn; cases. Qed.
  Lemma k_least_intersect a b : least_intersect (bk a) (bk b) = bk (least_intersect a b).
  Proof. destruct a, b; cbn; cases. Qed.
  Lemma k_greatest_union a b : greatest_union (bk a) (bk b) = bk (greatest_union a b).
  Proof. destruct a, b; cbn; cases. Qed.
  Lemma k_greatest_intersect a b : greatest_intersect (bk a) (bk b) = bk (greatest_intersect a b).
  Proof. destruct a, b; cbn; cases. Qed.
  Lemma k_adjacent a b : is_union_adjacent_to (bk a) (bk b) = is_union_adjacent_to a b.
  Proof. destruct a, b; cbn; cases. Qed.
  Lemma k_as_ref b : bound_as_ref (bk b) = option_map f (bound_as_ref b).
  Proof. now destruct b. Qed.
  Lemma k_opt_eqb a b : opt_eqb (option_map f a) (option_map f b) = opt_eqb a b.
  Proof. destruct a, b; cbn; cases. Qed.

  (** ** RawInterval *)
  Lemma k_is_empty i : raw_is_empty (rk i) = raw_is_empty i.
  Proof. now destruct i. Qed.
  Lemma k_is_full i : raw_is_full (rk i) = raw_is_full i.
  Proof. now destruct i. Qed.
  Lemma k_lower i : raw_lower_bound (rk i) = option_map bk (raw_lower_bound i).
  Proof. now destruct i. Qed.
  Lemma k_upper i : raw_upper_bound (rk i) = option_map bk (raw_upper_bound i).
  Proof. now destruct i. Qed.
  Lemma k_infimum i : raw_infimum (rk i) = option_map f (raw_infimum i).
  Proof. now destruct i. Qed.
  Lemma k_supremum i : raw_supremum (rk i) = option_map f (raw_supremum i).
  Proof. now destruct i. Qed.
  Lemma k_complement i : raw_complement (rk i) = map rk (raw_complement i).
  Proof. now destruct i. Qed.
  Lemma k_closure i : raw_closure (rk i) = rk (raw_closure i).
  Proof. now destruct i. Qed.
  Lemma k_open l r : raw_open (f l) (f r) = rk (raw_open l r).
  Proof. unfold raw_open. cases. Qed.
  Lemma k_left_open l r : raw_left_open (f l) (f r) = rk (raw_left_open l r).
  Proof. unfold raw_left_open. cases. Qed.
  Lemma k_right_open l r : raw_right_open (f l) (f r) = rk (raw_right_open l r).
  Proof. unfold raw_right_open. cases. Qed.
  Lemma k_closed l r : raw_closed (f l) (f r) = rk (raw_closed l r).
  Proof. unfold raw_closed. cases. Qed.
  Lemma k_new l u : raw_new (bk l) (bk u) = rk (raw_new l u).
  Proof. destruct l, u; cbn; auto using k_open, k_left_open, k_right_open, k_closed. Qed.
  Lemma k_contains i x : raw_contains (rk i) (f x) = raw_contains i x.
  Proof. destruct i; cbn; cases. Qed.
  Lemma k_is_adjacent i j : raw_is_adjacent_to (rk i) (rk j) = raw_is_adjacent_to i j.
  Proof.
    unfold raw_is_adjacent_to. rewrite !k_lower, !k_upper.
    destruct (raw_lower_bound i), (raw_upper_bound i), (raw_lower_bound j), (raw_upper_bound j); cbn;
      rewrite ?k_adjacent; reflexivity.
  Qed.
  Lemma k_inclusive b : is_inclusive (bk b) = is_inclusive b.
  Proof. now destruct b. Qed.
  Lemma k_exclusive b : is_exclusive (bk b) = is_exclusive b.
  Proof. now destruct b. Qed.
  Lemma k_intersect i j : raw_intersect (rk i) (rk j) = rk (raw_intersect i j).
  Proof.
    unfold raw_intersect. rewrite !k_lower, !k_upper.
    destruct (raw_lower_bound i), (raw_lower_bound j); cbn; auto.
    destruct (raw_upper_bound i), (raw_upper_bound j); cbn; auto.
    rewrite k_greatest_intersect, k_least_intersect, !k_as_ref, k_opt_eqb, !k_inclusive, !k_exclusive, k_new.
    cases.
  Qed.
  Lemma k_intersects i j : raw_intersects (rk i) (rk j) = raw_intersects i j.
  Proof. unfold raw_intersects. now rewrite k_intersect, k_is_empty. Qed.
  Lemma k_enclose i j : raw_enclose (rk i) (rk j) = rk (raw_enclose i j).
  Proof.
    unfold raw_enclose. rewrite !k_lower, !k_upper.
    destruct (raw_lower_bound i), (raw_lower_bound j); cbn; auto;
      destruct (raw_upper_bound i), (raw_upper_bound j); cbn; auto;
      rewrite ?k_least_union, ?k_greatest_union; apply k_new.
  Qed.
  Lemma k_union i j : raw_union (rk i) (rk j) = map rk (raw_union i j).
  Proof.
    unfold raw_union. rewrite !k_is_empty, k_intersects, k_is_adjacent, k_enclose.
    destruct (raw_is_empty i), (raw_is_empty j); cases.
  Qed.
  Lemma k_filter l : filter (fun j => negb (raw_is_empty j)) (map rk l) = map rk (filter (fun j => negb (raw_is_empty j)) l).
  Proof. induction l as [|i l IH]; cbn; auto. rewrite k_is_empty, IH. cases. Qed.
  Lemma k_minus i j : raw_minus (rk i) (rk j) = map rk (raw_minus i j).
  Proof.
    unfold raw_minus. rewrite k_complement, map_map, <- k_filter, map_map. f_equal.
    apply map_ext. intros k. apply k_intersect.
  Qed.
  Lemma k_fold g g' (Hg : forall a b : RawInterval T, g' (rk a) (rk b) = rk (g a b)) l a :
    fold_left g' (map rk l) (rk a) = rk (fold_left g l a).
  Proof. revert a. induction l; cbn; intros; auto. rewrite Hg. auto. Qed.
  Lemma k_enclose_all l : raw_enclose_all (map rk l) = rk (raw_enclose_all l).
  Proof. exact (k_fold _ _ k_enclose l Full). Qed.
  Lemma k_intersect_all l : raw_intersect_all (map rk l) = rk (raw_intersect_all l).
  Proof. exact (k_fold _ _ k_intersect l Full). Qed.
  Lemma k_union_all_step l i : raw_union_all_step (map rk l) (rk i) = map rk (raw_union_all_step l i).
  Proof.
    induction l as [|j l IH]; cbn; auto. rewrite k_intersects, k_is_adjacent, k_enclose, IH. cases.
  Qed.
  Lemma k_union_all l : raw_union_all (map rk l) = map rk (raw_union_all l).
  Proof.
    unfold raw_union_all. rewrite k_filter. destruct (filter _ l) as [|i l']; cbn; auto.
    change [rk i] with (map rk [i]). generalize [i].
    induction l' as [|j l' IH]; cbn; intros acc; auto.
    rewrite k_is_full, k_union_all_step, <- IH. destruct (raw_is_full j); auto.
  Qed.

  (** ** Tines *)
  Lemma k_from_raw i : tine_from_raw_interval (rk i) = map tk (tine_from_raw_interval i).
  Proof. now destruct i. Qed.
  Lemma k_is_lower t : is_lower_bound (tk t) = is_lower_bound t.
  Proof. destruct t as [[]|[]|[]]; reflexivity. Qed.
  Lemma k_is_upper t : is_upper_bound (tk t) = is_upper_bound t.
  Proof. destruct t as [[]|[]|[]]; reflexivity. Qed.
  Lemma k_pinc t : is_point_include (tk t) = is_point_include t.
  Proof. destruct t as [[]|[]|[]]; reflexivity. Qed.
  Lemma k_pexc t : is_point_exclude (tk t) = is_point_exclude t.
  Proof. destruct t as [[]|[]|[]]; reflexivity. Qed.
  Lemma k_inner t : tine_into_inner (tk t) = bk (tine_into_inner t).
  Proof. now destruct t. Qed.
  Lemma k_tref t : tine_as_ref (tk t) = option_map f (tine_as_ref t).
  Proof. destruct t as [[]|[]|[]]; reflexivity. Qed.
  Lemma k_invert t : tine_invert (tk t) = res_key tk (tine_invert t).
  Proof. destruct t as [[]|[]|[]]; reflexivity. Qed.
  Lemma k_tunion dbg a b : tine_union dbg (tk a) (tk b) = res_key (option_map tk) (tine_union dbg a b).
  Proof.
    unfold tine_union. rewrite !k_tref, k_opt_eqb. destruct (debug_assert _ _); cbn; auto.
    destruct a as [[]|[]|[]], b as [[]|[]|[]]; reflexivity.
  Qed.
  Lemma k_tintersect dbg a b : tine_intersect dbg (tk a) (tk b) = res_key (option_map tk) (tine_intersect dbg a b).
  Proof.
    unfold tine_intersect. rewrite !k_tref, k_opt_eqb. destruct (debug_assert _ _); cbn; auto.
    destruct a as [[]|[]|[]], b as [[]|[]|[]]; reflexivity.
  Qed.
  Lemma k_tminus dbg a b : tine_minus dbg (tk a) (tk b) = res_key (option_map tk) (tine_minus dbg a b).
  Proof.
    unfold tine_minus. rewrite !k_tref, k_opt_eqb. destruct (debug_assert _ _); cbn; auto.
    destruct a as [[]|[]|[]], b as [[]|[]|[]]; reflexivity.
  Qed.
  Lemma k_tcmp a b : tine_cmp (tk a) (tk b) = tine_cmp a b.
  Proof.
    unfold tine_cmp, tine_partial_cmp. rewrite !k_tref.
    destruct a as [[]|[]|[]], b as [[]|[]|[]]; cbn; rewrite ?k_cmp; reflexivity.
  Qed.
  Lemma k_teqb a b : tine_eqb (tk a) (tk b) = tine_eqb a b.
  Proof. destruct a as [[]|[]|[]], b as [[]|[]|[]]; cbn; rewrite ?k_eqb; reflexivity. Qed.

  (** ** Sets of tines *)
  Notation sk := (map tk).
  Lemma k_insert t s : btree_insert (tk t) (sk s) = sk (btree_insert t s).
  Proof. induction s as [|x s IH]; cbn; auto. rewrite k_tcmp, IH. destruct (tine_cmp t x); reflexivity. Qed.
  Lemma k_take t s : btree_take (tk t) (sk s) = pair_key (option_map tk) sk (btree_take t s).
  Proof.
    induction s as [|x s IH]; cbn; auto. rewrite k_tcmp, IH.
    destruct (btree_take t s), (tine_cmp t x); reflexivity.
  Qed.
  Lemma k_split t s : btree_split_off (tk t) (sk s) = pair_key sk sk (btree_split_off t s).
  Proof.
    induction s as [|x s IH]; cbn; auto. rewrite k_tcmp, IH.
    destruct (btree_split_off t s), (tine_cmp t x); reflexivity.
  Qed.
  Lemma k_append a b : btree_append (sk a) (sk b) = sk (btree_append a b).
  Proof.
    revert b. induction a as [|x a IHa]; intros b; [now destruct b|].
    induction b as [|y b IHb]; auto.
    cbn in *. rewrite k_tcmp. destruct (tine_cmp x y); cbn; f_equal; auto. exact (IHa (y :: b)).
  Qed.
  Lemma k_sort_insert t s : sort_insert (tk t) (sk s) = sk (sort_insert t s).
  Proof. induction s as [|x s IH]; cbn; auto. rewrite k_tcmp, IH. destruct (tine_cmp t x); reflexivity. Qed.
  Lemma k_sort l : stable_sort (sk l) = sk (stable_sort l).
  Proof. induction l; cbn; auto. now rewrite IHl, k_sort_insert. Qed.
  Lemma k_dedup l : dedup (sk l) = sk (dedup l).
  Proof.
    induction l as [|x l IH]; auto. destruct l as [|y l]; auto.
    change (dedup (sk (x :: y :: l))) with (if tine_eqb (tk x) (tk y) then dedup (sk (y :: l)) else tk x :: dedup (sk (y :: l))).
    rewrite k_teqb, IH. change (dedup (x :: y :: l)) with (if tine_eqb x y then dedup (y :: l) else x :: dedup (y :: l)).
    destruct (tine_eqb x y); reflexivity.
  Qed.
  Lemma k_collect l : btree_collect (sk l) = sk (btree_collect l).
  Proof. unfold btree_collect. now rewrite k_sort, k_dedup. Qed.
  Lemma k_first s : btree_first (sk s) = option_map tk (btree_first s).
  Proof. now destruct s. Qed.
  Lemma k_last s : btree_last (sk s) = option_map tk (btree_last s).
  Proof. induction s as [|x [|y s] IH]; auto. Qed.
  Lemma k_rest_front s : btree_rest_front (sk s) = sk (btree_rest_front s).
  Proof. now destruct s. Qed.
  Lemma k_rest_back s : btree_rest_back (sk s) = sk (btree_rest_back s).
  Proof.
    induction s as [|x [|y s] IH]; auto.
    change (btree_rest_back (sk (x :: y :: s))) with (tk x :: btree_rest_back (sk (y :: s))). now rewrite IH.
  Qed.

  (** ** TineTree *)
  Lemma k_tree_from i : tree_from_raw_interval (rk i) = sk (tree_from_raw_interval i).
  Proof. unfold tree_from_raw_interval. now rewrite k_from_raw, k_collect. Qed.
  Lemma k_tree_lower s : tree_lower_bound (sk s) = option_map bk (tree_lower_bound s).
  Proof. unfold tree_lower_bound. rewrite k_first. destruct (btree_first s); cbn; now rewrite ?k_inner. Qed.
  Lemma k_tree_upper s : tree_upper_bound (sk s) = option_map bk (tree_upper_bound s).
  Proof. unfold tree_upper_bound. rewrite k_last. destruct (btree_last s); cbn; now rewrite ?k_inner. Qed.
  Lemma k_tree_is_empty s : tree_is_empty (sk s) = tree_is_empty s.
  Proof. now destruct s. Qed.
  Lemma k_tree_is_full s : tree_is_full (sk s) = tree_is_full s.
  Proof.
    destruct s as [|a [|b [|]]]; auto. unfold tree_is_full. cbn [map].
    rewrite <- (k_teqb a (TLower Infinite)), <- (k_teqb b (TUpper Infinite)). reflexivity.
  Qed.
  Lemma k_tree_eqb s s' : tree_eqb (sk s) (sk s') = tree_eqb s s'.
  Proof. revert s'. induction s; intros []; cbn; auto. now rewrite k_teqb, IHs. Qed.

  Definition nk : res (option (RawInterval T) * Iter T) -> res (option (RawInterval U) * Iter U) :=
    res_key (pair_key (option_map rk) ik).

  Lemma k_iter_next dbg it : iter_next dbg (ik it) = nk (iter_next dbg it).
  Proof.
    destruct it as [ts sl su]. unfold iter_next. cbn [iter_key tine_iter saved_lower saved_upper].
    assert (E : match option_map tk sl with
                | Some t => (Some t, sk ts)
                | None => (btree_first (sk ts), btree_rest_front (sk ts)) end
              = pair_key (option_map tk) sk
                  match sl with Some t => (Some t, ts) | None => (btree_first ts, btree_rest_front ts) end).
    { destruct sl; cbn; auto. now rewrite k_first, k_rest_front. }
    rewrite E. clear E.
    destruct (match sl with Some t => (Some t, ts) | None => _ end) as [[x|] r]; [|reflexivity].
    cbn [pair_key fst snd option_map].
    assert (E : match btree_first (sk r) with
                | Some t => (Some t, btree_rest_front (sk r), option_map tk su)
                | None => (option_map tk su, sk r, None) end
              = pair_key (pair_key (option_map tk) sk) (option_map tk)
                  match btree_first r with Some t => (Some t, btree_rest_front r, su) | None => (su, r, None) end).
    { rewrite k_first, k_rest_front. destruct (btree_first r); reflexivity. }
    rewrite E. clear E.
    destruct (match btree_first r with Some t => _ | None => _ end) as [[y r'] su'].
    cbn [pair_key fst snd].
    destruct x as [[x|x|]|[x|x|]|[x|x|]]; try reflexivity;
      cbn [tine_key bound_key];
      (destruct (debug_assert dbg _); [|reflexivity]); cbn [bind];
      (destruct y as [y|]; [|reflexivity]); cbn [option_map];
      rewrite k_is_upper, k_pexc, k_inner;
      (destruct (debug_assert dbg _); [|reflexivity]); cbn [bind tine_into_inner nk res_key pair_key fst snd option_map];
      unfold nk, res_key, pair_key; cbn [fst snd option_map]; rewrite <- k_new; destruct (is_point_exclude y); reflexivity.
  Qed.

  Lemma k_iter_next_back dbg it : iter_next_back dbg (ik it) = nk (iter_next_back dbg it).
  Proof.
    destruct it as [ts sl su]. unfold iter_next_back. cbn [iter_key tine_iter saved_lower saved_upper].
    assert (E : match option_map tk su with
                | Some t => (Some t, sk ts)
                | None => (btree_last (sk ts), btree_rest_back (sk ts)) end
              = pair_key (option_map tk) sk
                  match su with Some t => (Some t, ts) | None => (btree_last ts, btree_rest_back ts) end).
    { destruct su; cbn; auto. now rewrite k_last, k_rest_back. }
    rewrite E. clear E.
    destruct (match su with Some t => (Some t, ts) | None => _ end) as [[x|] r]; [|reflexivity].
    cbn [pair_key fst snd option_map].
    assert (E : match btree_last (sk r) with
                | Some t => (Some t, btree_rest_back (sk r), option_map tk sl)
                | None => (option_map tk sl, sk r, None) end
              = pair_key (pair_key (option_map tk) sk) (option_map tk)
                  match btree_last r with Some t => (Some t, btree_rest_back r, sl) | None => (sl, r, None) end).
    { rewrite k_last, k_rest_back. destruct (btree_last r); reflexivity. }
    rewrite E. clear E.
    destruct (match btree_last r with Some t => _ | None => _ end) as [[y r'] sl'].
    cbn [pair_key fst snd].
    destruct x as [[x|x|]|[x|x|]|[x|x|]]; try reflexivity;
      cbn [tine_key bound_key];
      (destruct (debug_assert dbg _); [|reflexivity]); cbn [bind];
      (destruct y as [y|]; [|reflexivity]); cbn [option_map];
      rewrite k_is_lower, k_pexc, k_inner;
      (destruct (debug_assert dbg _); [|reflexivity]); cbn [bind tine_into_inner nk res_key pair_key fst snd option_map];
      unfold nk, res_key, pair_key; cbn [fst snd option_map]; rewrite <- k_new; destruct (is_point_exclude y); reflexivity.
  Qed.

  Lemma k_size it : iter_size (ik it) = iter_size it.
  Proof. destruct it as [ts [] []]; unfold iter_size; cbn; now rewrite map_length. Qed.

  Lemma k_fold_iter {A B} (g : A -> B) dbg h h'
    (Hh : forall a i, h' (g a) (rk i) = res_key g (h a i)) it a :
    iter_fold dbg h' (ik it) (g a) = res_key g (iter_fold dbg h it a).
  Proof.
    unfold iter_fold. rewrite k_size. generalize (S (iter_size it)) as n. intros n. revert it a.
    induction n as [|n IH]; intros it a; auto. cbn [iter_fold_fuel]. rewrite k_iter_next.
    destruct (iter_next dbg it) as [[[i|] it']|]; cbn; auto.
    rewrite Hh. destruct (h a i); cbn; auto.
  Qed.
  Lemma k_tree_iter s : tree_interval_iter (sk s) = ik (tree_interval_iter s).
  Proof. reflexivity. Qed.

  Lemma k_tree_contains dbg s x : tree_contains dbg (sk s) (f x) = tree_contains dbg s x.
  Proof.
    unfold tree_contains. rewrite k_tree_iter, k_size. generalize (S (iter_size (tree_interval_iter s))) as n.
    intros n. generalize (tree_interval_iter s) as it.
    induction n as [|n IH]; intros it; auto. cbn [contains_fuel]. rewrite k_iter_next.
    destruct (iter_next dbg it) as [[[i|] it']|]; cbn; auto. rewrite k_contains, IH. reflexivity.
  Qed.

  Lemma k_complement_rest l s : complement_rest (sk l) (sk s) = res_key sk (complement_rest l s).
  Proof.
    revert s. induction l as [|t l IH]; intros s; cbn; auto. rewrite k_invert.
    destruct (tine_invert t); cbn; auto. rewrite k_insert. apply IH.
  Qed.
  Lemma k_inf_lower s : btree_insert (TLower Infinite) (sk s) = sk (btree_insert (TLower Infinite) s).
  Proof. apply (k_insert (TLower Infinite)). Qed.
  Lemma k_inf_upper s : btree_insert (TUpper Infinite) (sk s) = sk (btree_insert (TUpper Infinite) s).
  Proof. apply (k_insert (TUpper Infinite)). Qed.

  Lemma k_inv_insert t s :
    (do t' <- tine_invert (tk t); Ok (btree_insert t' (btree_insert (TUpper Infinite) (sk s))))
    = res_key sk (do t' <- tine_invert t; Ok (btree_insert t' (btree_insert (TUpper Infinite) s))).
  Proof. rewrite k_invert, k_inf_upper. destruct (tine_invert t); cbn [bind res_key]; auto. now rewrite k_insert. Qed.

  Lemma k_tree_complement dbg s : tree_complement dbg (sk s) = res_key sk (tree_complement dbg s).
  Proof.
    destruct s as [|t [|t' s]]; [reflexivity| |].
    - unfold tree_complement. cbn [map]. rewrite k_invert. destruct (tine_invert t) as [a|]; cbn [bind res_key]; auto.
      rewrite k_pexc. destruct (debug_assert _ _); cbn [bind res_key]; auto.
      change (@tree_new U) with (sk tree_new). rewrite k_inf_lower, k_insert, k_inf_upper. reflexivity.
    - unfold tree_complement. cbn [map].
      assert (E1 : match tk t with TLower Infinite => Ok tree_new
                   | _ => do t'0 <- tine_invert (tk t); Ok (btree_insert t'0 (btree_insert (TLower Infinite) tree_new)) end
                 = res_key sk match t with TLower Infinite => Ok tree_new
                   | _ => do t'0 <- tine_invert t; Ok (btree_insert t'0 (btree_insert (TLower Infinite) tree_new)) end).
      { rewrite k_invert. change (@tree_new U) with (sk tree_new).
        destruct t as [[]|[]|[]]; cbn [tine_key bound_key tine_invert res_key bind]; try reflexivity;
          rewrite k_inf_lower, <- k_insert; reflexivity. }
      rewrite E1. clear E1.
      match goal with |- context [bind (res_key sk ?m) _] => destruct m as [c|] end; cbn [res_key bind]; auto.
      change (tk t' :: sk s) with (sk (t' :: s)). rewrite k_last.
      assert (E2 : match option_map tk (btree_last (t' :: s)) with
                   | Some (TUpper Infinite) => Ok (sk c)
                   | Some t0 => do t'0 <- tine_invert t0; Ok (btree_insert t'0 (btree_insert (TUpper Infinite) (sk c)))
                   | None => Panic end
                 = res_key sk match btree_last (t' :: s) with
                   | Some (TUpper Infinite) => Ok c
                   | Some t0 => do t'0 <- tine_invert t0; Ok (btree_insert t'0 (btree_insert (TUpper Infinite) c))
                   | None => Panic end).
      { destruct (btree_last (t' :: s)) as [[[x|x|]|[x|x|]|[x|x|]]|];
          first [ reflexivity | exact (k_inv_insert (TLower (Include x)) c) | exact (k_inv_insert (TLower (Exclude x)) c)
                | exact (k_inv_insert (TPoint (Include x)) c) | exact (k_inv_insert (TPoint (Exclude x)) c)
                | exact (k_inv_insert (TUpper (Include x)) c) | exact (k_inv_insert (TUpper (Exclude x)) c) ]. }
      rewrite E2. clear E2.
      match goal with |- context [bind (res_key sk ?m) _] => destruct m as [c'|] end; cbn [res_key bind]; auto.
      rewrite k_rest_back. apply k_complement_rest.
  Qed.

  (** ** In-place operations *)
  Notation ok := (option_map tk).
  Lemma k_ext_point t s :
    exterior_split_for_point_interval (tk t) (sk s)
    = pair_key (pair_key (pair_key ok ok) ok) sk (exterior_split_for_point_interval t s).
  Proof.
    unfold exterior_split_for_point_interval. rewrite k_take. destruct (btree_take t s) as [r1 s1].
    cbn [pair_key fst snd]. rewrite k_split. destruct (btree_split_off t s1) as [a1 b1]. cbn [pair_key fst snd].
    rewrite k_last, k_first, k_append. reflexivity.
  Qed.
  Lemma k_ext_proper l u s :
    exterior_split_for_proper_interval (tk l) (tk u) (sk s)
    = pair_key (pair_key (pair_key (pair_key ok ok) ok) ok) sk (exterior_split_for_proper_interval l u s).
  Proof.
    unfold exterior_split_for_proper_interval. rewrite k_take. destruct (btree_take l s) as [r1 s1].
    cbn [pair_key fst snd]. rewrite k_take. destruct (btree_take u s1) as [r2 s2].
    cbn [pair_key fst snd]. rewrite k_split. destruct (btree_split_off l s2) as [a1 b1]. cbn [pair_key fst snd].
    rewrite k_split. destruct (btree_split_off u b1) as [c1 d1]. cbn [pair_key fst snd].
    rewrite k_last, k_first, k_append. reflexivity.
  Qed.
  Lemma k_int_proper dbg l u s :
    interior_split_for_proper_interval dbg (tk l) (tk u) (sk s)
    = res_key (pair_key (pair_key (pair_key (pair_key (pair_key (pair_key ok ok) ok) ok) ok) ok) sk)
        (interior_split_for_proper_interval dbg l u s).
  Proof.
    unfold interior_split_for_proper_interval. rewrite k_tcmp. destruct (debug_assert _ _); cbn [bind res_key]; auto.
    rewrite k_take. destruct (btree_take l s) as [r1 s1].
    cbn [pair_key fst snd]. rewrite k_take. destruct (btree_take u s1) as [r2 s2].
    cbn [pair_key fst snd]. rewrite k_split. destruct (btree_split_off l s2) as [a1 b1]. cbn [pair_key fst snd].
    rewrite k_split. destruct (btree_split_off u b1) as [c1 d1]. cbn [pair_key fst snd].
    rewrite !k_last, !k_first.
    replace (match ok (btree_first c1) with Some _ => true | None => false end)
      with (match btree_first c1 with Some _ => true | None => false end) by (destruct (btree_first c1); auto).
    replace (match ok (btree_last c1) with Some _ => true | None => false end)
      with (match btree_last c1 with Some _ => true | None => false end) by (destruct (btree_last c1); auto).
    destruct (debug_assert _ _); reflexivity.
  Qed.

  Lemma k_merge (op : bool -> Tine T -> Tine T -> res (option (Tine T))) op' dbg o t
    (Hop : forall a b, op' dbg (tk a) (tk b) = res_key ok (op dbg a b)) :
    match ok o with Some x => op' dbg x (tk t) | None => Ok (Some (tk t)) end
    = res_key ok match o with Some x => op dbg x t | None => Ok (Some t) end.
  Proof. destruct o; cbn; auto. Qed.
  Lemma k_some_lower o : is_some_and is_lower_bound (ok o) = is_some_and is_lower_bound o.
  Proof. destruct o; cbn; auto using k_is_lower. Qed.
  Lemma k_some_upper o : is_some_and is_upper_bound (ok o) = is_some_and is_upper_bound o.
  Proof. destruct o; cbn; auto using k_is_upper. Qed.
  Lemma k_or_lower o : map_or_true is_lower_bound (ok o) = map_or_true is_lower_bound o.
  Proof. destruct o; cbn; auto using k_is_lower. Qed.
  Lemma k_or_upper o : map_or_true is_upper_bound (ok o) = map_or_true is_upper_bound o.
  Proof. destruct o; cbn; auto using k_is_upper. Qed.

  Ltac step :=
    rewrite ?k_is_lower, ?k_is_upper, ?k_pinc, ?k_pexc, ?k_invert;
    match goal with
    | |- context [debug_assert ?d ?b] => destruct (debug_assert d b); cbn [bind res_key]; [|reflexivity]
    | |- context [bind (res_key _ ?m) _] => destruct m; cbn [bind res_key]; [|reflexivity]
    | |- context [if ?b then _ else _] => destruct b
    end.
  Ltac fin := repeat step; cbn [bind res_key]; rewrite ?k_insert; reflexivity.

  Lemma k_union_point dbg p s : union_point_interval dbg (tk p) (sk s) = res_key sk (union_point_interval dbg p s).
  Proof.
    unfold union_point_interval. rewrite k_ext_point.
    destruct (exterior_split_for_point_interval p s) as [[[t0 t1] t2] s']. cbn [pair_key fst snd].
    rewrite (k_merge tine_union _ dbg t1 p (k_tunion dbg)).
    destruct (match t1 with Some _ => _ | None => _ end) as [[m|]|]; cbn [bind res_key option_map]; auto.
    rewrite k_some_lower, k_some_upper.
    destruct (is_some_and is_lower_bound t0), (is_some_and is_upper_bound t2); fin.
  Qed.
  Lemma k_union_proper dbg l u s : union_proper_interval dbg (tk l) (tk u) (sk s) = res_key sk (union_proper_interval dbg l u s).
  Proof.
    unfold union_proper_interval. rewrite k_ext_proper.
    destruct (exterior_split_for_proper_interval l u s) as [[[[t0 t1] t2] t3] s']. cbn [pair_key fst snd].
    rewrite (k_merge tine_union _ dbg t1 l (k_tunion dbg)), (k_merge tine_union _ dbg t2 u (k_tunion dbg)).
    destruct (match t1 with Some _ => _ | None => _ end) as [ml|]; cbn [bind res_key]; auto.
    destruct (match t2 with Some _ => _ | None => _ end) as [mu|]; cbn [bind res_key]; auto.
    rewrite k_or_lower, k_or_upper, k_some_lower, k_some_upper.
    destruct (debug_assert dbg (map_or_true is_lower_bound ml)); cbn [bind res_key]; auto.
    destruct (debug_assert dbg (map_or_true is_upper_bound mu)); cbn [bind res_key]; auto.
    destruct (is_some_and is_lower_bound t0), ml as [ml|], mu as [mu|], (is_some_and is_upper_bound t3); cbn [option_map]; fin.
  Qed.
  Lemma k_union_in_place dbg s i : tree_union_in_place dbg (sk s) (rk i) = res_key sk (tree_union_in_place dbg s i).
  Proof.
    unfold tree_union_in_place. rewrite k_is_full, k_from_raw.
    destruct (raw_is_full i); [reflexivity|].
    destruct (tine_from_raw_interval i) as [|a [|b [|]]]; cbn [map]; auto using k_union_point, k_union_proper.
  Qed.

  Lemma k_minus_point dbg p s : minus_point_interval dbg (tk p) (sk s) = res_key sk (minus_point_interval dbg p s).
  Proof.
    unfold minus_point_interval. rewrite k_ext_point.
    destruct (exterior_split_for_point_interval p s) as [[[t0 t1] t2] s']. cbn [pair_key fst snd].
    rewrite (k_merge tine_minus _ dbg t1 p (k_tminus dbg)).
    destruct (match t1 with Some _ => _ | None => _ end) as [[m|]|]; cbn [bind res_key option_map]; auto.
    rewrite k_some_lower, k_some_upper.
    destruct (is_some_and is_lower_bound t0), (is_some_and is_upper_bound t2); fin.
  Qed.
  Lemma k_as_upper l : as_upper (tk l) = res_key tk (as_upper l).
  Proof. unfold as_upper. rewrite k_is_upper, k_invert. destruct (is_upper_bound l); reflexivity. Qed.
  Lemma k_as_lower l : as_lower (tk l) = res_key tk (as_lower l).
  Proof. unfold as_lower. rewrite k_is_lower, k_invert. destruct (is_lower_bound l); reflexivity. Qed.
  Lemma k_keep t s :
    match tk t with TPoint (Include p) => btree_insert (TPoint (Include p)) (sk s) | _ => sk s end
    = sk match t with TPoint (Include p) => btree_insert (TPoint (Include p)) s | _ => s end.
  Proof. destruct t as [[]|[x|x|]|[]]; try reflexivity. exact (k_insert (TPoint (Include x)) s). Qed.
  Lemma k_minus_proper dbg l u s : minus_proper_interval dbg (tk l) (tk u) (sk s) = res_key sk (minus_proper_interval dbg l u s).
  Proof.
    unfold minus_proper_interval. rewrite k_ext_proper.
    destruct (exterior_split_for_proper_interval l u s) as [[[[t0 t1] t2] t3] s']. cbn [pair_key fst snd].
    rewrite (k_merge tine_minus _ dbg t1 l (k_tminus dbg)), (k_merge tine_minus _ dbg t2 u (k_tminus dbg)).
    destruct (match t1 with Some _ => _ | None => _ end) as [ml|]; cbn [bind res_key]; auto.
    destruct (match t2 with Some _ => _ | None => _ end) as [mu|]; cbn [bind res_key]; auto.
    rewrite k_some_lower, k_some_upper.
    destruct (is_some_and is_lower_bound t0), ml as [ml|], mu as [mu|], (is_some_and is_upper_bound t3); cbn [option_map];
      rewrite ?k_as_upper, ?k_as_lower;
      first [ fin
            | repeat step; cbn [bind res_key]; rewrite ?k_insert, <- k_keep; reflexivity ].
  Qed.
  Lemma k_minus_in_place dbg s i : tree_minus_in_place dbg (sk s) (rk i) = res_key sk (tree_minus_in_place dbg s i).
  Proof.
    unfold tree_minus_in_place. rewrite k_is_full, k_is_empty, k_tree_is_empty, k_from_raw.
    destruct (tree_is_empty s || raw_is_empty i); [reflexivity|].
    destruct (raw_is_full i); [reflexivity|].
    destruct (tine_from_raw_interval i) as [|a [|b [|]]]; cbn [map]; auto using k_minus_point, k_minus_proper.
  Qed.

  Lemma k_intersect_proper dbg l u s : intersect_proper_interval dbg (tk l) (tk u) (sk s) = res_key sk (intersect_proper_interval dbg l u s).
  Proof.
    unfold intersect_proper_interval. rewrite k_int_proper.
    destruct (interior_split_for_proper_interval dbg l u s) as [[[[[[[t0 t1] t2] t3] t4] t5] s']|]; cbn [pair_key fst snd bind res_key]; auto.
    rewrite (k_merge tine_intersect _ dbg t2 l (k_tintersect dbg)), (k_merge tine_intersect _ dbg t3 u (k_tintersect dbg)).
    destruct (match t2 with Some _ => _ | None => _ end) as [ml|]; cbn [bind res_key]; auto.
    destruct (match t3 with Some _ => _ | None => _ end) as [mu|]; cbn [bind res_key]; auto.
    rewrite k_or_lower, k_or_upper, !k_some_lower, !k_some_upper.
    destruct (debug_assert dbg (map_or_true is_lower_bound ml)); cbn [bind res_key]; auto.
    destruct (debug_assert dbg (map_or_true is_upper_bound mu)); cbn [bind res_key]; auto.
    destruct (is_some_and is_lower_bound t0), (is_some_and is_upper_bound t1), (is_some_and is_lower_bound t4),
      (is_some_and is_upper_bound t5), ml as [ml|], mu as [mu|]; cbn [option_map res_key]; rewrite ?k_insert; reflexivity.
  Qed.
  Lemma k_isect_point dbg s x :
    (do c <- tree_contains dbg (sk s) (f x); Ok (if c then tree_from_raw_interval (Point (f x)) else tree_new))
    = res_key sk (do c <- tree_contains dbg s x; Ok (if c then tree_from_raw_interval (Point x) else tree_new)).
  Proof.
    rewrite k_tree_contains. destruct (tree_contains dbg s x) as [[]|]; reflexivity.
  Qed.
  Lemma k_intersect_in_place dbg s i : tree_intersect_in_place dbg (sk s) (rk i) = res_key sk (tree_intersect_in_place dbg s i).
  Proof.
    unfold tree_intersect_in_place. rewrite k_is_full, k_is_empty, k_tree_is_empty.
    destruct (tree_is_empty s || raw_is_full i); [reflexivity|].
    destruct (raw_is_empty i); [reflexivity|].
    destruct i; try reflexivity; cbn [raw_key tine_from_raw_interval];
      first [ apply k_isect_point
            | match goal with |- _ = res_key _ (intersect_proper_interval _ ?l ?u _) => exact (k_intersect_proper dbg l u s) end ].
  Qed.

  (** ** Operations on two trees *)
  Lemma k_tree_union dbg s o : tree_union dbg (sk s) (sk o) = res_key sk (tree_union dbg s o).
  Proof. unfold tree_union. rewrite k_tree_iter. apply k_fold_iter. intros. apply k_union_in_place. Qed.
  Lemma k_tree_minus dbg s o : tree_minus dbg (sk s) (sk o) = res_key sk (tree_minus dbg s o).
  Proof. unfold tree_minus. rewrite k_tree_iter. apply k_fold_iter. intros. apply k_minus_in_place. Qed.
  Lemma k_segment n dbg i it acc :
    intersect_segment n dbg (rk i) (ik it) (sk acc)
    = res_key (pair_key (pair_key sk ik) (fun b => b)) (intersect_segment n dbg i it acc).
  Proof.
    revert it acc. induction n as [|n IH]; intros it acc; auto. cbn [intersect_segment]. rewrite k_iter_next.
    destruct (iter_next dbg it) as [[[j|] it']|]; cbn [bind res_key nk pair_key fst snd option_map]; auto.
    rewrite k_intersect, k_is_empty. destruct (raw_is_empty (raw_intersect i j)); auto.
    rewrite k_union_in_place. destruct (tree_union_in_place dbg acc (raw_intersect i j)); cbn [bind res_key]; auto.
  Qed.
  Lemma k_tree_intersect dbg s o : tree_intersect dbg (sk s) (sk o) = res_key sk (tree_intersect dbg s o).
  Proof.
    unfold tree_intersect. rewrite !k_tree_iter, k_size. change (@tree_new U) with (sk tree_new).
    generalize (S (iter_size (tree_interval_iter s))) as n. intros n.
    generalize (tree_interval_iter s), (tree_interval_iter o), (@tree_new T).
    induction n as [|n IH]; intros a b acc; auto. cbn [intersect_loop]. rewrite k_iter_next.
    destruct (iter_next dbg a) as [[[j|] a']|]; cbn [bind res_key nk pair_key fst snd option_map]; auto.
    rewrite k_size, k_segment.
    destruct (intersect_segment _ dbg j b acc) as [[[acc' b'] []]|]; cbn [bind res_key pair_key fst snd]; auto.
  Qed.
  Lemma k_tree_enclose dbg s : tree_enclose dbg (sk s) = res_key rk (tree_enclose dbg s).
  Proof.
    destruct s as [|t [|t' s]]; [reflexivity| |].
    - unfold tree_enclose. cbn [map]. rewrite k_pinc, k_tref. destruct (debug_assert _ _); cbn [bind res_key]; auto.
      destruct (tine_as_ref t); reflexivity.
    - unfold tree_enclose. cbn [map]. change (tk t' :: sk s) with (sk (t' :: s)). rewrite k_last.
      destruct (btree_last (t' :: s)); cbn [option_map res_key]; auto. now rewrite !k_inner, k_new.
  Qed.
  Lemma k_tree_closure dbg s : tree_closure dbg (sk s) = res_key rk (tree_closure dbg s).
  Proof. unfold tree_closure. rewrite k_tree_enclose. destruct (tree_enclose dbg s); cbn [bind res_key]; auto. now rewrite k_closure. Qed.
  Lemma k_tree_extend dbg s l : tree_extend dbg (sk s) (map rk l) = res_key sk (tree_extend dbg s l).
  Proof.
    revert s. induction l as [|i l IH]; intros s; auto. cbn [map tree_extend]. rewrite k_union_in_place.
    destruct (tree_union_in_place dbg s i); cbn [bind res_key]; auto.
  Qed.

  (** ** Interval and Selection *)
  Context {FT : FiniteOps T} {FU : FiniteOps U} (HF : finite_by f).
  Notation vk := (interval_key f).

  Lemma k_min : MINIMUM = f MINIMUM. Proof. symmetry. apply HF. Qed.
  Lemma k_max : MAXIMUM = f MAXIMUM. Proof. symmetry. apply HF. Qed.
  Lemma k_pred x : pred (f x) = option_map f (pred x). Proof. symmetry. apply HF. Qed.
  Lemma k_succ x : succ (f x) = option_map f (succ x). Proof. symmetry. apply HF. Qed.

  Lemma k_normalized i : normalized (rk i) = rk (normalized i).
  Proof.
    destruct i; cbn [raw_key normalized]; rewrite ?k_pred, ?k_succ, ?k_min, ?k_max; try reflexivity;
      repeat match goal with |- context [option_map f ?x] => destruct x; cbn [option_map] end; try reflexivity.
  Qed.
  Lemma k_denormalized i : denormalized (rk i) = rk (denormalized i).
  Proof.
    destruct i; cbn [raw_key denormalized]; rewrite ?k_pred, ?k_succ; try reflexivity;
      repeat match goal with |- context [option_map f ?x] => destruct x; cbn [option_map] end; try reflexivity.
  Qed.
  Lemma k_from_raw_interval r : interval_from_raw (rk r) = vk (interval_from_raw r).
  Proof. unfold interval_from_raw, interval_key. now rewrite k_normalized. Qed.
  Lemma k_map_norm l : map (fun r => mkInterval (normalized r)) (map rk l) = map vk (map (fun r => mkInterval (normalized r)) l).
  Proof. rewrite !map_map. apply map_ext. intros r. now rewrite k_normalized. Qed.
  Lemma k_interval_minus i j : interval_minus (vk i) (vk j) = map vk (interval_minus i j).
  Proof. unfold interval_minus. cbn. now rewrite k_minus, k_map_norm. Qed.
  Lemma k_first_or_empty l : first_or_empty (map vk l) = vk (first_or_empty l).
  Proof. now destruct l. Qed.
  Lemma k_from_point x : interval_from_point (f x) = vk (interval_from_point x).
  Proof. reflexivity. Qed.
  Lemma k_interval_next i : interval_next (vk i) = res_key (pair_key (option_map f) vk) (interval_next i).
  Proof.
    unfold interval_next, interval_lower_bound. cbn [interval_key interval_raw]. rewrite k_lower.
    destruct (raw_lower_bound (interval_raw i)) as [[x|x|]|]; cbn [option_map bound_key]; try reflexivity.
    change (mkInterval (rk (interval_raw i))) with (vk i).
    now rewrite k_from_point, k_interval_minus, k_first_or_empty.
  Qed.
  Lemma k_interval_next_back i : interval_next_back (vk i) = res_key (pair_key (option_map f) vk) (interval_next_back i).
  Proof.
    unfold interval_next_back, interval_upper_bound. cbn [interval_key interval_raw]. rewrite k_upper.
    destruct (raw_upper_bound (interval_raw i)) as [[x|x|]|]; cbn [option_map bound_key]; try reflexivity.
    change (mkInterval (rk (interval_raw i))) with (vk i).
    now rewrite k_from_point, k_interval_minus, k_first_or_empty.
  Qed.

  Lemma k_sel_from i : sel_from (vk i) = sk (sel_from i).
  Proof. unfold sel_from. cbn. now rewrite k_denormalized, k_tree_from. Qed.
  Lemma k_sel_full : sel_full = sk sel_full.
  Proof.
    unfold sel_full. rewrite <- k_sel_from. unfold interval_full, interval_key. cbn. now rewrite k_min, k_max.
  Qed.
  Lemma k_sel_extend dbg s l : sel_extend dbg (sk s) (map vk l) = res_key sk (sel_extend dbg s l).
  Proof.
    revert s. induction l as [|i l IH]; intros s; auto. cbn [map sel_extend interval_key interval_raw].
    rewrite k_denormalized, k_union_in_place.
    destruct (tree_union_in_place dbg s _); cbn [bind res_key]; auto.
  Qed.
  Lemma k_sel_next dbg it : sel_next dbg (sel_iter_key f it) = res_key (pair_key (option_map f) (sel_iter_key f)) (sel_next dbg it).
  Proof.
    destruct it as [its cur]. unfold sel_next. cbn [sel_iter_key si_intervals si_current].
    rewrite k_interval_next. destruct (interval_next cur) as [[[x|] cur']|]; cbn [bind res_key pair_key fst snd option_map]; auto.
    rewrite k_iter_next. destruct (iter_next dbg its) as [[[r|] its']|]; cbn [bind nk res_key pair_key fst snd option_map]; auto.
    rewrite k_normalized, k_from_raw_interval, k_interval_next.
    destruct (interval_next (interval_from_raw (normalized r))) as [[[x|] cur'']|]; reflexivity.
  Qed.
  Lemma k_sel_next_back dbg it : sel_next_back dbg (sel_iter_key f it) = res_key (pair_key (option_map f) (sel_iter_key f)) (sel_next_back dbg it).
  Proof.
    destruct it as [its cur]. unfold sel_next_back. cbn [sel_iter_key si_intervals si_current].
    rewrite k_interval_next_back. destruct (interval_next_back cur) as [[[x|] cur']|]; cbn [bind res_key pair_key fst snd option_map]; auto.
    rewrite k_iter_next_back. destruct (iter_next_back dbg its) as [[[r|] its']|]; cbn [bind nk res_key pair_key fst snd option_map]; auto.
    rewrite k_normalized, k_from_raw_interval, k_interval_next_back.
    destruct (interval_next_back (interval_from_raw (normalized r))) as [[[x|] cur'']|]; reflexivity.
  Qed.
  Lemma k_sel_interval_next dbg it : sel_interval_next dbg (ik it) = res_key (pair_key (option_map vk) ik) (sel_interval_next dbg it).
  Proof.
    unfold sel_interval_next. rewrite k_iter_next.
    destruct (iter_next dbg it) as [[[r|] it']|]; cbn [bind nk res_key pair_key fst snd option_map]; auto.
    now rewrite k_normalized, k_from_raw_interval.
  Qed.
  Lemma k_sel_interval_next_back dbg it : sel_interval_next_back dbg (ik it) = res_key (pair_key (option_map vk) ik) (sel_interval_next_back dbg it).
  Proof.
    unfold sel_interval_next_back. rewrite k_iter_next_back.
    destruct (iter_next_back dbg it) as [[[r|] it']|]; cbn [bind nk res_key pair_key fst snd option_map]; auto.
    now rewrite k_normalized, k_from_raw_interval.
  Qed.
  Lemma k_sel_lower dbg s : sel_lower_bound dbg (sk s) = res_key (option_map bk) (sel_lower_bound dbg s).
  Proof.
    unfold sel_lower_bound, sel_interval_iter. rewrite k_tree_iter, k_sel_interval_next.
    destruct (sel_interval_next dbg (tree_interval_iter s)) as [[[i|] it']|]; cbn [bind res_key pair_key fst snd option_map]; auto.
    unfold interval_lower_bound. cbn [interval_key interval_raw]. now rewrite k_lower.
  Qed.
  Lemma k_sel_upper dbg s : sel_upper_bound dbg (sk s) = res_key (option_map bk) (sel_upper_bound dbg s).
  Proof.
    unfold sel_upper_bound, sel_interval_iter. rewrite k_tree_iter, k_sel_interval_next_back.
    destruct (sel_interval_next_back dbg (tree_interval_iter s)) as [[[i|] it']|]; cbn [bind res_key pair_key fst snd option_map]; auto.
    unfold interval_upper_bound. cbn [interval_key interval_raw]. now rewrite k_upper.
  Qed.

  Lemma k_run dbg p : run dbg (prog_key f p) = res_key sk (run dbg p).
  Proof.
    induction p; cbn [prog_key run]; auto.
    - now rewrite k_sel_full.
    - cbn [res_key]. now rewrite k_sel_from.
    - apply (k_sel_extend dbg sel_new).
    - unfold sel_from_points. rewrite map_map.
      rewrite <- (k_sel_extend dbg sel_new), map_map. reflexivity.
    - rewrite IHp. destruct (run dbg p); cbn [bind res_key]; auto. apply k_sel_extend.
    - rewrite IHp. destruct (run dbg p); cbn [bind res_key]; auto. unfold sel_union_in_place. cbn [interval_key interval_raw].
      now rewrite k_denormalized, k_union_in_place.
    - rewrite IHp1. destruct (run dbg p1); cbn [bind res_key]; auto. rewrite IHp2.
      destruct (run dbg p2); cbn [bind res_key]; auto. apply k_tree_union.
    - rewrite IHp. destruct (run dbg p); cbn [bind res_key]; auto. apply k_tree_complement.
    - rewrite IHp1. destruct (run dbg p1); cbn [bind res_key]; auto. rewrite IHp2.
      destruct (run dbg p2); cbn [bind res_key]; auto. apply k_tree_intersect.
    - rewrite IHp. destruct (run dbg p); cbn [bind res_key]; auto. unfold sel_minus_in_place. cbn [interval_key interval_raw].
      now rewrite k_denormalized, k_minus_in_place.
  Qed.

  Lemma k_interval_contains i x : interval_contains (vk i) (f x) = interval_contains i x.
  Proof. apply k_contains. Qed.
  Lemma k_raw_wf r : raw_wf (rk r) <-> raw_wf r.
  Proof. destruct r; cbn; unfold lt; rewrite ?k_cmp; tauto. Qed.
  Lemma k_norm_of r : mkInterval (normalized (rk r)) = vk (mkInterval (normalized r)).
  Proof. unfold interval_key. cbn. now rewrite k_normalized. Qed.

  Lemma k_reach i : reach false i -> reach false (vk i).
  Proof.
    induction 1.
    - unfold interval_new. rewrite <- k_norm_of, <- k_new. now apply R_new.
    - apply R_empty.
    - apply R_point.
    - unfold interval_open. rewrite <- k_norm_of, <- k_open. now apply R_open.
    - unfold interval_left_open. rewrite <- k_norm_of, <- k_left_open. apply R_left_open.
    - unfold interval_right_open. rewrite <- k_norm_of, <- k_right_open. apply R_right_open.
    - unfold interval_closed. rewrite <- k_norm_of, <- k_closed. apply R_closed.
    - unfold interval_left_closed, interval_right_open. rewrite <- k_norm_of, <- k_right_open. apply R_right_open.
    - unfold interval_right_closed, interval_left_open. rewrite <- k_norm_of, <- k_left_open. apply R_left_open.
    - unfold interval_unbounded_from. rewrite <- k_norm_of. apply R_unbounded_from.
    - unfold interval_unbounded_to. rewrite <- k_norm_of. apply R_unbounded_to.
    - unfold interval_unbounded_up_from. rewrite <- k_norm_of. apply R_unbounded_up_from.
    - unfold interval_unbounded_up_to. rewrite <- k_norm_of. apply R_unbounded_up_to.
    - unfold interval_full. rewrite <- k_norm_of. apply R_full.
    - unfold interval_from_raw. rewrite <- k_norm_of. apply R_from_raw; [now apply k_raw_wf|discriminate].
    - apply R_from_point.
    - destruct r; unfold interval_from_range; rewrite <- k_norm_of.
      + rewrite <- k_right_open. apply (R_from_range _ (SRange (f a) (f b))).
      + apply (R_from_range _ (SRangeFrom (f a))).
      + apply (R_from_range _ (SRangeTo (f b))).
      + apply (R_from_range _ (SRangeToInclusive (f b))).
      + apply (R_from_range _ SRangeFull).
    - unfold interval_intersect. rewrite <- k_from_raw_interval, <- k_normalized, <- k_intersect. exact (R_intersect _ (vk i) (vk j) IHreach1 IHreach2).
    - unfold interval_enclose. rewrite <- k_from_raw_interval, <- k_normalized, <- k_enclose. exact (R_enclose _ (vk i) (vk j) IHreach1 IHreach2).
    - unfold interval_closure. rewrite <- k_from_raw_interval, <- k_normalized, <- k_closure. exact (R_closure _ (vk i) IHreach).
    - apply (R_union _ (vk i) (vk j)); auto. unfold interval_union in *. cbn. rewrite k_union, k_map_norm. now apply in_map.
    - apply (R_minus _ (vk i) (vk j)); auto. rewrite k_interval_minus. now apply in_map.
    - apply (R_complement _ (vk i)); auto. unfold interval_complement in *. cbn. rewrite k_complement, k_map_norm. now apply in_map.
  Qed.
  Lemma k_reach_all l : Forall (reach false) l -> Forall (reach false) (map vk l).
  Proof. induction 1; cbn; constructor; auto using k_reach. Qed.
  Lemma k_inputs p : inputs false p -> inputs false (prog_key f p).
  Proof. induction p; cbn; intuition auto using k_reach, k_reach_all. Qed.
  Lemma k_boolean p : boolean p -> boolean (prog_key f p).
  Proof. induction p; cbn; tauto. Qed.
  Lemma k_some l x : some_icontains (map vk l) (f x) <-> some_icontains l x.
  Proof.
    unfold some_icontains. split.
    - intros (i & Hi & E). apply in_map_iff in Hi as (j & <- & Hj). rewrite k_interval_contains in E. eauto.
    - intros (i & Hi & E). exists (vk i). rewrite k_interval_contains. auto using in_map.
  Qed.

  (** A drained iterator, seen through the keys. *)
  Lemma k_drains {S S' A A'} (n : S -> res (option A * S)) (n' : S' -> res (option A' * S')) (g : A -> A') (h : S -> S')
    (Hn : forall s, n' (h s) = res_key (pair_key (option_map g) h) (n s)) s l :
    drains n s l -> drains n' (h s) (map g l).
  Proof.
    induction 1 as [it it' E|it it' a l E _ IH]; cbn.
    - apply (drains_nil _ _ (h it')). now rewrite Hn, E.
    - apply (drains_cons _ _ (h it')); auto. now rewrite Hn, E.
  Qed.
End PKey.

(** * Counting the ends of a tree's intervals *)
From Coq Require Import List Bool Lia Arith.
From Verif Require Import Base OrdFacts Pos PFinite MBound MRaw MNormalize MTine MBTree MTineTree MInterval MSelection
  Spec Spec_Tree Spec_Sel Spec_More PRaw PRaw2 PNorm PIter PInterval PBTree PTree PTreeOps PTreeIsect PTree2 PTree3 PTree4 PTree5 PTree6 PTree7
  PSel PSel2 Properties_Selection Properties_Tree2.
Import ListNotations.

Section Measure.
  Context {T : Type} {O : Cmp T} (m : Tine T -> nat).
  Implicit Types (t : Tine T) (s : list (Tine T)).
  Fixpoint sum s : nat := match s with [] => 0 | t :: s => m t + sum s end.
  Definition osum (o : option (Tine T)) : nat := match o with Some t => m t | None => 0 end.

  Context (m_union : forall a b c, tine_union_match a b = Ok (Some c) -> m c <= m a + m b)
          (m_minus : forall a b c, tine_minus_match a b = Ok (Some c) -> m c <= m a + m b)
          (m_invert : forall a b, tine_invert a = Ok b -> m b <= m a).

  Lemma sum_insert t s : sum (btree_insert t s) <= m t + sum s.
  Proof. induction s as [|x s IH]; simpl; [lia|]. destruct (tine_cmp t x); simpl; lia. Qed.
  Lemma sum_take t s : forall r s', btree_take t s = (r, s') -> osum r + sum s' = sum s.
  Proof.
    induction s as [|x s IH]; simpl; intros r s'; [intros [= <- <-]; reflexivity|].
    destruct (tine_cmp t x); [intros [= <- <-]; reflexivity..|].
    destruct (btree_take t s) as [r' s''] eqn:E. intros [= <- <-]. specialize (IH _ _ eq_refl). simpl. lia.
  Qed.
  Lemma sum_split t s : forall a b, btree_split_off t s = (a, b) -> sum a + sum b = sum s.
  Proof.
    induction s as [|x s IH]; simpl; intros a b; [intros [= <- <-]; reflexivity|].
    destruct (tine_cmp t x); [intros [= <- <-]; reflexivity..|].
    destruct (btree_split_off t s) as [a' b'] eqn:E. intros [= <- <-]. specialize (IH _ _ eq_refl). simpl. lia.
  Qed.
  Lemma sum_append a : forall b, sum (btree_append a b) <= sum a + sum b.
  Proof.
    induction a as [|x a IH]; [intros [|y b]; simpl; lia|].
    induction b as [|y b IHb]; [simpl; lia|]. cbn [btree_append]. destruct (tine_cmp x y).
    - specialize (IH b). simpl. lia.
    - specialize (IH (y :: b)). simpl in *. lia.
    - simpl in *. lia.
  Qed.
  Lemma sum_sort_insert t s : sum (sort_insert t s) = m t + sum s.
  Proof. induction s as [|x s IH]; simpl; [lia|]. destruct (tine_cmp t x); simpl; lia. Qed.
  Lemma sum_sort s : sum (stable_sort s) = sum s.
  Proof. induction s as [|x s IH]; simpl; auto. rewrite sum_sort_insert. lia. Qed.
  Lemma sum_dedup s : sum (dedup s) <= sum s.
  Proof.
    induction s as [|x s IH]; simpl; auto. destruct s as [|y s]; [simpl; lia|].
    destruct (tine_eqb x y); cbn [sum] in *; lia.
  Qed.
  Lemma sum_collect s : sum (btree_collect s) <= sum s.
  Proof. unfold btree_collect. rewrite sum_dedup, sum_sort. lia. Qed.
  Lemma sum_from i : sum (tree_from_raw_interval i) <= sum (tine_from_raw_interval i).
  Proof. apply sum_collect. Qed.

  Ltac chop := repeat match goal with
    | H : bind ?r _ = Ok _ |- _ => destruct r eqn:?; cbn [bind] in H; [|discriminate H]
    | H : Ok _ = Ok _ |- _ => injection H as H; subst
    | H : Panic = Ok _ |- _ => discriminate H
    end.
  Ltac weigh := repeat match goal with
    | |- context [sum (btree_insert ?t ?s)] => let H := fresh in pose proof (sum_insert t s) as H; revert H; generalize (sum (btree_insert t s))
    | H : context [sum (btree_insert ?t ?s)] |- _ => let K := fresh in pose proof (sum_insert t s) as K; revert H K; generalize (sum (btree_insert t s))
    end; intros; lia.

  Lemma merged_union dbg o b r : match o with Some a => tine_union dbg a b | None => Ok (Some b) end = Ok r -> osum r <= osum o + m b.
  Proof.
    destruct o as [a|]; simpl; [|intros [= <-]; simpl; lia]. unfold tine_union. intros H. chop.
    destruct r as [c|]; simpl; [|lia]. now apply m_union.
  Qed.
  Lemma merged_minus dbg o b r : match o with Some a => tine_minus dbg a b | None => Ok (Some b) end = Ok r -> osum r <= osum o + m b.
  Proof.
    destruct o as [a|]; simpl; [|intros [= <-]; simpl; lia]. unfold tine_minus. intros H. chop.
    destruct r as [c|]; simpl; [|lia]. now apply m_minus.
  Qed.

  Lemma ext_point t s : forall a r b s', exterior_split_for_point_interval t s = ((a, r, b), s') -> osum r + sum s' <= sum s.
  Proof.
    unfold exterior_split_for_point_interval. destruct (btree_take t s) as [r1 s1] eqn:E1. destruct (btree_split_off t s1) as [l r2] eqn:E2.
    intros a r b s' [= _ <- _ <-]. pose proof (sum_take _ _ _ _ E1). pose proof (sum_split _ _ _ _ E2). pose proof (sum_append l r2). lia.
  Qed.
  Lemma ext_proper l u s : forall a r r' b s', exterior_split_for_proper_interval l u s = ((a, r, r', b), s') ->
    osum r + osum r' + sum s' <= sum s.
  Proof.
    unfold exterior_split_for_proper_interval. destruct (btree_take l s) as [r1 s1] eqn:E1. destruct (btree_take u s1) as [r2 s2] eqn:E2.
    destruct (btree_split_off l s2) as [x y] eqn:E3. destruct (btree_split_off u y) as [y1 y2] eqn:E4.
    intros a r r' b s' [= _ <- <- _ <-]. pose proof (sum_take _ _ _ _ E1). pose proof (sum_take _ _ _ _ E2).
    pose proof (sum_split _ _ _ _ E3). pose proof (sum_split _ _ _ _ E4). pose proof (sum_append x y2). lia.
  Qed.

  Lemma sum_union_in_place dbg s i s' : tree_union_in_place dbg s i = Ok s' -> sum s' <= sum s + sum (tine_from_raw_interval i).
  Proof.
    unfold tree_union_in_place. destruct (raw_is_full i) eqn:Ef.
    { intros [= <-]. destruct i; try discriminate. pose proof (sum_from Full). lia. }
    clear Ef. destruct (tine_from_raw_interval i) as [|p [|u [|? ?]]]; intros H; chop; simpl; try lia.
    - unfold union_point_interval in H. destruct (exterior_split_for_point_interval p s) as [[[t0 t1] t2] s1] eqn:E.
      apply ext_point in E. chop. apply merged_union in Heqr. destruct a as [q|]; chop; [|lia]. simpl in Heqr.
      destruct (is_some_and _ _), (is_some_and _ _); chop; weigh.
    - unfold union_proper_interval in H. destruct (exterior_split_for_proper_interval p u s) as [[[[t0 t1] t2] t3] s1] eqn:E.
      apply ext_proper in E. chop. apply merged_union in Heqr, Heqr0.
      destruct (is_some_and is_lower_bound t0), a as [l1|], a0 as [u1|], (is_some_and is_upper_bound t3); chop; simpl in *;
        repeat match goal with |- context [if ?c then _ else _] => destruct c | H : context [if ?c then _ else _] |- _ => destruct c end; try lia; try weigh.
  Qed.

  Lemma sum_minus_in_place dbg s i s' : tree_minus_in_place dbg s i = Ok s' -> sum s' <= sum s + sum (tine_from_raw_interval i).
  Proof.
    unfold tree_minus_in_place. destruct (_ || _); [intros [= <-]; lia|]. destruct (raw_is_full i) eqn:Ef; [intros [= <-]; simpl; lia|].
    clear Ef. destruct (tine_from_raw_interval i) as [|p [|u [|? ?]]]; intros H; chop; simpl; try lia.
    - unfold minus_point_interval in H. destruct (exterior_split_for_point_interval p s) as [[[t0 t1] t2] s1] eqn:E.
      apply ext_point in E. chop. apply merged_minus in Heqr. destruct a as [q|]; chop; [|lia]. simpl in Heqr.
      destruct (is_some_and _ _), (is_some_and _ _); chop; try lia; try weigh. apply m_invert in Heqr0. weigh.
    - unfold minus_proper_interval in H. destruct (exterior_split_for_proper_interval p u s) as [[[[t0 t1] t2] t3] s1] eqn:E.
      apply ext_proper in E. chop. apply merged_minus in Heqr, Heqr0.
      assert (Up : forall a b, as_upper a = Ok b -> m b <= m a) by (unfold as_upper; intros a' b'; destruct (is_upper_bound a'); [intros [= <-]; lia|apply m_invert]).
      assert (Lo : forall a b, as_lower a = Ok b -> m b <= m a) by (unfold as_lower; intros a' b'; destruct (is_lower_bound a'); [intros [= <-]; lia|apply m_invert]).
      destruct (is_some_and is_lower_bound t0), a as [l1|], a0 as [u1|], (is_some_and is_upper_bound t3); chop;
        repeat match goal with H : as_upper _ = Ok _ |- _ => apply Up in H | H : as_lower _ = Ok _ |- _ => apply Lo in H end;
        repeat match goal with |- context [match ?c with _ => _ end] => destruct c | H : context [if ?c then _ else _] |- _ => destruct c end;
        simpl in *; try lia; try weigh.
  Qed.

  Lemma sum_first s : osum (btree_first s) + sum (btree_rest_front s) = sum s.
  Proof. now destruct s. Qed.
  Lemma sum_last s : osum (btree_last s) + sum (btree_rest_back s) = sum s.
  Proof. induction s as [|x [|y s] IH]; simpl in *; lia. Qed.

  (** Complement: [k] is what the infinite ends weigh. *)
  Lemma sum_complement dbg s s' k : m (TLower Infinite) <= k -> m (TUpper Infinite) <= k ->
    tree_complement dbg s = Ok s' -> sum s' <= sum s + 2 * k.
  Proof.
    intros KL KU. assert (R : forall l c c', complement_rest l c = Ok c' -> sum c' <= sum c + sum l).
    { induction l as [|t l IH]; simpl; intros c c' H; chop; [lia|]. apply m_invert in Heqr. apply IH in H. pose proof (sum_insert a c). lia. }
    destruct s as [|t [|t' s]].
    - intros [= <-]. pose proof (sum_from Full). simpl in *. lia.
    - intros H. unfold tree_complement in H. chop. apply m_invert in Heqr.
      pose proof (sum_insert (TUpper Infinite) (btree_insert a (btree_insert (TLower Infinite) tree_new))).
      pose proof (sum_insert a (btree_insert (TLower Infinite) tree_new)). pose proof (sum_insert (TLower Infinite) tree_new). simpl in *. lia.
    - intros H. cbn [tree_complement] in H. remember (t' :: s) as it. clear Heqit.
      destruct (match t with TLower Infinite => Ok tree_new | _ => do t'0 <- tine_invert t; Ok (btree_insert t'0 (btree_insert (TLower Infinite) tree_new)) end) as [c1|] eqn:E1;
        [|discriminate]. cbn [bind] in H.
      assert (S1 : sum c1 <= m t + k).
      { assert (J : forall a, tine_invert t = Ok a -> sum (btree_insert a (btree_insert (TLower Infinite) tree_new)) <= m t + k).
        { intros a Ha. apply m_invert in Ha. pose proof (sum_insert a (btree_insert (TLower Infinite) tree_new)). pose proof (sum_insert (TLower Infinite) tree_new). simpl in *. lia. }
        clear H. destruct t as [[]|[]|[]]; cbn [bind tine_invert] in E1; try discriminate E1; injection E1 as <-; try exact (J _ eq_refl); simpl; lia. }
      pose proof (sum_last it) as L. destruct (btree_last it) as [t2|]; [|discriminate H]. simpl in L.
      destruct (match t2 with TUpper Infinite => Ok c1 | _ => do t'0 <- tine_invert t2; Ok (btree_insert t'0 (btree_insert (TUpper Infinite) c1)) end) as [c2|] eqn:E2.
      2:{ exfalso. destruct t2 as [[]|[]|[]]; cbn in *; discriminate. }
      assert (S2 : sum c2 <= sum c1 + m t2 + k).
      { assert (J : forall a, tine_invert t2 = Ok a -> sum (btree_insert a (btree_insert (TUpper Infinite) c1)) <= sum c1 + m t2 + k).
        { intros a Ha. apply m_invert in Ha. pose proof (sum_insert a (btree_insert (TUpper Infinite) c1)). pose proof (sum_insert (TUpper Infinite) c1). lia. }
        clear H. destruct t2 as [[]|[]|[]]; cbn [bind tine_invert] in E2; try discriminate E2; injection E2 as <-; try exact (J _ eq_refl); lia. }
      assert (H' : complement_rest (btree_rest_back it) c2 = Ok s').
      { clear - H E2. destruct t2 as [[]|[]|[]]; cbn [bind tine_invert] in *; try discriminate E2; injection E2 as <-; exact H. }
      apply R in H'. cbn [sum]. lia.
  Qed.
End Measure.

Section Weights.
  Context {T : Type} {O : Ord T}.
  Implicit Types (t : Tine T) (s : list (Tine T)) (i j k : RawInterval T) (A B l : list (RawInterval T)).

  (** All ends; a point tine is two of them. *)
  Definition wt t : nat := match t with TPoint _ => 2 | _ => 1 end.
  (** The finite ends. *)
  Definition et t : nat := match t with TPoint _ => 2 | TLower Infinite | TUpper Infinite => 0 | _ => 1 end.

  Lemma wt_union (a b c : Tine T) : tine_union_match a b = Ok (Some c) -> wt c <= wt a + wt b.
  Proof. destruct a as [[]|[]|[]], b as [[]|[]|[]]; simpl; intros H; try discriminate; injection H as <-; simpl; lia. Qed.
  Lemma wt_minus (a b c : Tine T) : tine_minus_match a b = Ok (Some c) -> wt c <= wt a + wt b.
  Proof. destruct a as [[]|[]|[]], b as [[]|[]|[]]; simpl; intros H; try discriminate; injection H as <-; simpl; lia. Qed.
  Lemma wt_invert (a b : Tine T) : tine_invert a = Ok b -> wt b <= wt a.
  Proof. destruct a as [[]|[]|[]]; simpl; intros H; try discriminate; injection H as <-; simpl; lia. Qed.
  Lemma et_union (a b c : Tine T) : tine_union_match a b = Ok (Some c) -> et c <= et a + et b.
  Proof. destruct a as [[]|[]|[]], b as [[]|[]|[]]; simpl; intros H; try discriminate; injection H as <-; simpl; lia. Qed.
  Lemma et_minus (a b c : Tine T) : tine_minus_match a b = Ok (Some c) -> et c <= et a + et b.
  Proof. destruct a as [[]|[]|[]], b as [[]|[]|[]]; simpl; intros H; try discriminate; injection H as <-; simpl; lia. Qed.
  Lemma et_invert (a b : Tine T) : tine_invert a = Ok b -> et b <= et a.
  Proof. destruct a as [[]|[]|[]]; simpl; intros H; try discriminate; injection H as <-; simpl; lia. Qed.

  Lemma wt_raw i : sum wt (tine_from_raw_interval i) <= 2.
  Proof. destruct i; simpl; lia. Qed.
  Lemma et_raw i : sum et (tine_from_raw_interval i) <= 2.
  Proof. destruct i; simpl; lia. Qed.

  Lemma wt_pieces s : forall o, chain (has o) s false = true -> 2 * length (pieces o s) = sum wt s + (if has o then 1 else 0).
  Proof.
    induction s as [|t s IH]; intros o H.
    - destruct o; simpl in *; [discriminate|reflexivity].
    - apply chain_cons in H as (K & U & C). destruct o as [l|]; simpl in U.
      + cbn [pieces length sum has]. destruct t as [b|[]|b]; simpl in *; try discriminate; (rewrite Nat.mul_succ_r || idtac).
        * specialize (IH (Some (TPoint (Exclude x))) C). simpl in *. lia.
        * specialize (IH None C). simpl in *. lia.
      + cbn [pieces has]. destruct t as [b|[]|b]; simpl in *; try discriminate.
        * specialize (IH (Some (TLower b)) C). simpl in *. lia.
        * specialize (IH None C). simpl in *. lia.
  Qed.
  Lemma wf_pieces s : wf s -> 2 * length (pieces None s) = sum wt s.
  Proof. intros [_ H]. rewrite (wt_pieces s None H). simpl. lia. Qed.

  (** The finite ends of an interval. *)
  Definition fin (o : option (Bound T)) : nat := match o with Some (Include _) | Some (Exclude _) => 1 | _ => 0 end.
  Definition lo i : nat := fin (raw_lower_bound i).
  Definition up i : nat := fin (raw_upper_bound i).
  Lemma et_lo_up i : sum et (tine_from_raw_interval i) = lo i + up i.
  Proof. destruct i; reflexivity. Qed.
  Fixpoint ends l : nat := match l with [] => 0 | i :: l => lo i + up i + ends l end.

  Lemma ends_new (a b : Bound T) : lo (raw_new a b) + up (raw_new a b) <= fin (Some a) + fin (Some b).
  Proof.
    destruct a, b; simpl; unfold raw_open, raw_left_open, raw_right_open, raw_closed, lo, up;
      repeat match goal with |- context [match ?c with _ => _ end] => destruct c end; simpl; lia.
  Qed.
  Lemma et_pieces s : forall o, chain (has o) s false = true ->
    ends (pieces o s) <= sum et s + match o with Some t => fin (Some (tine_into_inner t)) | None => 0 end.
  Proof.
    induction s as [|t s IH]; intros o H; [simpl; lia|].
    apply chain_cons in H as (K & U & C). destruct o as [l|]; simpl in U.
    - cbn [pieces ends sum]. pose proof (ends_new (tine_into_inner l) (tine_into_inner t)).
      destruct t as [b|[]|b]; simpl in *; try discriminate.
      + specialize (IH (Some (TPoint (Exclude x))) C). simpl in *. lia.
      + specialize (IH None C). destruct b; simpl in *; lia.
    - cbn [pieces]. destruct t as [b|[]|b]; simpl in *; try discriminate.
      + specialize (IH (Some (TLower b)) C). destruct b; simpl in *; lia.
      + specialize (IH None C). unfold lo, up. simpl in *. lia.
  Qed.
  Lemma wf_ends s : wf s -> ends (pieces None s) <= sum et s.
  Proof. intros [_ H]. pose proof (et_pieces s None H) as K. simpl in K. lia. Qed.

  (** Only the first interval can be unbounded below, only the last above. *)
  Inductive inner : list (RawInterval T) -> Prop :=
  | inner_nil : inner []
  | inner_cons i l : inner l -> (l <> [] -> up i = 1) -> Forall (fun j => lo j = 1) l -> inner (i :: l).
  Lemma sep_ends i j : separated i j -> up i = 1 /\ lo j = 1.
  Proof.
    unfold separated, up, lo. destruct (raw_upper_bound i) as [[]|]; try tauto; destruct (raw_lower_bound j) as [[]|]; simpl; tauto.
  Qed.
  Lemma sorted_inner l : Sorted.StronglySorted separated l -> inner l.
  Proof.
    induction 1 as [|i l S IH H]; constructor; auto.
    - destruct l as [|j l]; [congruence|]. intros _. apply (sep_ends i j). now inversion H.
    - rewrite Forall_forall in *. intros j Hj. now apply (sep_ends i j), H.
  Qed.
  Lemma wf_inner s : wf s -> inner (pieces None s).
  Proof. intros W. now apply sorted_inner, pieces_sorted. Qed.

  Lemma lo_le i : lo i <= 1.
  Proof. unfold lo, fin. destruct (raw_lower_bound i) as [[]|]; lia. Qed.
  Lemma up_le i : up i <= 1.
  Proof. unfold up, fin. destruct (raw_upper_bound i) as [[]|]; lia. Qed.

  Lemma inner_length l : inner l -> 2 * length l <= ends l + 2.
  Proof.
    assert (K : forall l, inner l -> Forall (fun j => lo j = 1) l -> 2 * length l <= ends l + 1).
    { induction 1 as [|i l' I IH U L]; simpl; [lia|]. intros F. inversion F; subst. specialize (IH L).
      destruct l' as [|j l']; [simpl in *; lia|]. rewrite (U ltac:(discriminate)). lia. }
    destruct 1 as [|i l' I U L]; simpl; [lia|]. specialize (K l' I L).
    destruct l' as [|j l']; [simpl in *; lia|]. rewrite (U ltac:(discriminate)). lia.
  Qed.

  (** Every interval in the list has [f] zero, or not. *)
  Definition any (f : RawInterval T -> nat) l : nat := if existsb (fun i => Nat.ltb 0 (f i)) l then 1 else 0.
  Lemma any_cons f i l : (forall i, f i <= 1) -> any f (i :: l) = Nat.max (f i) (any f l).
  Proof.
    intros H. unfold any. simpl. specialize (H i). destruct (f i) as [|[|]]; try lia; simpl; auto. destruct (existsb _ l); auto.
  Qed.
  Lemma any_ends l : any lo l + any up l <= ends l.
  Proof.
    induction l as [|i l IH]; [reflexivity|]. rewrite !any_cons by (auto using lo_le, up_le). simpl. lia.
  Qed.

  Lemma isect_ends i j : raw_is_empty (raw_intersect i j) = false ->
    lo (raw_intersect i j) <= Nat.max (lo i) (lo j) /\ up (raw_intersect i j) <= Nat.max (up i) (up j).
  Proof.
    intros H. pose proof (lo_le (raw_intersect i j)) as L1. pose proof (up_le (raw_intersect i j)) as L2.
    destruct i, j; simpl in *; try discriminate; unfold lo, up in *; simpl in *; try lia.
    all: repeat (unfold raw_intersect, raw_new, raw_open, raw_left_open, raw_right_open, raw_closed, greatest_intersect, least_intersect in *; simpl in *;
      match goal with |- context [match ?c with _ => _ end] => destruct c end); simpl in *; try lia.
  Qed.

  Lemma ends_walked B : forall A, inner B -> Forall (fun j => lo j = 1) B -> ends (walked A B) <= ends B + any up A.
  Proof.
    induction B as [|j B IH]; intros [|i A] I F; simpl; try lia. inversion I as [|? ? I' U L]; subst. inversion F; subst.
    rewrite any_cons by apply up_le. destruct (raw_is_empty (raw_intersect i j)) eqn:E.
    - specialize (IH A I' L). lia.
    - cbn [ends]. pose proof (isect_ends i j E) as [E1 E2]. specialize (IH (i :: A) I' L). rewrite any_cons in IH by apply up_le.
      pose proof (lo_le i). pose proof (lo_le (raw_intersect i j)). pose proof (up_le (raw_intersect i j)).
      destruct B as [|j' B]; [simpl in *; lia|]. rewrite (U ltac:(discriminate)) in *. lia.
  Qed.
  Lemma ends_walked_all A B : inner B -> ends (walked A B) <= ends A + ends B.
  Proof.
    intros I. pose proof (any_ends A). destruct B as [|j B]; [destruct A; simpl; lia|]. destruct A as [|i A]; [simpl; lia|].
    inversion I as [|? ? I' U L]; subst. cbn [walked]. destruct (raw_is_empty (raw_intersect i j)) eqn:E.
    - pose proof (ends_walked B A I' L). rewrite !any_cons in H by (auto using lo_le, up_le). cbn [ends] in *. lia.
    - pose proof (ends_walked B (i :: A) I' L). pose proof (isect_ends i j E) as [E1 E2]. cbn [ends].
      rewrite !any_cons in * by (auto using lo_le, up_le).
      pose proof (lo_le (raw_intersect i j)). pose proof (up_le (raw_intersect i j)). pose proof (lo_le i). pose proof (up_le i).
      destruct B as [|j' B]; [simpl in *; lia|]. rewrite (U ltac:(discriminate)) in *. simpl in *. lia.
  Qed.

  Lemma sum_extend m : (forall a b c, tine_union_match a b = Ok (Some c) -> m c <= m a + m b) ->
    forall dbg l s s', tree_extend dbg s l = Ok s' -> sum m s' <= sum m s + list_sum (map (fun i => sum m (tine_from_raw_interval i)) l).
  Proof.
    intros Hm dbg. induction l as [|i l IH]; simpl; intros s s' H; [injection H as <-; lia|].
    destruct (tree_union_in_place dbg s i) as [s1|] eqn:E; [|discriminate]. simpl in H.
    apply (sum_union_in_place m Hm) in E. apply IH in H. lia.
  Qed.
  Lemma ends_sum l : list_sum (map (fun i => sum et (tine_from_raw_interval i)) l) = ends l.
  Proof. induction l as [|i l IH]; simpl; auto. now rewrite et_lo_up, IH. Qed.
  Lemma wt_sum l : list_sum (map (fun i => sum wt (tine_from_raw_interval i)) l) <= 2 * length l.
  Proof. induction l as [|i l IH]; simpl; auto. pose proof (wt_raw i). lia. Qed.

  Lemma et_tree_union dbg a b s : wf b -> tree_union dbg a b = Ok s -> sum et s <= sum et a + sum et b.
  Proof.
    intros W H. unfold tree_union in H. rewrite tree_fold_pieces, mfold_extend in H by auto.
    apply (sum_extend et et_union) in H. rewrite ends_sum in H. pose proof (wf_ends b W). lia.
  Qed.
  Lemma wt_tree_union dbg a b s : wf b -> tree_union dbg a b = Ok s -> sum wt s <= sum wt a + sum wt b.
  Proof.
    intros W H. unfold tree_union in H. rewrite tree_fold_pieces, mfold_extend in H by auto.
    apply (sum_extend wt wt_union) in H. pose proof (wt_sum (pieces None b)). pose proof (wf_pieces b W). lia.
  Qed.
  Lemma isect_as_collect dbg a b s : wf a -> wf b -> tree_intersect dbg a b = Ok s ->
    tree_from_iter dbg (walked (pieces None a) (pieces None b)) = Ok s.
  Proof.
    intros Wa Wb H. destruct (tree_intersect_walk dbg a b Wa Wb) as (r & E & W & D).
    destruct (from_iter_ok dbg _ (walked_wf (pieces None a) (pieces None b))) as (r' & E' & W' & D').
    rewrite E'. rewrite E in H. injection H as <-. f_equal. apply den_ext; auto. intros p. now rewrite D, D'.
  Qed.
  Lemma et_tree_intersect dbg a b s : wf a -> wf b -> tree_intersect dbg a b = Ok s -> sum et s <= sum et a + sum et b.
  Proof.
    intros Wa Wb H. apply isect_as_collect in H; auto. unfold tree_from_iter in H. apply (sum_extend et et_union) in H.
    rewrite ends_sum in H. pose proof (ends_walked_all (pieces None a) (pieces None b) (wf_inner b Wb)).
    pose proof (wf_ends a Wa). pose proof (wf_ends b Wb). simpl in H. lia.
  Qed.
  Lemma walked_length B : forall A, length (walked A B) <= length B.
  Proof. induction B as [|j B IH]; intros [|i A]; simpl; try lia. destruct (raw_is_empty _); simpl; [specialize (IH A)|specialize (IH (i :: A))]; lia. Qed.
  Lemma wt_tree_intersect dbg a b s : wf a -> wf b -> tree_intersect dbg a b = Ok s -> sum wt s <= sum wt b.
  Proof.
    intros Wa Wb H. apply isect_as_collect in H; auto. unfold tree_from_iter in H. apply (sum_extend wt wt_union) in H.
    pose proof (wt_sum (walked (pieces None a) (pieces None b))). pose proof (walked_length (pieces None b) (pieces None a)).
    pose proof (wf_pieces b Wb). simpl in H. lia.
  Qed.
End Weights.

(** ** Any tree, well-formed or not *)
Section AnyTree.
  Context {T : Type} {O : Cmp T}.
  Implicit Types (t : Tine T) (s : list (Tine T)) (it : Iter T).
  Definition has1 (o : option (Tine T)) : nat := match o with Some _ => 1 | None => 0 end.
  Definition wit it : nat := sum wt (tine_iter it) + has1 (saved_lower it) + has1 (saved_upper it).

  Lemma wt_pos t : 1 <= wt t.
  Proof. destruct t; simpl; lia. Qed.
  Lemma wit_next dbg it i it' : iter_next dbg it = Ok (Some i, it') -> wit it' + 2 <= wit it \/
    (exists t, saved_lower it = Some t /\ is_point_include t = true) \/ exists t, saved_upper it = Some t.
  Proof.
    unfold iter_next, wit. destruct it as [ts sl su]; cbn [tine_iter saved_lower saved_upper].
    destruct su as [tu|]; [eauto|]. intros H.
    assert (P : forall t, sl = Some t -> is_point_include t = true -> wit it' + 2 <= sum wt ts + has1 sl + 0 \/ (exists t, sl = Some t /\ is_point_include t = true) \/ (exists t, @None (Tine T) = Some t)) by eauto.
    destruct sl as [t|].
    - destruct (is_point_include t) eqn:E; [right; left; eauto|]. left.
      destruct t as [[]|[]|[]]; try discriminate E; cbn [bind] in H;
        (destruct (debug_assert dbg _); [|discriminate H]); cbn [bind] in H;
        (destruct ts as [|u ts]; [discriminate H|]); cbn [btree_first btree_rest_front] in H;
        (destruct (debug_assert dbg (is_upper_bound u)); [|discriminate H]); cbn [bind] in H;
        injection H as _ <-; cbn [tine_iter saved_lower saved_upper sum has1]; pose proof (wt_pos u);
        destruct u as [[]|[]|[]]; simpl in *; lia.
    - left. destruct ts as [|t ts]; [discriminate H|]. cbn [btree_first btree_rest_front] in H.
      destruct t as [[]|[]|[]]; cbn [bind] in H;
        try (injection H as _ <-; cbn [tine_iter saved_lower saved_upper sum has1 wt]; lia);
        (destruct (debug_assert dbg _); [|discriminate H]); cbn [bind] in H;
        (destruct ts as [|u ts]; [discriminate H|]); cbn [btree_first btree_rest_front] in H;
        (destruct (debug_assert dbg (is_upper_bound u)); [|discriminate H]); cbn [bind] in H;
        injection H as _ <-; cbn [tine_iter saved_lower saved_upper sum has1]; pose proof (wt_pos u);
        destruct u as [[]|[]|[]]; simpl in *; lia.
  Qed.
  (** States reached from [interval_iter] by [next]. *)
  Definition fwd it : Prop := saved_upper it = None /\ forall t, saved_lower it = Some t -> is_point_include t = false.
  Lemma fwd_next dbg it i it' : fwd it -> iter_next dbg it = Ok (Some i, it') -> fwd it' /\ wit it' + 2 <= wit it.
  Proof.
    intros [U L] H. split.
    - revert H. unfold iter_next. destruct it as [ts sl su]; cbn [tine_iter saved_lower saved_upper] in *. subst su.
      destruct (match sl with Some t => (Some t, ts) | None => (btree_first ts, btree_rest_front ts) end) as [f ts'].
      destruct f as [t|]; [|discriminate].
      assert (K : (do _ <- debug_assert dbg (is_lower_bound t);
        let '(second, ts'0, su') := match btree_first ts' with Some t0 => (Some t0, btree_rest_front ts', None) | None => (None, ts', None) end in
        match second with
        | None => Panic
        | Some upper => let sl' := if is_point_exclude upper then Some upper else None in
            do _ <- debug_assert dbg (is_upper_bound upper);
            Ok (Some (raw_new (tine_into_inner t) (tine_into_inner upper)), {| tine_iter := ts'0; saved_lower := sl'; saved_upper := su' |})
        end) = Ok (Some i, it') -> fwd it').
      { destruct (debug_assert dbg (is_lower_bound t)); [|discriminate]. cbn [bind]. destruct ts' as [|u ts']; [discriminate|]. cbn [btree_first btree_rest_front].
        destruct (debug_assert dbg (is_upper_bound u)); [|discriminate]. cbn [bind]. intros [= _ <-]. split; auto. cbn [saved_lower].
        destruct (is_point_exclude u) eqn:E; [|discriminate]. intros w [= <-]. now destruct u as [[]|[]|[]]. }
      destruct t as [[]|[]|[]]; try exact K. intros [= _ <-]. split; auto. discriminate.
    - destruct (wit_next dbg it i it' H) as [K|[(t & E & K)|(t & K)]]; auto.
      + rewrite (L t E) in K. discriminate.
      + congruence.
  Qed.
  Lemma fwd_start s : fwd (tree_interval_iter s).
  Proof. split; [reflexivity|discriminate]. Qed.

  Lemma drains_wt dbg it l : drains (iter_next dbg) it l -> fwd it -> 2 * length l <= wit it.
  Proof.
    induction 1 as [it it' E|it it' i l E D IH]; intros K; [simpl; lia|].
    destruct (fwd_next dbg it i it' K E) as [K' L]. specialize (IH K'). simpl. lia.
  Qed.
  Lemma any_tree_wt dbg s l : drains (iter_next dbg) (tree_interval_iter s) l -> 2 * length l <= sum wt s.
  Proof. intros H. pose proof (drains_wt dbg _ _ H (fwd_start s)) as K. unfold wit in K. simpl in K. lia. Qed.

  Lemma fold_wt dbg (f : TineTree T -> RawInterval T -> res (TineTree T)) :
    (forall s i s', f s i = Ok s' -> sum wt s' <= sum wt s + 2) ->
    forall n it s s', fwd it -> iter_fold_fuel n dbg f it s = Ok s' -> sum wt s' <= sum wt s + wit it.
  Proof.
    intros Hf. induction n as [|n IH]; intros it s s' K H; [discriminate|]. cbn [iter_fold_fuel] in H.
    destruct (iter_next dbg it) as [[[i|] it']|] eqn:E; cbn [bind] in H; try discriminate.
    - destruct (f s i) as [s1|] eqn:E1; cbn [bind] in H; [|discriminate]. apply Hf in E1.
      destruct (fwd_next dbg it i it' K E) as [K' L]. apply IH in H; auto. lia.
    - injection H as <-. lia.
  Qed.
  Lemma any_minus dbg s o s' : tree_minus dbg s o = Ok s' -> sum wt s' <= sum wt s + sum wt o.
  Proof.
    intros H. apply (fold_wt dbg (fun acc i => tree_minus_in_place dbg acc i)) in H; [|intros|apply fwd_start].
    - unfold wit in H. simpl in H. lia.
    - apply (sum_minus_in_place wt wt_minus wt_invert) in H0. pose proof (wt_raw i). lia.
  Qed.

  Lemma wt_intersect (a b c : Tine T) : tine_intersect_match a b = Ok (Some c) -> wt c <= wt a + wt b.
  Proof. destruct a as [[]|[]|[]], b as [[]|[]|[]]; simpl; intros H; try discriminate; injection H as <-; simpl; lia. Qed.
  Lemma any_intersect_in_place dbg s i s' : tree_intersect_in_place dbg s i = Ok s' -> sum wt s' <= sum wt s + 2.
  Proof.
    unfold tree_intersect_in_place. destruct (_ || _); [intros [= <-]; lia|]. destruct (raw_is_empty i); [intros [= <-]; simpl; lia|].
    assert (P : forall p (j : RawInterval T), sum wt (tree_from_raw_interval j) <= 2 -> (do c <- tree_contains dbg s p; Ok (if c then tree_from_raw_interval j else tree_new)) = Ok s' -> sum wt s' <= sum wt s + 2).
    { intros p j Hj H. destruct (tree_contains dbg s p) as [c|]; [|discriminate]. cbn [bind] in H. injection H as <-. destruct c; simpl; lia. }
    assert (Pr : forall l u, wt l + wt u = 2 -> intersect_proper_interval dbg l u s = Ok s' -> sum wt s' <= sum wt s + 2).
    { intros l u Hw H. unfold intersect_proper_interval, interior_split_for_proper_interval in H.
      destruct (debug_assert dbg _); [|discriminate]. cbn [bind] in H.
      destruct (btree_take l s) as [r2 s1] eqn:E1. destruct (btree_take u s1) as [r3 s2] eqn:E2.
      destruct (btree_split_off l s2) as [ls c0] eqn:E3. destruct (btree_split_off u c0) as [c rs] eqn:E4.
      apply (sum_take wt) in E1, E2. apply (sum_split wt) in E3, E4.
      destruct (debug_assert dbg (Bool.eqb _ _)); [|discriminate]. cbn [bind] in H.
      destruct (match r2 with Some lower => tine_intersect dbg lower l | None => Ok (Some l) end) as [ml|] eqn:M1; [|discriminate]. cbn [bind] in H.
      destruct (match r3 with Some upper => tine_intersect dbg upper u | None => Ok (Some u) end) as [mu|] eqn:M2; [|discriminate]. cbn [bind] in H.
      destruct (debug_assert dbg (map_or_true is_lower_bound ml)); [|discriminate]. cbn [bind] in H.
      destruct (debug_assert dbg (map_or_true is_upper_bound mu)); [|discriminate]. cbn [bind] in H.
      assert (M : forall o b r, match o with Some a => tine_intersect dbg a b | None => Ok (Some b) end = Ok r -> osum wt r <= osum wt o + wt b).
      { intros o tb r. destruct o as [ta|]; simpl; [|intros [= <-]; simpl; lia]. unfold tine_intersect. intros K. destruct (debug_assert dbg _); [|discriminate]. cbn [bind] in K.
        destruct r as [c'|]; simpl; [|lia]. now apply wt_intersect. }
      apply M in M1, M2.
      assert (I1 : forall a, sum wt (btree_insert a c) <= wt a + sum wt c) by (intros; apply sum_insert).
      assert (I2 : forall a b, sum wt (btree_insert b (btree_insert a c)) <= wt b + (wt a + sum wt c)).
      { intros ta tb. pose proof (sum_insert wt tb (btree_insert ta c)). specialize (I1 ta). lia. }
      destruct ml as [l'|], mu as [u'|]; simpl in M1, M2;
        repeat match type of H with context [is_some_and ?f ?x] => destruct (is_some_and f x) end; try discriminate; injection H as <-;
        try pose proof (I1 l'); try pose proof (I1 u'); try pose proof (I2 l' u'); lia. }
    assert (J : sum wt (tree_from_raw_interval i) <= 2) by (etransitivity; [apply sum_from|apply wt_raw]).
    destruct i; cbn [tine_from_raw_interval] in *; try (apply Pr; reflexivity); try (intros [= <-]; simpl; lia). now apply P.
  Qed.
End AnyTree.

(** * Debug assertions only ever turn a result into a panic *)
From Coq Require Import List Bool.
From Verif Require Import Base MBound MRaw MTine MBTree MTineTree.
Import ListNotations.

(** [b] returns whatever [a] returns, if [a] returns. *)
Definition refines {A} (a b : res A) : Prop := forall r, a = Ok r -> b = Ok r.

Lemma refines_refl {A} (a : res A) : refines a a.
Proof. intros r H. exact H. Qed.
Lemma refines_panic {A} (b : res A) : refines Panic b.
Proof. intros r H. discriminate. Qed.
Lemma refines_bind {A B} (a a' : res A) (f f' : A -> res B) :
  refines a a' -> (forall x, refines (f x) (f' x)) -> refines (bind a f) (bind a' f').
Proof. intros H K r. destruct a as [x|]; simpl; [|discriminate]. rewrite (H x eq_refl). simpl. apply K. Qed.
Lemma refines_assert b : refines (debug_assert true b) (debug_assert false b).
Proof. intros r. unfold debug_assert. destruct b; auto. discriminate. Qed.

Ltac ref :=
  repeat first
    [ apply refines_refl | apply refines_panic | apply refines_assert
    | solve [auto]
    | apply refines_bind; [|let x := fresh "x" in intros x]
    | match goal with
      | |- refines (match ?x with _ => _ end) _ => destruct x
      end ].

Section PDebug.
  Context {T : Type} {O : Ord T}.
  Implicit Types (s : TineTree T) (i : RawInterval T) (it : Iter T) (t : Tine T).

  Lemma tine_union_ref t u : refines (tine_union true t u) (tine_union false t u).
  Proof. unfold tine_union. ref. Qed.
  Lemma tine_intersect_ref t u : refines (tine_intersect true t u) (tine_intersect false t u).
  Proof. unfold tine_intersect. ref. Qed.
  Lemma tine_minus_ref t u : refines (tine_minus true t u) (tine_minus false t u).
  Proof. unfold tine_minus. ref. Qed.

  Lemma iter_next_ref it : refines (iter_next true it) (iter_next false it).
  Proof. unfold iter_next. ref. Qed.
  Lemma iter_next_back_ref it : refines (iter_next_back true it) (iter_next_back false it).
  Proof. unfold iter_next_back. ref. Qed.

  Lemma iter_fold_ref {A} (f g : A -> RawInterval T -> res A) : (forall a i, refines (f a i) (g a i)) ->
    forall fuel it acc, refines (iter_fold_fuel fuel true f it acc) (iter_fold_fuel fuel false g it acc).
  Proof.
    intros H. induction fuel as [|fuel IH]; intros it acc; simpl; [ref|].
    apply refines_bind; [apply iter_next_ref|]. intros [[i|] it']; [|ref]. apply refines_bind; auto.
  Qed.
  Lemma contains_ref s x : refines (tree_contains true s x) (tree_contains false s x).
  Proof.
    unfold tree_contains. generalize (S (iter_size (tree_interval_iter s))). intros fuel. generalize (tree_interval_iter s).
    induction fuel as [|fuel IH]; intros it; cbn [contains_fuel]; [ref|].
    apply refines_bind; [apply iter_next_ref|]. intros [[i|] it']; [|ref]. destruct (raw_contains i x); [ref|auto].
  Qed.
  Lemma collect_ref it : refines (iter_collect true it) (iter_collect false it).
  Proof. unfold iter_collect, iter_fold. apply refines_bind; [|intros; ref]. apply iter_fold_ref. intros; ref. Qed.
  Lemma complement_ref s : refines (tree_complement true s) (tree_complement false s).
  Proof. unfold tree_complement. destruct s as [|t [|u s]]; ref. Qed.

  Lemma union_in_place_ref s i : refines (tree_union_in_place true s i) (tree_union_in_place false s i).
  Proof.
    unfold tree_union_in_place. destruct (raw_is_full i); [ref|].
    destruct (tine_from_raw_interval i) as [|l [|u [|? ?]]]; try ref.
    - unfold union_point_interval. destruct (exterior_split_for_point_interval l s) as [[[t0 t1] t2] s'].
      apply refines_bind; [destruct t1; [apply tine_union_ref|ref]|]. intros x. ref.
    - unfold union_proper_interval. destruct (exterior_split_for_proper_interval l u s) as [[[[t0 t1] t2] t3] s'].
      apply refines_bind; [destruct t1; [apply tine_union_ref|ref]|]. intros x.
      apply refines_bind; [destruct t2; [apply tine_union_ref|ref]|]. intros y.
      apply refines_bind; [ref|]. intros _. apply refines_bind; [ref|]. intros _.
      destruct (is_some_and is_lower_bound t0), x, y, (is_some_and is_upper_bound t3); ref.
  Qed.
  Lemma minus_in_place_ref s i : refines (tree_minus_in_place true s i) (tree_minus_in_place false s i).
  Proof.
    unfold tree_minus_in_place. destruct (tree_is_empty s || raw_is_empty i); [ref|]. destruct (raw_is_full i); [ref|].
    destruct (tine_from_raw_interval i) as [|l [|u [|? ?]]]; try ref.
    - unfold minus_point_interval. destruct (exterior_split_for_point_interval l s) as [[[t0 t1] t2] s'].
      apply refines_bind; [destruct t1; [apply tine_minus_ref|ref]|]. intros x. ref.
    - unfold minus_proper_interval. destruct (exterior_split_for_proper_interval l u s) as [[[[t0 t1] t2] t3] s'].
      apply refines_bind; [destruct t1; [apply tine_minus_ref|ref]|]. intros x.
      apply refines_bind; [destruct t2; [apply tine_minus_ref|ref]|]. intros y. ref.
  Qed.
  Lemma intersect_in_place_ref s i : refines (tree_intersect_in_place true s i) (tree_intersect_in_place false s i).
  Proof.
    assert (P : forall l u, refines (intersect_proper_interval true l u s) (intersect_proper_interval false l u s)).
    { intros l u. unfold intersect_proper_interval. apply refines_bind.
      - unfold interior_split_for_proper_interval. ref.
      - intros [[[[[[t0 t1] t2] t3] t4] t5] s'].
        apply refines_bind; [destruct t2; [apply tine_intersect_ref|ref]|]. intros x.
        apply refines_bind; [destruct t3; [apply tine_intersect_ref|ref]|]. intros y. ref. }
    assert (C : forall x, refines (tree_contains true s x) (tree_contains false s x)) by (intros; apply contains_ref).
    unfold tree_intersect_in_place. destruct (tree_is_empty s || raw_is_full i); [ref|]. destruct (raw_is_empty i); [ref|].
    destruct i; cbn [tine_from_raw_interval]; ref.
  Qed.
  Lemma union_ref s s' : refines (tree_union true s s') (tree_union false s s').
  Proof. apply iter_fold_ref. intros. apply union_in_place_ref. Qed.
  Lemma minus_ref s s' : refines (tree_minus true s s') (tree_minus false s s').
  Proof. apply iter_fold_ref. intros. apply minus_in_place_ref. Qed.
  Lemma intersect_ref s s' : refines (tree_intersect true s s') (tree_intersect false s s').
  Proof.
    assert (Seg : forall fuel i it acc, refines (intersect_segment fuel true i it acc) (intersect_segment fuel false i it acc)).
    { induction fuel as [|fuel IH]; intros i it acc; cbn [intersect_segment]; [ref|].
      apply refines_bind; [apply iter_next_ref|]. intros [[j|] it']; [|ref]. cbv zeta. destruct (raw_is_empty (raw_intersect i j)); [ref|].
      apply refines_bind; [apply union_in_place_ref|auto]. }
    unfold tree_intersect. generalize (S (iter_size (tree_interval_iter s))). intros fuel.
    generalize (tree_interval_iter s) (tree_interval_iter s') (@tree_new T).
    induction fuel as [|fuel IH]; intros si oi acc; cbn [intersect_loop]; [ref|].
    apply refines_bind; [apply iter_next_ref|]. intros [[i|] si']; [|ref].
    apply refines_bind; [apply Seg|]. intros [[acc' oi'] d]. destruct d; [ref|auto].
  Qed.
  Lemma enclose_ref s : refines (tree_enclose true s) (tree_enclose false s).
  Proof. unfold tree_enclose. destruct s as [|t [|u s]]; ref. Qed.
  Lemma closure_ref s : refines (tree_closure true s) (tree_closure false s).
  Proof. unfold tree_closure. apply refines_bind; [apply enclose_ref|intros; ref]. Qed.
  Lemma extend_ref l : forall s, refines (tree_extend true s l) (tree_extend false s l).
  Proof. induction l as [|i l IH]; intros s; simpl; [ref|]. apply refines_bind; [apply union_in_place_ref|auto]. Qed.
End PDebug.

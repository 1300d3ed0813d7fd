(** * Proofs about Bound and RawInterval *)
From Coq Require Import List Bool ZArith Lia.
From Verif Require Import Base OrdFacts Pos MBound MRaw Spec.
Import ListNotations.

(** Split every comparison the goal computes with. *)
Ltac split_cmp :=
  repeat match goal with
  | |- context [match cmp ?a ?b with _ => _ end] => destruct (cmp a b) eqn:?; simpl
  | |- context [if ltb ?a ?b then _ else _] => destruct (ltb a b) eqn:?; simpl in *
  | |- context [if leb ?a ?b then _ else _] => destruct (leb a b) eqn:?; simpl in *
  | |- context [if gtb ?a ?b then _ else _] => destruct (gtb a b) eqn:?; simpl in *
  | |- context [if geb ?a ?b then _ else _] => destruct (geb a b) eqn:?; simpl in *
  | |- context [if eqb ?a ?b then _ else _] => destruct (eqb a b) eqn:?; simpl in *
  end; simpl in *.

Ltac split_hyp :=
  repeat match goal with
  | H : context [match cmp ?a ?b with _ => _ end] |- _ => destruct (cmp a b) eqn:?; simpl in *
  | H : context [if ltb ?a ?b then _ else _] |- _ => destruct (ltb a b) eqn:?; simpl in *
  | H : context [if leb ?a ?b then _ else _] |- _ => destruct (leb a b) eqn:?; simpl in *
  | H : context [if gtb ?a ?b then _ else _] |- _ => destruct (gtb a b) eqn:?; simpl in *
  | H : context [if geb ?a ?b then _ else _] |- _ => destruct (geb a b) eqn:?; simpl in *
  | H : context [if eqb ?a ?b then _ else _] |- _ => destruct (eqb a b) eqn:?; simpl in *
  end; simpl in *.

Section PRaw.
  Context {T : Type} {O : Ord T}.
  Implicit Types (a b i j : RawInterval T) (x y : T).

  Lemma raw_contains_points i x : raw_contains i x = true <-> points i x.
  Proof. destruct i; simpl; order. Qed.

  (** ** Bounds *)
  Lemma least_union_above (p q : Bound T) x : above (least_union p q) x <-> above p x \/ above q x.
  Proof. destruct p, q; simpl; split_cmp; order. Qed.
  Lemma greatest_intersect_above (p q : Bound T) x :
    above (greatest_intersect p q) x <-> above p x /\ above q x.
  Proof. destruct p, q; simpl; split_cmp; order. Qed.
  Lemma greatest_union_below (p q : Bound T) x :
    below (greatest_union p q) x <-> below p x \/ below q x.
  Proof. destruct p, q; simpl; split_cmp; order. Qed.
  Lemma least_intersect_below (p q : Bound T) x :
    below (least_intersect p q) x <-> below p x /\ below q x.
  Proof. destruct p, q; simpl; split_cmp; order. Qed.

  Ltac beq := repeat f_equal; order.
  Ltac bad := exfalso; order.

  Lemma least_union_comm (p q : Bound T) : least_union p q = least_union q p.
  Proof. destruct p, q; simpl; split_cmp; first [reflexivity | beq | bad]. Qed.
  Lemma greatest_union_comm (p q : Bound T) : greatest_union p q = greatest_union q p.
  Proof. destruct p, q; simpl; split_cmp; first [reflexivity | beq | bad]. Qed.
  Lemma least_intersect_comm (p q : Bound T) : least_intersect p q = least_intersect q p.
  Proof. destruct p, q; simpl; split_cmp; first [reflexivity | beq | bad]. Qed.
  Lemma greatest_intersect_comm (p q : Bound T) : greatest_intersect p q = greatest_intersect q p.
  Proof. destruct p, q; simpl; split_cmp; first [reflexivity | beq | bad]. Qed.

  Lemma least_union_idem (p : Bound T) : least_union p p = p.
  Proof. destruct p; simpl; split_cmp; reflexivity. Qed.
  Lemma greatest_union_idem (p : Bound T) : greatest_union p p = p.
  Proof. destruct p; simpl; split_cmp; reflexivity. Qed.
  Lemma least_intersect_idem (p : Bound T) : least_intersect p p = p.
  Proof. destruct p; simpl; split_cmp; reflexivity. Qed.
  Lemma greatest_intersect_idem (p : Bound T) : greatest_intersect p p = p.
  Proof. destruct p; simpl; split_cmp; reflexivity. Qed.

  Lemma least_union_assoc (p q r : Bound T) :
    least_union p (least_union q r) = least_union (least_union p q) r.
  Proof. destruct p, q, r; simpl; split_cmp; first [reflexivity | bad | beq]. Qed.
  Lemma greatest_union_assoc (p q r : Bound T) :
    greatest_union p (greatest_union q r) = greatest_union (greatest_union p q) r.
  Proof. destruct p, q, r; simpl; split_cmp; first [reflexivity | bad | beq]. Qed.
  Lemma least_intersect_assoc (p q r : Bound T) :
    least_intersect p (least_intersect q r) = least_intersect (least_intersect p q) r.
  Proof. destruct p, q, r; simpl; split_cmp; first [reflexivity | bad | beq]. Qed.
  Lemma greatest_intersect_assoc (p q r : Bound T) :
    greatest_intersect p (greatest_intersect q r) = greatest_intersect (greatest_intersect p q) r.
  Proof. destruct p, q, r; simpl; split_cmp; first [reflexivity | bad | beq]. Qed.

  (** ** Constructors *)
  Lemma raw_new_wf (l u : Bound T) : raw_wf (raw_new l u).
  Proof.
    destruct l, u; simpl; unfold raw_closed, raw_open, raw_left_open, raw_right_open;
      split_cmp; auto.
  Qed.

  Lemma raw_new_contains (l u : Bound T) x :
    raw_contains (raw_new l u) x = true <-> (above l x /\ below u x) \/ mixed_at l u x.
  Proof.
    destruct l, u; simpl; unfold raw_closed, raw_open, raw_left_open, raw_right_open;
      split_cmp; order.
  Qed.

  (** ** Set operations *)
  Ltac raw_unfold :=
    unfold raw_intersect, raw_enclose, raw_new, raw_closed, raw_open, raw_left_open,
      raw_right_open, opt_eqb; simpl.

  Lemma raw_bounds_contains i x :
    raw_contains i x = true <->
    match raw_lower_bound i, raw_upper_bound i with
    | Some l, Some u => above l x /\ below u x
    | _, _ => False
    end.
  Proof. destruct i; simpl; order. Qed.

  Lemma raw_intersect_wf a b : raw_wf (raw_intersect a b).
  Proof.
    unfold raw_intersect.
    destruct (raw_lower_bound a), (raw_lower_bound b); simpl; auto.
    destruct (raw_upper_bound a), (raw_upper_bound b); simpl; auto.
    match goal with |- context [if ?c then _ else _] => destruct c end; simpl; auto.
    apply raw_new_wf.
  Qed.


  Lemma mixed_false (l u : Bound T) x :
    opt_eqb (bound_as_ref l) (bound_as_ref u) &&
      ((is_inclusive l && is_exclusive u) || (is_exclusive l && is_inclusive u)) = false ->
    ~ mixed_at l u x.
  Proof. destruct l, u; simpl; unfold opt_eqb; simpl; try tauto; order. Qed.

  Lemma mixed_true (l u : Bound T) x :
    opt_eqb (bound_as_ref l) (bound_as_ref u) &&
      ((is_inclusive l && is_exclusive u) || (is_exclusive l && is_inclusive u)) = true ->
    above l x /\ below u x -> False.
  Proof. destruct l, u; simpl; unfold opt_eqb; simpl; try (intros; discriminate); order. Qed.

  Lemma raw_intersect_contains a b x :
    raw_contains (raw_intersect a b) x = raw_contains a x && raw_contains b x.
  Proof.
    apply eq_true_iff_eq. rewrite andb_true_iff, (raw_bounds_contains a), (raw_bounds_contains b).
    unfold raw_intersect.
    assert (Ha : raw_lower_bound a = None <-> raw_upper_bound a = None) by (destruct a; simpl; intuition congruence).
    assert (Hb : raw_lower_bound b = None <-> raw_upper_bound b = None) by (destruct b; simpl; intuition congruence).
    destruct (raw_lower_bound a) as [la|], (raw_upper_bound a) as [ua|];
      try (exfalso; intuition congruence);
    destruct (raw_lower_bound b) as [lb|], (raw_upper_bound b) as [ub|];
      try (exfalso; intuition congruence); try (simpl; intuition congruence).
    match goal with |- context [if ?c then _ else _] => destruct c eqn:E end.
    - generalize (mixed_true _ _ x E). rewrite greatest_intersect_above, least_intersect_below.
      simpl. intuition congruence.
    - generalize (mixed_false _ _ x E). rewrite raw_new_contains, greatest_intersect_above, least_intersect_below.
      tauto.
  Qed.

  (** ** Intervals as closed intervals of positions *)
  Definition lpos (b : Bound T) : pos T :=
    match b with Include x => At x | Exclude x => Hi x | Infinite => NInf end.
  Definition upos (b : Bound T) : pos T :=
    match b with Include x => At x | Exclude x => Lo x | Infinite => PInf end.

  Definition covers (i : RawInterval T) (p : pos T) : bool :=
    match raw_lower_bound i, raw_upper_bound i with
    | Some l, Some u => leb (lpos l) p && leb p (upos u)
    | _, _ => false
    end.

  Lemma covers_At i x : covers i (At x) = raw_contains i x.
  Proof. destruct i; simpl; unfold covers; simpl; porder. Qed.

  Lemma lpos_gi (a b : Bound T) p : le (lpos (greatest_intersect a b)) p <-> le (lpos a) p /\ le (lpos b) p.
  Proof. destruct a, b; simpl; split_cmp; porder. Qed.
  Lemma lpos_lu (a b : Bound T) p : le (lpos (least_union a b)) p <-> le (lpos a) p \/ le (lpos b) p.
  Proof. destruct a, b; simpl; split_cmp; porder. Qed.
  Lemma upos_li (a b : Bound T) p : le p (upos (least_intersect a b)) <-> le p (upos a) /\ le p (upos b).
  Proof. destruct a, b; simpl; split_cmp; porder. Qed.
  Lemma upos_gu (a b : Bound T) p : le p (upos (greatest_union a b)) <-> le p (upos a) \/ le p (upos b).
  Proof. destruct a, b; simpl; split_cmp; porder. Qed.

  Lemma lpos_inj (a b : Bound T) : lpos a = lpos b -> a = b.
  Proof. destruct a, b; simpl; intros H; congruence. Qed.
  Lemma upos_inj (a b : Bound T) : upos a = upos b -> a = b.
  Proof. destruct a, b; simpl; intros H; congruence. Qed.

  Lemma le_antisym_pos (p q : pos T) : le p q -> le q p -> p = q.
  Proof. porder. Qed.

  (** Bounds of a proper (or point) interval. *)
  Lemma raw_bounds_cases i :
    (i = Empty /\ raw_lower_bound i = None /\ raw_upper_bound i = None) \/
    (exists l u, raw_lower_bound i = Some l /\ raw_upper_bound i = Some u).
  Proof. destruct i; simpl; eauto 10. Qed.

  Lemma raw_wf_pos i l u :
    raw_wf i -> raw_lower_bound i = Some l -> raw_upper_bound i = Some u -> le (lpos l) (upos u).
  Proof. destruct i; simpl; intros W H1 H2; inversion H1; inversion H2; subst; simpl; porder. Qed.

  (** [raw_new] rebuilds a well-formed interval from its bounds. *)
  Lemma raw_new_bounds i l u :
    raw_wf i -> raw_lower_bound i = Some l -> raw_upper_bound i = Some u -> raw_new l u = i.
  Proof.
    destruct i; simpl; intros W H1 H2; inversion H1; inversion H2; subst; simpl;
      unfold raw_closed, raw_open, raw_left_open, raw_right_open;
      try rewrite cmp_refl; try (unfold lt in W; rewrite W); reflexivity.
  Qed.

  Lemma raw_new_lower (l u : Bound T) : le (lpos l) (upos u) ->
    raw_lower_bound (raw_new l u) = Some l /\ raw_upper_bound (raw_new l u) = Some u.
  Proof.
    destruct l, u; simpl; unfold raw_closed, raw_open, raw_left_open, raw_right_open;
      split_cmp; auto; intros; try (exfalso; porder);
      match goal with H : cmp ?a ?b = Eq |- _ => apply cmp_eq in H; subst end; auto.
  Qed.

  Lemma raw_new_covers (l u : Bound T) p : le (lpos l) (upos u) ->
    covers (raw_new l u) p = leb (lpos l) p && leb p (upos u).
  Proof. intros H. unfold covers. now destruct (raw_new_lower l u H) as [-> ->]. Qed.

  Lemma raw_new_nonempty (l u : Bound T) : le (lpos l) (upos u) -> raw_is_empty (raw_new l u) = false.
  Proof. intros H. destruct (raw_new_lower l u H). now destruct (raw_new l u). Qed.

  Lemma raw_intersect_eq a b :
    raw_intersect a b =
    match raw_lower_bound a, raw_lower_bound b, raw_upper_bound a, raw_upper_bound b with
    | Some la, Some lb, Some ua, Some ub =>
        if leb (lpos (greatest_intersect la lb)) (upos (least_intersect ua ub))
        then raw_new (greatest_intersect la lb) (least_intersect ua ub)
        else Empty
    | _, _, _, _ => Empty
    end.
  Proof.
    unfold raw_intersect.
    destruct (raw_lower_bound a) as [la|], (raw_lower_bound b) as [lb|],
      (raw_upper_bound a) as [ua|], (raw_upper_bound b) as [ub|]; auto.
    generalize (greatest_intersect la lb), (least_intersect ua ub). clear.
    intros l u. destruct l as [x|x|], u as [y|y|]; simpl; unfold opt_eqb; simpl; auto;
      unfold raw_closed, raw_open, raw_left_open, raw_right_open; rewrite ?andb_true_r, ?andb_false_r;
      split_cmp; rewrite ?andb_true_r, ?andb_false_r;
      try match goal with |- context [leb ?p ?q] => destruct (leb p q) eqn:? end;
      try reflexivity; try (exfalso; porder).
  Qed.

  Lemma covers_bounds i p l u :
    raw_lower_bound i = Some l -> raw_upper_bound i = Some u ->
    (covers i p = true <-> le (lpos l) p /\ le p (upos u)).
  Proof. unfold covers. intros -> ->. now rewrite andb_true_iff, !leb_iff. Qed.

  Lemma covers_empty p : covers (@Empty T) p = false.
  Proof. reflexivity. Qed.

  Lemma raw_intersect_covers a b p : covers (raw_intersect a b) p = covers a p && covers b p.
  Proof.
    apply eq_true_iff_eq. rewrite andb_true_iff, raw_intersect_eq.
    destruct (raw_bounds_cases a) as [(-> & _)|(la & ua & La & Ua)]; [simpl; intuition discriminate|].
    destruct (raw_bounds_cases b) as [(-> & _)|(lb & ub & Lb & Ub)].
    { rewrite La, covers_empty. simpl. unfold covers at 1; simpl. intuition discriminate. }
    rewrite La, Lb, Ua, Ub, (covers_bounds a p la ua), (covers_bounds b p lb ub) by auto.
    destruct (leb _ _) eqn:E.
    - rewrite raw_new_covers by now apply leb_iff.
      rewrite andb_true_iff, !leb_iff, lpos_gi, upos_li. tauto.
    - rewrite covers_empty. split; [discriminate|]. intros ((A & B) & (C & D)). exfalso.
      assert (H1 := proj2 (lpos_gi la lb p) (conj A C)).
      assert (H2 := proj2 (upos_li ua ub p) (conj B D)).
      revert E H1 H2. generalize (lpos (greatest_intersect la lb)) (upos (least_intersect ua ub)).
      porder.
  Qed.

  Lemma raw_nonempty_covers i : raw_wf i -> (raw_is_empty i = false <-> exists p, covers i p = true).
  Proof.
    intros W. destruct (raw_bounds_cases i) as [(-> & _)|(l & u & L & U)].
    - simpl. split; [discriminate|]. intros (p & Hp); discriminate.
    - split; [|intros _; now destruct i].
      intros _. exists (lpos l). rewrite (covers_bounds i _ l u) by auto.
      assert (H := raw_wf_pos i l u W L U). split; auto. revert H. generalize (lpos l) (upos u). porder.
  Qed.

  Lemma raw_intersects_covers a b :
    raw_intersects a b = true <-> exists p, covers a p = true /\ covers b p = true.
  Proof.
    unfold raw_intersects. rewrite negb_true_iff, raw_nonempty_covers by apply raw_intersect_wf.
    split; intros (p & H); exists p.
    - now rewrite raw_intersect_covers, andb_true_iff in H.
    - now rewrite raw_intersect_covers, andb_true_iff.
  Qed.

  (** Well-formed intervals with the same positions are equal. *)
  Lemma raw_ext i j : raw_wf i -> raw_wf j -> (forall p, covers i p = covers j p) -> i = j.
  Proof.
    intros Wi Wj H.
    destruct (raw_bounds_cases i) as [(-> & _)|(l & u & L & U)].
    { destruct (raw_is_empty j) eqn:E; [now destruct j|].
      apply (raw_nonempty_covers j Wj) in E as (p & Hp). specialize (H p). rewrite Hp in H. discriminate. }
    destruct (raw_bounds_cases j) as [(-> & _)|(l' & u' & L' & U')].
    { assert (E : raw_is_empty i = false) by now destruct i.
      apply (raw_nonempty_covers i Wi) in E as (p & Hp). specialize (H p). rewrite Hp in H. discriminate. }
    rewrite <- (raw_new_bounds i l u Wi L U), <- (raw_new_bounds j l' u' Wj L' U').
    assert (Hi := raw_wf_pos i l u Wi L U). assert (Hj := raw_wf_pos j l' u' Wj L' U').
    assert (K : forall p, (le (lpos l) p /\ le p (upos u)) <-> (le (lpos l') p /\ le p (upos u'))).
    { intros p. rewrite <- (covers_bounds i p l u), <- (covers_bounds j p l' u') by auto. now rewrite H. }
    assert (K1 := K (lpos l)). assert (K2 := K (lpos l')).
    assert (K3 := K (upos u)). assert (K4 := K (upos u')).
    assert (lpos l = lpos l' /\ upos u = upos u').
    { revert K1 K2 K3 K4 Hi Hj. generalize (lpos l) (lpos l') (upos u) (upos u'). porder. }
    f_equal; [now apply lpos_inj|now apply upos_inj].
  Qed.

  (** ** Enclosure *)
  Lemma raw_enclose_bounds a b la ua lb ub :
    raw_lower_bound a = Some la -> raw_upper_bound a = Some ua ->
    raw_lower_bound b = Some lb -> raw_upper_bound b = Some ub ->
    raw_enclose a b = raw_new (least_union la lb) (greatest_union ua ub).
  Proof. unfold raw_enclose. now intros -> -> -> ->. Qed.

  Lemma raw_enclose_empty_l b : raw_wf b -> raw_enclose Empty b = b.
  Proof.
    intros W. destruct (raw_bounds_cases b) as [(-> & _)|(l & u & L & U)]; auto.
    unfold raw_enclose. simpl. rewrite L, U. now apply raw_new_bounds.
  Qed.
  Lemma raw_enclose_empty_r a : raw_wf a -> raw_enclose a Empty = a.
  Proof.
    intros W. destruct (raw_bounds_cases a) as [(-> & _)|(l & u & L & U)]; auto.
    unfold raw_enclose. simpl. rewrite L, U. now apply raw_new_bounds.
  Qed.

  Lemma enclose_pos_le (la ua lb ub : Bound T) :
    le (lpos la) (upos ua) -> le (lpos (least_union la lb)) (upos (greatest_union ua ub)).
  Proof.
    intros H.
    assert (A : le (lpos (least_union la lb)) (lpos la)).
    { apply lpos_lu. left. generalize (lpos la). porder. }
    assert (B : le (upos ua) (upos (greatest_union ua ub))).
    { apply upos_gu. left. generalize (upos ua). porder. }
    revert H A B. generalize (lpos la) (upos ua) (lpos (least_union la lb)) (upos (greatest_union ua ub)).
    porder.
  Qed.

  Lemma raw_enclose_wf a b : raw_wf a -> raw_wf b -> raw_wf (raw_enclose a b).
  Proof.
    intros Wa Wb. destruct (raw_bounds_cases a) as [(-> & _)|(la & ua & La & Ua)].
    { now rewrite raw_enclose_empty_l. }
    destruct (raw_bounds_cases b) as [(-> & _)|(lb & ub & Lb & Ub)].
    { now rewrite raw_enclose_empty_r. }
    rewrite (raw_enclose_bounds a b la ua lb ub) by auto. apply raw_new_wf.
  Qed.

  Lemma raw_enclose_covers a b la ua lb ub p :
    raw_wf a ->
    raw_lower_bound a = Some la -> raw_upper_bound a = Some ua ->
    raw_lower_bound b = Some lb -> raw_upper_bound b = Some ub ->
    (covers (raw_enclose a b) p = true <->
     (le (lpos la) p \/ le (lpos lb) p) /\ (le p (upos ua) \/ le p (upos ub))).
  Proof.
    intros W La Ua Lb Ub. rewrite (raw_enclose_bounds a b la ua lb ub) by auto.
    rewrite raw_new_covers by (apply enclose_pos_le; eapply raw_wf_pos; eauto).
    now rewrite andb_true_iff, !leb_iff, lpos_lu, upos_gu.
  Qed.

  Lemma raw_enclose_covers_l a b p :
    raw_wf a -> raw_wf b -> covers a p = true -> covers (raw_enclose a b) p = true.
  Proof.
    intros Wa Wb. destruct (raw_bounds_cases a) as [(-> & _)|(la & ua & La & Ua)]; [easy|].
    destruct (raw_bounds_cases b) as [(-> & _)|(lb & ub & Lb & Ub)].
    { now rewrite raw_enclose_empty_r. }
    rewrite (raw_enclose_covers a b la ua lb ub), (covers_bounds a p la ua) by auto. tauto.
  Qed.
  Lemma raw_enclose_comm a b : raw_enclose a b = raw_enclose b a.
  Proof.
    unfold raw_enclose.
    destruct (raw_lower_bound a), (raw_lower_bound b), (raw_upper_bound a), (raw_upper_bound b); auto;
      try rewrite least_union_comm; try rewrite greatest_union_comm; auto.
  Qed.
  Lemma raw_enclose_covers_r a b p :
    raw_wf a -> raw_wf b -> covers b p = true -> covers (raw_enclose a b) p = true.
  Proof. intros. rewrite raw_enclose_comm. now apply raw_enclose_covers_l. Qed.

  (** Convexity. *)
  Lemma contains_convex i x y z :
    raw_contains i x = true -> raw_contains i z = true -> le x y -> le y z -> raw_contains i y = true.
  Proof. destruct i; simpl; order. Qed.

  Lemma raw_enclose_least a b c x :
    raw_wf a -> raw_wf b ->
    (a = Empty \/ exists y, raw_contains a y = true) ->
    (b = Empty \/ exists y, raw_contains b y = true) ->
    (forall y, raw_contains a y = true \/ raw_contains b y = true -> raw_contains c y = true) ->
    raw_contains (raw_enclose a b) x = true -> raw_contains c x = true.
  Proof.
    intros Wa Wb Ha Hb Hc.
    destruct Ha as [->|(ya & Ha)]; [rewrite raw_enclose_empty_l by auto; eauto|].
    destruct Hb as [->|(yb & Hb)]; [rewrite raw_enclose_empty_r by auto; eauto|].
    destruct (raw_bounds_cases a) as [(-> & _)|(la & ua & La & Ua)]; [discriminate|].
    destruct (raw_bounds_cases b) as [(-> & _)|(lb & ub & Lb & Ub)]; [discriminate|].
    rewrite <- covers_At, (raw_enclose_covers a b la ua lb ub) by auto.
    assert (Ca := Hc ya (or_introl Ha)). assert (Cb := Hc yb (or_intror Hb)).
    rewrite <- covers_At, (covers_bounds a _ la ua) in Ha by auto.
    rewrite <- covers_At, (covers_bounds b _ lb ub) in Hb by auto.
    intros ([L|L] & [U|U]).
    - apply Hc. left. now rewrite <- covers_At, (covers_bounds a _ la ua) by auto.
    - destruct (leb (At x) (At ya)) eqn:E; [|destruct (leb (At yb) (At x)) eqn:E'].
      + apply Hc. left. rewrite <- covers_At, (covers_bounds a _ la ua) by auto.
        revert Ha L U E. generalize (lpos la) (upos ua) (upos ub). porder.
      + apply Hc. right. rewrite <- covers_At, (covers_bounds b _ lb ub) by auto.
        revert Hb L U E'. generalize (lpos lb) (upos ua) (upos ub). porder.
      + apply (contains_convex c ya x yb); auto; clear - E E'; porder.
    - destruct (leb (At x) (At yb)) eqn:E; [|destruct (leb (At ya) (At x)) eqn:E'].
      + apply Hc. right. rewrite <- covers_At, (covers_bounds b _ lb ub) by auto.
        revert Hb L U E. generalize (lpos lb) (upos ua) (upos ub). porder.
      + apply Hc. left. rewrite <- covers_At, (covers_bounds a _ la ua) by auto.
        revert Ha L U E'. generalize (lpos la) (upos ua) (upos ub). porder.
      + apply (contains_convex c yb x ya); auto; clear - E E'; porder.
    - apply Hc. right. now rewrite <- covers_At, (covers_bounds b _ lb ub) by auto.
  Qed.

  (** ** Touching *)
  (** Positions with nothing between them. *)
  Definition next_to (p q : pos T) : Prop := lt p q /\ forall r, ~ (lt p r /\ lt r q).

  Lemma adjacent_pos (l u : Bound T) :
    is_union_adjacent_to l u = true -> lpos l = upos u \/ next_to (upos u) (lpos l).
  Proof.
    unfold next_to. destruct l, u; simpl; try discriminate; rewrite eqb_iff; intros ->; auto;
      right; split; porder.
  Qed.

  Definition meets i j : bool := raw_intersects i j || raw_is_adjacent_to i j.

  (** If two intervals meet, their enclosure has no other positions. *)
  Lemma meets_enclose i j p :
    raw_wf i -> raw_wf j -> meets i j = true ->
    covers (raw_enclose i j) p = covers i p || covers j p.
  Proof.
    intros Wi Wj H.
    assert (HH : covers (raw_enclose i j) p = true -> covers i p || covers j p = true).
    2:{ apply eq_true_iff_eq. split; [exact HH|]. rewrite orb_true_iff.
        intros [K|K]; [now apply raw_enclose_covers_l|now apply raw_enclose_covers_r]. }
    unfold meets in H. apply orb_true_iff in H.
    destruct (raw_bounds_cases i) as [(-> & _)|(la & ua & La & Ua)].
    { rewrite raw_enclose_empty_l by auto. intros ->. apply orb_true_r. }
    destruct (raw_bounds_cases j) as [(-> & _)|(lb & ub & Lb & Ub)].
    { rewrite raw_enclose_empty_r by auto. intros ->. reflexivity. }
    rewrite (raw_enclose_covers i j la ua lb ub), orb_true_iff,
      (covers_bounds i p la ua), (covers_bounds j p lb ub) by auto.
    assert (Ha := raw_wf_pos i la ua Wi La Ua). assert (Hb := raw_wf_pos j lb ub Wj Lb Ub).
    rewrite raw_intersects_covers in H. unfold raw_is_adjacent_to in H.
    rewrite La, Lb, Ua, Ub in H. rewrite orb_true_iff in H.
    destruct H as [(q & Hq & Hq')|[H|H]].
    - rewrite (covers_bounds i q la ua) in Hq by auto. rewrite (covers_bounds j q lb ub) in Hq' by auto.
      revert Hq Hq'. generalize (lpos la) (lpos lb) (upos ua) (upos ub). clear. porder.
    - apply adjacent_pos in H. revert H Ha Hb. unfold next_to.
      generalize (lpos la) (lpos lb) (upos ua) (upos ub). clear. intros a b c d H Ha Hb.
      destruct H as [->|[H H']]; [porder|]. specialize (H' p). porder.
    - apply adjacent_pos in H. revert H Ha Hb. unfold next_to.
      generalize (lpos la) (lpos lb) (upos ua) (upos ub). clear. intros a b c d H Ha Hb.
      destruct H as [->|[H H']]; [porder|]. specialize (H' p). porder.
  Qed.

  (** If they do not meet, they are separated. *)
  Lemma separated_of_pos (u l : Bound T) i j :
    raw_upper_bound i = Some u -> raw_lower_bound j = Some l ->
    lt (upos u) (lpos l) -> is_union_adjacent_to l u = false -> separated i j.
  Proof.
    unfold separated. intros -> ->. destruct u, l; simpl; porder.
  Qed.

  Lemma not_meets_separated i j :
    raw_wf i -> raw_wf j -> raw_is_empty i = false -> raw_is_empty j = false ->
    meets i j = false -> separated i j \/ separated j i.
  Proof.
    intros Wi Wj Ei Ej H. unfold meets in H. apply orb_false_iff in H as [H H'].
    destruct (raw_bounds_cases i) as [(-> & _)|(la & ua & La & Ua)]; [discriminate|].
    destruct (raw_bounds_cases j) as [(-> & _)|(lb & ub & Lb & Ub)]; [discriminate|].
    unfold raw_is_adjacent_to in H'. rewrite La, Ua, Lb, Ub in H'. apply orb_false_iff in H' as [K K'].
    assert (Ha := raw_wf_pos i la ua Wi La Ua). assert (Hb := raw_wf_pos j lb ub Wj Lb Ub).
    assert (N : forall p, covers i p = true -> covers j p = true -> False).
    { intros p Hp Hp'. assert (raw_intersects i j = true) by (apply raw_intersects_covers; eauto). congruence. }
    assert (N1 := N (lpos la)). assert (N2 := N (lpos lb)).
    rewrite (covers_bounds i _ la ua), (covers_bounds j _ lb ub) in N1 by auto.
    rewrite (covers_bounds i _ la ua), (covers_bounds j _ lb ub) in N2 by auto.
    assert (D : lt (upos ua) (lpos lb) \/ lt (upos ub) (lpos la)).
    { revert N1 N2 Ha Hb. generalize (lpos la) (lpos lb) (upos ua) (upos ub). clear. porder. }
    destruct D as [D|D]; [left|right]; eapply separated_of_pos; eauto.
  Qed.

  Lemma separated_pos i j : separated i j -> raw_wf i -> raw_wf j ->
    forall p q, covers i p = true -> covers j q = true -> lt p q.
  Proof.
    unfold separated. intros H Wi Wj p q Hp Hq.
    destruct (raw_bounds_cases i) as [(-> & _)|(la & ua & La & Ua)]; [discriminate|].
    destruct (raw_bounds_cases j) as [(-> & _)|(lb & ub & Lb & Ub)]; [discriminate|].
    rewrite Ua, Lb in H.
    rewrite (covers_bounds i _ la ua) in Hp by auto. rewrite (covers_bounds j _ lb ub) in Hq by auto.
    destruct Hp as [_ Hp], Hq as [Hq _]. destruct ua, lb; try tauto; simpl in *; porder.
  Qed.

  Lemma separated_disjoint i j : raw_wf i -> raw_wf j -> separated i j -> disjoint i j.
  Proof.
    intros Wi Wj H x Hi Hj. rewrite <- covers_At in Hi, Hj.
    assert (K := separated_pos i j H Wi Wj _ _ Hi Hj). porder.
  Qed.

  Lemma disjoint_sym i j : disjoint i j -> disjoint j i.
  Proof. unfold disjoint. eauto. Qed.
End PRaw.

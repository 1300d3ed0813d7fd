(** * Exact forms for every order and every Interval: C50, C58, C59, C60, C64,
    C65, C89 *)
From Coq Require Import List Bool ZArith Lia Sorted Permutation.
From Verif Require Import Base OrdFacts Pos PFinite MBound MRaw MNormalize MTine MBTree MTineTree Ints MInterval MSelection MSerde
  Spec Spec_Tree Spec_Sel Spec_More Instances PRaw PRaw2 PNorm PIter PInterval PBTree PTree PTreeOps PTreeIsect PTree2 PTree3 PTree4
  PSel PSel2 PSel5 Properties_Raw Properties_Interval Properties_Selection Properties_Selection4 Properties_More Properties_More2 Properties_Outer Properties_Exact Properties_Serde.
Import ListNotations.
Local Open Scope Z_scope.
#[local] Arguments cmp : simpl never.

Section Raw.
  Context {T : Type} {O : Ord T}.
  Implicit Types i j : RawInterval T.

  (** ** C58: on every order, [infimum] of an interval with a value is the
      greatest lower bound exactly if the interval includes that end or has no
      least value; [supremum] likewise. *)
  Theorem C58_infimum_iff_partial i (x p : T) : raw_contains i x = true ->
    (raw_infimum i = Some p ->
       (is_infimum (fun y => raw_contains i y = true) p <->
        raw_lower_bound i = Some (Include p) \/ ~ exists m, least (fun y => raw_contains i y = true) m)) /\
    (raw_supremum i = Some p ->
       (is_supremum (fun y => raw_contains i y = true) p <->
        raw_upper_bound i = Some (Include p) \/ ~ exists m, greatest (fun y => raw_contains i y = true) m)).
  Proof.
    intros Hx. destruct (raw_bounds_cases i) as [(-> & _)|(l & u & L & U)]; [discriminate|].
    assert (B : forall z, raw_contains i z = true <-> above l z /\ below u z) by (intros z; now rewrite raw_bounds_contains, L, U).
    unfold raw_infimum, raw_supremum. rewrite L, U. clear L U. apply B in Hx. unfold is_infimum, is_supremum, least, greatest.
    assert (B' : forall z, above l z -> below u z -> raw_contains i z = true) by (intros z ? ?; apply B; auto).
    split; intros E.
    - destruct l as [a|a|]; simpl in E; try discriminate; injection E as ->.
      + split; [now left|]. intros _. split; [intros y Hy; now apply B in Hy|]. intros q Hq. apply Hq, B'; simpl; [clear; order|].
        destruct Hx as [H1 H2]. destruct u; simpl in *; auto; clear - H1 H2; order.
      + split.
        * intros [H1 H2]. right. intros (m & Hm & Lm). apply H2 in Lm. apply B in Hm as [Hm _]. simpl in Hm. clear - Hm Lm. order.
        * intros [K|K]; [discriminate|]. split; [intros y Hy; apply B in Hy as [Hy _]; simpl in Hy; clear - Hy; order|].
          intros q Hq. destruct (leb q p) eqn:E; [now apply leb_iff|]. exfalso. apply K. exists q. split; [|exact Hq].
          assert (Q : le q x) by (apply Hq, B'; tauto). destruct Hx as [H1 H2].
          apply B'; simpl; [clear - E; order|]. destruct u; simpl in *; auto; clear - Q H2; order.
    - destruct u as [a|a|]; simpl in E; try discriminate; injection E as ->.
      + split; [now left|]. intros _. split; [intros y Hy; now apply B in Hy|]. intros q Hq. apply Hq, B'; simpl; [|clear; order].
        destruct Hx as [H1 H2]. destruct l; simpl in *; auto; clear - H1 H2; order.
      + split.
        * intros [H1 H2]. right. intros (m & Hm & Lm). apply H2 in Lm. apply B in Hm as [_ Hm]. simpl in Hm. clear - Hm Lm. order.
        * intros [K|K]; [discriminate|]. split; [intros y Hy; apply B in Hy as [_ Hy]; simpl in Hy; clear - Hy; order|].
          intros q Hq. destruct (leb p q) eqn:E; [now apply leb_iff|]. exfalso. apply K. exists q. split; [|exact Hq].
          assert (Q : le x q) by (apply Hq, B'; tauto). destruct Hx as [H1 H2].
          apply B'; simpl; [|clear - E; order]. destruct l; simpl in *; auto; clear - Q H1; order.
  Qed.

  (** ** C59: the intervals without values that are not [is_empty], and those
      with every value that are not [is_full]. *)
  Theorem C59_empty_iff_partial i : raw_wf i ->
    (raw_is_empty i = false /\ (forall x, raw_contains i x = false) <->
     (exists a b, i = Open a b /\ forall x, ~ (lt a x /\ lt x b)) \/
     (exists a, i = UpTo a /\ forall x, ~ lt x a) \/
     (exists a, i = UpFrom a /\ forall x, ~ lt a x) \/
     (i = Full /\ (T -> False))).
  Proof.
    intros W. split.
    - intros [E N]. assert (N' : forall x, ~ raw_contains i x = true) by (intros x; now rewrite N).
      setoid_rewrite raw_contains_points in N'.
      destruct i as [|a|a b|a b|a b|a b|a|a|a|a|]; simpl in *; try discriminate;
        try (exfalso; apply (N' a); clear - W; order); try (exfalso; apply (N' b); clear - W; order); eauto 8.
      + now destruct (N' a).
      + right; right; right. split; auto. intros z. exact (N' z I).
    - intros [(a & b & -> & N)|[(a & -> & N)|[(a & -> & N)|(-> & N)]]]; (split; [reflexivity|]); intros x;
        apply not_true_iff_false; rewrite raw_contains_points; simpl; auto.
  Qed.

  (** Full in all but name: each end is absent or included and the least
      (greatest) value of the type. *)
  Theorem C59_full_iff_partial i (t : T) : raw_wf i ->
    (raw_is_full i = false /\ (forall x, raw_contains i x = true) <->
     exists l u, raw_lower_bound i = Some l /\ raw_upper_bound i = Some u /\
       (l = Infinite \/ exists a, l = Include a /\ forall x, le a x) /\
       (u = Infinite \/ exists a, u = Include a /\ forall x, le x a) /\
       (l <> Infinite \/ u <> Infinite)).
  Proof.
    intros W. split.
    - intros [E H]. destruct (raw_bounds_cases i) as [(-> & _)|(l & u & L & U)]; [discriminate (H t)|].
      exists l, u. split; auto. split; auto.
      assert (B : forall z, above l z /\ below u z) by (intros z; specialize (H z); now rewrite raw_bounds_contains, L, U in H).
      split; [|split].
      + destruct l as [a|a|]; auto.
        * right. exists a. split; auto. intros x. apply (B x).
        * destruct (B a) as [K _]. simpl in K. exfalso. clear - K. order.
      + destruct u as [a|a|]; auto.
        * right. exists a. split; auto. intros x. apply (B x).
        * destruct (B a) as [_ K]. simpl in K. exfalso. clear - K. order.
      + destruct i; simpl in *; try discriminate; injection L as <-; injection U as <-; try (left; discriminate); right; discriminate.
    - intros (l & u & L & U & Hl & Hu & N). split.
      + destruct i; try reflexivity. simpl in *. injection L as <-. injection U as <-. destruct N as [N|N]; congruence.
      + intros x. rewrite raw_bounds_contains, L, U.
        split; [destruct Hl as [->|(a & -> & H)]|destruct Hu as [->|(a & -> & H)]]; simpl; auto.
  Qed.

  (** ** C60: on every order, [closure] of an interval with a value lies in every
      interval with closed ends around it exactly if each excluded end is not
      next to a first (last) value of the interval. *)
  Theorem C60_smallest_iff_partial i (x : T) : raw_wf i -> raw_contains i x = true ->
    ((forall j, raw_wf j -> closed_ends j -> (forall y, raw_contains i y = true -> raw_contains j y = true) ->
        forall y, raw_contains (raw_closure i) y = true -> raw_contains j y = true) <->
     (forall p, raw_lower_bound i = Some (Exclude p) -> ~ exists m, least (fun y => raw_contains i y = true) m) /\
     (forall p, raw_upper_bound i = Some (Exclude p) -> ~ exists m, greatest (fun y => raw_contains i y = true) m)).
  Proof.
    intros W Hx. split.
    - intros H. split; intros p E (m & Hm & Lm).
      + (* [m, oo) *)
        specialize (H (From m) I). assert (K : le m p); [|apply raw_contains_points in Hm; destruct i; simpl in E; try discriminate; injection E as ->; simpl in Hm; clear - Hm K; order].
        apply (raw_contains_points (From m)), H.
        * split; intros q; simpl; congruence.
        * intros y Hy. apply raw_contains_points. now apply Lm.
        * apply (C60_closure_partial i W). right; left. unfold raw_infimum. now rewrite E.
      + specialize (H (To m) I). assert (K : le p m); [|apply raw_contains_points in Hm; destruct i; simpl in E; try discriminate; injection E as ->; simpl in Hm; clear - Hm K; order].
        apply (raw_contains_points (To m)), H.
        * split; intros q; simpl; congruence.
        * intros y Hy. apply raw_contains_points. now apply Lm.
        * apply (C60_closure_partial i W). right; right. unfold raw_supremum. now rewrite E.
    - intros [HL HU] j Wj [Cl Cu] Sub y Hy. apply (C60_closure_partial i W) in Hy. assert (Hx' := Sub x Hx).
      destruct (raw_bounds_cases j) as [(-> & _)|(l & u & L & U)]; [discriminate|].
      assert (B : forall z, raw_contains j z = true <-> above l z /\ below u z) by (intros z; now rewrite raw_bounds_contains, L, U).
      setoid_rewrite B in Sub. rewrite B in Hx' |- *. destruct Hy as [Hy|[Hy|Hy]]; auto.
      + assert (S : is_infimum (fun z => raw_contains i z = true) y).
        { apply (C58_infimum_iff_partial i x y Hx); auto. unfold raw_infimum in Hy.
          destruct (raw_lower_bound i) as [[a|a|]|] eqn:E; simpl in Hy; try discriminate; injection Hy as ->; auto.
          right. now apply (HL y). }
        destruct S as [S1 S2]. specialize (S1 x Hx). split.
        * destruct l as [l|l|]; [|now destruct (Cl l)|exact I]. simpl. apply S2. intros z Hz. now apply Sub.
        * destruct u as [u|u|]; [|now destruct (Cu u)|exact I]. simpl in *. clear - S1 Hx'. order.
      + assert (S : is_supremum (fun z => raw_contains i z = true) y).
        { apply (C58_infimum_iff_partial i x y Hx); auto. unfold raw_supremum in Hy.
          destruct (raw_upper_bound i) as [[a|a|]|] eqn:E; simpl in Hy; try discriminate; injection Hy as ->; auto.
          right. now apply (HU y). }
        destruct S as [S1 S2]. specialize (S1 x Hx). split.
        * destruct l as [l|l|]; [|now destruct (Cl l)|exact I]. simpl in *. clear - S1 Hx'. order.
        * destruct u as [u|u|]; [|now destruct (Cu u)|exact I]. simpl. apply S2. intros z Hz. now apply Sub.
  Qed.
End Raw.
Print Assumptions C58_infimum_iff_partial.
Print Assumptions C59_empty_iff_partial.
Print Assumptions C59_full_iff_partial.
Print Assumptions C60_smallest_iff_partial.

(** Beside these: (0, 5) over Z has a least value; over i8 nothing lies above
    127 and [-128, 127] holds everything. *)
Example C58_ex3 : raw_contains (Open 0 5) 2 = true /\ raw_infimum (Open 0 5) = Some 0 /\ least (fun y => raw_contains (Open 0 5) y = true) 1.
Proof.
  split; [reflexivity|]. split; [reflexivity|]. split; [reflexivity|]. intros y H.
  apply raw_contains_points in H. simpl in H. rewrite !Z_lt_iff in H. rewrite Z_le_iff. lia.
Qed.
Example C59_ex3 : raw_wf (UpFrom (v 127)) /\ raw_is_empty (UpFrom (v 127)) = false /\ (forall z, ~ lt (v 127) z) /\
  raw_wf (Closed (v (-128)) (v 127)) /\ raw_is_full (Closed (v (-128)) (v 127)) = false /\
  (forall z, le (v (-128)) z) /\ (forall z, le z (v 127)).
Proof.
  split; [exact I|]. split; [reflexivity|]. split; [|split; [reflexivity|split; [reflexivity|split]]]; intros z.
  - intros H. apply (proj1 (int_lt_val _ _)) in H. rewrite v_val in H by lia. pose proof (int_bounds z). lia.
  - apply (proj2 (int_le_val _ _)). rewrite v_val by lia. pose proof (int_bounds z). lia.
  - apply (proj2 (int_le_val _ _)). rewrite v_val by lia. pose proof (int_bounds z). lia.
Qed.
Example C60_ex3 : raw_wf (Open 0 5) /\ raw_contains (Open 0 5) 2 = true /\ raw_lower_bound (Open 0 5) = Some (Exclude 0).
Proof. repeat split. Qed.

Section Intervals.
  Context {T : Type} {O : Ord T} {F : Finite T}.
  Implicit Types i j k : Interval T.

  (** ** C64: on every Interval, also one made from an open pair of neighbours,
      [is_adjacent_to] holds exactly if one ends at the value the other begins
      with. *)
  Theorem C64_adjacent_all i j : reach false i -> reach false j ->
    (interval_is_adjacent_to i j = true <->
     exists m, (interval_upper_bound i = Some (Include m) /\ interval_lower_bound j = Some (Include m)) \/
               (interval_upper_bound j = Some (Include m) /\ interval_lower_bound i = Some (Include m))) /\
    interval_is_adjacent_to i j = interval_is_adjacent_to j i.
  Proof.
    intros Ri Rj.
    assert (C : forall k, reach false k -> interval_lower_bound k = None /\ interval_upper_bound k = None \/
        exists l u, interval_lower_bound k = Some (Include l) /\ interval_upper_bound k = Some (Include u)).
    { intros k Rk. destruct (C62_bounds_all_partial k Rk) as [(_ & L & U & _)|(l & u & _ & L & U & _)]; eauto 6. }
    destruct (C i Ri) as [[L U]|(l & u & L & U)], (C j Rj) as [[L' U']|(l' & u' & L' & U')]; clear C;
      unfold interval_is_adjacent_to, raw_is_adjacent_to; unfold interval_lower_bound, interval_upper_bound in *; rewrite L, U, L', U'; simpl.
    - split; auto. split; [discriminate|]. intros (m & [[H _]|[H _]]); discriminate.
    - split; auto. split; [discriminate|]. intros (m & [[H _]|[_ H]]); discriminate.
    - split; auto. split; [discriminate|]. intros (m & [[_ H]|[H _]]); discriminate.
    - rewrite orb_true_iff, !eqb_iff. split.
      + split.
        * intros [->| ->]; [exists u'|exists u]; auto.
        * intros (m & [[H1 H2]|[H1 H2]]); injection H1 as ->; injection H2 as ->; auto.
      + apply orb_comm.
  Qed.

  (** ** C65: the algebra on every Interval: [intersect] is commutative and
      associative, [enclose] is commutative, and associative if of each two
      neighbours in the triple one has a value. *)
  Lemma intersect_raw_assoc (a b c : RawInterval T) :
    raw_intersect a b = raw_intersect b a /\ raw_intersect (raw_intersect a b) c = raw_intersect a (raw_intersect b c).
  Proof.
    split; apply raw_ext; auto using raw_intersect_wf; intros q; rewrite !raw_intersect_covers; [apply andb_comm|now rewrite andb_assoc].
  Qed.

  Lemma interval_intersect_raw i j : reach false i -> reach false j ->
    interval_raw (interval_intersect i j) = raw_intersect (interval_raw i) (interval_raw j).
  Proof.
    intros Ri Rj. unfold interval_intersect, interval_from_raw. cbn [interval_raw]. rewrite normalized_idem, normalized_id; auto.
    apply raw_intersect_closed; eapply tight_shape, reach_tight; eauto.
  Qed.
  Lemma interval_enclose_raw i j : reach false i -> reach false j ->
    interval_raw (interval_enclose i j) = raw_enclose (interval_raw i) (interval_raw j).
  Proof.
    intros Ri Rj. unfold interval_enclose, interval_from_raw. cbn [interval_raw]. rewrite normalized_idem, normalized_id; auto.
    apply raw_enclose_closed; eapply tight_shape, reach_tight; eauto.
  Qed.
  Lemma interval_eq i j : interval_raw i = interval_raw j -> i = j.
  Proof. destruct i, j. simpl. now intros ->. Qed.

  (** The ends of a closed interval, and the hull of two such pairs. *)
  Definition ends (r : RawInterval T) : option (T * T) :=
    match r with Point p => Some (p, p) | Closed l u => Some (l, u) | _ => None end.
  Definition hull (a b : option (T * T)) : option (T * T) :=
    match a, b with
    | Some (l, u), Some (m, n) => Some (if ltb l m then l else m, if gtb u n then u else n)
    | Some x, None | None, Some x => Some x
    | None, None => None
    end.
  Definition rebuilt (e : option (T * T)) : RawInterval T := match e with Some (l, u) => raw_closed l u | None => Empty end.

  Lemma enclose_rebuilt r q : closed_shape r -> closed_shape q -> raw_enclose r q = rebuilt (hull (ends r) (ends q)).
  Proof.
    intros Cr Cq. destruct r; simpl in Cr; try tauto; destruct q; simpl in Cq; try tauto; unfold raw_enclose; simpl; auto;
      (destruct (ltb _ _); destruct (gtb _ _); reflexivity).
  Qed.
  Lemma hull_assoc a b c : hull (hull a b) c = hull a (hull b c).
  Proof.
    destruct a as [[l u]|], b as [[m n]|], c as [[x y]|]; simpl; auto. do 2 f_equal.
    - destruct (ltb l m) eqn:A, (ltb m x) eqn:B; rewrite ?A; auto; destruct (ltb l x) eqn:C; auto; clear - A B C; exfalso; order.
    - destruct (gtb u n) eqn:A, (gtb n y) eqn:B; rewrite ?A; auto; destruct (gtb u y) eqn:C; auto; clear - A B C; exfalso; order.
  Qed.
  Definition upright (e : option (T * T)) : Prop := match e with Some (l, u) => le l u | None => True end.
  Lemma ends_rebuilt e : upright e -> ends (rebuilt e) = e.
  Proof.
    destruct e as [[l u]|]; simpl; auto. intros H. unfold raw_closed. destruct (cmp l u) eqn:E; auto.
    - assert (l = u) as -> by (clear - E; order). reflexivity.
    - exfalso. clear - E H. order.
  Qed.
  Lemma hull_upright i j : reach false i -> reach false j -> (exists x, ipoints i x \/ ipoints j x) ->
    upright (hull (ends (interval_raw i)) (ends (interval_raw j))).
  Proof.
    intros Ri Rj (x & Hx). apply reach_tight in Ri, Rj. unfold ipoints, interval_contains in Hx. rewrite !raw_contains_points in Hx.
    destruct i as [[|p| | | |l u| | | | |]]; simpl in Ri; try tauto; destruct j as [[|q| | | |m n| | | | |]]; simpl in Rj; try tauto; simpl in *;
      try (destruct (ltb _ _) eqn:A); try (destruct (gtb _ _) eqn:B); clear Ri Rj; order.
  Qed.

  Definition within (e : option (T * T)) (x : T) : Prop := match e with Some (l, u) => le l x /\ le x u | None => False end.
  Lemma ends_contains r x : closed_shape r -> raw_contains r x = true <-> within (ends r) x.
  Proof. rewrite raw_contains_points. destruct r; simpl; try tauto. intros _. order. Qed.
  Lemma rebuilt_shape e : closed_shape (rebuilt e).
  Proof. destruct e as [[l u]|]; simpl; auto. unfold raw_closed. now destruct (cmp l u). Qed.
  Lemma rebuilt_contains e x : raw_contains (rebuilt e) x = true <-> within e x.
  Proof.
    rewrite raw_contains_points. destruct e as [[l u]|]; simpl; [|tauto]. unfold raw_closed. destruct (cmp l u) eqn:E; simpl; order.
  Qed.
  Lemma enclose_within i j x : reach false i -> reach false j ->
    interval_contains (interval_enclose i j) x = true <-> within (hull (ends (interval_raw i)) (ends (interval_raw j))) x.
  Proof.
    intros Ri Rj. unfold interval_contains. rewrite interval_enclose_raw by auto.
    rewrite enclose_rebuilt by (eapply tight_shape, reach_tight; eauto). apply rebuilt_contains.
  Qed.
  Lemma contains_within i x : reach false i -> interval_contains i x = true <-> within (ends (interval_raw i)) x.
  Proof. intros Ri. apply ends_contains. eapply tight_shape, reach_tight; eauto. Qed.

  Theorem C65_interval_all_partial i j k : reach false i -> reach false j -> reach false k ->
    interval_intersect i j = interval_intersect j i /\
    interval_intersect (interval_intersect i j) k = interval_intersect i (interval_intersect j k) /\
    interval_enclose i j = interval_enclose j i /\
    ((exists x, ipoints i x \/ ipoints j x) -> (exists x, ipoints j x \/ ipoints k x) ->
     interval_enclose (interval_enclose i j) k = interval_enclose i (interval_enclose j k)) /\
    (forall x, interval_contains (interval_intersect i i) x = interval_contains i x) /\
    (forall x, interval_contains (interval_enclose i i) x = interval_contains i x) /\
    (forall x, interval_contains (interval_intersect i (interval_enclose i j)) x = interval_contains i x) /\
    (forall x, interval_contains (interval_enclose i (interval_intersect i j)) x = interval_contains i x).
  Proof.
    intros Ri Rj Rk.
    assert (Rij : reach false (interval_intersect i j)) by now constructor.
    assert (Rjk : reach false (interval_intersect j k)) by now constructor.
    assert (Eij : reach false (interval_enclose i j)) by now constructor.
    assert (Ejk : reach false (interval_enclose j k)) by now constructor.
    assert (Sh : forall w, reach false w -> closed_shape (interval_raw w)) by (intros w Rw; eapply tight_shape, reach_tight; eauto).
    split; [|split; [|split; [|split; [|split; [|split; [|split]]]]]]; try (apply interval_eq; rewrite ?interval_intersect_raw, ?interval_enclose_raw by auto).
    - apply intersect_raw_assoc; exact Empty.
    - apply intersect_raw_assoc.
    - apply raw_enclose_comm.
    - intros H1 H2. apply interval_eq. rewrite ?interval_enclose_raw by auto.
      pose proof (Sh _ Eij) as S1. pose proof (Sh _ Ejk) as S2. rewrite interval_enclose_raw in S1, S2 by auto.
      rewrite (enclose_rebuilt (raw_enclose _ _)), (enclose_rebuilt (interval_raw i) (raw_enclose _ _)) by auto.
      rewrite (enclose_rebuilt (interval_raw i)), (enclose_rebuilt (interval_raw j)) by auto.
      rewrite !ends_rebuilt by (apply hull_upright; auto). now rewrite hull_assoc.
    - intros x. rewrite interval_intersect_contains. apply andb_diag.
    - intros x. apply eq_true_iff_eq. rewrite enclose_within, contains_within by auto.
      destruct (ends (interval_raw i)) as [[l u]|]; simpl; [|tauto]. destruct (ltb l l), (gtb u u); clear; order.
    - intros x. rewrite interval_intersect_contains. apply eq_true_iff_eq. rewrite andb_true_iff, enclose_within, contains_within by auto.
      destruct (ends (interval_raw i)) as [[l u]|], (ends (interval_raw j)) as [[m n]|]; simpl; try tauto.
      destruct (ltb l m) eqn:A, (gtb u n) eqn:B; clear - A B; order.
    - intros x. apply eq_true_iff_eq. rewrite enclose_within, contains_within by auto.
      assert (Q : forall y, within (ends (interval_raw (interval_intersect i j))) y -> within (ends (interval_raw i)) y).
      { intros y. rewrite <- !contains_within by auto. rewrite interval_intersect_contains, andb_true_iff. tauto. }
      assert (V : forall m n, ends (interval_raw (interval_intersect i j)) = Some (m, n) -> le m n).
      { intros m n E. rewrite interval_intersect_raw in E by auto.
        pose proof (raw_intersect_wf (interval_raw i) (interval_raw j)) as W.
        destruct (raw_intersect (interval_raw i) (interval_raw j)); simpl in *; try discriminate; injection E as <- <-; clear - W; order. }
      destruct (ends (interval_raw (interval_intersect i j))) as [[m n]|]; [|destruct (ends (interval_raw i)) as [[l u]|]; simpl; tauto].
      specialize (V m n eq_refl). pose proof (Q m) as Qm. pose proof (Q n) as Qn. clear Q.
      destruct (ends (interval_raw i)) as [[l u]|]; simpl in *.
      + destruct (ltb l m) eqn:A, (gtb u n) eqn:B; clear - A B V Qm Qn; order.
      + split; [|tauto]. intros _. apply Qm. clear - V. order.
  Qed.
End Intervals.
Print Assumptions C64_adjacent_all.
Print Assumptions C65_interval_all_partial.
Example C64_ex3 : reach false (interval_open (v 3) (v 4)) /\ interval_upper_bound (interval_open (v 3) (v 4)) = Some (Include (v 3)) /\
  interval_is_adjacent_to (interval_open (v 3) (v 4)) (cl 1 4) = true.
Proof. split; [now constructor|]. split; reflexivity. Qed.
Example C65_ex3 : reach false (interval_open (v 3) (v 4)) /\ ipoints (cl 7 9) (v 7) /\
  interval_enclose (interval_enclose (interval_open (v 3) (v 4)) (cl 7 9)) (interval_open (v 3) (v 4)) = cl 4 9.
Proof. split; [now constructor|]. split; reflexivity. Qed.

(** Without a value in each pair of neighbours [enclose] is not associative. *)
Theorem C65_enclose_refuted :
  ~ (forall i j k : Interval i8, reach false i -> reach false j -> reach false k ->
       interval_enclose (interval_enclose i j) k = interval_enclose i (interval_enclose j k)).
Proof.
  intros H. specialize (H (interval_open (v 3) (v 4)) (interval_open (v 3) (v 4)) (cl 7 9)).
  assert (K : reach false (interval_open (v 3) (v 4))) by now constructor. specialize (H K K).
  assert (K' : reach false (cl 7 9)) by now constructor. specialize (H K'). discriminate H.
Qed.
Print Assumptions C65_enclose_refuted.

(** ** C50: for every program, the intervals [interval_iter] yields are the
    maximal runs exactly if each has a value and none ends just before the next
    begins. *)
Section Runs.
  Context {T : Type} {O : Ord T} {F : Finite T}.
  Implicit Types i j k : Interval T.

  Lemma SS_app {A} (R : A -> A -> Prop) l m : StronglySorted R (l ++ m) ->
    StronglySorted R l /\ StronglySorted R m /\ forall x y, In x l -> In y m -> R x y.
  Proof.
    induction l as [|a l IH]; simpl; intros S; [split; [constructor|split; [auto|intros ? ? []]]|].
    inversion S as [|? ? S1 S2]; subst. destruct (IH S1) as (A1 & A2 & A3). apply Forall_app in S2 as [B1 B2].
    split; [constructor; auto|]. split; auto. intros x y [<-|Hx] Hy; auto. rewrite Forall_forall in B2. auto.
  Qed.

  Lemma runs_apart (l : list (Interval T)) : forall A,
    StronglySorted (fun i j => forall x y, ipoints i x -> ipoints j y -> lt x y) (A ++ l) ->
    Forall closed_form l ->
    (forall B i j C u m, l = B ++ i :: j :: C -> greatest (ipoints i) u -> least (ipoints j) m -> succ u <> Some m) ->
    StronglySorted (apart (some_icontains (A ++ l))) l.
  Proof.
    induction l as [|i l IH]; intros A S CF H; [constructor|]. inversion CF as [|? ? Ci Cl]; subst. constructor.
    - specialize (IH (A ++ [i])). rewrite <- app_assoc in IH. apply IH; auto.
      intros B j k C u m E. apply (H (i :: B) j k C u m). now rewrite E.
    - destruct l as [|k l]; [constructor|]. inversion Cl as [|? ? Ck _]; subst.
      destruct Ci as (li & ui & Lei & Li & Ui), Ck as (lk & uk & Lek & Lk & Uk).
      assert (Pt : forall w a b, interval_lower_bound w = Some (Include a) -> interval_upper_bound w = Some (Include b) ->
        forall x, ipoints w x <-> le a x /\ le x b).
      { intros w a b La Ub x. unfold ipoints, interval_contains, interval_lower_bound, interval_upper_bound in *.
        rewrite raw_bounds_contains, La, Ub. reflexivity. }
      pose proof (Pt i li ui Li Ui) as Pi. pose proof (Pt k lk uk Lk Uk) as Pk. clear Pt.
      assert (Gi : greatest (ipoints i) ui) by (split; [apply Pi; split; auto; clear; order|intros x Hx; now apply Pi]).
      assert (Gk : least (ipoints k) lk) by (split; [apply Pk; split; auto; clear; order|intros x Hx; now apply Pk]).
      assert (N : succ ui <> Some lk) by exact (H [] i k l ui lk eq_refl Gi Gk).
      apply SS_app in S as (SA & SB & SAB). inversion SB as [|? ? SC Bi]; subst. inversion SC as [|? ? _ Bk]; subst.
      assert (Lt : lt ui lk) by (inversion Bi as [|? ? Bik _]; subst; apply Bik; [apply Gi|apply Gk]).
      assert (E : exists x, lt ui x /\ lt x lk).
      { destruct (succ ui) as [x|] eqn:Es.
        - exists x. assert (x <> lk) by congruence. clear - Es Lt H0 F. split; forder.
        - exfalso. clear - Es Lt F. forder. }
      destruct E as (x & X1 & X2).
      assert (Near : forall w, In w (k :: l) -> forall z, ipoints w z -> le lk z).
      { intros w [<-|Hw] z Hz; [now apply Gk|]. rewrite Forall_forall in Bk.
        assert (Q := Bk w Hw lk z (proj1 Gk) Hz). clear - Q. order. }
      apply Forall_forall. intros w Hw. exists x. split; [|split].
      + intros (n & Hn & Cn). apply in_app_or in Hn as [Hn|[<-|Hn]].
        * assert (Q := SAB n i Hn (or_introl eq_refl) x ui Cn (proj1 Gi)). clear - Q X1. order.
        * apply Gi in Cn. clear - Cn X1. order.
        * apply (Near n Hn) in Cn. clear - Cn X2. order.
      + intros y Hy. apply Gi in Hy. clear - Hy X1. order.
      + intros z Hz. apply (Near w Hw) in Hz. clear - Hz X2. order.
  Qed.

  Theorem C50_runs_iff_partial dbg (p : prog T) s l : inputs false p -> run dbg p = Ok s -> sel_intervals_are dbg s l ->
    (Forall closed_form l /\ StronglySorted (apart (member dbg s)) l <->
     Forall (fun i => exists x, ipoints i x) l /\
     (forall A i j B u m, l = A ++ i :: j :: B -> greatest (ipoints i) u -> least (ipoints j) m -> succ u <> Some m)).
  Proof.
    intros H E D. pose proof D as D0. destruct (C50_points_all_partial dbg p s H E) as (l' & D' & M & S).
    destruct (run_edged dbg p s H E) as [W Ed].
    assert (l' = l) as ->.
    { apply sel_intervals_pieces in D, D'; auto. congruence. }
    assert (Rl : Forall (reach false) l).
    { apply (intervals_reach dbg p s l H E D0). }
    split.
    - intros [CF Ap]. split.
      + eapply Forall_impl; [|exact CF]. intros i (a & b & Le & L & U). exists a. unfold ipoints, interval_contains, interval_lower_bound, interval_upper_bound in *.
        rewrite raw_bounds_contains, L, U. simpl. split; auto. clear; order.
      + intros A i j B u m -> Gu Lm Es. apply SS_app in Ap as (_ & Ap & _). inversion Ap as [|? ? _ Ai]; subst. inversion Ai as [|? ? (x & _ & X1 & X2) _]; subst.
        specialize (X1 u (proj1 Gu)). specialize (X2 m (proj1 Lm)). clear - X1 X2 Es F. forder.
    - intros [HP N]. assert (CF : Forall closed_form l).
      { apply Forall_forall. intros i Hi. rewrite Forall_forall in HP, Rl. destruct (HP i Hi) as (x & Hx).
        destruct (C62_bounds_all_partial i (Rl i Hi)) as [(_ & _ & _ & _ & _ & K)|(a & b & _ & L & U & _ & _ & K & _)].
        - unfold ipoints in Hx. rewrite K in Hx. discriminate.
        - exists a, b. split; auto. apply K in Hx. clear - Hx. order. }
      split; auto. pose proof (runs_apart l [] S CF N) as R. simpl in R.
      assert (Q : forall i j, apart (some_icontains l) i j -> apart (member dbg s) i j).
      { intros i j (x & X & X'). exists x. split; auto. intros Mx. apply X. now apply M. }
      clear - R Q. remember (apart (some_icontains l)) as P eqn:EP. clear EP.
      induction R as [|i m R IH Hi]; constructor; auto. eapply Forall_impl; [|exact Hi]. auto.
  Qed.
End Runs.
Print Assumptions C50_runs_iff_partial.
Example C50_ex3 : exists s, run true (P_complement (P_union (P_complement (P_points [v 1; v 3])) (P_complement (P_points [v 1; v 3])))) = Ok s /\
  sel_intervals_are true s [one 1; one 3].
Proof. eexists. split; [vm_compute; reflexivity|]. econstructor; [vm_compute; reflexivity|]. econstructor; [vm_compute; reflexivity|]. econstructor. vm_compute. reflexivity. Qed.

(** ** C89: which accepted values are like those the API makes *)
Section Usable.
  Context {T : Type} {O : Ord T} {F : Finite T}.
  Implicit Types (i : Interval T) (t : Tine T) (s : Selection T).

  Lemma pred_succ (x y : T) : pred x = Some y <-> succ y = Some x.
  Proof.
    rewrite pred_some, succ_some. split; intros [L H]; split; auto; intros z Hz; specialize (H z).
    - destruct (leb x z) eqn:E; [now apply leb_iff|]. assert (Q : lt z x) by (clear - E; order). apply H in Q. clear - Hz Q. order.
    - destruct (leb z y) eqn:E; [now apply leb_iff|]. assert (Q : lt y z) by (clear - E; order). apply H in Q. clear - Hz Q. order.
  Qed.

  (** The Intervals the API can make are [Empty], those between two included
      bounds in order, and those whose lower bound is just after the upper. *)
  Theorem C89_interval_iff_partial i :
    reach false i <->
    interval_is_empty i = true \/
    exists l u, interval_lower_bound i = Some (Include l) /\ interval_upper_bound i = Some (Include u) /\
      (lt l u \/ succ u = Some l \/ l = u).
  Proof.
    split.
    - intros R. destruct (C62_bounds_all_partial i R) as [(E & _)|(l & u & _ & L & U & _ & _ & _ & K)]; [now left|].
      right. exists l, u. split; auto. split; auto. destruct K as [K|K]; auto.
      assert (Q : lt l u \/ l = u) by (clear - K; order). tauto.
    - intros [E|(l & u & L & U & K)].
      + destruct i as [[]]; try discriminate. constructor.
      + destruct i as [[|x| | | |a b| | | | |]]; try discriminate; unfold interval_lower_bound, interval_upper_bound in *; simpl in L, U; try discriminate.
        * apply (R_point false x).
        * injection L as ->. injection U as ->. destruct K as [K|[K| ->]].
          -- apply (R_from_raw false (Closed l u)); [exact K|discriminate].
          -- assert (P : pred l = Some u) by (apply pred_succ; exact K).
             assert (Q : mkInterval (Closed l u) = interval_from_raw (Open u l)).
             { unfold interval_from_raw. simpl. now rewrite K, P. }
             rewrite Q. apply R_from_raw; [|discriminate]. simpl. clear - K F. forder.
          -- destruct (pred u) as [x|] eqn:P.
             ++ assert (Q : mkInterval (Closed u u) = interval_from_raw (LeftOpen x u)).
                { unfold interval_from_raw. simpl. apply pred_succ in P. now rewrite P. }
                rewrite Q. apply R_from_raw; [|discriminate]. simpl. clear - P F. forder.
             ++ assert (Q : mkInterval (Closed u u) = interval_from_raw (To u)).
                { unfold interval_from_raw. simpl. apply pred_none in P. now rewrite P. }
                rewrite Q. apply R_from_raw; [exact I|discriminate].
  Qed.

  (** Reading a list of tines as interval ends, as [interval_iter] does: a
      [Point(Exclude)] may also begin an interval. *)
  Fixpoint reads (inside : bool) s : bool :=
    match s with
    | [] => negb inside
    | TLower _ :: s' => negb inside && reads true s'
    | TPoint (Include _) :: s' => negb inside && reads false s'
    | TPoint (Exclude _) :: s' => reads true s'
    | TPoint Infinite :: _ => false
    | TUpper _ :: s' => inside && reads false s'
    end.

  Lemma drains_reads s : forall o, match o with Some t => is_lower_bound t = true | None => True end ->
    (exists l, drains (sel_interval_next true) {| tine_iter := s; saved_lower := o; saved_upper := None |} l) <->
    reads (match o with Some _ => true | None => false end) s = true.
  Proof.
    induction s as [|t s IH]; intros o Ho.
    - destruct o as [t|]; simpl.
      + split; [|discriminate]. intros (l & D). exfalso.
        inversion D as [? ? E|? ? ? ? E _]; subst; destruct t as [|[]|]; simpl in Ho; try discriminate; discriminate E.
      + split; auto. intros _. exists []. econstructor. reflexivity.
    - assert (Step : forall sl r, (do (x, it') <- iter_next true {| tine_iter := t :: s; saved_lower := o; saved_upper := None |};
          Ok (option_map (fun r => interval_from_raw (normalized r)) x, it')) = Ok (Some r, {| tine_iter := s; saved_lower := sl; saved_upper := None |}) ->
        match sl with Some t => is_lower_bound t = true | None => True end ->
        (exists l, drains (sel_interval_next true) {| tine_iter := t :: s; saved_lower := o; saved_upper := None |} l) <->
        reads (match sl with Some _ => true | None => false end) s = true).
      { intros sl r E Hs. rewrite <- (IH sl Hs). split; intros (l & D).
        - inversion D as [? ? E'|? ? ? ? E' D']; subst; unfold sel_interval_next in E'; rewrite E in E'; [discriminate|].
          injection E' as <- <-. eauto.
        - exists (r :: l). econstructor; [exact E|exact D]. }
      assert (Stop : (do (x, it') <- iter_next true {| tine_iter := t :: s; saved_lower := o; saved_upper := None |};
          Ok (option_map (fun r => interval_from_raw (normalized r)) x, it')) = Panic ->
        ~ exists l, drains (sel_interval_next true) {| tine_iter := t :: s; saved_lower := o; saved_upper := None |} l).
      { intros E (l & D). inversion D as [? ? E'|? ? ? ? E' D']; subst; unfold sel_interval_next in E'; rewrite E in E'; discriminate. }
      destruct o as [w|].
      + destruct t as [d|[x|x|]|d]; cbn [reads negb andb]; try (split; [intros H|discriminate]);
          try (exfalso; apply Stop in H; [exact H|destruct w as [|[]|]; simpl in Ho; try discriminate; reflexivity]).
        * apply (Step (Some (TPoint (Exclude x))) (interval_from_raw (normalized (raw_new (tine_into_inner w) (Exclude x))))); [|reflexivity].
          destruct w as [|[]|]; simpl in Ho; try discriminate; reflexivity.
        * apply (Step None (interval_from_raw (normalized (raw_new (tine_into_inner w) d)))); [|exact I].
          destruct w as [|[]|]; simpl in Ho; try discriminate; reflexivity.
      + assert (Shift : is_lower_bound t = true ->
          (exists l, drains (sel_interval_next true) {| tine_iter := t :: s; saved_lower := None; saved_upper := None |} l) <->
          reads true s = true).
        { intros Ht. rewrite <- (IH (Some t) Ht).
          assert (E : sel_interval_next true {| tine_iter := t :: s; saved_lower := None; saved_upper := None |} =
                      sel_interval_next true {| tine_iter := s; saved_lower := Some t; saved_upper := None |}) by reflexivity.
          split; intros (l & D); inversion D as [? ? E'|? ? ? ? E' D']; subst; (eexists; (eapply drains_nil + eapply drains_cons); eauto);
            (rewrite <- E + rewrite E); exact E'. }
        destruct t as [d|[x|x|]|d]; cbn [reads negb andb]; try (now apply Shift); try (split; [intros H|discriminate]);
          try (exfalso; apply Stop in H; [exact H|reflexivity]).
        apply (Step None (interval_from_raw (normalized (Point x)))); [reflexivity|exact I].
  Qed.

  (** In a debug build [interval_iter] ends without a panic exactly on these. *)
  Theorem C89_reads_iff_partial s : (exists l, sel_intervals_are true s l) <-> reads false s = true.
  Proof. exact (drains_reads s None I). Qed.

  Lemma sorted_ends s : Forall (fun t => okt t = true) s -> srt s -> exists a m c, s = pre a ++ m ++ suf c /\ fins m /\ srt m.
  Proof.
    intros K S. assert (H : exists a s', s = pre a ++ s' /\ srt s' /\ Forall (fun t => okt t = true /\ t <> TLower Infinite) s').
    { destruct s as [|t s]; [exists false, []; split; [reflexivity|split; constructor]|].
      inversion K as [|? ? Kt Ks]; subst. inversion S as [|? ? Ss St]; subst.
      assert (R : Forall (fun u => okt u = true /\ u <> TLower Infinite) s).
      { apply Forall_forall. intros u Hu. rewrite Forall_forall in Ks, St. split; auto. intros ->.
        specialize (St _ Hu). simpl in St. now apply (nothing_below_NInf (loc t)). }
      destruct (at_finite t Kt) as [Ft|[->| ->]].
      - exists false, (t :: s). split; auto. split; auto. constructor; auto. split; auto. intros ->. discriminate.
      - exists true, s. auto.
      - exists false, (TUpper Infinite :: s). split; auto. split; auto. constructor; auto. split; auto. discriminate. }
    destruct H as (a & s' & -> & S' & H'). exists a.
    assert (G : exists m c, s' = m ++ suf c /\ fins m /\ srt m).
    { clear - S' H'. induction S' as [|t s S IH Ht]; [exists [], false; split; [reflexivity|split; constructor]|].
      inversion H' as [|? ? [Kt Nt] Hs]; subst. destruct (IH Hs) as (m & c & -> & Fm & Sm).
      destruct (at_finite t Kt) as [Ft|[->| ->]]; [|congruence|].
      - exists (t :: m), c. split; auto. split; [constructor; auto|]. constructor; auto. now apply Forall_app in Ht.
      - destruct (m ++ suf c) as [|u r] eqn:E; [exists [], true; split; [reflexivity|split; constructor]|].
        inversion Ht as [|? ? X _]; subst. exfalso. now apply (nothing_above_PInf (loc u)). }
    destruct G as (m & c & -> & Fm & Sm). exists m, c. auto.
  Qed.

  Lemma reads_both m : forall b c, fins m -> reads b (m ++ suf c) = true -> reads (negb b) (map inv m ++ suf (negb c)) = true ->
    chain b m c = true.
  Proof.
    induction m as [|t m IH]; intros b c Fm H1 H2.
    - destruct b, c; simpl in *; auto; discriminate.
    - inversion Fm as [|? ? Ft Fm']; subst. destruct b, t as [[x|x|]|[x|x|]|[x|x|]]; simpl in Ft, H1, H2 |- *; try discriminate;
        (apply IH; auto).
  Qed.

  (** A list of tines is one the operations keep in order exactly if iterating
      over it and over its complement ends without a panic in a debug build. *)
  Theorem C89_usable_iff_partial s : Forall (fun t => t <> TPoint Infinite) s -> StronglySorted (fun a b => tine_cmp a b = Lt) s ->
    (tree_wf s <->
     (exists l, sel_intervals_are true s l) /\
     exists c l, sel_complement true s = Ok c /\ sel_intervals_are true c l).
  Proof.
    intros K S. split.
    - intros W. apply wf_tree_wf in W. split; [exists (map nrm (pieces None s)); now apply interval_iter_drains|].
      destruct (complement_ok true s W) as (c & E & Wc & _). exists c, (map nrm (pieces None c)). split; [exact E|]. now apply interval_iter_drains.
    - intros [R (c & l & E & R')]. assert (R2 : exists l, sel_intervals_are true c l) by eauto.
      rewrite C89_reads_iff_partial in R, R2. clear R' l.
      assert (K' : Forall (fun t => okt t = true) s) by (eapply Forall_impl; [|exact K]; intros [|[]|] Ht; auto; congruence).
      assert (S' : srt s).
      { clear - S K'. induction S as [|t s S IH Ht]; constructor; inversion K' as [|? ? Kt Ks]; subst; [now apply IH|].
        rewrite Forall_forall in *. intros u Hu. specialize (Ht u Hu). rewrite tine_cmp_loc in Ht by auto. exact Ht. }
      destruct (sorted_ends s K' S') as (a & m & d & -> & Fm & Sm).
      assert (Ra : reads a (m ++ suf d) = true) by (destruct a; exact R).
      unfold sel_complement in E. rewrite complement_eq_gen in E; auto.
      + injection E as <-. assert (Rc : reads (negb a) (map inv m ++ suf (negb d)) = true) by (destruct a; exact R2).
        apply wf_tree_wf, ends_wf; auto. now apply reads_both.
      + intros ->. destruct a, d; auto; discriminate.
      + intros t -> -> ->. inversion Fm as [|? ? Ft _]; subst. destruct t as [[x|x|]|[x|x|]|[x|x|]]; simpl in *; try discriminate; auto.
  Qed.
End Usable.
Print Assumptions C89_interval_iff_partial.
Print Assumptions C89_reads_iff_partial.
Print Assumptions C89_usable_iff_partial.
(** Beside these: (3, 5] written with a pinhole for its first end is read, its
    complement is not; (2, 8) is no Interval of the API. *)
Example C89_ex3 : let s := [TPoint (Exclude (v 3)); TUpper (Include (v 5))] in
  Forall (fun t => t <> TPoint Infinite) s /\ StronglySorted (fun a b => tine_cmp a b = Lt) s /\ reads false s = true /\
  (exists c, sel_complement true s = Ok c /\ reads false c = false) /\
  interval_lower_bound (mkInterval (Open (v 2) (v 8))) = Some (Exclude (v 2)).
Proof.
  cbv zeta. split; [repeat constructor; discriminate|]. split; [repeat constructor|]. split; [reflexivity|].
  split; [|reflexivity]. eexists. split; [vm_compute; reflexivity|reflexivity].
Qed.

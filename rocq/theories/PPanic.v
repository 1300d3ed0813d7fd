(** * When in-place intersection panics *)
From Coq Require Import List Bool ZArith Lia Sorted.
From Verif Require Import Base OrdFacts Pos MBound MRaw MTine MBTree MTineTree Spec Spec_Tree PRaw PRaw2 PBTree PTree PTreeOps PTreeIsect PTree2 PTree3 PTree4 PTree5 PTree6 PTree7 Spec_Panic.
Import ListNotations.

#[local] Arguments cmp : simpl never.

Section PPanic.
  Context {T : Type} {O : Ord T}.
  Implicit Types (t u : Tine T) (s L R C : list (Tine T)) (p q : pos T) (b c v : bool) (i j k : RawInterval T).

  Definition isect_bad dbg b0 vl c0 c1 vu b1 (il iu : bool) : bool :=
    (c0 && negb c1 && (negb b0 || b1))
    || (negb c0 && c1 && (b0 || negb b1))
    || (negb c0 && negb c1 && (b0 || b1) && (negb (vl && il) && (b0 || vl) || negb (vu && iu) && (b1 || vu)))
    || (dbg && (negb c0 && (vl && il) || negb c1 && (vu && iu))).

  Lemma isect_ends_bad dbg ne lb ub c0 vl c1 c2 vu c3 :
    let l := TLower lb in let u := TUpper ub in
    allowed (loc l) c0 vl c1 -> allowed (loc u) c2 vu c3 -> (ne = false -> c1 = c2) ->
    isect_ends dbg c0 c1 ne c2 c3 (mk (loc l) c0 vl c1) (mk (loc u) c2 vu c3) l u = Panic
    <-> isect_bad dbg c0 vl c1 c2 vu c3 (incl_b lb) (incl_b ub) = true.
  Proof.
    intros l u A1 A2 Hne. subst l u.
    destruct lb as [x|x|], ub as [y|y|]; cbn [loc tine_into_inner allowed] in *;
      repeat match goal with H : _ /\ _ |- _ => destruct H as [-> ->] end;
      repeat match goal with b : bool |- _ => destruct b end;
      try (specialize (Hne eq_refl); discriminate Hne); clear;
      unfold isect_ends, tine_intersect, debug_assert;
      cbn; unfold opt_eqb; rewrite ?eqb_refl; cbn;
      split; intros H; first [reflexivity | discriminate H].
  Qed.

  Definition isect_panic dbg s (l u : Bound T) : bool :=
    let '(b0, vl, c0) := near_lower s l in
    let '(c1, vu, b1) := near_upper s u in
    isect_bad dbg b0 vl c0 c1 vu b1 (incl_b l) (incl_b u).

  (** The call on a proper interval, written with the split tree. *)
  Lemma isect_proper_unfold dbg s i (l u : Bound T) : wf s -> s <> [] -> raw_wf i -> proper i ->
    raw_lower_bound i = Some l -> raw_upper_bound i = Some u ->
    lt (loc (TLower l)) (loc (TUpper u)) /\
    tree_intersect_in_place dbg s i = intersect_proper_interval dbg (TLower l) (TUpper u) s.
  Proof.
    intros W Ne Wi Pi EL EU. unfold tree_intersect_in_place.
    assert (Es : tree_is_empty s = false) by (destruct s; auto; congruence).
    assert (Ef : raw_is_full i = false) by (destruct i; auto; contradiction).
    assert (Ee : raw_is_empty i = false) by (destruct i; auto; contradiction).
    rewrite Es, Ef, Ee. cbn [orb].
    destruct (tines_cases i Wi) as [(-> & E)|[(x & -> & E)|(l' & u' & EL' & EU' & Hlu & E & Hcov)]]; try contradiction.
    assert (l' = l) as -> by congruence. assert (u' = u) as -> by congruence. split; auto.
    rewrite E. destruct i; try contradiction; reflexivity.
  Qed.

  Lemma isect_panic_iff dbg s i (l u : Bound T) : wf s -> s <> [] -> raw_wf i -> proper i ->
    raw_lower_bound i = Some l -> raw_upper_bound i = Some u ->
    tree_intersect_in_place dbg s i = Panic <-> isect_panic dbg s l u = true.
  Proof.
    intros W Ne Wi Pi EL EU. destruct (isect_proper_unfold dbg s i l u) as [Hlu ->]; auto.
    destruct (split2_at (loc (TLower l)) (loc (TUpper u)) s) as [L C R c0 vl c1 c2 vu c3 -> A A' HL HC HR BL AC BC AR SL SC SR];
      auto using loc_tine.
    unfold isect_panic. destruct (near_split l u L C R c0 vl c1 c2 vu c3) as [-> ->]; auto.
    rewrite isect_proper_eq by auto.
    rewrite <- (isect_ends_bad dbg (negb (tree_is_empty C)) l u c0 vl c1 c2 vu c3); auto.
    - destruct (isect_ends _ _ _ _ _ _ _ _ _ _) as [[X Y]|]; cbn [bind]; split; discriminate || reflexivity.
    - destruct C; simpl; [|discriminate]. intros _. simpl in HC. now apply eqb_prop in HC.
  Qed.

  Lemma isect_panic_easy dbg s i : wf s -> ~ proper i -> tree_intersect_in_place dbg s i <> Panic.
  Proof. intros W NP. destruct (isect_in_place_easy dbg s i W NP) as (s' & -> & _). discriminate. Qed.

  Lemma panics_bad dbg s i (lo up : Bound T) : wf s -> proper i ->
    raw_lower_bound i = Some lo -> raw_upper_bound i = Some up ->
    (intersect_panics dbg (pieces None s) i <-> isect_panic dbg s lo up = true).
  Proof.
    intros W P EL EU. unfold isect_panic, isect_bad.
    pose proof (near_lower_spec s lo W) as NL. pose proof (near_upper_spec s up W) as NU.
    destruct (near_lower s lo) as [[b0 vl] c0]. destruct (near_upper s up) as [[c1 vu] b1].
    destruct NL as (L1 & L2 & L3), NU as (U1 & U2 & U3).
    set (l := pieces None s) in *.
    assert (E : intersect_panics dbg l i <->
      ((in_lower l lo /\ ~ in_upper l up /\ (~ out_lower l lo \/ out_upper l up)) \/
       (~ in_lower l lo /\ in_upper l up /\ (out_lower l lo \/ ~ out_upper l up)) \/
       (~ in_lower l lo /\ ~ in_upper l up /\ (out_lower l lo \/ out_upper l up) /\
          (~ (at_lower l lo /\ inclusive lo) /\ (out_lower l lo \/ at_lower l lo) \/
           ~ (at_upper l up /\ inclusive up) /\ (out_upper l up \/ at_upper l up))) \/
       (dbg = true /\ (~ in_lower l lo /\ (at_lower l lo /\ inclusive lo) \/ ~ in_upper l up /\ (at_upper l up /\ inclusive up))))).
    { unfold intersect_panics. destruct i; simpl in P; try contradiction;
        (split; [intros (lo' & up' & E1 & E2 & X);
                 rewrite EL in E1; rewrite EU in E2; inversion E1; inversion E2; subst lo' up'; exact X
                |intros X; exists lo, up; auto]). }
    rewrite E, L1, L2, L3, U1, U2, U3, !inclusive_b. clear.
    generalize (incl_b lo) (incl_b up). intros il iu.
    destruct dbg, b0, vl, c0, c1, vu, b1, il, iu; simpl; intuition congruence.
  Qed.

  Lemma panics_den dbg s i : wf s -> raw_wf i ->
    (tree_intersect_in_place dbg s i = Panic <-> intersect_panics dbg (pieces None s) i).
  Proof.
    intros W Wi.
    assert (P : proper i \/ ~ proper i) by (destruct i; simpl; auto).
    destruct P as [P|P].
    - destruct (raw_bounds_cases i) as [(-> & _)|(lo & up & EL & EU)]; [destruct P|].
      rewrite (panics_bad dbg s i lo up) by auto. destruct s as [|t s].
      + rewrite isect_in_place_empty. split; [discriminate|]. destruct lo, up, dbg; discriminate.
      + apply isect_panic_iff; auto. discriminate.
    - split; [intros E; now apply isect_panic_easy in E|]. destruct i; simpl in *; tauto.
  Qed.

  (** When the tree is absent around both ends the argument's own ends are put
      around what lies between them. *)
  Lemma isect_clear dbg s i (l u : Bound T) : wf s -> s <> [] -> raw_wf i -> proper i ->
    raw_lower_bound i = Some l -> raw_upper_bound i = Some u ->
    near_lower s l = (false, false, false) -> near_upper s u = (false, false, false) ->
    exists C, tree_intersect_in_place dbg s i = Ok (TLower l :: C ++ [TUpper u]) /\ wf C /\
      (forall p, den false C p = den false s p && covers i p).
  Proof.
    intros W Ne Wi Pi EL EU NL NU. destruct (isect_proper_unfold dbg s i l u) as [Hlu ->]; auto.
    destruct (tines_cases i Wi) as [(-> & E)|[(x & -> & E)|(l' & u' & EL' & EU' & _ & E & Hcov)]]; try contradiction.
    assert (l' = l) as -> by congruence. assert (u' = u) as -> by congruence. clear EL' EU'.
    destruct (split2_at (loc (TLower l)) (loc (TUpper u)) s) as [L C R c0 vl c1 c2 vu c3 -> A A' HL HC HR BL AC BC AR SL SC SR];
      auto using loc_tine.
    destruct (near_split l u L C R c0 vl c1 c2 vu c3) as [N1 N2]; auto.
    rewrite N1 in NL. rewrite N2 in NU. injection NL as -> -> ->. injection NU as -> -> ->.
    rewrite isect_proper_eq by auto.
    assert (M1 : mk (loc (TLower l)) false false false = None) by (destruct l; reflexivity).
    assert (M2 : mk (loc (TUpper u)) false false false = None) by (destruct u; reflexivity).
    rewrite M1, M2 in *. exists C. split; [|split].
    - unfold isect_ends. simpl. rewrite !andb_false_r. unfold debug_assert. simpl. rewrite !andb_false_r. reflexivity.
    - split; auto.
    - intros p. change (opt None) with (@nil (Tine T)). simpl.
      generalize (den_split2 p (loc (TLower l)) (loc (TUpper u)) L C R false false false false false false).
      rewrite M1, M2. simpl. intros ->; auto. rewrite Hcov.
      generalize (den_split2 p (loc (TLower l)) (loc (TUpper u)) [] C [] false false false false false false).
      rewrite M1, M2. simpl. rewrite app_nil_r. intros ->; auto; try constructor.
      destruct (cmp p (loc (TLower l))), (cmp p (loc (TUpper u))); rewrite ?andb_false_r, ?andb_true_r; auto.
  Qed.
End PPanic.

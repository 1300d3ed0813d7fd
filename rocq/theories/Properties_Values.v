(** * C102: no operation invents values *)
From Coq Require Import List Bool ZArith.
From Verif Require Import Base MBound MRaw MTine MBTree MTineTree Spec Spec_Key Spec_Values PKey Ints Properties_Tree.
Import ListNotations.

(** ** Restricting a type to the values meeting a predicate *)
Section Restrict.
  Context {T : Type} {C : Cmp T} (P : T -> Prop).
  Let U : Type := {x : T | P x}.
  #[local] Instance restrict_Cmp : Cmp U := {| cmp := fun x y => cmp (proj1_sig x) (proj1_sig y) |}.
  Let f : U -> T := @proj1_sig T P.
  Lemma restrict_by : ordered_by f.
  Proof. intros x y. reflexivity. Qed.

  Lemma bound_up (b : Bound T) : Forall P (bound_values b) -> exists b' : Bound U, b = bound_key f b'.
  Proof.
    destruct b as [x|x|]; intros H; [| |now exists Infinite]; inversion_clear H.
    - now exists (Include (exist _ x H0)).
    - now exists (Exclude (exist _ x H0)).
  Qed.
  Lemma raw_up (i : RawInterval T) : Forall P (raw_values i) -> exists i' : RawInterval U, i = raw_key f i'.
  Proof.
    intros H. destruct i as [|p|l r|l r|l r|l r|p|p|p|p|]; cbn in H;
      [now exists Empty| | | | | | | | | |now exists Full];
      inversion_clear H as [|? ? A B]; try (inversion_clear B as [|? ? B' ?]).
    - now exists (Point (exist _ p A)).
    - now exists (Open (exist _ l A) (exist _ r B')).
    - now exists (LeftOpen (exist _ l A) (exist _ r B')).
    - now exists (RightOpen (exist _ l A) (exist _ r B')).
    - now exists (Closed (exist _ l A) (exist _ r B')).
    - now exists (UpTo (exist _ p A)).
    - now exists (UpFrom (exist _ p A)).
    - now exists (To (exist _ p A)).
    - now exists (From (exist _ p A)).
  Qed.
  Lemma tree_up (s : TineTree T) : Forall P (tree_values s) -> exists s' : TineTree U, s = tree_key f s'.
  Proof.
    induction s as [|t s IH]; intros H; [now exists []|]. unfold tree_values in *. cbn in H. apply Forall_app in H as [A B].
    destruct (IH B) as [s' ->].
    destruct t as [b|b|b]; cbn in A; destruct (bound_up b A) as [b' ->];
      [exists (TLower b' :: s')|exists (TPoint b' :: s')|exists (TUpper b' :: s')]; reflexivity.
  Qed.
  Lemma list_up (l : list (RawInterval T)) : Forall P (flat_map raw_values l) -> exists l' : list (RawInterval U), l = map (raw_key f) l'.
  Proof.
    induction l as [|i l IH]; intros H; [now exists []|]. cbn in H. apply Forall_app in H as [A B].
    destruct (IH B) as [l' ->], (raw_up i A) as [i' ->]. now exists (i' :: l').
  Qed.

  Lemma bound_down (b : Bound U) : Forall P (bound_values (bound_key f b)).
  Proof. destruct b; repeat constructor; apply proj2_sig. Qed.
  Lemma raw_down (i : RawInterval U) : Forall P (raw_values (raw_key f i)).
  Proof. destruct i; repeat constructor; apply proj2_sig. Qed.
  Lemma tree_down (s : TineTree U) : Forall P (tree_values (tree_key f s)).
  Proof.
    unfold tree_values. induction s as [|t s IH]; [constructor|]. cbn. apply Forall_app. split; auto.
    destruct t; apply bound_down.
  Qed.
  Lemma list_down (l : list (RawInterval U)) : Forall P (flat_map raw_values (map (raw_key f) l)).
  Proof. induction l as [|i l IH]; [constructor|]. cbn. apply Forall_app. split; auto using raw_down. Qed.
  Lemma res_down {A B} (g : A -> B) (h : B -> list T) (r : res A) : (forall a, Forall P (h (g a))) -> Forall P (res_values h (res_key g r)).
  Proof. intros H. destruct r; cbn; auto. Qed.
End Restrict.

Section Values.
  Context {T : Type} {C : Cmp T}.

  Lemma incl_by (l l' : list T) : Forall (fun x => In x l') l -> incl l l'.
  Proof. intros H x Hx. exact (proj1 (Forall_forall _ _) H x Hx). Qed.
  Lemma incl_left (l l' : list T) : Forall (fun x => In x (l ++ l')) l.
  Proof. apply Forall_forall. intros x H. apply in_or_app. auto. Qed.
  Lemma incl_right (l l' : list T) : Forall (fun x => In x (l ++ l')) l'.
  Proof. apply Forall_forall. intros x H. apply in_or_app. auto. Qed.
  Lemma incl_self (l : list T) : Forall (fun x => In x l) l.
  Proof. apply Forall_forall. auto. Qed.
End Values.


(** Raw intervals: for any type with any comparison, every value written in a
    result is written in an argument. *)
Theorem C102_raw {T} {C : Cmp T} :
  (forall l u : Bound T, incl (raw_values (raw_new l u)) (bound_values l ++ bound_values u)) /\
  (forall i j : RawInterval T, incl (raw_values (raw_intersect i j)) (raw_values i ++ raw_values j)) /\
  (forall i j : RawInterval T, incl (raw_values (raw_enclose i j)) (raw_values i ++ raw_values j)) /\
  (forall i j : RawInterval T, incl (flat_map raw_values (raw_union i j)) (raw_values i ++ raw_values j)) /\
  (forall i j : RawInterval T, incl (flat_map raw_values (raw_minus i j)) (raw_values i ++ raw_values j)) /\
  (forall i : RawInterval T, incl (flat_map raw_values (raw_complement i)) (raw_values i)) /\
  (forall i : RawInterval T, incl (raw_values (raw_closure i)) (raw_values i)) /\
  (forall l : list (RawInterval T), incl (flat_map raw_values (raw_union_all l)) (flat_map raw_values l)) /\
  (forall l : list (RawInterval T), incl (raw_values (raw_intersect_all l)) (flat_map raw_values l)) /\
  (forall l : list (RawInterval T), incl (raw_values (raw_enclose_all l)) (flat_map raw_values l)).
Proof.
  assert (two : forall (g : forall (U : Type) (CU : Cmp U), RawInterval U -> RawInterval U -> list (RawInterval U)),
    (forall (U V : Type) (CU : Cmp U) (CV : Cmp V) (f : U -> V), ordered_by f -> forall i j, g V CV (raw_key f i) (raw_key f j) = map (raw_key f) (g U CU i j)) ->
    forall i j : RawInterval T, incl (flat_map raw_values (g T C i j)) (raw_values i ++ raw_values j)).
  { intros g Hg i j. apply incl_by.
    destruct (raw_up _ i (incl_left (raw_values i) (raw_values j))) as [i' Ei].
    destruct (raw_up _ j (incl_right (raw_values i) (raw_values j))) as [j' Ej].
    set (P := fun x => In x (raw_values i ++ raw_values j)) in *. rewrite Ei, Ej, (Hg _ _ (restrict_Cmp P) C _ (restrict_by P)).
    apply list_down. }
  assert (many : forall (g : forall (U : Type) (CU : Cmp U), list (RawInterval U) -> list (RawInterval U)),
    (forall (U V : Type) (CU : Cmp U) (CV : Cmp V) (f : U -> V), ordered_by f -> forall l, g V CV (map (raw_key f) l) = map (raw_key f) (g U CU l)) ->
    forall l : list (RawInterval T), incl (flat_map raw_values (g T C l)) (flat_map raw_values l)).
  { intros g Hg l. apply incl_by. destruct (list_up _ l (incl_self _)) as [l' El].
    set (P := fun x => In x (flat_map raw_values l)) in *. rewrite El, (Hg _ _ (restrict_Cmp P) C _ (restrict_by P)). apply list_down. }
  split.
  { intros l u. apply incl_by.
    destruct (bound_up _ l (incl_left (bound_values l) (bound_values u))) as [l' El].
    destruct (bound_up _ u (incl_right (bound_values l) (bound_values u))) as [u' Eu].
    set (P := fun x => In x (bound_values l ++ bound_values u)) in *. rewrite El, Eu.
    rewrite (k_new (CT := restrict_Cmp P)) by apply restrict_by. apply raw_down. }
  split.
  { intros i j. generalize (two (fun U CU i j => [raw_intersect i j])). cbn. intros X. specialize (X (fun U V CU CV f H i j => f_equal (fun k => [k]) (k_intersect f H i j)) i j).
    now rewrite app_nil_r in X. }
  split.
  { intros i j. generalize (two (fun U CU i j => [raw_enclose i j])). cbn. intros X. specialize (X (fun U V CU CV f H i j => f_equal (fun k => [k]) (k_enclose f H i j)) i j).
    now rewrite app_nil_r in X. }
  split; [exact (two (fun U CU => raw_union) (fun U V CU CV f H => k_union f H))|].
  split; [exact (two (fun U CU => raw_minus) (fun U V CU CV f H => k_minus f H))|].
  split; [intros []; cbn; intros x; cbn; tauto|].
  split; [intros []; cbn; intros x; cbn; tauto|].
  split; [exact (many (fun U CU => raw_union_all) (fun U V CU CV f H => k_union_all f H))|].
  split.
  - intros l. generalize (many (fun U CU l => [raw_intersect_all l])). cbn. intros X.
    specialize (X (fun U V CU CV f H l => f_equal (fun k => [k]) (k_intersect_all f H l)) l). now rewrite app_nil_r in X.
  - intros l. generalize (many (fun U CU l => [raw_enclose_all l])). cbn. intros X.
    specialize (X (fun U V CU CV f H l => f_equal (fun k => [k]) (k_enclose_all f H l)) l). now rewrite app_nil_r in X.
Qed.
Print Assumptions C102_raw.

(** Trees, well-formed or not; a panic says nothing. *)
Theorem C102_tree {T} {C : Cmp T} :
  (forall i : RawInterval T, incl (tree_values (tree_from_raw_interval i)) (raw_values i)) /\
  (forall dbg s (i : RawInterval T), incl (res_values tree_values (tree_union_in_place dbg s i)) (tree_values s ++ raw_values i)) /\
  (forall dbg s (i : RawInterval T), incl (res_values tree_values (tree_minus_in_place dbg s i)) (tree_values s ++ raw_values i)) /\
  (forall dbg s (i : RawInterval T), incl (res_values tree_values (tree_intersect_in_place dbg s i)) (tree_values s ++ raw_values i)) /\
  (forall dbg (s o : TineTree T), incl (res_values tree_values (tree_union dbg s o)) (tree_values s ++ tree_values o)) /\
  (forall dbg (s o : TineTree T), incl (res_values tree_values (tree_minus dbg s o)) (tree_values s ++ tree_values o)) /\
  (forall dbg (s o : TineTree T), incl (res_values tree_values (tree_intersect dbg s o)) (tree_values s ++ tree_values o)) /\
  (forall dbg (s : TineTree T), incl (res_values tree_values (tree_complement dbg s)) (tree_values s)) /\
  (forall dbg (s : TineTree T), incl (res_values raw_values (tree_enclose dbg s)) (tree_values s)) /\
  (forall dbg (s : TineTree T), incl (res_values raw_values (tree_closure dbg s)) (tree_values s)) /\
  (forall (s : TineTree T), incl (option_values bound_values (tree_lower_bound s)) (tree_values s)) /\
  (forall (s : TineTree T), incl (option_values bound_values (tree_upper_bound s)) (tree_values s)) /\
  (forall dbg s (l : list (RawInterval T)), incl (res_values tree_values (tree_extend dbg s l)) (tree_values s ++ flat_map raw_values l)) /\
  (forall dbg (s : TineTree T) l, iter_collect dbg (tree_interval_iter s) = Ok l -> incl (flat_map raw_values l) (tree_values s)).
Proof.
  assert (place : forall (g : forall (U : Type) (CU : Cmp U), TineTree U -> RawInterval U -> res (TineTree U)),
    (forall (U V : Type) (CU : Cmp U) (CV : Cmp V) (f : U -> V), ordered_by f ->
       forall s i, g V CV (tree_key f s) (raw_key f i) = res_key (tree_key f) (g U CU s i)) ->
    forall s (i : RawInterval T), incl (res_values tree_values (g T C s i)) (tree_values s ++ raw_values i)).
  { intros g Hg s i. apply incl_by.
    destruct (tree_up _ s (incl_left (tree_values s) (raw_values i))) as [s' Es].
    destruct (raw_up _ i (incl_right (tree_values s) (raw_values i))) as [i' Ei].
    set (P := fun x => In x (tree_values s ++ raw_values i)) in *. rewrite Es, Ei, (Hg _ _ (restrict_Cmp P) C _ (restrict_by P)).
    apply res_down, tree_down. }
  assert (both : forall (g : forall (U : Type) (CU : Cmp U), TineTree U -> TineTree U -> res (TineTree U)),
    (forall (U V : Type) (CU : Cmp U) (CV : Cmp V) (f : U -> V), ordered_by f ->
       forall s o, g V CV (tree_key f s) (tree_key f o) = res_key (tree_key f) (g U CU s o)) ->
    forall s o : TineTree T, incl (res_values tree_values (g T C s o)) (tree_values s ++ tree_values o)).
  { intros g Hg s o. apply incl_by.
    destruct (tree_up _ s (incl_left (tree_values s) (tree_values o))) as [s' Es].
    destruct (tree_up _ o (incl_right (tree_values s) (tree_values o))) as [o' Eo].
    set (P := fun x => In x (tree_values s ++ tree_values o)) in *. rewrite Es, Eo, (Hg _ _ (restrict_Cmp P) C _ (restrict_by P)).
    apply res_down, tree_down. }
  assert (one : forall (g : forall (U : Type) (CU : Cmp U), TineTree U -> res (RawInterval U)),
    (forall (U V : Type) (CU : Cmp U) (CV : Cmp V) (f : U -> V), ordered_by f ->
       forall s, g V CV (tree_key f s) = res_key (raw_key f) (g U CU s)) ->
    forall s : TineTree T, incl (res_values raw_values (g T C s)) (tree_values s)).
  { intros g Hg s. apply incl_by. destruct (tree_up _ s (incl_self _)) as [s' Es].
    set (P := fun x => In x (tree_values s)) in *. rewrite Es, (Hg _ _ (restrict_Cmp P) C _ (restrict_by P)). apply res_down, raw_down. }
  split.
  { intros i. apply incl_by. destruct (raw_up _ i (incl_self _)) as [i' Ei].
    set (P := fun x => In x (raw_values i)) in *. rewrite Ei, (k_tree_from (CT := restrict_Cmp P)) by apply restrict_by. apply tree_down. }
  split; [intros dbg; exact (place (fun U CU => tree_union_in_place dbg) (fun U V CU CV f H => k_union_in_place f H dbg))|].
  split; [intros dbg; exact (place (fun U CU => tree_minus_in_place dbg) (fun U V CU CV f H => k_minus_in_place f H dbg))|].
  split; [intros dbg; exact (place (fun U CU => tree_intersect_in_place dbg) (fun U V CU CV f H => k_intersect_in_place f H dbg))|].
  split; [intros dbg; exact (both (fun U CU => tree_union dbg) (fun U V CU CV f H => k_tree_union f H dbg))|].
  split; [intros dbg; exact (both (fun U CU => tree_minus dbg) (fun U V CU CV f H => k_tree_minus f H dbg))|].
  split; [intros dbg; exact (both (fun U CU => tree_intersect dbg) (fun U V CU CV f H => k_tree_intersect f H dbg))|].
  split.
  { intros dbg s. apply incl_by. destruct (tree_up _ s (incl_self _)) as [s' Es].
    set (P := fun x => In x (tree_values s)) in *. rewrite Es; unfold tree_key; rewrite (k_tree_complement (CT := restrict_Cmp P)) by apply restrict_by. apply res_down, tree_down. }
  split; [intros dbg; exact (one (fun U CU => tree_enclose dbg) (fun U V CU CV f H => k_tree_enclose f H dbg))|].
  split; [intros dbg; exact (one (fun U CU => tree_closure dbg) (fun U V CU CV f H => k_tree_closure f H dbg))|].
  split.
  { intros s. apply incl_by. destruct (tree_up _ s (incl_self _)) as [s' Es].
    set (P := fun x => In x (tree_values s)) in *. rewrite Es; unfold tree_key; rewrite k_tree_lower. destruct (tree_lower_bound s'); cbn; [apply bound_down|constructor]. }
  split.
  { intros s. apply incl_by. destruct (tree_up _ s (incl_self _)) as [s' Es].
    set (P := fun x => In x (tree_values s)) in *. rewrite Es; unfold tree_key; rewrite k_tree_upper. destruct (tree_upper_bound s'); cbn; [apply bound_down|constructor]. }
  split.
  { intros dbg s l. apply incl_by.
    destruct (tree_up _ s (incl_left (tree_values s) (flat_map raw_values l))) as [s' Es].
    destruct (list_up _ l (incl_right (tree_values s) (flat_map raw_values l))) as [l' El].
    set (P := fun x => In x (tree_values s ++ flat_map raw_values l)) in *.
    rewrite Es, El; unfold tree_key; rewrite (k_tree_extend (CT := restrict_Cmp P)) by apply restrict_by. apply res_down, tree_down. }
  intros dbg s l E. apply incl_by. destruct (tree_up _ s (incl_self _)) as [s' Es].
  set (P := fun x => In x (tree_values s)) in *. rewrite Es in E; unfold tree_key in E; rewrite k_tree_iter in E. unfold iter_collect in E.
  pose proof (k_fold_iter (CT := restrict_Cmp P) (proj1_sig (P := P)) (restrict_by P) (map (raw_key (proj1_sig (P := P)))) dbg
    (fun acc i => Ok (i :: acc)) (fun acc i => Ok (i :: acc)) (fun a i => eq_refl) (tree_interval_iter s') []) as K.
  cbn [map] in K. change (@sig T (fun x : T => P x)) with (@sig T P) in K. rewrite K in E. clear K.
  destruct (iter_fold dbg _ (tree_interval_iter s') []) as [l'|]; cbn in E; [|discriminate]. injection E as <-.
  rewrite <- map_rev. apply list_down.
Qed.
Print Assumptions C102_tree.

(** The bound is met: an operation whose result mentions values of both sides,
    on a type and in a state where none of them has to be well-formed. *)
Local Open Scope Z_scope.
Example C102_ex :
  raw_values (raw_enclose (Open 1 5) (Closed 3 9)) = [1; 9] /\
  res_values tree_values (tree_minus_in_place true [TLower (Include 0); TUpper (Include 9)] (Open 3 5)) = [0; 3; 5; 9] /\
  iter_collect true (tree_interval_iter [TLower (Include 0); TPoint (Exclude 4); TUpper (Include 9)]) = Ok [RightOpen 0 4; LeftOpen 4 9].
Proof. repeat split. Qed.

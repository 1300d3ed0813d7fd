(** * What encloses an ordered sequence of tines: C115, continued *)
From Coq Require Import List Bool ZArith Sorted.
From Verif Require Import Base OrdFacts Pos MBound MRaw MNormalize MTine MBTree MTineTree MInterval MSelection
  Spec Spec_Tree Spec_Take Spec_Take5 PRaw PBTree PTree PTree2 PTree4 PMirror PNorm Properties_Serde3 Properties_Serde8 Instances.
Import ListNotations.
Local Open Scope list_scope.

Section Enclose.
  Context {T : Type} {O : Ord T}.
  Implicit Types (s q : list (Tine T)) (t u o : Tine T) (r : RawInterval T).

  Lemma asc_cons t s : asc (t :: s) -> okt t = true /\ asc s /\ forall u, In u s -> lt (loc t) (loc u).
  Proof. intros [S F]. inversion S as [|? ? S1 S2]; inversion F; subst. rewrite Forall_forall in S2. repeat split; auto. Qed.

  (** Both ends of an interval that is taken are tines of the sequence, neither the infinite end of the other side. *)
  Definition from s r : Prop := exists o t, In o s /\ In t s /\ loc o <> PInf /\ loc t <> NInf /\
    forall x, raw_contains r x = true -> above (bound_of o) x /\ below (bound_of t) x.
  Lemma apart o t x : lt (loc o) (loc t) -> raw_contains (raw_new (bound_of o) (bound_of t)) x = true -> above (bound_of o) x /\ below (bound_of t) x.
  Proof.
    intros L H. apply raw_new_contains in H as [H|H]; auto. exfalso.
    destruct o as [[]|[]|[]], t as [[]|[]|[]]; cbn in H; try contradiction; destruct H as [-> ->]; now apply (plt_irrefl _ L).
  Qed.
  Lemma lt_ends (p q : pos T) : lt p q -> p <> PInf /\ q <> NInf.
  Proof. intros L. split; intros ->; [now apply (nothing_above_PInf _ L)|now apply (nothing_below_NInf _ L)]. Qed.
  Lemma takes_from dbg s r q : asc s -> takes dbg s r q -> from s r /\ incl q s /\ asc q.
  Proof.
    intros A. destruct 1 as [p s|o t s|o y s]; apply asc_cons in A as (_ & A & L).
    - split; [|split; [intros u; cbn [In]; tauto|auto]].
      exists (TPoint (Include p)), (TPoint (Include p)). cbn [In]. split; auto. split; auto. split; [discriminate|]. split; [discriminate|].
      intros x H. cbn in *. apply (proj1 (OrdFacts.eqb_iff x p)) in H. subst. split; order.
    - pose proof (L t (or_introl eq_refl)) as Lt. destruct (lt_ends _ _ Lt). split; [|split; [intros u; cbn [In]; tauto|now apply asc_cons in A]].
      exists o, t. cbn [In]. do 4 (split; [auto|]). intros x H'. now apply apart.
    - pose proof (L _ (or_introl eq_refl)) as Lt. destruct (lt_ends _ _ Lt). split; [|split; [intros u; cbn [In]; tauto|auto]].
      exists o, (TPoint (Exclude y)). cbn [In]. do 4 (split; [auto|]). intros x H'. now apply apart.
  Qed.
  Lemma took_from dbg s l q : took dbg s l q -> asc s -> forall r, In r l -> from s r.
  Proof.
    induction 1 as [|s r s' l s'' Tk _ IH]; intros A r0 Ir; [destruct Ir|]. destruct (takes_from _ _ _ _ A Tk) as (H & In' & A'). destruct Ir as [E|I'].
    - now subst.
    - destruct (IH A' r0 I') as (o & t & Io & It & K). exists o, t. auto.
  Qed.

  Lemma above_later t u x : lt (loc t) (loc u) -> loc u <> PInf -> above (bound_of u) x -> above (bound_of t) x.
  Proof.
    intros L N. destruct t as [[]|[]|[]], u as [[]|[]|[]]; cbn in *; auto; try (now destruct N); try discriminate L; intros H; match type of L with lt (At ?a) (At ?b) => change (lt a b) in L; order end.
  Qed.
  Lemma below_earlier t u x : lt (loc t) (loc u) -> loc t <> NInf -> below (bound_of t) x -> below (bound_of u) x.
  Proof.
    intros L N. destruct t as [[]|[]|[]], u as [[]|[]|[]]; cbn in *; auto; try (now destruct N); try discriminate L; intros H; match type of L with lt (At ?a) (At ?b) => change (lt a b) in L; order end.
  Qed.

  (** Every value it contains is in the enclosing interval. *)
  Theorem C115_enclose_any dbg s x : in_order s -> tree_contains dbg s x = Ok true ->
    exists r, tree_enclose dbg s = Ok r /\ raw_contains r x = true.
  Proof.
    intros A H. apply in_order_asc in A. apply (C115_iter_exact dbg s) in H as (l & s' & r & Tl & Ir & H).
    destruct s as [|t [|u s]].
    - inversion Tl as [|? ? ? ? ? Tk]; subst; [contradiction|inversion Tk].
    - inversion Tl as [|? ? ? ? ? Tk Tl']; subst; [contradiction|]. inversion Tk; subst. inversion Tl' as [|? ? ? ? ? Tk']; subst; [|inversion Tk'].
      destruct Ir as [<-|[]]. exists (Point p). split; auto. unfold tree_enclose. cbn. now destruct dbg.
    - destruct (took_from _ _ _ _ Tl A r Ir) as (o & e & Io & Ie & No & Ne & K). destruct (K x H) as [Ho He].
      destruct (snoc_cases (u :: s)) as [E|(m & v & E)]; [discriminate|]. rewrite E in *. unfold tree_enclose.
      destruct (m ++ [v]) as [|u0 s0] eqn:Em; [destruct m; discriminate|]. rewrite <- Em, last_app_one. eexists. split; [reflexivity|].
      apply raw_new_contains. left. rewrite <- Em in *. split.
      + apply asc_cons in A as (_ & _ & L). destruct Io as [<-|Io]; [now destruct t|]. specialize (L o Io).
        pose proof (above_later _ _ _ L No Ho). now destruct t.
      + change (t :: m ++ [v]) with ((t :: m) ++ [v]) in *. apply asc_app in A as (_ & _ & L). apply in_app_or in Ie as [Ie|[<-|[]]].
        * rewrite Forall_forall in L. specialize (L e Ie). inversion L as [|? ? L' _]; subst. pose proof (below_earlier _ _ _ L' Ne He). now destruct v.
        * now destruct v.
  Qed.

  (** And it holds nothing else than what lies between the first and the last tine; it panics exactly where [complement] does. *)
  Theorem C115_enclose_exact dbg s : in_order s ->
    (tree_enclose dbg s = Panic <-> stuck dbg s) /\
    (s = [] -> tree_enclose dbg s = Ok Empty) /\
    (forall t, s = [t] -> ~ stuck dbg s -> exists p, tree_enclose dbg s = Ok (Point p) /\ (bound_of t = Include p \/ bound_of t = Exclude p)) /\
    (forall t m u, s = t :: m ++ [u] -> exists r, tree_enclose dbg s = Ok r /\ raw_wf r /\
       forall y, raw_contains r y = true <-> above (bound_of t) y /\ below (bound_of u) y).
  Proof.
    intros A. apply in_order_asc in A.
    assert (Two : forall t m u, s = t :: m ++ [u] -> exists r, tree_enclose dbg s = Ok r /\ raw_wf r /\
       forall y, raw_contains r y = true <-> above (bound_of t) y /\ below (bound_of u) y).
    { intros t m u ->. apply asc_cons in A as (_ & _ & L). assert (Iu : In u (m ++ [u])) by (apply in_or_app; right; now left). specialize (L u Iu). clear Iu.
      exists (raw_new (bound_of t) (bound_of u)). split; [|split; [apply raw_new_wf|]].
      - unfold tree_enclose. destruct (m ++ [u]) as [|u0 s0] eqn:Em; [destruct m; discriminate|]. rewrite <- Em, last_app_one. now destruct t, u.
      - intros y. split; [now apply apart|]. intros H. apply raw_new_contains. now left. }
    assert (One : forall t, s = [t] -> ~ stuck dbg s -> exists p, tree_enclose dbg s = Ok (Point p) /\ (bound_of t = Include p \/ bound_of t = Exclude p)).
    { intros t -> N. assert (D : dbg && negb (is_point_include t) = false).
      { destruct dbg; auto. destruct t as [[]|[]|[]]; auto; exfalso; apply N; eexists; (split; [reflexivity|]); right; (split; [auto|]); intros [p X]; discriminate X. }
      assert (Fi : bound_of t <> Infinite) by (intros X; apply N; exists t; auto).
      unfold tree_enclose, debug_assert. rewrite D. cbn [bind]. destruct t as [[p|p|]|[p|p|]|[p|p|]]; try (now destruct Fi); exists p; auto. }
    split; [|split; [|split]]; auto; [|now intros ->]. split.
    - intros E. destruct s as [|t s']; [discriminate E|]. destruct (snoc_cases s') as [->|(m & u & ->)].
      + exists t. split; auto. unfold tree_enclose, debug_assert in E.
        destruct t as [[p|p|]|[p|p|]|[p|p|]]; auto; right; destruct dbg; try discriminate E; (split; [auto|]); intros [q X]; discriminate X.
      + destruct (Two t m u eq_refl) as (r & X & _). congruence.
    - intros (t & -> & [E|[-> N]]).
      + destruct t as [[]|[]|[]]; try discriminate E; destruct dbg; reflexivity.
      + destruct t as [[]|[]|[]]; try reflexivity. destruct N. eexists; reflexivity.
  Qed.
End Enclose.
Print Assumptions C115_enclose_any.
Print Assumptions C115_enclose_exact.

Section Selection.
  Context {T : Type} {O : Ord T} {F : Finite T}.

  (** The same for a Selection: what [enclose] returns holds every value of the Selection; it panics exactly if the lone tine is not a value. *)
  Theorem C115_selection_enclose dbg (s : Selection T) : in_order s ->
    (sel_enclose dbg s = Panic <-> stuck dbg s) /\
    forall x, sel_contains dbg s x = Ok true -> exists i, sel_enclose dbg s = Ok i /\ interval_contains i x = true.
  Proof.
    intros A. unfold sel_enclose, interval_contains. split.
    - rewrite <- (proj1 (C115_enclose_exact dbg s A)). destruct (tree_enclose dbg s); cbn [bind]; split; auto; discriminate.
    - intros x H. destruct (C115_enclose_any dbg s x A H) as (r & -> & K). cbn [bind]. eexists. split; [reflexivity|]. cbn. now rewrite normalized_contains.
  Qed.
End Selection.
Print Assumptions C115_selection_enclose.

(** Two lower ends in a row: a release build reads [1, 4). *)
Example C115_enclose_ex : let s := [TLower (Include 1); TLower (Exclude 4)]%Z in
  in_order s /\ tree_contains false s 2%Z = Ok true /\ tree_enclose false s = Ok (RightOpen 1 4)%Z.
Proof. cbv zeta. split; [|split; reflexivity]. split; [repeat constructor|]. intros [X|[X|[]]]; discriminate X. Qed.

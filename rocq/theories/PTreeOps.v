(** * In-place union and difference on a split tree *)
From Coq Require Import List Bool ZArith Lia Sorted.
From Verif Require Import Base OrdFacts Pos MBound MRaw MTine MBTree MTineTree Spec PRaw PRaw2 PBTree PTree.
Import ListNotations.

#[local] Arguments cmp : simpl never.

Section PTreeOps.
  Context {T : Type} {O : Ord T}.
  Implicit Types (t u : Tine T) (s L R C : list (Tine T)) (p q : pos T) (b c v : bool).

  Lemma eqb_refl (x : T) : eqb x x = true.
  Proof. unfold eqb. now rewrite cmp_refl. Qed.

  Lemma ext_point t L o R :
    okt t = true -> bl (loc t) L -> at_loc (loc t) o -> ab (loc t) R ->
    exterior_split_for_point_interval t (L ++ opt o ++ R) = ((btree_last L, o, btree_first R), L ++ R).
  Proof.
    intros K HL Ho HR. unfold exterior_split_for_point_interval.
    rewrite take_split, split_off_split, (append_split (loc t)) by auto. reflexivity.
  Qed.

  Lemma ext_proper l u L ol C ou R :
    okt l = true -> okt u = true -> lt (loc l) (loc u) ->
    bl (loc l) L -> at_loc (loc l) ol -> ab (loc l) C -> bl (loc u) C -> at_loc (loc u) ou -> ab (loc u) R ->
    exterior_split_for_proper_interval l u (L ++ opt ol ++ C ++ opt ou ++ R)
      = ((btree_last L, ol, ou, btree_first R), L ++ R).
  Proof.
    intros Kl Ku Hlu HL Hol HC HC' Hou HR. unfold exterior_split_for_proper_interval.
    assert (HR' : ab (loc l) R) by (eapply ab_weaken; eauto).
    assert (HL' : bl (loc u) L) by (eapply bl_weaken; eauto).
    assert (HCR : ab (loc l) (C ++ opt ou ++ R)).
    { apply ab_app. split; auto. apply ab_app. split; auto. destruct ou; repeat constructor; destruct Hou as [? E]; auto.
      now rewrite E. }
    rewrite (take_split l L ol (C ++ opt ou ++ R)) by auto.
    rewrite app_assoc, (take_split u (L ++ C) ou R), <- app_assoc by (auto; apply bl_app; auto).
    rewrite (split_off_split l L (C ++ R)), (split_off_split u C R), (append_split (loc l)) by (auto; apply ab_app; auto).
    reflexivity.
  Qed.

  Ltac ins L :=
    repeat first
      [ rewrite (insert_split _ L _) by (first [reflexivity | assumption | constructor; auto]) ].

  (** ** Union *)
  Lemma union_point_eq dbg x L R c0 v c1 :
    chain false L c0 = true -> chain c1 R false = true -> bl (At x) L -> ab (At x) R ->
    union_point_interval dbg (TPoint (Include x)) (L ++ opt (mk (At x) c0 v c1) ++ R)
      = Ok (L ++ opt (mk (At x) c0 true c1) ++ R).
  Proof.
    intros HL HR BL AR. unfold union_point_interval.
    rewrite (ext_point (TPoint (Include x)) L (mk (At x) c0 v c1) R) by (auto; apply (mk_at (At x))).
    rewrite (chain_last L c0 HL), (chain_first R c1 HR).
    destruct c0, v, c1; cbn [mk opt app]; unfold tine_union, debug_assert; simpl; rewrite ?eqb_refl; simpl;
      destruct dbg; simpl; auto;
      rewrite (insert_split _ L R) by auto; reflexivity.
  Qed.

  Lemma insert2 t u L R :
    okt t = true -> okt u = true -> lt (loc t) (loc u) -> bl (loc t) L -> ab (loc u) R ->
    btree_insert u (btree_insert t (L ++ R)) = L ++ t :: u :: R.
  Proof.
    intros Kt Ku H HL HR. rewrite (insert_split t L R) by (auto; eapply ab_weaken; eauto).
    change (L ++ t :: R) with (L ++ [t] ++ R). rewrite app_assoc, (insert_split u (L ++ [t]) R); auto.
    - rewrite <- app_assoc. reflexivity.
    - apply bl_app. split; [eapply bl_weaken; eauto|]. repeat constructor; auto.
  Qed.

  Lemma union_proper_eq dbg lb ub L C R c0 vl c1 c2 vu c3 :
    let l := TLower lb in let u := TUpper ub in
    lt (loc l) (loc u) ->
    allowed (loc l) c0 vl c1 -> allowed (loc u) c2 vu c3 ->
    chain false L c0 = true -> chain c3 R false = true ->
    bl (loc l) L -> ab (loc l) C -> bl (loc u) C -> ab (loc u) R ->
    union_proper_interval dbg l u (L ++ opt (mk (loc l) c0 vl c1) ++ C ++ opt (mk (loc u) c2 vu c3) ++ R)
      = Ok (L ++ opt (mk (loc l) c0 (vl || incl_b lb) true) ++ opt (mk (loc u) true (vu || incl_b ub) c3) ++ R).
  Proof.
    intros l u Hlu A1 A2 HL HR BL AC BC AR. unfold union_proper_interval.
    rewrite (ext_proper l u) by (auto; apply mk_at).
    rewrite (chain_last L c0 HL), (chain_first R c3 HR). clear HL HR.
    assert (I1 : btree_insert l (L ++ R) = L ++ l :: R).
    { apply insert_split; auto. eapply ab_weaken; eauto. }
    assert (I2 : btree_insert u (L ++ R) = L ++ u :: R).
    { apply insert_split; auto. eapply bl_weaken; eauto. }
    assert (J1 : forall t, okt t = true -> loc t = loc l -> btree_insert t (L ++ R) = L ++ t :: R).
    { intros t K E. apply insert_split; auto; rewrite E; auto. eapply ab_weaken; eauto. }
    assert (J2 : forall t, okt t = true -> loc t = loc u -> btree_insert t (L ++ R) = L ++ t :: R).
    { intros t K E. apply insert_split; auto; rewrite E; auto. eapply bl_weaken; eauto. }
    assert (J : forall t t', okt t = true -> okt t' = true -> loc t = loc l -> loc t' = loc u ->
      btree_insert t' (L ++ t :: R) = L ++ t :: t' :: R).
    { intros t t' K K' E E'. change (L ++ t :: R) with (L ++ [t] ++ R). rewrite app_assoc, (insert_split t' (L ++ [t]) R); auto.
      - rewrite <- app_assoc. reflexivity.
      - rewrite E'. apply bl_app. split; [eapply bl_weaken; eauto|]. repeat constructor; auto. now rewrite E.
      - now rewrite E'. }
    clear BL AC BC AR. subst l u.
    destruct lb as [x|x|], ub as [y|y|]; cbn [loc tine_into_inner allowed] in *;
      repeat match goal with H : _ /\ _ |- _ => destruct H as [-> ->] end; clear Hlu I1 I2;
      repeat match goal with b : bool |- _ => lazymatch b with dbg => fail | _ => destruct b end end;
      cbn [mk negb andb opt app incl_b orb]; unfold tine_union, debug_assert; cbn [opt_eqb tine_as_ref bound_as_ref];
      rewrite ?eqb_refl; destruct dbg; cbn -[btree_insert];
      repeat first [ rewrite J1 by reflexivity | rewrite J by reflexivity | rewrite J2 by reflexivity ];
      reflexivity.
  Qed.

  (** ** Difference *)

  (** The point operation, when the tree has no excluding tine at [x]. *)
  Lemma minus_point_eq dbg x L R c0 v c1 :
    v || (negb c0 && negb c1) = true ->
    chain false L c0 = true -> chain c1 R false = true -> bl (At x) L -> ab (At x) R ->
    minus_point_interval dbg (TPoint (Include x)) (L ++ opt (mk (At x) c0 v c1) ++ R)
      = Ok (L ++ opt (mk (At x) c0 false c1) ++ R).
  Proof.
    intros G HL HR BL AR. unfold minus_point_interval.
    rewrite (ext_point (TPoint (Include x)) L (mk (At x) c0 v c1) R) by (auto; apply (mk_at (At x))).
    rewrite (chain_last L c0 HL), (chain_first R c1 HR).
    destruct c0, v, c1; try discriminate G; cbn [mk opt app]; unfold tine_minus, debug_assert; simpl; rewrite ?eqb_refl; simpl;
      destruct dbg; simpl; auto;
      rewrite (insert_split _ L R) by auto; reflexivity.
  Qed.

  (** When it has one, the result is malformed. *)
  Lemma minus_point_bad dbg x L R c0 c1 :
    c0 || c1 = true ->
    chain false L c0 = true -> chain c1 R false = true -> bl (At x) L -> ab (At x) R ->
    minus_point_interval dbg (TPoint (Include x)) (L ++ opt (mk (At x) c0 false c1) ++ R)
      = Ok (L ++ (if c0 && c1 then [TPoint (Include x)] else []) ++ R).
  Proof.
    intros G HL HR BL AR. unfold minus_point_interval.
    rewrite (ext_point (TPoint (Include x)) L (mk (At x) c0 false c1) R) by (auto; apply (mk_at (At x))).
    rewrite (chain_last L c0 HL), (chain_first R c1 HR).
    destruct c0, c1; try discriminate G; cbn [mk opt app]; unfold tine_minus, debug_assert; simpl; rewrite ?eqb_refl; simpl;
      destruct dbg; simpl; auto;
      rewrite (insert_split _ L R) by auto; reflexivity.
  Qed.

  (** The value left at an end point of the removed interval: that of the
      difference, except that a hole is filled. *)
  Definition minus_at c v c' (d : Bound T) : bool :=
    if c && negb v && c' then true else v && negb (incl_b d).

  Lemma minus_proper_eq dbg lb ub L C R c0 vl c1 c2 vu c3 :
    let l := TLower lb in let u := TUpper ub in
    lt (loc l) (loc u) ->
    allowed (loc l) c0 vl c1 -> allowed (loc u) c2 vu c3 ->
    chain false L c0 = true -> chain c3 R false = true ->
    bl (loc l) L -> ab (loc l) C -> bl (loc u) C -> ab (loc u) R ->
    minus_proper_interval dbg l u (L ++ opt (mk (loc l) c0 vl c1) ++ C ++ opt (mk (loc u) c2 vu c3) ++ R)
      = Ok (L ++ opt (mk (loc l) c0 (minus_at c0 vl c1 lb) false) ++ opt (mk (loc u) false (minus_at c2 vu c3 ub) c3) ++ R).
  Proof.
    intros l u Hlu A1 A2 HL HR BL AC BC AR. unfold minus_proper_interval.
    rewrite (ext_proper l u) by (auto; apply mk_at).
    rewrite (chain_last L c0 HL), (chain_first R c3 HR). clear HL HR.
    assert (J1 : forall t, okt t = true -> loc t = loc l -> btree_insert t (L ++ R) = L ++ t :: R).
    { intros t K E. apply insert_split; auto; rewrite E; auto. eapply ab_weaken; eauto. }
    assert (J2 : forall t, okt t = true -> loc t = loc u -> btree_insert t (L ++ R) = L ++ t :: R).
    { intros t K E. apply insert_split; auto; rewrite E; auto. eapply bl_weaken; eauto. }
    assert (J : forall t t', okt t = true -> okt t' = true -> loc t = loc l -> loc t' = loc u ->
      btree_insert t' (L ++ t :: R) = L ++ t :: t' :: R).
    { intros t t' K K' E E'. change (L ++ t :: R) with (L ++ [t] ++ R). rewrite app_assoc, (insert_split t' (L ++ [t]) R); auto.
      - rewrite <- app_assoc. reflexivity.
      - rewrite E'. apply bl_app. split; [eapply bl_weaken; eauto|]. repeat constructor; auto. now rewrite E.
      - now rewrite E'. }
    assert (J' : forall t t', okt t = true -> okt t' = true -> loc t = loc l -> loc t' = loc u ->
      btree_insert t (L ++ t' :: R) = L ++ t :: t' :: R).
    { intros t t' K K' E E'. apply insert_split; auto; rewrite E; auto. constructor; [|eapply ab_weaken; eauto].
      split; auto. now rewrite E'. }
    clear BL AC BC AR. subst l u.
    destruct lb as [x|x|], ub as [y|y|]; cbn [loc tine_into_inner allowed] in *;
      repeat match goal with H : _ /\ _ |- _ => destruct H as [-> ->] end; clear Hlu;
      repeat match goal with b : bool |- _ => lazymatch b with dbg => fail | _ => destruct b end end;
      cbn [mk negb andb opt app incl_b orb minus_at]; unfold tine_minus, debug_assert; cbn [opt_eqb tine_as_ref bound_as_ref];
      rewrite ?eqb_refl; destruct dbg; cbn -[btree_insert];
      repeat first [ rewrite J1 by reflexivity | rewrite J by reflexivity | rewrite J' by reflexivity | rewrite J2 by reflexivity ];
      reflexivity.
  Qed.
End PTreeOps.

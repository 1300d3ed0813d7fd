(** * Proofs about tines and the ordered set of tines *)
From Coq Require Import List Bool ZArith Lia Sorted.
From Verif Require Import Base OrdFacts Pos MBound MRaw MTine MBTree MTineTree Spec PRaw.
Import ListNotations.

Section PBTree.
  Context {T : Type} {O : Ord T}.
  Implicit Types (t u : Tine T) (s L R C : list (Tine T)) (p q : pos T) (b c : bool).

  (** A tine that is not the meaningless [Point(Infinite)]. *)
  Definition okt t : bool := match t with TPoint Infinite => false | _ => true end.

  (** Where a tine sits. *)
  Definition loc t : pos T :=
    match tine_into_inner t with
    | Include x | Exclude x => At x
    | Infinite => match t with TUpper _ => PInf | _ => NInf end
    end.

  Lemma tine_partial_cmp_loc t u : okt t = true -> okt u = true -> tine_partial_cmp t u = Ok (cmp (loc t) (loc u)).
  Proof. destruct t as [[]|[]|[]], u as [[]|[]|[]]; simpl; try discriminate; reflexivity. Qed.
  Lemma tine_cmp_loc t u : okt t = true -> okt u = true -> tine_cmp t u = cmp (loc t) (loc u).
  Proof. intros. unfold tine_cmp. now rewrite tine_partial_cmp_loc. Qed.

  (** ** Positions of pieces of a set *)
  Definition bl q s : Prop := Forall (fun t => okt t = true /\ lt (loc t) q) s.
  Definition ab q s : Prop := Forall (fun t => okt t = true /\ lt q (loc t)) s.

  Lemma plt_trans p q r : lt p q -> lt q r -> lt p r.
  Proof. apply cmp_lt_trans. Qed.
  Lemma plt_irrefl p : ~ lt p p.
  Proof. apply lt_irrefl. Qed.

  Lemma bl_weaken p q s : lt p q -> bl p s -> bl q s.
  Proof. intros H. apply Forall_impl. intros t [? ?]. split; auto. eapply plt_trans; eauto. Qed.
  Lemma ab_weaken p q s : lt p q -> ab q s -> ab p s.
  Proof. intros H. apply Forall_impl. intros t [? ?]. split; auto. eapply plt_trans; eauto. Qed.
  Lemma bl_app q L R : bl q (L ++ R) <-> bl q L /\ bl q R.
  Proof. apply Forall_app. Qed.
  Lemma ab_app q L R : ab q (L ++ R) <-> ab q L /\ ab q R.
  Proof. apply Forall_app. Qed.

  Definition opt (o : option (Tine T)) : list (Tine T) := match o with Some t => [t] | None => [] end.

  Definition at_loc q (o : option (Tine T)) : Prop :=
    match o with Some t => okt t = true /\ loc t = q | None => True end.

  (** ** The set operations on a set split at the key *)
  Lemma take_split t L o R :
    okt t = true -> bl (loc t) L -> at_loc (loc t) o -> ab (loc t) R ->
    btree_take t (L ++ opt o ++ R) = (o, L ++ R).
  Proof.
    intros K HL Ho HR. induction L as [|a L IH]; simpl.
    - destruct o as [u|]; simpl.
      + destruct Ho as [Ku Eu]. now rewrite (tine_cmp_loc t u), Eu, cmp_refl by auto.
      + destruct R as [|r R]; simpl; auto. inversion HR as [|? ? [Kr Hr] _]; subst.
        rewrite (tine_cmp_loc t r) by auto. unfold lt in Hr. now rewrite Hr.
    - inversion HL as [|? ? [Ka Ha] HL']; subst.
      rewrite (tine_cmp_loc t a) by auto. unfold lt in Ha. rewrite (proj2 (cmp_gt_lt _ _) Ha).
      now rewrite IH.
  Qed.

  Lemma split_off_split t L R :
    okt t = true -> bl (loc t) L -> ab (loc t) R -> btree_split_off t (L ++ R) = (L, R).
  Proof.
    intros K HL HR. induction L as [|a L IH]; simpl.
    - destruct R as [|r R]; simpl; auto. inversion HR as [|? ? [Kr Hr] _]; subst.
      rewrite (tine_cmp_loc t r) by auto. unfold lt in Hr. now rewrite Hr.
    - inversion HL as [|? ? [Ka Ha] HL']; subst.
      rewrite (tine_cmp_loc t a) by auto. unfold lt in Ha. rewrite (proj2 (cmp_gt_lt _ _) Ha).
      now rewrite IH.
  Qed.

  Lemma insert_split t L R :
    okt t = true -> bl (loc t) L -> ab (loc t) R -> btree_insert t (L ++ R) = L ++ t :: R.
  Proof.
    intros K HL HR. induction L as [|a L IH]; simpl.
    - destruct R as [|r R]; simpl; auto. inversion HR as [|? ? [Kr Hr] _]; subst.
      rewrite (tine_cmp_loc t r) by auto. unfold lt in Hr. now rewrite Hr.
    - inversion HL as [|? ? [Ka Ha] HL']; subst.
      rewrite (tine_cmp_loc t a) by auto. unfold lt in Ha. rewrite (proj2 (cmp_gt_lt _ _) Ha).
      now rewrite IH.
  Qed.

  Lemma append_split q L R : bl q L -> ab q R -> btree_append L R = L ++ R.
  Proof.
    intros HL HR. induction L as [|a L IH].
    - destruct R; reflexivity.
    - inversion HL as [|? ? [Ka Ha] HL']; subst. destruct R as [|r R].
      + simpl. now rewrite app_nil_r.
      + inversion HR as [|? ? [Kr Hr] _]; subst. specialize (IH HL').
        simpl. rewrite (tine_cmp_loc a r) by auto.
        assert (E : lt (loc a) (loc r)) by (eapply plt_trans; eauto).
        unfold lt in E. rewrite E. f_equal. exact IH.
  Qed.

  Lemma last_app_one L t : btree_last (L ++ [t]) = Some t.
  Proof. induction L as [|a L IH]; simpl; auto. destruct (L ++ [t]) eqn:E; auto. now destruct L. Qed.
  Lemma rest_back_app_one L t : btree_rest_back (L ++ [t]) = L.
  Proof. induction L as [|a L IH]; simpl; auto. destruct (L ++ [t]) eqn:E; [now destruct L|]. now rewrite IH. Qed.
  Lemma snoc_cases s : s = [] \/ exists s' t, s = s' ++ [t].
  Proof. induction s as [|t s' _] using rev_ind; eauto. Qed.
End PBTree.

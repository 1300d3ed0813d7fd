(** * In-place intersection on a split tree *)
From Coq Require Import List Bool ZArith Lia Sorted.
From Verif Require Import Base OrdFacts Pos MBound MRaw MTine MBTree MTineTree Spec PRaw PRaw2 PBTree PTree PTreeOps.
Import ListNotations.

#[local] Arguments cmp : simpl never.

Section PTreeIsect.
  Context {T : Type} {O : Ord T}.
  Implicit Types (t u : Tine T) (s L R C : list (Tine T)) (p q : pos T) (b c v : bool).

  Lemma int_proper dbg l u L ol C ou R :
    okt l = true -> okt u = true -> lt (loc l) (loc u) ->
    bl (loc l) L -> at_loc (loc l) ol -> ab (loc l) C -> bl (loc u) C -> at_loc (loc u) ou -> ab (loc u) R ->
    interior_split_for_proper_interval dbg l u (L ++ opt ol ++ C ++ opt ou ++ R)
      = Ok ((btree_last L, btree_first C, ol, ou, btree_last C, btree_first R), C).
  Proof.
    intros Kl Ku Hlu HL Hol HC HC' Hou HR. unfold interior_split_for_proper_interval.
    assert (HR' : ab (loc l) R) by (eapply ab_weaken; eauto).
    assert (HL' : bl (loc u) L) by (eapply bl_weaken; eauto).
    assert (HCR : ab (loc l) (C ++ opt ou ++ R)).
    { apply ab_app. split; auto. apply ab_app. split; auto. destruct ou; repeat constructor; destruct Hou as [? E]; auto.
      now rewrite E. }
    rewrite (take_split l L ol (C ++ opt ou ++ R)) by auto.
    rewrite app_assoc, (take_split u (L ++ C) ou R), <- app_assoc by (auto; apply bl_app; auto).
    rewrite (split_off_split l L (C ++ R)), (split_off_split u C R) by (auto; apply ab_app; auto).
    rewrite tine_cmp_loc by auto. unfold lt in Hlu. rewrite Hlu.
    replace (Bool.eqb _ _) with true; [destruct dbg; reflexivity|].
    destruct (snoc_cases C) as [->|(C' & t & ->)]; auto. rewrite last_app_one. destruct C'; reflexivity.
  Qed.

  (** What the code leaves at the two ends; [ne]: some tine lies strictly
      between them. *)
  Definition isect_ends dbg b0 c0 ne c1 b1 (ol ou : option (Tine T)) (l u : Tine T)
    : res (option (Tine T) * option (Tine T)) :=
    do ml <- match ol with Some t => tine_intersect dbg t l | None => Ok (Some l) end;
    do mu <- match ou with Some t => tine_intersect dbg t u | None => Ok (Some u) end;
    do _ <- debug_assert dbg (map_or_true is_lower_bound ml);
    do _ <- debug_assert dbg (map_or_true is_upper_bound mu);
    match b0, ml, ne && c0, ne && c1, mu, b1 with
    | _, Some l, true, true, Some u, _
    | _, Some l, false, false, Some u, _ => Ok (Some l, Some u)
    | true, Some l, true, false, _, false => Ok (Some l, None)
    | false, _, false, true, Some u, true => Ok (None, Some u)
    | false, _, false, false, _, false => Ok (None, None)
    | _, _, _, _, _, _ => Panic
    end.

  Lemma tine_intersect_at dbg q t u t' : okt t = true -> okt u = true -> loc t = q -> loc u = q ->
    tine_intersect dbg t u = Ok (Some t') -> okt t' = true /\ loc t' = q.
  Proof.
    intros K1 K2 L1 L2 H. unfold tine_intersect, debug_assert in H.
    destruct t as [[]|[]|[]], u as [[]|[]|[]]; simpl in *; try discriminate; subst q;
      repeat match type of H with context [if ?c then _ else _] => destruct c end; simpl in H; try discriminate;
      inversion H; subst; simpl; auto.
  Qed.

  Lemma isect_proper_eq dbg lb ub L C R c0 vl c1 c2 vu c3 :
    let l := TLower lb in let u := TUpper ub in
    let ol := mk (loc l) c0 vl c1 in let ou := mk (loc u) c2 vu c3 in
    lt (loc l) (loc u) ->
    chain false L c0 = true -> chain c1 C c2 = true -> chain c3 R false = true ->
    bl (loc l) L -> ab (loc l) C -> bl (loc u) C -> ab (loc u) R ->
    intersect_proper_interval dbg l u (L ++ opt ol ++ C ++ opt ou ++ R)
      = do (A, B) <- isect_ends dbg c0 c1 (negb (tree_is_empty C)) c2 c3 ol ou l u;
        Ok (opt A ++ C ++ opt B).
  Proof.
    intros l u ol ou Hlu HL HC HR BL AC BC AR. unfold intersect_proper_interval.
    rewrite (int_proper dbg l u) by (auto; apply mk_at). cbn [bind].
    rewrite (chain_last L c0 HL), (chain_first R c3 HR). clear HL HR BL AR.
    unfold isect_ends.
    assert (M1 : forall t, match ol with Some lower => tine_intersect dbg lower l | None => Ok (Some l) end = Ok (Some t)
      -> okt t = true /\ loc t = loc l).
    { intros t H. pose proof (mk_at (loc l) c0 vl c1) as A. fold ol in A. destruct ol as [t'|].
      - destruct A as [? ?]. eapply tine_intersect_at; try exact H; auto.
      - inversion H; auto. }
    assert (M2 : forall t, match ou with Some lower => tine_intersect dbg lower u | None => Ok (Some u) end = Ok (Some t)
      -> okt t = true /\ loc t = loc u).
    { intros t H. pose proof (mk_at (loc u) c2 vu c3) as A. fold ou in A. destruct ou as [t'|].
      - destruct A as [? ?]. eapply tine_intersect_at; try exact H; auto.
      - inversion H; auto. }
    destruct (match ol with Some lower => tine_intersect dbg lower l | None => Ok (Some l) end) as [ml|]; [|reflexivity].
    destruct (match ou with Some lower => tine_intersect dbg lower u | None => Ok (Some u) end) as [mu|]; [|reflexivity].
    assert (N1 : match ml with Some t => okt t = true /\ loc t = loc l | None => True end) by (destruct ml; auto).
    assert (N2 : match mu with Some t => okt t = true /\ loc t = loc u | None => True end) by (destruct mu; auto).
    clear M1 M2. cbn [bind].
    destruct (debug_assert dbg (map_or_true is_lower_bound ml)); [|reflexivity].
    destruct (debug_assert dbg (map_or_true is_upper_bound mu)); [|reflexivity]. cbn [bind].
    assert (E1 : is_some_and is_upper_bound (btree_first C) = negb (tree_is_empty C) && c1).
    { destruct C as [|t C]; auto. simpl in HC |- *. apply andb_true_iff in HC as [HC _]. apply andb_true_iff in HC as [_ HC].
      apply eqb_prop in HC. auto. }
    assert (E2 : is_some_and is_lower_bound (btree_last C) = negb (tree_is_empty C) && c2).
    { destruct (snoc_cases C) as [->|(C' & t & ->)]; auto. rewrite last_app_one.
      apply chain_app in HC as (m & _ & HC). simpl in HC. apply andb_true_iff in HC as [_ HC]. apply eqb_prop in HC.
      destruct C'; simpl; auto. }
    rewrite E1, E2. clear E1 E2 HC.
    assert (I1 : forall t, okt t = true /\ loc t = loc l -> btree_insert t C = t :: C).
    { intros t [K E]. apply (insert_split t [] C); auto; [constructor|now rewrite E]. }
    assert (I2 : forall t, okt t = true /\ loc t = loc u -> btree_insert t C = C ++ [t]).
    { intros t [K E]. rewrite <- (app_nil_r C) at 1. apply insert_split; auto; [now rewrite E|constructor]. }
    assert (I3 : forall t t', okt t = true /\ loc t = loc l -> okt t' = true /\ loc t' = loc u ->
      btree_insert t' (t :: C) = t :: C ++ [t']).
    { intros t t' [K E] [K' E']. rewrite <- (app_nil_r (t :: C)) at 1. rewrite insert_split; auto; [|constructor].
      constructor; [split; auto; rewrite E, E'; auto|now rewrite E']. }
    destruct c0, c3, (negb (tree_is_empty C) && c1), (negb (tree_is_empty C) && c2), ml as [ml|], mu as [mu|]; simpl;
      rewrite ?I1, ?I3, ?I2, ?app_nil_r by auto; reflexivity.
  Qed.

  (** The two sides of an equation of that form agree at both ends. *)
  Lemma ends_inj q q' A B A' B' C : lt q q' -> ab q C -> bl q' C ->
    at_loc q A -> at_loc q A' -> at_loc q' B -> at_loc q' B' ->
    opt A ++ C ++ opt B = opt A' ++ C ++ opt B' -> A = A' /\ B = B'.
  Proof.
    intros Hq AC BC HA HA' HB HB' E.
    set (f := fun r => filter (fun t => match cmp (loc t) r with Eq => true | _ => false end)).
    assert (F1 : forall r (X : option (Tine T)), at_loc r X -> f r (opt X) = opt X).
    { intros r [t|] H; auto. destruct H as [_ H]. unfold f; simpl. now rewrite H, cmp_refl. }
    assert (F2 : forall r r' (X : option (Tine T)), lt r r' -> at_loc r X -> f r' (opt X) = []).
    { intros r r' [t|] Hr H; auto. destruct H as [_ H]. unfold f; simpl. rewrite H. unfold lt in Hr. now rewrite Hr. }
    assert (F3 : forall r r' (X : option (Tine T)), lt r' r -> at_loc r X -> f r' (opt X) = []).
    { intros r r' [t|] Hr H; auto. destruct H as [_ H]. unfold f; simpl. rewrite H, cmp_antisym. unfold lt in Hr. now rewrite Hr. }
    assert (F4 : f q C = []).
    { clear -AC. induction AC as [|t C [_ H] AC IH]; auto. unfold f in *; simpl. rewrite cmp_antisym. unfold lt in H. now rewrite H. }
    assert (F5 : f q' C = []).
    { clear -BC. induction BC as [|t C [_ H] BC IH]; auto. unfold f in *; simpl. unfold lt in H. now rewrite H. }
    assert (J : forall X Y : option (Tine T), opt X = opt Y -> X = Y) by (intros [] []; simpl; congruence).
    assert (FA : forall r X Y, f r (X ++ Y) = f r X ++ f r Y) by (intros; apply filter_app).
    split; apply J.
    - apply (f_equal (f q)) in E. rewrite !FA, F4, (F1 q A), (F1 q A'), (F3 q' q B), (F3 q' q B') in E by auto.
      now rewrite !app_nil_r in E.
    - apply (f_equal (f q')) in E. rewrite !FA, F5, (F1 q' B), (F1 q' B'), (F2 q q' A), (F2 q q' A') in E by auto. exact E.
  Qed.

  (** When the ends come out right. *)
  Definition isect_right dbg b0 vl c0 c1 vu b1 (il iu : bool) : bool :=
    (c0 && c1)
    || (b0 && c0 && negb c1 && negb b1 && negb (vu && iu))
    || (negb b0 && negb c0 && c1 && b1 && negb (vl && il))
    || (negb b0 && negb c0 && negb c1 && negb b1 && negb (vl && il) && negb (vu && iu) && (vl || vu))
    || (negb dbg && negb c0 && negb c1 && (vl && il) && (vu && iu)).

  Lemma isect_ends_right dbg ne lb ub c0 vl c1 c2 vu c3 :
    let l := TLower lb in let u := TUpper ub in
    allowed (loc l) c0 vl c1 -> allowed (loc u) c2 vu c3 -> (ne = false -> c1 = c2) ->
    isect_ends dbg c0 c1 ne c2 c3 (mk (loc l) c0 vl c1) (mk (loc u) c2 vu c3) l u
      = Ok (mk (loc l) false (vl && incl_b lb) c1, mk (loc u) c2 (vu && incl_b ub) false)
    <-> isect_right dbg c0 vl c1 c2 vu c3 (incl_b lb) (incl_b ub) = true.
  Proof.
    intros l u A1 A2 Hne. subst l u.
    destruct lb as [x|x|], ub as [y|y|]; cbn [loc tine_into_inner allowed] in *;
      repeat match goal with H : _ /\ _ |- _ => destruct H as [-> ->] end;
      repeat match goal with b : bool |- _ => destruct b end;
      try (specialize (Hne eq_refl); discriminate Hne); clear;
      unfold isect_ends, tine_intersect, debug_assert;
      cbn; unfold opt_eqb; rewrite ?eqb_refl; cbn;
      split; intros H; first [reflexivity | discriminate H].
  Qed.

  (** ** The result is the tree of the intersection exactly when: *)
  Lemma isect_proper_right dbg lb ub L C R c0 vl c1 c2 vu c3 :
    let l := TLower lb in let u := TUpper ub in
    lt (loc l) (loc u) ->
    allowed (loc l) c0 vl c1 -> allowed (loc u) c2 vu c3 ->
    chain false L c0 = true -> chain c1 C c2 = true -> chain c3 R false = true ->
    bl (loc l) L -> ab (loc l) C -> bl (loc u) C -> ab (loc u) R ->
    intersect_proper_interval dbg l u (L ++ opt (mk (loc l) c0 vl c1) ++ C ++ opt (mk (loc u) c2 vu c3) ++ R)
      = Ok (opt (mk (loc l) false (vl && incl_b lb) c1) ++ C ++ opt (mk (loc u) c2 (vu && incl_b ub) false))
    <-> isect_right dbg c0 vl c1 c2 vu c3 (incl_b lb) (incl_b ub) = true.
  Proof.
    intros l u Hlu A1 A2 HL HC HR BL AC BC AR.
    unfold l, u. rewrite isect_proper_eq by auto. fold l u.
    assert (Hne : negb (tree_is_empty C) = false -> c1 = c2).
    { destruct C; simpl; [|discriminate]. intros _. simpl in HC. now apply eqb_prop in HC. }
    rewrite <- (isect_ends_right dbg (negb (tree_is_empty C)) lb ub c0 vl c1 c2 vu c3) by auto. fold l u.
    assert (P : forall A B, isect_ends dbg c0 c1 (negb (tree_is_empty C)) c2 c3 (mk (loc l) c0 vl c1) (mk (loc u) c2 vu c3) l u = Ok (A, B) ->
      at_loc (loc l) A /\ at_loc (loc u) B).
    { intros A B. unfold isect_ends.
      assert (M1 : forall t, match mk (loc l) c0 vl c1 with Some lower => tine_intersect dbg lower l | None => Ok (Some l) end = Ok (Some t)
        -> okt t = true /\ loc t = loc l).
      { intros t H. pose proof (mk_at (loc l) c0 vl c1) as X. destruct (mk (loc l) c0 vl c1) as [t'|].
        - destruct X as [? ?]. eapply tine_intersect_at; try exact H; auto.
        - inversion H; auto. }
      assert (M2 : forall t, match mk (loc u) c2 vu c3 with Some lower => tine_intersect dbg lower u | None => Ok (Some u) end = Ok (Some t)
        -> okt t = true /\ loc t = loc u).
      { intros t H. pose proof (mk_at (loc u) c2 vu c3) as X. destruct (mk (loc u) c2 vu c3) as [t'|].
        - destruct X as [? ?]. eapply tine_intersect_at; try exact H; auto.
        - inversion H; auto. }
      destruct (match mk (loc l) c0 vl c1 with Some lower => tine_intersect dbg lower l | None => Ok (Some l) end) as [ml|]; [|discriminate].
      destruct (match mk (loc u) c2 vu c3 with Some lower => tine_intersect dbg lower u | None => Ok (Some u) end) as [mu|]; [|discriminate].
      cbn [bind].
      destruct (debug_assert dbg (map_or_true is_lower_bound ml)); [|discriminate].
      destruct (debug_assert dbg (map_or_true is_upper_bound mu)); [|discriminate]. cbn [bind].
      destruct c0, c3, (negb (tree_is_empty C) && c1), (negb (tree_is_empty C) && c2), ml as [ml|], mu as [mu|]; intros E;
        inversion E; subst; split; simpl; auto. }
    destruct (isect_ends _ _ _ _ _ _ _ _ _ _) as [[A B]|]; cbn [bind].
    - destruct (P A B eq_refl) as [PA PB]. split; intros E; inversion E; subst; auto.
      destruct (ends_inj (loc l) (loc u) A B (mk (loc l) false (vl && incl_b lb) c1) (mk (loc u) c2 (vu && incl_b ub) false) C) as [-> ->];
        auto; apply mk_at.
    - split; discriminate.
  Qed.
End PTreeIsect.

(** * The exact domain of [intersect_in_place] on Selections *)
From Coq Require Import List Bool ZArith Lia Sorted.
From Verif Require Import Base OrdFacts Pos PFinite MBound MRaw MNormalize MTine MBTree MTineTree MInterval MSelection
  Spec Spec_Tree Spec_Sel PRaw PRaw2 PNorm PIter PInterval PBTree PTree PTreeOps PTreeIsect PTree2 PTree3 PTree4 PTree5 PTree6 PTree7 PSel PSel2 PSel3 PSel4.
Import ListNotations.
Local Arguments cmp : simpl never.

Section PDomain.
  Context {T : Type} {O : Ord T}.
  Implicit Types (s : list (Tine T)) (l u : Bound T).

  Lemma lower_of_mk q (A : option (Tine T)) c : at_loc q A -> (exists d, q = loc (TLower d)) -> chain false (opt A) c = true -> exists v, allowed q false v c /\ A = mk q false v c.
  Proof.
    intros H Q E. destruct A as [t|]; simpl opt in E; simpl at_loc in H.
    - destruct H as [K <-]. apply chain_cons in E as (_ & E1 & E2). simpl in E2. apply eqb_prop in E2.
      destruct (tine_is_mk t K) as [M1 M2]. exists (atv t). rewrite E1, E2 in M1, M2. auto.
    - simpl in E. destruct c; try discriminate. exists false. rewrite mk_trivial. split; auto. destruct Q as [[x|x|] ->]; simpl; auto.
  Qed.
  Lemma upper_of_mk q (A : option (Tine T)) c : at_loc q A -> (exists d, q = loc (TUpper d)) -> chain c (opt A) false = true -> exists v, allowed q c v false /\ A = mk q c v false.
  Proof.
    intros H Q E. destruct A as [t|]; simpl opt in E; simpl at_loc in H.
    - destruct H as [K <-]. apply chain_cons in E as (_ & E1 & E2). simpl in E2. apply eqb_prop in E2.
      destruct (tine_is_mk t K) as [M1 M2]. exists (atv t). rewrite E1, E2 in M1, M2. auto.
    - simpl in E. destruct c; try discriminate. exists false. rewrite mk_trivial. split; auto. destruct Q as [[x|x|] ->]; simpl; auto.
  Qed.
  Lemma chain_start t s a b c d : chain a (t :: s) c = true -> chain b (t :: s) d = true -> a = b /\ c = d.
  Proof.
    simpl. rewrite !andb_true_iff. intros [[_ H1] H2] [[_ H3] H4]. apply eqb_prop in H1, H3. split; [congruence|]. eapply chain_end; eauto.
  Qed.

  Lemma isect_points_fine dbg s i l u z : wf s -> s <> [] -> raw_wf i -> proper i ->
    raw_lower_bound i = Some l -> raw_upper_bound i = Some u -> (forall x, l <> Include x) -> (forall x, u <> Include x) ->
    raw_contains i z = true ->
    (exists s', tree_intersect_in_place dbg s i = Ok s' /\ wf s' /\ forall x, den false s' (At x) = den false s (At x) && covers i (At x)) ->
    isect_fine dbg s l u = true.
  Proof.
    intros W Ne Wi Pi EL EU NL NU Hz (s' & Es' & Ws' & Pts). unfold tree_intersect_in_place in Es'.
    assert (Es : tree_is_empty s = false) by (destruct s; auto; congruence).
    assert (Ef : raw_is_full i = false) by (destruct i; auto; contradiction).
    assert (Ee : raw_is_empty i = false) by (destruct i; auto; contradiction).
    rewrite Es, Ef, Ee in Es'. cbn [orb] in Es'.
    destruct (tines_cases i Wi) as [(-> & E)|[(x & -> & E)|(l' & u' & EL' & EU' & Hlu & E & Hcov)]]; try contradiction.
    assert (l' = l) as -> by congruence. assert (u' = u) as -> by congruence. clear EL' EU'.
    assert (Eq : intersect_proper_interval dbg (TLower l) (TUpper u) s = Ok s').
    { rewrite E in Es'. destruct i; try contradiction; exact Es'. }
    clear Es' E.
    destruct (split2_at (loc (TLower l)) (loc (TUpper u)) s) as [L C R c0 vl c1 c2 vu c3 -> A A' HL HC HR BL AC BC AR SL SC SR];
      auto using loc_tine.
    unfold isect_fine. destruct (near_split l u L C R c0 vl c1 c2 vu c3) as [-> ->]; auto.
    apply (isect_proper_right dbg l u L C R c0 vl c1 c2 vu c3); auto. rewrite Eq. f_equal.
    rewrite isect_proper_eq in Eq by auto.
    destruct (isect_ends dbg c0 c1 (negb (tree_is_empty C)) c2 c3 (mk (loc (TLower l)) c0 vl c1) (mk (loc (TUpper u)) c2 vu c3) (TLower l) (TUpper u)) as [[X Y]|] eqn:EE; [|discriminate].
    cbn [bind] in Eq. injection Eq as <-.
    assert (P : at_loc (loc (TLower l)) X /\ at_loc (loc (TUpper u)) Y).
    { revert EE. unfold isect_ends.
      assert (M1 : forall t, match mk (loc (TLower l)) c0 vl c1 with Some lower => tine_intersect dbg lower (TLower l) | None => Ok (Some (TLower l)) end = Ok (Some t)
        -> okt t = true /\ loc t = loc (TLower l)).
      { intros t H. pose proof (mk_at (loc (TLower l)) c0 vl c1) as Q. destruct (mk (loc (TLower l)) c0 vl c1) as [t'|].
        - destruct Q as [? ?]. eapply tine_intersect_at; try exact H; auto.
        - inversion H; auto. }
      assert (M2 : forall t, match mk (loc (TUpper u)) c2 vu c3 with Some lower => tine_intersect dbg lower (TUpper u) | None => Ok (Some (TUpper u)) end = Ok (Some t)
        -> okt t = true /\ loc t = loc (TUpper u)).
      { intros t H. pose proof (mk_at (loc (TUpper u)) c2 vu c3) as Q. destruct (mk (loc (TUpper u)) c2 vu c3) as [t'|].
        - destruct Q as [? ?]. eapply tine_intersect_at; try exact H; auto.
        - inversion H; auto. }
      destruct (match mk (loc (TLower l)) c0 vl c1 with Some lower => tine_intersect dbg lower (TLower l) | None => Ok (Some (TLower l)) end) as [ml|]; [|discriminate].
      destruct (match mk (loc (TUpper u)) c2 vu c3 with Some lower => tine_intersect dbg lower (TUpper u) | None => Ok (Some (TUpper u)) end) as [mu|]; [|discriminate].
      cbn [bind].
      destruct (debug_assert dbg (map_or_true is_lower_bound ml)); [|discriminate].
      destruct (debug_assert dbg (map_or_true is_upper_bound mu)); [|discriminate]. cbn [bind].
      destruct c0, c3, (negb (tree_is_empty C) && c1), (negb (tree_is_empty C) && c2), ml as [ml|], mu as [mu|]; intros E;
        inversion E; subst; split; simpl; auto. }
    destruct P as [PX PY]. clear EE. destruct Ws' as [Ss' Cs'].
    apply chain_app in Cs' as (d1 & K1 & K2). apply chain_app in K2 as (d2 & K2 & K3).
    destruct (lower_of_mk _ X d1 PX (ex_intro _ l eq_refl) K1) as (vX & AX & ->).
    destruct (upper_of_mk _ Y d2 PY (ex_intro _ u eq_refl) K3) as (vY & AY & ->).
    assert (Zin : lt (loc (TLower l)) (At z) /\ lt (At z) (loc (TUpper u))).
    { rewrite <- covers_At in Hz. rewrite Hcov in Hz. clear - Hz NL NU.
      destruct l as [x|x|], u as [y|y|]; try (now specialize (NL _ eq_refl)); try (now specialize (NU _ eq_refl)); unfold loc in *; simpl in *.
      all: unfold lt. all: repeat match type of Hz with context [cmp ?a ?b] => destruct (cmp a b) eqn:?; try discriminate Hz end. all: split; auto.
      all: rewrite cmp_antisym; match goal with H : cmp _ _ = Gt |- _ => now rewrite H end. }
    destruct Zin as [Zl Zu].
    assert (D1 : forall p, den false (opt (mk (loc (TLower l)) false vX d1) ++ C ++ opt (mk (loc (TUpper u)) d2 vY false)) p =
      match cmp p (loc (TLower l)) with Lt => false | Eq => vX | Gt => match cmp p (loc (TUpper u)) with Lt => den d1 C p | Eq => vY | Gt => false end end).
    { intros p. pose proof (den_split2 p (loc (TLower l)) (loc (TUpper u)) [] C [] false vX d1 d2 vY false Hlu AX AY eq_refl K2
        (Forall_nil _) AC BC (Forall_nil _)) as Q. rewrite app_nil_r in Q. exact Q. }
    assert (D2 : d1 = c1 /\ d2 = c2).
    { destruct C as [|t C]; [|exact (chain_start t C d1 c1 d2 c2 K2 HC)].
      simpl in K2, HC. apply eqb_prop in K2, HC. subst d2 c2.
      assert (d1 = c1); [|auto]. specialize (Pts z). rewrite D1 in Pts.
      rewrite (den_split2 (At z) (loc (TLower l)) (loc (TUpper u)) L [] R c0 vl c1 c1 vu c3) in Pts by (auto; simpl; apply eqb_reflx).
      rewrite covers_At, Hz, andb_true_r in Pts.
      assert (Cg : cmp (At z) (loc (TLower l)) = Gt) by (now apply cmp_gt_lt). unfold lt in Zu. rewrite Cg, Zu in Pts. exact Pts. }
    destruct D2 as [-> ->].
    assert (D3 : vX = vl && incl_b l).
    { destruct l as [x|x|]; [now specialize (NL x)| |]; simpl.
      - rewrite andb_false_r. specialize (Pts x). rewrite D1 in Pts. unfold loc in Pts at 1. simpl in Pts. rewrite cmp_refl in Pts.
        rewrite Pts. replace (covers i (At x)) with false; [now rewrite andb_false_r|].
        symmetry. rewrite covers_At. apply not_true_is_false. intros K. apply raw_bounds_contains in K. rewrite EL, EU in K. destruct K as [K _]. simpl in K.
        clear - K. order.
      - rewrite andb_true_r. unfold loc in A, AX; simpl in A, AX. destruct A as [_ ->], AX as [_ ->]. reflexivity. }
    assert (D4 : vY = vu && incl_b u).
    { destruct u as [x|x|]; [now specialize (NU x)| |]; simpl.
      - rewrite andb_false_r. specialize (Pts x). rewrite D1 in Pts.
        assert (Cg : cmp (At x) (loc (TLower l)) = Gt) by (now apply cmp_gt_lt). rewrite Cg in Pts. unfold loc in Pts at 1. simpl in Pts. rewrite cmp_refl in Pts.
        rewrite Pts. replace (covers i (At x)) with false; [now rewrite andb_false_r|].
        symmetry. rewrite covers_At. apply not_true_is_false. intros K. apply raw_bounds_contains in K. rewrite EL, EU in K. destruct K as [_ K]. simpl in K.
        clear - K. order.
      - rewrite andb_true_r. unfold loc in A', AY; simpl in A', AY. destruct A' as [_ ->], AY as [_ ->]. reflexivity. }
    subst vX vY. reflexivity.
  Qed.
End PDomain.

(** * When adding or removing an out-of-order interval changes nothing (C113) *)
From Coq Require Import List Bool ZArith Lia Sorted.
From Verif Require Import Base OrdFacts Pos PFinite MBound MRaw MNormalize MTine MBTree MTineTree Ints MInterval MSelection
  Spec Spec_Tree Instances PRaw PRaw2 PNorm PIter PInterval PBTree PTree PTreeOps PTreeIsect PTree2 PTree3 PTree4 PTree5 PTree7
  Properties_Raw Properties_Interval Properties_Public Properties_Exact Properties_Exact3 Properties_Public3 Properties_Public5.
Import ListNotations.
Local Open Scope list_scope.
Local Arguments cmp : simpl never.

Section Out.
  Context {T : Type} {O : Ord T}.
  Implicit Types (r : RawInterval T) (t u : Tine T) (s L R C : list (Tine T)).

  Lemma chain_last_some C c d : chain c C d = true -> C <> [] -> is_some_and is_lower_bound (btree_last C) = d.
  Proof.
    intros H N. destruct (snoc_cases C) as [->|(C' & t & ->)]; [congruence|]. rewrite last_app_one. cbn.
    apply chain_app in H as (m & _ & H). simpl in H. apply andb_true_iff in H as [_ H]. now apply eqb_prop in H.
  Qed.
  Lemma last_app L C : C <> [] -> btree_last (L ++ C) = btree_last C.
  Proof.
    intros N. destruct (snoc_cases C) as [->|(C' & t & ->)]; [congruence|]. rewrite app_assoc. now rewrite !last_app_one.
  Qed.

  (** The split of [exterior_split] when the upper end [u] lies before the lower end [l]. *)
  Lemma ext_out l u L ou C ol R :
    okt l = true -> okt u = true -> lt (loc u) (loc l) ->
    bl (loc u) L -> at_loc (loc u) ou -> ab (loc u) C -> bl (loc l) C -> at_loc (loc l) ol -> ab (loc l) R ->
    exterior_split_for_proper_interval l u (L ++ opt ou ++ C ++ opt ol ++ R)
      = ((btree_last (L ++ C), ol, ou, btree_first R), L ++ C ++ R).
  Proof.
    intros Kl Ku Hul BL Hou AC BC Hol AR. unfold exterior_split_for_proper_interval.
    assert (BL' : bl (loc l) L) by (eapply bl_weaken; eauto).
    assert (AR' : ab (loc u) R) by (eapply ab_weaken; eauto).
    assert (B : bl (loc l) (L ++ opt ou ++ C)).
    { apply bl_app. split; auto. apply bl_app. split; auto. destruct ou; repeat constructor; destruct Hou as [? E]; auto. now rewrite E. }
    rewrite 2 app_assoc, <- (app_assoc L). rewrite (take_split l (L ++ opt ou ++ C) ol R) by auto.
    rewrite <- !app_assoc. rewrite (take_split u L ou (C ++ R)) by (auto; apply ab_app; auto).
    rewrite app_assoc. rewrite (split_off_split l (L ++ C) R) by (auto; apply bl_app; auto).
    assert (S : btree_split_off u R = ([], R)) by (apply (split_off_split u [] R); auto; constructor).
    rewrite S, (append_split (loc l)) by (auto; apply bl_app; auto). now rewrite <- app_assoc.
  Qed.

  Definition holed (x v y : bool) : bool := x && negb v && y.
  Definition level (x v y : bool) : bool := Bool.eqb x v && Bool.eqb v y.

  (** The state before, at and after the upper end [ub], and the lower end [lb]; [e]: no
      tine between the two. *)
  Definition union_same (lb ub : Bound T) (c0 vu c1 c2 vl c3 e : bool) : bool :=
    (level c0 vu c1 || holed c0 vu c1 && negb (incl_b ub)) && c3 && implb (incl_b lb) vl
    || level c2 vl c3 && e && c0 && negb c1 && implb (incl_b ub) vu.
  Definition minus_same (lb ub : Bound T) (c0 vu c1 c2 vl c3 e : bool) : bool :=
    (level c0 vu c1 || holed (negb c0) (negb vu) (negb c1) && negb (incl_b ub)) && negb c3 && implb (incl_b lb) (negb vl)
    || level c2 vl c3 && e && negb c0 && c1 && implb (incl_b ub) (negb vu).

  Lemma out_same dbg lb ub a b L C R c0 vu c1 c2 vl c3 :
    (lb = Include a \/ lb = Exclude a) -> (ub = Include b \/ ub = Exclude b) -> lt b a ->
    chain false L c0 = true -> chain c1 C c2 = true -> chain c3 R false = true ->
    bl (At b) L -> ab (At b) C -> bl (At a) C -> ab (At a) R ->
    let s := L ++ opt (mk (At b) c0 vu c1) ++ C ++ opt (mk (At a) c2 vl c3) ++ R in
    let e := match C with [] => true | _ => false end in
    (union_proper_interval dbg (TLower lb) (TUpper ub) s = Ok s <-> union_same lb ub c0 vu c1 c2 vl c3 e = true) /\
    (minus_proper_interval dbg (TLower lb) (TUpper ub) s = Ok s <-> minus_same lb ub c0 vu c1 c2 vl c3 e = true).
  Proof.
    intros La Ub H HL HC HR BL AC BC AR s e.
    assert (Ll : loc (TLower lb) = At a) by (destruct La as [->| ->]; reflexivity).
    assert (Lu : loc (TUpper ub) = At b) by (destruct Ub as [->| ->]; reflexivity).
    assert (H' : lt (At b) (At a)) by exact H.
    assert (BL' : bl (At a) L) by (eapply bl_weaken; eauto).
    assert (AR' : ab (At b) R) by (eapply ab_weaken; eauto).
    assert (X : exterior_split_for_proper_interval (TLower lb) (TUpper ub) s =
      ((btree_last (L ++ C), mk (At a) c2 vl c3, mk (At b) c0 vu c1, btree_first R), L ++ C ++ R)).
    { apply ext_out; rewrite ?Ll, ?Lu; auto; apply mk_at. }
    unfold union_proper_interval, minus_proper_interval. rewrite X, (chain_first R c3 HR).
    assert (Ho : is_some_and is_lower_bound (btree_last (L ++ C)) = if e then c0 else c2).
    { subst e. destruct C as [|t C]; [rewrite app_nil_r; now apply chain_last|].
      rewrite last_app by discriminate. apply (chain_last_some (t :: C) c1); auto. discriminate. }
    rewrite Ho.
    assert (Hc : e = true -> c1 = c2).
    { subst e. destruct C; [|discriminate]. intros _. now apply eqb_prop in HC. }
    set (sel := fun x y : option (Tine T) => L ++ opt x ++ C ++ opt y ++ R).
    assert (E0 : L ++ C ++ R = sel None None) by reflexivity.
    assert (Es : s = sel (mk (At b) c0 vu c1) (mk (At a) c2 vl c3)) by reflexivity.
    assert (BC2 : forall x, at_loc (At b) x -> bl (At a) (L ++ opt x ++ C)).
    { intros x Hx. apply bl_app. split; auto. apply bl_app. split; auto. destruct x; repeat constructor; destruct Hx as [? Ex]; auto. now rewrite Ex. }
    assert (AC2 : forall y, at_loc (At a) y -> ab (At b) (C ++ opt y ++ R)).
    { intros y Hy. apply ab_app. split; auto. apply ab_app. split; auto. destruct y; repeat constructor; destruct Hy as [? Ey]; auto. now rewrite Ey. }
    assert (Ja : forall t x, okt t = true -> loc t = At a -> at_loc (At b) x -> btree_insert t (sel x None) = sel x (Some t)).
    { intros t x K E Hx. unfold sel. cbn [opt app]. rewrite 2 app_assoc, <- (app_assoc L). rewrite (insert_split t (L ++ opt x ++ C) R); rewrite ?E; auto.
      now rewrite <- !app_assoc. }
    assert (Jb : forall t y, okt t = true -> loc t = At b -> at_loc (At a) y -> btree_insert t (sel None y) = sel (Some t) y).
    { intros t y K E Hy. unfold sel. cbn [opt app]. rewrite (insert_split t L); rewrite ?E; auto. }
    assert (U : forall x y x' y', at_loc (At b) x -> at_loc (At b) x' -> at_loc (At a) y -> at_loc (At a) y' ->
      sel x y = sel x' y' -> x = x' /\ y = y').
    { intros x y x' y' Hx Hx' Hy Hy' E. unfold sel in E. apply app_inv_head in E.
      assert (N : forall t y, at_loc (At a) y -> okt t = true -> loc t = At b -> In t (C ++ opt y ++ R) -> False).
      { intros t z Hz Kt Et I. specialize (AC2 z Hz). unfold ab in AC2. rewrite Forall_forall in AC2. destruct (AC2 t I) as [_ Q].
        rewrite Et in Q. now apply plt_irrefl in Q. }
      assert (Y : C ++ opt y ++ R = C ++ opt y' ++ R -> y = y').
      { intros E'. apply app_inv_head in E'. apply app_inv_tail in E'. destruct y, y'; cbn in E'; congruence. }
      destruct x as [x|], x' as [x'|]; cbn in E.
      - injection E as <- E. auto.
      - exfalso. destruct Hx as [Kx Ex]. apply (N x y'); auto. rewrite <- E. now left.
      - exfalso. destruct Hx' as [Kx Ex]. apply (N x' y); auto. rewrite E. now left.
      - auto. }
    rewrite E0, Es. clear Ll Lu X Ho E0 Es AC2 BC2 HL HC HR BL AC BC AR BL' AR' H'. clearbody e sel. clear s.
    unfold union_same, minus_same, level, holed.
    destruct La as [->| ->], Ub as [->| ->], c0, vu, c1, c2, vl, c3, e; try (specialize (Hc eq_refl); discriminate); clear Hc.
    all: cbn [mk incl_b Bool.eqb andb orb negb implb]; unfold tine_union, tine_minus, debug_assert; cbn [opt_eqb tine_as_ref bound_as_ref].
    all: rewrite ?eqb_refl; destruct dbg; cbn -[btree_insert];
      repeat first [ rewrite Ja by (try reflexivity; exact I) | rewrite Jb by (try reflexivity; repeat split; reflexivity) | rewrite Ja by (repeat split; reflexivity) ].
    all: split; (split; [try (intros; reflexivity); try discriminate | intros Q; try discriminate Q; try reflexivity]).
    all: try (intros Q; injection Q as Q; apply U in Q; [|try exact I; split; reflexivity..]; destruct Q; discriminate).
  Qed.

  (** The intervals [l] neither begin nor end at [x]: it lies inside one of them with its
      surroundings, or apart from all. *)
  Definition steady (l : list (RawInterval T)) (x : T) : Prop :=
    (filled_below l x <-> some_contains l x) /\ (some_contains l x <-> filled_above l x).
  (** The value [x] alone is missing between two intervals. *)
  Definition gap_at (l : list (RawInterval T)) (x : T) : Prop :=
    filled_below l x /\ ~ some_contains l x /\ filled_above l x.
  (** The value [x] alone is there. *)
  Definition lone_at (l : list (RawInterval T)) (x : T) : Prop :=
    ~ filled_below l x /\ some_contains l x /\ ~ filled_above l x.

  Lemma steady_level s x : wf s ->
    (steady (pieces None s) x <-> level (den false s (Lo x)) (den false s (At x)) (den false s (Hi x)) = true).
  Proof.
    intros W. unfold steady, level. rewrite filled_below_den, filled_above_den, at_den by auto.
    destruct (den false s (Lo x)), (den false s (At x)), (den false s (Hi x)); cbn; intuition congruence.
  Qed.

  Lemma between_steady a b L C R c0 vu c1 c2 vl c3 : lt b a ->
    chain false L c0 = true -> chain c1 C c2 = true -> chain c3 R false = true ->
    bl (At b) L -> ab (At b) C -> bl (At a) C -> ab (At a) R -> srt L -> srt C -> srt R ->
    let s := L ++ opt (mk (At b) c0 vu c1) ++ C ++ opt (mk (At a) c2 vl c3) ++ R in
    (forall x, lt b x -> lt x a -> steady (pieces None s) x) <-> C = [].
  Proof.
    intros H HL HC HR BL AC BC AR SL SC SR s.
    assert (H' : lt (At b) (At a)) by exact H.
    assert (W : wf s) by now apply wf_split2.
    assert (D : forall p, lt (At b) p -> lt p (At a) -> den false s p = den c1 C p).
    { intros p P Q. unfold s. rewrite (den_split2 p (At b) (At a)) by (auto; exact I).
      unfold lt in P, Q. rewrite Q, (proj2 (cmp_gt_lt _ _) P). reflexivity. }
    split.
    - intros St. destruct C as [|t C]; auto. exfalso.
      inversion AC as [|? ? [K Lb] _]; subst. inversion BC as [|? ? [_ La] _]; subst. inversion SC as [|? ? _ S2]; subst.
      apply chain_cons in HC as (_ & U & HC).
      destruct (loc t) as [| | |x|] eqn:Lt; try (generalize (loc_tine t); rewrite Lt; cbn; contradiction).
      all: try (exfalso; revert Lb La; unfold lt; cbn; discriminate).
      specialize (St x Lb La). rewrite steady_level in St by auto.
      rewrite !D in St by (clear - Lb La; porder). cbn [den] in St. rewrite Lt in St.
      replace (cmp (Lo x) (At x)) with Datatypes.Lt in St by porder.
      replace (cmp (At x) (At x)) with Datatypes.Eq in St by (symmetry; apply cmp_refl).
      replace (cmp (Hi x) (At x)) with Datatypes.Gt in St by porder.
      rewrite den_low in St.
      + rewrite <- U in St. destruct t as [[]|[]|[]]; cbn in *; try discriminate.
      + intros w Hw. rewrite Forall_forall in S2. specialize (S2 w Hw).
        assert (Z := loc_tine w). destruct (loc w); cbn in Z; try contradiction; clear - S2; porder.
    - intros -> x P Q. rewrite steady_level by auto. rewrite !D by (clear - P Q; porder). cbn. unfold level. now rewrite !eqb_reflx.
  Qed.

  Lemma out_cases dbg s l r lb ub a b : tree_wf s -> intervals_are dbg s l -> written r lb ub a b -> lt b a ->
    (tree_union_in_place dbg s r = Ok s <->
      (steady l b \/ gap_at l b /\ ub = Exclude b) /\ filled_above l a /\ (lb = Include a -> some_contains l a) \/
      steady l a /\ (forall x, lt b x -> lt x a -> steady l x) /\ filled_below l b /\ ~ filled_above l b /\ (ub = Include b -> some_contains l b)) /\
    (tree_minus_in_place dbg s r = Ok s <->
      (steady l b \/ lone_at l b /\ ub = Exclude b) /\ ~ filled_above l a /\ (lb = Include a -> ~ some_contains l a) \/
      steady l a /\ (forall x, lt b x -> lt x a -> steady l x) /\ ~ filled_below l b /\ filled_above l b /\ (ub = Include b -> ~ some_contains l b)).
  Proof.
    intros W Hl Wr H. apply wf_tree_wf in W. rewrite (intervals_pieces dbg s l W Hl). clear Hl.
    assert (NP : forall x, r <> Point x).
    { intros x ->. destruct Wr as (A & B & [-> | ->] & [-> | ->]); cbn in A, B; try discriminate. injection A as ->. injection B as ->.
      now apply lt_irrefl in H. }
    destruct (written_tines r lb ub a b Wr NP) as (Et & Ef & Ee). destruct Wr as (_ & _ & La & Ub).
    destruct (split2_at (At b) (At a) s) as [L C R c0 vu c1 c2 vl c3 -> A A' HL HC HR BL AC BC AR SL SC SR]; auto; try exact I.
    assert (B := between_steady a b L C R c0 vu c1 c2 vl c3 H HL HC HR BL AC BC AR SL SC SR). cbv zeta in B.
    destruct (near_split (Include b) (Include a) L C R c0 vu c1 c2 vl c3) as [N1 N2]; auto.
    destruct (out_same dbg lb ub a b L C R c0 vu c1 c2 vl c3 La Ub H HL HC HR BL AC BC AR) as [U M]. cbv zeta in U, M.
    change (loc (TLower (Include b))) with (At b) in N1. change (loc (TUpper (Include a))) with (At a) in N1.
    change (loc (TLower (Include b))) with (At b) in N2. change (loc (TUpper (Include a))) with (At a) in N2.
    set (s := L ++ opt (mk (At b) c0 vu c1) ++ C ++ opt (mk (At a) c2 vl c3) ++ R) in *.
    cbn in N1, N2. injection N1 as D1 D2 D3. injection N2 as D4 D5 D6.
    assert (Eb : steady (pieces None s) b <-> level c0 vu c1 = true) by (rewrite steady_level, D1, D2, D3 by auto; reflexivity).
    assert (Ea : steady (pieces None s) a <-> level c2 vl c3 = true) by (rewrite steady_level, D4, D5, D6 by auto; reflexivity).
    unfold gap_at, lone_at. rewrite Eb, Ea, B, !filled_below_den, !filled_above_den, !at_den, D1, D2, D3, D5, D6 by auto.
    assert (EC : C = [] <-> (match C with [] => true | _ => false end) = true) by (destruct C; split; congruence).
    assert (Il : lb = Include a <-> incl_b lb = true) by (destruct La as [-> | ->]; cbn; split; congruence).
    assert (Iu : ub = Include b <-> incl_b ub = true) by (destruct Ub as [-> | ->]; cbn; split; congruence).
    assert (Iu' : ub = Exclude b <-> incl_b ub = false) by (destruct Ub as [-> | ->]; cbn; split; congruence).
    rewrite EC, Il, Iu, Iu'. unfold tree_union_in_place, tree_minus_in_place. rewrite Ef, Et, Ee, orb_false_r, U. split.
    - clear. unfold union_same, level, holed. generalize (match C with [] => true | _ => false end) (incl_b lb) (incl_b ub). intros e il iu.
      rewrite !orb_true_iff, !andb_true_iff, orb_true_iff, !andb_true_iff, !negb_true_iff, !implb_true_iff, <- !not_true_iff_false. tauto.
    - assert (Z : (if tree_is_empty s then Ok s else minus_proper_interval dbg (TLower lb) (TUpper ub) s) = Ok s <->
         minus_proper_interval dbg (TLower lb) (TUpper ub) s = Ok s).
      { destruct (tree_is_empty s) eqn:Es; [|reflexivity]. split; auto. intros _. apply M.
        assert (s = []) by (destruct s; [reflexivity|discriminate]).
        assert (Q : forall p, den false s p = false) by (rewrite H0; reflexivity). rewrite !Q in *. subst. unfold minus_same. cbn.
        now destruct (incl_b lb). }
      rewrite Z, M. clear. unfold minus_same, level, holed. generalize (match C with [] => true | _ => false end) (incl_b lb) (incl_b ub). intros e il iu.
      rewrite !orb_true_iff, !andb_true_iff, orb_true_iff, !andb_true_iff, !negb_true_iff, !implb_true_iff, ?negb_true_iff, ?negb_false_iff, <- !not_true_iff_false. tauto.
  Qed.
  (** Adding an interval with its ends out of order leaves the tree as it is exactly if
      either the tree goes on after the lower end (and holds its value, if the end
      includes it) and no interval ends at the upper end, save around a single missing value
      which the upper end excludes; or an interval of the tree ends at the upper end
      (and holds its value, if the end includes it) and nothing begins or ends from
      there to the lower end. *)
  Theorem C113_union_iff_partial dbg s l r lb ub a b : tree_wf s -> intervals_are dbg s l -> written r lb ub a b -> lt b a ->
    (tree_union_in_place dbg s r = Ok s <->
      (steady l b \/ gap_at l b /\ ub = Exclude b) /\ filled_above l a /\ (lb = Include a -> some_contains l a) \/
      steady l a /\ (forall x, lt b x -> lt x a -> steady l x) /\ filled_below l b /\ ~ filled_above l b /\ (ub = Include b -> some_contains l b)).
  Proof. intros. eapply out_cases; eauto. Qed.

  (** Removing one: the same with the tree's complement. *)
  Theorem C113_minus_iff_partial dbg s l r lb ub a b : tree_wf s -> intervals_are dbg s l -> written r lb ub a b -> lt b a ->
    (tree_minus_in_place dbg s r = Ok s <->
      (steady l b \/ lone_at l b /\ ub = Exclude b) /\ ~ filled_above l a /\ (lb = Include a -> ~ some_contains l a) \/
      steady l a /\ (forall x, lt b x -> lt x a -> steady l x) /\ ~ filled_below l b /\ filled_above l b /\ (ub = Include b -> ~ some_contains l b)).
  Proof. intros. eapply out_cases; eauto. Qed.

  (** Both ends at one value, written as an interval with two ends. *)
  Theorem C113_one_value_partial dbg s l r lb ub a : tree_wf s -> intervals_are dbg s l -> written r lb ub a a -> (forall x, r <> Point x) ->
    (tree_union_in_place dbg s r = Ok s <->
      filled_above l a /\ (lb = Include a -> some_contains l a) \/
      filled_below l a /\ ~ filled_above l a /\
        (some_contains l a /\ ub = Include a \/ ~ some_contains l a /\ lb = Include a /\ ub = Exclude a)) /\
    (tree_minus_in_place dbg s r = Ok s <->
      ~ filled_above l a /\ (lb = Include a -> ~ some_contains l a) \/
      ~ filled_below l a /\ filled_above l a /\ (some_contains l a <-> ub = Exclude a)).
  Proof.
    intros W Hl Wr NP. apply wf_tree_wf in W. rewrite (intervals_pieces dbg s l W Hl). clear Hl.
    rewrite filled_below_den, !filled_above_den, !at_den by auto.
    destruct (written_tines r lb ub a a Wr NP) as (Et & Ef & Ee). destruct Wr as (_ & _ & La & Ub).
    assert (Ll : loc (TLower lb) = At a) by (destruct La as [->| ->]; reflexivity).
    assert (Lu : loc (TUpper ub) = At a) by (destruct Ub as [->| ->]; reflexivity).
    assert (W' := W). destruct W' as [Ss Hc].
    destruct (split_at (At a) false s false) as (L & R & c0 & v & c1 & E & A & HL & HR & BL & AR & SL & SR); auto; try discriminate; try exact I.
    unfold tree_union_in_place, tree_minus_in_place. rewrite Ef, Et, Ee, orb_false_r. rewrite E.
    rewrite den_Lo, den_At, den_Hi by auto. rewrite <- E.
    assert (X : exterior_split_for_proper_interval (TLower lb) (TUpper ub) s = ((btree_last L, mk (At a) c0 v c1, None, btree_first R), L ++ R)).
    { unfold exterior_split_for_proper_interval. rewrite E.
      rewrite (take_split (TLower lb) L _ R) by (rewrite ?Ll; auto; apply mk_at).
      assert (Q := take_split (TUpper ub) L None R). cbn [opt app] in Q. rewrite Q by (rewrite ?Lu; auto; exact I).
      rewrite (split_off_split (TLower lb) L R) by (rewrite ?Ll; auto).
      assert (Q' : btree_split_off (TUpper ub) R = ([], R)) by (apply (split_off_split _ [] R); rewrite ?Lu; auto; constructor).
      now rewrite Q', (append_split (At a)) by auto. }
    assert (Z : (if tree_is_empty s then Ok s else minus_proper_interval dbg (TLower lb) (TUpper ub) s) = Ok s <->
      minus_proper_interval dbg (TLower lb) (TUpper ub) s = Ok s).
    { destruct (tree_is_empty s) eqn:Es; [|reflexivity]. split; auto. intros _.
      assert (Q : s = []) by (destruct s; [reflexivity|discriminate]). clear - Q. subst s.
      destruct lb, ub; destruct dbg; reflexivity. }
    rewrite Z. clear Z. unfold union_proper_interval, minus_proper_interval. rewrite X, (chain_first R c1 HR), (chain_last L c0 HL).
    set (sel := fun x : option (Tine T) => L ++ opt x ++ R).
    assert (E0 : L ++ R = sel None) by reflexivity.
    assert (E1 : s = sel (mk (At a) c0 v c1)) by exact E.
    assert (J : forall t, okt t = true -> loc t = At a -> btree_insert t (sel None) = sel (Some t)).
    { intros t K Q. unfold sel. cbn [opt app]. apply insert_split; rewrite ?Q; auto. }
    assert (J2 : forall t u, okt t = true -> loc t = At a -> okt u = true -> loc u = At a -> btree_insert u (sel (Some t)) = sel (Some t)).
    { intros t u K Q K' Q'. unfold sel. cbn [opt app]. apply insert_same; auto; rewrite ?Q; congruence || auto. }
    assert (U : forall x y, sel x = sel y -> x = y).
    { intros x y Q. unfold sel in Q. apply app_inv_head, app_inv_tail in Q. destruct x, y; cbn in Q; congruence. }
    rewrite E0, E1. clear - La Ub J J2 U. clearbody sel.
    destruct La as [->| ->], Ub as [->| ->], c0, v, c1.
    all: cbn [mk]; unfold tine_union, tine_minus, debug_assert; cbn [opt_eqb tine_as_ref bound_as_ref].
    all: rewrite ?eqb_refl; destruct dbg; cbn -[btree_insert];
      repeat first [ rewrite J by reflexivity | rewrite J2 by reflexivity ].
    all: split; (split; [intros Q; first [discriminate Q | injection Q as Q; apply U in Q; try discriminate Q | idtac]; intuition congruence
                        | intros Q; first [reflexivity | exfalso; intuition congruence]]).
  Qed.
End Out.
Print Assumptions C113_union_iff_partial.
Print Assumptions C113_minus_iff_partial.
Print Assumptions C113_one_value_partial.

Local Open Scope Z_scope.
(** [0, 2] and [7, 8] with [5, 2]: adding leaves it as it is, the second case. *)
Example C113_iff_ex :
  let s := [TLower (Include 0); TUpper (Include 2); TLower (Include 7); TUpper (Include 8)] in
  tree_wf s /\ intervals_are true s [Closed 0 2; Closed 7 8] /\ written (Closed 5 2) (Include 5) (Include 2) 5 2 /\ lt 2 5 /\
  tree_union_in_place true s (Closed 5 2) = Ok s /\ tree_minus_in_place true s (Closed 5 2) <> Ok s /\
  written (RightOpen 1 1) (Include 1) (Exclude 1) 1 1 /\
  tree_union_in_place true s (RightOpen 1 1) = Ok s /\ tree_minus_in_place true s (RightOpen 1 1) <> Ok s.
Proof.
  cbv zeta. split; [repeat constructor|].
  split; [eapply drains_cons; [reflexivity|]; eapply drains_cons; [reflexivity|]; eapply drains_nil; reflexivity|].
  split; [repeat split; auto|]. split; [reflexivity|]. split; [reflexivity|]. split; [discriminate|].
  split; [repeat split; auto|]. split; [reflexivity|]. discriminate.
Qed.

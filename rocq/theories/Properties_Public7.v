(** * What adding or removing an out-of-order interval makes of a tree (C113) *)
From Coq Require Import List Bool ZArith Lia Sorted.
From Verif Require Import Base OrdFacts Pos PFinite MBound MRaw MNormalize MTine MBTree MTineTree Ints MInterval MSelection
  Spec Spec_Tree Instances PRaw PRaw2 PNorm PIter PInterval PBTree PTree PTreeOps PTreeIsect PTree2 PTree3 PTree4 PTree5 PTree7
  Properties_Raw Properties_Interval Properties_Public Properties_Exact Properties_Exact3 Properties_Public3 Properties_Public5
  Properties_Public6.
Import ListNotations.
Local Open Scope list_scope.
Local Arguments cmp : simpl never.

Section Out.
  Context {T : Type} {O : Ord T}.
  Implicit Types (r : RawInterval T) (t u : Tine T) (s L R C : list (Tine T)).

  Lemma chain_head R c m : chain c R false = true -> chain m R false = Bool.eqb m c.
  Proof.
    destruct R as [|t R]; cbn; intros H; [apply eqb_prop in H; now subst|].
    apply andb_true_iff in H as [H H2]. apply andb_true_iff in H as [K E]. apply eqb_prop in E. subst c. now rewrite K, H2, andb_true_r.
  Qed.
  Lemma chain_left L X b c d : chain b L c = true -> chain b (L ++ X) d = chain c X d.
  Proof.
    revert b. induction L as [|t L IH]; cbn; intros b H; [apply eqb_prop in H; now subst|].
    apply andb_true_iff in H as [H H2]. now rewrite H, (IH _ H2).
  Qed.
  Lemma chain_mid C X c1 c2 m d : chain c1 C c2 = true ->
    chain m (C ++ X) d = match C with [] => chain m X d | _ => Bool.eqb m c1 && chain c2 X d end.
  Proof.
    destruct C as [|t C]; cbn; intros H; auto. apply andb_true_iff in H as [H H2]. apply andb_true_iff in H as [K E].
    apply eqb_prop in E. subst c1. now rewrite K, (chain_left _ _ _ _ _ H2).
  Qed.

  (** The state before, at and after the upper end, then the lower end; [e]: no tine between
      the two; [il], [iu]: the ends include their values. *)
  Definition out_ok (il iu c0 vu c1 c2 vl c3 e : bool) : bool :=
    if e then c0 && c3 || xorb c0 c3 && (if c1 then if c0 then vu && (vl || il) else vl && (vu || iu) else true)
    else Bool.eqb c0 c1 && c3.
  Definition out_b (il iu c0 vu c1 c2 vl c3 e : bool) : bool :=
    c0 && if e then if c3 then negb c1 || vu || iu else if c1 then iu else vu || iu else vu || iu.
  Definition out_a (il iu c0 vu c1 c2 vl c3 e : bool) : bool :=
    c3 && if e then if c0 then negb c1 || vl || il else if c1 then il else vl || il else vl || il.

  (** Removing an interval that excludes both ends from [.., b] and [a, ..]: the one case
      in which removing does not mirror adding. *)
  Definition out_x (il iu c0 vu c1 c2 vl c3 e : bool) : bool :=
    e && c0 && vu && negb c1 && vl && c3 && negb il && negb iu.

  Lemma out_result dbg lb ub a b L C R c0 vu c1 c2 vl c3 :
    (lb = Include a \/ lb = Exclude a) -> (ub = Include b \/ ub = Exclude b) -> lt b a ->
    chain false L c0 = true -> chain c1 C c2 = true -> chain c3 R false = true ->
    bl (At b) L -> ab (At b) C -> bl (At a) C -> ab (At a) R ->
    let s := L ++ opt (mk (At b) c0 vu c1) ++ C ++ opt (mk (At a) c2 vl c3) ++ R in
    let e := match C with [] => true | _ => false end in
    let il := incl_b lb in let iu := incl_b ub in
    (if out_ok il iu c0 vu c1 c2 vl c3 e then
       union_proper_interval dbg (TLower lb) (TUpper ub) s =
       Ok (L ++ opt (mk (At b) c0 (out_b il iu c0 vu c1 c2 vl c3 e) (if e then c0 && c3 else c1)) ++ C ++
                opt (mk (At a) (if e then c0 && c3 else c2) (out_a il iu c0 vu c1 c2 vl c3 e) c3) ++ R)
     else forall s', union_proper_interval dbg (TLower lb) (TUpper ub) s = Ok s' -> chain false s' false = false) /\
    (if out_ok il iu (negb c0) (negb vu) (negb c1) (negb c2) (negb vl) (negb c3) e || out_x il iu c0 vu c1 c2 vl c3 e then
       minus_proper_interval dbg (TLower lb) (TUpper ub) s =
       Ok (L ++ opt (mk (At b) c0 (negb (out_b il iu (negb c0) (negb vu) (negb c1) (negb c2) (negb vl) (negb c3) e || out_x il iu c0 vu c1 c2 vl c3 e)) (if e then c0 || c3 else c1)) ++ C ++
                opt (mk (At a) (if e then c0 || c3 else c2) (negb (out_a il iu (negb c0) (negb vu) (negb c1) (negb c2) (negb vl) (negb c3) e || out_x il iu c0 vu c1 c2 vl c3 e)) c3) ++ R)
     else forall s', minus_proper_interval dbg (TLower lb) (TUpper ub) s = Ok s' -> chain false s' false = false).
  Proof.
    intros La Ub H HL HC HR BL AC BC AR s e il iu.
    assert (Ll : loc (TLower lb) = At a) by (destruct La as [->| ->]; reflexivity).
    assert (Lu : loc (TUpper ub) = At b) by (destruct Ub as [->| ->]; reflexivity).
    assert (H' : lt (At b) (At a)) by exact H.
    assert (BL' : bl (At a) L) by (eapply bl_weaken; eauto).
    assert (AR' : ab (At b) R) by (eapply ab_weaken; eauto).
    assert (X : exterior_split_for_proper_interval (TLower lb) (TUpper ub) s =
      ((btree_last (L ++ C), mk (At a) c2 vl c3, mk (At b) c0 vu c1, btree_first R), L ++ C ++ R)).
    { apply ext_out; rewrite ?Ll, ?Lu; auto; apply mk_at. }
    unfold union_proper_interval, minus_proper_interval. rewrite X, (chain_first R c3 HR).
    assert (Ho : is_some_and is_lower_bound (btree_last (L ++ C)) = if e then c0 else c2).
    { subst e. destruct C as [|t C]; [rewrite app_nil_r; now apply chain_last|].
      rewrite last_app by discriminate. apply (chain_last_some (t :: C) c1); auto. discriminate. }
    rewrite Ho.
    assert (Hc : e = true -> c1 = c2).
    { subst e. destruct C; [|discriminate]. intros _. now apply eqb_prop in HC. }
    set (sel := fun x y : option (Tine T) => L ++ opt x ++ C ++ opt y ++ R).
    assert (E0 : L ++ C ++ R = sel None None) by reflexivity.
    assert (Es : forall x y, L ++ opt x ++ C ++ opt y ++ R = sel x y) by reflexivity.
    assert (BC2 : forall x, at_loc (At b) x -> bl (At a) (L ++ opt x ++ C)).
    { intros x Hx. apply bl_app. split; auto. apply bl_app. split; auto. destruct x; repeat constructor; destruct Hx as [? Ex]; auto. now rewrite Ex. }
    assert (Ja : forall t x, okt t = true -> loc t = At a -> at_loc (At b) x -> btree_insert t (sel x None) = sel x (Some t)).
    { intros t x K E Hx. unfold sel. cbn [opt app]. rewrite 2 app_assoc, <- (app_assoc L). rewrite (insert_split t (L ++ opt x ++ C) R); rewrite ?E; auto.
      now rewrite <- !app_assoc. }
    assert (AC2 : forall y, at_loc (At a) y -> ab (At b) (C ++ opt y ++ R)).
    { intros y Hy. apply ab_app. split; auto. apply ab_app. split; auto. destruct y; repeat constructor; destruct Hy as [? Ey]; auto. now rewrite Ey. }
    assert (Jb : forall t y, okt t = true -> loc t = At b -> at_loc (At a) y -> btree_insert t (sel None y) = sel (Some t) y).
    { intros t y K E Hy. unfold sel. cbn [opt app]. rewrite (insert_split t L); rewrite ?E; auto. }
    assert (Ch : forall x y, chain false (sel x y) false =
      let f := fun m => match y with None => Bool.eqb m c3 | Some t => okt t && Bool.eqb m (is_upper_bound t) && Bool.eqb (is_lower_bound t) c3 end in
      let g := fun m => if e then f m else Bool.eqb m c1 && f c2 in
      match x with None => g c0 | Some t => okt t && Bool.eqb c0 (is_upper_bound t) && g (is_lower_bound t) end).
    { intros x y. unfold sel. rewrite (chain_left _ _ _ _ _ HL). cbv zeta.
      assert (F : forall m, chain m (opt y ++ R) false =
        match y with None => Bool.eqb m c3 | Some t => okt t && Bool.eqb m (is_upper_bound t) && Bool.eqb (is_lower_bound t) c3 end).
      { intros m. destruct y; cbn; now rewrite (chain_head R c3). }
      assert (G : forall m, chain m (C ++ opt y ++ R) false =
        if e then match y with None => Bool.eqb m c3 | Some t => okt t && Bool.eqb m (is_upper_bound t) && Bool.eqb (is_lower_bound t) c3 end
        else Bool.eqb m c1 && match y with None => Bool.eqb c2 c3 | Some t => okt t && Bool.eqb c2 (is_upper_bound t) && Bool.eqb (is_lower_bound t) c3 end).
      { intros m. rewrite (chain_mid _ _ _ _ _ _ HC), !F. subst e. destruct C; reflexivity. }
      destruct x; cbn; now rewrite G. }
    subst s. rewrite E0, !Es. clear Ll Lu X Ho E0 Es AC2 BC2 HL HC HR BL AC BC AR BL' AR' H'. clearbody e sel.
    subst il iu. unfold out_ok, out_a, out_b, out_x.
    destruct La as [->| ->], Ub as [->| ->], c0, vu, c1, c2, vl, c3, e; try (specialize (Hc eq_refl); discriminate); clear Hc.
    all: cbn [mk incl_b Bool.eqb andb orb negb implb xorb]; unfold tine_union, tine_minus, debug_assert; cbn [opt_eqb tine_as_ref bound_as_ref].
    all: rewrite ?eqb_refl; destruct dbg; cbn -[btree_insert chain];
      repeat first [ rewrite Ja by (try reflexivity; exact I) | rewrite Jb by (try reflexivity; repeat split; reflexivity) | rewrite Ja by (repeat split; reflexivity) ].
    all: split; first [reflexivity | discriminate | intros s' Q; injection Q as <-; rewrite Ch; reflexivity].
  Qed.

  (** ** In words

      [b] is the upper end and [a] the lower end, [b] before [a].  [below]: the tree goes on
      right before [b]; [at_b]: it holds [b]; [mid]: it goes on right after [b]; [at_a]: it
      holds [a]; [above]: it goes on right after [a].  [inc_b], [inc_a]: the ends include
      their values.  [bare]: no interval begins or ends strictly between.

      When the tree stays well formed: *)
  Definition out_fits (below at_b mid at_a above inc_b inc_a bare : Prop) : Prop :=
    ~ bare /\ (below <-> mid) /\ above \/
    bare /\ (below /\ above \/ (below \/ above) /\ ~ mid \/
             mid /\ below /\ at_b /\ (at_a \/ inc_a) \/ mid /\ above /\ at_a /\ (at_b \/ inc_b)).
  (** When it then holds the value of one end: [side] is the part of the tree beyond that
      end, [far] the part beyond the other. *)
  Definition out_holds (side at_end mid far inc bare : Prop) : Prop :=
    side /\ (~ bare /\ (at_end \/ inc) \/
             bare /\ (far /\ (~ mid \/ at_end \/ inc) \/ ~ far /\ (mid /\ inc \/ ~ mid /\ (at_end \/ inc)))).

  Definition bare (l : list (RawInterval T)) (b a : T) : Prop := forall x, lt b x -> lt x a -> steady l x.

  Lemma not_true_negb (x : bool) : ~ x = true <-> negb x = true.
  Proof. rewrite negb_true_iff. apply not_true_iff_false. Qed.
  Lemma iff_true_eqb (x y : bool) : (x = true <-> y = true) <-> Bool.eqb x y = true.
  Proof. split; [intros [A B]; destruct x, y; cbn; auto|intros H; apply eqb_prop in H; now subst]. Qed.
  Lemma false_negb (x : bool) : x = false <-> negb x = true.
  Proof. symmetry. apply negb_true_iff. Qed.
  Ltac to_bool := repeat first [rewrite not_true_negb | rewrite false_negb | rewrite <- andb_true_iff | rewrite <- orb_true_iff | rewrite iff_true_eqb].

  Lemma out_ends dbg s l r lb ub a b : tree_wf s -> intervals_are dbg s l -> written r lb ub a b -> lt b a ->
    let extra := bare l b a /\ filled_below l b /\ some_contains l b /\ ~ filled_above l b /\ some_contains l a /\ filled_above l a /\
                 lb = Exclude a /\ ub = Exclude b in
    ((exists s', tree_union_in_place dbg s r = Ok s' /\ tree_wf s') <->
       out_fits (filled_below l b) (some_contains l b) (filled_above l b) (some_contains l a) (filled_above l a)
         (ub = Include b) (lb = Include a) (bare l b a)) /\
    (forall s', tree_union_in_place dbg s r = Ok s' -> tree_wf s' ->
       (forall x, lt x b \/ lt a x \/ ~ bare l b a /\ lt b x /\ lt x a -> tree_contains dbg s' x = tree_contains dbg s x) /\
       (bare l b a -> forall x, lt b x -> lt x a -> (tree_contains dbg s' x = Ok true <-> filled_below l b /\ filled_above l a)) /\
       (tree_contains dbg s' b = Ok true <->
          out_holds (filled_below l b) (some_contains l b) (filled_above l b) (filled_above l a) (ub = Include b) (bare l b a)) /\
       (tree_contains dbg s' a = Ok true <->
          out_holds (filled_above l a) (some_contains l a) (filled_above l b) (filled_below l b) (lb = Include a) (bare l b a))) /\
    ((exists s', tree_minus_in_place dbg s r = Ok s' /\ tree_wf s') <->
       out_fits (~ filled_below l b) (~ some_contains l b) (~ filled_above l b) (~ some_contains l a) (~ filled_above l a)
         (ub = Include b) (lb = Include a) (bare l b a) \/ extra) /\
    (forall s', tree_minus_in_place dbg s r = Ok s' -> tree_wf s' ->
       (forall x, lt x b \/ lt a x \/ ~ bare l b a /\ lt b x /\ lt x a -> tree_contains dbg s' x = tree_contains dbg s x) /\
       (bare l b a -> forall x, lt b x -> lt x a -> (tree_contains dbg s' x = Ok false <-> ~ filled_below l b /\ ~ filled_above l a)) /\
       (tree_contains dbg s' b = Ok false <->
          out_holds (~ filled_below l b) (~ some_contains l b) (~ filled_above l b) (~ filled_above l a) (ub = Include b) (bare l b a) \/ extra) /\
       (tree_contains dbg s' a = Ok false <->
          out_holds (~ filled_above l a) (~ some_contains l a) (~ filled_above l b) (~ filled_below l b) (lb = Include a) (bare l b a) \/ extra)).
  Proof.
    intros W Hl Wr H extra. apply wf_tree_wf in W. subst extra. rewrite (intervals_pieces dbg s l W Hl). clear Hl.
    assert (NP : forall x, r <> Point x).
    { intros x ->. destruct Wr as (A & B & [-> | ->] & [-> | ->]); cbn in A, B; try discriminate. injection A as ->. injection B as ->.
      now apply lt_irrefl in H. }
    destruct (written_tines r lb ub a b Wr NP) as (Et & Ef & Ee). destruct Wr as (_ & _ & La & Ub).
    destruct (split2_at (At b) (At a) s) as [L C R c0 vu c1 c2 vl c3 Hs A A' HL HC HR BL AC BC AR SL SC SR]; auto; try exact I.
    assert (B := between_steady a b L C R c0 vu c1 c2 vl c3 H HL HC HR BL AC BC AR SL SC SR). cbv zeta in B. rewrite <- Hs in B.
    destruct (near_split (Include b) (Include a) L C R c0 vu c1 c2 vl c3) as [N1 N2]; auto.
    change (loc (TLower (Include b))) with (At b) in N1. change (loc (TUpper (Include a))) with (At a) in N1.
    change (loc (TLower (Include b))) with (At b) in N2. change (loc (TUpper (Include a))) with (At a) in N2.
    rewrite <- Hs in N1, N2. cbn in N1, N2. injection N1 as D1 D2 D3. injection N2 as D4 D5 D6.
    assert (H' : lt (At b) (At a)) by exact H.
    (* the new tree, whatever its state at the two ends *)
    assert (New : forall v1 m1 m2 v2, chain m1 C m2 = true -> (C <> [] -> m1 = c1) ->
      let s' := L ++ opt (mk (At b) c0 v1 m1) ++ C ++ opt (mk (At a) m2 v2 c3) ++ R in
      wf s' /\ den false s' (At b) = v1 /\ den false s' (At a) = v2 /\
      (forall x, lt x b \/ lt a x \/ C <> [] /\ lt b x /\ lt x a -> den false s' (At x) = den false s (At x)) /\
      (C = [] -> forall x, lt b x -> lt x a -> den false s' (At x) = m1)).
    { intros v1 m1 m2 v2 HC' Hm s'. split; [now apply wf_split2|].
      assert (P : forall p, den false s' p = match cmp p (At b) with Lt => den false L p | Eq => v1
        | Gt => match cmp p (At a) with Lt => den m1 C p | Eq => v2 | Gt => den c3 R p end end).
      { intros p. unfold s'. rewrite (den_split2 p (At b) (At a)) by (auto; exact I). reflexivity. }
      assert (P0 : forall p, den false s p = match cmp p (At b) with Lt => den false L p | Eq => vu
        | Gt => match cmp p (At a) with Lt => den c1 C p | Eq => vl | Gt => den c3 R p end end).
      { intros p. rewrite Hs. rewrite (den_split2 p (At b) (At a)) by (auto; exact I). reflexivity. }
      split; [now rewrite P, cmp_refl|]. split.
      { rewrite P, (proj2 (cmp_gt_lt _ _) H'), cmp_refl. reflexivity. }
      split.
      - intros x Hx. rewrite P, P0. destruct (cmp (At x) (At b)) eqn:X; auto.
        { exfalso. apply cmp_eq in X. inversion X. subst x. clear - H Hx. destruct Hx as [Hx|[Hx|(_ & Hx & _)]]; order. }
        apply cmp_gt_lt in X. change (lt b x) in X. destruct (cmp (At x) (At a)) eqn:Y; auto.
        { exfalso. apply cmp_eq in Y. inversion Y. subst x. clear - H Hx. destruct Hx as [Hx|[Hx|(_ & _ & Hx)]]; order. }
        change (lt x a) in Y. destruct Hx as [Hx|[Hx|(Hx & _)]].
        + exfalso. clear - Hx X. order.
        + exfalso. clear - Hx Y. order.
        + now rewrite (Hm Hx).
      - intros EC x X Y. rewrite P. change (lt (At b) (At x)) in X. change (lt (At x) (At a)) in Y. unfold lt in Y.
        rewrite (proj2 (cmp_gt_lt _ _) X), Y, EC. reflexivity. }
    destruct (out_result dbg lb ub a b L C R c0 vu c1 c2 vl c3 La Ub H HL HC HR BL AC BC AR) as [U M]. cbv zeta in U, M.
    rewrite <- Hs in U, M.
    set (e := match C with [] => true | _ => false end) in *.
    assert (EC : C = [] <-> e = true) by (unfold e; destruct C; split; congruence).
    assert (Hce : chain (if e then c0 && c3 else c1) C (if e then c0 && c3 else c2) = true /\
                  chain (if e then c0 || c3 else c1) C (if e then c0 || c3 else c2) = true).
    { unfold e. destruct C; [cbn; now rewrite !eqb_reflx|auto]. }
    destruct Hce as [Hce1 Hce2].
    assert (Hcm : forall m, C <> [] -> (if e then m else c1) = c1) by (unfold e; destruct C; congruence).
    assert (Hcc : e = true -> c1 = c2) by (unfold e; destruct C; [|discriminate]; intros _; now apply eqb_prop in HC).
    assert (Il : lb = Include a <-> incl_b lb = true) by (destruct La as [-> | ->]; cbn; split; congruence).
    assert (Iu : ub = Include b <-> incl_b ub = true) by (destruct Ub as [-> | ->]; cbn; split; congruence).
    assert (Il' : lb = Exclude a <-> incl_b lb = false) by (destruct La as [-> | ->]; cbn; split; congruence).
    assert (Iu' : ub = Exclude b <-> incl_b ub = false) by (destruct Ub as [-> | ->]; cbn; split; congruence).
    assert (Bb : bare (pieces None s) b a <-> e = true) by (unfold bare; rewrite B; exact EC).
    assert (Fb : filled_below (pieces None s) b <-> c0 = true) by (now rewrite filled_below_den, D1 by auto).
    assert (Sb : some_contains (pieces None s) b <-> vu = true) by (now rewrite at_den, D2 by auto).
    assert (Gb : filled_above (pieces None s) b <-> c1 = true) by (now rewrite filled_above_den, D3 by auto).
    assert (Sa : some_contains (pieces None s) a <-> vl = true) by (now rewrite at_den, D5 by auto).
    assert (Ga : filled_above (pieces None s) a <-> c3 = true) by (now rewrite filled_above_den, D6 by auto).
    unfold out_fits, out_holds. clear D1 D2 D3 D4 D5 D6.
    assert (EU : tree_union_in_place dbg s r = union_proper_interval dbg (TLower lb) (TUpper ub) s)
      by (unfold tree_union_in_place; now rewrite Ef, Et).
    assert (EM : tree_minus_in_place dbg s r = minus_proper_interval dbg (TLower lb) (TUpper ub) s).
    { unfold tree_minus_in_place. rewrite Ee, orb_false_r, Ef, Et. destruct s; [|reflexivity]. cbn [tree_is_empty].
      destruct lb, ub, dbg; reflexivity. }
    rewrite EU, EM. clear EU.
    assert (BT : forall x, tree_contains dbg s x = Ok (den false s (At x))) by (intros x; now apply tree_contains_den).
    assert (Use : forall v1 m v2 s', chain (if e then m else c1) C (if e then m else c2) = true ->
      s' = L ++ opt (mk (At b) c0 v1 (if e then m else c1)) ++ C ++ opt (mk (At a) (if e then m else c2) v2 c3) ++ R ->
      tree_wf s' /\
      (forall x, lt x b \/ lt a x \/ ~ bare (pieces None s) b a /\ lt b x /\ lt x a -> tree_contains dbg s' x = tree_contains dbg s x) /\
      (bare (pieces None s) b a -> forall x, lt b x -> lt x a -> tree_contains dbg s' x = Ok m) /\
      tree_contains dbg s' b = Ok v1 /\ tree_contains dbg s' a = Ok v2).
    { intros v1 m v2 s' Hch ->. destruct (New v1 _ _ v2 Hch (Hcm m)) as (W' & Vb & Va & Vo & Vi). cbv zeta in *.
      split; [now apply wf_tree_wf|]. rewrite !tree_contains_den by auto. rewrite Vb, Va. split; [|split; auto].
      - intros x Hx. rewrite !tree_contains_den by auto. f_equal. apply Vo. rewrite Bb, <- EC in Hx. exact Hx.
      - intros Q x X Y. rewrite tree_contains_den by auto. f_equal. rewrite Bb in Q. rewrite (Vi (proj2 EC Q) x X Y). now rewrite Q. }
    clear B New EC. clearbody e.
    assert (Okb : forall x y : bool, Ok x = Ok y <-> x = y) by (intros; split; congruence).
    assert (NW : forall s', chain false s' false = false -> ~ tree_wf s').
    { intros s' Q W'. apply wf_tree_wf in W' as [_ W']. congruence. }
    assert (Bo : forall x : bool, x = false <-> ~ x = true) by (intros []; split; congruence).
    split; [|split; [|split]].
    - rewrite Bb, Fb, Sb, Gb, Sa, Ga, Il, Iu, ?Il', ?Iu'. destruct (out_ok (incl_b lb) (incl_b ub) c0 vu c1 c2 vl c3 e) eqn:K.
      + split; [intros _|intros _; eexists; split; [exact U|exact (proj1 (Use _ _ _ _ Hce1 eq_refl))]].
        clear - K. revert K. unfold out_ok. generalize (incl_b lb) (incl_b ub). intros il iu.
        to_bool. destruct e, c0, vu, c1, vl, c3, il, iu; first [discriminate | reflexivity].
      + split; [intros (s' & Q & W'); exfalso; eapply NW; eauto|intros Q; exfalso].
        clear - K Q. revert Q K. unfold out_ok. generalize (incl_b lb) (incl_b ub). intros il iu.
        to_bool. destruct e, c0, vu, c1, vl, c3, il, iu; first [discriminate | reflexivity].
    - intros s' Q W'. destruct (out_ok (incl_b lb) (incl_b ub) c0 vu c1 c2 vl c3 e) eqn:K; [|exfalso; eapply NW; eauto].
      rewrite U in Q. injection Q as Q. destruct (Use _ _ _ s' Hce1 (eq_sym Q)) as (_ & V1 & V2 & V3 & V4). split; auto.
      rewrite V3, V4, !Okb. split; [intros X x Y Z; rewrite (V2 X x Y Z), Okb, Fb, Ga; apply andb_true_iff|].
      rewrite Bb, Fb, Sb, Gb, Sa, Ga, Il, Iu, ?Il', ?Iu'. clear - K. revert K. unfold out_ok, out_b, out_a. generalize (incl_b lb) (incl_b ub). intros il iu.
      to_bool. destruct e, c0, vu, c1, vl, c3, il, iu; first [discriminate | reflexivity].
    - rewrite Bb, Fb, Sb, Gb, Sa, Ga, Il, Iu, ?Il', ?Iu'. destruct (out_ok (incl_b lb) (incl_b ub) (negb c0) (negb vu) (negb c1) (negb c2) (negb vl) (negb c3) e || _) eqn:K.
      + split; [intros _|intros _; eexists; split; [exact M|exact (proj1 (Use _ _ _ _ Hce2 eq_refl))]].
        clear - K. revert K. unfold out_ok, out_x. generalize (incl_b lb) (incl_b ub). intros il iu.
        to_bool. destruct e, c0, vu, c1, vl, c3, il, iu; first [discriminate | reflexivity].
      + split; [intros (s' & Q & W'); exfalso; eapply NW; eauto|intros Q; exfalso].
        clear - K Q. revert Q K. unfold out_ok, out_x. generalize (incl_b lb) (incl_b ub). intros il iu.
        to_bool. destruct e, c0, vu, c1, vl, c3, il, iu; first [discriminate | reflexivity].
    - intros s' Q W'.
      destruct (out_ok (incl_b lb) (incl_b ub) (negb c0) (negb vu) (negb c1) (negb c2) (negb vl) (negb c3) e || _) eqn:K;
        [|exfalso; eapply NW; eauto].
      rewrite M in Q. injection Q as Q. destruct (Use _ _ _ s' Hce2 (eq_sym Q)) as (_ & V1 & V2 & V3 & V4). split; auto.
      rewrite V3, V4, !Okb. split; [intros X x Y Z; rewrite (V2 X x Y Z), Okb, Fb, Ga, <- !Bo; apply orb_false_iff|].
      rewrite Bb, Fb, Sb, Gb, Sa, Ga, Il, Iu, ?Il', ?Iu'. clear - K. revert K. unfold out_ok, out_b, out_a, out_x. generalize (incl_b lb) (incl_b ub). intros il iu.
      to_bool. destruct e, c0, vu, c1, vl, c3, il, iu; first [discriminate | reflexivity].
  Qed.

  (** ** The theorems

      Adding an interval with its ends out of order: when the tree stays well formed, and
      what it holds then.  Beyond the two ends nothing changes; if an interval begins or ends
      strictly between them, nothing changes between them either.  Otherwise everything between
      them is there if the tree goes on beyond both, and nothing if not. *)
  Theorem C113_union_result_partial dbg s l r lb ub a b : tree_wf s -> intervals_are dbg s l -> written r lb ub a b -> lt b a ->
    ((exists s', tree_union_in_place dbg s r = Ok s' /\ tree_wf s') <->
       out_fits (filled_below l b) (some_contains l b) (filled_above l b) (some_contains l a) (filled_above l a)
         (ub = Include b) (lb = Include a) (bare l b a)) /\
    (forall s', tree_union_in_place dbg s r = Ok s' -> tree_wf s' ->
       (forall x, lt x b \/ lt a x \/ ~ bare l b a /\ lt b x /\ lt x a -> tree_contains dbg s' x = tree_contains dbg s x) /\
       (bare l b a -> forall x, lt b x -> lt x a -> (tree_contains dbg s' x = Ok true <-> filled_below l b /\ filled_above l a)) /\
       (tree_contains dbg s' b = Ok true <->
          out_holds (filled_below l b) (some_contains l b) (filled_above l b) (filled_above l a) (ub = Include b) (bare l b a)) /\
       (tree_contains dbg s' a = Ok true <->
          out_holds (filled_above l a) (some_contains l a) (filled_above l b) (filled_below l b) (lb = Include a) (bare l b a))).
  Proof. intros W Hl Wr H. destruct (out_ends dbg s l r lb ub a b W Hl Wr H) as (A & B & _). auto. Qed.

  (** Removing one: the same with the tree's complement, and one more case.  The interval
      excludes both ends, which belong to the tree, and nothing between them does: then the
      two values go and all between them comes. *)
  Theorem C113_minus_result_partial dbg s l r lb ub a b : tree_wf s -> intervals_are dbg s l -> written r lb ub a b -> lt b a ->
    let extra := bare l b a /\ filled_below l b /\ some_contains l b /\ ~ filled_above l b /\ some_contains l a /\ filled_above l a /\
                 lb = Exclude a /\ ub = Exclude b in
    ((exists s', tree_minus_in_place dbg s r = Ok s' /\ tree_wf s') <->
       out_fits (~ filled_below l b) (~ some_contains l b) (~ filled_above l b) (~ some_contains l a) (~ filled_above l a)
         (ub = Include b) (lb = Include a) (bare l b a) \/ extra) /\
    (forall s', tree_minus_in_place dbg s r = Ok s' -> tree_wf s' ->
       (forall x, lt x b \/ lt a x \/ ~ bare l b a /\ lt b x /\ lt x a -> tree_contains dbg s' x = tree_contains dbg s x) /\
       (bare l b a -> forall x, lt b x -> lt x a -> (tree_contains dbg s' x = Ok false <-> ~ filled_below l b /\ ~ filled_above l a)) /\
       (tree_contains dbg s' b = Ok false <->
          out_holds (~ filled_below l b) (~ some_contains l b) (~ filled_above l b) (~ filled_above l a) (ub = Include b) (bare l b a) \/ extra) /\
       (tree_contains dbg s' a = Ok false <->
          out_holds (~ filled_above l a) (~ some_contains l a) (~ filled_above l b) (~ filled_below l b) (lb = Include a) (bare l b a) \/ extra)).
  Proof. intros W Hl Wr H. destruct (out_ends dbg s l r lb ub a b W Hl Wr H) as (_ & _ & A & B). auto. Qed.

  (** Both ends at one value, written as an interval with two ends. *)
  Theorem C113_one_value_result_partial dbg s l r lb ub a : tree_wf s -> intervals_are dbg s l -> written r lb ub a a -> (forall x, r <> Point x) ->
    ((exists s', tree_union_in_place dbg s r = Ok s' /\ tree_wf s') <->
       filled_above l a \/ filled_below l a /\ (some_contains l a \/ lb = Include a)) /\
    (forall s', tree_union_in_place dbg s r = Ok s' -> tree_wf s' ->
       (forall x, x <> a -> tree_contains dbg s' x = tree_contains dbg s x) /\
       (tree_contains dbg s' a = Ok true <->
          filled_above l a /\ (some_contains l a \/ lb = Include a) \/ ~ filled_above l a /\ ub = Include a)) /\
    ((exists s', tree_minus_in_place dbg s r = Ok s' /\ tree_wf s') <-> ~ (filled_below l a /\ filled_above l a)) /\
    (forall s', tree_minus_in_place dbg s r = Ok s' -> tree_wf s' ->
       (forall x, x <> a -> tree_contains dbg s' x = tree_contains dbg s x) /\
       (tree_contains dbg s' a = Ok true <->
          filled_above l a /\ ub = Exclude a \/ ~ filled_above l a /\ some_contains l a /\ lb = Exclude a)).
  Proof.
    intros W Hl Wr NP. apply wf_tree_wf in W. rewrite (intervals_pieces dbg s l W Hl). clear Hl.
    destruct (written_tines r lb ub a a Wr NP) as (Et & Ef & Ee). destruct Wr as (_ & _ & La & Ub).
    assert (Ll : loc (TLower lb) = At a) by (destruct La as [->| ->]; reflexivity).
    assert (Lu : loc (TUpper ub) = At a) by (destruct Ub as [->| ->]; reflexivity).
    assert (W' := W). destruct W' as [Ss Hc].
    destruct (split_at (At a) false s false) as (L & R & c0 & v & c1 & E & A & HL & HR & BL & AR & SL & SR); auto; try discriminate; try exact I.
    assert (D : den false s (Lo a) = c0 /\ den false s (At a) = v /\ den false s (Hi a) = c1)
      by (rewrite E, den_Lo, den_At, den_Hi by auto; auto).
    destruct D as (D1 & D2 & D3).
    assert (X : exterior_split_for_proper_interval (TLower lb) (TUpper ub) s = ((btree_last L, mk (At a) c0 v c1, None, btree_first R), L ++ R)).
    { unfold exterior_split_for_proper_interval. rewrite E.
      rewrite (take_split (TLower lb) L _ R) by (rewrite ?Ll; auto; apply mk_at).
      assert (Q := take_split (TUpper ub) L None R). cbn [opt app] in Q. rewrite Q by (rewrite ?Lu; auto; exact I).
      rewrite (split_off_split (TLower lb) L R) by (rewrite ?Ll; auto).
      assert (Q' : btree_split_off (TUpper ub) R = ([], R)) by (apply (split_off_split _ [] R); rewrite ?Lu; auto; constructor).
      now rewrite Q', (append_split (At a)) by auto. }
    set (sel := fun x : option (Tine T) => L ++ opt x ++ R).
    assert (Ch : forall x, chain false (sel x) false =
      match x with None => Bool.eqb c0 c1 | Some t => okt t && Bool.eqb c0 (is_upper_bound t) && Bool.eqb (is_lower_bound t) c1 end).
    { intros x. unfold sel. rewrite (chain_left _ _ _ _ _ HL). destruct x; cbn; now rewrite (chain_head R c1). }
    assert (J : forall t, okt t = true -> loc t = At a -> btree_insert t (sel None) = sel (Some t)).
    { intros t K Q. unfold sel. cbn [opt app]. apply insert_split; rewrite ?Q; auto. }
    assert (J2 : forall t u, okt t = true -> loc t = At a -> okt u = true -> loc u = At a -> btree_insert u (sel (Some t)) = sel (Some t)).
    { intros t u K Q K' Q'. unfold sel. cbn [opt app]. apply insert_same; auto; rewrite ?Q; congruence || auto. }
    assert (Res : (if c1 || c0 && (v || incl_b lb) then
        union_proper_interval dbg (TLower lb) (TUpper ub) s = Ok (sel (mk (At a) c0 (if c1 then v || incl_b lb else incl_b ub) c1))
      else forall s', union_proper_interval dbg (TLower lb) (TUpper ub) s = Ok s' -> chain false s' false = false) /\
      (if negb (c0 && c1) then
        minus_proper_interval dbg (TLower lb) (TUpper ub) s = Ok (sel (mk (At a) c0 (if c1 then negb (incl_b ub) else v && negb (incl_b lb)) c1))
      else forall s', minus_proper_interval dbg (TLower lb) (TUpper ub) s = Ok s' -> chain false s' false = false)).
    { unfold union_proper_interval, minus_proper_interval. rewrite X, (chain_first R c1 HR), (chain_last L c0 HL).
      assert (E0 : L ++ R = sel None) by reflexivity. rewrite E0. clear - La Ub J J2 Ch. clearbody sel.
      destruct La as [->| ->], Ub as [->| ->], c0, v, c1.
      all: cbn [mk incl_b andb orb negb]; unfold tine_union, tine_minus, debug_assert; cbn [opt_eqb tine_as_ref bound_as_ref].
      all: rewrite ?eqb_refl; destruct dbg; cbn -[btree_insert chain];
        repeat first [ rewrite J by reflexivity | rewrite J2 by reflexivity ].
      all: split; first [reflexivity | discriminate | intros s' Q; injection Q as <-; rewrite Ch; reflexivity]. }
    assert (New : forall w, tree_wf (sel (mk (At a) c0 w c1)) /\
      (forall x, x <> a -> tree_contains dbg (sel (mk (At a) c0 w c1)) x = tree_contains dbg s x) /\
      tree_contains dbg (sel (mk (At a) c0 w c1)) a = Ok w).
    { intros w. assert (Wn : wf (sel (mk (At a) c0 w c1))).
      { split; [apply (srt_glue (At a)); auto; apply mk_at|]. rewrite Ch.
        generalize (mk_spec (At a) c0 w c1 I). destruct (mk (At a) c0 w c1) as [t|].
        - intros (-> & _ & -> & -> & _). now rewrite !eqb_reflx.
        - intros [-> _]. apply eqb_reflx. }
      split; [now apply wf_tree_wf|]. split.
      - intros x Hx. rewrite !tree_contains_den by auto. f_equal. unfold sel. rewrite E at 1.
        assert (Q : forall w, den false (L ++ opt (mk (At a) c0 w c1) ++ R) (At x) = match cmp (At x) (At a) with Lt => den false L (At x) | Eq => w | Gt => den c1 R (At x) end).
        { intros w0. exact (den_split false L _ R (At x) (At a) c0 w0 c1 I eq_refl HL BL AR). }
        rewrite !Q. destruct (cmp (At x) (At a)) eqn:Y; auto. apply cmp_eq in Y. congruence.
      - rewrite tree_contains_den by auto. unfold sel. now rewrite den_At by auto. }
    destruct Res as [U M].
    assert (EU : tree_union_in_place dbg s r = union_proper_interval dbg (TLower lb) (TUpper ub) s)
      by (unfold tree_union_in_place; now rewrite Ef, Et).
    assert (EM : tree_minus_in_place dbg s r = minus_proper_interval dbg (TLower lb) (TUpper ub) s).
    { unfold tree_minus_in_place. rewrite Ee, orb_false_r, Ef, Et. destruct s; [|reflexivity]. cbn [tree_is_empty].
      destruct lb, ub, dbg; reflexivity. }
    rewrite EU, EM, filled_below_den, filled_above_den, at_den, D1, D2, D3 by auto.
    assert (Il : lb = Include a <-> incl_b lb = true) by (destruct La as [-> | ->]; cbn; split; congruence).
    assert (Iu : ub = Include a <-> incl_b ub = true) by (destruct Ub as [-> | ->]; cbn; split; congruence).
    assert (Il' : lb = Exclude a <-> incl_b lb = false) by (destruct La as [-> | ->]; cbn; split; congruence).
    assert (Iu' : ub = Exclude a <-> incl_b ub = false) by (destruct Ub as [-> | ->]; cbn; split; congruence).
    assert (Okb : forall x y : bool, Ok x = Ok y <-> x = y) by (intros; split; congruence).
    assert (NW : forall s', chain false s' false = false -> ~ tree_wf s').
    { intros s' Q Wq. apply wf_tree_wf in Wq as [_ Wq]. congruence. }
    assert (Fa : filled_above (pieces None s) a <-> c1 = true) by (now rewrite filled_above_den, D3 by auto).
    assert (Fb : filled_below (pieces None s) a <-> c0 = true) by (now rewrite filled_below_den, D1 by auto).
    assert (Sa : some_contains (pieces None s) a <-> v = true) by (now rewrite at_den, D2 by auto).
    assert (Qe : forall x y : list (Tine T), Ok x = Ok y -> x = y) by congruence.
    clearbody sel. split; [|split; [|split]].
    - rewrite Il. destruct (c1 || c0 && (v || incl_b lb)) eqn:K.
      + split; [intros _|intros _; eexists; split; [exact U|apply New]].
        clear - K. revert K. generalize (incl_b lb). intros il. to_bool. auto.
      + split; [intros (s' & Q & Wq); exfalso; eapply NW; eauto|intros Q; exfalso].
        clear - K Q. revert Q K. generalize (incl_b lb). intros il. to_bool. destruct c0, v, c1, il; discriminate.
    - intros s' Q Wq. destruct (c1 || c0 && (v || incl_b lb)) eqn:K; [|exfalso; eapply NW; eauto].
      rewrite U in Q. apply Qe in Q. subst s'. destruct (New (if c1 then v || incl_b lb else incl_b ub)) as (_ & V1 & V2). split; auto.
      rewrite V2, Okb, Fa, Sa, Il, Iu. clear - K. revert K. generalize (incl_b lb) (incl_b ub). intros il iu. to_bool.
      destruct c0, v, c1, il, iu; first [discriminate | reflexivity].
    - destruct (negb (c0 && c1)) eqn:K.
      + split; [intros _|intros _; eexists; split; [exact M|apply New]]. clear - K. revert K. to_bool. auto.
      + split; [intros (s' & Q & Wq); exfalso; eapply NW; eauto|intros Q; exfalso].
        clear - K Q. revert Q K. to_bool. destruct c0, c1; discriminate.
    - intros s' Q Wq. destruct (negb (c0 && c1)) eqn:K; [|exfalso; eapply NW; eauto].
      rewrite M in Q. apply Qe in Q. subst s'. destruct (New (if c1 then negb (incl_b ub) else v && negb (incl_b lb))) as (_ & V1 & V2). split; auto.
      rewrite V2, Okb, Fa, Sa, Il', Iu'. clear - K. revert K. generalize (incl_b lb) (incl_b ub). intros il iu. to_bool.
      destruct c0, v, c1, il, iu; first [discriminate | reflexivity].
  Qed.
  (** ** Keeping only an out-of-order interval, without debug assertions

      With them [intersect_in_place] panics (C113_intersect_exact_partial). *)
  Lemma int_out l u L ou C ol R :
    okt l = true -> okt u = true -> lt (loc u) (loc l) ->
    bl (loc u) L -> at_loc (loc u) ou -> ab (loc u) C -> bl (loc l) C -> at_loc (loc l) ol -> ab (loc l) R ->
    interior_split_for_proper_interval false l u (L ++ opt ou ++ C ++ opt ol ++ R)
      = Ok ((btree_last (L ++ C), None, ol, ou, None, btree_first R), []).
  Proof.
    intros Kl Ku Hul BL Hou AC BC Hol AR. unfold interior_split_for_proper_interval. cbn [debug_assert bind].
    assert (BL' : bl (loc l) L) by (eapply bl_weaken; eauto).
    assert (AR' : ab (loc u) R) by (eapply ab_weaken; eauto).
    assert (B : bl (loc l) (L ++ opt ou ++ C)).
    { apply bl_app. split; auto. apply bl_app. split; auto. destruct ou; repeat constructor; destruct Hou as [? E]; auto. now rewrite E. }
    rewrite 2 app_assoc, <- (app_assoc L). rewrite (take_split l (L ++ opt ou ++ C) ol R) by auto.
    rewrite <- !app_assoc. rewrite (take_split u L ou (C ++ R)) by (auto; apply ab_app; auto).
    rewrite app_assoc. rewrite (split_off_split l (L ++ C) R) by (auto; apply bl_app; auto).
    assert (S : btree_split_off u R = ([], R)) by (apply (split_off_split u [] R); auto; constructor).
    now rewrite S.
  Qed.

  (** Then the tree stays well formed in two cases.  It ends up with the two values of the
      ends, if both belong to the interval and to the tree, and the tree goes on neither before the upper
      end nor after the lower one.  Or it ends up empty. *)
  Theorem C113_intersect_release_partial s l r lb ub a b : tree_wf s -> intervals_are false s l -> written r lb ub a b -> lt b a -> s <> [] ->
    let two := ub = Include b /\ lb = Include a /\ some_contains l b /\ some_contains l a /\ ~ filled_below l b /\ ~ filled_above l a in
    let none := ~ filled_above l a /\ (bare l b a -> ~ filled_below l b) /\ (~ bare l b a -> ~ filled_below l a) /\
      ((filled_below l a \/ some_contains l a) /\ ~ (some_contains l a /\ lb = Include a) \/
       ~ filled_below l b /\ (filled_above l b \/ some_contains l b) /\ ~ (some_contains l b /\ ub = Include b)) in
    ((exists s', tree_intersect_in_place false s r = Ok s' /\ tree_wf s') <-> two \/ none) /\
    (forall s', tree_intersect_in_place false s r = Ok s' -> tree_wf s' ->
       two /\ s' = [TPoint (Include b); TPoint (Include a)] \/ none /\ s' = []).
  Proof.
    intros W Hl Wr H NE two none. subst two none. apply wf_tree_wf in W. rewrite (intervals_pieces false s l W Hl). clear Hl.
    assert (NP : forall x, r <> Point x).
    { intros x ->. destruct Wr as (A & B & [-> | ->] & [-> | ->]); cbn in A, B; try discriminate. injection A as ->. injection B as ->.
      now apply lt_irrefl in H. }
    destruct (written_tines r lb ub a b Wr NP) as (Et & Ef & Ee). destruct Wr as (_ & _ & La & Ub).
    destruct (split2_at (At b) (At a) s) as [L C R c0 vu c1 c2 vl c3 Hs A A' HL HC HR BL AC BC AR SL SC SR]; auto; try exact I.
    assert (B := between_steady a b L C R c0 vu c1 c2 vl c3 H HL HC HR BL AC BC AR SL SC SR). cbv zeta in B. rewrite <- Hs in B.
    destruct (near_split (Include b) (Include a) L C R c0 vu c1 c2 vl c3) as [N1 N2]; auto.
    change (loc (TLower (Include b))) with (At b) in N1. change (loc (TUpper (Include a))) with (At a) in N1.
    change (loc (TLower (Include b))) with (At b) in N2. change (loc (TUpper (Include a))) with (At a) in N2.
    rewrite <- Hs in N1, N2. cbn in N1, N2. injection N1 as D1 D2 D3. injection N2 as D4 D5 D6.
    assert (H' : lt (At b) (At a)) by exact H.
    assert (Ll : loc (TLower lb) = At a) by (destruct La as [->| ->]; reflexivity).
    assert (Lu : loc (TUpper ub) = At b) by (destruct Ub as [->| ->]; reflexivity).
    assert (X : interior_split_for_proper_interval false (TLower lb) (TUpper ub) s =
      Ok ((btree_last (L ++ C), None, mk (At a) c2 vl c3, mk (At b) c0 vu c1, None, btree_first R), [])).
    { rewrite Hs. apply int_out; rewrite ?Ll, ?Lu; auto; apply mk_at. }
    set (e := match C with [] => true | _ => false end) in *.
    assert (Ho : is_some_and is_lower_bound (btree_last (L ++ C)) = if e then c0 else c2).
    { subst e. destruct C as [|t C]; [rewrite app_nil_r; now apply chain_last|].
      rewrite last_app by discriminate. apply (chain_last_some (t :: C) c1); auto. discriminate. }
    assert (EC : C = [] <-> e = true) by (unfold e; destruct C; split; congruence).
    assert (Hcc : e = true -> c1 = c2) by (unfold e; destruct C; [|discriminate]; intros _; now apply eqb_prop in HC).
    assert (EI : tree_intersect_in_place false s r = intersect_proper_interval false (TLower lb) (TUpper ub) s).
    { unfold tree_intersect_in_place. rewrite Ef, Ee, orb_false_r, Et. destruct s; [congruence|]. cbn [tree_is_empty].
      destruct r; auto; try discriminate; now edestruct NP. }
    assert (Bb : bare (pieces None s) b a <-> e = true) by (unfold bare; rewrite B; exact EC).
    assert (Fb : filled_below (pieces None s) b <-> c0 = true) by (now rewrite filled_below_den, D1 by auto).
    assert (Sb : some_contains (pieces None s) b <-> vu = true) by (now rewrite at_den, D2 by auto).
    assert (Gb : filled_above (pieces None s) b <-> c1 = true) by (now rewrite filled_above_den, D3 by auto).
    assert (Fa : filled_below (pieces None s) a <-> c2 = true) by (now rewrite filled_below_den, D4 by auto).
    assert (Sa : some_contains (pieces None s) a <-> vl = true) by (now rewrite at_den, D5 by auto).
    assert (Ga : filled_above (pieces None s) a <-> c3 = true) by (now rewrite filled_above_den, D6 by auto).
    assert (Il : lb = Include a <-> incl_b lb = true) by (destruct La as [-> | ->]; cbn; split; congruence).
    assert (Iu : ub = Include b <-> incl_b ub = true) by (destruct Ub as [-> | ->]; cbn; split; congruence).
    set (two := incl_b ub && incl_b lb && vu && vl && negb c0 && negb c3).
    set (none := negb c3 && negb (if e then c0 else c2) &&
      ((c2 || vl) && negb (vl && incl_b lb) || negb c0 && (c1 || vu) && negb (vu && incl_b ub))).
    assert (R2 : match intersect_proper_interval false (TLower lb) (TUpper ub) s with
      | Ok s' => if two then s' = [TPoint (Include b); TPoint (Include a)] else if none then s' = [] else chain false s' false = false
      | Panic => two = false /\ none = false
      end).
    { unfold intersect_proper_interval. rewrite X. cbn [bind debug_assert]. rewrite Ho, (chain_first R c3 HR).
      assert (J : forall t u, okt t = true -> okt u = true -> loc t = At a -> loc u = At b -> btree_insert u (btree_insert t []) = [u; t]).
      { intros t u K1 K2 Q1 Q2. cbn [btree_insert]. rewrite tine_cmp_loc by auto. rewrite Q1, Q2. unfold lt in H'. now rewrite H'. }
      subst two none. clear - La Ub J Hcc. clearbody e.
      destruct La as [->| ->], Ub as [->| ->], c0, vu, c1, c2, vl, c3, e; try (specialize (Hcc eq_refl); discriminate); clear Hcc.
      all: cbn [mk incl_b andb orb negb]; unfold tine_intersect; cbn -[btree_insert chain].
      all: try (rewrite J by reflexivity); try reflexivity; try (split; reflexivity). }
    assert (P2 : two = true -> none = true -> False).
    { subst two none. clear - Hcc. generalize (incl_b lb) (incl_b ub). intros il iu Q1 Q2.
      destruct c0, vu, c1, c2, vl, c3, e, il, iu; cbn in *; try discriminate. }
    assert (Nn : ~ (filled_above (pieces None s) a) /\ (bare (pieces None s) b a -> ~ filled_below (pieces None s) b) /\
      (~ bare (pieces None s) b a -> ~ filled_below (pieces None s) a) /\
      ((filled_below (pieces None s) a \/ some_contains (pieces None s) a) /\ ~ (some_contains (pieces None s) a /\ lb = Include a) \/
       ~ filled_below (pieces None s) b /\ (filled_above (pieces None s) b \/ some_contains (pieces None s) b) /\
       ~ (some_contains (pieces None s) b /\ ub = Include b)) <-> none = true).
    { rewrite Bb, Fb, Sb, Gb, Fa, Sa, Ga, Il, Iu. subst none. generalize (incl_b lb) (incl_b ub). clear. intros il iu.
      assert (I1 : forall p q : bool, (p = true -> q = true) <-> implb p q = true) by (intros [] []; cbn; split; auto; intros Q; try discriminate; auto).
      repeat first [rewrite not_true_negb | rewrite false_negb | rewrite <- andb_true_iff | rewrite <- orb_true_iff | rewrite iff_true_eqb | rewrite I1].
      destruct c0, vu, c1, c2, vl, c3, e, il, iu; reflexivity. }
    assert (Nt : ub = Include b /\ lb = Include a /\ some_contains (pieces None s) b /\ some_contains (pieces None s) a /\
      ~ filled_below (pieces None s) b /\ ~ filled_above (pieces None s) a <-> two = true).
    { rewrite Fb, Sb, Sa, Ga, Il, Iu. subst two. generalize (incl_b lb) (incl_b ub). clear. intros il iu. to_bool.
      destruct c0, vu, vl, c3, il, iu; reflexivity. }
    rewrite EI, Nt, Nn. clearbody two none. clear - R2 P2 H' Nt Nn.
    assert (Wt : tree_wf [TPoint (Include b); TPoint (Include a)]).
    { apply wf_tree_wf. split; [|reflexivity]. repeat constructor. exact H'. }
    assert (Wn : tree_wf (@nil (Tine T))) by (apply wf_tree_wf; split; [constructor|reflexivity]).
    destruct (intersect_proper_interval false (TLower lb) (TUpper ub) s) as [s'|].
    - split.
      + split.
        * intros (s1 & Q & W1). injection Q as <-. destruct two; auto. destruct none; auto.
          apply wf_tree_wf in W1 as [_ W1]. congruence.
        * intros D. exists s'. split; auto. destruct two; [now subst|]. destruct none; [now subst|]. destruct D; discriminate.
      + intros s1 Q W1. injection Q as <-. rewrite Nt, Nn. destruct two; auto. destruct none; auto.
        apply wf_tree_wf in W1 as [_ W1]. congruence.
    - destruct R2 as [-> ->]. split; [|discriminate]. split; [intros (? & Q & _); discriminate|intros []; discriminate].
  Qed.
End Out.
Print Assumptions C113_union_result_partial.
Print Assumptions C113_minus_result_partial.
Print Assumptions C113_one_value_result_partial.
Print Assumptions C113_intersect_release_partial.

Local Open Scope Z_scope.
(** [2, 9] with [5, 2] becomes [5, 9].  [0, 2] and (5, 9] with [5, 2] become [0, 9].  Removing the
    out-of-order (5, 2) from [0, 2] and [5, 9] gives [0, 2), (2, 5) and (5, 9]. *)
Example C113_result_ex :
  let s1 := [TLower (Include 2); TUpper (Include 9)] in
  let s2 := [TLower (Include 0); TUpper (Include 2); TLower (Exclude 5); TUpper (Include 9)] in
  let s3 := [TLower (Include 0); TUpper (Include 2); TLower (Include 5); TUpper (Include 9)] in
  let s4 := [TLower (Include 0); TPoint (Exclude 2); TPoint (Exclude 5); TUpper (Include 9)] in
  (tree_wf s1 /\ tree_wf s2 /\ tree_wf s3 /\ tree_wf s4) /\
  intervals_are true s1 [Closed 2 9] /\ intervals_are true s2 [Closed 0 2; LeftOpen 5 9] /\ intervals_are true s3 [Closed 0 2; Closed 5 9] /\
  written (Closed 5 2) (Include 5) (Include 2) 5 2 /\ written (Open 5 2) (Exclude 5) (Exclude 2) 5 2 /\ lt 2 5 /\
  tree_union_in_place true s1 (Closed 5 2) = Ok [TLower (Include 5); TUpper (Include 9)] /\
  tree_union_in_place true s2 (Closed 5 2) = Ok [TLower (Include 0); TUpper (Include 9)] /\
  tree_minus_in_place true s3 (Open 5 2) = Ok s4 /\
  written (RightOpen 2 2) (Include 2) (Exclude 2) 2 2 /\
  tree_union_in_place true s2 (RightOpen 2 2) = Ok [TLower (Include 0); TUpper (Exclude 2); TLower (Exclude 5); TUpper (Include 9)].
Proof.
  cbv zeta. split; [repeat split; repeat constructor|].
  split; [eapply drains_cons; [reflexivity|]; eapply drains_nil; reflexivity|].
  split; [eapply drains_cons; [reflexivity|]; eapply drains_cons; [reflexivity|]; eapply drains_nil; reflexivity|].
  split; [eapply drains_cons; [reflexivity|]; eapply drains_cons; [reflexivity|]; eapply drains_nil; reflexivity|].
  split; [repeat split; auto|]. split; [repeat split; auto|]. repeat split; auto.
Qed.

(** Without debug assertions, 2 and 5 stay when only the out-of-order [5, 2] is kept, and
    [0, 2] and 5 become nothing when the out-of-order (5, 3) is. *)
Example C113_release_ex :
  let s1 := [TPoint (Include 2); TPoint (Include 5)] in
  let s2 := [TLower (Include 0); TUpper (Include 2); TPoint (Include 5)] in
  tree_wf s1 /\ tree_wf s2 /\ intervals_are false s1 [Point 2; Point 5] /\ intervals_are false s2 [Closed 0 2; Point 5] /\
  written (Closed 5 2) (Include 5) (Include 2) 5 2 /\ written (Open 5 3) (Exclude 5) (Exclude 3) 5 3 /\ lt 2 5 /\ lt 3 5 /\
  tree_intersect_in_place false s1 (Closed 5 2) = Ok s1 /\ tree_intersect_in_place false s2 (Open 5 3) = Ok [].
Proof.
  cbv zeta. split; [repeat constructor|]. split; [repeat constructor|].
  split; [eapply drains_cons; [reflexivity|]; eapply drains_cons; [reflexivity|]; eapply drains_nil; reflexivity|].
  split; [eapply drains_cons; [reflexivity|]; eapply drains_cons; [reflexivity|]; eapply drains_nil; reflexivity|].
  split; [repeat split; auto|]. split; [repeat split; auto|]. split; [reflexivity|]. split; [reflexivity|]. split; [reflexivity|].
  reflexivity.
Qed.

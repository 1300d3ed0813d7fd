(** * How a tree reads that an out-of-order interval has broken, in general (C113) *)
From Coq Require Import List Bool ZArith Lia Sorted.
From Verif Require Import Base OrdFacts Pos PFinite MBound MRaw MNormalize MTine MBTree MTineTree Ints MInterval MSelection
  Spec Spec_Tree Instances PRaw PRaw2 PNorm PIter PInterval PBTree PTree PTreeOps PTreeIsect PTree2 PTree3 PTree4 PTree5 PTree6 PTree7
  Properties_Raw Properties_Interval Properties_Public Properties_Exact Properties_Exact3 Properties_Public3 Properties_Public5
  Properties_Public6 Properties_Public7 Properties_Public8.
Import ListNotations.
Local Open Scope list_scope.
Local Arguments cmp : simpl never.

Section Broken.
  Context {T : Type} {O : Ord T}.
  Implicit Types (r : RawInterval T) (t u : Tine T) (s L R C : list (Tine T)).

  (** The first value past [q] at which the intervals [l] begin or end is [z], and [z] alone is
      missing there between two of them. *)
  Definition gap_first (l : list (RawInterval T)) (q z : T) : Prop :=
    lt q z /\ gap_at l z /\ forall y, lt q y -> lt y z -> steady l y.

  Lemma Lo_At (x : T) : cmp (Lo x) (At x) = Datatypes.Lt.
  Proof. porder. Qed.
  Lemma Hi_At (x : T) : cmp (Hi x) (At x) = Datatypes.Gt.
  Proof. porder. Qed.
  Lemma gap_first_head s L R q c0 v c1 z : wf s -> s = L ++ opt (mk (At q) c0 v c1) ++ R ->
    chain false L c0 = true -> chain c1 R false = true -> bl (At q) L -> ab (At q) R -> srt R ->
    (gap_first (pieces None s) q z <-> exists R', R = TPoint (Exclude z) :: R').
  Proof.
    intros W E HL HR BL AR SR.
    assert (D : forall p, lt (At q) p -> den false s p = den c1 R p).
    { intros p P. rewrite E, (den_split false L _ R p (At q) c0 v c1) by (auto; exact I). unfold lt in P. now rewrite (proj2 (cmp_gt_lt _ _) P). }
    unfold gap_first, gap_at. rewrite filled_below_den, filled_above_den, at_den by auto. split.
    - intros (H & (G1 & G2 & G3) & St). assert (H' : lt (At q) (At z)) by exact H.
      rewrite !D in * by (clear - H'; porder).
      destruct R as [|t R]; [cbn in *; congruence|].
      inversion AR as [|? ? [K Lb] _]; subst. inversion SR as [|? ? _ S2]; subst. apply chain_cons in HR as (_ & U & HR).
      destruct (loc t) as [| | |x|] eqn:Lt; try (generalize (loc_tine t); rewrite Lt; cbn; contradiction).
      all: try (exfalso; revert Lb; unfold lt; cbn; discriminate).
      2: { exfalso. cbn [den] in G1, G2. rewrite Lt in G1, G2.
           change (cmp (Lo z) PInf) with Datatypes.Lt in G1. change (cmp (At z) PInf) with Datatypes.Lt in G2. cbn in G1, G2. congruence. }
      assert (Far : forall w, In w R -> lt (Hi x) (loc w)).
      { intros w Hw. rewrite Forall_forall in S2. specialize (S2 w Hw).
        assert (Z := loc_tine w). destruct (loc w); cbn in Z; try contradiction; clear - S2; porder. }
      destruct (cmp x z) eqn:X.
      + apply cmp_eq in X. subst x. exists R. f_equal. cbn [den] in G1, G2, G3. rewrite Lt in G1, G2, G3.
        rewrite Lo_At in G1.
        rewrite cmp_refl in G2.
        rewrite Hi_At in G3.
        rewrite den_low in G3 by auto. rewrite G1 in U. destruct t as [[]|[]|[]]; cbn in *; try discriminate; try congruence.
      + exfalso. assert (Lx : lt q x) by exact Lb. specialize (St x Lx X). rewrite steady_level in St by auto.
        rewrite !D in St by (clear - Lb; porder). cbn [den] in St. rewrite Lt in St.
        rewrite Lo_At in St.
        rewrite cmp_refl in St.
        rewrite Hi_At in St.
        rewrite den_low in St by auto. rewrite <- U in St. destruct t as [[]|[]|[]]; cbn in *; try discriminate.
      + exfalso. apply cmp_gt_lt in X. assert (X' : lt (At z) (At x)) by exact X. cbn [den] in G1, G2. rewrite Lt in G1, G2.
        replace (cmp (Lo z) (At x)) with Datatypes.Lt in G1 by (symmetry; clear - X'; assert (Z : lt (Lo z) (At x)) by porder; exact Z).
        replace (cmp (At z) (At x)) with Datatypes.Lt in G2 by (symmetry; exact X'). congruence.
    - intros (R' & ->). inversion AR as [|? ? [K Lb] _]; subst. inversion SR as [|? ? _ S2]; subst.
      apply chain_cons in HR as (_ & U & HR). cbn in U. subst c1. cbn [loc bound_as_ref] in Lb.
      assert (H : lt q z) by exact Lb. assert (H' : lt (At q) (At z)) by exact Lb. split; auto. rewrite !D by (clear - H'; porder). split.
      + cbn [den loc]. rewrite Lo_At.
        rewrite cmp_refl.
        rewrite Hi_At. split; auto. split; [discriminate|].
        rewrite den_low; [reflexivity|]. intros w Hw. rewrite Forall_forall in S2. specialize (S2 w Hw). change (lt (At z) (loc w)) in S2.
        assert (Z := loc_tine w). destruct (loc w); cbn in Z; try contradiction; clear - S2; porder.
      + intros y Y1 Y2. rewrite steady_level by auto. assert (Y1' : lt (At q) (At y)) by exact Y1. assert (Y2' : lt (At y) (At z)) by exact Y2.
        rewrite !D by (clear - Y1'; porder). cbn [den loc].
        assert (Q : forall p, lt p (At z) -> cmp p (At z) = Datatypes.Lt) by auto.
        rewrite !Q by (clear - Y2'; porder). reflexivity.
  Qed.

  (** ** Reading across any junction *)
  Definition hole_head R : bool := match R with TPoint (Exclude _) :: _ => true | _ => false end.

  Lemma reads_head' R c m : chain c R false = true -> reads m R = Bool.eqb m c || hole_head R.
  Proof.
    intros H. destruct R as [|t R]; [apply eqb_prop in H; subst c; now destruct m|].
    assert (G : forall c R, chain c R false = true -> reads c R = true).
    { clear. intros c R H. rewrite <- (app_nil_r R). now rewrite (reads_chain R [] c false H). }
    apply chain_cons in H as (K & U & H). apply G in H.
    destruct t as [d|[x|x|]|d], m, c; cbn in *; try discriminate; auto.
  Qed.
  Lemma reads_mid' C X c1 c2 m : chain c1 C c2 = true ->
    reads m (C ++ X) = match C with [] => reads m X | _ => (Bool.eqb m c1 || hole_head C) && reads c2 X end.
  Proof.
    intros H. destruct C as [|t C]; [reflexivity|]. pose proof (reads_chain _ X c1 c2 H) as G.
    apply chain_cons in H as (K & U & H). cbn [app] in *.
    destruct t as [d|[x|x|]|d], m, c1; cbn in *; try discriminate; auto.
  Qed.

  Lemma out_reads' lb ub a b L C R c0 vu c1 c2 vl c3 :
    (lb = Include a \/ lb = Exclude a) -> (ub = Include b \/ ub = Exclude b) -> lt b a ->
    chain false L c0 = true -> chain c1 C c2 = true -> chain c3 R false = true ->
    bl (At b) L -> ab (At b) C -> bl (At a) C -> ab (At a) R ->
    let s := L ++ opt (mk (At b) c0 vu c1) ++ C ++ opt (mk (At a) c2 vl c3) ++ R in
    let e := match C with [] => true | _ => false end in
    let il := incl_b lb in let iu := incl_b ub in let hC := hole_head C in let hR := hole_head R in
    match union_proper_interval true (TLower lb) (TUpper ub) s with
    | Ok s' => chain false s' false = true \/
        (if odd_union iu c0 vu c1 c3 e then s' = L ++ TPoint (Exclude b) :: C ++ opt (mk (At a) c2 (vl || il) c3) ++ R
         else if negb c0 && c3 && hC then s' = L ++ C ++ opt (mk (At a) c2 (vl || il) c3) ++ R
         else reads false s' = false)
    | Panic => True
    end /\
    match minus_proper_interval true (TLower lb) (TUpper ub) s with
    | Ok s' => chain false s' false = true \/
        (if odd_minus il iu c0 vu c1 vl c3 e then s' = L ++ TPoint (Exclude b) :: C ++ R
         else if negb c0 && c1 && negb e && hR then
           s' = L ++ opt (mk (At b) false (vu && negb iu) true) ++ C ++ opt (mk (At a) c2 (if c2 then negb (vl && il) else vl && negb il) false) ++ R
         else if negb c0 && hC && negb c3 then s' = L ++ C ++ opt (mk (At a) c2 (vl && negb il) false) ++ R
         else reads false s' = false)
    | Panic => True
    end.
  Proof.
    intros La Ub H HL HC HR BL AC BC AR s e il iu hC hR.
    assert (Ll : loc (TLower lb) = At a) by (destruct La as [->| ->]; reflexivity).
    assert (Lu : loc (TUpper ub) = At b) by (destruct Ub as [->| ->]; reflexivity).
    assert (H' : lt (At b) (At a)) by exact H.
    assert (BL' : bl (At a) L) by (eapply bl_weaken; eauto).
    assert (AR' : ab (At b) R) by (eapply ab_weaken; eauto).
    assert (X : exterior_split_for_proper_interval (TLower lb) (TUpper ub) s =
      ((btree_last (L ++ C), mk (At a) c2 vl c3, mk (At b) c0 vu c1, btree_first R), L ++ C ++ R)).
    { apply ext_out; rewrite ?Ll, ?Lu; auto; apply mk_at. }
    unfold union_proper_interval, minus_proper_interval. rewrite X, (chain_first R c3 HR).
    assert (Ho : is_some_and is_lower_bound (btree_last (L ++ C)) = if e then c0 else c2).
    { subst e. destruct C as [|t C]; [rewrite app_nil_r; now apply chain_last|].
      rewrite last_app by discriminate. apply (chain_last_some (t :: C) c1); auto. discriminate. }
    rewrite Ho.
    assert (Hc : e = true -> c1 = c2).
    { subst e. destruct C; [|discriminate]. intros _. now apply eqb_prop in HC. }
    assert (hC1 : hC = true -> c1 = true /\ e = false).
    { subst hC e. destruct C as [|[|[]|] C]; try discriminate. intros _. apply chain_cons in HC as (_ & U & _). auto. }
    assert (hR1 : hR = true -> c3 = true).
    { subst hR. destruct R as [|[|[]|] R]; try discriminate. intros _. apply chain_cons in HR as (_ & U & _). auto. }
    set (sel := fun x y : option (Tine T) => L ++ opt x ++ C ++ opt y ++ R).
    assert (E0 : L ++ C ++ R = sel None None) by reflexivity.
    assert (E1 : forall y, L ++ TPoint (Exclude b) :: C ++ opt y ++ R = sel (Some (TPoint (Exclude b))) y) by reflexivity.
    assert (E2 : L ++ TPoint (Exclude b) :: C ++ R = sel (Some (TPoint (Exclude b))) None) by reflexivity.
    assert (E3 : forall y, L ++ C ++ opt y ++ R = sel None y) by reflexivity.
    assert (E4 : forall x y, L ++ opt x ++ C ++ opt y ++ R = sel x y) by reflexivity.
    assert (BC2 : forall x, at_loc (At b) x -> bl (At a) (L ++ opt x ++ C)).
    { intros x Hx. apply bl_app. split; auto. apply bl_app. split; auto. destruct x; repeat constructor; destruct Hx as [? Ex]; auto. now rewrite Ex. }
    assert (Ja : forall t x, okt t = true -> loc t = At a -> at_loc (At b) x -> btree_insert t (sel x None) = sel x (Some t)).
    { intros t x K E Hx. unfold sel. cbn [opt app]. rewrite 2 app_assoc, <- (app_assoc L). rewrite (insert_split t (L ++ opt x ++ C) R); rewrite ?E; auto.
      now rewrite <- !app_assoc. }
    assert (AC2 : forall y, at_loc (At a) y -> ab (At b) (C ++ opt y ++ R)).
    { intros y Hy. apply ab_app. split; auto. apply ab_app. split; auto. destruct y; repeat constructor; destruct Hy as [? Ey]; auto. now rewrite Ey. }
    assert (Jb : forall t y, okt t = true -> loc t = At b -> at_loc (At a) y -> btree_insert t (sel None y) = sel (Some t) y).
    { intros t y K E Hy. unfold sel. cbn [opt app]. rewrite (insert_split t L); rewrite ?E; auto. }
    assert (Ch : forall x y, chain false (sel x y) false =
      let f := fun m => match y with None => Bool.eqb m c3 | Some t => okt t && Bool.eqb m (is_upper_bound t) && Bool.eqb (is_lower_bound t) c3 end in
      let g := fun m => if e then f m else Bool.eqb m c1 && f c2 in
      match x with None => g c0 | Some t => okt t && Bool.eqb c0 (is_upper_bound t) && g (is_lower_bound t) end).
    { intros x y. unfold sel. rewrite (chain_left _ _ _ _ _ HL). cbv zeta.
      assert (F : forall m, chain m (opt y ++ R) false =
        match y with None => Bool.eqb m c3 | Some t => okt t && Bool.eqb m (is_upper_bound t) && Bool.eqb (is_lower_bound t) c3 end).
      { intros m. destruct y; cbn; now rewrite (chain_head R c3). }
      assert (G : forall m, chain m (C ++ opt y ++ R) false =
        if e then match y with None => Bool.eqb m c3 | Some t => okt t && Bool.eqb m (is_upper_bound t) && Bool.eqb (is_lower_bound t) c3 end
        else Bool.eqb m c1 && match y with None => Bool.eqb c2 c3 | Some t => okt t && Bool.eqb c2 (is_upper_bound t) && Bool.eqb (is_lower_bound t) c3 end).
      { intros m. rewrite (chain_mid _ _ _ _ _ _ HC), !F. subst e. destruct C; reflexivity. }
      destruct x; cbn; now rewrite G. }
    (* one tine, then what follows *)
    set (step := fun m (o : option (Tine T)) (k : bool -> bool) => match o with None => k m
      | Some (TLower _) => negb m && k true | Some (TPoint (Include _)) => negb m && k false
      | Some (TPoint (Exclude _)) => k true | Some (TPoint Infinite) => false | Some (TUpper _) => m && k false end).
    assert (St : forall m o X, reads m (opt o ++ X) = step m o (fun m' => reads m' X)).
    { intros m [[d|[x|x|]|d]|] Y; reflexivity. }
    assert (Rd : forall x y, reads false (sel x y) =
      let f := fun m => step m y (fun m' => Bool.eqb m' c3 || hR) in
      step c0 x (fun m => if e then f m else (Bool.eqb m c1 || hC) && f c2)).
    { intros x y. unfold sel. rewrite (reads_chain _ _ _ _ HL), St. cbv zeta.
      assert (F : forall m, reads m (opt y ++ R) = step m y (fun m' => Bool.eqb m' c3 || hR)).
      { intros m. rewrite St. unfold step. destruct y as [[d|[z|z|]|d]|]; rewrite ?(reads_head' R c3) by auto; reflexivity. }
      assert (G : forall m, reads m (C ++ opt y ++ R) = if e then step m y (fun m' => Bool.eqb m' c3 || hR)
        else (Bool.eqb m c1 || hC) && step c2 y (fun m' => Bool.eqb m' c3 || hR)).
      { intros m. rewrite (reads_mid' C _ c1 c2) by auto. subst e hC. destruct C; now rewrite F. }
      unfold step at 1 3. destruct x as [[d|[z|z|]|d]|]; now rewrite ?G. }
    unfold step in Rd. clear St step.
    subst s. rewrite E0, E1, E2, E4, !E3. clear Ll Lu X Ho E0 E1 E2 E3 E4 AC2 BC2 HL HC HR BL AC BC AR BL' AR' H'. clearbody e sel hC hR.
    subst il iu. unfold odd_union, odd_minus.
    destruct c1, e, c3, hC, hR; try (specialize (hR1 eq_refl); discriminate); try (destruct (hC1 eq_refl); discriminate); clear hR1 hC1.
    all: destruct La as [->| ->], Ub as [->| ->], c0, vu, c2, vl; try (specialize (Hc eq_refl); discriminate); clear Hc.
    all: cbn [mk incl_b Bool.eqb andb orb negb implb xorb]; unfold tine_union, tine_minus, debug_assert; cbn [opt_eqb tine_as_ref bound_as_ref].
    all: rewrite ?eqb_refl; cbn -[btree_insert chain reads];
      repeat first [ rewrite Ja by (try reflexivity; exact I) | rewrite Jb by (try reflexivity; repeat split; reflexivity) | rewrite Ja by (repeat split; reflexivity) ].
    all: split; first [exact I | left; rewrite Ch; reflexivity | right; first [reflexivity | rewrite Rd; reflexivity]].
  Qed.

  (** A list broken in one place, where a [Point(Exclude)] begins an interval, reads. *)
  Lemma hole_reads A B z : chain false A false = true -> chain true B false = true -> bl (At z) A -> ab (At z) B -> srt A -> srt B ->
    exists l', intervals_are true (A ++ TPoint (Exclude z) :: B) l' /\
      forall x, some_contains l' x <-> match cmp x z with Lt => den false A (At x) | Eq => false | Gt => den true B (At x) end = true.
  Proof.
    intros HA HB BA AB SA SB. set (s2 := A ++ opt (mk (At z) false false true) ++ B).
    assert (W2 : wf s2) by (split; [apply (srt_glue (At z)); auto; apply mk_at|apply chain_glue; auto; exact I]).
    exists (pieces None s2). split.
    - apply (swap_drains B z A None); auto; [intros ? X; discriminate|now apply pieces_drains].
    - intros x. rewrite at_den by auto. unfold s2. rewrite (den_split false A _ B (At x) (At z) false false true) by (auto; exact I).
      reflexivity.
  Qed.

  Lemma wf_right L X R : wf (L ++ X ++ R) -> srt R.
  Proof. intros [S _]. now apply srt_app in S as (_ & S & _); apply srt_app in S as (_ & S & _). Qed.

  Lemma mk_bl q q' c v d : lt q q' -> bl q' (opt (mk q c v d)).
  Proof.
    intros H. generalize (mk_at q c v d). destruct (mk q c v d) as [t|]; [|constructor]. intros [K E]. constructor; [|constructor]. now rewrite E.
  Qed.
  Lemma mk_ab q q' c v d : lt q' q -> ab q' (opt (mk q c v d)).
  Proof.
    intros H. generalize (mk_at q c v d). destruct (mk q c v d) as [t|]; [|constructor]. intros [K E]. constructor; [|constructor]. now rewrite E.
  Qed.

  (** The holes next to the two ends, in terms of the tines. *)
  Lemma gap_heads s L C R a b c0 vu c1 c2 vl c3 : lt b a -> wf s ->
    s = L ++ opt (mk (At b) c0 vu c1) ++ C ++ opt (mk (At a) c2 vl c3) ++ R ->
    chain false L c0 = true -> chain c1 C c2 = true -> chain c3 R false = true ->
    bl (At b) L -> ab (At b) C -> bl (At a) C -> ab (At a) R -> srt C -> srt R ->
    (forall z, gap_first (pieces None s) b z /\ lt z a <-> exists C', C = TPoint (Exclude z) :: C') /\
    (forall w, gap_first (pieces None s) a w <-> exists R', R = TPoint (Exclude w) :: R').
  Proof.
    intros H W E HL HC HR BL AC BC AR SC SR. assert (H' : lt (At b) (At a)) by exact H. split.
    - intros z.
      assert (AC2 : ab (At b) (C ++ opt (mk (At a) c2 vl c3) ++ R)).
      { apply ab_app. split; auto. apply ab_app. split; [|eapply ab_weaken; eauto].
        now apply mk_ab. }
      rewrite (gap_first_head s L (C ++ opt (mk (At a) c2 vl c3) ++ R) b c0 vu c1 z W E); auto.
      + split.
        * intros [(R' & Q) Hz]. destruct C as [|t C]; cbn [app] in Q; [|injection Q as -> Q; eauto]. exfalso.
          assert (G : In (TPoint (Exclude z)) (opt (mk (At a) c2 vl c3) ++ R)) by (rewrite Q; now left).
          apply in_app_or in G as [G|G].
          -- generalize (mk_at (At a) c2 vl c3). destruct (mk (At a) c2 vl c3); [|contradiction]. destruct G as [->|[]]. intros [_ Y].
             cbn in Y. injection Y as ->. now apply lt_irrefl in Hz.
          -- apply (ab_in (At a) R) in G; auto. assert (Y : lt a z) by exact G. clear - Y Hz. order.
        * intros (C' & ->). split; [cbn; eauto|]. exact (bl_in (At a) _ _ BC (or_introl eq_refl)).
      + apply chain_glue; auto. exact I.
      + rewrite E in W. destruct W as [S _]. apply srt_app in S as (_ & S & _). now apply srt_app in S as (_ & S & _).
    - intros w. assert (E2 : s = (L ++ opt (mk (At b) c0 vu c1) ++ C) ++ opt (mk (At a) c2 vl c3) ++ R) by (rewrite E, <- !app_assoc; reflexivity).
      apply (gap_first_head s _ R a c2 vl c3 w W E2); auto.
      + apply chain_glue; auto. exact I.
      + apply bl_app. split; [eapply bl_weaken; eauto|]. apply bl_app. split; auto.
        now apply mk_bl.
  Qed.

  Lemma ab_tail q t X : ab q (t :: X) -> ab q X.
  Proof. now inversion 1. Qed.
  Lemma bl_tail q t X : bl q (t :: X) -> bl q X.
  Proof. now inversion 1. Qed.
  Lemma srt_tail t X : srt (t :: X) -> srt X.
  Proof. now inversion 1. Qed.
  Lemma srt_ab z X : srt (TPoint (Exclude z) :: X) -> Forall (fun t => okt t = true) X -> ab (At z) X.
  Proof.
    intros S K. inversion S as [|? ? _ F]; subst. apply Forall_forall. intros t Ht. rewrite Forall_forall in F, K. split; [auto|exact (F t Ht)].
  Qed.
  Lemma ab_okt q X : ab q X -> Forall (fun t => okt t = true) X.
  Proof. apply Forall_impl. now intros t [K _]. Qed.
  Lemma bl_okt q X : bl q X -> Forall (fun t => okt t = true) X.
  Proof. apply Forall_impl. now intros t [K _]. Qed.

  Lemma hole_den b z X (x : T) : den b (TPoint (Exclude z) :: X) (At x) =
    match cmp x z with Lt => b | Eq => false | Gt => den true X (At x) end.
  Proof. reflexivity. Qed.
  (** The list that lost what lies between [b] and the hole [z]: adding, or removing in the case of its own. *)
  Lemma lost_reads a b z L C' R va c2 c3 : lt b a ->
    chain false L false = true -> chain true (TPoint (Exclude z) :: C') c2 = true -> chain c3 R false = true ->
    bl (At b) L -> ab (At b) (TPoint (Exclude z) :: C') -> bl (At a) (TPoint (Exclude z) :: C') -> ab (At a) R ->
    srt L -> srt (TPoint (Exclude z) :: C') -> srt R ->
    exists l', intervals_are true (L ++ (TPoint (Exclude z) :: C') ++ opt (mk (At a) c2 va c3) ++ R) l' /\
      forall x, some_contains l' x <-> match cmp x z with Lt => den false L (At x) | Eq => false
        | Gt => match cmp x a with Lt => den true C' (At x) | Eq => va | Gt => den c3 R (At x) end end = true.
  Proof.
    intros H HL HC HR BL AC BC AR SL SC SR.
    assert (Hz : lt (At b) (At z)) by exact (ab_in (At b) _ _ AC (or_introl eq_refl)).
    assert (Hza : lt (At z) (At a)) by exact (bl_in (At a) _ _ BC (or_introl eq_refl)).
    assert (HC' : chain true C' c2 = true) by (apply chain_cons in HC as (_ & _ & HC); exact HC).
    assert (AC' : ab (At z) C') by (apply srt_ab; auto; eapply ab_okt, ab_tail, AC).
    destruct (hole_reads L (C' ++ opt (mk (At a) c2 va c3) ++ R) z) as (l' & I1 & I2); auto.
    - apply chain_glue; auto. exact I.
    - eapply bl_weaken; eauto.
    - apply ab_app. split; auto. apply ab_app. split; [|eapply ab_weaken; eauto].
      now apply mk_ab.
    - apply (srt_glue (At a)); auto; [eapply srt_tail; eauto|eapply bl_tail; eauto|apply mk_at].
    - exists l'. split; auto. intros x. rewrite I2.
      rewrite (den_split true C' _ R (At x) (At a) c2 va c3) by (first [exact I | reflexivity | assumption | eapply bl_tail; eassumption]). reflexivity.
  Qed.
  (** The list that lost what lies between [a] and the hole [w]. *)
  Lemma kept_reads a b w L C R' vb va c2 : lt b a ->
    chain false L false = true -> chain true C c2 = true -> chain true (TPoint (Exclude w) :: R') false = true ->
    bl (At b) L -> ab (At b) C -> bl (At a) C -> ab (At a) (TPoint (Exclude w) :: R') ->
    srt L -> srt C -> srt (TPoint (Exclude w) :: R') ->
    exists l', intervals_are true (L ++ opt (mk (At b) false vb true) ++ C ++ opt (mk (At a) c2 va false) ++ TPoint (Exclude w) :: R') l' /\
      forall x, some_contains l' x <-> match cmp x w with Eq => false | Gt => den true R' (At x)
        | Lt => match cmp x b with Lt => den false L (At x) | Eq => vb
                | Gt => match cmp x a with Lt => den true C (At x) | Eq => va | Gt => false end end end = true.
  Proof.
    intros H HL HC HR BL AC BC AR SL SC SR. assert (H' : lt (At b) (At a)) by exact H.
    assert (Hw : lt (At a) (At w)) by exact (ab_in (At a) _ _ AR (or_introl eq_refl)).
    assert (HR' : chain true R' false = true) by (apply chain_cons in HR as (_ & _ & HR); exact HR).
    assert (AR' : ab (At w) R') by (apply srt_ab; auto; eapply ab_okt, ab_tail, AR).
    assert (Wl : wf (L ++ opt (mk (At b) false vb true) ++ C ++ opt (mk (At a) c2 va false) ++ []))
      by (apply wf_split2; auto; try exact I; constructor).
    destruct (hole_reads (L ++ opt (mk (At b) false vb true) ++ C ++ opt (mk (At a) c2 va false) ++ []) R' w) as (l' & I1 & I2); auto.
    - apply Wl.
    - assert (Hbw : lt (At b) (At w)) by (eapply plt_trans; eauto).
      apply bl_app. split; [eapply bl_weaken; eauto|]. apply bl_app. split.
      { now apply mk_bl. }
      apply bl_app. split; [exact (bl_weaken _ _ _ Hw BC)|]. apply bl_app. split; [now apply mk_bl|constructor].
    - apply Wl.
    - eapply srt_tail; eauto.
    - exists l'. split; [rewrite <- !app_assoc in I1; exact I1|]. intros x. rewrite I2.
      rewrite (den_split2 (At x) (At b) (At a) L C [] false vb true c2 va false) by (auto; try exact I; constructor). reflexivity.
  Qed.

  Lemma not_true_negb9 (x : bool) : ~ x = true <-> negb x = true.
  Proof. rewrite negb_true_iff. apply not_true_iff_false. Qed.
  Ltac to_bool9 := repeat first [rewrite not_true_negb9 | rewrite <- andb_true_iff | rewrite <- orb_true_iff].

  (** After an out-of-order interval is added, a tree that is no longer well formed cannot be read with debug
      assertions, but for two cases, in both of which the tree holds nothing just before [b] and goes on after [a].  In the first, it is
      as it was but for [a].  In the second, the first change past [b] is a value [z] before [a] that alone is
      missing; then all from [b] up to [z] is lost. *)
  Theorem C113_union_broken_partial s l r lb ub a b : tree_wf s -> intervals_are true s l -> written r lb ub a b -> lt b a ->
    let same := ub = Exclude b /\ ~ filled_below l b /\ ~ some_contains l b /\ filled_above l b /\ ~ bare l b a /\ filled_above l a in
    let lost z := ~ filled_below l b /\ filled_above l a /\ gap_first l b z /\ lt z a in
    forall s', tree_union_in_place true s r = Ok s' -> ~ tree_wf s' ->
    (same -> exists l', intervals_are true s' l' /\
       forall x, some_contains l' x <-> some_contains l x \/ x = a /\ lb = Include a) /\
    (forall z, ~ same -> lost z -> exists l', intervals_are true s' l' /\
       forall x, some_contains l' x <-> (lt x b \/ lt z x) /\ (some_contains l x \/ x = a /\ lb = Include a)) /\
    (~ same -> (forall z, ~ lost z) -> iter_collect true (tree_interval_iter s') = Panic).
  Proof.
    intros W Hl Wr H same lost s' EU NW. subst same lost. apply wf_tree_wf in W. rewrite (intervals_pieces true s l W Hl) in *. clear Hl l.
    assert (NP : forall x, r <> Point x).
    { intros x ->. destruct Wr as (A & B & [-> | ->] & [-> | ->]); cbn in A, B; try discriminate. injection A as ->. injection B as ->.
      now apply lt_irrefl in H. }
    destruct (written_tines r lb ub a b Wr NP) as (Et & Ef & Ee). destruct Wr as (_ & _ & La & Ub).
    destruct (split2_at (At b) (At a) s) as [L C R c0 vu c1 c2 vl c3 Hs A A' HL HC HR BL AC BC AR SL SC SR]; auto; try exact I.
    assert (B := between_steady a b L C R c0 vu c1 c2 vl c3 H HL HC HR BL AC BC AR SL SC SR). cbv zeta in B. rewrite <- Hs in B.
    destruct (gap_heads s L C R a b c0 vu c1 c2 vl c3 H W Hs HL HC HR BL AC BC AR SC SR) as [GC _].
    destruct (near_split (Include b) (Include a) L C R c0 vu c1 c2 vl c3) as [N1 N2]; auto.
    change (loc (TLower (Include b))) with (At b) in N1. change (loc (TUpper (Include a))) with (At a) in N1.
    change (loc (TLower (Include b))) with (At b) in N2. change (loc (TUpper (Include a))) with (At a) in N2.
    rewrite <- Hs in N1, N2. cbn in N1, N2. injection N1 as D1 D2 D3. injection N2 as D4 D5 D6.
    assert (H' : lt (At b) (At a)) by exact H.
    destruct (out_reads' lb ub a b L C R c0 vu c1 c2 vl c3 La Ub H HL HC HR BL AC BC AR) as [U _]. cbv zeta in U.
    rewrite <- Hs in U.
    assert (EU' : tree_union_in_place true s r = union_proper_interval true (TLower lb) (TUpper ub) s)
      by (unfold tree_union_in_place; now rewrite Ef, Et).
    rewrite <- EU', EU in U. set (e := match C with [] => true | _ => false end) in *.
    assert (EC : C = [] <-> e = true) by (unfold e; destruct C; split; congruence).
    assert (Iu' : ub = Exclude b <-> negb (incl_b ub) = true) by (destruct Ub as [-> | ->]; cbn; split; congruence).
    assert (Il : lb = Include a <-> incl_b lb = true) by (destruct La as [-> | ->]; cbn; split; congruence).
    assert (Bb : bare (pieces None s) b a <-> e = true) by (unfold bare; rewrite B; exact EC).
    assert (Hodd : (ub = Exclude b /\ ~ filled_below (pieces None s) b /\ ~ some_contains (pieces None s) b /\ filled_above (pieces None s) b /\
      ~ bare (pieces None s) b a /\ filled_above (pieces None s) a) <-> odd_union (incl_b ub) c0 vu c1 c3 e = true).
    { rewrite Bb, filled_below_den, at_den, !filled_above_den, D1, D2, D3, D6, Iu' by auto. unfold odd_union. generalize (incl_b ub). clear. intros iu.
      to_bool9. destruct c0, vu, c1, c3, e, iu; reflexivity. }
    setoid_rewrite Hodd. clear Hodd Bb B Iu'.
    assert (Hlost : forall z, (~ filled_below (pieces None s) b /\ filled_above (pieces None s) a /\ gap_first (pieces None s) b z /\ lt z a) <->
      negb c0 && c3 = true /\ exists C', C = TPoint (Exclude z) :: C').
    { intros z. rewrite <- GC, filled_below_den, filled_above_den, D1, D6 by auto. clear. destruct c0, c3; cbn; intuition congruence. }
    assert (Bad : chain false s' false = true -> False).
    { intros Q. apply NW, wf_tree_wf. rewrite EU' in EU. rewrite Hs in EU.
      eapply (proj1 (out_wf lb ub a b L C R c0 vu c1 c2 vl c3 s' La Ub H HL HC HR BL AC BC AR SL SC SR Q)); eauto. }
    assert (P0 : forall p, den false s p = match cmp p (At b) with Lt => den false L p | Eq => vu
      | Gt => match cmp p (At a) with Lt => den c1 C p | Eq => vl | Gt => den c3 R p end end).
    { intros p. rewrite Hs. exact (den_split2 p (At b) (At a) L C R c0 vu c1 c2 vl c3 H' I I HL HC BL AC BC AR). }
    clear EU EU' D1 D2 D3 D4 D5 D6. destruct U as [U|U]; [now apply Bad in U|].
    destruct (odd_union (incl_b ub) c0 vu c1 c3 e) eqn:Q.
    - subst s'. split; [intros _|split; [intros z X|intros X]; exfalso; apply X; reflexivity].
      set (s2 := L ++ TLower (Exclude b) :: C ++ opt (mk (At a) c2 (vl || incl_b lb) c3) ++ R).
      unfold odd_union in Q. rewrite !andb_true_iff, !negb_true_iff in Q. destruct Q as (((((_ & Qe) & ->) & ->) & ->) & ->).
      assert (W2 : wf s2) by (apply (wf_split2 (At b) (At a) L C R false false true c2 (vl || incl_b lb) true); auto; exact I).
      assert (P : forall p, den false s2 p = match cmp p (At b) with Lt => den false L p | Eq => false
        | Gt => match cmp p (At a) with Lt => den true C p | Eq => vl || incl_b lb | Gt => den true R p end end).
      { intros p. exact (den_split2 p (At b) (At a) L C R false false true c2 (vl || incl_b lb) true H' I I HL HC BL AC BC AR). }
      exists (pieces None s2). split; [apply swap_drains; auto; [intros ? X; discriminate|now apply pieces_drains]|].
      intros x. rewrite !at_den by auto. rewrite P, P0, Il. destruct (cmp (At x) (At b)) eqn:X.
      + apply cmp_eq in X. injection X as ->. split; [discriminate|]. intros [X|[-> _]]; [discriminate|]. now apply lt_irrefl in H.
      + split; auto. intros [X'|[-> _]]; auto. change (lt a b) in X. exfalso. clear - H X. order.
      + destruct (cmp (At x) (At a)) eqn:Y.
        * apply cmp_eq in Y. injection Y as ->. rewrite orb_true_iff. intuition congruence.
        * split; auto. intros [Y'|[-> _]]; auto. change (lt a a) in Y. now apply lt_irrefl in Y.
        * split; auto. intros [Y'|[-> _]]; auto. apply cmp_gt_lt in Y. now apply lt_irrefl in Y.
    - split; [discriminate|]. split.
      + intros z _ G. apply Hlost in G as [G (C' & ->)]. cbn [hole_head] in U. rewrite G in U. cbn in U.
        apply andb_true_iff in G as [G1 ->]. apply negb_true_iff in G1. subst c0.
        assert (c1 = true) as -> by (apply chain_cons in HC as (_ & U1 & _); cbn in U1; congruence).
        assert (Hz : lt b z) by exact (ab_in (At b) _ _ AC (or_introl eq_refl)).
        assert (Hza : lt z a) by exact (bl_in (At a) _ _ BC (or_introl eq_refl)).
        destruct (lost_reads a b z L C' R (vl || incl_b lb) c2 true H HL HC HR BL AC BC AR SL SC SR) as (l' & I1 & I2).
        exists l'. split; [rewrite U; exact I1|]. intros x. rewrite I2, Il, at_den, P0 by auto.
        change (cmp (At x) (At b)) with (cmp x b). change (cmp (At x) (At a)) with (cmp x a).
        rewrite hole_den.
        destruct (cmp x z) eqn:X.
        * apply cmp_eq in X. subst z. split; [discriminate|]. intros [[Y|Y] _]; exfalso; [clear - Y Hz; order|clear - Y; order].
        * destruct (cmp x b) eqn:Y.
          -- split.
             ++ intros G. apply cmp_eq in Y. subst x. rewrite den_high with (c := false) in G; try discriminate; auto.
                intros t Ht. exact (bl_in (At b) L t BL Ht).
             ++ intros [[Y'|Y'] _]; exfalso; [unfold lt in Y'; congruence|clear - Y' X; order].
          -- split; [intros G; auto|]. intros [_ [G|[-> _]]]; auto. exfalso. clear - Y H. order.
          -- split.
             ++ intros G. rewrite den_high with (c := false) in G; try discriminate; auto.
                intros t Ht. apply cmp_gt_lt in Y. eapply plt_trans; [exact (bl_in (At b) L t BL Ht)|exact Y].
             ++ intros [[Y'|Y'] _]; exfalso; [clear - Y Y'; order|clear - Y' X; order].
        * assert (Y : cmp x b = Gt) by (clear - X Hz; order). rewrite Y. assert (Zx : lt z x) by (clear - X; order).
          destruct (cmp x a) eqn:Z.
          -- apply cmp_eq in Z. subst x. rewrite orb_true_iff. intuition congruence.
          -- split; [intros G; auto|]. intros [_ [G|[-> _]]]; auto. exfalso. clear - Z. order.
          -- split; [intros G; auto|]. intros [_ [G|[-> _]]]; auto. exfalso. clear - Z. order.
      + intros _ G. apply unreadable. destruct (negb c0 && c3 && hole_head C) eqn:Z; auto. exfalso.
        apply andb_true_iff in Z as [Z1 Z2]. destruct C as [|[|[z|z|]|] C]; try discriminate. apply (G z). apply Hlost. eauto.
  Qed.

  Lemma below_false L (b x : T) : chain false L false = true -> bl (At b) L -> cmp x b <> Datatypes.Lt -> den false L (At x) = false.
  Proof.
    intros HL BL X. rewrite den_high with (c := false); auto. intros t Ht.
    assert (Y := bl_in (At b) L t BL Ht). assert (Z := loc_tine t).
    destruct (cmp x b) eqn:E; [apply cmp_eq in E; now subst|congruence|].
    apply cmp_gt_lt in E. eapply plt_trans; [exact Y|exact E].
  Qed.

  (** After an out-of-order interval is removed, a tree that is no longer well formed cannot be read with debug
      assertions, but for three cases, in all of which the tree holds nothing just before [b].
      In the first, all between [b] and [a] is gained.  In the second, the first change past [a] is a value [w] that alone is missing, and
      all from [a] up to [w] is lost.  In the third, the first change past [b] is a value [z]
      before [a] that alone is missing, and all from [b] up to [z] is lost. *)
  Theorem C113_minus_broken_partial s l r lb ub a b : tree_wf s -> intervals_are true s l -> written r lb ub a b -> lt b a ->
    let gained := ub = Exclude b /\ ~ filled_below l b /\ some_contains l b /\ ~ filled_above l b /\ bare l b a /\ filled_above l a /\
                  ~ (some_contains l a /\ lb = Exclude a) in
    let kept w := ~ filled_below l b /\ filled_above l b /\ ~ bare l b a /\ gap_first l a w in
    let lost z := ~ filled_below l b /\ ~ filled_above l a /\ gap_first l b z /\ lt z a in
    forall s', tree_minus_in_place true s r = Ok s' -> ~ tree_wf s' ->
    (gained -> exists l', intervals_are true s' l' /\
       forall x, some_contains l' x <-> some_contains l x /\ x <> b \/ lt b x /\ (lt x a \/ x = a)) /\
    (forall w, kept w -> exists l', intervals_are true s' l' /\
       forall x, some_contains l' x <->
         lt x a /\ some_contains l x /\ ~ (x = b /\ ub = Include b) \/
         x = a /\ (filled_below l a /\ ~ (some_contains l a /\ lb = Include a) \/ some_contains l a /\ lb = Exclude a) \/
         lt w x /\ some_contains l x) /\
    (forall z, lost z -> exists l', intervals_are true s' l' /\
       forall x, some_contains l' x <-> (lt x b \/ lt z x) /\ some_contains l x /\ ~ (x = a /\ lb = Include a)) /\
    (~ gained -> (forall w, ~ kept w) -> (forall z, ~ lost z) -> iter_collect true (tree_interval_iter s') = Panic).
  Proof.
    intros W Hl Wr H gained kept lost s' EU NW. subst gained kept lost. apply wf_tree_wf in W. rewrite (intervals_pieces true s l W Hl) in *. clear Hl l.
    assert (NP : forall x, r <> Point x).
    { intros x ->. destruct Wr as (A & B & [-> | ->] & [-> | ->]); cbn in A, B; try discriminate. injection A as ->. injection B as ->.
      now apply lt_irrefl in H. }
    destruct (written_tines r lb ub a b Wr NP) as (Et & Ef & Ee). destruct Wr as (_ & _ & La & Ub).
    destruct (split2_at (At b) (At a) s) as [L C R c0 vu c1 c2 vl c3 Hs A A' HL HC HR BL AC BC AR SL SC SR]; auto; try exact I.
    assert (B := between_steady a b L C R c0 vu c1 c2 vl c3 H HL HC HR BL AC BC AR SL SC SR). cbv zeta in B. rewrite <- Hs in B.
    destruct (gap_heads s L C R a b c0 vu c1 c2 vl c3 H W Hs HL HC HR BL AC BC AR SC SR) as [GC GR].
    destruct (near_split (Include b) (Include a) L C R c0 vu c1 c2 vl c3) as [N1 N2]; auto.
    change (loc (TLower (Include b))) with (At b) in N1. change (loc (TUpper (Include a))) with (At a) in N1.
    change (loc (TLower (Include b))) with (At b) in N2. change (loc (TUpper (Include a))) with (At a) in N2.
    rewrite <- Hs in N1, N2. cbn in N1, N2. injection N1 as D1 D2 D3. injection N2 as D4 D5 D6.
    assert (H' : lt (At b) (At a)) by exact H.
    destruct (out_reads' lb ub a b L C R c0 vu c1 c2 vl c3 La Ub H HL HC HR BL AC BC AR) as [_ U]. cbv zeta in U.
    rewrite <- Hs in U.
    assert (EU' : tree_minus_in_place true s r = minus_proper_interval true (TLower lb) (TUpper ub) s).
    { unfold tree_minus_in_place. rewrite Ee, orb_false_r, Ef, Et. destruct s; [|reflexivity]. cbn [tree_is_empty].
      clear - La Ub. destruct La as [-> | ->], Ub as [-> | ->]; reflexivity. }
    rewrite <- EU', EU in U. set (e := match C with [] => true | _ => false end) in *.
    assert (EC : C = [] <-> e = true) by (unfold e; destruct C; split; congruence).
    assert (Iu : ub = Include b <-> incl_b ub = true) by (destruct Ub as [-> | ->]; cbn; split; congruence).
    assert (Iu' : ub = Exclude b <-> negb (incl_b ub) = true) by (destruct Ub as [-> | ->]; cbn; split; congruence).
    assert (Il : lb = Include a <-> incl_b lb = true) by (destruct La as [-> | ->]; cbn; split; congruence).
    assert (Il' : lb = Exclude a <-> negb (incl_b lb) = true) by (destruct La as [-> | ->]; cbn; split; congruence).
    assert (Bb : bare (pieces None s) b a <-> e = true) by (unfold bare; rewrite B; exact EC).
    assert (Hodd : (ub = Exclude b /\ ~ filled_below (pieces None s) b /\ some_contains (pieces None s) b /\ ~ filled_above (pieces None s) b /\
      bare (pieces None s) b a /\ filled_above (pieces None s) a /\ ~ (some_contains (pieces None s) a /\ lb = Exclude a)) <->
      odd_minus (incl_b lb) (incl_b ub) c0 vu c1 vl c3 e = true).
    { rewrite Bb, filled_below_den, !at_den, !filled_above_den, D1, D2, D3, D5, D6, Iu', Il' by auto. unfold odd_minus.
      generalize (incl_b ub) (incl_b lb). clear. intros iu il. to_bool9. destruct c0, vu, c1, c3, e, iu, vl, il; reflexivity. }
    assert (Hkept : forall w, (~ filled_below (pieces None s) b /\ filled_above (pieces None s) b /\ ~ bare (pieces None s) b a /\
        gap_first (pieces None s) a w) <-> negb c0 && c1 && negb e = true /\ exists R', R = TPoint (Exclude w) :: R').
    { intros w. rewrite Bb, <- GR, filled_below_den, filled_above_den, D1, D3 by auto. clear. destruct c0, c1, e; cbn; intuition congruence. }
    assert (Hlost : forall z, (~ filled_below (pieces None s) b /\ ~ filled_above (pieces None s) a /\ gap_first (pieces None s) b z /\ lt z a) <->
      negb c0 && negb c3 = true /\ exists C', C = TPoint (Exclude z) :: C').
    { intros z. rewrite <- GC, filled_below_den, filled_above_den, D1, D6 by auto. clear. destruct c0, c3; cbn; intuition congruence. }
    rewrite Hodd. setoid_rewrite Hkept. setoid_rewrite Hlost. clear Hodd Hkept Hlost Bb B Iu' GC GR.
    assert (Bad : chain false s' false = true -> False).
    { intros Q. apply NW, wf_tree_wf. rewrite EU' in EU. rewrite Hs in EU.
      eapply (proj2 (out_wf lb ub a b L C R c0 vu c1 c2 vl c3 s' La Ub H HL HC HR BL AC BC AR SL SC SR Q)); eauto. }
    assert (P0 : forall p, den false s p = match cmp p (At b) with Lt => den false L p | Eq => vu
      | Gt => match cmp p (At a) with Lt => den c1 C p | Eq => vl | Gt => den c3 R p end end).
    { intros p. rewrite Hs. exact (den_split2 p (At b) (At a) L C R c0 vu c1 c2 vl c3 H' I I HL HC BL AC BC AR). }
    assert (Fb : filled_below (pieces None s) a <-> c2 = true) by (rewrite filled_below_den, D4 by auto; reflexivity).
    assert (Fa : some_contains (pieces None s) a <-> vl = true) by (rewrite at_den, D5 by auto; reflexivity).
    clear EU EU' D1 D2 D3 D4 D5 D6. destruct U as [U|U]; [now apply Bad in U|].
    assert (M1 : forall w R', R = TPoint (Exclude w) :: R' -> c3 = true).
    { intros w R' ->. apply chain_cons in HR as (_ & U1 & _). cbn in U1. congruence. }
    assert (M2 : forall z C', C = TPoint (Exclude z) :: C' -> c1 = true /\ e = false).
    { intros z C' Y. split; [|unfold e; now rewrite Y]. subst C. apply chain_cons in HC as (_ & U1 & _). cbn in U1. congruence. }
    split; [|split; [|split]].
    - intros Q. rewrite Q in U. subst s'.
      unfold odd_minus in Q. rewrite !andb_true_iff, !negb_true_iff in Q. destruct Q as ((((((_ & Qe) & ->) & ->) & ->) & ->) & _).
      apply EC in Qe. clear EC M2 e. subst C. cbn in HC. destruct c2; [discriminate|]. set (s2 := L ++ TLower (Exclude b) :: [] ++ opt (mk (At a) true true true) ++ R).
      assert (W2 : wf s2) by (apply (wf_split2 (At b) (At a) L [] R false false true true true true); auto; exact I).
      assert (P : forall p, den false s2 p = match cmp p (At b) with Lt => den false L p | Eq => false
        | Gt => match cmp p (At a) with Lt => true | Eq => true | Gt => den true R p end end).
      { intros p. exact (den_split2 p (At b) (At a) L [] R false false true true true true H' I I HL eq_refl BL AC BC AR). }
      exists (pieces None s2). split; [apply (swap_drains R b L None); auto; [intros ? X; discriminate|now apply pieces_drains]|].
      intros x. rewrite !at_den by auto. rewrite P, P0. destruct (cmp (At x) (At b)) eqn:X.
      + apply cmp_eq in X. injection X as ->. split; [discriminate|]. intros [[_ X]|[X _]]; [congruence|now apply lt_irrefl in X].
      + change (lt x b) in X. split; [intros Y; left; split; auto; intros ->; now apply lt_irrefl in X|].
        intros [[Y _]|[Y _]]; auto. exfalso. clear - X Y. order.
      + apply cmp_gt_lt in X. change (lt b x) in X. destruct (cmp (At x) (At a)) eqn:Y.
        * apply cmp_eq in Y. injection Y as ->. split; auto.
        * split; auto.
        * apply cmp_gt_lt in Y. change (lt a x) in Y. split; [intros Z; left; split; auto; intros ->; now apply lt_irrefl in X|].
          intros [[Z _]|[_ [Z|Z]]]; auto; exfalso; [clear - Y Z; order|subst x; now apply lt_irrefl in Y].
    - intros w [G (R' & ER)]. assert (Z := M1 _ _ ER).
      assert (Q : odd_minus (incl_b lb) (incl_b ub) c0 vu c1 vl c3 e = false)
        by (unfold odd_minus; destruct c0, c1, e; try discriminate; now rewrite !andb_false_r).
      rewrite Q, G in U. rewrite ER in U. cbn [hole_head] in U.
      rewrite !andb_true_iff, !negb_true_iff in G. destruct G as ((-> & ->) & Qe). subst c3 R.
      set (va := if c2 then negb (vl && incl_b lb) else vl && negb (incl_b lb)) in *.
      assert (Hw : lt a w) by exact (ab_in (At a) _ _ AR (or_introl eq_refl)).
      destruct (kept_reads a b w L C R' (vu && negb (incl_b ub)) va c2 H HL HC HR BL AC BC AR SL SC SR) as (l' & I1 & I2).
      exists l'. split; [rewrite U; exact I1|]. intros x. rewrite I2, Fb, Fa, Il, Il', Iu, at_den, P0 by auto.
      assert (Hva : c2 = true /\ ~ (vl = true /\ incl_b lb = true) \/ vl = true /\ negb (incl_b lb) = true <-> va = true).
      { subst va. clear. destruct c2, vl, (incl_b lb); cbn; intuition congruence. }
      rewrite Hva. change (cmp (At x) (At b)) with (cmp x b). change (cmp (At x) (At a)) with (cmp x a). rewrite hole_den.
      clear I1 I2 U Hva P0. clearbody va. generalize (incl_b ub). intros iu.
      destruct (cmp x w) eqn:X.
      + apply cmp_eq in X. subst x. assert (Y : cmp w b = Gt) by (clear - H Hw; order). assert (Z : cmp w a = Gt) by (clear - H Hw; order).
        rewrite Y, Z. split; [discriminate|]. intros [(G & _)|[(G & _)|(G & _)]]; exfalso; clear - G Hw; [order|subst; order|order].
      + destruct (cmp x b) eqn:Y.
        * apply cmp_eq in Y. subst x. rewrite andb_true_iff, negb_true_iff. split.
          -- intros [-> ->]. left. repeat split; auto. intros [_ K]. discriminate.
          -- intros [(_ & G & K)|[(G & _)|(G & _)]].
             ++ split; auto. destruct iu; auto. exfalso. auto.
             ++ exfalso. clear - G H. subst. order.
             ++ exfalso. clear - G X. order.
        * split; [intros G; left; repeat split; auto; [clear - Y H; order|intros [-> _]; clear - Y; order]|].
          intros [(_ & G & _)|[(G & _)|(G & _)]]; auto; exfalso; [clear - G Y H; subst; order|clear - G X; order].
        * destruct (cmp x a) eqn:Z.
          -- apply cmp_eq in Z. subst x. split; [auto|]. intros [(G & _)|[(_ & G)|(G & _)]]; auto; exfalso; [clear - G; order|clear - G X; order].
          -- split; [intros G; left; repeat split; auto; intros [-> _]; clear - Y; order|].
             intros [(_ & G & _)|[(G & _)|(G & _)]]; auto; exfalso; [clear - G Z; subst; order|clear - G X; order].
          -- split; [discriminate|]. intros [(G & _)|[(G & _)|(G & _)]]; exfalso; [clear - G Z; order|clear - G Z; subst; order|clear - G X; order].
      + assert (Y : cmp x b = Gt) by (clear - X H Hw; order). assert (Z : cmp x a = Gt) by (clear - X H Hw; order). rewrite Y, Z.
        assert (Xw : lt w x) by (clear - X; order). split; [auto|].
        intros [(G & _)|[(G & _)|(_ & G)]]; auto; exfalso; [clear - G Z; order|clear - G Z; subst; order].
    - intros z [G (C' & EC')]. destruct (M2 _ _ EC') as [Z1 Z2].
      assert (N : hole_head R = false).
      { destruct R as [|[|[w|w|]|] R]; auto. exfalso. rewrite (M1 _ _ eq_refl), andb_false_r in G. discriminate. }
      assert (Q : odd_minus (incl_b lb) (incl_b ub) c0 vu c1 vl c3 e = false)
        by (unfold odd_minus; rewrite Z2, Z1; now rewrite !andb_false_r).
      rewrite Q, N, andb_false_r, EC' in U. cbn [hole_head] in U. rewrite andb_true_r in U.
      rewrite G in U. clear EC M2 e Z2 Q. subst C.
      rewrite andb_true_iff, !negb_true_iff in G. destruct G as (-> & ->). subst c1.
      assert (Hz : lt b z) by exact (ab_in (At b) _ _ AC (or_introl eq_refl)).
      assert (Hza : lt z a) by exact (bl_in (At a) _ _ BC (or_introl eq_refl)).
      destruct (lost_reads a b z L C' R (vl && negb (incl_b lb)) c2 false H HL HC HR BL AC BC AR SL SC SR) as (l' & I1 & I2).
      exists l'. split; [rewrite U; exact I1|]. intros x. rewrite I2, Il, at_den, P0 by auto.
      change (cmp (At x) (At b)) with (cmp x b). change (cmp (At x) (At a)) with (cmp x a). rewrite hole_den.
      destruct (cmp x z) eqn:X.
      + apply cmp_eq in X. subst z. split; [discriminate|]. intros [[Y|Y] _]; exfalso; [clear - Y Hz; order|clear - Y; order].
      + destruct (cmp x b) eqn:Y.
        * rewrite (below_false L b x) by (auto; congruence). split; [discriminate|].
          intros [[G|G] _]; exfalso; [clear - G Y; order|clear - G X; order].
        * split; [intros G; repeat split; auto; intros [-> _]; clear - Y H; order|]. now intros (_ & G & _).
        * rewrite (below_false L b x) by (auto; congruence). split; [discriminate|].
          intros [[G|G] _]; exfalso; [clear - G Y; order|clear - G X; order].
      + assert (Y : cmp x b = Gt) by (clear - X Hz; order). rewrite Y. assert (Zx : lt z x) by (clear - X; order).
        destruct (cmp x a) eqn:Z.
        * apply cmp_eq in Z. subst x. rewrite andb_true_iff, negb_true_iff. split.
          -- intros [G K]. repeat split; auto. intros [_ K']. congruence.
          -- intros (_ & G & K). split; auto. destruct (incl_b lb); auto. exfalso. auto.
        * split; [intros G; repeat split; auto; intros [-> _]; clear - Z; order|]. now intros (_ & G & _).
        * split; [intros G; repeat split; auto; intros [-> _]; clear - Z; order|]. now intros (_ & G & _).
    - intros Q K G. apply unreadable. destruct (odd_minus _ _ _ _ _ _ _ _); [now elim Q|].
      destruct (negb c0 && c1 && negb e && hole_head R) eqn:Z.
      { exfalso. apply andb_true_iff in Z as [Z1 Z2]. destruct R as [|[|[w|w|]|] R]; try discriminate. apply (K w). eauto. }
      destruct (negb c0 && hole_head C && negb c3) eqn:Z'; auto.
      exfalso. rewrite !andb_true_iff in Z'. destruct Z' as [[Z1 Z2] Z3]. destruct C as [|[|[z|z|]|] C]; try discriminate. apply (G z).
      split; [now rewrite Z1, Z3|eauto].
  Qed.

  (** The same for an interval written with both ends at [a] that is not the single value: adding one can only leave a tree that is well
      formed or cannot be read.  Removing one can also, where the tree goes on at both sides of [a] and the first change past it is a value
      [w] that alone is missing, lose all from [a] up to [w]. *)
  Theorem C113_one_value_broken_partial s l r lb ub a : tree_wf s -> intervals_are true s l -> written r lb ub a a -> (forall x, r <> Point x) ->
    let kept w := filled_below l a /\ filled_above l a /\ gap_first l a w in
    forall s', ~ tree_wf s' ->
    (tree_union_in_place true s r = Ok s' -> iter_collect true (tree_interval_iter s') = Panic) /\
    (forall w, tree_minus_in_place true s r = Ok s' -> kept w -> exists l', intervals_are true s' l' /\
       forall x, some_contains l' x <->
         lt x a /\ some_contains l x \/ x = a /\ ~ (some_contains l a /\ lb = Include a) \/ lt w x /\ some_contains l x) /\
    (tree_minus_in_place true s r = Ok s' -> (forall w, ~ kept w) -> iter_collect true (tree_interval_iter s') = Panic).
  Proof.
    intros W Hl Wr NP kept s' NW. subst kept. apply wf_tree_wf in W. rewrite (intervals_pieces true s l W Hl). clear Hl l.
    destruct (written_tines r lb ub a a Wr NP) as (Et & Ef & Ee). destruct Wr as (_ & _ & La & Ub).
    assert (Ll : loc (TLower lb) = At a) by (destruct La as [->| ->]; reflexivity).
    assert (Lu : loc (TUpper ub) = At a) by (destruct Ub as [->| ->]; reflexivity).
    assert (W' := W). destruct W' as [Ss Hc].
    destruct (split_at (At a) false s false) as (L & R & c0 & v & c1 & E & A & HL & HR & BL & AR & SL & SR); auto; try discriminate; try exact I.
    assert (GR : forall w, gap_first (pieces None s) a w <-> exists R', R = TPoint (Exclude w) :: R')
      by (intros w; now apply (gap_first_head s L R a c0 v c1)).
    assert (P0 : forall p, den false s p = match cmp p (At a) with Lt => den false L p | Eq => v | Gt => den c1 R p end)
      by (intros p; rewrite E, (den_split false L _ R p (At a) c0 v c1) by (auto; exact I); reflexivity).
    assert (D : den false s (Lo a) = c0 /\ den false s (At a) = v /\ den false s (Hi a) = c1)
      by (rewrite E, den_Lo, den_At, den_Hi by auto; auto).
    destruct D as (D1 & D2 & D3).
    assert (Hkept : forall w, (filled_below (pieces None s) a /\ filled_above (pieces None s) a /\ gap_first (pieces None s) a w) <->
      c0 && c1 = true /\ exists R', R = TPoint (Exclude w) :: R').
    { intros w. rewrite <- GR, filled_below_den, filled_above_den, D1, D3, andb_true_iff by auto. tauto. }
    assert (Fa : some_contains (pieces None s) a <-> v = true) by (rewrite at_den, D2 by auto; reflexivity).
    assert (Il : lb = Include a <-> incl_b lb = true) by (destruct La as [-> | ->]; cbn; split; congruence).
    assert (X : exterior_split_for_proper_interval (TLower lb) (TUpper ub) s = ((btree_last L, mk (At a) c0 v c1, None, btree_first R), L ++ R)).
    { unfold exterior_split_for_proper_interval. rewrite E.
      rewrite (take_split (TLower lb) L _ R) by (rewrite ?Ll; auto; apply mk_at).
      assert (Q := take_split (TUpper ub) L None R). cbn [opt app] in Q. rewrite Q by (rewrite ?Lu; auto; exact I).
      rewrite (split_off_split (TLower lb) L R) by (rewrite ?Ll; auto).
      assert (Q' : btree_split_off (TUpper ub) R = ([], R)) by (apply (split_off_split _ [] R); rewrite ?Lu; auto; constructor).
      now rewrite Q', (append_split (At a)) by auto. }
    set (sel := fun x : option (Tine T) => L ++ opt x ++ R).
    assert (Ch : forall x, at_loc (At a) x -> chain false (sel x) false = true -> tree_wf (sel x)).
    { intros x Hx Q. apply wf_tree_wf. split; auto. apply (srt_glue (At a)); auto. }
    assert (Ch2 : forall x, chain false (sel x) false =
      match x with None => Bool.eqb c0 c1 | Some t => okt t && Bool.eqb c0 (is_upper_bound t) && Bool.eqb (is_lower_bound t) c1 end).
    { intros x. unfold sel. rewrite (chain_left _ _ _ _ _ HL). destruct x; cbn; now rewrite (chain_head R c1). }
    set (h := hole_head R).
    assert (h1 : h = true -> c1 = true).
    { subst h. destruct R as [|[|[]|] R]; try discriminate. intros _. apply chain_cons in HR as (_ & U & _). auto. }
    assert (Rd : forall x, reads false (sel x) = match x with None => Bool.eqb c0 c1 || h
      | Some (TLower _) => negb c0 && (Bool.eqb true c1 || h) | Some (TPoint (Include _)) => negb c0 && (Bool.eqb false c1 || h)
      | Some (TPoint (Exclude _)) => Bool.eqb true c1 || h | Some (TPoint Infinite) => false | Some (TUpper _) => c0 && (Bool.eqb false c1 || h) end).
    { intros x. unfold sel. rewrite (reads_chain _ _ _ _ HL).
      destruct x as [[d|[z|z|]|d]|]; cbn -[reads]; cbn [reads]; rewrite ?(reads_head' R c1) by auto; reflexivity. }
    assert (J : forall t, okt t = true -> loc t = At a -> btree_insert t (sel None) = sel (Some t)).
    { intros t K Q. unfold sel. cbn [opt app]. apply insert_split; rewrite ?Q; auto. }
    assert (J2 : forall t u, okt t = true -> loc t = At a -> okt u = true -> loc u = At a -> btree_insert u (sel (Some t)) = sel (Some t)).
    { intros t u K Q K' Q'. unfold sel. cbn [opt app]. apply insert_same; auto; rewrite ?Q; congruence || auto. }
    assert (EU1 : tree_union_in_place true s r = union_proper_interval true (TLower lb) (TUpper ub) s)
      by (unfold tree_union_in_place; now rewrite Ef, Et).
    assert (EM : tree_minus_in_place true s r = minus_proper_interval true (TLower lb) (TUpper ub) s).
    { unfold tree_minus_in_place. rewrite Ee, orb_false_r, Ef, Et. destruct s; [|reflexivity]. cbn [tree_is_empty].
      clear - La Ub. destruct La as [-> | ->], Ub as [-> | ->]; reflexivity. }
    rewrite EU1, EM. clear EU1 EM. setoid_rewrite Hkept.
    assert (Main : (union_proper_interval true (TLower lb) (TUpper ub) s = Ok s' -> reads false s' = false) /\
      (minus_proper_interval true (TLower lb) (TUpper ub) s = Ok s' ->
        if c0 && c1 && h then s' = sel (mk (At a) true (negb (v && incl_b lb)) false) else reads false s' = false)).
    { unfold union_proper_interval, minus_proper_interval. rewrite X, (chain_first R c1 HR), (chain_last L c0 HL).
      assert (E0 : L ++ R = sel None) by reflexivity. rewrite E0. clear - La Ub J J2 Ch Ch2 Rd NW h1. clearbody sel h.
      assert (Qe : forall x y : list (Tine T), Ok x = Ok y -> x = y) by congruence.
      destruct c1, h; try (specialize (h1 eq_refl); discriminate); clear h1.
      all: destruct La as [->| ->], Ub as [->| ->], c0, v.
      all: cbn [mk incl_b andb orb negb]; unfold tine_union, tine_minus, debug_assert; cbn [opt_eqb tine_as_ref bound_as_ref].
      all: rewrite ?eqb_refl; cbn -[btree_insert chain reads];
        repeat first [ rewrite J by reflexivity | rewrite J2 by reflexivity ].
      all: split; intros Q; first [discriminate | apply Qe in Q; subst s'; first [reflexivity | rewrite Rd; reflexivity |
        exfalso; apply NW, Ch; [repeat split; reflexivity | rewrite Ch2; reflexivity]]]. }
    destruct Main as [M1 M2]. split; [intros Q; now apply unreadable, M1|]. split.
    - intros w Q [G (R' & ER)]. assert (Hh : h = true) by (unfold h; now rewrite ER). specialize (M2 Q). rewrite G, Hh in M2. cbn [andb] in M2. clear Hh.
      rewrite andb_true_iff in G. destruct G as [-> ->]. set (va := negb (v && incl_b lb)) in *.
      assert (Hw : lt (At a) (At w)) by (rewrite ER in AR; exact (ab_in (At a) _ _ AR (or_introl eq_refl))).
      assert (Hw' : lt a w) by exact Hw. clear Rd Ch Ch2 J J2 X h1.
      assert (HR' : chain true R' false = true) by (rewrite ER in HR; apply chain_cons in HR as (_ & _ & HR); exact HR).
      assert (AR' : ab (At w) R').
      { rewrite ER in AR, SR. apply srt_ab; auto. eapply ab_okt, ab_tail, AR. }
      destruct (hole_reads (L ++ opt (mk (At a) true va false) ++ []) R' w) as (l' & I1 & I2); auto.
      + apply chain_glue; auto; exact I.
      + apply bl_app. split; [eapply bl_weaken; eauto|]. apply bl_app. split; [now apply mk_bl|constructor].
      + apply (srt_glue (At a)); auto; [constructor|constructor|apply mk_at].
      + rewrite ER in SR. eapply srt_tail; eauto.
      + exists l'. split; [rewrite M2; unfold sel; rewrite ER; rewrite <- !app_assoc in I1; exact I1|].
        intros x. rewrite I2, Fa, Il, at_den, P0 by auto.
        rewrite (den_split false L _ [] (At x) (At a) true va false) by (first [exact I | reflexivity | assumption | constructor]).
        assert (Hva : ~ (v = true /\ incl_b lb = true) <-> va = true).
        { subst va. clear. destruct v, (incl_b lb); cbn; intuition congruence. }
        rewrite Hva. change (cmp (At x) (At a)) with (cmp x a). rewrite ER, hole_den.
        destruct (cmp x w) eqn:Y.
        * apply cmp_eq in Y. subst x. assert (Z : cmp w a = Gt) by (clear - Hw'; order). rewrite Z. split; [discriminate|].
          intros [(G & _)|[(G & _)|(G & _)]]; exfalso; clear - G Hw'; [order|subst; order|order].
        * destruct (cmp x a) eqn:Z.
          -- apply cmp_eq in Z. subst x. split; [auto|]. intros [(G & _)|[(_ & G)|(G & _)]]; auto; exfalso; [clear - G; order|clear - G Y; order].
          -- split; [auto|]. intros [(_ & G)|[(G & _)|(G & _)]]; auto; exfalso; [clear - G Z; subst; order|clear - G Y; order].
          -- split; [discriminate|]. intros [(G & _)|[(G & _)|(G & _)]]; exfalso; [clear - G Z; order|clear - G Z; subst; order|clear - G Y; order].
        * assert (Z : cmp x a = Gt) by (clear - Y Hw'; order). rewrite Z. assert (Wx : lt w x) by (clear - Y; order). split; [auto|].
          intros [(G & _)|[(G & _)|(_ & G)]]; auto; exfalso; [clear - G Z; order|clear - G Z; subst; order].
    - intros Q G. apply unreadable. specialize (M2 Q). destruct (c0 && c1 && h) eqn:Z; auto. exfalso.
      apply andb_true_iff in Z as [Z1 Z2]. unfold h in Z2. destruct R as [|[|[w|w|]|] R]; try discriminate. apply (G w). eauto.
  Qed.
End Broken.
Print Assumptions C113_union_broken_partial.
Print Assumptions C113_minus_broken_partial.
Print Assumptions C113_one_value_broken_partial.

Local Open Scope Z_scope.
Local Ltac drain := repeat first [eapply drains_nil; reflexivity | eapply drains_cons; [reflexivity|]].
Local Ltac bounds := repeat constructor.
(** Adding the out-of-order [6, 2] to [2, 4) and (4, 9] leaves a list that reads as (4, 9]: the interval [2, 4) is lost. *)
Example C113_union_broken_ex :
  let s := [TLower (Include 2); TPoint (Exclude 4); TUpper (Include 9)] in
  let s' := [TPoint (Exclude 4); TUpper (Include 9)] in
  let l := [RightOpen 2 4; LeftOpen 4 9] in
  tree_wf s /\ intervals_are true s l /\ written (Closed 6 2) (Include 6) (Include 2) 6 2 /\ lt 2 6 /\ gap_first l 2 4 /\
  tree_union_in_place true s (Closed 6 2) = Ok s' /\ chain false s' false = false /\ intervals_are true s' [LeftOpen 4 9].
Proof.
  cbv zeta. assert (W : tree_wf [TLower (Include 2); TPoint (Exclude 4); TUpper (Include 9)]) by repeat constructor.
  split; [exact W|]. split; [drain|]. split; [repeat split; auto|]. split; [reflexivity|].
  split; [refine (proj2 (gap_first_head [TLower (Include 2); TPoint (Exclude 4); TUpper (Include 9)] [] [TPoint (Exclude 4); TUpper (Include 9)] 2 false true true 4 _ _ _ _ _ _ _) _);
    [now apply wf_tree_wf|reflexivity|reflexivity|reflexivity|bounds|bounds|bounds|eauto]|].
  split; [reflexivity|]. split; [reflexivity|]. drain.
Qed.
(** Removing the out-of-order [5, 2] from [2, 3], [4, 7) and (7, 9] leaves one that reads as (2, 3], [4, 5) and (7, 9]. And removing
    [6, 2] from [2, 3) and (3, 4] leaves one that reads as (3, 4]. *)
Example C113_minus_broken_ex :
  let s := [TLower (Include 2); TUpper (Include 3); TLower (Include 4); TPoint (Exclude 7); TUpper (Include 9)] in
  let s' := [TLower (Exclude 2); TUpper (Include 3); TLower (Include 4); TUpper (Exclude 5); TPoint (Exclude 7); TUpper (Include 9)] in
  let l := [Closed 2 3; RightOpen 4 7; LeftOpen 7 9] in
  let u := [TLower (Include 2); TPoint (Exclude 3); TUpper (Include 4)] in
  let u' := [TPoint (Exclude 3); TUpper (Include 4)] in
  let k := [RightOpen 2 3; LeftOpen 3 4] in
  tree_wf s /\ intervals_are true s l /\ written (Closed 5 2) (Include 5) (Include 2) 5 2 /\ lt 2 5 /\ gap_first l 5 7 /\
  tree_minus_in_place true s (Closed 5 2) = Ok s' /\ chain false s' false = false /\
  intervals_are true s' [LeftOpen 2 3; RightOpen 4 5; LeftOpen 7 9] /\
  tree_wf u /\ intervals_are true u k /\ gap_first k 2 3 /\
  tree_minus_in_place true u (Closed 6 2) = Ok u' /\ chain false u' false = false /\ intervals_are true u' [LeftOpen 3 4].
Proof.
  cbv zeta. assert (W : tree_wf [TLower (Include 2); TUpper (Include 3); TLower (Include 4); TPoint (Exclude 7); TUpper (Include 9)]) by repeat constructor.
  assert (W' : tree_wf [TLower (Include 2); TPoint (Exclude 3); TUpper (Include 4)]) by repeat constructor.
  split; [exact W|]. split; [drain|]. split; [repeat split; auto|]. split; [reflexivity|].
  split; [refine (proj2 (gap_first_head [TLower (Include 2); TUpper (Include 3); TLower (Include 4); TPoint (Exclude 7); TUpper (Include 9)]
      [TLower (Include 2); TUpper (Include 3); TLower (Include 4)] [TPoint (Exclude 7); TUpper (Include 9)] 5 true true true 7 _ _ _ _ _ _ _) _);
    [now apply wf_tree_wf|reflexivity|reflexivity|reflexivity|bounds|bounds|bounds|eauto]|].
  split; [reflexivity|]. split; [reflexivity|]. split; [drain|].
  split; [exact W'|]. split; [drain|].
  split; [refine (proj2 (gap_first_head [TLower (Include 2); TPoint (Exclude 3); TUpper (Include 4)] [] [TPoint (Exclude 3); TUpper (Include 4)] 2 false true true 3 _ _ _ _ _ _ _) _);
    [now apply wf_tree_wf|reflexivity|reflexivity|reflexivity|bounds|bounds|bounds|eauto]|].
  split; [reflexivity|]. split; [reflexivity|]. drain.
Qed.
(** Removing (5, 5) from [0, 7) and (7, 9] leaves one that reads as [0, 5] and (7, 9]. *)
Example C113_one_value_broken_ex :
  let s := [TLower (Include 0); TPoint (Exclude 7); TUpper (Include 9)] in
  let s' := [TLower (Include 0); TUpper (Include 5); TPoint (Exclude 7); TUpper (Include 9)] in
  let l := [RightOpen 0 7; LeftOpen 7 9] in
  tree_wf s /\ intervals_are true s l /\ written (Open 5 5) (Exclude 5) (Exclude 5) 5 5 /\ gap_first l 5 7 /\
  tree_minus_in_place true s (Open 5 5) = Ok s' /\ chain false s' false = false /\ intervals_are true s' [Closed 0 5; LeftOpen 7 9].
Proof.
  cbv zeta. assert (W : tree_wf [TLower (Include 0); TPoint (Exclude 7); TUpper (Include 9)]) by repeat constructor.
  split; [exact W|]. split; [drain|]. split; [repeat split; auto|].
  split; [refine (proj2 (gap_first_head [TLower (Include 0); TPoint (Exclude 7); TUpper (Include 9)] [TLower (Include 0)] [TPoint (Exclude 7); TUpper (Include 9)] 5 true true true 7 _ _ _ _ _ _ _) _);
    [now apply wf_tree_wf|reflexivity|reflexivity|reflexivity|bounds|bounds|bounds|eauto]|].
  split; [reflexivity|]. split; [reflexivity|]. drain.
Qed.

(** * Intersection, difference and enclosure of trees *)
From Coq Require Import List Bool ZArith Lia Sorted.
From Verif Require Import Base OrdFacts Pos MBound MRaw MTine MBTree MTineTree Spec PRaw PRaw2 PBTree PTree PTreeOps PTreeIsect PTree2 PTree3 PTree4.
Import ListNotations.

#[local] Arguments cmp : simpl never.

Section PTree5.
  Context {T : Type} {O : Ord T}.
  Implicit Types (t u : Tine T) (s L R C : list (Tine T)) (p q : pos T) (b c v : bool) (i j k : RawInterval T).

  (** ** intersect_in_place *)

  (** The state of a tree just before, at and just after a bound. *)
  Definition near_lower s (d : Bound T) : bool * bool * bool :=
    match d with
    | Include x | Exclude x => (den false s (Lo x), den false s (At x), den false s (Hi x))
    | Infinite => (false, den false s NInf, den false s NInf)
    end.
  Definition near_upper s (d : Bound T) : bool * bool * bool :=
    match d with
    | Include x | Exclude x => (den false s (Lo x), den false s (At x), den false s (Hi x))
    | Infinite => (den false s PInf, den false s PInf, false)
    end.

  Definition isect_fine dbg s (l u : Bound T) : bool :=
    let '(b0, vl, c0) := near_lower s l in
    let '(c1, vu, b1) := near_upper s u in
    isect_right dbg b0 vl c0 c1 vu b1 (incl_b l) (incl_b u).

  Lemma mk_ab q r b v c : lt q r -> ab q (opt (mk r b v c)).
  Proof. intros H. generalize (mk_at r b v c). destruct (mk r b v c); repeat constructor; destruct H0 as [? E]; auto. now rewrite E. Qed.
  Lemma mk_bl q r b v c : lt r q -> bl q (opt (mk r b v c)).
  Proof. intros H. generalize (mk_at r b v c). destruct (mk r b v c); repeat constructor; destruct H0 as [? E]; auto. now rewrite E. Qed.

  Lemma near_split (l u : Bound T) L C R c0 vl c1 c2 vu c3 :
    lt (loc (TLower l)) (loc (TUpper u)) -> allowed (loc (TLower l)) c0 vl c1 -> allowed (loc (TUpper u)) c2 vu c3 ->
    chain false L c0 = true -> chain c1 C c2 = true -> chain c3 R false = true ->
    bl (loc (TLower l)) L -> ab (loc (TLower l)) C -> bl (loc (TUpper u)) C -> ab (loc (TUpper u)) R ->
    let s := L ++ opt (mk (loc (TLower l)) c0 vl c1) ++ C ++ opt (mk (loc (TUpper u)) c2 vu c3) ++ R in
    near_lower s l = (c0, vl, c1) /\ near_upper s u = (c2, vu, c3).
  Proof.
    intros Hlu A A' HL HC HR BL AC BC AR s. subst s. split.
    - assert (AC' : ab (loc (TLower l)) (C ++ opt (mk (loc (TUpper u)) c2 vu c3) ++ R)).
      { apply ab_app; split; auto; apply ab_app; split; [now apply mk_ab|eapply ab_weaken; eauto]. }
      destruct l as [x|x|]; unfold near_lower;
        [change (loc (TLower (Include x))) with (At x) in *|change (loc (TLower (Exclude x))) with (At x) in *|
         change (loc (TLower Infinite)) with (@NInf T) in *].
      1,2: now rewrite den_Lo, den_At, den_Hi by auto.
      rewrite (den_split false L _ (C ++ opt (mk (loc (TUpper u)) c2 vu c3) ++ R) NInf NInf c0 vl c1) by auto.
      rewrite cmp_refl. destruct A as [-> ->]. reflexivity.
    - assert (BC' : bl (loc (TUpper u)) (L ++ opt (mk (loc (TLower l)) c0 vl c1) ++ C)).
      { apply bl_app; split; [eapply bl_weaken; eauto|]. apply bl_app; split; auto. now apply mk_bl. }
      assert (HLC : chain false (L ++ opt (mk (loc (TLower l)) c0 vl c1) ++ C) c2 = true) by now apply chain_glue.
      rewrite 2 app_assoc. rewrite <- (app_assoc L).
      destruct u as [x|x|]; unfold near_upper;
        [change (loc (TUpper (Include x))) with (At x) in *|change (loc (TUpper (Exclude x))) with (At x) in *|
         change (loc (TUpper Infinite)) with (@PInf T) in *].
      1,2: now rewrite den_Lo, den_At, den_Hi by auto.
      rewrite (den_split false _ (mk PInf c2 vu c3) R PInf PInf c2 vu c3) by auto.
      rewrite cmp_refl. destruct A' as [-> ->]. reflexivity.
  Qed.

  Definition proper i : Prop := match i with Empty | Full | Point _ => False | _ => True end.

  (** The exact domain of correctness for a proper interval. *)
  Lemma isect_in_place_iff dbg s i (l u : Bound T) : wf s -> s <> [] -> raw_wf i -> proper i ->
    raw_lower_bound i = Some l -> raw_upper_bound i = Some u ->
    (exists s', tree_intersect_in_place dbg s i = Ok s' /\ wf s' /\ forall p, den false s' p = den false s p && covers i p)
    <-> isect_fine dbg s l u = true.
  Proof.
    intros W Ne Wi Pi EL EU. unfold tree_intersect_in_place.
    assert (Es : tree_is_empty s = false) by (destruct s; auto; congruence).
    assert (Ef : raw_is_full i = false) by (destruct i; auto; contradiction).
    assert (Ee : raw_is_empty i = false) by (destruct i; auto; contradiction).
    rewrite Es, Ef, Ee. cbn [orb].
    destruct (tines_cases i Wi) as [(-> & E)|[(x & -> & E)|(l' & u' & EL' & EU' & Hlu & E & Hcov)]]; try contradiction.
    assert (l' = l) as -> by congruence. assert (u' = u) as -> by congruence. clear EL' EU'.
    assert (Eq : match i with
       | Point pt => do c <- tree_contains dbg s pt; Ok (if c then tree_from_raw_interval i else tree_new)
       | _ => match tine_from_raw_interval i with
              | [] => Ok tree_new
              | [TPoint (Include p)] => do c <- tree_contains dbg s p; Ok (if c then tree_from_raw_interval (Point p) else tree_new)
              | [l; u] => intersect_proper_interval dbg l u s
              | _ => Panic
              end
       end = intersect_proper_interval dbg (TLower l) (TUpper u) s).
    { rewrite E. destruct i; try contradiction; reflexivity. }
    rewrite Eq. clear Eq.
    destruct (split2_at (loc (TLower l)) (loc (TUpper u)) s) as [L C R c0 vl c1 c2 vu c3 -> A A' HL HC HR BL AC BC AR SL SC SR];
      auto using loc_tine.
    unfold isect_fine. destruct (near_split l u L C R c0 vl c1 c2 vu c3) as [-> ->]; auto.
    rewrite <- (isect_proper_right dbg l u L C R c0 vl c1 c2 vu c3) by auto.
    set (want := opt (mk (loc (TLower l)) false (vl && incl_b l) c1) ++ C ++ opt (mk (loc (TUpper u)) c2 (vu && incl_b u) false)).
    assert (A1 : allowed (loc (TLower l)) false (vl && incl_b l) c1).
    { destruct l; simpl in *; auto. destruct A as [-> ->]. rewrite andb_true_r. auto. }
    assert (A2 : allowed (loc (TUpper u)) c2 (vu && incl_b u) false).
    { destruct u; simpl in *; auto. destruct A' as [-> ->]. rewrite andb_true_r. auto. }
    assert (HC0 : chain false (@nil (Tine T)) false = true) by reflexivity.
    assert (Ww : wf want).
    { generalize (wf_split2 (loc (TLower l)) (loc (TUpper u)) [] C [] false (vl && incl_b l) c1 c2 (vu && incl_b u) false).
      simpl. unfold want. rewrite app_nil_r. intros X. apply X; auto; constructor. }
    assert (Dw : forall p, den false want p =
      den false (L ++ opt (mk (loc (TLower l)) c0 vl c1) ++ C ++ opt (mk (loc (TUpper u)) c2 vu c3) ++ R) p && covers i p).
    { intros p. rewrite (den_split2 p (loc (TLower l)) (loc (TUpper u)) L C R c0 vl c1 c2 vu c3) by auto.
      generalize (den_split2 p (loc (TLower l)) (loc (TUpper u)) [] C [] false (vl && incl_b l) c1 c2 (vu && incl_b u) false).
      simpl. rewrite app_nil_r. fold want. intros ->; auto; try constructor. rewrite Hcov.
      destruct (cmp p (loc (TLower l))), (cmp p (loc (TUpper u))); rewrite ?andb_false_r, ?andb_true_r; auto. }
    split.
    - intros (s' & E' & W' & D'). rewrite E'. f_equal. apply den_ext; auto. intros p. now rewrite D', Dw.
    - intros E'. exists want. auto.
  Qed.

  (** The easy cases. *)
  Lemma isect_in_place_easy dbg s i : wf s -> ~ proper i ->
    exists s', tree_intersect_in_place dbg s i = Ok s' /\ wf s' /\ forall p, den false s' p = den false s p && covers i p.
  Proof.
    intros W NP. unfold tree_intersect_in_place.
    destruct (tree_is_empty s) eqn:Es.
    { destruct s; [|discriminate]. exists []. auto. }
    cbn [orb]. destruct i; try (exfalso; apply NP; exact I); cbn [raw_is_full raw_is_empty].
    - exists []. split; auto. split; [apply new_wf|]. intros p. now rewrite covers_empty, andb_false_r.
    - rewrite tree_contains_den by auto. cbn [bind]. eexists. split; [reflexivity|].
      destruct (from_raw_wf (Point p) I) as (W1 & E1 & D1). rewrite E1.
      destruct (den false s (At p)) eqn:D.
      + split; auto. intros q. rewrite D1, covers_point. destruct (cmp q (At p)) eqn:Eq; rewrite ?andb_false_r; auto.
        apply cmp_eq in Eq. subst q. now rewrite D.
      + split; [apply new_wf|]. intros q. rewrite covers_point. destruct (cmp q (At p)) eqn:Eq; rewrite ?andb_false_r; auto.
        apply cmp_eq in Eq. subst q. now rewrite D.
    - exists s. split; auto. split; auto. intros p. now rewrite covers_full, andb_true_r.
  Qed.

  Lemma isect_in_place_empty dbg i : tree_intersect_in_place dbg [] i = Ok (@nil (Tine T)).
  Proof. reflexivity. Qed.

  (** ** minus of trees *)
  Definition end_of i (x : T) : Prop :=
    match raw_lower_bound i with Some (Include y) | Some (Exclude y) => x = y | _ => False end \/
    match raw_upper_bound i with Some (Include y) | Some (Exclude y) => x = y | _ => False end.

  Lemma minus_in_place_clean dbg s i : wf s -> raw_wf i -> (forall x, end_of i x -> rim s x = false) ->
    exists s', tree_minus_in_place dbg s i = Ok s' /\ wf s' /\ forall p, den false s' p = den false s p && negb (covers i p).
  Proof.
    intros W Wi H.
    assert (D : (exists x, i = Point x) \/ (forall x, i <> Point x)) by (destruct i; eauto; right; discriminate).
    destruct D as [[x ->]|NP].
    - apply minus_in_place_point; auto. apply H. now left.
    - destruct (minus_in_place_proper dbg s i W Wi NP) as (s' & E & W' & D). exists s'. split; auto. split; auto.
      intros p. rewrite D.
      assert (Hh : forall x, end_of i x -> hole s x = false).
      { intros x Hx. specialize (H x Hx). unfold hole, rim in *. destruct (den false s (At x)), (den false s (Lo x)), (den false s (Hi x)); auto. }
      unfold end_of in Hh.
      assert (F : match raw_lower_bound i, raw_upper_bound i with Some l, Some u => fills s l p || fills s u p | _, _ => false end = false).
      { destruct (raw_lower_bound i) as [l|]; auto. destruct (raw_upper_bound i) as [u|]; auto.
        apply orb_false_iff; split.
        - destruct l as [x|x|]; auto; unfold fills; rewrite Hh by auto; now destruct (cmp p (At x)).
        - destruct u as [x|x|]; auto; unfold fills; rewrite Hh by auto; now destruct (cmp p (At x)). }
      now rewrite F, orb_false_r.
  Qed.

  Lemma separated_rim s s' i j x : raw_wf i -> raw_wf j -> separated i j -> end_of j x -> rim s x = false ->
    (forall p, den false s' p = den false s p && negb (covers i p)) -> rim s' x = false.
  Proof.
    intros Wi Wj Sep E R D. unfold rim in *. rewrite !D.
    destruct (raw_bounds_cases i) as [(-> & _)|(l & u & EL & EU)]; [now rewrite !covers_empty, !andb_true_r|].
    destruct (raw_bounds_cases j) as [(-> & _)|(l' & u' & EL' & EU')]; [destruct E as [E|E]; contradiction|].
    pose proof (raw_wf_pos i l u Wi EL EU) as Hwi. pose proof (raw_wf_pos j l' u' Wj EL' EU') as Hwj.
    unfold separated in Sep. rewrite EU, EL' in Sep. unfold end_of in E. rewrite EL', EU' in E.
    unfold covers. rewrite EL, EU.
    assert (K : (leb (At x) (upos u) = false /\ leb (Hi x) (upos u) = false) /\
                (leb (Lo x) (upos u) = false \/ upos u = Lo x)).
    { clear D R EL EU EL' EU' Wi Wj Hwi. destruct u as [a|a|], l' as [b|b|]; try contradiction; simpl in *;
        destruct E as [E|E]; subst;
        try (destruct u' as [c|c|]; try contradiction; subst; simpl in * );
        repeat match goal with |- _ /\ _ => split end; try porder; 
        first [ left; porder | right; f_equal; porder | destruct (cmp a b) eqn:Ecmp; [right; f_equal; porder|left; porder|left; porder] ]. }
    destruct K as ((K1 & K2) & K3). rewrite K1, K2, !andb_false_r. cbn [negb]. rewrite !andb_true_r.
    destruct K3 as [K3|K3].
    - rewrite K3, andb_false_r. cbn [negb]. now rewrite andb_true_r.
    - rewrite K3. rewrite K3 in Hwi.
      assert (X : leb (lpos l) (Lo x) = true) by now apply leb_iff.
      assert (Y : leb (Lo x) (Lo x) = true) by porder.
      rewrite X, Y. cbn. rewrite andb_false_r. cbn.
      destruct (den false s (At x)), (den false s (Lo x)), (den false s (Hi x)); auto.
  Qed.

  Lemma minus_fold_ok dbg l : forall s, wf s -> Forall raw_wf l -> StronglySorted separated l ->
    (forall i x, In i l -> end_of i x -> rim s x = false) ->
    exists s', mfold (fun acc i => tree_minus_in_place dbg acc i) l s = Ok s' /\ wf s' /\
      forall p, den false s' p = den false s p && negb (lcovers l p).
  Proof.
    induction l as [|i l IH]; intros s W Wl Sl H; simpl.
    - exists s. split; auto. split; auto. intros p. now rewrite andb_true_r.
    - inversion Wl as [|? ? Wi Wl']; subst. inversion Sl as [|? ? Sl' Si]; subst. rewrite Forall_forall in Si.
      destruct (minus_in_place_clean dbg s i W Wi) as (s1 & E1 & W1 & D1).
      { intros x Hx. apply (H i); auto. now left. }
      rewrite E1. cbn [bind]. destruct (IH s1 W1 Wl' Sl') as (s2 & E2 & W2 & D2).
      { intros j x Hj Hx. rewrite Forall_forall in Wl'. apply (separated_rim s s1 i j x); auto. apply (H j); auto. now right. }
      exists s2. split; auto. split; auto. intros p. rewrite D2, D1. now rewrite negb_orb, andb_assoc.
  Qed.

  Lemma tree_minus_ok dbg s s' : wf s -> wf s' ->
    (forall i x, In i (pieces None s') -> end_of i x -> rim s x = false) ->
    exists r, tree_minus dbg s s' = Ok r /\ wf r /\ forall p, den false r p = den false s p && negb (den false s' p).
  Proof.
    intros W W' H. unfold tree_minus. rewrite tree_fold_pieces by auto.
    destruct (minus_fold_ok dbg (pieces None s') s W (pieces_wf s' None)) as (r & E & Wr & D); auto.
    { destruct W'. apply pieces_separated; auto. discriminate. }
    exists r. split; auto. split; auto. intros p. now rewrite D, pieces_den.
  Qed.

  (** ** intersect of trees *)
  Definition st s o : Iter T := {| tine_iter := s; saved_lower := o; saved_upper := None |}.
  Definition stok s (o : option (Tine T)) : Prop := chain (has o) s false = true /\ pend_ok o.

  Lemma segment_ok dbg i : raw_wf i -> forall fuel s o acc, stok s o ->
    (length s + (if has o then 1 else 0) < fuel)%nat -> wf acc ->
    exists acc' s' o' e l1 l2, intersect_segment fuel dbg i (st s o) acc = Ok (acc', st s' o', e) /\
      wf acc' /\ stok s' o' /\ (length s' + (if has o' then 1 else 0) <= length s + (if has o then 1 else 0))%nat /\
      pieces o s = l1 ++ l2 ++ pieces o' s' /\ (length l2 <= 1)%nat /\
      (e = true -> l2 = [] /\ pieces o' s' = []) /\
      (e = false -> exists j, l2 = [j] /\ raw_is_empty (raw_intersect i j) = true) /\
      Forall (fun j => raw_is_empty (raw_intersect i j) = false) l1 /\
      forall p, den false acc' p = den false acc p || (covers i p && lcovers l1 p).
  Proof.
    intros Wi. induction fuel as [|fuel IH]; intros s o acc [H P] F Wa; [lia|].
    generalize (iter_next_pieces dbg s o H P). cbn [intersect_segment]. unfold st.
    destruct (pieces o s) as [|j l] eqn:Ep.
    - intros [-> ->]. rewrite iter_next_none. cbn [bind]. exists acc, [], None, true, [], [].
      repeat match goal with |- _ /\ _ => split end; auto; try discriminate; try (split; [exact H|discriminate]).
      intros p. simpl. now rewrite andb_false_r, orb_false_r.
    - intros (s' & o' & H' & P' & -> & F' & _ & ->). cbn [bind].
      destruct (raw_is_empty (raw_intersect i j)) eqn:Ek.
      + exists acc, s', o', false, [], [j]. repeat match goal with |- _ /\ _ => split end; auto; try discriminate; try lia.
        * split; auto.
        * intros _. exists j. auto.
        * intros p. simpl. now rewrite andb_false_r, orb_false_r.
      + destruct (union_in_place_ok dbg acc (raw_intersect i j) Wa (raw_intersect_wf i j)) as (a1 & E1 & W1 & D1).
        rewrite E1. cbn [bind].
        destruct (IH s' o' a1) as (acc' & s2 & o2 & e & l1 & l2 & E2 & W2 & K2 & F2 & P2 & L2 & T2 & N2 & A2 & D2); auto; [split; auto|lia|].
        exists acc', s2, o2, e, (j :: l1), l2. rewrite P2. repeat match goal with |- _ /\ _ => split end; auto; try lia.
        intros p. rewrite D2, D1, raw_intersect_covers. simpl. destruct (covers i p), (covers j p), (den false acc p); auto.
  Qed.

  Lemma intersect_loop_ok dbg : forall fuel s o s2 o2 acc, stok s o -> stok s2 o2 ->
    (length s + (if has o then 1 else 0) < fuel)%nat -> wf acc ->
    exists r, intersect_loop fuel dbg (st s o) (st s2 o2) acc = Ok r /\ wf r /\
      (forall p, den false r p = true -> den false acc p = true \/ (lcovers (pieces o s) p = true /\ lcovers (pieces o2 s2) p = true)) /\
      (forall p, den false acc p = true -> den false r p = true).
  Proof.
    induction fuel as [|fuel IH]; intros s o s2 o2 acc [H P] K2 F Wa; [lia|].
    generalize (iter_next_pieces dbg s o H P). generalize (pieces_wf s o). cbn [intersect_loop]. unfold st at 1.
    destruct (pieces o s) as [|i l] eqn:Ep.
    - intros _ [-> ->]. rewrite iter_next_none. cbn [bind]. exists acc. split; [reflexivity|]. split; [auto|]. split; intros p Hp; auto.
    - intros Wl (s' & o' & H' & P' & -> & F' & _ & ->). cbn [bind]. inversion Wl; subst.
      destruct (segment_ok dbg i ltac:(auto) (S (iter_size (st s2 o2))) s2 o2 acc K2) as
        (acc' & s3 & o3 & e & l1 & l2 & E & W' & K3 & F3 & P3 & L2 & T3 & N3 & A3 & D3); auto.
      { unfold iter_size, st; simpl. destruct o2; simpl; lia. }
      rewrite E. cbn [bind]. destruct e.
      + exists acc'. split; auto. split; auto. split.
        * intros p Hp. rewrite D3 in Hp. apply orb_true_iff in Hp as [Hp|Hp]; auto. right.
          apply andb_true_iff in Hp as [Hi Hl]. simpl. rewrite Hi. split; auto. rewrite P3, lcovers_app, Hl. reflexivity.
        * intros p Hp. now rewrite D3, Hp.
      + destruct (IH s' o' s3 o3 acc') as (r & Er & Wr & D1 & D2); auto; [split; auto|lia|].
        exists r. split; auto. split; auto. split.
        * intros p Hp. destruct (D1 p Hp) as [X|[X Y]].
          -- rewrite D3 in X. apply orb_true_iff in X as [X|X]; auto. right.
             apply andb_true_iff in X as [Hi Hl]. simpl. rewrite Hi. split; auto. rewrite P3, lcovers_app, Hl. reflexivity.
          -- right. simpl. fold (lcovers (pieces o' s') p). rewrite X, orb_true_r. split; auto. rewrite P3, !lcovers_app, Y. now rewrite !orb_true_r.
        * intros p Hp. apply D2. now rewrite D3, Hp.
  Qed.

  Lemma tree_intersect_sound dbg s s' : wf s -> wf s' ->
    exists r, tree_intersect dbg s s' = Ok r /\ wf r /\
      forall p, den false r p = true -> den false s p = true /\ den false s' p = true.
  Proof.
    intros W W'. destruct (intersect_loop_ok dbg (S (iter_size (st s None))) s None s' None tree_new) as (r & E & Wr & D & _).
    - destruct W. split; auto. discriminate.
    - destruct W'. split; auto. discriminate.
    - unfold iter_size, st; simpl; lia.
    - apply new_wf.
    - exists r. split; [exact E|]. split; auto. intros p Hp. destruct (D p Hp) as [X|[X Y]]; [discriminate|].
      now rewrite <- (pieces_den s), <- (pieces_den s').
  Qed.

  (** Exact when [self] is one interval that every interval of [other] meets. *)
  Lemma tree_intersect_single dbg s s' i : wf s -> wf s' -> pieces None s = [i] ->
    Forall (fun j => raw_is_empty (raw_intersect i j) = false) (pieces None s') ->
    exists r, tree_intersect dbg s s' = Ok r /\ wf r /\
      forall p, den false r p = den false s p && den false s' p.
  Proof.
    intros W W' Ei All. unfold tree_intersect, tree_interval_iter.
    assert (Wi : raw_wf i) by (generalize (pieces_wf s None); rewrite Ei; intros X; now inversion X).
    generalize (iter_next_pieces dbg s None ltac:(destruct W; auto) ltac:(discriminate)). cbn [intersect_loop].
    rewrite Ei. intros (s1 & o1 & H1 & P1 & E1 & F1 & _ & Eq). rewrite Eq. cbn [bind].
    destruct (segment_ok dbg i Wi (S (iter_size (st s' None))) s' None tree_new) as
        (acc' & s3 & o3 & e & l1 & l2 & E & Wr & K3 & F3 & P3 & L2 & T3 & N3 & A3 & D3).
    - destruct W'. split; auto. discriminate.
    - unfold iter_size, st; simpl; lia.
    - apply new_wf.
    - fold (st s' None). rewrite E. cbn [bind].
      assert (e = true) as ->.
      { destruct e; auto. exfalso. destruct (N3 eq_refl) as (j & -> & Ej). rewrite Forall_forall in All.
        rewrite All in Ej; [discriminate|]. rewrite P3. apply in_or_app. right. simpl. auto. }
      exists acc'. split; auto. split; auto. intros p. rewrite D3. simpl.
      rewrite <- (pieces_den s), <- (pieces_den s') by auto. rewrite Ei, P3. destruct (T3 eq_refl) as [-> ->].
      rewrite app_nil_r. simpl. now rewrite orb_false_r.
  Qed.

  (** ** enclose *)
  Lemma first_den s t p : wf (t :: s) -> den false (t :: s) p = true -> le (lpos (tine_into_inner t)) p.
  Proof.
    intros [S H] D. apply chain_cons in H as (K & U & H). cbn [den] in D.
    destruct (cmp p (loc t)) eqn:E; try discriminate;
      destruct t as [[x|x|]|[x|x|]|[x|x|]]; simpl in *; try discriminate; unfold loc, atv in *; simpl in *; try discriminate; porder.
  Qed.
  Lemma last_den s t p : wf (s ++ [t]) -> den false (s ++ [t]) p = true -> le p (upos (tine_into_inner t)).
  Proof.
    intros [S H] D. apply srt_app in S as (S1 & _ & S2). apply chain_app in H as (m & H1 & H2).
    apply chain_cons in H2 as (K & U & H2). simpl in H2. apply eqb_prop in H2.
    assert (BL : bl (loc t) s).
    { pose proof (chain_ok _ _ _ H1) as Oks. unfold bl. rewrite Forall_forall in *. intros w Hw. split; auto.
      specialize (S2 w Hw). now inversion S2. }
    destruct (tine_is_mk t K) as [Et A].
    rewrite <- (app_nil_r (s ++ [t])), <- app_assoc in D. change ([t] ++ []) with (opt (Some t) ++ []) in D. rewrite Et in D.
    rewrite (den_split false s _ [] p (loc t) (is_upper_bound t) (atv t) (is_lower_bound t)) in D; auto; [|now rewrite U|constructor].
    destruct (cmp p (loc t)) eqn:E; try (cbn [den] in D; congruence);
      destruct t as [[x|x|]|[x|x|]|[x|x|]]; simpl in *; try discriminate; unfold loc, atv in *; simpl in *; try discriminate; porder.
  Qed.

  (** The lowest and highest covered positions. *)
  Lemma first_covered s t : wf (t :: s) -> den false (t :: s) (lpos (tine_into_inner t)) = true.
  Proof.
    intros [S H]. apply chain_cons in H as (K & U & H). inversion S as [|? ? S1 S2]; subst.
    pose proof (chain_ok _ _ _ H) as Oks. rewrite Forall_forall in S2, Oks.
    cbn [den]. destruct t as [[x|x|]|[x|x|]|[x|x|]]; simpl in U, K; try discriminate; unfold loc at 1; cbn [tine_into_inner lpos];
      rewrite ?cmp_refl; auto.
    assert (E : cmp (Hi x) (At x) = Gt) by (apply cmp_gt_lt; porder). rewrite E. apply den_low. intros w Hw. apply loc_Hi. now apply S2.
  Qed.
  Lemma last_covered s t : wf (s ++ [t]) -> den false (s ++ [t]) (upos (tine_into_inner t)) = true.
  Proof.
    intros [S H]. apply srt_app in S as (S1 & _ & S2). apply chain_app in H as (m & H1 & H2).
    apply chain_cons in H2 as (K & U & H2). simpl in H2. apply eqb_prop in H2.
    assert (BL : bl (loc t) s).
    { pose proof (chain_ok _ _ _ H1) as Oks. unfold bl. rewrite Forall_forall in *. intros w Hw. split; auto.
      specialize (S2 w Hw). now inversion S2. }
    destruct (tine_is_mk t K) as [Et A].
    rewrite <- (app_nil_r (s ++ [t])), <- app_assoc. change ([t] ++ []) with (opt (Some t) ++ []). rewrite Et at 1.
    rewrite (den_split false s _ [] _ (loc t) (is_upper_bound t) (atv t) (is_lower_bound t)); auto; [|now rewrite U|constructor].
    destruct t as [[x|x|]|[x|x|]|[x|x|]]; simpl in *; try discriminate; unfold loc, atv in *; simpl in *;
      rewrite ?cmp_refl; auto.
    assert (E : cmp (Lo x) (At x) = Lt) by (assert (lt (Lo x) (At x)) by porder; auto). rewrite E. rewrite (den_high false s (Lo x) true); auto.
    - intros w Hw. apply loc_Lo. now apply (bl_in (At x) s).
    - first [now rewrite U | rewrite <- U in H1; exact H1 | idtac].
  Qed.

  Lemma enclose_ok dbg s : wf s ->
    exists i, tree_enclose dbg s = Ok i /\ raw_wf i /\ (raw_is_empty i = true <-> s = []) /\
      (forall p, den false s p = true -> covers i p = true) /\
      (forall p, covers i p = true -> exists q r, den false s q = true /\ den false s r = true /\ le q p /\ le p r).
  Proof.
    intros W. destruct s as [|t s].
    { exists Empty. split; auto. split; simpl; auto. split; [tauto|]. split; intros p H; discriminate. }
    destruct (snoc_cases s) as [->|(s' & u & ->)].
    - assert (Et : exists x, t = TPoint (Include x)).
      { destruct W as [_ H]. apply chain_cons in H as (K & U & H). destruct t as [[]|[]|[]]; simpl in *; try discriminate; eauto. }
      destruct Et as [x ->]. exists (Point x). split; [destruct dbg; reflexivity|]. split; simpl; auto.
      split; [split; discriminate|]. change (loc (TPoint (Include x))) with (At x). split.
      + intros p. rewrite covers_point. destruct (cmp p (At x)); auto.
      + intros p. rewrite covers_point. destruct (cmp p (At x)) eqn:E; try discriminate. apply cmp_eq in E. subst p.
        intros _. exists (At x), (At x). rewrite cmp_refl. repeat split; auto; porder.
    - change (t :: s' ++ [u]) with ((t :: s') ++ [u]) in *.
      assert (F := first_den (s' ++ [u]) t). assert (Lst := last_den (t :: s') u).
      assert (FC := first_covered (s' ++ [u]) t). assert (LC := last_covered (t :: s') u).
      change (t :: s' ++ [u]) with ((t :: s') ++ [u]) in *.
      assert (HB : le (lpos (tine_into_inner t)) (upos (tine_into_inner u))).
      { destruct W as [S H]. pose proof (chain_ok _ _ _ H) as Oks. apply chain_app in H as (m & H1 & H2).
        apply chain_cons in H1 as (K & U & _). apply chain_cons in H2 as (K' & U' & L'). simpl in L'. apply eqb_prop in L'.
        inversion S as [|? ? S1 S2]; subst. apply Forall_app in S2 as [_ S2]. inversion S2 as [|? ? Hlt _]; subst.
        destruct t as [[x|x|]|[x|x|]|[x|x|]], u as [[y|y|]|[y|y|]|[y|y|]]; simpl in *; try discriminate;
          unfold loc in *; simpl in *; porder. }
      exists (raw_new (tine_into_inner t) (tine_into_inner u)). split.
      { simpl. destruct (s' ++ [u]) as [|w s1] eqn:E; [destruct s'; discriminate|]. rewrite <- E, last_app_one.
        reflexivity. }
      split; [apply raw_new_wf|]. split.
      { rewrite raw_new_nonempty by auto. split; [discriminate|]. destruct s'; discriminate. }
      split; intros p Hp; rewrite raw_new_covers in * by auto.
      + apply andb_true_iff. rewrite !leb_iff. split; auto.
      + apply andb_true_iff in Hp as [X Y]. rewrite leb_iff in X, Y. exists (lpos (tine_into_inner t)), (upos (tine_into_inner u)).
        repeat split; auto.
  Qed.
End PTree5.

(** * Sets, queries and programs commute with reversing the order *)
From Coq Require Import List Bool Sorted Lia.
From Verif Require Import Base OrdFacts Pos MBound MRaw MNormalize MInterval MTine MBTree MTineTree MSelection
  Spec Spec_Tree Spec_Sel Spec_Key Spec_Mirror PRaw PRaw2 PBTree PTree PTree2 PTree3 PTree4 PTree6 PTree7 PSel PSel2 PSel3 PMirror PMirror2.
Import ListNotations.
Local Arguments cmp : simpl never.

Section PMirror3.
  Context {T U : Type} {OT : Ord T} {OU : Ord U} (f : T -> U) (H : reverses f).
  Notation mb := (bound_key f).
  Notation mr := (raw_mirror f).
  Notation mt := (tine_mirror f).
  Notation ms := (tree_mirror f).
  Notation mp := (mp f).
  Implicit Types (i j : RawInterval T) (t u : Tine T) (s m L R C : list (Tine T)).

  Lemma m_chain s : forall b c, chain c (ms s) b = chain b s c.
  Proof.
    assert (G : forall s b c, chain b s c = true -> chain c (ms s) b = true).
    { clear s. intros s. induction s as [|t s IH]; intros b c C.
      - simpl in *. apply eqb_prop in C. subst. apply eqb_reflx.
      - apply chain_cons in C as (K & X & C). rewrite m_cons. apply chain_app. exists (is_lower_bound t). split; [now apply IH|].
        simpl. rewrite m_okt, m_is_upper, m_is_lower, K, X, !eqb_reflx. reflexivity. }
    (* the converse by the same induction from the other end *)
    assert (G' : forall s b c, chain c (ms s) b = true -> chain b s c = true).
    { clear s. intros s. induction s as [|t s IH]; intros b c C.
      - simpl in *. apply eqb_prop in C. subst. apply eqb_reflx.
      - rewrite m_cons in C. apply chain_app in C as (e & C & X). simpl in X. rewrite m_okt, m_is_upper, m_is_lower in X.
        apply andb_true_iff in X as [X Y]. apply andb_true_iff in X as [K X]. apply eqb_prop in X, Y. subst.
        simpl. rewrite K, eqb_reflx. simpl. now apply IH. }
    intros b c. destruct (chain b s c) eqn:E; [now apply G|]. destruct (chain c (ms s) b) eqn:E'; auto.
    apply G' in E'. congruence.
  Qed.
  Lemma m_wf_tree s : wf s -> wf (ms s).
  Proof. intros W. destruct (m_asc f H s (wf_asc s W)) as [S _]. destruct W as [_ C]. split; auto. now rewrite m_chain. Qed.

  Lemma m_atv t : atv (mt t) = atv t.
  Proof. now destruct t as [[]|[]|[]]. Qed.
  Lemma m_den s : forall b c p, asc s -> chain b s c = true -> den c (ms s) (mp p) = den b s p.
  Proof.
    induction s as [|t s IH]; intros b c p A C.
    - simpl in *. apply eqb_prop in C. now subst.
    - destruct (A) as [S Kall]. apply chain_cons in C as (K & X & C).
      assert (A' : asc s) by (change (t :: s) with ([t] ++ s) in A; now apply asc_app in A).
      assert (Ab : ab (loc t) s).
      { change (t :: s) with ([t] ++ s) in A. apply asc_app in A as (_ & [_ K'] & Y). inversion Y as [|? ? Y1 _]; subst.
        unfold ab. rewrite Forall_forall in *. intros v Hv. split; auto. }
      rewrite m_cons. destruct (tine_is_mk (mt t)) as [E Al]; [now rewrite m_okt|].
      rewrite m_loc in E, Al by auto.
      change (ms s ++ [mt t]) with (ms s ++ opt (Some (mt t)) ++ []).
      rewrite (den_split c (ms s) _ [] (mp p) (mp (loc t)) _ _ _ Al E); [|rewrite m_is_upper, m_chain; auto|now apply m_ab|constructor].
      rewrite m_pos, m_atv, m_is_lower by auto.
      destruct (tine_is_mk t K) as [E' Al'].
      change (den b (t :: s) p) with (den b ([] ++ opt (Some t) ++ s) p).
      rewrite (den_split b [] _ s p (loc t) _ _ _ Al' E'); [|rewrite X; apply eqb_reflx|constructor|auto].
      rewrite (cmp_antisym p (loc t)). destruct (cmp p (loc t)) eqn:Ec; cbn [CompOpp]; auto; cbn [den]; auto.
  Qed.
  Lemma m_tree_contains dbg s x : wf s -> tree_contains dbg (ms s) (f x) = tree_contains dbg s x.
  Proof.
    intros W. rewrite !tree_contains_den by auto using m_wf_tree. f_equal. change (At (f x)) with (mp (At x)).
    apply m_den; [now apply wf_asc|apply W].
  Qed.

  (** *** Intervals *)
  Fixpoint pend_after (o : option (Tine T)) s : option (Tine T) :=
    match s with
    | [] => o
    | t :: s' =>
        match o with
        | None => match t with TPoint (Include _) => pend_after None s' | _ => pend_after (Some t) s' end
        | Some _ => pend_after (if is_point_exclude t then Some t else None) s'
        end
    end.
End PMirror3.
Section Pend.
  Context {T : Type} {OT : Ord T}.
  Implicit Types (i j : RawInterval T) (t u : Tine T) (s m L R C : list (Tine T)).
  Lemma pieces_cat s : forall o R, pieces o (s ++ R) = pieces o s ++ pieces (pend_after o s) R.
  Proof.
    induction s as [|t s IH]; intros o R; [destruct o; reflexivity|]. cbn [app pieces pend_after].
    destruct o as [l|]; [now rewrite IH|]. destruct t as [[]|[]|[]]; now rewrite ?IH.
  Qed.
  Lemma pend_has s : forall o c, chain (has o) s c = true -> has (pend_after o s) = c.
  Proof.
    induction s as [|t s IH]; intros o c C; [simpl in C; now apply eqb_prop in C|]. apply chain_cons in C as (K & X & C).
    cbn [pend_after]. destruct o as [l|]; cbn [has] in X.
    - apply IH. destruct t as [[]|[]|[]]; try discriminate; exact C.
    - destruct t as [[]|[]|[]]; try discriminate; apply IH; exact C.
  Qed.
  Lemma pend_snoc s t : forall o, has (pend_after o s) = true -> is_point_exclude t = true -> pend_after o (s ++ [t]) = Some t.
  Proof.
    induction s as [|u s IH]; intros o Hh X.
    - simpl in *. destruct o; [|discriminate]. now rewrite X.
    - cbn [app pend_after] in *. destruct o as [l|]; [now apply IH|]. destruct u as [[]|[]|[]]; now apply IH.
  Qed.
  Lemma pend_open s t : forall o, has (pend_after o s) = false -> okt t = true -> is_upper_bound t = false -> is_lower_bound t = true ->
    pend_after o (s ++ [t]) = Some t.
  Proof.
    induction s as [|u s IH]; intros o Hh K X Y.
    - simpl in *. destruct o; [discriminate|]. now destruct t as [[]|[]|[]].
    - cbn [app pend_after] in *. destruct o as [l|]; [now apply IH|]. destruct u as [[]|[]|[]]; now apply IH.
  Qed.
End Pend.

Section PMirror4.
  Context {T U : Type} {OT : Ord T} {OU : Ord U} (f : T -> U) (H : reverses f).
  Notation mb := (bound_key f).
  Notation mr := (raw_mirror f).
  Notation mt := (tine_mirror f).
  Notation ms := (tree_mirror f).
  Implicit Types (i j : RawInterval T) (t u : Tine T) (s m L R C : list (Tine T)).

  Lemma m_inner t : tine_into_inner (mt t) = mb (tine_into_inner t).
  Proof. now destruct t. Qed.
  Lemma m_pieces_gen s : forall (o c : option (Tine T)), pend_ok o -> chain (has o) s (has c) = true ->
    (forall t, c = Some t -> is_upper_bound t = true /\ okt t = true) ->
    pieces (option_map mt c) (ms s ++ opt (option_map mt o)) = rev (map mr (pieces o (s ++ opt c))).
  Proof.
    induction s as [|t s IH]; intros o c P C Q.
    - cbn [tree_mirror map rev app]. simpl in C. apply eqb_prop in C. destruct o as [l|], c as [u|]; try discriminate; [|reflexivity].
      cbn. rewrite !m_inner, (m_new f H). now destruct (is_point_exclude u), (is_point_exclude (mt l)).
    - apply chain_cons in C as (K & X & C). rewrite m_cons, <- app_assoc.
      assert (Hc : has (option_map mt c) = has c) by now destruct c.
      assert (Hp : forall b, chain b s (has c) = true -> has (pend_after (option_map mt c) (ms s)) = b).
      { intros b Cb. apply pend_has. now rewrite Hc, m_chain. }
      destruct o as [l|]; cbn [has] in X.
      + (* closed by [t] *)
        cbn [app pieces option_map opt]. destruct (is_point_exclude t) eqn:Ex.
        * assert (Y : is_lower_bound t = true) by (destruct t as [[]|[]|[]]; auto; discriminate). rewrite Y in C.
          change (ms s ++ [mt t; mt l]) with (ms s ++ [mt t] ++ [mt l]). rewrite app_assoc, pieces_cat, pend_snoc; [|now apply Hp|now rewrite m_is_point_exclude].
          change [mt t] with (opt (option_map mt (Some t))).
          rewrite (IH (Some t) c); [|intros ? [= <-]; auto|auto|auto].
          cbn [pieces map rev]. rewrite !m_inner, (m_new f H). now destruct (is_point_exclude (mt l)).
        * assert (Y : is_lower_bound t = false) by (destruct t as [[]|[]|[]]; auto; discriminate). rewrite Y in C.
          rewrite pieces_cat. specialize (IH None c ltac:(intros ? [=]) C Q). cbn [option_map opt] in IH. rewrite app_nil_r in IH.
          rewrite IH. specialize (Hp _ C). destruct (pend_after (option_map mt c) (ms s)); [discriminate|].
          cbn [map rev]. f_equal. destruct t as [[]|[]|[]]; try discriminate; cbn; rewrite ?m_inner;
            rewrite <- (m_new f H); cbn; now destruct (is_point_exclude (mt l)).
      + destruct (is_lower_bound t) eqn:Y.
        * change ([mt t] ++ opt (option_map mt None)) with (opt (option_map mt (Some t))).
          rewrite (IH (Some t) c); [|intros ? [= <-]; auto|auto|auto].
          now destruct t as [[]|[]|[]].
        * assert (exists x, t = TPoint (Include x)) as [x ->] by (destruct t as [[]|[]|[]]; try discriminate; eauto).
          rewrite pieces_cat. specialize (IH None c ltac:(intros ? [=]) C Q). cbn [option_map opt] in IH. rewrite app_nil_r in IH.
          rewrite IH. specialize (Hp _ C). destruct (pend_after (option_map mt c) (ms s)); [discriminate|]. reflexivity.
  Qed.
  Lemma m_pieces s : wf s -> pieces None (ms s) = raws_mirror f (pieces None s).
  Proof.
    intros [_ C]. specialize (m_pieces_gen s None None ltac:(intros ? [=]) C ltac:(intros ? [=])).
    cbn [option_map opt]. now rewrite !app_nil_r.
  Qed.

  (** *** Whole trees *)
  Lemma m_tree_extend dbg l : forall s, Forall raw_wf l -> asc s ->
    tree_extend dbg (ms s) (map mr l) = res_key ms (tree_extend dbg s l) /\
    (forall r, tree_extend dbg s l = Ok r -> asc r).
  Proof.
    induction l as [|i l IH]; intros s F A; cbn [map tree_extend].
    - split; [reflexivity|]. now intros r [= <-].
    - inversion F as [|? ? Fi Fl]; subst. destruct (m_tree_union_in_place f H dbg s i Fi A) as [E A'].
      rewrite E. destruct (tree_union_in_place dbg s i) as [s'|]; cbn [res_key bind]; [|now split].
      apply IH; auto.
  Qed.
  Lemma extend_rev dbg s (l : list (RawInterval U)) (s' : TineTree U) : s' = ms s -> wf s -> Forall raw_wf l -> tree_extend dbg s' (rev l) = tree_extend dbg s' l.
  Proof.
    intros -> W F. apply (m_wf_tree f H) in W. destruct (extend_ok dbg l _ W F) as (r & -> & Wr & D).
    destruct (extend_ok dbg (rev l) (ms s) W (Forall_rev F)) as (r' & -> & Wr' & D'). f_equal. apply den_ext; auto.
    intros p. rewrite D, D'. f_equal. unfold lcovers. apply eq_true_iff_eq. rewrite !existsb_exists.
    split; intros (x & Hx & E); exists x; split; auto; [now apply in_rev|now apply in_rev in Hx].
  Qed.
  Lemma m_tree_union dbg s s' : wf s -> wf s' -> tree_union dbg (ms s) (ms s') = res_key ms (tree_union dbg s s').
  Proof.
    intros W W'. rewrite !tree_union_extend by (auto; now apply m_wf_tree). rewrite m_pieces by auto. unfold raws_mirror.
    assert (F : Forall raw_wf (pieces None s')) by apply pieces_wf.
    rewrite (extend_rev dbg s); auto.
    - now apply m_tree_extend; auto; apply wf_asc.
    - rewrite Forall_forall in *. intros x Hx. apply in_map_iff in Hx as (y & <- & Hy). apply (m_wf f H); auto.
  Qed.
  Lemma m_tree_is_full s : tree_is_full (ms s) = tree_is_full s.
  Proof. destruct s as [|a [|b [|c s]]]; auto; cbn.
    - destruct a as [[]|[]|[]], b as [[]|[]|[]]; reflexivity.
    - unfold tree_mirror. cbn [map rev]. rewrite <- !app_assoc. cbn [app].
      destruct (rev (map mt s)) as [|x [|y [|z l]]]; reflexivity.
  Qed.
  Lemma m_tree_lower s : tree_lower_bound (ms s) = option_map mb (tree_upper_bound s).
  Proof. unfold tree_lower_bound, tree_upper_bound. rewrite m_first. destruct (btree_last s); cbn; auto. now rewrite m_inner. Qed.
  Lemma m_tree_upper s : tree_upper_bound (ms s) = option_map mb (tree_lower_bound s).
  Proof. unfold tree_lower_bound, tree_upper_bound. rewrite m_last. destruct (btree_first s); cbn; auto. now rewrite m_inner. Qed.
  Lemma snoc_ends (t u : Tine T) m : tree_enclose false (t :: m ++ [u]) = Ok (raw_new (tine_into_inner t) (tine_into_inner u)).
  Proof. cbn [tree_enclose]. rewrite last_app_one. now destruct m. Qed.
  Lemma m_tree_enclose dbg s : tree_enclose dbg (ms s) = res_key mr (tree_enclose dbg s).
  Proof.
    destruct s as [|t s]; [reflexivity|]. destruct (snoc_cases s) as [->|(m & u & ->)].
    - cbn. rewrite m_is_point_include, m_tine_ref. destruct (debug_assert dbg (is_point_include t)); cbn; auto.
      now destruct (tine_as_ref t).
    - assert (E : ms (t :: m ++ [u]) = mt u :: ms m ++ [mt t]) by (rewrite m_cons; unfold tree_mirror; now rewrite map_app, rev_app_distr).
      rewrite E. cbn [tree_enclose]. rewrite !last_app_one, !m_inner.
      destruct m as [|v m]; cbn [app res_key].
      + cbn. now rewrite <- (m_new f H).
      + destruct (ms (v :: m) ++ [mt t]) eqn:X; [now destruct (ms (v :: m))|]. now rewrite (m_new f H).
  Qed.
  Lemma m_tree_closure dbg s : tree_closure dbg (ms s) = res_key mr (tree_closure dbg s).
  Proof. unfold tree_closure. rewrite m_tree_enclose. destruct (tree_enclose dbg s); cbn; auto. now rewrite m_closure. Qed.
End PMirror4.

Section PMirror5.
  Context {T U : Type} {OT : Ord T} {OU : Ord U} {FT : Finite T} {FU : Finite U}
    (f : T -> U) (H : reverses f) (HF : finite_reverses f).
  Notation mb := (bound_key f).
  Notation mr := (raw_mirror f).
  Notation mi := (interval_mirror f).
  Notation ms := (tree_mirror f).

  Lemma m_min : f MINIMUM = MAXIMUM. Proof. apply HF. Qed.
  Lemma m_max : f MAXIMUM = MINIMUM. Proof. apply HF. Qed.
  Lemma m_succ x : succ (f x) = option_map f (pred x). Proof. symmetry. apply HF. Qed.
  Lemma m_pred x : pred (f x) = option_map f (succ x). Proof. symmetry. apply HF. Qed.
  Lemma m_normalized i : normalized (mr i) = mr (normalized i).
  Proof.
    destruct i; cbn [raw_mirror normalized]; rewrite ?m_succ, ?m_pred, <- ?m_min, <- ?m_max; auto;
      repeat match goal with |- context [pred ?x] => destruct (pred x) | |- context [succ ?x] => destruct (succ x) end; auto.
  Qed.
  Lemma m_denormalized i : denormalized (mr i) = mr (denormalized i).
  Proof.
    destruct i; cbn [raw_mirror denormalized]; rewrite ?m_succ, ?m_pred; auto;
      repeat match goal with |- context [pred ?x] => destruct (pred x) | |- context [succ ?x] => destruct (succ x) end; auto.
  Qed.
  Lemma m_nrm r : nrm (mr r) = mi (nrm r).
  Proof. unfold nrm, interval_from_raw, interval_mirror. cbn [interval_raw]. now rewrite !m_normalized. Qed.

  Implicit Types (i j : Interval T) (r : RawInterval T) (s : Selection T) (p q : prog T).

  (** *** Intervals *)
  Lemma m_interval_from r : interval_from_raw (mr r) = mi (interval_from_raw r).
  Proof. unfold interval_from_raw, interval_mirror. cbn. now rewrite m_normalized. Qed.
  Lemma map_norm (l : list (RawInterval T)) :
    map (fun k => mkInterval (normalized k)) (map mr l) = map mi (map (fun k => mkInterval (normalized k)) l).
  Proof. rewrite !map_map. apply map_ext. intros r. unfold interval_mirror. cbn. now rewrite m_normalized. Qed.
  Lemma rev_norm (l : list (RawInterval T)) :
    map (fun k => mkInterval (normalized k)) (raws_mirror f l) = intervals_mirror f (map (fun k => mkInterval (normalized k)) l).
  Proof. unfold raws_mirror, intervals_mirror. now rewrite map_rev, map_norm. Qed.
  Lemma m_i_complement i : interval_complement (mi i) = intervals_mirror f (interval_complement i).
  Proof. unfold interval_complement. cbn. rewrite m_complement. apply rev_norm. Qed.
  Lemma m_i_intersect i j : interval_intersect (mi i) (mi j) = mi (interval_intersect i j).
  Proof. unfold interval_intersect. cbn. now rewrite (m_intersect f H), m_normalized, m_interval_from. Qed.
  Lemma m_i_union i j : interval_union (mi i) (mi j) = map mi (interval_union i j).
  Proof. unfold interval_union. cbn. rewrite (m_union f H). apply map_norm. Qed.
  Lemma m_i_minus i j : interval_minus (mi i) (mi j) = intervals_mirror f (interval_minus i j).
  Proof. unfold interval_minus. cbn. rewrite (m_minus f H). apply rev_norm. Qed.
  Lemma m_i_enclose i j : interval_enclose (mi i) (mi j) = mi (interval_enclose i j).
  Proof. unfold interval_enclose. cbn. now rewrite (m_enclose f H), m_normalized, m_interval_from. Qed.
  Lemma m_i_closure i : interval_closure (mi i) = mi (interval_closure i).
  Proof. unfold interval_closure. cbn. now rewrite m_closure, m_normalized, m_interval_from. Qed.
  Lemma m_i_new a b : interval_new (mb b) (mb a) = mi (interval_new a b).
  Proof. unfold interval_new, interval_mirror. cbn. now rewrite (m_new f H), m_normalized. Qed.
  Lemma m_from_point x : interval_from_point (f x) = mi (interval_from_point x).
  Proof. reflexivity. Qed.
  Lemma m_point x : interval_point (f x) = mi (interval_point x).
  Proof. reflexivity. Qed.

  Lemma minus_upper r x : raw_upper_bound r = Some (Include x) -> (length (raw_minus r (Point x)) <= 1)%nat.
  Proof.
    destruct r; cbn; intros [= <-]; unfold raw_minus, raw_intersect; cbn;
      repeat (rewrite ?cmp_refl; cbn; unfold gtb, geb, ltb, leb, raw_open, raw_left_open, raw_right_open, raw_closed, opt_eqb, eqb;
        match goal with |- context [cmp ?a ?b] => let E := fresh in destruct (cmp a b) eqn:E; cbn | _ => cbn end);
      auto; exfalso; order.
  Qed.
  Lemma m_i_lower i : interval_lower_bound (mi i) = option_map mb (interval_upper_bound i).
  Proof. apply m_lower_bound. Qed.
  Lemma m_i_upper i : interval_upper_bound (mi i) = option_map mb (interval_lower_bound i).
  Proof. apply m_upper_bound. Qed.
  Lemma m_first_or_empty (l : list (Interval T)) : (length l <= 1)%nat ->
    first_or_empty (intervals_mirror f l) = mi (first_or_empty l).
  Proof. destruct l as [|i [|j l]]; cbn; auto. intros X. lia. Qed.
  Lemma m_i_next i : interval_next (mi i) = res_key (pair_key (option_map f) mi) (interval_next_back i).
  Proof.
    unfold interval_next, interval_next_back. rewrite m_i_lower.
    destruct (interval_upper_bound i) as [[x|x|]|] eqn:E; cbn [option_map bound_key res_key]; try reflexivity.
    rewrite m_from_point, m_i_minus, m_first_or_empty; auto. unfold interval_minus. rewrite map_length. now apply minus_upper.
  Qed.

  Lemma minus_lower r x : raw_lower_bound r = Some (Include x) -> (length (raw_minus r (Point x)) <= 1)%nat.
  Proof.
    destruct r; cbn; intros [= <-]; unfold raw_minus, raw_intersect; cbn;
      repeat (rewrite ?cmp_refl; cbn; unfold gtb, geb, ltb, leb, raw_open, raw_left_open, raw_right_open, raw_closed, opt_eqb, eqb;
        match goal with |- context [cmp ?a ?b] => let E := fresh in destruct (cmp a b) eqn:E; cbn | _ => cbn end);
      auto; exfalso; order.
  Qed.
  Lemma m_i_next_back i : interval_next_back (mi i) = res_key (pair_key (option_map f) mi) (interval_next i).
  Proof.
    unfold interval_next, interval_next_back. rewrite m_i_upper.
    destruct (interval_lower_bound i) as [[x|x|]|] eqn:E; cbn [option_map bound_key res_key]; try reflexivity.
    rewrite m_from_point, m_i_minus, m_first_or_empty; auto. unfold interval_minus. rewrite map_length. now apply minus_lower.
  Qed.

  (** *** Selections *)
  Lemma m_sel_from i : raw_wf (denormalized (interval_raw i)) -> sel_from (mi i) = ms (sel_from i).
  Proof. intros W. unfold sel_from. cbn. rewrite m_denormalized. now apply m_from_raw. Qed.
  Lemma m_sel_full : sel_full = ms (@sel_full T _ _).
  Proof.
    unfold sel_full. assert (E : interval_full = mi (interval_full : Interval T)).
    { unfold interval_full, interval_mirror. cbn. now rewrite m_min, m_max. }
    rewrite E. apply m_sel_from. cbn. rewrite (proj2 (pred_none MINIMUM)), (proj2 (succ_none MAXIMUM)) by auto. exact I.
  Qed.
  Lemma m_sel_extend dbg l s : Forall (reach false) l -> asc s ->
    sel_extend dbg (ms s) (map mi l) = res_key ms (sel_extend dbg s l).
  Proof.
    intros R A. rewrite !sel_extend_tree.
    assert (E : map (fun k => denormalized (interval_raw k)) (map mi l) = map mr (map (fun k => denormalized (interval_raw k)) l)).
    { rewrite !map_map. apply map_ext. intros i. apply m_denormalized. }
    rewrite E. apply (m_tree_extend f H); auto. now apply inputs_wf.
  Qed.

  Lemma run_asc dbg p s : inputs false p -> run dbg p = Ok s -> wf s.
  Proof. intros I E. destruct (run_ok dbg p I) as (s' & E' & W & _). now replace s with s' by congruence. Qed.

  Lemma m_run dbg p : inputs false p -> no_intersect p ->
    run dbg (prog_mirror f p) = res_key ms (run dbg p).
  Proof.
    induction p as [| |i|l|l|p IH l|p IH i|p IH1 q IH2|p IH|p IH1 q IH2|p IH i]; cbn [inputs no_intersect prog_mirror run]; intros I N.
    - reflexivity.
    - cbn [res_key]. f_equal. apply m_sel_full.
    - cbn [res_key]. f_equal. apply m_sel_from. now apply denorm_in.
    - unfold sel_from_intervals. rewrite <- m_sel_extend; auto. apply asc_nil.
    - unfold sel_from_points. rewrite <- m_sel_extend; [|apply points_reach|apply asc_nil]. now rewrite !map_map.
    - destruct I as [I1 I2]. rewrite (IH I1 N). destruct (run dbg p) as [s|] eqn:E; cbn [bind res_key]; auto.
      apply m_sel_extend; auto. apply wf_asc. eapply run_asc; eauto.
    - destruct I as [I1 I2]. rewrite (IH I1 N). destruct (run dbg p) as [s|] eqn:E; cbn [bind res_key]; auto.
      unfold sel_union_in_place. cbn [interval_mirror interval_raw]. rewrite m_denormalized.
      apply m_tree_union_in_place; auto; [now apply denorm_in|]. apply wf_asc. eapply run_asc; eauto.
    - destruct I as [I1 I2], N as [N1 N2]. rewrite (IH1 I1 N1). destruct (run dbg p) as [s|] eqn:E; cbn [bind res_key]; auto.
      rewrite (IH2 I2 N2). destruct (run dbg q) as [s'|] eqn:E'; cbn [bind res_key]; auto.
      apply m_tree_union; eauto using run_asc.
    - rewrite (IH I N). destruct (run dbg p) as [s|] eqn:E; cbn [bind res_key]; auto.
      apply m_tree_complement; auto. apply wf_asc. eapply run_asc; eauto.
    - destruct N.
    - destruct I as [I1 I2]. rewrite (IH I1 N). destruct (run dbg p) as [s|] eqn:E; cbn [bind res_key]; auto.
      unfold sel_minus_in_place. cbn [interval_mirror interval_raw]. rewrite m_denormalized.
      apply m_tree_minus_in_place; auto; [now apply denorm_in|]. apply wf_asc. eapply run_asc; eauto.
  Qed.

  (** Queries. *)
  Lemma m_sel_lower dbg s : wf s -> sel_lower_bound dbg (ms s) = res_key (option_map mb) (sel_upper_bound dbg s).
  Proof.
    intros W. unfold sel_lower_bound, sel_upper_bound, sel_interval_next, sel_interval_next_back, sel_interval_iter.
    destruct (next_back_last dbg s W) as (it & ->). destruct (next_head dbg (ms s) (m_wf_tree f H _ W)) as (it' & ->).
    rewrite m_pieces by auto. unfold raws_mirror. rewrite <- map_rev.
    destruct (rev (pieces None s)) as [|r l]; [reflexivity|]. cbn [map hd_error option_map bind res_key].
    fold (nrm (mr r)) (nrm r). now rewrite m_nrm, m_i_lower.
  Qed.
  Lemma m_sel_upper dbg s : wf s -> sel_upper_bound dbg (ms s) = res_key (option_map mb) (sel_lower_bound dbg s).
  Proof.
    intros W. unfold sel_lower_bound, sel_upper_bound, sel_interval_next, sel_interval_next_back, sel_interval_iter.
    destruct (next_head dbg s W) as (it & ->). destruct (next_back_last dbg (ms s) (m_wf_tree f H _ W)) as (it' & ->).
    rewrite m_pieces by auto. unfold raws_mirror. rewrite rev_involutive.
    destruct (pieces None s) as [|r l]; [reflexivity|]. cbn [map hd_error option_map bind res_key].
    fold (nrm (mr r)) (nrm r). now rewrite m_nrm, m_i_upper.
  Qed.
  Lemma m_sel_infimum s : sel_infimum (ms s) = option_map f (sel_supremum s).
  Proof. unfold sel_infimum, sel_supremum. rewrite m_tree_lower. destruct (tree_upper_bound s); cbn; auto. apply m_as_ref. Qed.
  Lemma m_sel_supremum s : sel_supremum (ms s) = option_map f (sel_infimum s).
  Proof. unfold sel_infimum, sel_supremum. rewrite m_tree_upper. destruct (tree_lower_bound s); cbn; auto. apply m_as_ref. Qed.
  Lemma m_sel_enclose dbg s : sel_enclose dbg (ms s) = res_key mi (sel_enclose dbg s).
  Proof. unfold sel_enclose. rewrite (m_tree_enclose f H). destruct (tree_enclose dbg s); cbn; auto. unfold interval_mirror. cbn. now rewrite m_normalized. Qed.
  Lemma m_sel_closure dbg s : sel_closure dbg (ms s) = res_key mi (sel_closure dbg s).
  Proof. unfold sel_closure. rewrite (m_tree_closure f H). destruct (tree_closure dbg s); cbn; auto. unfold interval_mirror. cbn. now rewrite m_normalized. Qed.
End PMirror5.

(** * Iterating from the back past a pinhole *)
From Coq Require Import List Bool ZArith Lia Sorted Permutation.
From Verif Require Import Base OrdFacts Pos PFinite MBound MRaw MNormalize MTine MBTree MTineTree MInterval MSelection
  Spec Spec_Tree Spec_Sel PRaw PRaw2 PNorm PIter PInterval PBTree PTree PTreeOps PTreeIsect PTree2 PTree3 PTree4 PTree5 PTree6 PTree7 PSel PSel2 PSel3.
Import ListNotations.
Local Arguments cmp : simpl never.

Section PBoth.
  Context {T : Type} {O : Ord T}.
  Implicit Types (s A B X : list (Tine T)) (x y : T).

  Lemma back_prefix dbg s : chain false s false = true -> holeless s -> forall a l, pieces None s = l ++ [a] ->
    exists s', chain false s' false = true /\ holeless s' /\ l = pieces None s' /\
      forall X, iter_next_back dbg (st (X ++ s) None) = Ok (Some a, st (X ++ s') None).
  Proof.
    intros H N a l E. symmetry in E. destruct (snoc_cases s) as [->|(s1 & u & ->)]; [destruct l; discriminate|].
    unfold holeless in N. apply Forall_app in N as [N1 Nu]. inversion Nu as [|? ? Nu' _]; subst.
    apply chain_app in H as (c & H1 & H2). apply chain_cons in H2 as (K & U & H2). simpl in H2. apply eqb_prop in H2.
    destruct (is_upper_bound u) eqn:EU; subst c.
    - destruct (holeless_upper u K Nu' EU) as [d ->].
      destruct (snoc_cases s1) as [->|(s2 & t & ->)]; [discriminate|].
      apply Forall_app in N1 as [N2 Nt]. inversion Nt as [|? ? Nt' _]; subst.
      apply chain_app in H1 as (c & H1 & H3). apply chain_cons in H3 as (Kt & Ut & H3). simpl in H3. apply eqb_prop in H3.
      destruct (holeless_lower t Kt Nt' H3) as [d' ->]. simpl in Ut. subst c.
      exists s2. split; auto. split; auto.
      assert (Ep : pieces None ((s2 ++ [TLower d']) ++ [TUpper d]) = pieces None s2 ++ [raw_new d' d]).
      { rewrite <- app_assoc, pieces_app; auto. intros w Hw; discriminate. }
      rewrite Ep in E. apply app_inj_tail in E as [El Ea]. subst l a. split; auto.
      intros X. unfold iter_next_back, st. cbn [saved_upper tine_iter saved_lower].
      rewrite !app_assoc, last_app_one, rest_back_app_one. rewrite last_app_one, rest_back_app_one. destruct dbg; reflexivity.
    - assert (Eu : exists x, u = TPoint (Include x)) by (destruct u as [[]|[]|[]]; simpl in *; try discriminate; eauto).
      destruct Eu as [x ->]. exists s1. split; auto. split; auto.
      assert (Ep : pieces None (s1 ++ [TPoint (Include x)]) = pieces None s1 ++ [Point x]).
      { rewrite pieces_app; auto. intros w Hw; discriminate. }
      rewrite Ep in E. apply app_inj_tail in E as [El Ea]. subst l a. split; [reflexivity|].
      intros X. unfold iter_next_back, st. cbn [saved_upper tine_iter saved_lower]. rewrite app_assoc, last_app_one, rest_back_app_one. reflexivity.
  Qed.

  Lemma pieces_nil_chain s : chain false s false = true -> pieces None s = [] -> s = [].
  Proof.
    intros H E. generalize (iter_next_pieces true s None H ltac:(discriminate)). rewrite E. tauto.
  Qed.

  Lemma back_drain_prefix dbg n : forall s X rest, length (pieces None s) = n -> chain false s false = true -> holeless s ->
    drains (iter_next_back dbg) (st (X ++ s) None) (rev (pieces None s) ++ rest) -> drains (iter_next_back dbg) (st X None) rest.
  Proof.
    induction n as [|n IH]; intros s X rest L H N D.
    - destruct (pieces None s) eqn:E; [|discriminate]. rewrite (pieces_nil_chain s H E), app_nil_r in D. exact D.
    - destruct (ends (pieces None s)) as [E|(l & a & E)]; [rewrite E in L; discriminate|].
      destruct (back_prefix dbg s H N a l E) as (s' & H' & N' & El & Eq). rewrite E, rev_app_distr in D. simpl in D.
      inversion D as [|it it' a' l' En D']; subst. rewrite Eq in En. injection En as <-.
      apply (IH s'); auto. rewrite E, app_length in L. simpl in L. lia.
  Qed.

  Lemma holeless_dec s : holeless s \/ ~ holeless s.
  Proof.
    induction s as [|t s IH]; [left; constructor|]. destruct IH as [IH|IH].
    - destruct (is_point_exclude t) eqn:E; [right; intros K; inversion K; congruence|left; now constructor].
    - right. intros K. apply IH. now inversion K.
  Qed.
  Lemma last_hole s : ~ holeless s -> exists A x B, s = A ++ TPoint (Exclude x) :: B /\ holeless B.
  Proof.
    induction s as [|t s IH]; intros N; [destruct N; constructor|].
    destruct (holeless_dec s) as [D|D].
    - destruct t as [d|[x|x|]|d]; try (destruct N; constructor; [reflexivity|assumption]).
      exists [], x, s. auto.
    - destruct (IH D) as (A & x & B & -> & HB). exists (t :: A), x, B. auto.
  Qed.

  Lemma pieces_snoc2 A : forall o w x d, chain (has o) (A ++ [w; TPoint (Exclude x); TUpper d]) false = true ->
    exists l, pieces o (A ++ [w; TPoint (Exclude x); TUpper d]) = l ++ [raw_new (tine_into_inner w) (Exclude x); raw_new (Exclude x) d].
  Proof.
    induction A as [|k A IH]; intros o w x d H.
    - simpl app in *. apply chain_cons in H as (K & U & H). apply chain_cons in H as (_ & U2 & _). simpl in U2. symmetry in U2.
      destruct o as [l|], w as [e|[e|e|]|e]; simpl in *; try discriminate.
      + exists [raw_new (tine_into_inner l) (Exclude e)]. reflexivity.
      + exists []. reflexivity.
    - simpl app in *. apply chain_cons in H as (K & U & H). cbn [pieces]. destruct o as [l|].
      + destruct (IH (if is_point_exclude k then Some k else None) w x d) as (j & E).
        { destruct k as [e|[e|e|]|e]; simpl in *; try discriminate; auto. }
        rewrite E. now exists (raw_new (tine_into_inner l) (tine_into_inner k) :: j).
      + destruct k as [e|[e|e|]|e]; simpl in *; try discriminate.
        * destruct (IH (Some (TLower e)) w x d H) as (j & E). rewrite E. now exists j.
        * destruct (IH None w x d H) as (j & E). rewrite E. now exists (Point e :: j).
  Qed.

  Lemma chain_join b c A B : chain b A c = true -> forall d, chain c B d = true -> chain b (A ++ B) d = true.
  Proof.
    revert b. induction A as [|t A IH]; intros b H d H'; simpl in H.
    - apply eqb_prop in H. now subst.
    - cbn [app chain]. apply andb_true_iff in H as [H1 H2]. rewrite H1. simpl. now apply IH.
  Qed.

  Definition before (w : Tine T) x : Prop := match tine_into_inner w with Include y | Exclude y => lt y x | Infinite => True end.

  (** The shape of a tree around its last pinhole, and the two calls there. *)
  Lemma around_hole s : wf s -> ~ holeless s -> exists A w x d B l,
    s = (A ++ [w; TPoint (Exclude x); TUpper d]) ++ B /\ chain false B false = true /\ holeless B /\
    is_lower_bound w = true /\ okt w = true /\ before w x /\
    pieces None s = (l ++ [raw_new (tine_into_inner w) (Exclude x); raw_new (Exclude x) d]) ++ pieces None B.
  Proof.
    intros [S H] N. destruct (last_hole s N) as (A & x & B & -> & HB).
    pose proof H as H0. apply chain_app in H as (c & H1 & H2). apply chain_cons in H2 as (K & U & H2). simpl in U. subst c.
    destruct B as [|u B]; [discriminate|]. apply chain_cons in H2 as (Ku & Uu & H2).
    inversion HB as [|? ? Nu HB']; subst. destruct (holeless_upper u Ku Nu Uu) as [d ->].
    destruct (snoc_cases A) as [->|(A' & w & ->)]; [discriminate|].
    assert (Hw : is_lower_bound w = true /\ okt w = true).
    { apply chain_app in H1 as (c & _ & H1). apply chain_cons in H1 as (Kw & _ & H1). simpl in H1. apply eqb_prop in H1. auto. }
    assert (Bw : before w x).
    { apply srt_app in S as (_ & _ & S). apply Forall_app in S as [_ S]. inversion S as [|? ? Sw _]; subst. inversion Sw as [|? ? Sx _]; subst.
      unfold before. unfold loc in Sx at 1. destruct (tine_into_inner w) as [y|y|]; auto; unfold loc in Sx; simpl in Sx; clear - Sx; porder. }
    assert (Hc : chain false (A' ++ [w; TPoint (Exclude x); TUpper d]) false = true).
    { replace (A' ++ [w; TPoint (Exclude x); TUpper d]) with ((A' ++ [w]) ++ [TPoint (Exclude x); TUpper d]) by now rewrite <- app_assoc.
      now apply (chain_join _ true). }
    destruct (pieces_snoc2 A' None w x d Hc) as (l & E).
    exists A', w, x, d, B, l. rewrite <- !app_assoc. simpl. split; auto. split; auto. split; auto. split; [tauto|]. split; [tauto|]. split; [exact Bw|].
    replace (A' ++ w :: TPoint (Exclude x) :: TUpper d :: B) with ((A' ++ [w; TPoint (Exclude x); TUpper d]) ++ B) by now rewrite <- app_assoc.
    rewrite pieces_app; auto; [|intros t Ht; discriminate]. rewrite E, <- app_assoc. reflexivity.
  Qed.

  Lemma raw_new_upper (l u : Bound T) : raw_upper_bound (raw_new l u) = None \/ raw_upper_bound (raw_new l u) = Some u \/
    exists b, u = Exclude b /\ raw_new l u = Point b.
  Proof.
    destruct l as [a|a|], u as [b|b|]; simpl; auto; unfold raw_closed, raw_open, raw_left_open, raw_right_open;
      destruct (cmp a b) eqn:E; simpl; auto; apply cmp_eq in E; subst; eauto.
  Qed.

  Lemma hole_first dbg A w x d :
    iter_next_back dbg (st (A ++ [w; TPoint (Exclude x); TUpper d]) None) =
      Ok (Some (raw_new (Exclude x) d), st (A ++ [w]) (Some (TPoint (Exclude x)))).
  Proof.
    replace (A ++ [w; TPoint (Exclude x); TUpper d]) with (((A ++ [w]) ++ [TPoint (Exclude x)]) ++ [TUpper d]) by (rewrite <- !app_assoc; reflexivity).
    unfold iter_next_back, st. cbn [saved_upper tine_iter saved_lower]. rewrite last_app_one, rest_back_app_one.
    rewrite last_app_one, rest_back_app_one. destruct dbg; reflexivity.
  Qed.
  Lemma hole_second dbg A w x : is_lower_bound w = true -> okt w = true ->
    iter_next_back dbg (st (A ++ [w]) (Some (TPoint (Exclude x)))) = Panic \/
    exists lo it, iter_next_back dbg (st (A ++ [w]) (Some (TPoint (Exclude x)))) = Ok (Some (raw_new lo (tine_into_inner w)), it).
  Proof.
    intros L K. unfold iter_next_back, st. cbn [saved_upper tine_iter saved_lower]. rewrite last_app_one, rest_back_app_one.
    assert (C : (exists e, w = TLower e) \/ (exists e, w = TPoint (Exclude e))).
    { destruct w as [e|[e|e|]|e]; simpl in *; try discriminate; eauto. }
    assert (D : exists lo ts sl, (match btree_last A with
          | Some t => (Some t, btree_rest_back A, Some (TPoint (Exclude x)))
          | None => (Some (TPoint (Exclude x)), A, None)
          end : option (Tine T) * list (Tine T) * option (Tine T)) = (Some lo, ts, sl)).
    { destruct (btree_last A); eauto. }
    destruct D as (lo & ts & sl & D). rewrite D.
    destruct C as [[e ->]|[e ->]]; cbn [is_upper_bound]; destruct dbg; cbn [debug_assert bind].
    all: try (left; reflexivity).
    all: try (destruct (is_lower_bound lo); cbn [debug_assert bind negb]); try (left; reflexivity); right; do 2 eexists; reflexivity.
  Qed.

  Lemma piece_at_hole w x : before w x -> raw_upper_bound (raw_new (tine_into_inner w) (Exclude x)) = Some (Exclude x).
  Proof.
    unfold before. destruct (tine_into_inner w) as [y|y|]; intros L; simpl; auto; unfold raw_right_open, raw_open; unfold lt in L; now rewrite L.
  Qed.
  Lemma wrong_at_hole w x lo : before w x -> raw_new lo (tine_into_inner w) <> raw_new (tine_into_inner w) (Exclude x).
  Proof.
    intros L E. pose proof (piece_at_hole w x L) as U. rewrite <- E in U. unfold before in L.
    destruct (raw_new_upper lo (tine_into_inner w)) as [K|[K|(b & _ & K)]].
    - congruence.
    - rewrite U in K. injection K as K. rewrite <- K in L. clear - L. order.
    - rewrite K in U. discriminate.
  Qed.

  (** From the back, all intervals come out right only without pinholes. *)
  Lemma back_holeless dbg s : wf s -> drains (iter_next_back dbg) (tree_interval_iter s) (rev (pieces None s)) -> holeless s.
  Proof.
    intros W D. destruct (holeless_dec s) as [N|N]; auto. exfalso.
    destruct (around_hole s W N) as (A & w & x & d & B & l & -> & HB & NB & Lw & Kw & Bw & Ep).
    rewrite Ep, rev_app_distr in D. apply (back_drain_prefix dbg _ B _ _ eq_refl HB NB) in D.
    rewrite rev_app_distr in D. simpl in D.
    inversion D as [|it it' a' l' En D']; subst. rewrite hole_first in En. injection En as <-.
    inversion D' as [|it2 it2' a2 l2 En2 D2]; subst.
    destruct (hole_second dbg A w x Lw Kw) as [K|(lo & it & K)]; rewrite K in En2; [discriminate|]. injection En2 as E _.
    now apply wrong_at_hole in E.
  Qed.
End PBoth.

Section PBothSel.
  Context {T : Type} {O : Ord T} {F : Finite T}.
  Implicit Types (s A B X : list (Tine T)) (x y : T).

  (** Whatever [next_back] takes from an interval ending at an excluded bound
      is not above it. *)
  Lemma wrong_value lo (u : Bound T) m i : (forall y, u <> Include y) ->
    interval_next_back (nrm (raw_new lo u)) = Ok (Some m, i) ->
    m = MAXIMUM \/ exists y, u = Exclude y /\ le m y.
  Proof.
    intros N E. unfold interval_next_back, interval_upper_bound in E. rewrite nrm_raw in E.
    destruct lo as [a|a|], u as [y|y|]; try (now specialize (N _ eq_refl)); simpl in E.
    all: unfold raw_closed, raw_open, raw_left_open, raw_right_open in E.
    all: try (match type of E with context [cmp ?a ?b] => destruct (cmp a b) eqn:C end); simpl in E.
    all: repeat match type of E with context [succ ?z] => destruct (succ z) eqn:?; simpl in E end.
    all: repeat match type of E with context [pred ?z] => destruct (pred z) eqn:?; simpl in E end.
    all: try discriminate; injection E as <- _.
    all: try (left; reflexivity).
    all: right; eexists; split; [reflexivity|].
    all: try (apply cmp_eq in C; subst; clear; order).
    all: match goal with H : pred _ = Some _ |- _ => apply pred_some in H as [H _]; clear - H; order end.
  Qed.

  Lemma current_prefix dbg n : forall its cur lc rest, length lc = n -> irep cur lc ->
    drains (sel_next_back dbg) {| si_intervals := its; si_current := cur |} (rev lc ++ rest) ->
    exists cur', irep cur' [] /\ drains (sel_next_back dbg) {| si_intervals := its; si_current := cur' |} rest.
  Proof.
    induction n as [|n IH]; intros its cur lc rest L R D.
    - destruct lc; [|discriminate]. eauto.
    - destruct (ends lc) as [->|(lc' & m & ->)]; [discriminate|]. rewrite rev_app_distr in D. simpl in D.
      inversion D as [|it it' a' l' En D']; subst. unfold sel_next_back in En. simpl in En.
      destruct (irep_back _ _ _ R) as (i' & Ei & Ri). rewrite Ei in En. simpl in En. injection En as <-.
      apply (IH its i' lc'); auto. rewrite app_length in L. simpl in L. lia.
  Qed.

  (** One interval [r] comes off the back, then all of its values. *)
  Lemma piece_prefix dbg its its' cur r lr rest : irep cur [] -> iter_next_back dbg its = Ok (Some r, its') ->
    irep (nrm r) lr -> lr <> [] ->
    drains (sel_next_back dbg) {| si_intervals := its; si_current := cur |} (rev lr ++ rest) ->
    exists cur', irep cur' [] /\ drains (sel_next_back dbg) {| si_intervals := its'; si_current := cur' |} rest.
  Proof.
    intros Rc E R N D. destruct (ends lr) as [->|(lr' & m & ->)]; [now destruct N|].
    rewrite rev_app_distr in D. simpl in D.
    inversion D as [|it it' a' l' En D']; subst. unfold sel_next_back in En. simpl in En.
    rewrite (irep_nil_back _ Rc) in En. simpl in En. rewrite E in En. simpl in En.
    destruct (irep_back _ _ _ R) as (i' & Ei & Ri). fold (nrm r) in En. rewrite Ei in En. simpl in En. injection En as <-.
    now apply (current_prefix dbg _ its' i' lr' rest eq_refl).
  Qed.

  Lemma sel_back_prefix dbg n : forall s ls X cur rest, length (pieces None s) = n -> chain false s false = true -> holeless s ->
    chunks (pieces None s) ls -> irep cur [] ->
    drains (sel_next_back dbg) {| si_intervals := st (X ++ s) None; si_current := cur |} (rev (concat ls) ++ rest) ->
    exists cur', irep cur' [] /\ drains (sel_next_back dbg) {| si_intervals := st X None; si_current := cur' |} rest.
  Proof.
    induction n as [|n IH]; intros s ls X cur rest L H N C Rc D.
    - destruct (pieces None s) eqn:E; [|discriminate]. rewrite (pieces_nil_chain s H E), app_nil_r in D. inversion C; subst. eauto.
    - destruct (ends (pieces None s)) as [E|(l & a & E)]; [rewrite E in L; discriminate|].
      destruct (back_prefix dbg s H N a l E) as (s' & H' & N' & El & Eq).
      destruct (chunks_snoc _ _ C _ _ E) as (ls' & la & -> & C' & Ra & Na).
      rewrite concat_app, rev_app_distr in D. simpl in D. rewrite app_nil_r, <- app_assoc in D.
      destruct (piece_prefix dbg _ _ _ _ _ _ Rc (Eq X) Ra Na D) as (cur' & Rc' & D').
      apply (IH s' ls' X cur'); auto; [|now rewrite <- El]. rewrite <- El. rewrite E, app_length in L. simpl in L. lia.
  Qed.

  Lemma sel_back_holeless dbg s l : wf s -> open_cov (den false s) -> lists l (inS s) ->
    drains (sel_next_back dbg) (sel_iter s) (rev l) -> holeless s.
  Proof.
    intros W Op [Sl Hl] D. destruct (holeless_dec s) as [N|N]; auto. exfalso.
    destruct (chunks_of s W (open_gapless _ Op) _ (incl_refl _)) as (ls & C).
    destruct (chunks_lists s ls W C) as [Sl' Hl'].
    assert (l = concat ls) as -> by (apply (lists_unique l (concat ls) (inS s)); split; auto).
    destruct (around_hole s W N) as (A & w & x & d & B & k & Es & HB & NB & Lw & Kw & Bw & Ep). subst s.
    pose proof C as C0. rewrite Ep in C. apply Forall2_app_inv_l in C as (l1 & lB & C1 & CB & ->).
    apply Forall2_app_inv_l in C1 as (lk & l2 & Ck & C2 & ->).
    inversion C2 as [|? lw ? ? [Rw Nw] C3]; subst. inversion C3 as [|? lx ? ? [Rx Nx] C4]; subst. inversion C4; subst. clear C2 C3 C4.
    rewrite !concat_app, !rev_app_distr in D. simpl in D. rewrite app_nil_r, rev_app_distr in D.
    unfold sel_iter, tree_interval_iter in D. fold (st ((A ++ [w; TPoint (Exclude x); TUpper d]) ++ B) None) in D.
    destruct (sel_back_prefix dbg _ B lB _ _ _ eq_refl HB NB CB irep_empty D) as (cur & Rc & D1).
    rewrite <- app_assoc in D1.
    destruct (piece_prefix dbg _ _ _ _ _ _ Rc (hole_first dbg A w x d) Rx Nx D1) as (cur' & Rc' & D2).
    destruct (ends lw) as [->|(lw' & m & ->)]; [now destruct Nw|]. rewrite rev_app_distr in D2. simpl in D2.
    inversion D2 as [|it it' a' l' En D']; subst. unfold sel_next_back in En. simpl in En.
    rewrite (irep_nil_back _ Rc') in En. simpl in En.
    destruct (hole_second dbg A w x Lw Kw) as [K|(lo & its & K)]; rewrite K in En; [discriminate|]. simpl in En.
    fold (nrm (raw_new lo (tine_into_inner w))) in En.
    destruct (interval_next_back (nrm (raw_new lo (tine_into_inner w)))) as [[o i]|] eqn:Ei; [|discriminate]. simpl in En. injection En as -> _.
    assert (Hin : In (raw_new (tine_into_inner w) (Exclude x)) (pieces None ((A ++ [w; TPoint (Exclude x); TUpper d]) ++ B))).
    { rewrite Ep. apply in_app_iff. left. apply in_app_iff. right. left. reflexivity. }
    destruct (open_excluded _ _ W Op Hin) as [Kl _].
    assert (Nu : forall y, tine_into_inner w <> Include y).
    { intros y E. apply (Kl y). rewrite E. unfold before in Bw. rewrite E in Bw. simpl. unfold raw_right_open. unfold lt in Bw. now rewrite Bw. }
    assert (Hm : raw_contains (raw_new (tine_into_inner w) (Exclude x)) m = true).
    { apply nrm_points. destruct Rw as [_ [_ Rw]]. apply Rw. apply in_app_iff. right. left. auto. }
    destruct (wrong_value _ _ _ _ Nu Ei) as [->|(y & Ey & Ly)].
    - apply raw_new_contains in Hm as [[_ Hm]|Hm]; pose proof (max_ge x) as Mx.
      + simpl in Hm. generalize dependent MAXIMUM. clear. order.
      + unfold before in Bw. destruct (tine_into_inner w) as [y|y|]; simpl in Hm; [now specialize (Nu _ eq_refl)|tauto|tauto].
    - rewrite Ey in *. unfold before in Bw. rewrite Ey in Bw. apply raw_new_contains in Hm as [[Hm _]|Hm]; simpl in Hm; [clear - Ly Hm; order|tauto].
  Qed.
End PBothSel.

(** * Dense orders; holes; iteration from both ends *)
From Coq Require Import List Bool ZArith Lia Sorted.
From Verif Require Import Base OrdFacts Pos MBound MRaw MTine MBTree MTineTree Spec PRaw PRaw2 PBTree PTree PTreeOps PTreeIsect PTree2 PTree3 PTree4 PTree5 PIter.
Import ListNotations.

#[local] Arguments cmp : simpl never.

Section PTree6.
  Context {T : Type} {O : Ord T}.
  Implicit Types (t u : Tine T) (s m L R C : list (Tine T)) (p q : pos T) (b c v : bool) (i j k : RawInterval T).

  (** ** Dense orders *)
  Lemma den_between m : forall b p q, srt m -> le p q -> (forall t, In t m -> lt (loc t) p \/ lt q (loc t)) -> den b m p = den b m q.
  Proof.
    induction m as [|t m IH]; intros b p q S Hpq H; simpl; auto.
    inversion S as [|? ? S1 S2]; subst. destruct (H t (or_introl eq_refl)) as [X|X].
    - assert (E1 : cmp p (loc t) = Gt) by now apply cmp_gt_lt.
      assert (E2 : cmp q (loc t) = Gt) by (apply cmp_gt_lt; clear H S2; revert X Hpq; generalize (loc t); porder).
      rewrite E1, E2. apply IH; auto. intros u Hu. apply H. now right.
    - assert (E1 : cmp p (loc t) = Lt) by (clear H S2; revert X Hpq; generalize (loc t); clear; intros r X Hpq; assert (lt p r) by porder; auto).
      unfold lt in X. rewrite E1, X. reflexivity.
  Qed.

  Context (D : dense T) (U : unbounded T).

  (** Points arbitrarily close to any position. *)
  Lemma near_above x m : fins m -> exists y, lt x y /\ forall t, In t m -> le (loc t) (At x) \/ lt (At y) (loc t).
  Proof.
    induction m as [|t m IH]; intros F.
    - destruct (proj1 U x) as [y Hy]. exists y. split; auto. intros t [].
    - inversion F as [|? ? Ft Fm]; subst. destruct (IH Fm) as (y & Hy & H). destruct (fin_loc t Ft) as [w Ew].
      destruct (cmp x w) eqn:E.
      + exists y. split; auto. intros u [<-|Hu]; auto. rewrite Ew. left. clear -E. porder.
      + destruct (D x w E) as (z & H1 & H2).
        assert (K : exists y', lt x y' /\ lt y' w /\ le y' y).
        { destruct (cmp z y) eqn:Ez; [exists z|exists z|]; try (repeat split; auto; clear -Ez; porder).
          exists y. repeat split; auto; clear -Ez H2 Hy; porder. }
        destruct K as (y' & K1 & K2 & K3). exists y'. split; auto. intros u [<-|Hu].
        * rewrite Ew. right. clear -K2. porder.
        * destruct (H u Hu) as [X|X]; auto. right. revert X K3. generalize (loc u). clear. porder.
      + exists y. split; auto. intros u [<-|Hu]; auto. rewrite Ew. left. clear -E. porder.
  Qed.
  Lemma near_below x m : fins m -> exists y, lt y x /\ forall t, In t m -> le (At x) (loc t) \/ lt (loc t) (At y).
  Proof.
    induction m as [|t m IH]; intros F.
    - destruct (proj2 U x) as [y Hy]. exists y. split; auto. intros t [].
    - inversion F as [|? ? Ft Fm]; subst. destruct (IH Fm) as (y & Hy & H). destruct (fin_loc t Ft) as [w Ew].
      destruct (cmp w x) eqn:E.
      + exists y. split; auto. intros u [<-|Hu]; auto. rewrite Ew. left. clear -E. porder.
      + destruct (D w x E) as (z & H1 & H2).
        assert (K : exists y', lt y' x /\ lt w y' /\ le y y').
        { destruct (cmp y z) eqn:Ez; [exists z|exists z|]; try (repeat split; auto; clear -Ez; porder).
          exists y. repeat split; auto; clear -Ez H1 Hy; porder. }
        destruct K as (y' & K1 & K2 & K3). exists y'. split; auto. intros u [<-|Hu].
        * rewrite Ew. right. clear -K2. porder.
        * destruct (H u Hu) as [X|X]; auto. right. revert X K3. generalize (loc u). clear. porder.
      + exists y. split; auto. intros u [<-|Hu]; auto. rewrite Ew. left. clear -E. porder.
  Qed.
  Lemma near_bottom (x0 : T) m : fins m -> exists y, forall t, In t m -> lt (At y) (loc t).
  Proof.
    induction m as [|t m IH]; intros F.
    - exists x0. intros t [].
    - inversion F as [|? ? Ft Fm]; subst. destruct (IH Fm) as (y & H). destruct (fin_loc t Ft) as [w Ew].
      assert (K : exists y', lt y' w /\ le y' y).
      { destruct (proj2 U w) as [z Hz]. destruct (cmp z y) eqn:Ez; [exists z|exists z|]; try (repeat split; auto; clear -Ez; porder).
        exists y. split; clear -Ez Hz; porder. }
      destruct K as (y' & K1 & K2). exists y'. intros u [<-|Hu].
      + rewrite Ew. clear -K1; porder.
      + specialize (H u Hu). revert H K2. generalize (loc u). clear. porder.
  Qed.
  Lemma near_top (x0 : T) m : fins m -> exists y, forall t, In t m -> lt (loc t) (At y).
  Proof.
    induction m as [|t m IH]; intros F.
    - exists x0. intros t [].
    - inversion F as [|? ? Ft Fm]; subst. destruct (IH Fm) as (y & H). destruct (fin_loc t Ft) as [w Ew].
      assert (K : exists y', lt w y' /\ le y y').
      { destruct (proj1 U w) as [z Hz]. destruct (cmp y z) eqn:Ez; [exists z|exists z|]; try (repeat split; auto; clear -Ez; porder).
        exists y. split; clear -Ez Hz; porder. }
      destruct K as (y' & K1 & K2). exists y'. intros u [<-|Hu].
      + rewrite Ew. clear -K1; porder.
      + specialize (H u Hu). revert H K2. generalize (loc u). clear. porder.
  Qed.

  (** For finitely many trees, any position can be replaced by a point.  The
      trees are given by their finite tines. *)
  Definition rep (x : bool * list (Tine T) * bool) s : Prop :=
    let '(a, m, c) := x in s = pre a ++ m ++ suf c /\ fins m /\ chain a m c = true /\ srt m.

  Lemma rep_den x s p : rep x s -> let '(a, m, _) := x in den false s p = den a m p.
  Proof. destruct x as [[a m] c]. intros (-> & F & H & S). now apply ends_den. Qed.

  Lemma approx (x0 : T) m p : fins m -> exists y, forall b s c, srt s -> incl s m -> chain b s c = true -> den b s p = den b s (At y).
  Proof.
    intros F. destruct p as [|x|x|x|].
    - destruct (near_bottom x0 m F) as (y & H). exists y. intros b s c S I Hc. rewrite !den_low; auto.
      intros t Ht. pose proof (fins_in m t F (I t Ht)) as Ft. destruct (fin_loc t Ft) as [w ->]. reflexivity.
    - destruct (near_below x m F) as (y & Hy & H). exists y. intros b s c S I Hc. symmetry. apply den_between; auto.
      + clear -Hy. porder.
      + intros t Ht. destruct (H t (I t Ht)) as [X|X]; auto. right. revert X. generalize (loc t). clear. porder.
    - exists x. auto.
    - destruct (near_above x m F) as (y & Hy & H). exists y. intros b s c S I Hc. apply den_between; auto.
      + clear -Hy. porder.
      + intros t Ht. destruct (H t (I t Ht)) as [X|X]; auto. left. revert X. generalize (loc t). clear. porder.
    - destruct (near_top x0 m F) as (y & H). exists y. intros b s c S I Hc. rewrite !(den_high b s _ c); auto.
      intros t Ht. pose proof (fins_in m t F (I t Ht)) as Ft. destruct (fin_loc t Ft) as [w ->]. reflexivity.
  Qed.

  (** Three trees (for the in-place operations). *)
  Lemma approx3 (x0 : T) s1 s2 s3 p : wf s1 -> wf s2 -> wf s3 ->
    exists y, den false s1 p = den false s1 (At y) /\ den false s2 p = den false s2 (At y) /\ den false s3 p = den false s3 (At y).
  Proof.
    intros W1 W2 W3.
    destruct (infinite_ends s1 W1) as (a1 & m1 & c1 & -> & F1 & H1 & S1).
    destruct (infinite_ends s2 W2) as (a2 & m2 & c2 & -> & F2 & H2 & S2).
    destruct (infinite_ends s3 W3) as (a3 & m3 & c3 & -> & F3 & H3 & S3).
    destruct (approx x0 (m1 ++ m2 ++ m3) p) as (y & H).
    { apply Forall_app; split; auto. apply Forall_app; auto. }
    exists y. rewrite !ends_den by auto. repeat split.
    - apply (H a1 m1 c1); auto. intros t Ht. apply in_or_app; auto.
    - apply (H a2 m2 c2); auto. intros t Ht. apply in_or_app; right. apply in_or_app; auto.
    - apply (H a3 m3 c3); auto. intros t Ht. apply in_or_app; right. apply in_or_app; auto.
  Qed.

  Lemma no_point_tree s : (T -> False) -> wf s -> s = [] \/ s = [TLower Infinite; TUpper Infinite].
  Proof.
    intros N W. destruct (infinite_ends s W) as (a & m & c & -> & F & H & S).
    destruct m as [|t m]; [|inversion F as [|? ? Ft _]; destruct (fin_loc t Ft) as [w _]; destruct (N w)].
    simpl in H. apply eqb_prop in H. subst c. destruct a; auto.
  Qed.

  (** Membership decides everything, on an inhabited dense unbounded order. *)
  Lemma dense_den (x0 : T) s1 s2 s3 (f : bool -> bool -> bool) : wf s1 -> wf s2 -> wf s3 ->
    (forall x, den false s1 (At x) = f (den false s2 (At x)) (den false s3 (At x))) ->
    forall p, den false s1 p = f (den false s2 p) (den false s3 p).
  Proof.
    intros W1 W2 W3 H p. destruct (approx3 x0 s1 s2 s3 p W1 W2 W3) as (y & -> & -> & ->). apply H.
  Qed.
  Lemma dense_ext (x0 : T) s1 s2 : wf s1 -> wf s2 -> (forall x, den false s1 (At x) = den false s2 (At x)) -> s1 = s2.
  Proof.
    intros W1 W2 H. apply den_ext; auto. apply (dense_den x0 s1 s2 s2 (fun a _ => a)); auto.
  Qed.
End PTree6.

Section PTree6b.
  Context {T : Type} {O : Ord T}.
  Implicit Types (t u : Tine T) (s m L R C : list (Tine T)) (p q : pos T) (b c v : bool) (i j k : RawInterval T).

  (** ** Excluded ends and holes, read off the intervals of a tree *)
  Lemma den_tine s t : wf s -> In t s -> den false s (loc t) = atv t.
  Proof.
    intros [S H] Ht. apply in_split in Ht as (L & R & ->).
    apply srt_app in S as (S1 & S2 & S3). inversion S2 as [|? ? S4 S5]; subst.
    apply chain_app in H as (c & H1 & H2). apply chain_cons in H2 as (K & <- & H2).
    pose proof (chain_ok _ _ _ H1) as OL. pose proof (chain_ok _ _ _ H2) as OR.
    rewrite (den_app_high false L _ (loc t) (is_upper_bound t)); auto.
    - simpl. now rewrite cmp_refl.
    - rewrite Forall_forall in S3. intros w Hw. specialize (S3 w Hw). now inversion S3.
  Qed.

  Lemma upper_excluded s i x : wf s -> In i (pieces None s) ->
    (raw_upper_bound i = Some (Exclude x) <-> covers i (Lo x) = true /\ den false s (At x) = false).
  Proof.
    intros W Hin. pose proof W as [S H].
    destruct (pieces_ends s None i H ltac:(discriminate) S Hin) as (t & u & In1 & In2 & K1 & K2 & EL & EU & _).
    pose proof (raw_wf_pos i _ _ ltac:(apply (proj1 (Forall_forall _ _) (pieces_wf s None) i Hin)) EL EU) as Hle.
    split.
    - intros E. rewrite EU in E. inversion E as [E']. split.
      + rewrite (covers_bounds i _ _ _ EL EU). rewrite E' in *. simpl in *. split; auto. porder.
      + assert (L : loc u = At x) by (unfold loc; now rewrite E'). rewrite <- L, den_tine by auto. unfold atv. now rewrite E'.
    - intros [C N].
      assert (N' : covers i (At x) = false).
      { destruct (covers i (At x)) eqn:E; auto. rewrite <- (pieces_den s) in N by auto. unfold lcovers in N.
        assert (X : existsb (fun i0 => covers i0 (At x)) (pieces None s) = true) by (apply existsb_exists; eauto). congruence. }
      rewrite (covers_bounds i _ _ _ EL EU) in C. rewrite EU. f_equal. apply upos_inj. simpl.
      assert (N2 : ~ (le (lpos (tine_into_inner t)) (At x) /\ le (At x) (upos (tine_into_inner u)))).
      { rewrite <- (covers_bounds i _ _ _ EL EU). now rewrite N'. }
      assert (X : upos (tine_into_inner u) <> Hi x) by (destruct (tine_into_inner u); discriminate).
      revert C N2 X. generalize (lpos (tine_into_inner t)) (upos (tine_into_inner u)). porder.
  Qed.
  Lemma lower_excluded s i x : wf s -> In i (pieces None s) ->
    (raw_lower_bound i = Some (Exclude x) <-> covers i (Hi x) = true /\ den false s (At x) = false).
  Proof.
    intros W Hin. pose proof W as [S H].
    destruct (pieces_ends s None i H ltac:(discriminate) S Hin) as (t & u & In1 & In2 & K1 & K2 & EL & EU & _).
    pose proof (raw_wf_pos i _ _ ltac:(apply (proj1 (Forall_forall _ _) (pieces_wf s None) i Hin)) EL EU) as Hle.
    split.
    - intros E. rewrite EL in E. inversion E as [E']. split.
      + rewrite (covers_bounds i _ _ _ EL EU). rewrite E' in *. simpl in *. split; auto. porder.
      + assert (L : loc t = At x) by (unfold loc; now rewrite E'). rewrite <- L, den_tine by auto. unfold atv. now rewrite E'.
    - intros [C N].
      assert (N' : covers i (At x) = false).
      { destruct (covers i (At x)) eqn:E; auto. rewrite <- (pieces_den s) in N by auto. unfold lcovers in N.
        assert (X : existsb (fun i0 => covers i0 (At x)) (pieces None s) = true) by (apply existsb_exists; eauto). congruence. }
      rewrite (covers_bounds i _ _ _ EL EU) in C. rewrite EL. f_equal. apply lpos_inj. simpl.
      assert (N2 : ~ (le (lpos (tine_into_inner t)) (At x) /\ le (At x) (upos (tine_into_inner u)))).
      { rewrite <- (covers_bounds i _ _ _ EL EU). now rewrite N'. }
      assert (X : lpos (tine_into_inner t) <> Lo x) by (destruct (tine_into_inner t); discriminate).
      revert C N2 X. generalize (lpos (tine_into_inner t)) (upos (tine_into_inner u)). clear. intros a b.
      intros. assert (a <> At x) by (intros ->; apply N2; split; porder). porder.
  Qed.

  Lemma lcovers_ex l p : lcovers l p = true <-> exists i, In i l /\ covers i p = true.
  Proof. unfold lcovers. apply existsb_exists. Qed.

  Lemma rim_pieces s x : wf s -> rim s x = true <->
    exists i, In i (pieces None s) /\ (raw_lower_bound i = Some (Exclude x) \/ raw_upper_bound i = Some (Exclude x)).
  Proof.
    intros W. unfold rim. rewrite andb_true_iff, orb_true_iff, negb_true_iff, <- !(pieces_den s) by auto. rewrite !lcovers_ex.
    rewrite (pieces_den s) by auto. split.
    - intros [N [(i & Hin & C)|(i & Hin & C)]]; exists i; (split; [auto|]).
      + right. apply (upper_excluded s); auto.
      + left. apply (lower_excluded s); auto.
    - intros (i & Hin & [E|E]).
      + apply (lower_excluded s) in E as [C N]; auto. split; auto. right. eauto.
      + apply (upper_excluded s) in E as [C N]; auto. split; auto. left. eauto.
  Qed.
  Lemma hole_pieces s x : wf s -> hole s x = true <->
    exists i j, In i (pieces None s) /\ In j (pieces None s) /\
      raw_upper_bound i = Some (Exclude x) /\ raw_lower_bound j = Some (Exclude x).
  Proof.
    intros W. unfold hole. rewrite !andb_true_iff, negb_true_iff, <- !(pieces_den s) by auto. rewrite !lcovers_ex.
    rewrite (pieces_den s) by auto. split.
    - intros [[N (i & Hin & C)] (j & Hj & C')]. exists i, j. repeat split; auto.
      + apply (upper_excluded s); auto.
      + apply (lower_excluded s); auto.
    - intros (i & j & Hin & Hj & E & E'). apply (upper_excluded s) in E as [C N]; auto. apply (lower_excluded s) in E' as [C' _]; auto.
      repeat split; eauto.
  Qed.

  (** A hole is an excluding point tine. *)
  Lemma hole_tine s x : wf s -> (hole s x = true <-> In (TPoint (Exclude x)) s).
  Proof.
    intros [S H].
    destruct (split_at (At x) false s false) as (L & R & c0 & v & c1 & -> & A & HL & HR & BL & AR & SL & SR);
      try exact I; try discriminate; auto.
    unfold hole. rewrite den_Lo, den_At, den_Hi by auto.
    assert (NL : ~ In (TPoint (Exclude x)) L) by (intros X; apply (bl_in (At x) L) in X; auto; now apply (plt_irrefl (At x))).
    assert (NR : ~ In (TPoint (Exclude x)) R) by (intros X; apply (ab_in (At x) R) in X; auto; now apply (plt_irrefl (At x))).
    split.
    - intros E. apply in_or_app. right. apply in_or_app. left. destruct c0, v, c1; try discriminate. simpl. auto.
    - intros X. apply in_app_or in X as [X|X]; [contradiction|]. apply in_app_or in X as [X|X]; [|contradiction].
      destruct c0, v, c1; simpl in X; auto; try contradiction; destruct X as [X|[]]; discriminate.
  Qed.

  (** ** Iteration from both ends, without holes *)
  Definition holeless s : Prop := Forall (fun t => is_point_exclude t = false) s.

  Lemma pieces_app A : forall o B, chain (has o) A false = true -> pend_ok o -> pieces o (A ++ B) = pieces o A ++ pieces None B.
  Proof.
    induction A as [|t A IH]; intros o B H P.
    - destruct o; [discriminate|]. reflexivity.
    - cbn [has] in H. apply chain_cons in H as (K & U & H). destruct o as [l|].
      + cbn [app pieces]. destruct (exclude_pend t A K U H) as [H' P']. f_equal. now apply IH.
      + destruct (is_point_include t) eqn:EI.
        * destruct t as [|[x| |]|]; try discriminate. cbn [app pieces]. f_equal. apply IH; auto.
        * assert (Lt : is_lower_bound t = true) by (destruct t as [[]|[]|[]]; simpl in *; congruence). rewrite Lt in H.
          assert (E : forall X, pieces None (t :: X) = pieces (Some t) X).
          { destruct t as [[]|[]|[]]; simpl in *; try discriminate; reflexivity. }
          cbn [app]. rewrite !E. apply IH; auto. intros w Ew; inversion Ew; subst; auto.
  Qed.

  Definition brep (it : Iter T) (l : list (RawInterval T)) : Prop :=
    exists s, it = st s None /\ chain false s false = true /\ holeless s /\ l = pieces None s.

  Lemma holeless_lower t : okt t = true -> is_point_exclude t = false -> is_lower_bound t = true -> exists d, t = TLower d.
  Proof. destruct t as [|[]|]; simpl; try discriminate; eauto. Qed.
  Lemma holeless_upper t : okt t = true -> is_point_exclude t = false -> is_upper_bound t = true -> exists d, t = TUpper d.
  Proof. destruct t as [|[]|]; simpl; try discriminate; eauto. Qed.

  Lemma brep_front_nil dbg it : brep it [] -> exists it', iter_next dbg it = Ok (None, it') /\ brep it' [].
  Proof.
    intros (s & -> & H & N & E). generalize (iter_next_pieces dbg s None H ltac:(discriminate)). rewrite <- E.
    intros [-> _]. exists (st [] None). split; [reflexivity|]. exists []. auto.
  Qed.
  Lemma brep_front dbg it a l : brep it (a :: l) -> exists it', iter_next dbg it = Ok (Some a, it') /\ brep it' l.
  Proof.
    intros (s & -> & H & N & E). generalize (iter_next_pieces dbg s None H ltac:(discriminate)). rewrite <- E.
    intros (s' & o' & H' & P' & -> & _ & [C ->] & Eq). exists (st s' o'). split; auto.
    assert (o' = None) as ->.
    { destruct o' as [t|]; auto. exfalso.
      unfold holeless in N. apply Forall_app in N as [NC _].
      (* a saved tine is one of those passed *)
      unfold iter_next, st in Eq. cbn [saved_lower tine_iter saved_upper] in Eq.
      destruct C as [|t0 C]; simpl app in Eq.
      - destruct s' as [|t0 s']; [discriminate|]. cbn [btree_first btree_rest_front] in Eq.
        apply (f_equal (fun r => match r with Ok (_, it) => length (tine_iter it) | Panic => 0%nat end)) in Eq. simpl in Eq.
        destruct t0 as [d|[d|d|]|d]; simpl in Eq; try discriminate;
          try (destruct dbg; simpl in Eq);
          repeat match type of Eq with context [match ?x with _ => _ end] => destruct x; simpl in Eq; try discriminate end; lia.
      - inversion NC as [|? ? N0 NC']; subst. cbn [btree_first btree_rest_front] in Eq.
        destruct (is_point_include t0) eqn:EI.
        + destruct t0 as [|[]|]; try discriminate.
        + assert (Eq' : (do _ <- debug_assert dbg (is_lower_bound t0);
            let '(second, ts', su') := match btree_first (C ++ s') with
              | Some t => (Some t, btree_rest_front (C ++ s'), None) | None => (None, C ++ s', None) end in
            match second with
            | None => Panic
            | Some upper =>
              let sl' := if is_point_exclude upper then Some upper else None in
              do _ <- debug_assert dbg (is_upper_bound upper);
              Ok (Some (raw_new (tine_into_inner t0) (tine_into_inner upper)),
                {| tine_iter := ts'; saved_lower := sl'; saved_upper := su' |})
            end) = Ok (Some a, st s' (Some t))).
          { destruct t0 as [[]|[]|[]]; try discriminate; exact Eq. }
          clear Eq. destruct (debug_assert dbg (is_lower_bound t0)); [|discriminate]. cbn [bind] in Eq'.
          destruct C as [|u C].
          * simpl app in Eq'. destruct s' as [|u s']; [discriminate|]. cbn [btree_first btree_rest_front] in Eq'.
            destruct (debug_assert dbg (is_upper_bound u)); [|discriminate]. cbn [bind] in Eq'.
            apply (f_equal (fun r => match r with Ok (_, it) => length (tine_iter it) | Panic => 0%nat end)) in Eq'. simpl in Eq'. lia.
          * cbn [app btree_first btree_rest_front] in Eq'. inversion NC' as [|? ? N1 _]; subst. rewrite N1 in Eq'.
            destruct (debug_assert dbg (is_upper_bound u)); [|discriminate]. cbn [bind] in Eq'. unfold st in Eq'. inversion Eq'. }
    exists s'. repeat split; auto. unfold holeless in *. now apply Forall_app in N as [_ ?].
  Qed.

  Lemma brep_back_nil dbg it : brep it [] -> exists it', iter_next_back dbg it = Ok (None, it') /\ brep it' [].
  Proof.
    intros (s & -> & H & N & E). generalize (iter_next_pieces dbg s None H ltac:(discriminate)). rewrite <- E.
    intros [-> _]. exists (st [] None). split; [reflexivity|]. exists []. auto.
  Qed.
  Lemma brep_back dbg it a l : brep it (l ++ [a]) -> exists it', iter_next_back dbg it = Ok (Some a, it') /\ brep it' l.
  Proof.
    intros (s & -> & H & N & E). destruct (snoc_cases s) as [->|(s1 & u & ->)]; [destruct l; discriminate|].
    unfold holeless in N. apply Forall_app in N as [N1 Nu]. inversion Nu as [|? ? Nu' _]; subst.
    apply chain_app in H as (c & H1 & H2). apply chain_cons in H2 as (K & U & H2). simpl in H2. apply eqb_prop in H2.
    unfold iter_next_back, st. cbn [saved_upper tine_iter saved_lower]. rewrite last_app_one, rest_back_app_one.
    destruct (is_upper_bound u) eqn:EU; subst c.
    - destruct (holeless_upper u K Nu' EU) as [d ->].
      destruct (snoc_cases s1) as [->|(s2 & t & ->)]; [discriminate|].
      apply Forall_app in N1 as [N2 Nt]. inversion Nt as [|? ? Nt' _]; subst.
      apply chain_app in H1 as (c & H1 & H3). apply chain_cons in H3 as (Kt & Ut & H3). simpl in H3. apply eqb_prop in H3.
      destruct (holeless_lower t Kt Nt' H3) as [d' ->]. simpl in Ut. subst c.
      rewrite last_app_one, rest_back_app_one. exists (st s2 None).
      assert (Ep : pieces None ((s2 ++ [TLower d']) ++ [TUpper d]) = pieces None s2 ++ [raw_new d' d]).
      { rewrite <- app_assoc, pieces_app; auto. intros w Hw; discriminate. }
      rewrite Ep in E. apply app_inj_tail in E as [El Ea]. subst l a. split.
      + destruct dbg; reflexivity.
      + exists s2. auto.
    - assert (Eu : exists x, u = TPoint (Include x)) by (destruct u as [[]|[]|[]]; simpl in *; try discriminate; eauto).
      destruct Eu as [x ->]. exists (st s1 None).
      assert (Ep : pieces None (s1 ++ [TPoint (Include x)]) = pieces None s1 ++ [Point x]).
      { rewrite pieces_app; auto. intros w Hw; discriminate. }
      rewrite Ep in E. apply app_inj_tail in E as [El Ea]. subst l a. split; [reflexivity|]. exists s1. auto.
  Qed.

  Lemma brep_runs dbg s sched : wf s -> holeless s ->
    runs (iter_next dbg) (iter_next_back dbg) (tree_interval_iter s) sched (deque_run (pieces None s) sched).
  Proof.
    intros [_ H] N. apply (runs_of_rep _ _ brep).
    - apply brep_front_nil.
    - intros it a l. apply brep_front.
    - apply brep_back_nil.
    - intros it a l. apply brep_back.
    - exists s. auto.
  Qed.

  Lemma pieces_drains dbg s : wf s -> drains (iter_next dbg) (tree_interval_iter s) (pieces None s).
  Proof.
    intros [_ H].
    apply (drains_of_rep (iter_next dbg) (fun it l => exists s o, it = st s o /\ stok s o /\ l = pieces o s)).
    - intros it (s1 & o & -> & [H1 P1] & E). generalize (iter_next_pieces dbg s1 o H1 P1). rewrite <- E.
      intros [-> ->]. eexists. reflexivity.
    - intros it a l (s1 & o & -> & [H1 P1] & E). generalize (iter_next_pieces dbg s1 o H1 P1). rewrite <- E.
      intros (s' & o' & H' & P' & El & _ & _ & Eq). exists (st s' o'). split; auto. exists s', o'. split; auto. split; auto. split; auto.
    - exists s, None. split; auto. split; auto. split; auto. discriminate.
  Qed.
End PTree6b.

(** * What iteration from both ends can yield at all (C108)

    [next_back] is wrong on trees in which two intervals touch at an excluded
    value (C34, C51).  With debug assertions it still yields nothing that is
    not there, and nothing twice; without them it does. *)
From Coq Require Import List Bool ZArith Lia Sorted Permutation.
From Verif Require Import Base OrdFacts Pos PFinite Ints MBound MRaw MNormalize MTine MBTree MTineTree MInterval MSelection
  Spec Spec_Tree Spec_Sel PRaw PRaw2 PNorm PIter PInterval PBTree PTree PTreeOps PTreeIsect PTree2 PTree3 PTree4 PTree5 PTree6 PTree7
  PSel PSel2 PSel3 PSel4 PSel5 Instances
  Properties_Interval Properties_Tree Properties_Tree2 Properties_Selection Properties_Selection4 PBoth Properties_Both Properties_Fused Properties_Exact.
Import ListNotations.
Local Arguments cmp : simpl never.

Section Pieces.
  Context {T : Type} {O : Ord T}.
  Implicit Types (t u w : Tine T) (s : TineTree T) (it : Iter T) (r : RawInterval T).

  Lemma adjacent_piece t u B : forall A o, chain (has o) (A ++ t :: u :: B) false = true ->
    is_lower_bound t = true -> is_upper_bound u = true ->
    In (raw_new (tine_into_inner t) (tine_into_inner u)) (pieces o (A ++ t :: u :: B)).
  Proof.
    induction A as [|a A IH]; intros o H Lt Uu; simpl app in *; apply chain_cons in H as (K & U & H); cbn [pieces].
    - destruct o as [l|], t as [e|[e|e|]|e]; simpl in *; try discriminate; auto.
    - destruct o as [l|].
      + right. apply IH; auto. destruct a as [e|[e|e|]|e]; simpl in *; try discriminate; auto.
      + destruct a as [e|[e|e|]|e]; simpl in *; try discriminate; [now apply (IH (Some (TLower e)))|right; now apply IH].
  Qed.
  Lemma point_piece x B : forall A o, chain (has o) (A ++ TPoint (Include x) :: B) false = true ->
    In (Point x) (pieces o (A ++ TPoint (Include x) :: B)).
  Proof.
    induction A as [|a A IH]; intros o H; simpl app in *; apply chain_cons in H as (K & U & H); cbn [pieces].
    - destruct o as [l|]; [discriminate|]. now left.
    - destruct o as [l|].
      + right. apply IH; auto. destruct a as [e|[e|e|]|e]; simpl in *; try discriminate; auto.
      + destruct a as [e|[e|e|]|e]; simpl in *; try discriminate; [now apply (IH (Some (TLower e)))|right; now apply IH].
  Qed.

  (** The tine at which an interval ends. *)
  Definition ends_at r u : Prop :=
    raw_upper_bound r = Some (tine_into_inner u) /\ (is_upper_bound u = true \/ is_point_include u = true).

  Lemma ends_at_same s r u w : srt s -> In u s -> In w s -> ends_at r u -> ends_at r w -> u = w.
  Proof.
    intros S Iu Iw [E1 K1] [E2 K2]. rewrite E1 in E2. injection E2 as E2.
    assert (L : loc u = loc w).
    { unfold loc. rewrite E2. destruct (tine_into_inner w) eqn:Ew; auto.
      destruct u as [[]|[]|[]], w as [[]|[]|[]]; simpl in *; try discriminate; auto; destruct K1, K2; discriminate. }
    clear - S Iu Iw L. induction S as [|t s S IH Ft]; [destruct Iu|]. rewrite Forall_forall in Ft.
    destruct Iu as [<-|Iu], Iw as [<-|Iw]; auto.
    - specialize (Ft w Iw). rewrite L in Ft. now apply plt_irrefl in Ft.
    - specialize (Ft u Iu). rewrite L in Ft. now apply plt_irrefl in Ft.
  Qed.
  Lemma srt_not_in s1 t s2 : srt (s1 ++ t :: s2) -> ~ In t s1 /\ ~ In t s2.
  Proof.
    intros S. apply srt_app in S as (_ & S2 & S3). inversion S2 as [|? ? _ F2]; subst. rewrite Forall_forall in F2, S3. split; intros H.
    - specialize (S3 t H). inversion S3 as [|? ? X _]; subst. now apply plt_irrefl in X.
    - specialize (F2 t H). now apply plt_irrefl in F2.
  Qed.

  (** Where the iterator stands: it holds a stretch of the tines, and perhaps a
      [Point(Exclude)] from just before the stretch or from after it. *)
  Definition stands s it : Prop :=
    exists A B, s = A ++ tine_iter it ++ B /\ saved_upper it = None /\
      match saved_lower it with
      | None => True
      | Some w => is_point_exclude w = true /\ (In w B \/ exists A', A = A' ++ [w])
      end.

  (** What a call may return. *)
  Definition proper_yield s it (o : option (RawInterval T)) it' : Prop :=
    incl (tine_iter it') (tine_iter it) /\
    match o with
    | None => True
    | Some r => r = Empty \/ In r (pieces None s) /\ exists u, In u (tine_iter it) /\ ~ In u (tine_iter it') /\ ends_at r u
    end.

  (** Two neighbouring tines between which the tree is inside. *)
  Lemma tines_between t u : okt t = true -> okt u = true -> is_lower_bound t = true -> is_upper_bound u = true -> lt (loc t) (loc u) ->
    ends_at (raw_new (tine_into_inner t) (tine_into_inner u)) u.
  Proof.
    intros Kt Ku Lt Uu H. split; auto. apply raw_new_lower.
    destruct t as [[]|[]|[]], u as [[]|[]|[]]; simpl in *; try discriminate; unfold loc in H; simpl in H; porder.
  Qed.
  (** A lower end behind the upper end. *)
  Lemma tines_behind w u : okt u = true -> is_point_exclude w = true -> is_upper_bound u = true -> lt (loc u) (loc w) ->
    raw_new (tine_into_inner w) (tine_into_inner u) = Empty.
  Proof.
    intros K P U H. destruct w as [|[|y|]|]; try discriminate.
    destruct u as [[x|x|]|[x|x|]|[x|x|]]; simpl in *; try discriminate; unfold loc in H; simpl in H;
      try (exfalso; clear - H; porder); unfold raw_left_open, raw_open; destruct (cmp y x) eqn:E; auto; exfalso; clear - H E; porder.
  Qed.

  Lemma wf_at s A t B : wf s -> s = A ++ t :: B -> okt t = true /\ Forall (fun u => lt (loc u) (loc t)) A /\ Forall (fun u => lt (loc t) (loc u)) B.
  Proof.
    intros [S H] ->. apply chain_app in H as (c & _ & H). apply chain_cons in H as (K & _ & _). split; auto.
    apply srt_app in S as (_ & S & S2). inversion S as [|? ? _ F2]; subst. split; auto.
    rewrite Forall_forall in *. intros u Hu. specialize (S2 u Hu). now inversion S2.
  Qed.

  Lemma yield_between s A t u B : wf s -> s = A ++ t :: u :: B -> is_lower_bound t = true -> is_upper_bound u = true ->
    let r := raw_new (tine_into_inner t) (tine_into_inner u) in In r (pieces None s) /\ ends_at r u.
  Proof.
    intros W E Lt Uu. destruct (wf_at s A t _ W E) as (Kt & _ & Ft). inversion Ft as [|? ? Lu _]; subst.
    destruct (wf_at _ (A ++ [t]) u B W) as (Ku & _); [now rewrite <- app_assoc|].
    split; [apply adjacent_piece; auto; apply W|now apply tines_between].
  Qed.

  Lemma stands_next s it o it' : wf s -> stands s it -> iter_next true it = Ok (o, it') -> stands s it' /\ proper_yield s it o it'.
  Proof.
    intros W (A & B & E & N & L) C. unfold iter_next in C. rewrite N in C. destruct it as [ts sl su]. simpl in *. subst su.
    destruct sl as [w|].
    - destruct L as [Pw Lw]. destruct w as [|[|y|]|]; try discriminate. simpl in C.
      destruct ts as [|u ts]; [discriminate|]. simpl in C.
      destruct (is_upper_bound u) eqn:Uu; [|discriminate]. simpl in C. injection C as <- <-.
      assert (Eu : s = A ++ u :: ts ++ B) by exact E.
      destruct (wf_at s A u _ W Eu) as (Ku & _ & Fu).
      destruct (srt_not_in A u (ts ++ B)) as [_ Nu]; [rewrite <- Eu; apply W|].
      split; [|split; [simpl; intros z Hz; now right|]].
      + exists (A ++ [u]), B. simpl. rewrite <- app_assoc. split; auto. split; auto.
        destruct (is_point_exclude u) eqn:Pu; auto. split; auto. right. now exists A.
      + destruct Lw as [Lw|[A' EA]].
        * left. apply (tines_behind (TPoint (Exclude y)) u); auto. rewrite Forall_forall in Fu. apply Fu. apply in_or_app. now right.
        * right. destruct (yield_between s A' (TPoint (Exclude y)) u (ts ++ B) W) as [I1 I2]; auto.
          { rewrite EA, <- app_assoc in Eu. exact Eu. }
          split; [exact I1|]. exists u. simpl. split; [now left|]. split; [|exact I2]. intros Hz. apply Nu. apply in_or_app. now left.
    - destruct ts as [|t ts]; simpl in C.
      + injection C as <- <-. split; [exists A, B; simpl; auto|split; simpl; auto; apply incl_refl].
      + assert (Et : s = A ++ t :: ts ++ B) by exact E.
        destruct (wf_at s A t _ W Et) as (Kt & _ & Ft).
        assert (Pt : (exists x, t = TPoint (Include x)) \/
          is_lower_bound t = true /\ exists u ts', ts = u :: ts' /\ is_upper_bound u = true /\
            o = Some (raw_new (tine_into_inner t) (tine_into_inner u)) /\
            it' = {| tine_iter := ts'; saved_lower := if is_point_exclude u then Some u else None; saved_upper := None |}).
        { destruct (is_point_include t) eqn:PI; [left; destruct t as [|[x| |]|]; try discriminate; eauto|right].
          assert (C' : (do _ <- debug_assert true (is_lower_bound t);
            match btree_first ts with None => Panic | Some u =>
              do _ <- debug_assert true (is_upper_bound u);
              Ok (Some (raw_new (tine_into_inner t) (tine_into_inner u)),
                {| tine_iter := btree_rest_front ts; saved_lower := if is_point_exclude u then Some u else None; saved_upper := None |}) end) = Ok (o, it')).
          { rewrite <- C. destruct t as [|[x|x|]|]; try discriminate; destruct ts; reflexivity. }
          destruct (is_lower_bound t); [|discriminate]. destruct ts as [|u ts]; [discriminate|]. simpl in C'.
          destruct (is_upper_bound u) eqn:Uu; [|discriminate]. simpl in C'. injection C' as <- <-. split; auto. exists u, ts. auto. }
        destruct Pt as [[x ->]|(Lt & u & ts' & -> & Uu & -> & ->)].
        * injection C as <- <-. split; [|split; [simpl; intros z Hz; now right|]].
          -- exists (A ++ [TPoint (Include x)]), B. simpl. rewrite <- app_assoc. auto.
          -- right. split; [rewrite Et; apply point_piece; rewrite <- Et; apply W|].
             destruct (srt_not_in A (TPoint (Include x)) (ts ++ B)) as [_ Nu]; [rewrite <- Et; apply W|].
             exists (TPoint (Include x)). simpl. split; [now left|]. split; [|now split; [|right]]. intros Hz. apply Nu. apply in_or_app. now left.
        * simpl. split; [|split; [simpl; intros z Hz; right; now right|]].
          -- exists (A ++ [t; u]), B. simpl. rewrite <- app_assoc. split; auto. split; auto.
             destruct (is_point_exclude u) eqn:Pu; auto. split; auto. right. exists (A ++ [t]). now rewrite <- app_assoc.
          -- right. destruct (yield_between s A t u (ts' ++ B) W Et Lt Uu) as [I1 I2].
             split; [exact I1|]. exists u. simpl. split; [right; now left|]. split; [|exact I2]. intros Hz.
             destruct (srt_not_in (A ++ [t]) u (ts' ++ B)) as [_ Nu].
             { rewrite <- app_assoc. simpl. change (A ++ t :: u :: ts' ++ B) with (A ++ (t :: u :: ts') ++ B). rewrite <- E. apply W. }
             apply Nu. apply in_or_app. now left.
  Qed.

  Lemma stands_back s it o it' : wf s -> stands s it -> iter_next_back true it = Ok (o, it') -> stands s it' /\ proper_yield s it o it'.
  Proof.
    intros W (A & B & E & N & L) C. unfold iter_next_back in C. rewrite N in C. destruct it as [ts sl su]. simpl in *. subst su.
    destruct (snoc_cases ts) as [->|(ts1 & u & ->)].
    { simpl in C. injection C as <- <-. split; [exists A, B; simpl; auto|split; simpl; auto; apply incl_refl]. }
    rewrite last_app_one, rest_back_app_one in C.
    assert (Eu : s = (A ++ ts1) ++ u :: B) by (rewrite E, <- !app_assoc; reflexivity).
    destruct (wf_at s _ u _ W Eu) as (Ku & Fu & _).
    destruct (srt_not_in (A ++ ts1) u B) as [Nu _]; [rewrite <- Eu; apply W|].
    assert (Nu1 : ~ In u ts1) by (intros Hz; apply Nu; apply in_or_app; now right).
    assert (I1 : incl ts1 (ts1 ++ [u])) by (intros z Hz; apply in_or_app; now left).
    assert (Iu : In u (ts1 ++ [u])) by (apply in_or_app; right; now left).
    assert (Pt : (exists x, u = TPoint (Include x)) \/
      is_upper_bound u = true /\ exists t sl' ts', is_lower_bound t = true /\
        (ts1 = ts' ++ [t] /\ sl' = sl \/ ts1 = [] /\ ts' = [] /\ sl = Some t /\ sl' = None) /\
        o = Some (raw_new (tine_into_inner t) (tine_into_inner u)) /\
        it' = {| tine_iter := ts'; saved_lower := if is_point_exclude t then Some t else sl'; saved_upper := None |}).
    { destruct (is_point_include u) eqn:PI; [left; destruct u as [|[x| |]|]; try discriminate; eauto|right].
      assert (C' : (do _ <- debug_assert true (is_upper_bound u);
        let '(second, ts', sl') := match btree_last ts1 with Some t => (Some t, btree_rest_back ts1, sl) | None => (sl, ts1, None) end in
        match second with None => Panic | Some t =>
          do _ <- debug_assert true (is_lower_bound t);
          Ok (Some (raw_new (tine_into_inner t) (tine_into_inner u)),
            {| tine_iter := ts'; saved_lower := if is_point_exclude t then Some t else sl'; saved_upper := None |}) end) = Ok (o, it')).
      { rewrite <- C. destruct u as [|[x|x|]|]; try discriminate; reflexivity. }
      clear C. destruct (is_upper_bound u); [|discriminate]. simpl in C'. split; auto.
      destruct (snoc_cases ts1) as [->|(ts2 & t & ->)].
      - simpl in C'. destruct sl as [t|]; [|discriminate]. destruct (is_lower_bound t) eqn:Lt; [|discriminate]. simpl in C'. injection C' as <- <-.
        exists t, None, []. split; auto. split; auto.
      - rewrite last_app_one, rest_back_app_one in C'. destruct (is_lower_bound t) eqn:Lt; [|discriminate]. simpl in C'. injection C' as <- <-.
        exists t, sl, ts2. split; auto. }
    destruct Pt as [[x ->]|(Uu & t & sl' & ts' & Lt & D & -> & ->)].
    - injection C as <- <-. split; [|split; [exact I1|]].
      + exists A, (TPoint (Include x) :: B). simpl. split; [rewrite E, <- !app_assoc; reflexivity|]. split; auto.
        destruct sl as [w|]; auto. destruct L as [Pw [Lw|Lw]]; split; auto with datatypes.
      + right. split; [rewrite Eu; apply point_piece; rewrite <- Eu; apply W|].
        exists (TPoint (Include x)). split; [exact Iu|]. split; [exact Nu1|]. now split; [|right].
    - destruct D as [[-> ->]|(-> & -> & -> & ->)].
      + split; [|split; [simpl; intros z Hz; apply in_or_app; left; apply in_or_app; now left|]].
        * exists A, (t :: u :: B). simpl. split; [rewrite E, <- !app_assoc; reflexivity|]. split; auto.
          destruct (is_point_exclude t) eqn:Pt; [split; auto with datatypes|].
          destruct sl as [w|]; auto. destruct L as [Pw [Lw|Lw]]; split; auto with datatypes.
        * right. destruct (yield_between s (A ++ ts') t u B W) as [J1 J2]; auto; [rewrite E, <- !app_assoc; reflexivity|].
          split; [exact J1|]. exists u. split; [exact Iu|]. split; [|exact J2]. simpl. intros Hz. apply Nu1. apply in_or_app. now left.
      + destruct L as [Pw Lw]. rewrite Pw. split; [|split; [simpl; intros z []|]].
        * exists A, (u :: B). simpl. split; [exact E|]. split; auto. split; auto. destruct Lw as [Lw|Lw]; auto with datatypes.
        * destruct Lw as [Lw|[A' EA]].
          -- left. apply tines_behind; auto. destruct (wf_at s _ u _ W Eu) as (_ & _ & Fb). rewrite Forall_forall in Fb. now apply Fb.
          -- right. destruct (yield_between s A' t u B W) as [J1 J2]; auto; [rewrite E, EA, <- !app_assoc; reflexivity|].
             split; [exact J1|]. exists u. split; [exact Iu|]. split; [|exact J2]. simpl. tauto.
  Qed.
  Lemma pieces_nonempty s r : wf s -> In r (pieces None s) -> r <> Empty.
  Proof.
    intros [S H] I ->. destruct (pieces_ends s None Empty H) as (t & u & _ & _ & _ & _ & E & _); auto; [intros w Hw; discriminate|discriminate].
  Qed.

  Lemma stands_runs s sched : wf s -> forall it out, stands s it -> runs (iter_next true) (iter_next_back true) it sched out ->
    (forall r, In (Some r) out -> r = Empty \/ In r (pieces None s) /\ exists u, In u (tine_iter it) /\ ends_at r u) /\
    NoDup (filter (fun r => negb (raw_is_empty r)) (somes out)).
  Proof.
    intros W it out St R. induction R as [it|it it' o sched out E R IH|it it' o sched out E R IH]; [split; [intros r []|constructor]| |].
    all: assert (K : stands s it' /\ proper_yield s it o it') by (first [now apply stands_next|now apply stands_back]).
    all: clear E R; destruct K as [St' [Inc Y]]; destruct (IH St') as [IH1 IH2]; clear IH; split.
    1, 3: intros r [->|Hr];
      [destruct Y as [Y|(I1 & u & U1 & U2 & U3)]; auto; right; split; eauto
      |destruct (IH1 r Hr) as [->|(I1 & u & U1 & U3)]; auto; right; split; eauto].
    all: destruct o as [r|]; [|exact IH2]; unfold somes in *; simpl; destruct (raw_is_empty r) eqn:Er; simpl; auto;
      constructor; auto; intros Hr; apply filter_In in Hr as [Hr _];
      assert (Hr' : In (Some r) out) by (apply in_concat in Hr as (l & Hl & Hr); apply in_map_iff in Hl as ([a|] & <- & Ha); simpl in Hr; [destruct Hr as [->|[]]; auto|destruct Hr]);
      destruct Y as [->|(I1 & u & U1 & U2 & U3)]; [discriminate|];
      destruct (IH1 r Hr') as [->|(_ & w & W1 & W3)]; [discriminate|];
      assert (Su : forall z, In z (tine_iter it) -> In z s) by (destruct St as (A & B & -> & _); intros z Hz; apply in_or_app; right; apply in_or_app; now left);
      apply U2; rewrite (ends_at_same s r u w); auto; apply W.
  Qed.

  Lemma stands_start s : stands s (tree_interval_iter s).
  Proof. exists [], []. simpl. now rewrite app_nil_r. Qed.
End Pieces.

(** ** The intervals of a tree *)

(** With debug assertions, whatever calls are made at the two ends and in
    whatever order: every interval that comes out is one of the tree's, unless
    it is empty, and none comes out twice. *)
Theorem C108_tree_sound {T} {O : Ord T} (s : TineTree T) l sched out : tree_wf s -> intervals_are true s l ->
  runs (iter_next true) (iter_next_back true) (tree_interval_iter s) sched out ->
  (forall r, In (Some r) out -> r = Empty \/ In r l) /\ NoDup (filter (fun r => negb (raw_is_empty r)) (somes out)).
Proof.
  intros W Hl R. apply wf_tree_wf in W. rewrite (intervals_pieces true s l W Hl).
  destruct (stands_runs s sched W _ out (stands_start s) R) as [H1 H2]. split; auto.
  intros r Hr. destruct (H1 r Hr) as [->|[K _]]; auto.
Qed.
Print Assumptions C108_tree_sound.

(** ** The intervals of a Selection *)
Section Sel.
  Context {T : Type} {O : Ord T} {F : Finite T}.
  Implicit Types (s : Selection T).

  Lemma sel_interval_runs dbg (it : Iter T) sched out : runs (sel_interval_next dbg) (sel_interval_next_back dbg) it sched out ->
    exists outr, runs (iter_next dbg) (iter_next_back dbg) it sched outr /\ out = map (option_map nrm) outr.
  Proof.
    induction 1 as [it|it it' o sched out E R (outr & R' & ->)|it it' o sched out E R (outr & R' & ->)]; [exists []; split; constructor| |].
    - unfold sel_interval_next in E. destruct (iter_next dbg it) as [[x j]|] eqn:E'; [|discriminate]. simpl in E. injection E as <- <-.
      exists (x :: outr). split; [econstructor; eauto|reflexivity].
    - unfold sel_interval_next_back in E. destruct (iter_next_back dbg it) as [[x j]|] eqn:E'; [|discriminate]. simpl in E. injection E as <- <-.
      exists (x :: outr). split; [econstructor; eauto|reflexivity].
  Qed.
  Lemma in_somes {A} (a : A) out : In a (somes out) <-> In (Some a) out.
  Proof.
    unfold somes. induction out as [|[b|] out IH]; simpl; [tauto| |].
    - rewrite IH. split; intros [E|E]; auto; left; congruence.
    - rewrite IH. split; [auto|intros [E|E]; [discriminate|auto]].
  Qed.
  Lemma somes_map {A B} (f : A -> B) out : somes (map (option_map f) out) = map f (somes out).
  Proof. unfold somes. induction out as [|[a|] out IH]; simpl; auto. now rewrite IH. Qed.

  (** Every Selection: an interval that comes out is empty or one of the
      Selection's, and no value lies in two of those that come out. *)
  Theorem C108_intervals_sound dbg (p : prog T) s l sched out : inputs false p -> run dbg p = Ok s -> sel_intervals_are true s l ->
    runs (sel_interval_next true) (sel_interval_next_back true) (sel_interval_iter s) sched out ->
    (forall i, In (Some i) out -> interval_is_empty i = true \/ In i l) /\
    ForallOrdPairs (fun i j => forall x, ~ (ipoints i x /\ ipoints j x)) (somes out).
  Proof.
    intros H E Hl R. pose proof (run_wf dbg p s H E) as W. apply sel_intervals_pieces in Hl; auto. subst l.
    apply sel_interval_runs in R as (outr & R & ->). destruct (stands_runs s sched W _ outr (stands_start s) R) as [H1 H2]. split.
    - intros i Hi. apply in_map_iff in Hi as ([r|] & [= <-] & Hr). destruct (H1 r Hr) as [->|[K _]]; [left; reflexivity|right; now apply in_map].
    - rewrite somes_map. assert (H3 : forall r, In r (somes outr) -> r = Empty \/ In r (pieces None s)).
      { intros r Hr. apply in_somes in Hr. destruct (H1 r Hr) as [->|[K _]]; auto. }
      clear H1 R. induction (somes outr) as [|r rs IH]; simpl; [constructor|]. simpl in H2.
      assert (IH' : ForallOrdPairs (fun i j : Interval T => forall x, ~ (ipoints i x /\ ipoints j x)) (map nrm rs)).
      { apply IH; [|intros k Hk; apply H3; now right]. destruct (negb (raw_is_empty r)); auto. now inversion H2. }
      constructor; auto. apply Forall_map, Forall_forall. intros k Hk x [Hx Hy]. apply (proj1 (nrm_points _ _)) in Hx. apply (proj1 (nrm_points _ _)) in Hy.
      destruct (H3 r (or_introl eq_refl)) as [->|Ir]; [discriminate|]. destruct (H3 k (or_intror Hk)) as [->|Ik]; [discriminate|].
      assert (r = k) as -> by (apply (piece_unique s r k (At x)); auto; rewrite covers_At; auto).
      assert (N : negb (raw_is_empty k) = true) by (destruct k; auto; discriminate). rewrite N in H2. inversion H2 as [|? ? N1 _]; subst.
      apply N1. apply filter_In. auto.
  Qed.

  (** ** The values of a Selection *)

  (** The current interval is what is left of one that has come out. *)
  Definition stands_at s (it : SelIter T) : Prop :=
    stands s (si_intervals it) /\ exists lc, irep (si_current it) lc /\
      (lc = [] \/ exists r u, In r (pieces None s) /\ In u s /\ ~ In u (tine_iter (si_intervals it)) /\ ends_at r u /\
        forall x, In x lc -> raw_contains r x = true).
  (** The values still to come. *)
  Definition to_come s (it : SelIter T) (x : T) : Prop :=
    ipoints (si_current it) x \/
    exists r u, In r (pieces None s) /\ In u (tine_iter (si_intervals it)) /\ ends_at r u /\ raw_contains r x = true.

  Lemma stands_in s (it : Iter T) : stands s it -> incl (tine_iter it) s.
  Proof. intros (A & B & -> & _) z Hz. apply in_or_app; right; apply in_or_app; now left. Qed.

  Lemma sorted_nodup (l : list T) x m : l = x :: m \/ l = m ++ [x] -> StronglySorted lt l -> ~ In x m.
  Proof.
    intros [->| ->] S Hx.
    - inversion S as [|? ? _ Fx]; subst. rewrite Forall_forall in Fx. specialize (Fx x Hx). clear - Fx. order.
    - apply sorted_app_lt in S as [_ S]. rewrite Forall_forall in S; specialize (S x Hx). clear - S. order.
  Qed.

  (** Taking one value [x] off the interval [i], whose values belong to [r]. *)
  Lemma take_one s (it its : Iter T) cur cur' r u x l lc : wf s -> stands s it ->
    l = x :: lc \/ l = lc ++ [x] -> irep cur l -> irep cur' lc ->
    In r (pieces None s) -> In u s -> ~ In u (tine_iter its) -> ends_at r u -> (forall y, In y l -> raw_contains r y = true) -> stands s its ->
    stands_at s {| si_intervals := its; si_current := cur' |} /\ ~ to_come s {| si_intervals := its; si_current := cur' |} x /\
    (forall y, ipoints cur' y -> ipoints cur y) /\ ipoints cur x.
  Proof.
    intros W St El [Sc Lc] [Sc' Lc'] Ir Iu Nu Eu Hr St'.
    assert (Ix : In x l) by (destruct El as [->| ->]; [now left|apply in_or_app; right; now left]).
    assert (Il : incl lc l) by (destruct El as [->| ->]; intros z Hz; [now right|apply in_or_app; now left]).
    split; [|split; [|split]].
    - split; auto. exists lc. split; [now split|]. right. exists r, u. simpl. auto 8.
    - intros [K|(r' & u' & Ir' & Iu' & Eu' & K)]; simpl in *.
      + apply (proj2 Lc') in K. revert K. apply (sorted_nodup l); auto. apply Lc.
      + assert (r = r') by (apply (piece_unique s r r' (At x)); auto; rewrite covers_At; auto). subst r'.
        apply Nu. rewrite (ends_at_same s r u u'); auto; [apply W|now apply (stands_in s its)].
    - intros y Hy. apply (proj2 Lc). apply Il. now apply (proj2 Lc').
    - now apply (proj2 Lc).
  Qed.

  Lemma nrm_rep s r : wf s -> gapless (den false s) -> In r (pieces None s) -> exists l, irep (nrm r) l /\ forall y, In y l -> raw_contains r y = true.
  Proof.
    intros W G Hr. pose proof (piece_solid s r W G Hr) as Sr. destruct (solid_lists _ Sr) as (l & Hl). exists l. split; [now split|].
    intros y Hy. apply nrm_points. now apply (proj2 Hl).
  Qed.

  Lemma still_to_come s (its its' : Iter T) cur cur' : incl (tine_iter its') (tine_iter its) -> (forall y, ipoints cur' y -> ipoints cur y) ->
    forall y, to_come s {| si_intervals := its'; si_current := cur' |} y -> to_come s {| si_intervals := its; si_current := cur |} y.
  Proof. intros I C y [K|(r & u & Ir & Iu & K)]; [left; now apply C|right; exists r, u; simpl in *; auto]. Qed.

  Lemma stands_at_call s it c o it' : wf s -> gapless (den false s) -> stands_at s it ->
    call (sel_next true) (sel_next_back true) c it = Ok (o, it') ->
    stands_at s it' /\ (forall y, to_come s it' y -> to_come s it y) /\
    match o with Some x => to_come s it x /\ ~ to_come s it' x | None => True end.
  Proof.
    intros W G (St & lc & Rc & Cl) C. destruct it as [its cur]. simpl in St, Rc, Cl.
    set (inext := match c with Front => interval_next | Back => interval_next_back end : Interval T -> res (option T * Interval T)).
    assert (C' : (do (x, cur1) <- inext cur;
       match x with
       | Some _ => Ok (x, {| si_intervals := its; si_current := cur1 |})
       | None => do (y, its1) <- call (iter_next true) (iter_next_back true) c its;
                 match y with
                 | None => Ok (None, {| si_intervals := its1; si_current := cur1 |})
                 | Some r => do (x', cur') <- inext (nrm r); Ok (x', {| si_intervals := its1; si_current := cur' |})
                 end
       end) = Ok (o, it')) by (destruct c; exact C).
    assert (IN : forall i l, irep i l -> (l = [] /\ inext i = Ok (None, i)) \/
       exists x m i', (l = x :: m \/ l = m ++ [x]) /\ inext i = Ok (Some x, i') /\ irep i' m).
    { intros i l Ri. destruct c; unfold inext.
      - destruct l as [|x m]; [left; split; auto; now apply irep_nil_next|right]. destruct (irep_front _ _ _ Ri) as (i' & E & R). eauto 7.
      - destruct (ends l) as [->|(m & x & ->)]; [left; split; auto; now apply irep_nil_back|right].
        destruct (irep_back _ _ _ Ri) as (i' & E & R). eauto 7. }
    clear C. clearbody inext.
    destruct (IN cur lc Rc) as [[-> E]|(x & m & i' & El & E & Ri)]; rewrite E in C'; simpl in C'.
    - destruct (call (iter_next true) (iter_next_back true) c its) as [[y its1]|] eqn:Ec; [|discriminate]. simpl in C'.
      assert (K : stands s its1 /\ proper_yield s its y its1) by (destruct c; [now apply stands_next|now apply stands_back]).
      destruct K as [St1 [Inc Y]]. destruct y as [r|].
      + destruct Y as [->|(Ir & u & Iu & Nu & Eu)].
        * destruct (IN (nrm Empty) []) as [[_ E2]|(x & m & i' & [X|X] & _)]; [apply irep_empty| |discriminate|destruct m; discriminate].
          rewrite E2 in C'. simpl in C'. injection C' as <- <-. split; [|split; auto].
          -- split; auto. exists []. split; [apply irep_empty|auto].
          -- apply still_to_come; auto. intros y Hy. discriminate.
        * destruct (nrm_rep s r W G Ir) as (l & Rl & Hl).
          destruct (IN (nrm r) l Rl) as [[-> E2]|(x & m & i' & El & E2 & Ri)]; rewrite E2 in C'; simpl in C'; injection C' as <- <-.
          -- split; [|split; auto]; [split; auto; exists []; split; auto|]. apply still_to_come; auto. intros y Hy. destruct Rl as [_ [_ Rl]]. now apply Rl in Hy.
          -- destruct (take_one s its its1 (nrm r) i' r u x l m) as (K1 & K2 & K3 & K4); auto; [now apply (stands_in s its)|].
             split; auto. split; [|split; auto].
             ++ intros y [K|(r' & u' & Ir' & Iu' & K)]; right; simpl in *; [|exists r', u'; auto].
                exists r, u. repeat split; auto; try apply Eu. apply nrm_points. now apply K3.
             ++ right. exists r, u. simpl. repeat split; auto; try apply Eu. now apply nrm_points.
      + injection C' as <- <-. split; [|split; auto]; [split; auto; exists []; auto|]. now apply still_to_come.
    - injection C' as <- <-. destruct Cl as [->|(r & u & Ir & Iu & Nu & Eu & Hr)]; [destruct El as [El|El]; [discriminate|destruct m; discriminate]|].
      destruct (take_one s its its cur i' r u x lc m) as (K1 & K2 & K3 & K4); auto.
      split; auto. split; [|split; auto]; [apply still_to_come; auto; apply incl_refl|now left].
  Qed.

  Lemma to_come_member s it : wf s -> stands_at s it -> forall x, to_come s it x -> inS s x.
  Proof.
    intros W (St & lc & [_ [_ Lc]] & Cl) x K.
    assert (Q : exists r, In r (pieces None s) /\ raw_contains r x = true).
    { destruct K as [K|(r & u & Ir & _ & _ & K)]; [|eauto]. apply Lc in K. destruct Cl as [->|(r & u & Ir & _ & _ & _ & Hr)]; [destruct K|eauto]. }
    destruct Q as (r & Ir & Hx). unfold inS. rewrite <- pieces_den, lcovers_ex by auto. exists r. split; auto. now rewrite covers_At.
  Qed.

  Lemma stands_at_runs s sched : wf s -> gapless (den false s) -> forall it out, stands_at s it -> runs (sel_next true) (sel_next_back true) it sched out ->
    (forall x, In x (somes out) -> to_come s it x) /\ NoDup (somes out).
  Proof.
    intros W G. induction sched as [|c sched IH]; intros it out St R.
    - inversion R; subst. split; [intros x []|constructor].
    - destruct (runs_uncons _ _ _ _ _ _ R) as (o & it' & out' & -> & C & R').
      destruct (stands_at_call s it c o it' W G St C) as (St' & Inc & Y). destruct (IH it' out' St' R') as [H1 H2].
      destruct o as [x|]; unfold somes in *; simpl.
      + destruct Y as [Y1 Y2]. split; [intros y [<-|Hy]; auto|]. constructor; auto.
      + split; auto.
  Qed.

  (** With debug assertions, whatever calls are made at the two ends of a
      Selection built by unions of proper intervals, or the complement of one:
      every value that comes out is a member, and none comes out twice. *)
  Theorem C108_values_sound dbg (p : prog T) s sched out : inputs true p -> shallow p -> run dbg p = Ok s ->
    runs (sel_next true) (sel_next_back true) (sel_iter s) sched out ->
    (forall x, In (Some x) out -> member dbg s x) /\ NoDup (somes out).
  Proof.
    intros H U E R. destruct (run_gapless dbg p s H U E) as [W G].
    assert (St : stands_at s (sel_iter s)) by (split; [apply stands_start|exists []; split; [apply irep_empty|auto]]).
    destruct (stands_at_runs s sched W G _ out St R) as [H1 H2]. split; auto.
    intros x Hx. apply member_in; auto. apply (to_come_member s (sel_iter s)); auto. apply H1. now apply in_somes.
  Qed.
End Sel.
Print Assumptions C108_intervals_sound.
Print Assumptions C108_values_sound.

Local Ltac calls := repeat first [eapply runs_front; [vm_compute; reflexivity|]|eapply runs_back; [vm_compute; reflexivity|]]; apply runs_nil.

(** The interval that holds one value, as iteration yields it. *)
Local Notation one a := (mkInterval (Closed (v a) (v a))).
(** With debug assertions, on {1, 3, 5, 7, 9}: what comes out at the two ends. *)
Example C108_ex : let p := P_points [v 1; v 3; v 5; v 7; v 9] : prog i8 in
  inputs true p /\ shallow p /\ exists s, run true p = Ok s /\
    runs (sel_interval_next true) (sel_interval_next_back true) (sel_interval_iter s) [Front; Back; Front] [Some (one 1); Some (one 9); Some interval_empty] /\
    runs (sel_next true) (sel_next_back true) (sel_iter s) [Front; Back; Front; Front] [Some (v 1); Some (v 9); None; Some (v 5)].
Proof.
  cbv zeta. split; [exact I|]. split; [exact I|]. eexists. split; [vm_compute; reflexivity|]. split; calls.
Qed.
Example C108_tree_ex : let s := [TLower (Exclude 0); TPoint (Exclude 2); TUpper (Exclude 4); TPoint (Include 6)]%Z in
  tree_wf s /\ intervals_are true s [Open 0 2; Open 2 4; Point 6]%Z /\
  runs (iter_next true) (iter_next_back true) (tree_interval_iter s) [Back; Back] [Some (Point 6); Some (Open 2 4)]%Z.
Proof.
  cbv zeta. split; [split; [repeat constructor|reflexivity]|]. split; [repeat econstructor|]. calls.
Qed.

(** An empty interval can come out, in either build, of a Selection that holds
    none: {1, 3, 5, 7}. *)
Theorem C108_empty_refuted dbg : exists p : prog i8, inputs true p /\ unions_only p /\ exists s l, run dbg p = Ok s /\
  sel_intervals_are dbg s l /\ Forall (fun i => interval_is_empty i = false) l /\
  runs (sel_interval_next dbg) (sel_interval_next_back dbg) (sel_interval_iter s) [Front; Back; Front] [Some (one 1); Some (one 7); Some interval_empty].
Proof.
  exists (P_points [v 1; v 3; v 5; v 7]). split; [exact I|]. split; [exact I|].
  destruct dbg; eexists; exists [one 1; one 3; one 5; one 7]; (split; [vm_compute; reflexivity|]).
  all: split; [do 4 (eapply drains_cons; [vm_compute; reflexivity|]); eapply drains_nil; vm_compute; reflexivity|].
  all: split; [repeat constructor|calls].
Qed.

(** Without debug assertions values come out that are not there: {0 .. 3, 8, 10}
    from the back gives 10, 6, 5. *)
Theorem C108_stranger_refuted : exists p : prog i8, inputs true p /\ unions_only p /\ exists s, run false p = Ok s /\
  runs (sel_next false) (sel_next_back false) (sel_iter s) [Back; Back; Back; Back] [Some (v 10); Some (v 6); Some (v 5); None] /\
  ~ member false s (v 6) /\ ~ member false s (v 5).
Proof.
  exists (P_intervals [cl 0 3; cl 8 8; cl 10 10]). split; [repeat constructor|]. split; [exact I|].
  eexists. split; [vm_compute; reflexivity|]. split; [calls|]. split; intros H; vm_compute in H; discriminate.
Qed.

(** Without debug assertions values come out twice: all i8 values but 124, three
    calls at the back, then three at the front. *)
Theorem C108_twice_refuted : exists p : prog i8, inputs true p /\ unions_only p /\ exists s, run false p = Ok s /\
  runs (sel_next false) (sel_next_back false) (sel_iter s) [Back; Back; Back; Front; Front; Front]
    [Some (v 127); Some (v 126); Some (v 125); Some (v 125); Some (v 126); Some (v 127)].
Proof.
  exists (P_intervals [cl (-128) 123; cl 125 127]). split; [repeat constructor|]. split; [exact I|].
  eexists. split; [vm_compute; reflexivity|]. calls.
Qed.
Print Assumptions C108_empty_refuted.
Print Assumptions C108_stranger_refuted.
Print Assumptions C108_twice_refuted.

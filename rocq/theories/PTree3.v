(** * Iterating over a tree *)
From Coq Require Import List Bool ZArith Lia Sorted.
From Verif Require Import Base OrdFacts Pos MBound MRaw MTine MBTree MTineTree Spec PRaw PRaw2 PBTree PTree PTreeOps PTreeIsect PTree2 PIter.
Import ListNotations.

#[local] Arguments cmp : simpl never.

Section PTree3.
  Context {T : Type} {O : Ord T}.
  Implicit Types (t u : Tine T) (s L R C : list (Tine T)) (p q : pos T) (b c v : bool) (i j : RawInterval T).

  (** The intervals between the tines; [pend] is a lower end already seen. *)
  Fixpoint pieces (pend : option (Tine T)) s : list (RawInterval T) :=
    match s with
    | [] => []
    | t :: s' =>
        match pend with
        | None =>
            match t with
            | TPoint (Include x) => Point x :: pieces None s'
            | _ => pieces (Some t) s'
            end
        | Some l =>
            raw_new (tine_into_inner l) (tine_into_inner t)
              :: pieces (if is_point_exclude t then Some t else None) s'
        end
    end.

  Definition has (o : option (Tine T)) : bool := match o with Some _ => true | None => false end.
  Definition pend_ok (o : option (Tine T)) : Prop := forall t, o = Some t -> okt t = true /\ is_lower_bound t = true.

  Lemma chain_cons b t s c : chain b (t :: s) c = true ->
    okt t = true /\ is_upper_bound t = b /\ chain (is_lower_bound t) s c = true.
  Proof. simpl. rewrite !andb_true_iff. intros [[? H] ?]. apply eqb_prop in H. auto. Qed.

  Lemma exclude_pend t s : okt t = true -> is_upper_bound t = true -> chain (is_lower_bound t) s false = true ->
    let o := if is_point_exclude t then Some t else None in
    chain (has o) s false = true /\ pend_ok o.
  Proof.
    intros K U H. destruct t as [[]|[]|[]]; simpl in *; try discriminate; split; auto; unfold pend_ok; intros t E;
      inversion E; subst; auto.
  Qed.

  (** One call of [next]. *)
  Lemma iter_next_pieces dbg s o : chain (has o) s false = true -> pend_ok o ->
    match pieces o s with
    | [] => s = [] /\ o = None
    | i :: l => exists s' o', chain (has o') s' false = true /\ pend_ok o' /\ l = pieces o' s' /\
        (length s' + (if has o' then 1 else 0) < length s + (if has o then 1 else 0))%nat /\
        (exists C, s = C ++ s') /\
        iter_next dbg {| tine_iter := s; saved_lower := o; saved_upper := None |}
          = Ok (Some i, {| tine_iter := s'; saved_lower := o'; saved_upper := None |})
    end.
  Proof.
    intros H P. destruct o as [l|].
    - destruct s as [|t s]; [discriminate|]. cbn [has] in H. apply chain_cons in H as (K & U & H).
      destruct (exclude_pend t s K U H) as [H' P']. destruct (P l eq_refl) as [Kl Ll].
      cbn [pieces]. exists s, (if is_point_exclude t then Some t else None).
      repeat match goal with |- _ /\ _ => split end; auto.
      + simpl. destruct (is_point_exclude t); simpl; lia.
      + now exists [t].
      + unfold iter_next. cbn [saved_lower tine_iter saved_upper].
        assert (E : forall X Y : res (option (RawInterval T) * Iter T), match l with TPoint (Include x) => X | _ => Y end = Y).
        { destruct l as [[]|[]|[]]; simpl in Ll; try discriminate; reflexivity. }
        cbn [btree_first btree_rest_front]. rewrite Ll, U. destruct l as [[]|[]|[]]; simpl in Ll, Kl; try discriminate; destruct dbg; reflexivity.
    - destruct s as [|t s]; [simpl; auto|]. cbn [has] in H. apply chain_cons in H as (K & U & H).
      destruct (is_point_include t) eqn:EI.
      + destruct t as [|[x| |]|]; try discriminate. cbn [pieces]. exists s, None.
        repeat match goal with |- _ /\ _ => split end; auto; try (now exists [TPoint (Include x)]); try (intros w Hw; discriminate Hw); simpl; lia.
      + assert (Lt : is_lower_bound t = true) by (destruct t as [[]|[]|[]]; simpl in *; congruence).
        rewrite Lt in H. destruct s as [|u s]; [discriminate|]. apply chain_cons in H as (K' & U' & H).
        destruct (exclude_pend u s K' U' H) as [H' P'].
        assert (E : pieces None (t :: u :: s) = pieces (Some t) (u :: s)).
        { destruct t as [[]|[]|[]]; simpl in *; try discriminate; reflexivity. }
        rewrite E. cbn [pieces]. exists s, (if is_point_exclude u then Some u else None).
        repeat match goal with |- _ /\ _ => split end; auto.
        * simpl. destruct (is_point_exclude u); simpl; lia.
        * now exists [t; u].
        * unfold iter_next. cbn [saved_lower tine_iter saved_upper btree_first btree_rest_front]. rewrite Lt, U'.
          destruct t as [[]|[]|[]]; simpl in Lt, K; try discriminate; destruct dbg; reflexivity.
  Qed.

  Lemma iter_next_none dbg :
    iter_next dbg {| tine_iter := []; saved_lower := None; saved_upper := @None (Tine T) |}
      = Ok (None, {| tine_iter := []; saved_lower := None; saved_upper := None |}).
  Proof. reflexivity. Qed.

  (** The [for] loops. *)
  Fixpoint mfold {A} (f : A -> RawInterval T -> res A) (l : list (RawInterval T)) (acc : A) : res A :=
    match l with [] => Ok acc | i :: l' => do acc' <- f acc i; mfold f l' acc' end.

  Lemma iter_fold_pieces {A} dbg (f : A -> RawInterval T -> res A) : forall fuel s o acc,
    chain (has o) s false = true -> pend_ok o -> (length s + (if has o then 1 else 0) < fuel)%nat ->
    iter_fold_fuel fuel dbg f {| tine_iter := s; saved_lower := o; saved_upper := None |} acc = mfold f (pieces o s) acc.
  Proof.
    induction fuel as [|fuel IH]; intros s o acc H P F; [lia|].
    generalize (iter_next_pieces dbg s o H P). cbn [iter_fold_fuel]. destruct (pieces o s) as [|i l].
    - intros [-> ->]. reflexivity.
    - intros (s' & o' & H' & P' & -> & F' & _ & ->). cbn [bind mfold].
      destruct (f acc i) as [acc'|]; cbn [bind]; auto. apply IH; auto. lia.
  Qed.

  Lemma tree_fold_pieces {A} dbg (f : A -> RawInterval T -> res A) s acc : wf s ->
    iter_fold dbg f (tree_interval_iter s) acc = mfold f (pieces None s) acc.
  Proof.
    intros [_ H]. unfold iter_fold, tree_interval_iter. apply iter_fold_pieces; auto; [discriminate|].
    unfold iter_size; simpl. lia.
  Qed.

  Lemma iter_collect_pieces dbg s : wf s -> iter_collect dbg (tree_interval_iter s) = Ok (pieces None s).
  Proof.
    intros W. unfold iter_collect. rewrite tree_fold_pieces by auto.
    assert (E : forall l acc, mfold (fun acc (i : RawInterval T) => Ok (i :: acc)) l acc = Ok (rev l ++ acc)).
    { induction l as [|i l IH]; intros acc; simpl; auto. rewrite IH. now rewrite <- app_assoc. }
    rewrite E. simpl. now rewrite app_nil_r, rev_involutive.
  Qed.

  Lemma contains_pieces dbg x : forall fuel s o,
    chain (has o) s false = true -> pend_ok o -> (length s + (if has o then 1 else 0) < fuel)%nat ->
    contains_fuel fuel dbg {| tine_iter := s; saved_lower := o; saved_upper := None |} x
      = Ok (existsb (fun i => raw_contains i x) (pieces o s)).
  Proof.
    induction fuel as [|fuel IH]; intros s o H P F; [lia|].
    generalize (iter_next_pieces dbg s o H P). cbn [contains_fuel]. destruct (pieces o s) as [|i l].
    - intros [-> ->]. reflexivity.
    - intros (s' & o' & H' & P' & -> & F' & _ & ->). cbn [bind existsb].
      destruct (raw_contains i x); auto. simpl. apply IH; auto. lia.
  Qed.

  (** ** What the pieces cover *)
  Lemma bounds_le t u : okt t = true -> okt u = true -> is_lower_bound t = true -> is_upper_bound u = true ->
    lt (loc t) (loc u) -> le (lpos (tine_into_inner t)) (upos (tine_into_inner u)).
  Proof.
    destruct t as [[x|x|]|[x|x|]|[x|x|]], u as [[y|y|]|[y|y|]|[y|y|]]; simpl; intros; try discriminate;
      unfold loc in *; simpl in *; porder.
  Qed.

  Lemma piece_covers t u p : okt t = true -> okt u = true -> is_lower_bound t = true -> is_upper_bound u = true ->
    lt (loc t) (loc u) ->
    covers (raw_new (tine_into_inner t) (tine_into_inner u)) p =
    match cmp p (loc t) with
    | Lt => false
    | Eq => atv t
    | Gt => match cmp p (loc u) with Lt => true | Eq => atv u | Gt => false end
    end.
  Proof.
    intros K K' Lt Lu H. rewrite raw_new_covers by now apply bounds_le.
    destruct t as [[x|x|]|[x|x|]|[x|x|]], u as [[y|y|]|[y|y|]|[y|y|]]; simpl in *; try discriminate;
      unfold atv, loc in *; cbn [tine_into_inner incl_b lpos upos] in *;
      repeat match goal with |- context [match cmp ?a ?b with _ => _ end] => destruct (cmp a b) eqn:? end; porder.
  Qed.

  Definition before p t : bool := match cmp p (loc t) with Lt => true | _ => false end.

  (** What [pieces] covers, in the state [o]. *)
  Definition oden (o : option (Tine T)) s p : bool :=
    match o with
    | None => den false s p
    | Some t => match cmp p (loc t) with Lt => false | Eq => atv t | Gt => den true s p end
    end.

  Lemma pieces_covers s : forall o p, chain (has o) s false = true -> pend_ok o -> srt (opt o ++ s) ->
    lcovers (pieces o s) p = oden o s p.
  Proof.
    induction s as [|t s IH]; intros o p H P S.
    - destruct o; [discriminate|]. reflexivity.
    - destruct o as [l|].
      + cbn [has] in H. apply chain_cons in H as (K & U & H). destruct (P l eq_refl) as [Kl Ll].
        destruct (exclude_pend t s K U H) as [H' P'].
        simpl in S. inversion S as [|? ? S1 S2]; subst. inversion S1 as [|? ? S3 S4]; subst.
        inversion S2 as [|? ? S5 S6]; subst.
        cbn [pieces lcovers existsb]. fold (lcovers (pieces (if is_point_exclude t then Some t else None) s) p).
        rewrite IH by (auto; destruct (is_point_exclude t); auto).
        rewrite piece_covers by auto. cbn [oden den].
        destruct (is_point_exclude t) eqn:EX.
        * destruct t as [|[|x|]|]; try discriminate. cbn [oden is_lower_bound].
          assert (A : atv (TPoint (Exclude x)) = false) by reflexivity. rewrite A.
          destruct (cmp p (loc l)) eqn:E1, (cmp p (loc (TPoint (Exclude x)))) eqn:E2; try rewrite orb_false_r; auto;
            exfalso; revert E1 E2 S5; clear; generalize (loc l) (loc (TPoint (Exclude x))); porder.
        * assert (Lt : is_lower_bound t = false) by (destruct t as [[]|[]|[]]; simpl in *; congruence). rewrite Lt.
          cbn [oden].
          destruct (cmp p (loc l)) eqn:E1, (cmp p (loc t)) eqn:E2; auto;
            try (exfalso; revert E1 E2 S5; clear; generalize (loc l) (loc t); porder);
            rewrite den_low by (rewrite Forall_forall in S4; intros w Hw;
               first [ eapply plt_trans; [exact E2|now apply S4] | apply cmp_eq in E2; subst p; now apply S4]);
            rewrite orb_false_r; auto.
      + cbn [has] in H. apply chain_cons in H as (K & U & H). simpl in S. inversion S as [|? ? S1 S2]; subst.
        destruct (is_point_include t) eqn:EI.
        * destruct t as [|[x| |]|]; try discriminate. cbn [pieces lcovers existsb]. fold (lcovers (pieces None s) p).
          rewrite IH by (auto; discriminate). rewrite covers_point. cbn [oden den is_lower_bound].
          change (loc (TPoint (Include x))) with (At x) in *. destruct (cmp p (At x)) eqn:E; auto.
          simpl. apply den_low. rewrite Forall_forall in S2. intros w Hw. eapply plt_trans; [exact E|now apply S2].
        * assert (Lt : is_lower_bound t = true) by (destruct t as [[]|[]|[]]; simpl in *; congruence). rewrite Lt in H.
          assert (E : pieces None (t :: s) = pieces (Some t) s).
          { destruct t as [[]|[]|[]]; simpl in *; try discriminate; reflexivity. }
          rewrite E, IH; auto; [|intros w Ew; inversion Ew; subst; auto].
          cbn [oden den]. now rewrite Lt.
  Qed.

  Lemma tree_contains_den dbg s x : wf s -> tree_contains dbg s x = Ok (den false s (At x)).
  Proof.
    intros [Ss H]. unfold tree_contains, tree_interval_iter.
    rewrite contains_pieces; [|exact H|discriminate|unfold iter_size; simpl; lia]. f_equal.
    generalize (pieces_covers s None (At x) H ltac:(discriminate) Ss). simpl. intros <-.
    unfold lcovers. induction (pieces None s) as [|i l IH]; simpl; auto. now rewrite covers_At, IH.
  Qed.

  Lemma pieces_den s p : wf s -> lcovers (pieces None s) p = den false s p.
  Proof. intros [Ss H]. apply (pieces_covers s None p H); [discriminate|exact Ss]. Qed.

  (** ** Shape of the pieces *)
  Lemma pieces_wf s : forall o, Forall raw_wf (pieces o s).
  Proof.
    induction s as [|t s IH]; intros o; simpl; [constructor|]. destruct o as [l|].
    - constructor; auto. apply raw_new_wf.
    - destruct t as [|[]|]; auto. constructor; auto. exact I.
  Qed.

  (** Where the bounds of a piece come from. *)
  Lemma pieces_ends s : forall o i, chain (has o) s false = true -> pend_ok o -> srt (opt o ++ s) -> In i (pieces o s) ->
    exists t u, In t (opt o ++ s) /\ In u s /\ okt t = true /\ okt u = true /\
      raw_lower_bound i = Some (tine_into_inner t) /\ raw_upper_bound i = Some (tine_into_inner u) /\
      ((t = u /\ is_point_include t = true) \/ (is_lower_bound t = true /\ is_upper_bound u = true /\ lt (loc t) (loc u))).
  Proof.
    induction s as [|t s IH]; intros o i H P S Hi; [contradiction|].
    destruct o as [l|].
    - cbn [has] in H. apply chain_cons in H as (K & U & H). destruct (P l eq_refl) as [Kl Ll].
      destruct (exclude_pend t s K U H) as [H' P'].
      simpl in S. inversion S as [|? ? S1 S2]; subst. inversion S1 as [|? ? S3 S4]; subst.
      inversion S2 as [|? ? S5 S6]; subst. cbn [pieces] in Hi. destruct Hi as [<-|Hi].
      + exists l, t. destruct (raw_new_lower (tine_into_inner l) (tine_into_inner t)) as [E1 E2]; [now apply bounds_le|].
        simpl. repeat match goal with |- _ /\ _ => split end; auto.
      + destruct (IH _ i H' P') as (t' & u' & In1 & In2 & K1 & K2 & B1 & B2 & D); auto.
        { destruct (is_point_exclude t); simpl; auto. }
        exists t', u'. repeat match goal with |- _ /\ _ => split end; auto; [|now right].
        apply in_app_or in In1 as [In1|In1]; [|simpl; tauto].
        destruct (is_point_exclude t); simpl in In1; [|contradiction]. destruct In1 as [<-|[]]. simpl; auto.
    - cbn [has] in H. apply chain_cons in H as (K & U & H). simpl in S. inversion S as [|? ? S1 S2]; subst.
      destruct (is_point_include t) eqn:EI.
      + destruct t as [|[x| |]|]; try discriminate. cbn [pieces] in Hi. destruct Hi as [<-|Hi].
        * exists (TPoint (Include x)), (TPoint (Include x)). simpl. auto 12.
        * destruct (IH None i H) as (t' & u' & In1 & In2 & R); auto; try (intros w Hw; discriminate Hw).
          exists t', u'. split; [|split]; auto; now right.
      + assert (Lt : is_lower_bound t = true) by (destruct t as [[]|[]|[]]; simpl in *; congruence). rewrite Lt in H.
        assert (E : pieces None (t :: s) = pieces (Some t) s).
        { destruct t as [[]|[]|[]]; simpl in *; try discriminate; reflexivity. }
        rewrite E in Hi. destruct (IH (Some t) i H) as (t' & u' & In1 & In2 & R); auto.
        { intros w Ew; inversion Ew; subst; auto. }
        exists t', u'. split; [|split]; auto; now right.
  Qed.

  Lemma pieces_nonempty s o i : chain (has o) s false = true -> pend_ok o -> srt (opt o ++ s) -> In i (pieces o s) ->
    raw_is_empty i = false.
  Proof.
    intros H P S Hi. destruct (pieces_ends s o i H P S Hi) as (t & u & _ & _ & _ & _ & E & _). now destruct i.
  Qed.

  Lemma separated_lt t u i j : okt t = true -> okt u = true -> lt (loc t) (loc u) ->
    raw_upper_bound i = Some (tine_into_inner t) -> raw_lower_bound j = Some (tine_into_inner u) ->
    is_upper_bound t = true \/ is_point_include t = true -> is_lower_bound u = true \/ is_point_include u = true -> separated i j.
  Proof.
    unfold separated. intros K K' H -> -> D D'.
    destruct t as [[x|x|]|[x|x|]|[x|x|]], u as [[y|y|]|[y|y|]|[y|y|]]; simpl in *; try discriminate; unfold loc in H; simpl in H;
      try (destruct D; discriminate); try (destruct D'; discriminate); try porder; exact H.
  Qed.

  Lemma pieces_separated s : forall o, chain (has o) s false = true -> pend_ok o -> srt (opt o ++ s) ->
    StronglySorted separated (pieces o s).
  Proof.
    induction s as [|t s IH]; intros o H P S; simpl; [constructor|].
    destruct o as [l|].
    - cbn [has] in H. apply chain_cons in H as (K & U & H). destruct (P l eq_refl) as [Kl Ll].
      destruct (exclude_pend t s K U H) as [H' P'].
      simpl in S. inversion S as [|? ? S1 S2]; subst. inversion S1 as [|? ? S3 S4]; subst.
      inversion S2 as [|? ? S5 S6]; subst.
      assert (S' : srt (opt (if is_point_exclude t then Some t else None) ++ s)) by (destruct (is_point_exclude t); auto).
      constructor; [now apply IH|]. apply Forall_forall. intros j Hj.
      destruct (raw_new_lower (tine_into_inner l) (tine_into_inner t)) as [E1 E2]; [now apply bounds_le|].
      destruct (pieces_ends s _ j H' P' S' Hj) as (t' & u' & In1 & In2 & K1 & K2 & B1 & B2 & D).
      apply in_app_or in In1 as [In1|In1].
      + destruct (is_point_exclude t) eqn:EX; simpl in In1; [|contradiction]. destruct In1 as [<-|[]].
        destruct t as [|[|x|]|]; try discriminate. unfold separated. rewrite E2, B1. simpl. order.
      + apply (separated_lt t t'); auto.
        * rewrite Forall_forall in S4. now apply S4.
        * destruct D as [[_ D]|[D _]]; auto.
    - cbn [has] in H. apply chain_cons in H as (K & U & H). simpl in S. inversion S as [|? ? S1 S2]; subst.
      destruct (is_point_include t) eqn:EI.
      + destruct t as [|[x| |]|]; try discriminate. constructor; [apply IH; auto; intros w Hw; discriminate Hw|].
        apply Forall_forall. intros j Hj.
        destruct (pieces_ends s None j H) as (t' & u' & In1 & In2 & K1 & K2 & B1 & B2 & D); auto; try (intros w Hw; discriminate Hw).
        simpl in In1. apply (separated_lt (TPoint (Include x)) t'); auto.
        * rewrite Forall_forall in S2. now apply S2.
        * destruct D as [[_ D]|[D _]]; auto.
      + assert (Lt : is_lower_bound t = true) by (destruct t as [[]|[]|[]]; simpl in *; congruence). rewrite Lt in H.
        assert (E : match t with TPoint (Include x) => Point x :: pieces None s | _ => pieces (Some t) s end = pieces (Some t) s).
        { destruct t as [[]|[]|[]]; simpl in *; try discriminate; reflexivity. }
        rewrite E. apply IH; auto. intros w Ew; inversion Ew; subst; auto.
  Qed.

  (** ** Union of trees, collecting *)
  Lemma extend_ok dbg l : forall s, wf s -> Forall raw_wf l ->
    exists s', tree_extend dbg s l = Ok s' /\ wf s' /\ forall p, den false s' p = den false s p || lcovers l p.
  Proof.
    induction l as [|i l IH]; intros s W Wl; simpl.
    - exists s. split; auto. split; auto. intros p. now rewrite orb_false_r.
    - inversion Wl; subst. destruct (union_in_place_ok dbg s i W) as (s1 & E1 & W1 & D1); auto.
      destruct (IH s1 W1) as (s2 & E2 & W2 & D2); auto. exists s2. rewrite E1. cbn [bind]. split; auto. split; auto.
      intros p. now rewrite D2, D1, orb_assoc.
  Qed.

  Lemma mfold_extend dbg l : forall s, mfold (fun acc i => tree_union_in_place dbg acc i) l s = tree_extend dbg s l.
  Proof. induction l as [|i l IH]; intros s; simpl; auto. destruct (tree_union_in_place dbg s i); simpl; auto. Qed.

  Lemma tree_union_extend dbg s s' : wf s' -> tree_union dbg s s' = tree_extend dbg s (pieces None s').
  Proof. intros W. unfold tree_union. now rewrite tree_fold_pieces, mfold_extend. Qed.

  Lemma tree_union_ok dbg s s' : wf s -> wf s' ->
    exists r, tree_union dbg s s' = Ok r /\ wf r /\ forall p, den false r p = den false s p || den false s' p.
  Proof.
    intros W W'. rewrite tree_union_extend by auto.
    destruct (extend_ok dbg (pieces None s') s W (pieces_wf s' None)) as (r & E & Wr & D).
    exists r. split; auto. split; auto. intros p. now rewrite D, pieces_den.
  Qed.

  Lemma new_wf : wf (@nil (Tine T)).
  Proof. split; [constructor|reflexivity]. Qed.

  Lemma from_iter_ok dbg l : Forall raw_wf l ->
    exists s', tree_from_iter dbg l = Ok s' /\ wf s' /\ forall p, den false s' p = lcovers l p.
  Proof. intros H. exact (extend_ok dbg l [] new_wf H). Qed.

  Lemma from_iter_pieces dbg s : wf s -> tree_from_iter dbg (pieces None s) = Ok s.
  Proof.
    intros W. destruct (from_iter_ok dbg (pieces None s) (pieces_wf s None)) as (s' & E & W' & D). rewrite E. f_equal.
    apply den_ext; auto. intros p. now rewrite D, pieces_den.
  Qed.
End PTree3.

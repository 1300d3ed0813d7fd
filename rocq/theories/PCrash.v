(** * The state a panic leaves behind *)
From Coq Require Import List Bool ZArith Lia Sorted.
From Verif Require Import Base OrdFacts Pos MBound MRaw MNormalize MTine MBTree MTineTree MInterval MSelection MCrash
  Spec Spec_Tree PRaw PRaw2 PBTree PTree PTreeOps PTreeIsect PTree2 PTree3 PTree4 PTree5 PTree6 PTree7 Spec_Panic PPanic.
Import ListNotations.

#[local] Arguments cmp : simpl never.

(** The outcome without the state of an unwound call. *)
Definition outcome_res {A} (o : outcome A) : res A := match o with Returned s => Ok s | Unwound _ => Panic end.

Lemma during_res {A B} (s : A) (r : res B) k : outcome_res (during s r k) = bind r (fun b => outcome_res (k b)).
Proof. now destruct r. Qed.

Section Agree.
  Context {T : Type} {O : Cmp T}.
  Implicit Types (s : TineTree T) (i : RawInterval T).

  Lemma bind_ext {A B} (r : res A) (f g : A -> res B) : (forall a, f a = g a) -> bind r f = bind r g.
  Proof. destruct r; simpl; auto. Qed.

  Ltac cases := repeat first
    [ reflexivity
    | rewrite !during_res; apply bind_ext; intro; cbv zeta
    | match goal with |- context [match ?e with _ => _ end] => destruct e end ].

  Lemma union_agree dbg s i : outcome_res (tree_union_in_place_crash dbg s i) = tree_union_in_place dbg s i.
  Proof.
    unfold tree_union_in_place_crash, tree_union_in_place. destruct (raw_is_full i); [reflexivity|].
    destruct (tine_from_raw_interval i) as [|l [|u [|? ?]]]; try reflexivity.
    - unfold union_point_interval_crash, union_point_interval. destruct (exterior_split_for_point_interval l s) as [[[t0 t1] t2] s'].
      rewrite during_res. apply bind_ext. intros [p|]; cases.
    - unfold union_proper_interval_crash, union_proper_interval.
      destruct (exterior_split_for_proper_interval l u s) as [[[[t0 t1] t2] t3] s'].
      rewrite during_res. apply bind_ext. intros ml. rewrite during_res. apply bind_ext. intros mu.
      rewrite during_res. apply bind_ext. intros _. rewrite during_res. apply bind_ext. intros _. cbv zeta.
      destruct (is_some_and is_lower_bound t0), ml, mu, (is_some_and is_upper_bound t3); try reflexivity;
        rewrite ?during_res; try reflexivity; apply bind_ext; intros _; rewrite ?during_res; reflexivity.
  Qed.

  Lemma minus_agree dbg s i : outcome_res (tree_minus_in_place_crash dbg s i) = tree_minus_in_place dbg s i.
  Proof.
    unfold tree_minus_in_place_crash, tree_minus_in_place. destruct (tree_is_empty s || raw_is_empty i); [reflexivity|].
    destruct (raw_is_full i); [reflexivity|].
    destruct (tine_from_raw_interval i) as [|l [|u [|? ?]]]; try reflexivity.
    - unfold minus_point_interval_crash, minus_point_interval. destruct (exterior_split_for_point_interval l s) as [[[t0 t1] t2] s'].
      rewrite during_res. apply bind_ext. intros [p|]; cases.
    - unfold minus_proper_interval_crash, minus_proper_interval.
      destruct (exterior_split_for_proper_interval l u s) as [[[[t0 t1] t2] t3] s'].
      rewrite during_res. apply bind_ext. intros ml. rewrite during_res. apply bind_ext. intros mu. cbv zeta.
      destruct (is_some_and is_lower_bound t0), ml, mu, (is_some_and is_upper_bound t3); try reflexivity;
        rewrite ?during_res; try reflexivity; apply bind_ext; intros ?; rewrite ?during_res; reflexivity.
  Qed.

  Lemma intersect_agree dbg s i : outcome_res (tree_intersect_in_place_crash dbg s i) = tree_intersect_in_place dbg s i.
  Proof.
    unfold tree_intersect_in_place_crash, tree_intersect_in_place. destruct (tree_is_empty s || raw_is_full i); [reflexivity|].
    destruct (raw_is_empty i); [reflexivity|].
    assert (Pt : forall p j, outcome_res (during s (tree_contains dbg s p) (fun c => Returned (if c then tree_from_raw_interval j else tree_new)))
      = do c <- tree_contains dbg s p; Ok (if c then tree_from_raw_interval j else tree_new)) by (intros; now rewrite during_res).
    assert (Pr : forall l u, outcome_res (intersect_proper_interval_crash dbg l u s) = intersect_proper_interval dbg l u s).
    { intros l u. unfold intersect_proper_interval_crash, intersect_proper_interval, interior_split_for_proper_interval.
      rewrite during_res. destruct (debug_assert dbg (match tine_cmp l u with Lt => true | _ => false end)); [|reflexivity]. cbn [bind].
      destruct (btree_take l s) as [t2 s1]. destruct (btree_take u s1) as [t3 s2].
      destruct (btree_split_off l s2) as [L c0]. destruct (btree_split_off u c0) as [C R]. cbv zeta.
      rewrite during_res. destruct (debug_assert dbg (Bool.eqb _ _)); [|reflexivity]. cbn [bind].
      rewrite during_res. apply bind_ext. intros ml. rewrite during_res. apply bind_ext. intros mu.
      rewrite during_res. apply bind_ext. intros _. rewrite during_res. apply bind_ext. intros _.
      destruct (is_some_and is_lower_bound (btree_last L)), ml, (is_some_and is_upper_bound (btree_first C)),
        (is_some_and is_lower_bound (btree_last C)), mu, (is_some_and is_upper_bound (btree_first R)); reflexivity. }
    destruct i; simpl; rewrite ?Pt, ?Pr; reflexivity.
  Qed.
End Agree.

Section PCrash.
  Context {T : Type} {O : Ord T}.
  Implicit Types (t u : Tine T) (s L R C : list (Tine T)) (p q : pos T) (b c v : bool) (i j k : RawInterval T).

  (** A panic on a well-formed tree leaves the tines strictly between the ends. *)
  Lemma intersect_unwound dbg s i s' : wf s -> raw_wf i -> tree_intersect_in_place_crash dbg s i = Unwound s' ->
    exists (l u : Bound T) L R c0 vl c1 c2 vu c3,
      proper i /\ raw_lower_bound i = Some l /\ raw_upper_bound i = Some u /\ lt (loc (TLower l)) (loc (TUpper u)) /\
      s = L ++ opt (mk (loc (TLower l)) c0 vl c1) ++ s' ++ opt (mk (loc (TUpper u)) c2 vu c3) ++ R /\
      allowed (loc (TLower l)) c0 vl c1 /\ allowed (loc (TUpper u)) c2 vu c3 /\
      chain false L c0 = true /\ chain c1 s' c2 = true /\ chain c3 R false = true /\
      bl (loc (TLower l)) L /\ ab (loc (TLower l)) s' /\ bl (loc (TUpper u)) s' /\ ab (loc (TUpper u)) R /\ srt s'.
  Proof.
    intros W Wi E.
    assert (Pi : proper i).
    { destruct i; simpl; auto; unfold tree_intersect_in_place_crash in E; simpl in E;
        destruct (tree_is_empty s); simpl in E; try discriminate.
      rewrite tree_contains_den in E by auto. discriminate. }
    assert (Ne : s <> []) by (intros ->; discriminate).
    destruct (raw_bounds_cases i) as [(-> & _)|(l & u & EL & EU)]; [destruct Pi|].
    destruct (isect_proper_unfold dbg s i l u W Ne Wi Pi EL EU) as [Hlu _].
    assert (E' : intersect_proper_interval_crash dbg (TLower l) (TUpper u) s = Unwound s').
    { rewrite <- E. unfold tree_intersect_in_place_crash.
      assert (Es : tree_is_empty s = false) by (destruct s; auto; congruence). rewrite Es. clear E.
      destruct i; simpl in *; try contradiction; injection EL as <-; injection EU as <-; reflexivity. }
    destruct (split2_at (loc (TLower l)) (loc (TUpper u)) s) as [L C R c0 vl c1 c2 vu c3 Es A A' HL HC HR BL AC BC AR SL SC SR];
      auto using loc_tine.
    assert (C = s').
    { set (ol := mk (loc (TLower l)) c0 vl c1) in *. set (ou := mk (loc (TUpper u)) c2 vu c3) in *.
      assert (Hol : at_loc (loc (TLower l)) ol) by apply mk_at. assert (Hou : at_loc (loc (TUpper u)) ou) by apply mk_at.
      assert (HR' : ab (loc (TLower l)) R) by (eapply ab_weaken; eauto).
      assert (HL' : bl (loc (TUpper u)) L) by (eapply bl_weaken; eauto).
      assert (HCR : ab (loc (TLower l)) (C ++ opt ou ++ R)).
      { apply ab_app. split; auto. apply ab_app. split; auto. destruct ou; repeat constructor; destruct Hou as [? Eq]; auto.
        now rewrite Eq. }
      unfold intersect_proper_interval_crash in E'. rewrite Es in E'.
      rewrite tine_cmp_loc in E' by auto. unfold lt in Hlu. rewrite Hlu in E'.
      unfold debug_assert in E' at 1. cbn [negb] in E'. rewrite andb_false_r in E'. cbn [during] in E'.
      rewrite (take_split (TLower l) L ol (C ++ opt ou ++ R)) in E' by auto. cbv beta iota in E'.
      rewrite app_assoc, (take_split (TUpper u) (L ++ C) ou R), <- app_assoc in E' by (auto; apply bl_app; auto). cbv beta iota in E'.
      rewrite (split_off_split (TLower l) L (C ++ R)), (split_off_split (TUpper u) C R) in E' by (auto; apply ab_app; auto).
      cbv beta iota zeta in E'.
      replace (Bool.eqb _ _) with true in E'.
      2:{ destruct (snoc_cases C) as [->|(C' & t & ->)]; auto. rewrite last_app_one. destruct C'; reflexivity. }
      unfold debug_assert in E' at 1. cbn [negb] in E'. rewrite !andb_false_r in E'. cbn [during] in E'.
      unfold during in E'.
      repeat match type of E' with
      | match ?e with _ => _ end = _ => destruct e; try discriminate E'
      end; now injection E'. }
    subst C. exists l, u, L, R, c0, vl, c1, c2, vu, c3. repeat split; auto.
  Qed.

  (** In a debug build [contains] on any sorted tree, well formed or not, only
      answers true between a lower tine and the next one. *)
  Definition odenb (o : option (Tine T)) b s p : bool :=
    match o with
    | None => den b s p
    | Some t => match cmp p (loc t) with Lt => false | Eq => atv t | Gt => den true s p end
    end.

  Lemma contains_debug_sound fuel : forall s o x, srt (opt o ++ s) -> Forall (fun t => okt t = true) s -> pend_ok o ->
    contains_fuel fuel true {| tine_iter := s; saved_lower := o; saved_upper := None |} x = Ok true ->
    forall b, odenb o b s (At x) = true.
  Proof.
    induction fuel as [|fuel IH]; intros s o x S K P H b; [discriminate|].
    assert (Tail : forall t s', srt (t :: s') -> (forall b, den b s' (At x) = true) -> lt (loc t) (At x)).
    { intros t s' S' D. specialize (D false). destruct (cmp (loc t) (At x)) eqn:E; auto; exfalso.
      - apply cmp_eq in E. rewrite den_low in D; [discriminate|]. intros w Hw. rewrite <- E.
        inversion S' as [|? ? _ F]; subst. rewrite Forall_forall in F. now apply F.
      - rewrite den_low in D; [discriminate|]. intros w Hw. inversion S' as [|? ? _ F]; subst. rewrite Forall_forall in F.
        specialize (F w Hw). revert E F. clear. generalize (loc t) (loc w) (At x). porder. }
    assert (Step : forall t s', okt t = true -> is_lower_bound t = true -> srt (t :: s') -> Forall (fun t => okt t = true) s' ->
      (do (x0, it') <- (do _ <- debug_assert true (is_lower_bound t);
         let '(second, ts', su') := match btree_first s' with
           | Some t0 => (Some t0, btree_rest_front s', None) | None => (None, s', None) end in
         match second with
         | None => Panic
         | Some upper =>
             let sl' := if is_point_exclude upper then Some upper else None in
             do _ <- debug_assert true (is_upper_bound upper);
             Ok (Some (raw_new (tine_into_inner t) (tine_into_inner upper)), {| tine_iter := ts'; saved_lower := sl'; saved_upper := su' |})
         end);
       match x0 with
       | None => Ok false
       | Some i => if raw_contains i x then Ok true else contains_fuel fuel true it' x
       end) = Ok true -> odenb (Some t) b s' (At x) = true).
    { intros t s' Kt Lt St Ks Hc. rewrite Lt in Hc. cbn [debug_assert negb andb bind] in Hc. simpl debug_assert in Hc. cbn [bind] in Hc.
      destruct s' as [|u s'']; [discriminate|]. cbn [btree_first btree_rest_front hd_error tl] in Hc.
      inversion St as [|? ? S1 S2]; subst. inversion S2 as [|? ? Htu _]; subst. inversion Ks as [|? ? Ku Ks']; subst.
      simpl in Hc. unfold debug_assert in Hc. simpl in Hc. destruct (is_upper_bound u) eqn:Uu; [|discriminate]. simpl in Hc.
      destruct (raw_contains (raw_new (tine_into_inner t) (tine_into_inner u)) x) eqn:Ec.
      - rewrite <- covers_At, piece_covers in Ec by auto. cbn [odenb den].
        destruct (cmp (At x) (loc t)); auto. destruct (cmp (At x) (loc u)); auto. discriminate.
      - assert (Q : forall b0, odenb (if is_point_exclude u then Some u else None) b0 s'' (At x) = true).
        { apply (IH s'' (if is_point_exclude u then Some u else None) x); auto.
          - destruct (is_point_exclude u); simpl; [exact S1|]. now inversion S1.
          - intros w Ew. destruct (is_point_exclude u) eqn:Eu; inversion Ew; subst. destruct w as [[]|[]|[]]; simpl in *; auto; discriminate. }
        assert (Lu : lt (loc u) (At x)).
        { destruct (is_point_exclude u) eqn:Eu; [|now apply (Tail u s'')].
          specialize (Q b). cbn [odenb] in Q. destruct (cmp (At x) (loc u)) eqn:E; [|discriminate|revert E; clear; generalize (loc u) (At x); porder].
          destruct u as [[]|[]|[]]; try discriminate Eu; discriminate Q. }
        cbn [odenb den]. assert (E1 : cmp (At x) (loc t) = Gt) by (revert Lu Htu; clear; generalize (loc t) (loc u) (At x); porder).
        assert (E2 : cmp (At x) (loc u) = Gt) by (revert Lu; clear; generalize (loc u) (At x); porder).
        rewrite E1, E2. destruct (is_point_exclude u) eqn:Eu.
        + specialize (Q b). cbn [odenb] in Q. rewrite E2 in Q. destruct u as [[]|[]|[]]; try discriminate Eu; exact Q.
        + apply (Q (is_lower_bound u)). }
    cbn [contains_fuel] in H. destruct o as [t|].
    - destruct (P t eq_refl) as [Kt Lt]. unfold iter_next in H. cbn [saved_lower saved_upper tine_iter] in H.
      apply Step; auto.
      destruct t as [[]|[]|[]]; try discriminate Kt; try discriminate Lt; exact H.
    - destruct s as [|t s']; [discriminate|]. inversion K as [|? ? Kt Ks]; subst. simpl in S.
      unfold iter_next in H. cbn [saved_lower saved_upper tine_iter btree_first btree_rest_front hd_error tl] in H.
      destruct (is_point_include t) eqn:Ei.
      + destruct t as [|[z| |]|]; try discriminate Ei. cbn [bind] in H. simpl raw_contains in H. cbn [odenb den].
        destruct (eqb x z) eqn:Ex.
        * assert (x = z) as <- by order. change (loc (TPoint (Include x))) with (At x). rewrite cmp_refl. reflexivity.
        * assert (Q : forall b0, den b0 s' (At x) = true).
          { apply (IH s' None x); auto; first [now inversion S|discriminate|idtac]. }
          pose proof (Tail _ _ S Q) as L. assert (E1 : cmp (At x) (loc (TPoint (Include z))) = Gt) by (revert L; clear; generalize (loc (TPoint (Include z))) (At x); porder).
          rewrite E1. apply Q.
      + destruct (is_lower_bound t) eqn:Lt.
        * assert (Q : odenb (Some t) b s' (At x) = true).
          { apply Step; auto. rewrite Lt. destruct t as [[]|[]|[]]; try discriminate Kt; try discriminate Lt; exact H. }
          cbn [odenb den] in *. rewrite Lt. destruct (cmp (At x) (loc t)); auto. discriminate.
        * destruct t as [[]|[]|[]]; try discriminate Kt; try discriminate Lt; try discriminate Ei; discriminate H.
  Qed.
  (** ... and only up to the last tine. *)
  Lemma contains_debug_below fuel : forall s o x, srt (opt o ++ s) -> Forall (fun t => okt t = true) s -> pend_ok o ->
    contains_fuel fuel true {| tine_iter := s; saved_lower := o; saved_upper := None |} x = Ok true ->
    exists t, In t s /\ cmp (At x) (loc t) <> Gt.
  Proof.
    induction fuel as [|fuel IH]; intros s o x S K P H; [discriminate|].
    assert (Step : forall t s', okt t = true -> is_lower_bound t = true -> srt (t :: s') -> Forall (fun t => okt t = true) s' ->
      (do (x0, it') <- (do _ <- debug_assert true (is_lower_bound t);
         let '(second, ts', su') := match btree_first s' with
           | Some t0 => (Some t0, btree_rest_front s', None) | None => (None, s', None) end in
         match second with
         | None => Panic
         | Some upper =>
             let sl' := if is_point_exclude upper then Some upper else None in
             do _ <- debug_assert true (is_upper_bound upper);
             Ok (Some (raw_new (tine_into_inner t) (tine_into_inner upper)), {| tine_iter := ts'; saved_lower := sl'; saved_upper := su' |})
         end);
       match x0 with
       | None => Ok false
       | Some i => if raw_contains i x then Ok true else contains_fuel fuel true it' x
       end) = Ok true -> exists w, In w s' /\ cmp (At x) (loc w) <> Gt).
    { intros t s' Kt Lt St Ks Hc. rewrite Lt in Hc. cbn [debug_assert negb andb bind] in Hc. simpl debug_assert in Hc. cbn [bind] in Hc.
      destruct s' as [|u s'']; [discriminate|]. cbn [btree_first btree_rest_front hd_error tl] in Hc.
      inversion St as [|? ? S1 S2]; subst. inversion S2 as [|? ? Htu _]; subst. inversion Ks as [|? ? Ku Ks']; subst.
      simpl in Hc. unfold debug_assert in Hc. simpl in Hc. destruct (is_upper_bound u) eqn:Uu; [|discriminate]. simpl in Hc.
      destruct (raw_contains (raw_new (tine_into_inner t) (tine_into_inner u)) x) eqn:Ec.
      - rewrite <- covers_At, piece_covers in Ec by auto. exists u. split; [now left|]. intros E. rewrite E in Ec.
        destruct (cmp (At x) (loc t)) eqn:E'; try discriminate.
        apply cmp_eq in E'. rewrite E' in E. revert E Htu. clear. generalize (loc t) (loc u). porder.
      - destruct (IH s'' (if is_point_exclude u then Some u else None) x) as (w & Hw & Q); auto.
        + destruct (is_point_exclude u); simpl; [exact S1|]. now inversion S1.
        + intros w Ew. destruct (is_point_exclude u) eqn:Eu; inversion Ew; subst. destruct w as [[]|[]|[]]; simpl in *; auto; discriminate.
        + exists w. split; [now right|exact Q]. }
    cbn [contains_fuel] in H. destruct o as [t|].
    - destruct (P t eq_refl) as [Kt Lt]. unfold iter_next in H. cbn [saved_lower saved_upper tine_iter] in H.
      apply (Step t); auto.
      destruct t as [[]|[]|[]]; try discriminate Kt; try discriminate Lt; exact H.
    - destruct s as [|t s']; [discriminate|]. inversion K as [|? ? Kt Ks]; subst. simpl in S.
      unfold iter_next in H. cbn [saved_lower saved_upper tine_iter btree_first btree_rest_front hd_error tl] in H.
      destruct (is_point_include t) eqn:Ei.
      + destruct t as [|[z| |]|]; try discriminate Ei. cbn [bind] in H. simpl raw_contains in H.
        destruct (eqb x z) eqn:Ex.
        * exists (TPoint (Include z)). split; [now left|]. assert (x = z) as -> by order. change (loc (TPoint (Include z))) with (At z). rewrite cmp_refl. discriminate.
        * destruct (IH s' None x) as (w & Hw & Q); auto; first [now inversion S|discriminate|exists w; split; [now right|exact Q]].
      + destruct (is_lower_bound t) eqn:Lt.
        * destruct (Step t s') as (w & Hw & Q); auto; [|exists w; split; [now right|exact Q]].
          rewrite Lt. destruct t as [[]|[]|[]]; try discriminate Kt; try discriminate Lt; exact H.
        * destruct t as [[]|[]|[]]; try discriminate Kt; try discriminate Lt; try discriminate Ei; discriminate H.
  Qed.
  (** ** The part of a tree before an interval *)
  Lemma exclude_pend_c t s c : okt t = true -> is_upper_bound t = true -> chain (is_lower_bound t) s c = true ->
    let o := if is_point_exclude t then Some t else None in
    chain (has o) s c = true /\ pend_ok o.
  Proof.
    intros K U H. destruct t as [[]|[]|[]]; simpl in *; try discriminate; split; auto; unfold pend_ok; intros t E;
      inversion E; subst; auto.
  Qed.

  (** Assertions do not matter there, and a half interval at its end is never
      passed over. *)
  Lemma contains_prefix dbg x : forall fuel s o c, chain (has o) s c = true -> pend_ok o ->
    contains_fuel fuel dbg {| tine_iter := s; saved_lower := o; saved_upper := None |} x
      = contains_fuel fuel true {| tine_iter := s; saved_lower := o; saved_upper := None |} x /\
    (c = true -> contains_fuel fuel dbg {| tine_iter := s; saved_lower := o; saved_upper := None |} x <> Ok false).
  Proof.
    induction fuel as [|fuel IH]; intros s o c H P; [split; [reflexivity|discriminate]|].
    cbn [contains_fuel].
    destruct o as [l|].
    - destruct (P l eq_refl) as [Kl Ll]. destruct s as [|t s].
      + unfold iter_next. cbn [saved_lower tine_iter saved_upper btree_first btree_rest_front hd_error tl]. rewrite Ll.
        destruct l as [[]|[]|[]]; simpl in Ll, Kl; try discriminate; destruct dbg; (split; [reflexivity|discriminate]).
      + cbn [has] in H. apply chain_cons in H as (K & U & H). destruct (exclude_pend_c t s c K U H) as [H' P'].
        assert (E : forall d, iter_next d {| tine_iter := t :: s; saved_lower := Some l; saved_upper := None |}
          = Ok (Some (raw_new (tine_into_inner l) (tine_into_inner t)), {| tine_iter := s; saved_lower := if is_point_exclude t then Some t else None; saved_upper := None |})).
        { intros d. unfold iter_next. cbn [saved_lower tine_iter saved_upper btree_first btree_rest_front]. rewrite Ll, U.
          destruct l as [[]|[]|[]]; simpl in Ll, Kl; try discriminate; destruct d; reflexivity. }
        rewrite !E. cbn [bind]. destruct (raw_contains _ x); [split; [reflexivity|discriminate]|]. now apply IH.
    - destruct s as [|t s].
      + simpl in H. split; [reflexivity|]. intros ->. discriminate.
      + cbn [has] in H. apply chain_cons in H as (K & U & H). destruct (is_point_include t) eqn:EI.
        * destruct t as [|[z| |]|]; try discriminate. unfold iter_next. cbn [saved_lower tine_iter saved_upper btree_first btree_rest_front hd_error tl bind].
          destruct (raw_contains _ x); [split; [reflexivity|discriminate]|]. apply (IH s None c); auto; intros ? ?; discriminate.
        * assert (Lt : is_lower_bound t = true) by (destruct t as [[]|[]|[]]; simpl in *; congruence).
          rewrite Lt in H. destruct s as [|u s].
          -- unfold iter_next. cbn [saved_lower tine_iter saved_upper btree_first btree_rest_front hd_error tl]. rewrite Lt.
             destruct t as [[]|[]|[]]; simpl in Lt, K; try discriminate; destruct dbg; (split; [reflexivity|discriminate]).
          -- apply chain_cons in H as (K' & U' & H). destruct (exclude_pend_c u s c K' U' H) as [H' P'].
             assert (E : forall d, iter_next d {| tine_iter := t :: u :: s; saved_lower := None; saved_upper := None |}
               = Ok (Some (raw_new (tine_into_inner t) (tine_into_inner u)), {| tine_iter := s; saved_lower := if is_point_exclude u then Some u else None; saved_upper := None |})).
             { intros d. unfold iter_next. cbn [saved_lower tine_iter saved_upper btree_first btree_rest_front]. rewrite Lt, U'.
               destruct t as [[]|[]|[]]; simpl in Lt, K; try discriminate; destruct d; reflexivity. }
             rewrite !E. cbn [bind]. destruct (raw_contains _ x); [split; [reflexivity|discriminate]|]. now apply IH.
  Qed.

  Lemma prefix_answers dbg L c x q : srt L -> chain false L c = true -> bl q L ->
    (lt (At x) q -> tree_contains dbg L x = Panic \/ tree_contains dbg L x = Ok (den false L (At x))) /\
    (le q (At x) -> tree_contains dbg L x <> Ok true).
  Proof.
    intros Sl H B. assert (No : pend_ok (@None (Tine T))) by (intros ? ?; discriminate).
    destruct (contains_prefix dbg x (S (iter_size (tree_interval_iter L))) L None c H No) as [E NF].
    change (contains_fuel _ dbg _ x) with (tree_contains dbg L x) in E, NF. change (contains_fuel _ true _ x) with (tree_contains true L x) in E.
    pose proof (chain_ok false L c H) as Ok'.
    split.
    - intros _. destruct c.
      + destruct (tree_contains dbg L x) as [[]|] eqn:Q; auto; [|now destruct (NF eq_refl)].
        right. f_equal. symmetry. apply (contains_debug_sound (S (iter_size (tree_interval_iter L))) L None x); auto.
      + right. apply tree_contains_den. now split.
    - intros Hq Q. rewrite E in Q.
      destruct (contains_debug_below (S (iter_size (tree_interval_iter L))) L None x) as (t & Ht & K); auto.
      pose proof (bl_in _ _ _ B Ht) as K'. revert Hq K K'. clear. generalize (At x) (loc t). porder.
  Qed.

  (** The value left by a panicking [Clone]. *)
  Definition lower_loc i : option (pos T) :=
    match i with
    | Empty => None
    | Point x => Some (At x)
    | _ => option_map (fun l => loc (TLower l)) (raw_lower_bound i)
    end.

  Lemma at_clone_in (o : option (Tine T)) s s' : In s' (at_clone o s) -> s' = s.
  Proof. unfold at_clone. destruct o as [t|]; [|intros []]. destruct (tine_into_inner t); simpl; intuition. Qed.
  Lemma at_raw_clone_in i s s' : In s' (at_raw_clone i s) -> s' = s.
  Proof. destruct i; simpl; intuition. Qed.

  Lemma clone_point x s s' : wf s -> In s' (exterior_point_clones (TPoint (Include x)) s) ->
    exists R c0 v c1, s = s' ++ opt (mk (At x) c0 v c1) ++ R /\ allowed (At x) c0 v c1 /\
      chain false s' c0 = true /\ bl (At x) s' /\ ab (At x) R /\ srt s'.
  Proof.
    intros [Sr Ch] I. destruct (split_at (At x) false s false) as (L & R & c0 & v & c1 & Es & A & HL & HR & BL & AR & SL & SR); auto; try discriminate.
    { exact Logic.I. }
    exists R, c0, v, c1.
    unfold exterior_point_clones in I. rewrite Es in I. change (At x) with (loc (TPoint (Include x))) in I.
    rewrite (take_split (TPoint (Include x)) L (mk (loc (TPoint (Include x))) c0 v c1) R) in I by (auto; apply mk_at). cbv beta iota in I.
    rewrite (split_off_split (TPoint (Include x)) L R) in I by auto. cbv beta iota in I.
    assert (s' = L) as -> by (apply in_app_or in I as [I|I]; eapply at_clone_in; eauto). auto 10.
  Qed.

  Lemma clone_proper dbg (l u : Bound T) s s' : wf s -> lt (loc (TLower l)) (loc (TUpper u)) ->
    In s' (exterior_proper_clones (TLower l) (TUpper u) s) \/ In s' (interior_proper_clones dbg (TLower l) (TUpper u) s) ->
    exists R c0 v c1, s = s' ++ opt (mk (loc (TLower l)) c0 v c1) ++ R /\ allowed (loc (TLower l)) c0 v c1 /\
      chain false s' c0 = true /\ bl (loc (TLower l)) s' /\ ab (loc (TLower l)) R /\ srt s'.
  Proof.
    intros W Hlu I.
    destruct (split2_at (loc (TLower l)) (loc (TUpper u)) s) as [L C R c0 vl c1 c2 vu c3 Es A A' HL HC HR BL AC BC AR SL SC SR];
      auto using loc_tine.
    set (ol := mk (loc (TLower l)) c0 vl c1) in *. set (ou := mk (loc (TUpper u)) c2 vu c3) in *.
    assert (Hol : at_loc (loc (TLower l)) ol) by apply mk_at. assert (Hou : at_loc (loc (TUpper u)) ou) by apply mk_at.
    assert (HR' : ab (loc (TLower l)) R) by (eapply ab_weaken; eauto).
    assert (HL' : bl (loc (TUpper u)) L) by (eapply bl_weaken; eauto).
    assert (HCR : ab (loc (TLower l)) (C ++ opt ou ++ R)).
    { apply ab_app. split; auto. apply ab_app. split; auto. destruct ou; repeat constructor; destruct Hou as [? Eq]; auto.
      now rewrite Eq. }
    assert (s' = L) as ->.
    { unfold exterior_proper_clones, interior_proper_clones in I. rewrite Es in I.
      rewrite (take_split (TLower l) L ol (C ++ opt ou ++ R)) in I by auto. cbv beta iota in I.
      rewrite app_assoc, (take_split (TUpper u) (L ++ C) ou R), <- app_assoc in I by (auto; apply bl_app; auto). cbv beta iota in I.
      rewrite (split_off_split (TLower l) L (C ++ R)), (split_off_split (TUpper u) C R) in I by (auto; apply ab_app; auto).
      cbv beta iota zeta in I.
      destruct I as [I|I]; [|destruct (debug_assert _ _); [|destruct I]];
        repeat (apply in_app_or in I as [I|I]); try (eapply at_clone_in; eassumption). }
    exists (C ++ opt ou ++ R), c0, vl, c1. auto 10.
  Qed.

  Lemma clone_state dbg s i s' : wf s -> raw_wf i ->
    In s' (tree_union_in_place_clones s i) \/ In s' (tree_minus_in_place_clones s i) \/ In s' (tree_intersect_in_place_clones dbg s i) ->
    s' = s \/
    exists q R c0 v c1, lower_loc i = Some q /\ s = s' ++ opt (mk q c0 v c1) ++ R /\ allowed q c0 v c1 /\
      chain false s' c0 = true /\ bl q s' /\ ab q R /\ srt s'.
  Proof.
    intros W Wi I.
    assert (K : s' = s \/ (exists x, i = Point x /\ In s' (exterior_point_clones (TPoint (Include x)) s)) \/
      exists l u : Bound T, tine_from_raw_interval i = [TLower l; TUpper u] /\
        (In s' (exterior_proper_clones (TLower l) (TUpper u) s) \/ In s' (interior_proper_clones dbg (TLower l) (TUpper u) s))).
    { unfold tree_union_in_place_clones, tree_minus_in_place_clones, tree_intersect_in_place_clones in I.
      destruct (tines_cases i Wi) as [(-> & E)|[(x & -> & E)|(l & u & EL & EU & Hlu & E & _)]]; rewrite E in I.
      - simpl in I. rewrite ?orb_true_r in I. simpl in I. destruct (tree_is_empty s); simpl in I; tauto.
      - simpl in I. destruct (tree_is_empty s); simpl in I; intuition eauto.
      - destruct (raw_is_full i), (tree_is_empty s), (raw_is_empty i); simpl in I;
          rewrite ?in_app_iff in I; (intuition eauto using at_raw_clone_in); right; right; exists l, u; auto. }
    destruct K as [K|[(x & -> & K)|(l & u & E & K)]]; [now left| |]; right.
    - destruct (clone_point x s s' W K) as (R & c0 & v & c1 & H). exists (At x), R, c0, v, c1. split; [reflexivity|exact H].
    - destruct (tines_cases i Wi) as [(-> & E')|[(x & -> & E')|(l' & u' & EL & EU & Hlu & E' & _)]]; try discriminate.
      rewrite E in E'. injection E' as <- <-.
      destruct (clone_proper dbg l u s s' W Hlu K) as (R & c0 & v & c1 & H). exists (loc (TLower l)), R, c0, v, c1.
      split; [|exact H]. destruct i; try discriminate; unfold lower_loc; now rewrite EL.
  Qed.
End PCrash.

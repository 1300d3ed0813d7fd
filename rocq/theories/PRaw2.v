(** * Proofs about the list-valued RawInterval operations *)
From Coq Require Import List Bool ZArith Lia Sorted.
From Verif Require Import Base OrdFacts Pos MBound MRaw Spec PRaw.
Import ListNotations.

Section PRaw2.
  Context {T : Type} {O : Ord T}.
  Implicit Types (a b i j : RawInterval T) (x y : T).

  (** Some interval of the list covers the position. *)
  Definition lcovers (l : list (RawInterval T)) (p : pos T) : bool := existsb (fun i => covers i p) l.

  Lemma some_contains_lcovers l x : some_contains l x <-> lcovers l (At x) = true.
  Proof.
    unfold some_contains, lcovers. rewrite existsb_exists.
    split; intros (i & H & K); exists i; split; auto; now rewrite ?covers_At in *.
  Qed.

  (** ** Complement *)
  Lemma raw_complement_contains i x : some_contains (raw_complement i) x <-> raw_contains i x = false.
  Proof.
    unfold some_contains.
    assert (E : (exists j, In j (raw_complement i) /\ raw_contains j x = true) <->
                existsb (fun j => raw_contains j x) (raw_complement i) = true).
    { rewrite existsb_exists. tauto. }
    rewrite E. destruct i; simpl; try (intuition congruence); rewrite ?orb_false_r; order.
  Qed.
  Lemma raw_complement_wf i : Forall raw_wf (raw_complement i).
  Proof. destruct i; simpl; repeat constructor. Qed.
  Lemma raw_complement_disjoint i : raw_wf i -> pairwise_disjoint (raw_complement i).
  Proof.
    unfold pairwise_disjoint, disjoint.
    destruct i; simpl; intros W; repeat constructor; simpl; order.
  Qed.
  Lemma raw_complement_length i : length (raw_complement i) <= 2.
  Proof. destruct i; simpl; lia. Qed.

  (** ** Minus *)
  Lemma raw_minus_contains a b x :
    some_contains (raw_minus a b) x <-> raw_contains a x = true /\ raw_contains b x = false.
  Proof.
    unfold raw_minus. rewrite <- (raw_complement_contains b x). unfold some_contains. split.
    - intros (k & Hk & Hx). apply filter_In in Hk as [Hk _]. apply in_map_iff in Hk as (j & <- & Hj).
      rewrite raw_intersect_contains, andb_true_iff in Hx. split; [tauto|]. exists j; tauto.
    - intros (Ha & j & Hj & Hx). exists (raw_intersect a j). split.
      + apply filter_In. split; [apply in_map_iff; eauto|].
        destruct (raw_is_empty (raw_intersect a j)) eqn:E; auto.
        assert (K := raw_intersect_contains a j x). destruct (raw_intersect a j); try discriminate.
        simpl in K. rewrite Ha, Hx in K. discriminate.
      + now rewrite raw_intersect_contains, Ha, Hx.
  Qed.
  Lemma raw_minus_nonempty a b : Forall (fun i => raw_is_empty i = false) (raw_minus a b).
  Proof.
    apply Forall_forall. intros i H. apply filter_In in H as [_ H]. now apply negb_true_iff in H.
  Qed.
  Lemma raw_minus_wf a b : Forall raw_wf (raw_minus a b).
  Proof.
    apply Forall_forall. intros i H. apply filter_In in H as [H _].
    apply in_map_iff in H as (j & <- & _). apply raw_intersect_wf.
  Qed.
  Lemma fop_map {A B} (R : A -> A -> Prop) (S : B -> B -> Prop) (f : A -> B) l :
    (forall p q, R p q -> S (f p) (f q)) -> ForallOrdPairs R l -> ForallOrdPairs S (map f l).
  Proof.
    intros H. induction 1; simpl; constructor; auto.
    apply Forall_map. eapply Forall_impl; [|eassumption]. auto.
  Qed.
  Lemma fop_filter {A} (R : A -> A -> Prop) (f : A -> bool) l :
    ForallOrdPairs R l -> ForallOrdPairs R (filter f l).
  Proof.
    induction 1; simpl; [constructor|]. destruct (f a); auto. constructor; auto.
    apply Forall_forall. intros y Hy. apply filter_In in Hy as [Hy _].
    rewrite Forall_forall in H. auto.
  Qed.
  Lemma raw_minus_disjoint a b : raw_wf b -> pairwise_disjoint (raw_minus a b).
  Proof.
    intros W. unfold raw_minus, pairwise_disjoint. apply fop_filter.
    eapply fop_map; [|apply raw_complement_disjoint; exact W].
    intros p q H x Hp Hq. rewrite raw_intersect_contains, andb_true_iff in Hp, Hq.
    apply (H x); tauto.
  Qed.
  Lemma raw_minus_length a b : length (raw_minus a b) <= 2.
  Proof.
    unfold raw_minus. assert (H := raw_complement_length b).
    assert (F : forall (f : RawInterval T -> bool) l, length (filter f l) <= length l).
    { intros f l. induction l; simpl; auto. destruct (f a0); simpl; lia. }
    etransitivity; [apply F|]. now rewrite map_length.
  Qed.

  (** ** Union *)
  Lemma raw_union_meets a b : raw_is_empty a = false -> raw_is_empty b = false ->
    raw_union a b = if meets a b then [raw_enclose a b] else [a; b].
  Proof. intros Ha Hb. unfold raw_union. now rewrite Ha, Hb. Qed.

  Lemma raw_union_covers a b p : raw_wf a -> raw_wf b ->
    lcovers (raw_union a b) p = covers a p || covers b p.
  Proof.
    intros Wa Wb. destruct (raw_is_empty a) eqn:Ea.
    { destruct a; try discriminate. unfold raw_union. simpl.
      destruct (raw_is_empty b) eqn:Eb; [destruct b; try discriminate; reflexivity|].
      simpl. now rewrite orb_false_r. }
    destruct (raw_is_empty b) eqn:Eb.
    { unfold raw_union. rewrite Ea, Eb. destruct b; try discriminate. simpl.
      rewrite covers_empty. reflexivity. }
    rewrite raw_union_meets by auto. destruct (meets a b) eqn:M; simpl.
    - rewrite meets_enclose by auto. now rewrite orb_false_r.
    - now rewrite orb_false_r.
  Qed.

  Lemma raw_union_contains a b x : raw_wf a -> raw_wf b ->
    (some_contains (raw_union a b) x <-> raw_contains a x = true \/ raw_contains b x = true).
  Proof.
    intros. now rewrite some_contains_lcovers, raw_union_covers, orb_true_iff, !covers_At by auto.
  Qed.

  Lemma raw_union_wf a b : raw_wf a -> raw_wf b ->
    Forall (fun i => raw_wf i /\ raw_is_empty i = false) (raw_union a b).
  Proof.
    intros Wa Wb. unfold raw_union.
    destruct (raw_is_empty a) eqn:Ea, (raw_is_empty b) eqn:Eb; simpl; auto.
    destruct (_ || _); repeat constructor; auto using raw_enclose_wf.
    apply raw_nonempty_covers; [auto using raw_enclose_wf|].
    apply raw_nonempty_covers in Ea as (p & Hp); auto. exists p. now apply raw_enclose_covers_l.
  Qed.

  Lemma raw_union_shape a b : raw_wf a -> raw_wf b ->
    match raw_union a b with
    | [] | [_] => True
    | [i; j] => separated i j \/ separated j i
    | _ => False
    end.
  Proof.
    intros Wa Wb. unfold raw_union.
    destruct (raw_is_empty a) eqn:Ea, (raw_is_empty b) eqn:Eb; auto.
    destruct (_ || _) eqn:E; auto. now apply not_meets_separated.
  Qed.

  (** ** intersect_all, enclose_all *)
  Lemma raw_intersect_all_contains l x :
    raw_contains (raw_intersect_all l) x = forallb (fun i => raw_contains i x) l.
  Proof.
    unfold raw_intersect_all.
    assert (H : forall acc, raw_contains (fold_left (fun acc i => raw_intersect acc i) l acc) x =
                            raw_contains acc x && forallb (fun i => raw_contains i x) l).
    { induction l as [|i l IH]; intros acc; simpl; [now rewrite andb_true_r|].
      now rewrite IH, raw_intersect_contains, andb_assoc. }
    now rewrite H.
  Qed.
  Lemma raw_intersect_all_wf l : raw_wf (raw_intersect_all l).
  Proof.
    unfold raw_intersect_all.
    assert (H : forall acc, raw_wf acc -> raw_wf (fold_left (fun acc i => raw_intersect acc i) l acc)).
    { induction l as [|i l IH]; simpl; auto. intros acc _. apply IH, raw_intersect_wf. }
    now apply H.
  Qed.

  Lemma raw_enclose_full_l b : raw_enclose Full b = Full.
  Proof. destruct b; reflexivity. Qed.
  Lemma raw_enclose_all_full l : raw_enclose_all l = Full.
  Proof.
    unfold raw_enclose_all. induction l as [|i l IH]; simpl; auto. now rewrite raw_enclose_full_l.
  Qed.

  (** ** union_all *)
  Lemma union_all_step_covers l n p : Forall raw_wf l -> raw_wf n ->
    lcovers (raw_union_all_step l n) p = lcovers l p || covers n p.
  Proof.
    intros Hl Wn. induction Hl as [|i l Wi Hl IH]; simpl; [now rewrite orb_false_r|].
    change (raw_intersects i n || raw_is_adjacent_to i n) with (meets i n).
    destruct (meets i n) eqn:M; simpl.
    - rewrite meets_enclose by auto. destruct (covers i p), (covers n p), (lcovers l p) eqn:E;
        simpl; unfold lcovers in *; rewrite ?E; auto.
    - unfold lcovers in *. rewrite IH. apply orb_assoc.
  Qed.
  Lemma union_all_step_wf l n : Forall (fun i => raw_wf i /\ raw_is_empty i = false) l ->
    raw_wf n -> raw_is_empty n = false ->
    Forall (fun i => raw_wf i /\ raw_is_empty i = false) (raw_union_all_step l n).
  Proof.
    intros Hl Wn En. induction Hl as [|i l [Wi Ei] Hl IH]; simpl; auto.
    destruct (_ || _); constructor; auto. split; auto using raw_enclose_wf.
    apply raw_nonempty_covers; [auto using raw_enclose_wf|].
    apply raw_nonempty_covers in Ei as (p & Hp); auto. exists p. now apply raw_enclose_covers_l.
  Qed.

  Definition union_all_fold (l prev : list (RawInterval T)) : list (RawInterval T) :=
    fold_left (fun prev next => if raw_is_full next then [Full] else raw_union_all_step prev next) l prev.

  Lemma union_all_fold_wf l : forall prev,
    Forall (fun i => raw_wf i /\ raw_is_empty i = false) l ->
    Forall (fun i => raw_wf i /\ raw_is_empty i = false) prev ->
    Forall (fun i => raw_wf i /\ raw_is_empty i = false) (union_all_fold l prev).
  Proof.
    induction l as [|i l IH]; intros prev Hl Hp; simpl; auto. inversion Hl as [|? ? [Wi Ei] Hl']; subst.
    apply IH; auto. destruct (raw_is_full i); [repeat constructor|]. now apply union_all_step_wf.
  Qed.
  Lemma lcovers_app l l' p : lcovers (l ++ l') p = lcovers l p || lcovers l' p.
  Proof. apply existsb_app. Qed.

  Lemma union_all_fold_covers l p : forall prev,
    Forall (fun i => raw_wf i /\ raw_is_empty i = false) l ->
    Forall (fun i => raw_wf i /\ raw_is_empty i = false) prev ->
    lcovers (union_all_fold l prev) p = lcovers prev p || lcovers l p.
  Proof.
    induction l as [|i l IH]; intros prev Hl Hp; simpl; [now rewrite orb_false_r|].
    inversion Hl as [|? ? [Wi Ei] Hl']; subst. fold (lcovers l p).
    destruct (raw_is_full i) eqn:F.
    - destruct i; try discriminate. rewrite IH by (auto; repeat constructor).
      assert (C : covers (@Full T) p = true) by (unfold covers; simpl; porder).
      simpl. rewrite C. simpl. now rewrite orb_true_r.
    - rewrite IH by (auto; now apply union_all_step_wf).
      rewrite union_all_step_covers; auto.
      + now rewrite orb_assoc.
      + eapply Forall_impl; [|exact Hp]. now intros ? [].
  Qed.

  Lemma filter_nonempty_lcovers l p :
    lcovers (filter (fun i => negb (raw_is_empty i)) l) p = lcovers l p.
  Proof.
    induction l as [|i l IH]; simpl; auto. destruct (raw_is_empty i) eqn:E; simpl; rewrite <- IH; auto.
    destruct i; try discriminate. reflexivity.
  Qed.
  Lemma filter_nonempty_wf l : Forall raw_wf l ->
    Forall (fun i => raw_wf i /\ raw_is_empty i = false) (filter (fun i => negb (raw_is_empty i)) l).
  Proof.
    intros H. apply Forall_forall. intros i Hi. apply filter_In in Hi as [Hi E].
    rewrite Forall_forall in H. split; auto. now apply negb_true_iff in E.
  Qed.

  Lemma raw_union_all_covers l p : Forall raw_wf l -> lcovers (raw_union_all l) p = lcovers l p.
  Proof.
    intros H. rewrite <- (filter_nonempty_lcovers l). apply filter_nonempty_wf in H.
    unfold raw_union_all. destruct (filter _ l) as [|s r]; auto.
    inversion H; subst. fold (union_all_fold r [s]).
    rewrite union_all_fold_covers; auto. simpl. now rewrite orb_false_r.
  Qed.
  Lemma raw_union_all_wf l : Forall raw_wf l ->
    Forall (fun i => raw_wf i /\ raw_is_empty i = false) (raw_union_all l).
  Proof.
    intros H. apply filter_nonempty_wf in H. unfold raw_union_all.
    destruct (filter _ l) as [|s r]; auto. inversion H; subst. fold (union_all_fold r [s]).
    apply union_all_fold_wf; auto.
  Qed.

  (** Inputs sorted by lower bound give separated pieces. *)
  Definition starts_le i j : Prop :=
    match raw_lower_bound i, raw_lower_bound j with
    | Some a, Some b => le (lpos a) (lpos b)
    | _, _ => True
    end.

  Lemma separated_not_meets i j n :
    raw_wf i -> raw_wf j -> raw_wf n -> raw_is_empty n = false -> separated i j -> starts_le j n -> meets i n = false.
  Proof.
    intros Wi Wj Wn En S L. unfold meets. apply orb_false_iff.
    destruct (raw_bounds_cases i) as [(-> & _)|(la & ua & La & Ua)]; [easy|].
    destruct (raw_bounds_cases j) as [(-> & _)|(lb & ub & Lb & Ub)];
      [unfold separated in S; rewrite Ua in S; simpl in S; destruct ua; tauto|].
    destruct (raw_bounds_cases n) as [(-> & _)|(lc & uc & Lc & Uc)]; [easy|].
    unfold separated in S. unfold starts_le in L. rewrite Ua, Lb in S. rewrite Lb, Lc in L.
    assert (Hi := raw_wf_pos i la ua Wi La Ua). assert (Hn := raw_wf_pos n lc uc Wn Lc Uc).
    assert (D : lt (upos ua) (lpos lb)) by (destruct ua, lb; simpl in *; try tauto; porder).
    split.
    - destruct (raw_intersects i n) eqn:E; auto. apply raw_intersects_covers in E as (p & Hp & Hq).
      rewrite (covers_bounds i p la ua) in Hp by auto. rewrite (covers_bounds n p lc uc) in Hq by auto.
      revert D L Hp Hq. generalize (lpos la) (lpos lb) (lpos lc) (upos ua) (upos uc). clear. porder.
    - unfold raw_is_adjacent_to. rewrite La, Ua, Lc, Uc. apply orb_false_iff. split.
      + destruct (is_union_adjacent_to la uc) eqn:E; auto. apply adjacent_pos in E.
        destruct E as [E|[E _]]; revert E D L Hi Hn;
          generalize (lpos la) (lpos lb) (lpos lc) (upos ua) (upos uc); clear; porder.
      + destruct (is_union_adjacent_to lc ua) eqn:E; auto. exfalso.
        destruct lc, ua, lb; simpl in *; try tauto; try discriminate; porder.
  Qed.

  Lemma separated_trans_start i j n :
    raw_wf i -> raw_wf j -> raw_wf n -> raw_is_empty n = false -> raw_is_empty i = false ->
    separated i j -> starts_le j n -> separated i n.
  Proof.
    intros Wi Wj Wn En Ei S L. assert (M := separated_not_meets i j n Wi Wj Wn En S L).
    destruct (not_meets_separated i n Wi Wn Ei En M) as [H|H]; auto. exfalso.
    destruct (raw_bounds_cases i) as [(-> & _)|(la & ua & La & Ua)]; [easy|].
    destruct (raw_bounds_cases j) as [(-> & _)|(lb & ub & Lb & Ub)];
      [unfold separated in S; rewrite Ua in S; simpl in S; destruct ua; tauto|].
    destruct (raw_bounds_cases n) as [(-> & _)|(lc & uc & Lc & Uc)]; [easy|].
    unfold separated in S, H. unfold starts_le in L. rewrite Ua, Lb in S. rewrite Lb, Lc in L.
    rewrite Uc, La in H.
    assert (Hi := raw_wf_pos i la ua Wi La Ua). assert (Hn := raw_wf_pos n lc uc Wn Lc Uc).
    assert (D : lt (upos ua) (lpos lb)) by (destruct ua, lb; simpl in *; try tauto; porder).
    assert (D' : lt (upos uc) (lpos la)) by (destruct uc, la; simpl in *; try tauto; porder).
    revert D D' L Hi Hn. generalize (lpos la) (lpos lb) (lpos lc) (upos ua) (upos uc). clear. porder.
  Qed.

  Lemma starts_le_trans i j k : raw_is_empty j = false -> starts_le i j -> starts_le j k -> starts_le i k.
  Proof.
    unfold starts_le. intros E. destruct (raw_bounds_cases j) as [(-> & _)|(lb & ub & Lb & Ub)]; [easy|].
    rewrite Lb. destruct (raw_lower_bound i) as [x|], (raw_lower_bound k) as [y|]; auto.
    generalize (lpos x) (lpos y) (lpos lb). clear. porder.
  Qed.

  Lemma enclose_start i n : raw_wf i -> raw_wf n -> raw_is_empty i = false -> raw_is_empty n = false ->
    starts_le i n -> raw_lower_bound (raw_enclose i n) = raw_lower_bound i.
  Proof.
    intros Wi Wn Ei En H. unfold starts_le in H.
    destruct (raw_bounds_cases i) as [(-> & _)|(la & ua & La & Ua)]; [easy|].
    destruct (raw_bounds_cases n) as [(-> & _)|(lc & uc & Lc & Uc)]; [easy|].
    rewrite La, Lc in H. rewrite (raw_enclose_bounds i n la ua lc uc) by auto.
    assert (P : le (lpos la) (upos ua)) by exact (raw_wf_pos i la ua Wi La Ua).
    destruct (raw_new_lower _ _ (enclose_pos_le la ua lc uc P)) as [-> _].
    rewrite La. f_equal. apply lpos_inj.
    destruct la, lc; simpl in *; split_cmp; simpl; try reflexivity; porder.
  Qed.

  Definition sep_list (l : list (RawInterval T)) : Prop := ForallOrdPairs separated l.
  Notation good := (fun i => raw_wf i /\ raw_is_empty i = false).

  Lemma separated_lower i j j' :
    separated i j -> raw_lower_bound j' = raw_lower_bound j -> separated i j'.
  Proof. unfold separated. intros H ->. exact H. Qed.

  Lemma step_sep l n :
    Forall good l -> good n -> sep_list l -> Forall (fun i => starts_le i n) l ->
    sep_list (raw_union_all_step l n) /\
    (forall k, raw_wf k -> raw_is_empty k = false -> starts_le n k ->
       Forall (fun i => starts_le i k) (raw_union_all_step l n)) /\
    (forall i0, good i0 -> Forall (separated i0) l -> l <> [] ->
       Forall (separated i0) (raw_union_all_step l n)).
  Proof.
    intros Gl [Wn En]. induction Gl as [|i l [Wi Ei] Gl IH]; intros S St.
    - simpl. split; [|split].
      + repeat constructor.
      + intros. repeat constructor; auto.
      + intros; congruence.
    - inversion S as [|? ? Si Sl]; subst. inversion St as [|? ? Sti Stl]; subst.
      simpl. change (raw_intersects i n || raw_is_adjacent_to i n) with (meets i n).
      destruct l as [|j l].
      + simpl. destruct (meets i n) eqn:M.
        * assert (E := enclose_start i n Wi Wn Ei En Sti).
          split; [|split].
          -- repeat constructor.
          -- intros k Wk Ek H. constructor; auto.
             assert (H' := starts_le_trans i n k En Sti H).
             unfold starts_le in *. now rewrite E.
          -- intros i0 G0 H0 _. inversion H0; subst. constructor; auto.
             eapply separated_lower; eauto.
        * destruct (not_meets_separated i n Wi Wn Ei En M) as [D|D].
          -- split; [|split].
             ++ repeat constructor; auto.
             ++ intros k Wk Ek H. constructor; [exact (starts_le_trans i n k En Sti H)|]. repeat constructor; auto.
             ++ intros i0 [W0 E0] H0 _. inversion H0; subst. constructor; auto. constructor; auto.
                apply (separated_trans_start i0 i n); auto.
          -- exfalso. clear IH. unfold separated, starts_le in *.
             destruct (raw_bounds_cases i) as [(-> & _)|(la & ua & La & Ua)]; [easy|].
             destruct (raw_bounds_cases n) as [(-> & _)|(lc & uc & Lc & Uc)]; [easy|].
             rewrite La, Uc in D. rewrite La, Lc in Sti.
             assert (Hn := raw_wf_pos n lc uc Wn Lc Uc).
             assert (D' : lt (upos uc) (lpos la)) by (destruct uc, la; simpl in *; try tauto; porder).
             revert D' Sti Hn. generalize (lpos la) (lpos lc) (upos uc). clear. porder.
      + inversion Si as [|? ? Sij Sil]; subst. inversion Stl as [|? ? Stj Stl']; subst.
        inversion Gl as [|? ? [Wj Ej] Gl']; subst.
        rewrite (separated_not_meets i j n) by auto.
        destruct (IH Sl Stl) as (I1 & I2 & I3).
        split; [|split].
        * constructor; auto. apply I3; auto. discriminate.
        * intros k Wk Ek H. constructor; auto. exact (starts_le_trans i n k En Sti H).
        * intros i0 G0 H0 _. inversion H0; subst. constructor; auto. apply I3; auto. discriminate.
  Qed.

  Lemma union_all_fold_sep l : forall prev,
    Forall good l -> Forall good prev -> sep_list prev ->
    ForallOrdPairs starts_le l -> Forall (fun n => Forall (fun i => starts_le i n) prev) l ->
    sep_list (union_all_fold l prev).
  Proof.
    induction l as [|n l IH]; intros prev Gl Gp Sp Sl Spl; simpl; auto.
    inversion Gl as [|? ? [Wn En] Gl']; subst. inversion Sl as [|? ? Sn Sl']; subst.
    inversion Spl as [|? ? Sp1 Sp2]; subst.
    destruct (raw_is_full n) eqn:F.
    - destruct n; try discriminate.
      apply IH; [auto|repeat constructor|repeat constructor|auto|].
      eapply Forall_impl; [|exact Sn]. intros k Hk. repeat constructor. exact Hk.
    - destruct (step_sep prev n Gp (conj Wn En) Sp Sp1) as (I1 & I2 & _).
      apply IH; auto. { now apply union_all_step_wf. }
      rewrite Forall_forall in Sn, Gl' |- *. intros k Hk. apply I2; [now apply Gl'|now apply Gl'|auto].
  Qed.

  Lemma raw_union_all_sorted_sep l :
    Forall raw_wf l -> ForallOrdPairs starts_le l -> sep_list (raw_union_all l).
  Proof.
    intros W S. apply filter_nonempty_wf in W. apply (fop_filter _ (fun i => negb (raw_is_empty i))) in S.
    unfold raw_union_all. destruct (filter _ l) as [|s r]; [constructor|].
    inversion W; subst. inversion S; subst. fold (union_all_fold r [s]).
    apply union_all_fold_sep; [auto|repeat constructor; tauto|repeat constructor|auto|].
    eapply Forall_impl; [|eassumption]. repeat constructor. assumption.
  Qed.

  Lemma sep_list_disjoint l : Forall raw_wf l -> sep_list l -> pairwise_disjoint l.
  Proof.
    intros W S. induction S as [|i l H S IH]; [constructor|]. inversion W; subst.
    constructor; [|now apply IH]. rewrite Forall_forall in *. intros j Hj.
    apply separated_disjoint; auto.
  Qed.

  (** ** Dense orders *)
  Lemma dense_point i : dense T -> unbounded T -> inhabited T -> raw_wf i -> raw_is_empty i = false ->
    exists x, raw_contains i x = true.
  Proof.
    intros D [U1 U2] [t]. destruct i; simpl; intros W E; try discriminate.
    - exists p. order.
    - destruct (D l r W) as (z & H1 & H2). exists z. order.
    - exists r. order.
    - exists l. order.
    - exists l. order.
    - destruct (U2 p) as (z & H). exists z. order.
    - destruct (U1 p) as (z & H). exists z. order.
    - exists p. order.
    - exists p. order.
    - exists t. reflexivity.
  Qed.
End PRaw2.

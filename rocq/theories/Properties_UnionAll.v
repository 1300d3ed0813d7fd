(** C08, exact domain: when the pieces [RawInterval::union_all] yields are
    apart. *)
From Coq Require Import List Bool ZArith Lia.
From Verif Require Import Base OrdFacts Pos MBound MRaw Ints Spec Instances PRaw PRaw2 PSel2 Properties_Raw.
Import ListNotations.
Local Open Scope Z_scope.

Section UnionAll.
  Context {T : Type} {O : Ord T}.
  Implicit Types (i j x : RawInterval T) (l : list (RawInterval T)).
  Notation good := (fun i => raw_wf i /\ raw_is_empty i = false).

  (** [i] lies below [j] with a position between them. *)
  Definition gap i j : Prop := exists p, (forall q, covers i q = true -> lt q p) /\ (forall q, covers j q = true -> lt p q).

  Lemma lt_tr (p q r : pos T) : lt p q -> lt q r -> lt p r.
  Proof. porder. Qed.
  Lemma lt_irr (p : pos T) : ~ lt p p.
  Proof. unfold not. porder. Qed.

  Lemma separated_gap i j : separated i j -> gap i j.
  Proof.
    destruct (raw_bounds_cases i) as [(-> & _)|(la & ua & La & Ua)]; [now simpl|].
    destruct (raw_bounds_cases j) as [(-> & _)|(lb & ub & Lb & Ub)]; [unfold separated; rewrite Ua; destruct ua; now simpl|].
    unfold separated. rewrite Ua, Lb. intros S.
    assert (K : exists p, lt (upos ua) p /\ lt p (lpos lb)).
    { destruct ua as [a|a|], lb as [b|b|]; simpl in *; try tauto;
        ((exists (At a); split; porder) || (exists (Hi a); split; porder)). }
    destruct K as (p & K1 & K2). exists p. split; intros q Hq.
    - apply (covers_bounds i _ _ _ La Ua) in Hq as [_ Hq]. revert Hq K1. generalize (upos ua). clear. porder.
    - apply (covers_bounds j _ _ _ Lb Ub) in Hq as [Hq _]. revert Hq K2. generalize (lpos lb). clear. porder.
  Qed.

  Lemma gap_meets i j : good i -> good j -> gap i j -> meets i j = false /\ meets j i = false.
  Proof.
    intros [Wi Ei] [Wj Ej] (p & Hi & Hj).
    destruct (raw_bounds_cases i) as [(-> & _)|(la & ua & La & Ua)]; [discriminate|].
    destruct (raw_bounds_cases j) as [(-> & _)|(lb & ub & Lb & Ub)]; [discriminate|].
    assert (Pi := raw_wf_pos i la ua Wi La Ua). assert (Pj := raw_wf_pos j lb ub Wj Lb Ub).
    assert (Ki : lt (upos ua) p) by (apply Hi, (covers_bounds i _ _ _ La Ua); split; auto; po).
    assert (Kj : lt p (lpos lb)) by (apply Hj, (covers_bounds j _ _ _ Lb Ub); split; auto; po).
    assert (N1 : is_union_adjacent_to la ub = false).
    { destruct (is_union_adjacent_to la ub) eqn:A; auto. apply adjacent_pos in A. exfalso.
      destruct A as [A|[A _]]; revert A Ki Kj Pi Pj; generalize (lpos la) (lpos lb) (upos ua) (upos ub); clear; porder. }
    assert (N2 : is_union_adjacent_to lb ua = false).
    { destruct (is_union_adjacent_to lb ua) eqn:A; auto. apply adjacent_pos in A. exfalso.
      destruct A as [A|[_ A]]; [revert A Ki Kj Pi Pj; generalize (lpos la) (lpos lb) (upos ua) (upos ub); clear; porder|].
      specialize (A p). tauto. }
    unfold meets, raw_is_adjacent_to. rewrite La, Ua, Lb, Ub, N1, N2. split; apply orb_false_iff; split; auto;
      destruct (raw_intersects _ _) eqn:I; auto; exfalso; apply raw_intersects_covers in I as (q & Q1 & Q2); auto;
      specialize (Hi q); specialize (Hj q); apply (lt_irr q), (lt_tr _ p); auto.
  Qed.

  Lemma meets_gap i j : good i -> good j -> (meets i j = false <-> gap i j \/ gap j i).
  Proof.
    intros Gi Gj. split.
    - intros M. destruct Gi, Gj. destruct (not_meets_separated i j) as [K|K]; auto using separated_gap.
    - intros [K|K]; [apply (gap_meets i j)|apply (gap_meets j i)]; auto.
  Qed.
  Lemma meets_sym i j : good i -> good j -> meets i j = meets j i.
  Proof.
    intros Gi Gj. apply eq_true_iff_eq. rewrite <- !not_false_iff_true, !meets_gap by auto. tauto.
  Qed.

  Lemma enclose_good i x : good i -> good x -> good (raw_enclose i x).
  Proof.
    intros [Wi Ei] [Wx Ex]. split; [now apply raw_enclose_wf|].
    apply raw_nonempty_covers; [auto using raw_enclose_wf|].
    apply raw_nonempty_covers in Ei as (p & Hp); auto. exists p. now apply raw_enclose_covers_l.
  Qed.

  (** What meets the union of two meeting intervals is what meets either. *)
  Lemma meets_union i x j : good i -> good x -> good j -> meets i x = true ->
    meets (raw_enclose i x) j = meets i j || meets x j.
  Proof.
    intros Gi Gx Gj M. pose proof (enclose_good i x Gi Gx) as Ge.
    assert (C : forall p, covers (raw_enclose i x) p = covers i p || covers x p) by (intros p; destruct Gi, Gx; now apply meets_enclose).
    apply eq_true_iff_eq. rewrite orb_true_iff, <- !not_false_iff_true, !meets_gap by auto. split.
    - intros N. destruct (meets i j) eqn:M1; [left|]. { intros K. apply (meets_gap i j) in K; auto. congruence. }
      right. intros K. apply N. apply (meets_gap i j) in M1; auto.
      assert (Nix : ~ gap i x /\ ~ gap x i) by (split; intros G; apply (gap_meets _ _) in G; auto; destruct G; congruence).
      assert (Hj : exists q, covers j q = true) by (destruct Gj; now apply raw_nonempty_covers). destruct Hj as (q & Hq).
      destruct M1 as [(p & A1 & A2)|(p & A1 & A2)], K as [(p' & B1 & B2)|(p' & B1 & B2)].
      + left. destruct (leb p p') eqn:L; [exists p'|exists p]; split; intros r; rewrite ?C, ?orb_true_iff; auto.
        * intros [K|K]; auto. specialize (A1 r K). apply leb_iff in L. revert A1 L. clear. porder.
        * intros [K|K]; auto. specialize (B1 r K). assert (lt p' p) by (apply not_true_iff_false in L; rewrite leb_iff in L; revert L; clear; porder).
          revert B1 H. clear. porder.
      + exfalso. apply (proj1 Nix). exists p. split; auto. intros r Hr. specialize (A2 q Hq). specialize (B1 q Hq). specialize (B2 r Hr).
        revert A2 B1 B2. clear. porder.
      + exfalso. apply (proj2 Nix). exists p'. split; auto. intros r Hr. specialize (A1 q Hq). specialize (B2 q Hq). specialize (A2 r Hr).
        revert A1 B2 A2. clear. porder.
      + right. destruct (leb p p') eqn:L; [exists p|exists p']; split; intros r; rewrite ?C, ?orb_true_iff; auto.
        * intros [K|K]; auto. specialize (B2 r K). apply leb_iff in L. revert B2 L. clear. porder.
        * intros [K|K]; auto. specialize (A2 r K). assert (lt p' p) by (apply not_true_iff_false in L; rewrite leb_iff in L; revert L; clear; porder).
          revert A2 H. clear. porder.
    - intros N K. destruct K as [(p & A1 & A2)|(p & A1 & A2)], N as [N|N]; apply N.
      + left. exists p. split; auto. intros q Hq. apply A1. now rewrite C, Hq.
      + left. exists p. split; auto. intros q Hq. apply A1. now rewrite C, Hq, orb_true_r.
      + right. exists p. split; auto. intros q Hq. apply A2. now rewrite C, Hq.
      + right. exists p. split; auto. intros q Hq. apply A2. now rewrite C, Hq, orb_true_r.
  Qed.

  Definition apart l : Prop := ForallOrdPairs (fun i j => meets i j = false) l.
  Fixpoint one_at_most l x : Prop :=
    match l with
    | [] => True
    | i :: r => if meets i x then Forall (fun j => meets j x = false) r else one_at_most r x
    end.

  Lemma step_forall l x i : Forall good l -> good x -> good i -> meets i x = false ->
    (Forall (fun j => meets i j = false) (raw_union_all_step l x) <-> Forall (fun j => meets i j = false) l).
  Proof.
    intros Gl Gx Gi M. induction Gl as [|j l Gj Gl IH]; simpl.
    - split; auto.
    - change (raw_intersects j x || raw_is_adjacent_to j x) with (meets j x). destruct (meets j x) eqn:Mj; rewrite !Forall_cons_iff.
      + rewrite (meets_sym i), meets_union by auto using enclose_good. rewrite (meets_sym x), M, orb_false_r, (meets_sym j) by auto. tauto.
      + rewrite IH. tauto.
  Qed.

  Lemma step_apart l x : Forall good l -> good x ->
    (apart (raw_union_all_step l x) <-> apart l /\ one_at_most l x).
  Proof.
    intros Gl Gx. unfold apart. induction Gl as [|j l Gj Gl IH]; simpl.
    - split; [repeat constructor|]. intros _. repeat constructor.
    - assert (Fop : forall (a : RawInterval T) m, ForallOrdPairs (fun i j => meets i j = false) (a :: m) <->
        Forall (fun j => meets a j = false) m /\ ForallOrdPairs (fun i j => meets i j = false) m).
      { intros a m. split; [intros K; inversion K; auto|]. intros []. now constructor. }
      change (raw_intersects j x || raw_is_adjacent_to j x) with (meets j x). destruct (meets j x) eqn:Mj; rewrite !Fop.
      + assert (E : Forall (fun k => meets (raw_enclose j x) k = false) l <->
          Forall (fun k => meets j k = false) l /\ Forall (fun k => meets k x = false) l).
        { clear IH. induction Gl as [|k l Gk Gl IH]; [split; repeat constructor|]. rewrite !Forall_cons_iff, IH.
          rewrite meets_union, orb_false_iff, (meets_sym x) by auto. tauto. }
        rewrite E. tauto.
      + rewrite step_forall, IH by auto. tauto.
  Qed.

  Lemma one_at_most_iff l x : one_at_most l x <->
    forall a i b j c, l = a ++ i :: b ++ j :: c -> meets i x = true -> meets j x = true -> False.
  Proof.
    induction l as [|k l IH]; simpl.
    - split; auto. intros _ a i b j c K. now destruct a.
    - destruct (meets k x) eqn:M.
      + split.
        * intros Fa a i b j c E _ Mj. rewrite Forall_forall in Fa. rewrite (Fa j) in Mj; [discriminate|].
          destruct a; injection E as -> ->; rewrite ?in_app_iff; simpl; rewrite ?in_app_iff; simpl; auto 6.
        * intros K. apply Forall_forall. intros j Hj. apply in_split in Hj as (b & c & ->).
          destruct (meets j x) eqn:Mj; auto. exfalso. exact (K [] k b j c eq_refl M Mj).
      + rewrite IH. split.
        * intros K a i b j c E Mi Mj. destruct a as [|k' a]; injection E as -> ->; [congruence|]. eapply K; eauto.
        * intros K a i b j c E Mi Mj. apply (K (k :: a) i b j c); auto. now rewrite E.
  Qed.

  Lemma union_all_snoc l x : raw_union_all (l ++ [x]) =
    if raw_is_empty x then raw_union_all l else if raw_is_full x then [Full] else raw_union_all_step (raw_union_all l) x.
  Proof.
    unfold raw_union_all. rewrite filter_app. simpl. destruct (raw_is_empty x); simpl; [now rewrite app_nil_r|].
    destruct (filter _ l) as [|s r]; simpl.
    - destruct x; reflexivity.
    - rewrite fold_left_app. reflexivity.
  Qed.
  Lemma raw_is_full_eq x : raw_is_full x = true <-> x = Full.
  Proof. destruct x; split; easy. Qed.
  Lemma full_meets x : raw_is_empty x = false -> raw_wf x -> meets Full x = true /\ raw_enclose Full x = Full.
  Proof.
    intros E W. split.
    - unfold meets. apply orb_true_iff. left. apply raw_intersects_covers. apply raw_nonempty_covers in E as (p & Hp); auto.
      exists p. split; auto. unfold covers. simpl. porder.
    - destruct x; reflexivity || discriminate.
  Qed.
  Lemma union_all_full l : Forall raw_wf l -> In Full l -> raw_union_all l = [Full].
  Proof.
    induction l as [|x l IH] using rev_ind; intros W H; [destruct H|].
    apply Forall_app in W as [W Wx]. inversion_clear Wx. rewrite union_all_snoc.
    destruct (raw_is_empty x) eqn:E; [|destruct (raw_is_full x) eqn:Fu; auto].
    - apply IH; auto. apply in_app_iff in H as [H|[->|[]]]; auto. discriminate.
    - rewrite IH; auto.
      + simpl. change (raw_intersects Full x || raw_is_adjacent_to Full x) with (meets Full x). destruct (full_meets x) as [-> ->]; auto.
      + apply in_app_iff in H as [H|[->|[]]]; auto. discriminate.
  Qed.
  Lemma empty_meets i x : raw_is_empty x = true -> meets i x = false.
  Proof. intros E. destruct x; try discriminate. destruct i; reflexivity. Qed.

  (** The pieces are apart (no two intersect or are adjacent) exactly if the
      list has [Full] in it or no interval of it touches two of the pieces that
      the intervals before it give. *)
  Theorem C08_union_all_iff_partial l : Forall raw_wf l ->
    (ForallOrdPairs (fun i j => raw_intersects i j = false /\ raw_is_adjacent_to i j = false) (raw_union_all l) <->
     In Full l \/
     forall before x after, l = before ++ x :: after ->
       forall a i b j c, raw_union_all before = a ++ i :: b ++ j :: c ->
       ~ ((raw_intersects i x = true \/ raw_is_adjacent_to i x = true) /\
          (raw_intersects j x = true \/ raw_is_adjacent_to j x = true))).
  Proof.
    intros W.
    assert (A : ForallOrdPairs (fun i j => raw_intersects i j = false /\ raw_is_adjacent_to i j = false) (raw_union_all l) <-> apart (raw_union_all l)).
    { unfold apart. generalize (raw_union_all l). intros m.
      induction m as [|i m IH]; [split; constructor|].
      assert (Fo : forall P : RawInterval T -> RawInterval T -> Prop, ForallOrdPairs P (i :: m) <-> Forall (P i) m /\ ForallOrdPairs P m)
        by (intros P; split; [intros K; inversion K; auto|intros []; now constructor]).
      rewrite !Fo, IH. unfold meets. split; intros [K L]; (split; [|exact L]); eapply Forall_impl; try exact K; intros j; simpl; now rewrite orb_false_iff. }
    rewrite A. clear A.
    assert (B : (forall before x after, l = before ++ x :: after ->
       forall a i b j c, raw_union_all before = a ++ i :: b ++ j :: c ->
       ~ ((raw_intersects i x = true \/ raw_is_adjacent_to i x = true) /\
          (raw_intersects j x = true \/ raw_is_adjacent_to j x = true))) <->
       forall before x after, l = before ++ x :: after -> one_at_most (raw_union_all before) x).
    { split; intros K before x after E.
      - apply one_at_most_iff. intros a i b j c E' Mi Mj. unfold meets in Mi, Mj. rewrite orb_true_iff in Mi, Mj. eapply K; eauto.
      - intros a i b j c E' [Mi Mj]. rewrite <- !orb_true_iff in Mi, Mj. specialize (K _ _ _ E). rewrite one_at_most_iff in K. exact (K _ _ _ _ _ E' Mi Mj). }
    rewrite B. clear B. induction l as [|x l IH] using rev_ind.
    { split; [|constructor]. intros _. right. intros before x after E. now destruct before. }
    apply Forall_app in W as [W Wx]. inversion_clear Wx. specialize (IH W).
    assert (S : (forall before y after, l ++ [x] = before ++ y :: after -> one_at_most (raw_union_all before) y) <->
      (forall before y after, l = before ++ y :: after -> one_at_most (raw_union_all before) y) /\ one_at_most (raw_union_all l) x).
    { split.
      - intros K. split.
        + intros before y after ->. apply (K before y (after ++ [x])). now rewrite <- app_assoc.
        + now apply (K l x []).
      - intros [K1 K2] before y after E. destruct (exists_last (l := y :: after)) as (m & z & Em); [discriminate|].
        rewrite Em, app_assoc in E. apply app_inj_tail in E as [-> ->].
        destruct m as [|y' m]; injection Em as -> Em; [now rewrite app_nil_r in K2|]. eapply K1; eauto. }
    rewrite S. clear S. rewrite union_all_snoc. pose proof (raw_union_all_wf l W) as G.
    destruct (raw_is_empty x) eqn:E; [|destruct (raw_is_full x) eqn:Fu].
    - rewrite IH, in_app_iff. simpl. assert (one_at_most (raw_union_all l) x).
      { apply one_at_most_iff. intros a i b j c _ Mi. now rewrite empty_meets in Mi. }
      split; [intuition|]. intros [[K|[->|[]]]|K]; auto; [discriminate|tauto].
    - apply raw_is_full_eq in Fu as ->. split; [intros _; left; apply in_app_iff; simpl; auto|]. intros _. repeat constructor.
    - rewrite step_apart by auto. rewrite IH, in_app_iff. simpl. split; [tauto|].
      intros [[K|[->|[]]]|K]; [|discriminate|tauto]. split; auto. rewrite union_all_full by auto. simpl. now destruct (meets Full x).
  Qed.
End UnionAll.
Print Assumptions C08_union_all_iff_partial.

(** Out of order without a bridge; a bridge that [Full] then makes up for. *)
Example C08_iff_ex :
  raw_union_all [Closed 6 8; Closed 0 2; Open 2 4; Open 8 9] = [RightOpen 6 9; RightOpen 0 4] /\
  raw_union_all [Closed 0 1; Closed 4 5; Closed 1 4] = [Closed 0 4; Closed 4 5] /\
  raw_union_all [Closed 0 1; Closed 4 5; Closed 1 4; Full; Point 7] = [Full] /\
  raw_union_all [To 3; Point 9; From 2] = [Full; Point 9].
Proof. repeat split. Qed.

(** * Trees, Selections and programs commute with reversing the order *)
From Coq Require Import List Bool Sorted.
From Verif Require Import Base OrdFacts Pos MBound MRaw MNormalize MInterval MTine MBTree MTineTree MSelection
  Spec Spec_Sel Spec_Key Spec_Mirror PRaw PBTree PTree PTree2 PTree4 PMirror.
Import ListNotations.
Local Arguments cmp : simpl never.

Section Ends.
  Context {T : Type} {O : Ord T}.
  Implicit Types (t u : Tine T) (s m L R C : list (Tine T)).

  Lemma asc_ends s : asc s -> exists a m c, s = pre a ++ m ++ suf c /\ fins m /\ srt m.
  Proof.
    intros A. destruct (asc_split NInf s A) as (L & o & X & -> & B & E & A').
    assert (L = []) as ->.
    { destruct L as [|t L]; auto. inversion B as [|? ? [_ Y] _]; subst. exfalso. now apply (nothing_below_NInf _ Y). }
    apply asc_app in A as (_ & A & _). apply asc_app in A as (_ & AX & _).
    destruct (asc_split PInf X AX) as (C & o' & R & -> & BC & E' & AR).
    assert (R = []) as ->.
    { destruct R as [|t R]; auto. inversion AR as [|? ? [_ Y] _]; subst. exfalso. now apply (nothing_above_PInf _ Y). }
    apply asc_app in AX as ([SC _] & _). apply ab_app in A' as [AC _].
    exists (match o with Some _ => true | None => false end), C, (match o' with Some _ => true | None => false end).
    split; [|split; auto].
    - rewrite app_nil_r. cbn [app].
      assert (E1 : opt o = pre (match o with Some _ => true | None => false end)).
      { destruct o as [t|]; auto. destruct E as [K E]. destruct t as [[]|[]|[]]; try discriminate; reflexivity. }
      assert (E2 : opt o' = suf (match o' with Some _ => true | None => false end)).
      { destruct o' as [t|]; auto. destruct E' as [K E']. destruct t as [[]|[]|[]]; try discriminate; reflexivity. }
      now rewrite <- E1, <- E2.
    - apply Forall_forall. intros t Ht. unfold ab, bl in AC, BC. rewrite Forall_forall in AC, BC.
      destruct (AC t Ht) as [K Y], (BC t Ht) as [_ Y'].
      destruct (at_finite t K) as [F|[->| ->]]; auto; exfalso; [apply (plt_irrefl _ Y)|apply (plt_irrefl _ Y')].
  Qed.
  Lemma asc_of_ends a m c : fins m -> srt m -> asc (pre a ++ m ++ suf c).
  Proof.
    intros F S. assert (K : Forall (fun t => okt t = true) m) by (eapply Forall_impl; [|exact F]; intros t X; apply (inv_spec t X)).
    assert (A : asc (m ++ suf c)).
    { destruct c; cbn [suf]; [|rewrite app_nil_r; now split]. rewrite <- (app_nil_r [_]). change ([TUpper Infinite] ++ []) with (opt (Some (TUpper (@Infinite T))) ++ []).
      apply (asc_mid PInf); [now split|apply asc_nil|now apply fins_bl|constructor|now split]. }
    destruct a; cbn [pre app]; auto. change (asc ([] ++ opt (Some (TLower Infinite)) ++ (m ++ suf c))).
    apply (asc_mid NInf); [apply asc_nil|auto|constructor| |now split]. apply ab_app. split; [now apply fins_ab|].
    destruct c; repeat constructor.
  Qed.
  Lemma wf_asc s : wf s -> asc s.
  Proof. intros [S C]. split; auto. now apply (chain_ok false s false). Qed.
End Ends.

Section PMirror2.
  Context {T U : Type} {OT : Ord T} {OU : Ord U} (f : T -> U) (H : reverses f).
  Notation mb := (bound_key f).
  Notation mr := (raw_mirror f).
  Notation mt := (tine_mirror f).
  Notation ms := (tree_mirror f).
  Notation mp := (mp f).
  Implicit Types (i j : RawInterval T) (t u : Tine T) (s m L R C : list (Tine T)).

  Lemma m_fins m : fins m -> fins (ms m).
  Proof. intros F. apply m_Forall. eapply Forall_impl; [|exact F]. now intros [[]|[]|[]]. Qed.
  Lemma m_inv t : inv (mt t) = mt (inv t).
  Proof. now destruct t as [[]|[]|[]]. Qed.
  Lemma m_map_inv m : map inv (ms m) = ms (map inv m).
  Proof. unfold tree_mirror. rewrite map_rev, !map_map. f_equal. apply map_ext. apply m_inv. Qed.
  Lemma m_asc s : asc s -> asc (ms s).
  Proof.
    induction s as [|t s IH]; intros A; [apply asc_nil|]. rewrite m_cons.
    apply (asc_app [t]) in A as ([_ K] & A & B). specialize (IH A). inversion K as [|? ? Kt _]; subst. inversion B as [|? ? B' _]; subst.
    change [mt t] with (opt (Some (mt t))). rewrite <- (app_nil_r (opt _)). apply (asc_mid (loc (mt t))); auto; [apply asc_nil| |constructor|].
    - rewrite m_loc by auto. apply (m_ab f H). destruct A as [_ A]. rewrite Forall_forall in *. apply Forall_forall. auto.
    - split; auto. now rewrite m_okt.
  Qed.
  Lemma m_srt m : fins m -> srt m -> srt (ms m).
  Proof. intros F S. apply m_asc. split; auto. eapply Forall_impl; [|exact F]. intros t X. apply (inv_spec t X). Qed.
  Lemma m_ends a m c : ms (pre a ++ m ++ suf c) = pre c ++ ms m ++ suf a.
  Proof. rewrite !m_app, <- app_assoc. destruct a, c; reflexivity. Qed.

  Lemma m_tree_complement dbg s : asc s ->
    tree_complement dbg (ms s) = res_key ms (tree_complement dbg s) /\ (forall s', tree_complement dbg s = Ok s' -> asc s').
  Proof.
    intros A. destruct (asc_ends s A) as (a & m & c & -> & F & S). rewrite m_ends.
    assert (W : (m = [] -> a = c) -> (forall t, m = [t] -> a = false -> c = false -> dbg && negb (is_point_exclude (inv t)) = false) ->
      tree_complement dbg (pre c ++ ms m ++ suf a) = res_key ms (tree_complement dbg (pre a ++ m ++ suf c)) /\
      (forall s', tree_complement dbg (pre a ++ m ++ suf c) = Ok s' -> asc s')).
    { intros H1 H2. rewrite !complement_eq_gen; auto using m_fins, m_srt.
      - cbn [res_key]. rewrite m_ends, m_map_inv. split; auto. intros s' X. injection X as <-.
        apply asc_of_ends; [now apply map_inv_fins|now apply map_inv_srt].
      - intros E. destruct m as [|t m]; [symmetry; auto|]. rewrite m_cons in E. now destruct (ms m).
      - intros u E -> ->. destruct m as [|t [|t' m]]; try discriminate E.
        + cbn in E. injection E as <-. rewrite m_inv, m_is_point_exclude. now apply H2.
        + rewrite !m_cons in E. destruct (ms m) as [|? [|]]; discriminate E. }
    destruct m as [|t [|t' m]].
    - destruct a, c; try (apply W; auto; discriminate); split; try reflexivity; discriminate.
    - destruct a, c; try (apply W; discriminate).
      destruct (dbg && negb (is_point_exclude (inv t))) eqn:E; [|apply W; try discriminate; intros u X; injection X as <-; auto].
      inversion F as [|? ? Ft _]; subst. unfold pre, suf. rewrite !app_nil_r. cbn [app]. unfold tree_mirror. cbn [map rev app].
      unfold tree_complement. rewrite m_invert, (invert_fin t Ft). cbn [res_key bind]. unfold debug_assert. rewrite m_is_point_exclude, E.
      cbn. split; [reflexivity|discriminate].
    - apply W; [discriminate|]. intros u X. discriminate X.
  Qed.

  Lemma m_from_raw i : raw_wf i -> tree_from_raw_interval (mr i) = ms (tree_from_raw_interval i).
  Proof.
    intros W. destruct (from_raw_wf i W) as (_ & -> & _), (from_raw_wf (mr i) (m_wf f H i W)) as (_ & -> & _). apply m_tines.
  Qed.
  Lemma from_raw_asc i : raw_wf i -> asc (tree_from_raw_interval i).
  Proof. intros W. destruct (from_raw_wf i W) as (K & -> & _). now apply wf_asc. Qed.
  Lemma m_tree_union_in_place dbg s i : raw_wf i -> asc s ->
    tree_union_in_place dbg (ms s) (mr i) = res_key ms (tree_union_in_place dbg s i) /\
    (forall s', tree_union_in_place dbg s i = Ok s' -> asc s').
  Proof.
    intros W A. unfold tree_union_in_place. rewrite m_is_full. destruct (raw_is_full i).
    { split; [reflexivity|]. intros s' X. injection X as <-. now apply from_raw_asc. }
    rewrite m_tines. destruct (tines_cases i W) as [[_ ->]|[(x & _ & ->)|(l & u & _ & _ & D & -> & _)]]; cbn [map rev app].
    - split; [reflexivity|]. intros s' X. now injection X as <-.
    - now apply m_union_point.
    - apply m_union_proper; auto.
  Qed.
  Lemma m_tree_is_empty s : tree_is_empty (ms s) = tree_is_empty s.
  Proof. destruct s as [|t s]; auto. rewrite m_cons. now destruct (ms s). Qed.
  Lemma m_tree_minus_in_place dbg s i : raw_wf i -> asc s ->
    tree_minus_in_place dbg (ms s) (mr i) = res_key ms (tree_minus_in_place dbg s i) /\
    (forall s', tree_minus_in_place dbg s i = Ok s' -> asc s').
  Proof.
    intros W A. unfold tree_minus_in_place. rewrite m_is_full, m_is_empty, m_tree_is_empty. destruct (_ || _).
    { split; [reflexivity|]. intros s' X. now injection X as <-. }
    destruct (raw_is_full i).
    { split; [reflexivity|]. intros s' X. injection X as <-. apply asc_nil. }
    rewrite m_tines. destruct (tines_cases i W) as [[_ ->]|[(x & _ & ->)|(l & u & _ & _ & D & -> & _)]]; cbn [map rev app].
    - split; [reflexivity|]. intros s' X. now injection X as <-.
    - now apply m_minus_point.
    - apply m_minus_proper; auto.
  Qed.
  Definition is_point i : bool := match i with Point _ => true | _ => false end.
  Lemma m_tree_intersect_in_place dbg s i : raw_wf i -> asc s ->
    (forall x, i = Point x -> tree_contains dbg (ms s) (f x) = tree_contains dbg s x) ->
    tree_intersect_in_place dbg (ms s) (mr i) = res_key ms (tree_intersect_in_place dbg s i) /\
    (forall s', tree_intersect_in_place dbg s i = Ok s' -> asc s').
  Proof.
    intros W A P. unfold tree_intersect_in_place. rewrite m_is_full, m_is_empty, m_tree_is_empty. destruct (_ || _).
    { split; [reflexivity|]. intros s' X. now injection X as <-. }
    destruct (raw_is_empty i) eqn:E.
    { split; [reflexivity|]. intros s' X. injection X as <-. apply asc_nil. }
    destruct (is_point i) eqn:E'.
    - destruct i; try discriminate E'. cbn [raw_mirror]. rewrite (P _ eq_refl). destruct (tree_contains dbg s p) as [[]|]; cbn [bind res_key].
      + split; [reflexivity|]. intros s' X. injection X as <-. now apply from_raw_asc.
      + split; [reflexivity|]. intros s' X. injection X as <-. apply asc_nil.
      + split; [reflexivity|discriminate].
    - assert (X1 : forall (A : Type) (g : T -> A) (z : A), match i with Point pt => g pt | _ => z end = z) by (destruct i; auto; discriminate).
      assert (X2 : forall (A : Type) (g : U -> A) (z : A), match mr i with Point pt => g pt | _ => z end = z) by (destruct i; auto; discriminate).
      rewrite X1, X2, m_tines. destruct (tines_cases i W) as [[-> _]|[(x & -> & _)|(l & u & _ & _ & D & -> & _)]]; try discriminate; cbn [map rev app].
      apply m_intersect_proper; auto.
  Qed.
End PMirror2.

(** * What iteration from the back alone yields, exactly (C109)

    With debug assertions, on every tree: between intervals that touch in one
    excluded point every second one is lost, and if there is nothing left to
    lose the call panics. *)
From Coq Require Import List Bool ZArith Lia Sorted Permutation.
From Verif Require Import Base OrdFacts Pos PFinite Ints MBound MRaw MNormalize MTine MBTree MTineTree MInterval MSelection
  Spec Spec_Tree Spec_Sel PRaw PRaw2 PNorm PIter PInterval PBTree PTree PTreeOps PTreeIsect PTree2 PTree3 PTree4 PTree5 PTree6 PTree7
  PSel PSel2 PSel3 PSel4 PSel5 Instances
  Properties_Interval Properties_Tree Properties_Tree2 Properties_Selection Properties_Selection4 PBoth Properties_Both Properties_Fused Properties_Exact
  PDebug Properties_Ends.
Import ListNotations.
Local Arguments cmp : simpl never.

(** ** Specification *)

(** The list [l], last interval first; [touching j i] says that [j] ends where
    [i] begins.  An interval that its successor in [l] touches takes that
    successor with it, and nothing more comes out unless that one in turn is
    touched.  The result: what comes out, and whether the end is reached. *)
Fixpoint every_other {A} (touching : A -> A -> bool) (l : list A) : list A * bool :=
  match l with
  | [] => ([], true)
  | i :: l' =>
      let (r, ended) :=
        match l' with
        | [] => ([], true)
        | j :: l'' =>
            if touching j i
            then match l'' with
                 | [] => ([], false)
                 | k :: _ => if touching k j then every_other touching l'' else ([], false)
                 end
            else every_other touching l'
        end in
      (i :: r, ended)
  end.
(** Calling [f] again and again yields [r], and then [None] ([ended = true]) or
    a panic ([ended = false]). *)
Inductive outcome {S A} (f : S -> res (option A * S)) : S -> list A -> bool -> Prop :=
| outcome_end it it' : f it = Ok (None, it') -> outcome f it [] true
| outcome_panic it : f it = Panic -> outcome f it [] false
| outcome_cons it it' a r b : f it = Ok (Some a, it') -> outcome f it' r b -> outcome f it (a :: r) b.
(** [j] ends, and [i] begins, at the same excluded value. *)
Definition touching {T} {C : Cmp T} (j i : RawInterval T) : bool :=
  match raw_upper_bound j, raw_lower_bound i with
  | Some (Exclude x), Some (Exclude y) => eqb x y
  | _, _ => false
  end.

(** *** The specification in words

    A group: each interval is touched by the next of the list. *)
Fixpoint group {A} (touching : A -> A -> bool) (g : list A) : Prop :=
  match g with i :: (j :: _) as g' => touching j i = true /\ group touching g' | _ => True end.
(** The first, third, fifth ... of a list. *)
Fixpoint odd_ones {A} (g : list A) : list A :=
  match g with [] => [] | [i] => [i] | i :: _ :: g' => i :: odd_ones g' end.

(** Of a group that ends before [rest] the first, third, ... come out; if their
    number is odd, [rest] is next, otherwise nothing more. *)
Theorem C109_groups {A} (touching : A -> A -> bool) g i rest : group touching (g ++ [i]) ->
  match rest with [] => True | j :: _ => touching j i = false end ->
  every_other touching ((g ++ [i]) ++ rest) =
    (if Nat.odd (length (g ++ [i])) then let (r, ended) := every_other touching rest in (odd_ones (g ++ [i]) ++ r, ended)
     else (odd_ones (g ++ [i]), false)).
Proof.
  assert (K : forall n g, length g <= n -> group touching (g ++ [i]) -> match rest with [] => True | j :: _ => touching j i = false end ->
    every_other touching ((g ++ [i]) ++ rest) =
    (if Nat.odd (length (g ++ [i])) then let (r, ended) := every_other touching rest in (odd_ones (g ++ [i]) ++ r, ended)
     else (odd_ones (g ++ [i]), false))).
  { clear g. induction n as [|n IH]; intros g L G R.
    - destruct g; [|simpl in L; lia]. simpl app. destruct rest as [|j rest]; [reflexivity|].
      change (every_other touching (i :: j :: rest)) with
        (let (r, e) := if touching j i then match rest with [] => ([], false) | k :: _ => if touching k j then every_other touching rest else ([], false) end
                       else every_other touching (j :: rest) in (i :: r, e)). rewrite R. reflexivity.
    - destruct g as [|a [|b g]].
      + apply IH; auto. simpl. lia.
      + simpl app in *. destruct G as [G _]. destruct rest as [|j rest].
        * cbn [every_other app]. rewrite G. reflexivity.
        * change (every_other touching (a :: i :: j :: rest)) with
            (let (r, e) := if touching i a then (if touching j i then every_other touching (j :: rest) else ([], false))
                           else every_other touching (i :: j :: rest) in (a :: r, e)). rewrite G, R. reflexivity.
      + simpl in L. destruct G as [G1 G2]. specialize (IH g ltac:(lia)).
        assert (G3 : group touching (g ++ [i])) by (destruct g; [exact I|apply G2]). specialize (IH G3 R).
        assert (E : exists k m, (g ++ [i]) ++ rest = k :: m /\ touching k b = true).
        { destruct g as [|k g]; simpl in *; [exists i, rest; tauto|exists k, ((g ++ [i]) ++ rest); tauto]. }
        destruct E as (k & m & E & T1). change (((a :: b :: g) ++ [i]) ++ rest) with (a :: b :: ((g ++ [i]) ++ rest)).
        rewrite E in *. change (every_other touching (a :: b :: k :: m)) with
            (let (r, e) := if touching b a then (if touching k b then every_other touching (k :: m) else ([], false))
                           else every_other touching (b :: k :: m) in (a :: r, e)).
        change (group touching (a :: b :: g ++ [i])) in G1 || idtac. rewrite G1, T1, IH.
        change (length ((a :: b :: g) ++ [i])) with (S (S (length (g ++ [i])))).
        change (Nat.odd (S (S (length (g ++ [i]))))) with (Nat.odd (length (g ++ [i]))).
        change (odd_ones ((a :: b :: g) ++ [i])) with (a :: odd_ones (g ++ [i])).
        destruct (Nat.odd (length (g ++ [i]))); [|reflexivity]. now destruct (every_other touching rest). }
  intros G R. now apply (K (length g)).
Qed.
Print Assumptions C109_groups.

Section Back.
  Context {T : Type} {O : Ord T}.
  Implicit Types (t u w : Tine T) (s A : TineTree T) (it : Iter T).

  Lemma pieces_hole y R : forall A o, chain (has o) (A ++ TPoint (Exclude y) :: R) false = true ->
    pieces o (A ++ TPoint (Exclude y) :: R) = pieces o (A ++ [TUpper (Exclude y)]) ++ pieces (Some (TPoint (Exclude y))) R.
  Proof.
    induction A as [|a A IH]; intros o H; simpl app in *; apply chain_cons in H as (K & U & H); cbn [pieces].
    - destruct o as [l|]; [reflexivity|discriminate].
    - destruct o as [l|].
      + simpl. f_equal. apply IH. destruct a as [e|[e|e|]|e]; simpl in *; try discriminate; auto.
      + destruct a as [e|[e|e|]|e]; simpl in *; try discriminate; [now apply (IH (Some (TLower e)))|f_equal; now apply IH].
  Qed.

  Lemma last_upper s l r t : wf s -> pieces None s = l ++ [r] -> Forall (fun u => lt (loc u) (loc t)) s -> okt t = true -> is_upper_bound t = false ->
    forall i, raw_lower_bound i = Some (tine_into_inner t) -> touching r i = false.
  Proof.
    intros [S H] E Ft K U i Ei. unfold touching. rewrite Ei.
    destruct (pieces_ends s None r H) as (a & b & _ & Ib & _ & Kb & _ & Eb & _); auto; [intros w Hw; discriminate|rewrite E; apply in_or_app; right; now left|].
    rewrite Eb. rewrite Forall_forall in Ft. specialize (Ft b Ib). unfold loc in Ft.
    destruct (tine_into_inner b) as [x|x|]; auto. destruct (tine_into_inner t) as [y|y|]; auto.
    clear - Ft. destruct (eqb x y) eqn:E; auto. exfalso. porder.
  Qed.

  Lemma lower_of t u : okt t = true -> okt u = true -> is_lower_bound t = true -> is_upper_bound u = true -> lt (loc t) (loc u) ->
    raw_lower_bound (raw_new (tine_into_inner t) (tine_into_inner u)) = Some (tine_into_inner t) /\
    raw_upper_bound (raw_new (tine_into_inner t) (tine_into_inner u)) = Some (tine_into_inner u).
  Proof.
    intros Kt Ku Lt Uu H. apply raw_new_lower.
    destruct t as [[]|[]|[]], u as [[]|[]|[]]; simpl in *; try discriminate; unfold loc in H; simpl in H; porder.
  Qed.
  Lemma eqb_self (x : T) : eqb x x = true.
  Proof. now apply eqb_iff. Qed.

  Definition back_state A (sl : option (Tine T)) : Iter T := {| tine_iter := A; saved_lower := sl; saved_upper := None |}.

  Lemma hole_as_upper dbg A y sl : iter_next_back dbg (back_state (A ++ [TPoint (Exclude y)]) sl) = iter_next_back dbg (back_state (A ++ [TUpper (Exclude y)]) sl).
  Proof. unfold iter_next_back, back_state. cbn [saved_upper tine_iter saved_lower]. now rewrite !last_app_one, !rest_back_app_one. Qed.

  Lemma outcome_same {S X} (f : S -> res (option X * S)) a b : f a = f b -> forall l e, outcome f a l e -> outcome f b l e.
  Proof.
    intros E l e D. inversion D as [? ? E2|? E2|? ? ? ? ? E2 D2]; subst; rewrite E in E2;
      [eapply outcome_end|eapply outcome_panic|eapply outcome_cons]; eauto.
  Qed.

  Lemma wf_prefix A B : srt (A ++ B) -> chain false A false = true -> wf A.
  Proof. intros S H. split; auto. now apply srt_app in S as [S _]. Qed.

  Lemma no_touch_point r x : touching r (Point x) = false.
  Proof. unfold touching. simpl. destruct (raw_upper_bound r) as [[]|]; auto. Qed.

  Lemma back_exact n : forall A sl, length A <= n -> wf A ->
    let (r, e) := every_other touching (rev (pieces None A)) in outcome (iter_next_back true) (back_state A sl) r e.
  Proof.
    induction n as [|n IH]; intros A sl Ln W.
    { destruct A; [|simpl in Ln; lia]. simpl. eapply outcome_end. reflexivity. }
    destruct (snoc_cases A) as [->|(A1 & u & ->)].
    { simpl. eapply outcome_end. reflexivity. }
    pose proof W as [S H]. rewrite app_length in Ln. simpl in Ln.
    apply chain_app in H as (c & H1 & H2). apply chain_cons in H2 as (K & U & H2). simpl in H2. apply eqb_prop in H2.
    assert (One : forall it a st' (q : list (RawInterval T) * bool), iter_next_back true it = Ok (Some a, st') ->
      (let (r, e) := q in outcome (iter_next_back true) st' r e) ->
      let (r, e) := (let (r, e) := q in (a :: r, e)) in outcome (iter_next_back true) it r e).
    { intros it a st' [r e] E D. eapply outcome_cons; eauto. }
    destruct (is_upper_bound u) eqn:EU; subst c.
    - destruct (snoc_cases A1) as [->|(A2 & t & ->)]; [discriminate|]. rewrite app_length in Ln. simpl in Ln.
      assert (Eu : exists d, u = TUpper d) by (destruct u as [|[]|d]; simpl in *; try discriminate; eauto). destruct Eu as [d ->].
      apply chain_app in H1 as (c & H1 & H3). apply chain_cons in H3 as (Kt & Ut & H3). simpl in H3. apply eqb_prop in H3.
      assert (S2 : srt A2) by (apply srt_app in S as [S _]; now apply srt_app in S as [S _]).
      assert (Ft : Forall (fun u => lt (loc u) (loc t)) A2).
      { destruct (wf_at _ A2 t [TUpper d] W) as (_ & Ft & _); [now rewrite <- app_assoc|exact Ft]. }
      assert (Lt : lt (loc t) (loc (TUpper d))).
      { destruct (wf_at _ (A2 ++ [t]) (TUpper d) [] W) as (_ & Fu & _); [reflexivity|]. apply Forall_app in Fu as [_ Fu]. now inversion Fu. }
      assert (Bt : raw_lower_bound (raw_new (tine_into_inner t) d) = Some (tine_into_inner t)).
      { now apply (lower_of t (TUpper d)). }
      assert (Call : iter_next_back true (back_state ((A2 ++ [t]) ++ [TUpper d]) sl) =
        Ok (Some (raw_new (tine_into_inner t) d), back_state A2 (if is_point_exclude t then Some t else sl))).
      { unfold iter_next_back, back_state. cbn [saved_upper tine_iter saved_lower]. repeat (rewrite last_app_one || rewrite rest_back_app_one). simpl. now rewrite H3. }
      destruct (is_point_exclude t) eqn:Pt.
      + (* a pinhole below *)
        destruct t as [|[|x|]|]; try discriminate. simpl in Ut. subst c. rename H1 into HA2.
        destruct (snoc_cases A2) as [->|(A3 & w & ->)]; [discriminate|]. rewrite app_length in Ln. simpl in Ln.
        pose proof HA2 as HA. apply chain_app in HA as (c & H1 & H4). apply chain_cons in H4 as (Kw & Uw & H4). simpl in H4. apply eqb_prop in H4.
        assert (Lw : lt (loc w) (At x)) by (apply Forall_app in Ft as [_ Ft]; now inversion Ft).
        set (j := raw_new (tine_into_inner w) (Exclude x)). set (i := raw_new (Exclude x) d).
        assert (Bj : raw_lower_bound j = Some (tine_into_inner w) /\ raw_upper_bound j = Some (Exclude x)).
        { now apply (lower_of w (TUpper (Exclude x))). }
        assert (Tj : touching j i = true).
        { unfold touching. cbn [tine_into_inner] in Bt. fold i in Bt. rewrite (proj2 Bj), Bt. apply eqb_self. }
        destruct (is_point_exclude w) eqn:Pw.
        * destruct w as [|[|y|]|]; try discriminate. simpl in Uw. subst c.
          set (B := A3 ++ [TUpper (Exclude y)]).
          assert (LB : length B <= n) by (unfold B; rewrite app_length; clear - Ln; cbn [length]; lia).
          assert (WB : wf B).
          { split.
            - apply srt_app in S2 as (S3 & _ & S4). apply srt_app. split; auto. split; [repeat constructor|].
              eapply Forall_impl; [|exact S4]. intros z Hz. inversion Hz; subst. now constructor.
            - apply (chain_join _ true); auto. }
          assert (Ep : pieces None (((A3 ++ [TPoint (Exclude y)]) ++ [TPoint (Exclude x)]) ++ [TUpper d]) = pieces None B ++ [j; i]).
          { rewrite <- !app_assoc. cbn [app]. rewrite pieces_hole; [reflexivity|]. apply (chain_join _ true); auto. }
          rewrite Ep, rev_app_distr. cbn [rev app]. cbn [every_other]. rewrite Tj.
          assert (NB : exists l k, pieces None B = l ++ [k] /\ raw_upper_bound k = Some (Exclude y)).
          { destruct WB as [SB HB]. destruct (snoc_cases A3) as [E3|(A4 & q & E3)]; [rewrite E3 in H1; discriminate|].
            unfold B in *. rewrite E3 in *. apply chain_app in H1 as (c & H1 & H5). apply chain_cons in H5 as (Kq & Uq & H5). simpl in H5. apply eqb_prop in H5.
            assert (Lq : lt (loc q) (At y)) by (apply srt_app in SB as (_ & _ & SB); apply Forall_app in SB as [_ SB]; inversion SB as [|? ? SB' _]; subst; now inversion SB').
            exists (pieces None (A4 ++ (if is_point_exclude q then [TUpper (tine_into_inner q)] else []))), (raw_new (tine_into_inner q) (Exclude y)). split.
            - rewrite <- !app_assoc. cbn [app]. destruct (is_point_exclude q) eqn:Pq.
              + destruct q as [|[|z|]|]; try discriminate. rewrite pieces_hole; [reflexivity|]. rewrite <- app_assoc in HB. exact HB.
              + rewrite app_nil_r. destruct q as [d'|[]|]; simpl in Pq, H5; try discriminate. simpl in Uq. subst c. rewrite pieces_app; auto. intros z Hz; discriminate.
            - now apply (lower_of q (TUpper (Exclude y))). }
          destruct NB as (l & k & El & Uk).
          assert (Tk : touching k j = true).
          { unfold touching. rewrite Uk, (proj1 Bj). apply eqb_self. }
          rewrite El, rev_app_distr. cbn [rev app]. rewrite Tk.
          eapply One; [exact Call|]. pose proof (IH B (Some (TPoint (Exclude x))) LB WB) as D. rewrite El, rev_app_distr in D. cbn [rev app] in D.
          destruct (every_other touching (k :: rev l)) as [r e]. eapply outcome_same; [|exact D]. symmetry. apply hole_as_upper.
        * assert (Ew : exists d', w = TLower d') by (destruct w as [d'|[]|]; simpl in *; try discriminate; eauto). destruct Ew as [d' ->].
          simpl in Uw. subst c.
          assert (W3 : wf A3) by (split; auto; now apply srt_app in S2 as [S2 _]).
          assert (Ep : pieces None (((A3 ++ [TLower d']) ++ [TPoint (Exclude x)]) ++ [TUpper d]) = pieces None A3 ++ [j; i]).
          { rewrite <- !app_assoc. cbn [app]. rewrite pieces_app; auto. intros z Hz; discriminate. }
          rewrite Ep, rev_app_distr. cbn [rev app]. cbn [every_other]. rewrite Tj.
          assert (Nk : match rev (pieces None A3) with [] => ([], false) | k :: _ => if touching k j then every_other touching (rev (pieces None A3)) else ([], false) end = ([], false)).
          { destruct (ends (pieces None A3)) as [->|(l & k & Ek)]; [reflexivity|]. rewrite Ek, rev_app_distr. cbn [rev app].
            rewrite (last_upper A3 l k (TLower d') W3 Ek); auto; [|apply Bj].
            apply srt_app in S2 as (_ & _ & S4). eapply Forall_impl; [|exact S4]. intros z Hz. now inversion Hz. }
          rewrite Nk. eapply outcome_cons; [exact Call|]. apply outcome_panic.
          unfold iter_next_back, back_state. cbn [saved_upper tine_iter saved_lower]. now rewrite last_app_one, rest_back_app_one.
      + assert (Et : exists d', t = TLower d') by (destruct t as [d'|[]|]; simpl in *; try discriminate; eauto). destruct Et as [d' ->].
        simpl in Ut. subst c. assert (W2 : wf A2) by (now split).
        assert (Ep : pieces None ((A2 ++ [TLower d']) ++ [TUpper d]) = pieces None A2 ++ [raw_new d' d]).
        { rewrite <- !app_assoc. cbn [app]. rewrite pieces_app; auto. intros z Hz; discriminate. }
        rewrite Ep, rev_app_distr. cbn [rev app]. cbn [every_other].
        assert (Nt : match rev (pieces None A2) with
          | [] => ([], true)
          | j :: l'' => if touching j (raw_new d' d) then match l'' with [] => ([], false) | k :: _ => if touching k j then every_other touching l'' else ([], false) end
                        else every_other touching (rev (pieces None A2)) end = every_other touching (rev (pieces None A2))).
        { destruct (ends (pieces None A2)) as [->|(l & k & Ek)]; [reflexivity|]. rewrite Ek, rev_app_distr. cbn [rev app].
          now rewrite (last_upper A2 l k (TLower d') W2 Ek). }
        rewrite Nt. eapply One; [exact Call|]. apply IH; auto. clear - Ln; lia.
    - assert (Eu : exists x, u = TPoint (Include x)) by (destruct u as [[]|[]|[]]; simpl in *; try discriminate; eauto). destruct Eu as [x ->].
      assert (W1 : wf A1) by (split; auto; now apply srt_app in S as [S _]).
      assert (Ep : pieces None (A1 ++ [TPoint (Include x)]) = pieces None A1 ++ [Point x]) by (rewrite pieces_app; auto; intros z Hz; discriminate).
      rewrite Ep, rev_app_distr. cbn [rev app]. cbn [every_other].
      assert (Nt : match rev (pieces None A1) with
          | [] => ([], true)
          | j :: l'' => if touching j (Point x) then match l'' with [] => ([], false) | k :: _ => if touching k j then every_other touching l'' else ([], false) end
                        else every_other touching (rev (pieces None A1)) end = every_other touching (rev (pieces None A1))).
      { destruct (rev (pieces None A1)); [reflexivity|]. now rewrite no_touch_point. }
      rewrite Nt. apply (One _ _ (back_state A1 sl)); [|apply IH; auto; clear - Ln; lia].
      unfold iter_next_back, back_state. cbn [saved_upper tine_iter saved_lower]. now rewrite last_app_one, rest_back_app_one.
  Qed.

  Lemma outcome_det {S X} (f : S -> res (option X * S)) (it : S) r e : outcome f it r e -> forall r' e', outcome f it r' e' -> r = r' /\ e = e'.
  Proof.
    induction 1 as [it it' E|it E|it it' a r e E D IH]; intros r' e' D'; inversion D' as [? ? E2|? E2|? ? ? ? ? E2 D2]; subst; rewrite E in E2; try discriminate; auto.
    injection E2 as <- <-. destruct (IH _ _ D2) as [-> ->]. auto.
  Qed.
  Lemma outcome_drains {S X} (f : S -> res (option X * S)) (it : S) r : outcome f it r true <-> drains f it r.
  Proof.
    split.
    - intros D. remember true as b eqn:Eb. revert Eb. induction D; intros Eb; try discriminate; [eapply drains_nil|eapply drains_cons]; eauto.
    - induction 1; [eapply outcome_end|eapply outcome_cons]; eauto.
  Qed.
  Lemma outcome_release (it : Iter T) r : outcome (iter_next_back true) it r true -> outcome (iter_next_back false) it r true.
  Proof.
    rewrite !outcome_drains. intros E. induction E as [it it' E|it it' a l' E D IH]; [eapply drains_nil|eapply drains_cons; [|exact IH]]; apply iter_next_back_ref; exact E.
  Qed.
  Lemma outcome_iff {S X} (f : S -> res (option X * S)) (it : S) (q : list X * bool) : (let (r, e) := q in outcome f it r e) ->
    forall r e, outcome f it r e <-> q = (r, e).
  Proof.
    destruct q as [r0 e0]. intros D r e. split; [|intros [= <- <-]; auto]. intros D'. destruct (outcome_det f it r0 e0 D r e D') as [-> ->]. auto.
  Qed.

  (** Every tree, debug build: what [next_back] yields when it is called again
      and again, and whether that ends in [None] or in a panic.  If it ends in
      [None] a release build does the same. *)
  Theorem C109_tree_back s l r ended : tree_wf s -> intervals_are true s l ->
    (outcome (iter_next_back true) (tree_interval_iter s) r ended <-> every_other touching (rev l) = (r, ended)) /\
    (every_other touching (rev l) = (r, true) -> outcome (iter_next_back false) (tree_interval_iter s) r true).
  Proof.
    intros W Hl. apply wf_tree_wf in W. rewrite (intervals_pieces true s l W Hl).
    pose proof (outcome_iff _ _ _ (back_exact (length s) s None (le_n _) W)) as K. change (back_state s None) with (tree_interval_iter s) in K.
    split; [apply K|]. intros E. apply K in E. now apply outcome_release.
  Qed.
End Back.
Print Assumptions C109_tree_back.

(** ** Selections built by unions *)

(** Exactly one value lies between the two intervals. *)
Definition one_between {T} {C : Cmp T} {F : FiniteOps T} (j i : Interval T) : bool :=
  match interval_upper_bound j, interval_lower_bound i with
  | Some (Include a), Some (Include b) =>
      match succ a with
      | Some x => match succ x with Some b' => eqb b' b | None => false end
      | None => false
      end
  | _, _ => false
  end.

Section Sel.
  Context {T : Type} {O : Ord T} {F : Finite T}.
  Implicit Types (s : Selection T).

  Lemma norm_upper r a x : raw_contains r x = true -> raw_upper_bound r = Some (Exclude a) ->
    exists y, pred a = Some y /\ interval_upper_bound (nrm r) = Some (Include y).
  Proof.
    intros H U. unfold interval_upper_bound. rewrite nrm_raw. destruct r as [|p|l r|l r|l r|l r|p|p|p|p|]; simpl in *; try discriminate; injection U as ->.
    - destruct (succ l) as [l'|] eqn:El, (pred a) as [y|] eqn:Ea; [exists y; auto| | |]; exfalso; clear - H El Ea F; forder.
    - destruct (pred a) as [y|] eqn:Ea; [exists y; auto|]; exfalso; clear - H Ea F; forder.
    - destruct (pred a) as [y|] eqn:Ea; [exists y; auto|]; exfalso; clear - H Ea F; forder.
  Qed.
  Lemma norm_lower r a x : raw_contains r x = true -> raw_lower_bound r = Some (Exclude a) ->
    exists y, succ a = Some y /\ interval_lower_bound (nrm r) = Some (Include y).
  Proof.
    intros H U. unfold interval_lower_bound. rewrite nrm_raw. destruct r as [|p|l r|l r|l r|l r|p|p|p|p|]; simpl in *; try discriminate; injection U as ->.
    - destruct (succ a) as [y|] eqn:Ea, (pred r) as [r'|] eqn:El; [exists y; auto| | |]; exfalso; clear - H El Ea F; forder.
    - destruct (succ a) as [y|] eqn:Ea; [exists y; auto|]; exfalso; clear - H Ea F; forder.
    - destruct (succ a) as [y|] eqn:Ea; [exists y; auto|]; exfalso; clear - H Ea F; forder.
  Qed.

  Lemma touching_between s j i : wf s -> open_cov (den false s) -> In j (pieces None s) -> In i (pieces None s) -> separated j i ->
    one_between (nrm j) (nrm i) = touching j i.
  Proof.
    intros W Op Ij Ii Sep. destruct (open_excluded s j W Op Ij) as [_ Kj], (open_excluded s i W Op Ii) as [Ki _].
    destruct (piece_point s j W (open_gapless _ Op) Ij) as (pj & Hj), (piece_point s i W (open_gapless _ Op) Ii) as (pi & Hi).
    unfold separated in Sep. unfold touching. destruct (raw_upper_bound j) as [[a|a|]|] eqn:Uj; try contradiction; [now destruct (Kj a)|].
    destruct (raw_lower_bound i) as [[b|b|]|] eqn:Li; try contradiction; [now destruct (Ki b)|].
    destruct (norm_upper j a pj Hj Uj) as (y & Ey & Ny), (norm_lower i b pi Hi Li) as (z & Ez & Nz).
    unfold one_between. rewrite Ny, Nz. assert (Sy : succ y = Some a) by (clear - Ey F; forder). rewrite Sy.
    destruct (succ a) as [c|] eqn:Ec.
    - clear - Ez Ec F. destruct (eqb c z) eqn:E1, (eqb a b) eqn:E2; auto; exfalso; forder.
    - clear - Ez Ec F. destruct (eqb a b) eqn:E2; auto; exfalso; forder.
  Qed.

  Lemma every_other_two {A} (t : A -> A -> bool) i j l : every_other t (i :: j :: l) =
    let (r, e) := if t j i then match l with [] => ([], false) | k :: _ => if t k j then every_other t l else ([], false) end
                  else every_other t (j :: l) in (i :: r, e).
  Proof. reflexivity. Qed.
  Lemma every_other_map {A B} (f : A -> B) (t : A -> A -> bool) (t' : B -> B -> bool) n : forall l, length l <= n ->
    ForallOrdPairs (fun i j => t' (f j) (f i) = t j i) l ->
    every_other t' (map f l) = (map f (fst (every_other t l)), snd (every_other t l)).
  Proof.
    induction n as [|n IH]; intros l L Hp; [destruct l; [reflexivity|simpl in L; lia]|].
    destruct l as [|i l]; [reflexivity|]. simpl in L. inversion Hp as [|? ? Fi Hp']; subst.
    destruct l as [|j l]; [reflexivity|]. simpl in L. cbn [map]. rewrite !every_other_two.
    inversion Fi as [|? ? Eij Fi']; subst. rewrite Eij. inversion Hp' as [|? ? Fj Hp'']; subst.
    destruct (t j i).
    - destruct l as [|k l]; [reflexivity|]. simpl in L. inversion Fj as [|? ? Ejk Fj']; subst. cbn [map]. rewrite Ejk.
      destruct (t k j); [|reflexivity]. change (f k :: map f l) with (map f (k :: l)). rewrite IH; auto; [|simpl; lia].
      now destruct (every_other t (k :: l)).
    - change (f j :: map f l) with (map f (j :: l)). rewrite IH; auto; [|simpl; lia]. now destruct (every_other t (j :: l)).
  Qed.
  Lemma every_other_incl {A} (t : A -> A -> bool) n : forall l, length l <= n -> incl (fst (every_other t l)) l.
  Proof.
    induction n as [|n IH]; intros l L; [destruct l; [apply incl_refl|simpl in L; lia]|].
    destruct l as [|i [|j l]]; [apply incl_refl|apply incl_refl|]. simpl in L. rewrite every_other_two.
    assert (K : forall r : list A * bool, incl (fst r) (j :: l) -> incl (fst (let (r, e) := r in (i :: r, e))) (i :: j :: l)).
    { intros [r e] Hr. simpl in *. intros x [<-|Hx]; [now left|right; auto]. }
    apply K. destruct (t j i); [|apply IH; simpl; lia].
    destruct l as [|k l]; [intros x []|]. destruct (t k j); [|intros x []]. intros x Hx. right. revert x Hx. apply IH. simpl in *. lia.
  Qed.

  Lemma FOP_rev {A} (R : A -> A -> Prop) l : StronglySorted R l -> ForallOrdPairs (fun i j => R j i) (rev l).
  Proof.
    induction 1 as [|a l S IH Fa]; simpl; [constructor|].
    assert (K : forall m, ForallOrdPairs (fun i j => R j i) m -> Forall (R a) m -> ForallOrdPairs (fun i j => R j i) (m ++ [a])).
    { induction 1 as [|b m Fb Pm IHm]; intros Fm; simpl; [repeat constructor|]. inversion Fm; subst. constructor; auto. apply Forall_app. split; auto. }
    apply K; auto. rewrite Forall_forall in *. intros x Hx. apply Fa. now apply in_rev.
  Qed.
  Lemma FOP_impl {A} (P : A -> Prop) (R Q : A -> A -> Prop) l : Forall P l -> (forall a b, P a -> P b -> R a b -> Q a b) -> ForallOrdPairs R l -> ForallOrdPairs Q l.
  Proof.
    intros Pl H. induction 1 as [|a l Fa Pr IH]; constructor; inversion Pl as [|? ? Pa Pl']; subst; auto.
    rewrite Forall_forall in *. intros b Hb. auto.
  Qed.

  Lemma sel_every_other s : wf s -> open_cov (den false s) ->
    every_other one_between (rev (map nrm (pieces None s))) =
      (map nrm (fst (every_other touching (rev (pieces None s)))), snd (every_other touching (rev (pieces None s)))).
  Proof.
    intros W Op. rewrite <- map_rev. apply (every_other_map nrm touching one_between (length (rev (pieces None s)))); auto.
    apply (FOP_impl (fun r => In r (pieces None s)) (fun i j => separated j i)).
    - apply Forall_forall. intros r Hr. now apply in_rev.
    - intros a b Ha Hb Sep. now apply (touching_between s).
    - apply FOP_rev. now apply pieces_sorted.
  Qed.

  Lemma outcome_sel dbg (it : Iter T) r e : outcome (iter_next_back dbg) it r e -> outcome (sel_interval_next_back dbg) it (map nrm r) e.
  Proof.
    induction 1 as [it it' E|it E|it it' a r e E D IH]; [eapply outcome_end|eapply outcome_panic|eapply outcome_cons; [|exact IH]];
      unfold sel_interval_next_back; rewrite E; reflexivity.
  Qed.

  (** Debug build: the intervals that come out at the back, and how that ends. *)
  Theorem C109_intervals_back dbg (p : prog T) s l r ended : inputs true p -> unions_only p -> run dbg p = Ok s -> sel_intervals_are true s l ->
    (outcome (sel_interval_next_back true) (sel_interval_iter s) r ended <-> every_other one_between (rev l) = (r, ended)) /\
    (every_other one_between (rev l) = (r, true) -> outcome (sel_interval_next_back false) (sel_interval_iter s) r true).
  Proof.
    intros H U E Hl. destruct (run_open dbg p s H U E) as [W Op]. apply sel_intervals_pieces in Hl; auto. subst l.
    rewrite sel_every_other by auto. pose proof (back_exact (length s) s None (le_n _) W) as D.
    destruct (every_other touching (rev (pieces None s))) as [r0 e0]. cbn [fst snd]. split; [apply outcome_iff; now apply outcome_sel|].
    intros [= <- ->]. apply outcome_sel. now apply outcome_release.
  Qed.

  (** *** Values *)
  Lemma outcome_values dbg its rs e : outcome (iter_next_back dbg) its rs e -> forall cur lc ls, irep cur lc -> chunks rs ls ->
    outcome (sel_next_back dbg) {| si_intervals := its; si_current := cur |} (rev lc ++ concat (map (@rev T) ls)) e.
  Proof.
    intros D. induction D as [its its' E|its E|its its' r rs e E D IH]; intros cur lc.
    all: revert cur; induction lc as [|x lc IHl] using rev_ind; intros cur ls Rc C.
    2, 4, 6: destruct (irep_back _ _ _ Rc) as (i' & Ei & Ri); rewrite rev_app_distr; simpl;
      (eapply outcome_cons; [unfold sel_next_back; simpl; rewrite Ei; reflexivity|]); now apply IHl.
    - inversion C; subst. simpl. eapply outcome_end. unfold sel_next_back. simpl. rewrite (irep_nil_back _ Rc). simpl. rewrite E. reflexivity.
    - inversion C; subst. simpl. eapply outcome_panic. unfold sel_next_back. simpl. rewrite (irep_nil_back _ Rc). simpl. rewrite E. reflexivity.
    - inversion C as [|? l ? ls' [Rr Nr] C']; subst. destruct (ends l) as [->|(l' & x & ->)]; [now destruct Nr|]. simpl. rewrite rev_app_distr. simpl.
      destruct (irep_back _ _ _ Rr) as (i' & Ei & Ri).
      eapply outcome_cons; [unfold sel_next_back; simpl; rewrite (irep_nil_back _ Rc); simpl; rewrite E; simpl; fold (nrm r); rewrite Ei; reflexivity|].
      now apply IH.
  Qed.

  Lemma chunks_points rs ls : chunks rs ls -> forall x, In x (concat (map (@rev T) ls)) <-> exists i, In i (map nrm rs) /\ ipoints i x.
  Proof.
    induction 1 as [|r l rs ls [[_ [_ H]] _] C IH]; intros x; simpl; [split; [intros []|intros (i & [] & _)]|].
    rewrite in_app_iff, <- in_rev, H, IH. split.
    - intros [K|(i & I & K)]; [exists (nrm r); auto|exists i; auto].
    - intros (i & [<-|I] & K); [now left|right; eauto].
  Qed.
  Lemma chunks_descend rs ls : chunks rs ls -> Forall raw_wf rs -> ForallOrdPairs (fun i j => separated j i) rs ->
    StronglySorted (fun a b => lt b a) (concat (map (@rev T) ls)).
  Proof.
    induction 1 as [|r l rs ls [[_ [Sl H]] _] C IH]; intros Wf P; simpl; [constructor|].
    inversion P as [|? ? P1 P2]; subst. inversion Wf as [|? ? W1 W2]; subst. rewrite Forall_forall in P1, W2.
    assert (K : forall m, (forall a b, In a l -> In b m -> lt b a) -> StronglySorted (fun a b => lt b a) m ->
      StronglySorted (fun a b => lt b a) (rev l ++ m)).
    { clear - Sl. induction Sl as [|a l Sl IH Fa]; intros m Hm Sm; simpl; auto. rewrite <- app_assoc. apply IH.
      - intros u w Hu Hw. simpl in Hw. destruct Hw as [<-|Hw]; [rewrite Forall_forall in Fa; now apply Fa|apply Hm; auto; now right].
      - constructor; auto. apply Forall_forall. intros w Hw. apply Hm; auto. now left. }
    apply K; [|apply IH; auto; now apply Forall_forall].
    intros a b Ha Hb. apply (chunks_points rs ls C) in Hb as (i & Hi & Hb). apply in_map_iff in Hi as (k & <- & Hk).
    apply H in Ha. apply (proj1 (nrm_points _ _)) in Ha. apply (proj1 (nrm_points _ _)) in Hb. apply (separated_points k r); auto.
  Qed.
  Lemma every_other_pairs {A} (R : A -> A -> Prop) (t : A -> A -> bool) n : forall l, length l <= n -> ForallOrdPairs R l -> ForallOrdPairs R (fst (every_other t l)).
  Proof.
    induction n as [|n IH]; intros l L P; [destruct l; [constructor|simpl in L; lia]|].
    destruct l as [|i [|j l]]; [constructor|exact P|]. simpl in L. rewrite every_other_two. inversion P as [|? ? Pi P']; subst.
    assert (K : forall r : list A * bool, incl (fst r) (j :: l) -> ForallOrdPairs R (fst r) -> ForallOrdPairs R (fst (let (r, e) := r in (i :: r, e)))).
    { intros [r e] Hr Pr. simpl in *. constructor; auto. rewrite Forall_forall in *. auto. }
    apply K.
    - destruct (t j i); [|now apply (every_other_incl t (length (j :: l)))]. destruct l as [|k l]; [intros x []|]. destruct (t k j); [|intros x []].
      intros x Hx. right. now apply (every_other_incl t (length (k :: l))) in Hx.
    - destruct (t j i); [|apply IH; auto; simpl; lia]. destruct l as [|k l]; [constructor|]. destruct (t k j); [|constructor].
      inversion P'; subst. apply IH; auto. simpl in *; lia.
  Qed.

  (** Debug build: the values that come out at the back are those of every other
      interval, in descending order. *)
  Theorem C109_values_back dbg (p : prog T) s l r ended : inputs true p -> unions_only p -> run dbg p = Ok s -> sel_intervals_are true s l ->
    every_other one_between (rev l) = (r, ended) ->
    exists vs, outcome (sel_next_back true) (sel_iter s) vs ended /\ (ended = true -> outcome (sel_next_back false) (sel_iter s) vs true) /\
      StronglySorted (fun a b => lt b a) vs /\
      forall x, In x vs <-> exists i, In i r /\ ipoints i x.
  Proof.
    intros H U E Hl. destruct (run_open dbg p s H U E) as [W Op]. apply sel_intervals_pieces in Hl; auto. subst l.
    rewrite sel_every_other by auto. pose proof (back_exact (length s) s None (le_n _) W) as D.
    pose proof (every_other_incl touching _ (rev (pieces None s)) (le_n _)) as Inc.
    pose proof (every_other_pairs (fun i j => separated j i) touching _ (rev (pieces None s)) (le_n _) (FOP_rev _ _ (pieces_sorted s W))) as P.
    destruct (every_other touching (rev (pieces None s))) as [r0 e0]. simpl in *. intros [= <- <-].
    assert (Inc' : incl r0 (pieces None s)) by (intros x Hx; apply in_rev; now apply Inc).
    destruct (chunks_of s W (open_gapless _ Op) r0 Inc') as (ls & C).
    exists (concat (map (@rev T) ls)). split; [|split; [|split]].
    - apply (outcome_values _ _ _ _ D interval_empty [] ls); auto. apply irep_empty.
    - intros ->. apply (outcome_values _ _ _ _ (outcome_release _ _ D) interval_empty [] ls); auto. apply irep_empty.
    - apply (chunks_descend r0); auto. apply Forall_forall. intros k Hk. apply (piece_wf s); auto.
    - now apply chunks_points.
  Qed.
End Sel.
Print Assumptions C109_intervals_back.
Print Assumptions C109_values_back.

Local Notation one a := (mkInterval (Closed (v a) (v a))).
(** {1, 3, 5} and {8 .. 9}: 3 is lost, the end is reached; {1, 3}: 3 comes out,
    then a panic. *)
Example C109_ex : let p := P_intervals [cl 1 1; cl 3 3; cl 5 5; cl 8 9] : prog i8 in let q := P_points [v 1; v 3] : prog i8 in
  inputs true p /\ unions_only p /\ (exists s, run true p = Ok s /\ sel_intervals_are true s [one 1; one 3; one 5; cl 8 9] /\
    every_other one_between (rev [one 1; one 3; one 5; cl 8 9]) = ([cl 8 9; one 5; one 1], true) /\
    outcome (sel_next_back true) (sel_iter s) [v 9; v 8; v 5; v 1] true) /\
  inputs true q /\ unions_only q /\ (exists s, run true q = Ok s /\ sel_intervals_are true s [one 1; one 3] /\
    every_other one_between (rev [one 1; one 3]) = ([one 3], false) /\
    outcome (sel_next_back true) (sel_iter s) [v 3] false).
Proof.
  cbv zeta. split; [repeat constructor|]. split; [exact I|]. split; [|split; [exact I|split; [exact I|]]].
  - eexists. split; [vm_compute; reflexivity|].
    split; [do 4 (eapply drains_cons; [vm_compute; reflexivity|]); eapply drains_nil; vm_compute; reflexivity|].
    split; [vm_compute; reflexivity|]. do 4 (eapply outcome_cons; [vm_compute; reflexivity|]). eapply outcome_end. vm_compute. reflexivity.
  - eexists. split; [vm_compute; reflexivity|].
    split; [do 2 (eapply drains_cons; [vm_compute; reflexivity|]); eapply drains_nil; vm_compute; reflexivity|].
    split; [vm_compute; reflexivity|]. eapply outcome_cons; [vm_compute; reflexivity|]. eapply outcome_panic. vm_compute. reflexivity.
Qed.
Example C109_tree_ex : let s := [TLower (Exclude 0); TPoint (Exclude 2); TPoint (Exclude 4); TUpper (Exclude 6); TPoint (Include 8)]%Z in
  tree_wf s /\ intervals_are true s [Open 0 2; Open 2 4; Open 4 6; Point 8]%Z /\
  every_other touching (rev [Open 0 2; Open 2 4; Open 4 6; Point 8]%Z) = ([Point 8; Open 4 6; Open 0 2]%Z, true).
Proof.
  cbv zeta. split; [split; [repeat constructor|reflexivity]|]. split; [repeat econstructor|reflexivity].
Qed.

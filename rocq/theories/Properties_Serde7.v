(** * Intersecting any two lists of tines: C115, continued *)
From Coq Require Import List Bool ZArith Lia.
From Verif Require Import Base MBound MRaw MNormalize MTine MBTree MTineTree MInterval MSelection
  Spec Spec_Tree Spec_Sel Spec_More Spec_Take Spec_Take4 OrdFacts PRaw PTree PTree2 PTree3 PTree7 Properties_Tree Properties_Serde3 Properties_Serde6 Instances.
Import ListNotations.
Local Open Scope list_scope.

Section Walk.
  Context {T : Type} {O : Ord T}.
  Implicit Types (s q a b : list (Tine T)) (it si oi : Iter T) (i j r : RawInterval T) (K : list (RawInterval T)).

  Definition gains dbg s s' K : Prop := tree_wf s' /\ (forall x, holds dbg s' x <-> holds dbg s x \/ some_contains K x) /\ (s' = [] <-> s = [] /\ K = []).
  Lemma gains_none dbg s : tree_wf s -> gains dbg s s [].
  Proof. intros W. split; auto. split; [|tauto]. intros x. split; [auto|intros [H|(r & [] & _)]; auto]. Qed.
  Lemma gains_app dbg s1 s2 s3 K1 K2 : gains dbg s1 s2 K1 -> gains dbg s2 s3 K2 -> gains dbg s1 s3 (K1 ++ K2).
  Proof.
    intros (_ & H1 & N1) (W & H2 & N2). split; auto. split.
    - intros x. rewrite H2, H1. unfold some_contains. split.
      + intros [[H|(r & I & H)]|(r & I & H)]; auto; right; exists r; split; auto; apply in_or_app; auto.
      + intros [H|(r & I & H)]; auto. apply in_app_or in I as [I|I]; eauto 6.
    - rewrite N2, N1. split; [intros [[-> ->] ->]; auto|]. intros [-> X]. apply app_eq_nil in X. tauto.
  Qed.
  Lemma gains_one dbg s i : tree_wf s -> raw_wf i -> i <> Empty -> exists s', tree_union_in_place dbg s i = Ok s' /\ gains dbg s s' [i].
  Proof.
    intros W Wi Ne. destruct (C29_union_in_place dbg s i W Wi) as (s' & E & W' & H). exists s'. split; auto. split; auto. split.
    - intros x. rewrite (proj1 (is_holds _ _ _ W') H x). unfold some_contains. cbn [In]. split.
      + intros [X|X]; eauto.
      + intros [X|(r & [<-|[]] & X)]; auto.
    - split; [|intros [_ X]; discriminate X]. intros ->. exfalso. destruct (union_in_place_ok dbg s i (proj2 (wf_tree_wf s) W) Wi) as (s2 & E2 & _ & D). rewrite E in E2. injection E2 as <-.
      assert (X : raw_is_empty i = false) by (destruct i; auto; contradiction). apply (raw_nonempty_covers i Wi) in X as [p X].
      specialize (D p). rewrite X, orb_true_r in D. discriminate D.
  Qed.

  Lemma empty_iff i : raw_is_empty i = true <-> i = Empty.
  Proof. destruct i; cbn; split; congruence. Qed.

  Lemma segment_walk dbg i n : forall oi b acc, left_of oi b -> length b < n -> tree_wf acc ->
    (exists acc' oi' K, intersect_segment n dbg i oi acc = Ok (acc', oi', true) /\ gains dbg acc acc' K /\
       forall a K', walk_with dbg i a b K' <-> K' = K) \/
    (exists acc' oi' b' K, intersect_segment n dbg i oi acc = Ok (acc', oi', false) /\ gains dbg acc acc' K /\ left_of oi' b' /\
       forall a K', walk_with dbg i a b K' <-> exists K1, K' = K ++ K1 /\ walk dbg a b' K1) \/
    (intersect_segment n dbg i oi acc = Panic /\ forall a K', ~ walk_with dbg i a b K').
  Proof.
    induction n as [|n IH]; intros oi b acc H N W; [lia|]. cbn [intersect_segment].
    destruct (next_answers dbg oi b H) as [it' -> Lf|j it' b' Tk Lf Sz|Ne P]; cbn [bind].
    - left. exists acc, it', []. split; auto. split; [now apply gains_none|]. intros a K'. split.
      + intros X. inversion X as [|? ? ? ? ? ? Tk|? ? ? ? ? ? Tk]; subst; auto; inversion Tk.
      + intros ->. constructor.
    - destruct (raw_is_empty (raw_intersect i j)) eqn:E.
      + apply empty_iff in E. right. left. exists acc, it', b', []. split; auto. split; [now apply gains_none|]. split; auto. intros a K'. split.
        * intros X. inversion X as [|? ? ? j' b2 ? Tk' E' X'|? ? ? j' b2 ? Tk' E' X']; subst; [inversion Tk| |];
            destruct (takes_det _ _ _ _ _ _ Tk Tk') as [<- <-]; [eexists; split; [reflexivity|eassumption]|contradiction].
        * intros (K1 & -> & X). eapply with_apart; eauto.
      + assert (E' : raw_intersect i j <> Empty) by (intros X; apply empty_iff in X; congruence). clear E.
        destruct (gains_one dbg acc (raw_intersect i j) W (raw_intersect_wf i j) E') as (s1 & Eu & G1). rewrite Eu. cbn [bind].
        assert (Step : forall a K', walk_with dbg i a b K' <-> exists K2, K' = raw_intersect i j :: K2 /\ walk_with dbg i a b' K2).
        { intros a K'. split.
          - intros X. inversion X as [|? ? ? j' b2 ? Tk' E2 X'|? ? ? j' b2 ? Tk' E2 X']; subst; [inversion Tk| |];
              destruct (takes_det _ _ _ _ _ _ Tk Tk') as [<- <-]; [contradiction|eexists; split; [reflexivity|eassumption]].
          - intros (K2 & -> & X). eapply with_meet; eauto. }
        destruct (IH it' b' s1 Lf) as [(acc' & oi' & K & Es & G2 & Q)|[(acc' & oi' & b2 & K & Es & G2 & Lf2 & Q)|[Es Q]]]; [lia|apply G1| | |]; rewrite Es.
        * left. exists acc', oi', (raw_intersect i j :: K). split; auto. split; [exact (gains_app _ _ _ _ [_] K G1 G2)|].
          intros a K'. rewrite Step. split; [intros (K2 & -> & X); apply Q in X; now subst|intros ->; exists K; split; auto; now apply Q].
        * right. left. exists acc', oi', b2, (raw_intersect i j :: K). split; auto. split; [exact (gains_app _ _ _ _ [_] K G1 G2)|]. split; auto.
          intros a K'. rewrite Step. split.
          -- intros (K2 & -> & X). apply Q in X as (K1 & -> & X). exists K1. auto.
          -- intros (K1 & -> & X). exists (K ++ K1). split; auto. apply Q. eauto.
        * right. right. split; auto. intros a K' X. apply Step in X as (K2 & _ & X). now apply Q in X.
    - right. right. split; auto. intros a K' X. inversion X as [|? ? ? ? ? ? Tk|? ? ? ? ? ? Tk]; subst; [congruence| |]; now apply P in Tk.
  Qed.

  Lemma loop_walk dbg n : forall si oi a b acc, left_of si a -> left_of oi b -> length a < n -> tree_wf acc ->
    (exists acc' K, intersect_loop n dbg si oi acc = Ok acc' /\ gains dbg acc acc' K /\ forall K', walk dbg a b K' <-> K' = K) \/
    (intersect_loop n dbg si oi acc = Panic /\ forall K', ~ walk dbg a b K').
  Proof.
    induction n as [|n IH]; intros si oi a b acc H Ho N W; [lia|]. cbn [intersect_loop].
    destruct (next_answers dbg si a H) as [it' -> Lf|i it' a' Tk Lf Sz|Ne P]; cbn [bind].
    - left. exists acc, []. split; auto. split; [now apply gains_none|]. intros K'. split; [|intros ->; constructor].
      intros X. inversion X as [|? ? ? ? ? Tk]; subst; auto. inversion Tk.
    - assert (Step : forall K', walk dbg a b K' <-> walk_with dbg i a' b K').
      { intros K'. split; [|intros X; econstructor; eauto]. intros X. inversion X as [|? i' a2 ? ? Tk' X']; subst; [inversion Tk|].
        now destruct (takes_det _ _ _ _ _ _ Tk Tk') as [<- <-]. }
      rewrite (left_size _ _ Ho).
      destruct (segment_walk dbg i (S (length b)) oi b acc Ho) as [(acc' & oi' & K & Es & G & Q)|[(acc' & oi' & b2 & K & Es & G & Lf2 & Q)|[Es Q]]]; [lia|auto| | |]; rewrite Es; cbn [bind].
      + left. exists acc', K. split; auto. split; auto. intros K'. now rewrite Step, Q.
      + destruct (IH it' oi' a' b2 acc' Lf Lf2) as [(s2 & K2 & E2 & G2 & Q2)|[E2 Q2]]; [lia|apply G| |].
        * left. exists s2, (K ++ K2). split; auto. split; [eapply gains_app; eauto|]. intros K'. rewrite Step, Q. split.
          -- intros (K1 & -> & X). apply Q2 in X. now subst.
          -- intros ->. exists K2. split; auto. now apply Q2.
        * right. split; auto. intros K' X. apply Step, Q in X as (K1 & _ & X). now apply Q2 in X.
      + right. split; auto. intros K' X. apply Step in X. now apply Q in X.
    - right. split; auto. intros K' X. inversion X as [|? ? ? ? ? Tk]; subst; [congruence|]. now apply P in Tk.
  Qed.

  (** For any two sequences of tines: [intersect] gives a well-formed tree with what the walk keeps, and panics exactly if the
      walk comes to tines that cannot be read. *)
  Theorem C115_intersect_any dbg a b :
    (forall K, walk dbg a b K -> exact dbg (tree_intersect dbg a b) (some_contains K)) /\
    (tree_intersect dbg a b = Panic <-> forall K, ~ walk dbg a b K).
  Proof.
    assert (W0 : tree_wf (@tree_new T)) by (split; [constructor|reflexivity]).
    unfold tree_intersect. assert (La : left_of (tree_interval_iter a) a) by constructor. assert (Lb : left_of (tree_interval_iter b) b) by constructor.
    rewrite (left_size _ _ La).
    destruct (loop_walk dbg (S (length a)) _ _ a b tree_new La Lb) as [(s' & K & -> & (W & H & _) & Q)|[-> Q]]; [lia|auto| |].
    - split.
      + intros K' X. apply Q in X. subst. exists s'. split; auto. split; auto. apply is_holds; auto. intros x. rewrite H.
        unfold holds. cbn. split; [intros [X|X]; [discriminate X|auto]|auto].
      + split; [discriminate|]. intros X. destruct (X K). now apply Q.
    - split; [intros K X; now apply Q in X|]. split; auto.
  Qed.

  (** [intersects] is true exactly if the walk keeps something. *)
  Theorem C115_intersects_any dbg a b :
    (sel_intersects dbg a b = Ok true <-> exists k K, walk dbg a b (k :: K)) /\
    (sel_intersects dbg a b = Ok false <-> walk dbg a b []) /\
    (sel_intersects dbg a b = Panic <-> forall K, ~ walk dbg a b K).
  Proof.
    assert (W0 : tree_wf (@tree_new T)) by (split; [constructor|reflexivity]).
    unfold sel_intersects, tree_intersect. assert (La : left_of (tree_interval_iter a) a) by constructor. assert (Lb : left_of (tree_interval_iter b) b) by constructor.
    rewrite (left_size _ _ La).
    destruct (loop_walk dbg (S (length a)) _ _ a b tree_new La Lb) as [(s' & K & -> & (W & H & N) & Q)|[-> Q]]; [lia|auto| |]; cbn [bind].
    - assert (E : s' = [] <-> K = []).
      { rewrite N. unfold tree_new. tauto. }
      setoid_rewrite Q. split; [|split].
      + split.
        * intros X. destruct K as [|k K]; eauto. rewrite (proj2 E eq_refl) in X. discriminate X.
        * intros (k & K' & X). destruct s'; auto. rewrite (proj1 E eq_refl) in X. discriminate X.
      + split.
        * intros X. destruct s'; [|discriminate X]. symmetry. now apply E.
        * intros X. now rewrite (proj2 E (eq_sym X)).
      + split; [discriminate|]. intros X. now destruct (X K).
    - split; [|split]; (split; [try discriminate; auto|auto]).
      + intros (k & K & X). now apply Q in X.
      + intros X. now apply Q in X.
  Qed.

  (** If both can be read to the end, the walk is that of C38. *)
  Lemma walk_walked dbg A : forall a b B, took dbg a A [] -> took dbg b B [] -> walk dbg a b (walked A B).
  Proof.
    assert (Tn : forall b r B, took dbg b (r :: B) [] -> exists b', takes dbg b r b' /\ took dbg b' B []).
    { intros b r B X. inversion X; subst. eauto. }
    assert (Nn : forall b, took dbg b [] [] -> b = []) by (intros b X; now inversion X).
    induction A as [|i A IH]; intros a b B Ha Hb.
    - apply Nn in Ha. subst. destruct B; constructor.
    - apply Tn in Ha as (a' & Tk & Ha). econstructor; [exact Tk|]. revert b Hb.
      induction B as [|j B IB]; intros b Hb; [apply Nn in Hb; subst; constructor|].
      apply Tn in Hb as (b' & Tk' & Hb). cbn [walked]. destruct (raw_is_empty (raw_intersect i j)) eqn:E.
      + apply empty_iff in E. eapply with_apart; eauto.
      + eapply with_meet; eauto. intros X. apply empty_iff in X. congruence.
  Qed.
  Theorem C115_intersect_read dbg a b A B : took dbg a A [] -> took dbg b B [] ->
    exact dbg (tree_intersect dbg a b) (some_contains (walked A B)).
  Proof. intros Ha Hb. apply C115_intersect_any. now apply walk_walked. Qed.
End Walk.
Print Assumptions C115_intersect_any.
Print Assumptions C115_intersects_any.
Print Assumptions C115_intersect_read.

(** The second list cannot be read to its end, but the walk does not come so far. *)
Example C115_intersect_ex :
  let a := [TLower (Include 5); TUpper (Include 9)]%Z in
  let b := [TLower (Include 7); TUpper (Include 12); TLower (Include 1); TUpper (Include 2); TUpper (Include 4)]%Z in
  walk true a b [Closed 7 9]%Z /\ (forall l, ~ took true b l []) /\
  tree_intersect true a b = Ok [TLower (Include 7); TUpper (Include 9)]%Z /\ tree_intersect true b b = Panic.
Proof.
  cbv zeta. split; [|split; [apply (C115_iter_exact true); reflexivity|split; reflexivity]].
  assert (Op : forall z, opens (TLower (Include z : Bound Z))) by (intros z; left; eauto).
  assert (Cl : forall z, closes (TUpper (Include z : Bound Z))) by (intros z; left; eauto).
  assert (Pair : forall (x y : Z) s, takes true (TLower (Include x) :: TUpper (Include y) :: s)%Z (raw_new (Include x) (Include y)) s).
  { intros x y s. apply (takes_interval true (TLower (Include x)) (TUpper (Include y)) s); [intros [? ?]; discriminate|intros [? ?]; discriminate|intros _; split; [apply Op|apply Cl]]. }
  eapply walk_next; [apply Pair|]. change [Closed 7 9]%Z with [raw_intersect (raw_new (Include 5) (Include 9)) (raw_new (Include 7) (Include 12))]%Z.
  eapply with_meet; [apply Pair|discriminate|]. eapply with_apart; [apply Pair|reflexivity|]. constructor.
Qed.

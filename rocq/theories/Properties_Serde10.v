(** * [union] and [minus] of any two sequences of tines: C115, continued *)
From Coq Require Import List Bool ZArith Lia Sorted.
From Verif Require Import Base MBound MRaw MNormalize MTine MBTree MTineTree MInterval MSelection
  Spec Spec_Tree Spec_Sel Spec_Take Spec_Take6 OrdFacts PRaw PTree PTree2 PTree3 PTree7 Properties_Tree Properties_Serde3 Properties_Serde6 Instances.
Import ListNotations.
Local Open Scope list_scope.

Section Fold.
  Context {T : Type} {O : Ord T}.
  Implicit Types (s q : list (Tine T)) (it : Iter T) (r : RawInterval T).

  Lemma fold_took {A} dbg (f : A -> RawInterval T -> res A) n : forall it q (s s' : A), left_of it q -> length q < n ->
    (iter_fold_fuel n dbg f it s = Ok s' <-> exists l, took dbg q l [] /\ one_by_one f s l s').
  Proof.
    induction n as [|n IH]; intros it q s s' H N; [lia|]. cbn [iter_fold_fuel].
    destruct (next_answers dbg it q H) as [it' -> Lf|r it' q' Tk Lf Sz|Ne P]; cbn [bind].
    - split.
      + intros [= <-]. exists []. split; constructor.
      + intros (l & Tl & X). inversion Tl as [|? ? ? ? ? Tk]; subst; [|inversion Tk]. now inversion X.
    - assert (Step : (exists l, took dbg q l [] /\ one_by_one f s l s') <-> exists s1 : A, f s r = Ok s1 /\ exists l, took dbg q' l [] /\ one_by_one f s1 l s').
      { split.
        - intros (l & Tl & X). inversion Tl as [|? ? q'' ? ? Tk' Tl']; subst; [inversion Tk|].
          destruct (takes_det _ _ _ _ _ _ Tk Tk') as [<- <-]. inversion X; subst. eauto 6.
        - intros (s1 & E & l & Tl & X). exists (r :: l). split; econstructor; eauto. }
      rewrite Step. destruct (f s r) as [s1|] eqn:E; cbn [bind].
      + rewrite (IH it' q' s1 s' Lf) by lia. split; [eauto|]. intros (s2 & [= <-] & X). exact X.
      + split; [discriminate|]. intros (s2 & X & _). discriminate X.
    - split; [discriminate|]. intros (l & Tl & _). inversion Tl as [|? ? ? ? ? Tk]; subst; [congruence|]. now apply P in Tk.
  Qed.

  (** Whatever the two sequences are, [union] and [minus] do what [union_in_place] and [minus_in_place] do with each interval read from
      the second, in turn; they panic exactly if these cannot all be read or one of the steps panics. *)
  Theorem C115_one_by_one dbg s q :
    (forall s', tree_union dbg s q = Ok s' <-> exists l, took dbg q l [] /\ one_by_one (tree_union_in_place dbg) s l s') /\
    (tree_union dbg s q = Panic <-> forall l (s' : list (Tine T)), took dbg q l [] -> ~ one_by_one (tree_union_in_place dbg) s l s') /\
    (forall s', tree_minus dbg s q = Ok s' <-> exists l, took dbg q l [] /\ one_by_one (tree_minus_in_place dbg) s l s') /\
    (tree_minus dbg s q = Panic <-> forall l (s' : list (Tine T)), took dbg q l [] -> ~ one_by_one (tree_minus_in_place dbg) s l s').
  Proof.
    assert (Lf : left_of (tree_interval_iter q) q) by constructor.
    assert (U : forall s', tree_union dbg s q = Ok s' <-> exists l, took dbg q l [] /\ one_by_one (tree_union_in_place dbg) s l s').
    { intros s'. unfold tree_union, iter_fold. rewrite (left_size _ _ Lf). apply fold_took; auto. }
    assert (M : forall s', tree_minus dbg s q = Ok s' <-> exists l, took dbg q l [] /\ one_by_one (tree_minus_in_place dbg) s l s').
    { intros s'. unfold tree_minus, iter_fold. rewrite (left_size _ _ Lf). apply fold_took; auto. }
    split; [exact U|]. split; [|split; [exact M|]]; split.
    - intros E l s' Tl X. assert (Y : tree_union dbg s q = Ok s') by (apply U; eauto). congruence.
    - intros N. destruct (tree_union dbg s q) as [s'|]; auto. destruct (proj1 (U s') eq_refl) as (l & Tl & X). now destruct (N l s').
    - intros E l s' Tl X. assert (Y : tree_minus dbg s q = Ok s') by (apply M; eauto). congruence.
    - intros N. destruct (tree_minus dbg s q) as [s'|]; auto. destruct (proj1 (M s') eq_refl) as (l & Tl & X). now destruct (N l s').
  Qed.

  (** A well-formed tree minus a single interval that was read: as C37 says, exact if and only if no obstacle is in the way. *)
  Theorem C115_minus_one dbg s ls q r : tree_wf s -> intervals_are dbg s ls -> took dbg q [r] [] ->
    (exact dbg (tree_minus dbg s q) (fun x => holds dbg s x /\ raw_contains r x = false) <-> ~ minus_obstacle ls r).
  Proof.
    intros W Hl Tl. assert (Wr : raw_wf r) by (inversion Tl as [|? ? ? ? ? Tk]; subst; eapply takes_wf; eauto).
    rewrite <- (C37_minus_domain dbg s ls r W Hl Wr). destruct (C115_one_by_one dbg s q) as (_ & _ & M & _).
    assert (E : forall s', tree_minus dbg s q = Ok s' <-> tree_minus_in_place dbg s r = Ok s').
    { intros s'. rewrite M. split.
      - intros (l & Tl' & X). rewrite (took_det _ _ _ _ Tl' Tl) in X. inversion X as [|? ? s1 ? ? E X']; subst. inversion X'; subst. exact E.
      - intros E. exists [r]. split; auto. econstructor; eauto. constructor. }
    unfold exact. split; intros (s' & X & Y); exists s'; (split; [apply E; exact X|exact Y]).
  Qed.
End Fold.
Print Assumptions C115_one_by_one.
Print Assumptions C115_minus_one.

(** The intervals of the second overlap and come in descending order. *)
Example C115_one_by_one_ex :
  let s := [TLower (Include 0); TUpper (Include 9)]%Z in
  let q := [TLower (Include 5); TUpper (Include 7); TLower (Include 3); TUpper (Exclude 6)]%Z in
  took true q [Closed 5 7; RightOpen 3 6]%Z [] /\
  one_by_one (tree_minus_in_place true) s [Closed 5 7; RightOpen 3 6]%Z [TLower (Include 0); TUpper (Exclude 3); TLower (Exclude 7); TUpper (Include 9)]%Z /\
  tree_minus true s q = Ok [TLower (Include 0); TUpper (Exclude 3); TLower (Exclude 7); TUpper (Include 9)]%Z.
Proof.
  cbv zeta. split; [apply (C115_iter_exact true); reflexivity|]. split; [|reflexivity]. repeat (econstructor; [reflexivity|]). constructor.
Qed.

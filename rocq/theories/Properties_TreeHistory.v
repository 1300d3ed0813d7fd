(** * C106: histories of calls on one tree *)
From Coq Require Import List Bool ZArith Lia Sorted QArith Qcanon.
From Verif Require Import Base OrdFacts Pos PFinite Ints MBound MRaw MTine MBTree MTineTree Spec Spec_Tree Spec_Sel Spec_Domain Spec_TreeHistory
  PRaw PRaw2 PBTree PTree PTreeOps PTreeIsect PTree2 PTree3 PTree4 PTree5 PTree6 PTree7 PTreeMinus PIter PDebug Instances
  Properties_Tree Properties_Domain.
Import ListNotations.
Local Open Scope Z_scope.
#[local] Arguments cmp : simpl never.

(** On dense types [minus] of whole trees is right just when no interval of
    the second meets an obstacle in the first. *)
Theorem C37_minus_tree_domain {T} {O : Ord T} dbg (s o : TineTree T) l l' (x0 : T) : dense T -> unbounded T ->
  tree_wf s -> tree_wf o -> intervals_are dbg s l -> intervals_are dbg o l' ->
  (exact dbg (tree_minus dbg s o) (fun x => holds dbg s x /\ ~ holds dbg o x) <-> forall i, In i l' -> ~ minus_obstacle l i).
Proof.
  intros D U W Wo Hl Hl'. split; [|now apply C37_minus_tree].
  intros Ex i Hi Ob. apply wf_tree_wf in W, Wo. rewrite (intervals_pieces dbg s l W Hl) in Ob. rewrite (intervals_pieces dbg o l' Wo Hl') in Hi.
  apply exact_den in Ex as (r & E & Wr & H). apply obstacle_pieces in Ob; auto.
  destruct (tree_minus_obstacle dbg s o r W Wo) as (p & Hp); eauto. apply Hp. clear Hp. revert p.
  apply (dense_den D U x0 r s o (fun a b => a && negb b)); auto.
  intros x. apply eq_true_iff_eq. rewrite H, !holds_den by auto. rewrite andb_true_iff, negb_true_iff.
  destruct (den false o (At x)); intuition congruence.
Qed.
Print Assumptions C37_minus_tree_domain.

(** Taking [{3} U (9,inf)] out of [[0,1] U (3,5) U (5,7)]: the two trees meet the
    hypotheses, [3] is an obstacle, and the interval [(3,5)] loses its start. *)
Example C37_minus_tree_ex : let o := [TPoint (Include (q 3)); TLower (Exclude (q 9)); TUpper Infinite] in
  dense Qc /\ unbounded Qc /\ tree_wf exQ /\ tree_wf o /\
  intervals_are true exQ [Closed (q 0) (q 1); Open (q 3) (q 5); Open (q 5) (q 7)] /\ intervals_are true o [Point (q 3); UpFrom (q 9)] /\
  minus_obstacle [Closed (q 0) (q 1); Open (q 3) (q 5); Open (q 5) (q 7)] (Point (q 3)) /\
  ~ minus_obstacle [Closed (q 0) (q 1); Open (q 3) (q 5); Open (q 5) (q 7)] (UpFrom (q 9)) /\
  tree_minus false exQ o = Ok [TLower (Include (q 0)); TUpper (Include (q 1)); TPoint (Exclude (q 5)); TUpper (Exclude (q 7))].
Proof.
  intros o. split; [apply Qc_dense|]. split; [apply Qc_unbounded|]. split; [apply exQ_wf|]. split; [split; [repeat constructor|reflexivity]|].
  split; [repeat econstructor|]. split; [repeat econstructor|]. split; [exists (Open (q 3) (q 5)); simpl; auto|]. split.
  - intros (x & E & (a & b & Ha & Hb & E1 & E2)).
    assert (x = q 5 \/ x = q 7) by (simpl in Ha; destruct Ha as [<-|[<-|[<-|[]]]]; simpl in E1; try discriminate; inversion E1; auto).
    destruct E as [(d & E & B)|(d & E & B)]; inversion E; subst d; simpl in B; [|contradiction]. subst x. destruct H as [H|H]; discriminate H.
  - reflexivity.
Qed.

Section TreeHistory.
  Context {T : Type} {O : Ord T}.
  Implicit Types (i : RawInterval T) (s o : TineTree T) (P : T -> Prop) (c : tcall T).

  Lemma holds_dbg dbg dbg' s x : tree_wf s -> (holds dbg s x <-> holds dbg' s x).
  Proof. intros W. apply wf_tree_wf in W. now rewrite !holds_den. Qed.
  Lemma exact_ext dbg r (P Q : T -> Prop) : (forall x, P x <-> Q x) -> exact dbg r P -> exact dbg r Q.
  Proof.
    intros E (s & Er & W & H). exists s. split; auto. split; auto. intros x. destruct (H x) as (b & Eb & Hb). exists b. split; auto. now rewrite Hb.
  Qed.
  Lemma exact_iff dbg r (P Q : T -> Prop) : (forall x, P x <-> Q x) -> (exact dbg r P <-> exact dbg r Q).
  Proof. intros E. split; apply exact_ext; auto. intros x. now rewrite E. Qed.
  Lemma teffect_ext c P Q : (forall x, P x <-> Q x) -> forall x, teffect c P x <-> teffect c Q x.
  Proof. intros E x. destruct c; simpl; now rewrite E. Qed.
  Lemma teffects_ext (cs : list (tcall T)) : forall P Q, (forall x, P x <-> Q x) -> forall x, teffects cs P x <-> teffects cs Q x.
  Proof. induction cs as [|c cs IH]; simpl; auto. intros P Q E. apply IH. now apply teffect_ext. Qed.

  Lemma tree_intervals dbg s : tree_wf s -> exists l, intervals_are dbg s l.
  Proof. intros W. apply wf_tree_wf in W. eexists. now apply pieces_drains. Qed.

  Lemma tstep dbg c s l : tree_wf s -> tcall_inputs c -> intervals_are dbg s l -> tcareful dbg c l ->
    exact dbg (do_tcall dbg c s) (teffect c (holds dbg s)).
  Proof.
    intros W I Hl C. destruct c as [i|o| |i|o|i|o]; simpl in *.
    - now apply C29_union_in_place.
    - apply exact_of_den. apply wf_tree_wf in W, I. destruct (tree_union_ok dbg s o W I) as (r & E & Wr & H). exists r. split; auto. split; auto.
      intros x. unfold teffect. rewrite H, orb_true_iff, !holds_den by auto. reflexivity.
    - destruct (C31_complement dbg s W) as (r & E & Wr & H & _). exists r. split; auto. split; auto. intros x.
      destruct (H x) as (b & B1 & B2). exists (negb b). split; auto. unfold teffect, holds. rewrite B1. destruct b; simpl; split; congruence.
    - apply (C37_minus_domain dbg s l i); auto.
    - destruct (tree_intervals dbg o I) as (l' & Hl'). eapply exact_ext; [|apply (C37_minus_tree dbg s o l l'); eauto].
      intros x. simpl. now rewrite (holds_dbg dbg false o x I).
    - now apply (C41_intersect_domain_exact dbg s l i).
    - destruct (tree_intervals dbg o I) as (l' & Hl'). eapply exact_ext; [|apply (C73_tree_intersect_enough dbg s o l l'); auto].
      intros x. simpl. now rewrite (holds_dbg dbg false o x I).
  Qed.

  (** A history whose caller is careful: no call panics, the tree stays
      well-formed and has just the points it should. *)
  Theorem C106_history dbg (cs : list (tcall T)) : forall s, tree_wf s -> Forall tcall_inputs cs -> all_tcareful dbg cs s ->
    exists s', do_tcalls dbg cs s = Ok s' /\ tree_wf s' /\ tree_is dbg s' (teffects cs (holds dbg s)).
  Proof.
    induction cs as [|c cs IH]; intros s W Hi Hc.
    - exists s. split; auto. split; auto. intros x. apply wf_tree_wf in W. exists (den false s (At x)). rewrite tree_contains_den by auto. split; auto.
      simpl. now rewrite holds_den.
    - inversion Hi as [|? ? I1 I2]; subst. destruct Hc as [C1 C2]. destruct (tree_intervals dbg s W) as (l & Hl).
      destruct (tstep dbg c s l W I1 Hl (C1 l Hl)) as (s1 & E1 & W1 & H1). destruct (IH s1 W1 I2 (C2 s1 E1)) as (s2 & E2 & W2 & H2).
      exists s2. simpl. rewrite E1. split; auto. split; auto. intros x. destruct (H2 x) as (b & Eb & Hb). exists b. split; auto. rewrite Hb.
      apply teffects_ext. intros y. unfold holds. destruct (H1 y) as (b1 & Eb1 & Hb1). rewrite Eb1, <- Hb1. split; congruence.
  Qed.

  (** On dense types that duty is also needed: every step is right just when
      the caller is careful at every step. *)
  Lemma tstep_iff dbg c s l (x0 : T) : dense T -> unbounded T -> tree_wf s -> tcall_inputs c -> intervals_are dbg s l ->
    exact dbg (do_tcall dbg c s) (teffect c (holds dbg s)) -> tcareful dbg c l.
  Proof.
    intros D U W I Hl Ex. destruct c as [i|o| |i|o|i|o]; simpl in *; auto.
    - now apply (C37_minus_domain dbg s l i).
    - intros l' i Hl' Hin. apply (C37_minus_tree_domain dbg s o l l' x0); auto. eapply exact_ext; [|exact Ex]. intros x. simpl.
      now rewrite (holds_dbg dbg false o x I).
    - now apply (C41_intersect_domain_iff dbg s l i x0).
    - intros l' Hl'. apply (C73_tree_intersect_domain dbg s o l l'); auto using (inhabits x0). eapply exact_ext; [|exact Ex]. intros x. simpl.
      now rewrite (holds_dbg dbg false o x I).
  Qed.
  Theorem C106_careful_iff dbg (cs : list (tcall T)) (x0 : T) : dense T -> unbounded T ->
    forall s, tree_wf s -> Forall tcall_inputs cs -> (all_exact dbg cs s <-> all_tcareful dbg cs s).
  Proof.
    intros D U. induction cs as [|c cs IH]; intros s W Hi; simpl; [tauto|]. inversion Hi as [|? ? I1 I2]; subst. split.
    - intros [Ex K]. split.
      + intros l Hl. now apply (tstep_iff dbg c s l x0).
      + intros s' E. apply IH; auto. destruct Ex as (s1 & E1 & W1 & _). congruence.
    - intros [C K]. destruct (tree_intervals dbg s W) as (l & Hl). pose proof (tstep dbg c s l W I1 Hl (C l Hl)) as Ex. split; auto.
      intros s' E. apply IH; auto. destruct Ex as (s1 & E1 & W1 & _). congruence.
  Qed.

  (** Both builds then go through the same trees. *)
  Lemma tcall_follows c s r : do_tcall true c s = Ok r -> do_tcall false c s = Ok r.
  Proof.
    destruct c as [i|o| |i|o|i|o]; simpl.
    - apply union_in_place_ref.
    - apply union_ref.
    - apply complement_ref.
    - apply minus_in_place_ref.
    - apply minus_ref.
    - apply intersect_in_place_ref.
    - apply intersect_ref.
  Qed.
  Theorem C106_release_follows (cs : list (tcall T)) : forall s r, do_tcalls true cs s = Ok r -> do_tcalls false cs s = Ok r.
  Proof.
    induction cs as [|c cs IH]; simpl; auto. intros s r. destruct (do_tcall true c s) as [s1|] eqn:E; [|discriminate].
    apply tcall_follows in E. rewrite E. simpl. apply IH.
  Qed.

  (** On dense types the way does not matter: careful histories with the same
      effect leave equal trees. *)
  Theorem C106_same_tree dbg (cs ds : list (tcall T)) s s' a b (x0 : T) : dense T -> unbounded T -> tree_wf s -> tree_wf s' ->
    Forall tcall_inputs cs -> Forall tcall_inputs ds -> all_tcareful dbg cs s -> all_tcareful dbg ds s' ->
    do_tcalls dbg cs s = Ok a -> do_tcalls dbg ds s' = Ok b ->
    ((forall x, teffects cs (holds dbg s) x <-> teffects ds (holds dbg s') x) <-> tree_eqb a b = true).
  Proof.
    intros D U W W' I I' C C' Ea Eb.
    destruct (C106_history dbg cs s W I C) as (a' & Ea' & Wa & Ha). destruct (C106_history dbg ds s' W' I' C') as (b' & Eb' & Wb & Hb).
    assert (a' = a) by congruence. assert (b' = b) by congruence. subst a' b'.
    destruct (C35_equality_dense dbg a b x0 D U Wa Wb) as (-> & _ & _). split.
    - intros H x. destruct (Ha x) as (u & -> & Hu). destruct (Hb x) as (v & -> & Hv). f_equal. apply eq_true_iff_eq. now rewrite Hu, Hv.
    - intros H x. destruct (Ha x) as (u & Eu & Hu). destruct (Hb x) as (v & Ev & Hv). rewrite <- Hu, <- Hv. rewrite H, Ev in Eu. now inversion Eu.
  Qed.
End TreeHistory.
Print Assumptions C106_history.
Print Assumptions C106_careful_iff.
Print Assumptions C106_release_follows.
Print Assumptions C106_same_tree.

(** A history with all seven calls. *)
Definition exHistory : list (tcall Z) :=
  [T_union_in_place (Closed 0 1); T_union [TLower (Exclude 3); TPoint (Exclude 5); TUpper Infinite];
   T_minus_in_place (LeftOpen 1 3); T_complement; T_complement; T_intersect_in_place (Closed 0 6);
   T_minus [TLower (Include 0); TUpper (Include 1)]; T_intersect [TLower (Exclude 2); TUpper (Exclude 4)]].
Example C106_ex : tree_wf (@tree_new Z) /\ Forall tcall_inputs exHistory /\ all_tcareful true exHistory tree_new /\
  do_tcalls true exHistory tree_new = Ok [TLower (Exclude 3); TUpper (Exclude 4)] /\
  ~ all_tcareful true [T_minus_in_place (Point 3)] exZ.
Proof.
  assert (Wf : forall s : TineTree Z, Sorted.StronglySorted (fun t u => tine_cmp t u = Lt) s -> alternates false s = true -> tree_wf s) by (intros s A B; now split).
  assert (N : forall (s : TineTree Z) l, tree_wf s -> intervals_are true s l -> l = pieces None s) by (intros s l W H; apply (intervals_pieces true s l); [now apply wf_tree_wf|auto]).
  split; [apply Wf; [constructor|reflexivity]|]. split; [repeat constructor|]. split; [|split; [reflexivity|]].
  - cbn [all_tcareful exHistory].
    split; [intros li _; exact I|]. intros s E. inversion E; subst s; clear E.
    split; [intros li _; exact I|]. intros s E. inversion E; subst s; clear E.
    split.
    { intros li H. apply N in H; [|apply exZ_wf]. subst li. apply (proj1 (proj2 (proj2 C37_ex))). }
    intros s E. inversion E; subst s; clear E.
    split; [intros li _; exact I|]. intros s E. inversion E; subst s; clear E.
    split; [intros li _; exact I|]. intros s E. inversion E; subst s; clear E.
    split.
    { intros li H. apply N in H; [|apply exZ_wf]. subst li. right. exists (Include 0), (Include 6). split; [reflexivity|]. split; [reflexivity|]. left. split.
      - exists (Closed 0 1). simpl. split; auto. split; [discriminate|reflexivity].
      - exists (UpFrom 5). simpl. split; auto. split; [reflexivity|exact I]. }
    intros s E. inversion E; subst s; clear E.
    split.
    { intros li H. apply N in H; [|apply Wf; [repeat constructor|reflexivity]]. subst li. intros l' i H Hi. apply N in H; [|apply Wf; [repeat constructor|reflexivity]]. subst l'.
      destruct Hi as [<-|[]]. intros (x & E & (a & b & Ha & Hb & E1 & E2)).
      assert (x = 5) by (simpl in Ha; intuition subst; simpl in E1; try discriminate; congruence). subst x.
      destruct E as [(d & E & B)|(d & E & B)]; inversion E; subst; simpl in B; discriminate. }
    intros s E. inversion E; subst s; clear E.
    split; [|intros s E; exact I].
    intros li H. apply N in H; [|apply Wf; [repeat constructor|reflexivity]]. subst li. intros l' H. apply N in H; [|apply Wf; [repeat constructor|reflexivity]]. subst l'.
    intros A1 i A2 B1 j B2 EA EB. simpl in EA, EB.
    destruct A1 as [|a1 [|a2 [|a3 A1]]]; inversion EA; subst; destruct B1 as [|b1 [|b2 B1]]; inversion EB; subst; try discriminate.
    intros _. split; [|reflexivity]. intros i' [<-|[<-|[]]]; [reflexivity|discriminate].
  - intros [H _]. destruct C37_ex as (_ & HI & _ & Ob & _). now apply (H _ HI).
Qed.

(** * Properties of Selections: C43-C56

    Programs, their meaning and the other notions used here are in Spec_Sel.v.
    A program's run may use [union], [complement], [intersect] and
    [minus_in_place]; [minus] and [intersect_in_place] are separate below
    because they can leave the tree malformed. *)
From Coq Require Import List Bool ZArith Lia Sorted.
From Verif Require Import Base OrdFacts Pos PFinite MBound MRaw MNormalize MTine MBTree MTineTree Ints MInterval MSelection
  Spec Spec_Tree Spec_Sel Instances PRaw PRaw2 PNorm PIter PInterval PBTree PTree PTreeOps PTreeIsect PTree2 PTree3 PTree4 PTree5 PTree6 PTree7
  PSel PSel2 PSel3 PSel4 PDebug Properties_Interval.
Import ListNotations.
Local Open Scope Z_scope.
#[local] Arguments cmp : simpl never.

(** ** From the specification to the proofs *)
Section Bridge.
  Context {T : Type} {O : Ord T} {F : Finite T}.
  Implicit Types (s : Selection T) (p q : prog T).

  Lemma member_in dbg s x : wf s -> (member dbg s x <-> inS s x).
  Proof.
    intros W. unfold member, sel_contains, inS. rewrite tree_contains_den by auto. split; congruence.
  Qed.
  Lemma run_wf dbg p s : inputs false p -> run dbg p = Ok s -> wf s.
  Proof. intros H E. destruct (run_ok dbg p H) as (s' & E' & W & _). congruence. Qed.
  Lemma run_open dbg p s : inputs true p -> unions_only p -> run dbg p = Ok s -> wf s /\ open_cov (den false s).
  Proof.
    intros H U E. destruct (run_ok dbg p (inputs_weak p H)) as (s' & E' & W & _ & K & _). rewrite E in E'. injection E' as <-. auto.
  Qed.
  Lemma run_gapless dbg p s : inputs true p -> shallow p -> run dbg p = Ok s -> wf s /\ gapless (den false s).
  Proof.
    intros H U E. destruct (run_ok dbg p (inputs_weak p H)) as (s' & E' & W & _ & _ & K). rewrite E in E'. injection E' as <-. auto.
  Qed.
  Lemma least_member dbg s m : wf s -> (least (member dbg s) m <-> least (inS s) m).
  Proof.
    intros W. unfold least. rewrite member_in by auto.
    split; intros [A B]; (split; [auto|]); intros x Hx; apply B; now apply (member_in dbg).
  Qed.
  Lemma greatest_member dbg s m : wf s -> (greatest (member dbg s) m <-> greatest (inS s) m).
  Proof.
    intros W. unfold greatest. rewrite member_in by auto.
    split; intros [A B]; (split; [auto|]); intros x Hx; apply B; now apply (member_in dbg).
  Qed.
  Lemma lone_member dbg s x : wf s -> (lone_gap (member dbg s) x <-> lone_gap (inS s) x).
  Proof.
    intros W. unfold lone_gap. rewrite member_in by auto. 
    split; intros (A & (y & B & B') & (z & C & C')); (split; [auto|]); (split; [exists y|exists z]; (split; [auto|]; now apply (member_in dbg))).
  Qed.
  Lemma unions_shallow p : unions_only p -> shallow p.
  Proof. induction p; simpl; try tauto. Qed.
  Lemma unions_boolean p : unions_only p -> boolean p.
  Proof. induction p; simpl; try tauto. Qed.
  Lemma sel_intervals_pieces dbg s l : wf s -> sel_intervals_are dbg s l -> l = map nrm (pieces None s).
  Proof. intros W H. eapply drains_det; [exact H|]. now apply interval_iter_drains. Qed.
End Bridge.

(** Abbreviations used in the examples. *)
Notation cl a b := (interval_closed (v a) (v b)).
(** What [interval_iter] yields for a single value: not the [Point] form. *)
Notation one a := (mkInterval (Closed (v a) (v a))).
Fixpoint collect {S A} (n : nat) (next : S -> res (option A * S)) (it : S) : option (list A) :=
  match n with
  | O => None
  | S n => match next it with
           | Ok (None, _) => Some []
           | Ok (Some a, it') => match collect n next it' with Some l => Some (a :: l) | None => None end
           | Panic => None
           end
  end.
Lemma collect_drains {S A} n (next : S -> res (option A * S)) it l : collect n next it = Some l -> drains next it l.
Proof.
  revert it l. induction n as [|n IH]; simpl; [discriminate|]. intros it l.
  destruct (next it) as [[[a|] it']|] eqn:E; try discriminate.
  - destruct (collect n next it') as [k|] eqn:Ek; intros [= <-]. eapply drains_cons; eauto.
  - intros [= <-]. eapply drains_nil; eauto.
Qed.
Ltac drain := apply (collect_drains 30); vm_compute; reflexivity.
Notation pt a := (interval_point (v a)).
(** The Selection [{1, 3} U [5, 9]] and the complement of [[0, 4]]. *)
Definition ex1 : prog i8 := P_union (P_points [v 3; v 1]) (P_union_in_place (P_from (cl 5 7)) (cl 8 9)).
Definition ex2 : prog i8 := P_complement (P_from (cl 0 4)).
Lemma cl_points a b x : -128 <= a <= 127 -> -128 <= b <= 127 -> (ipoints (cl a b) x <-> a <= ival x <= b).
Proof.
  intros Ha Hb. unfold ipoints. destruct (C20_constructors_exact x) as (_ & _ & _ & _ & _ & _ & _ & K & _).
  rewrite K, !int_le_val, !v_val by lia. tauto.
Qed.
Lemma ex1_inputs b : inputs b ex1.
Proof. repeat split; constructor. Qed.
Lemma ex2_inputs b : inputs b ex2.
Proof. constructor. Qed.

(** ** C43 *)
Theorem C43_set_semantics {T} {O : Ord T} {F : Finite T} (dbg : bool) (p : prog T) :
  inputs false p -> boolean p -> exists s, run dbg p = Ok s /\ sel_is dbg s (means p).
Proof.
  intros H B. destruct (run_ok dbg p H) as (s & E & W & M & _). exists s. split; auto.
  intros x. exists (den false s (At x)). unfold sel_contains. rewrite tree_contains_den by auto. split; auto.
Qed.
Print Assumptions C43_set_semantics.

(** No program of the larger language panics, nor does [contains] afterwards,
    and debug and release builds compute the same Selection. *)
Theorem C43_no_panic {T} {O : Ord T} {F : Finite T} (p : prog T) : inputs false p ->
  exists s, run true p = Ok s /\ run false p = Ok s /\
    forall x, exists b, sel_contains true s x = Ok b /\ sel_contains false s x = Ok b.
Proof.
  intros H. destruct (run_ok true p H) as (s & E & W & _). exists s. split; auto. split.
  - clear W. revert s E. induction p as [| |i|l|l|p IH l|p IH i|p IH1 q IH2|p IH|p IH1 q IH2|p IH i]; simpl in *; auto.
    + unfold sel_from_intervals. intros s. rewrite !sel_extend_tree. apply extend_ref.
    + unfold sel_from_points. intros s. rewrite !sel_extend_tree. apply extend_ref.
    + intros s. destruct (run true p) as [s1|]; [|discriminate]. rewrite (IH (proj1 H) s1 eq_refl). simpl.
      rewrite !sel_extend_tree. apply extend_ref.
    + intros s. destruct (run true p) as [s1|]; [|discriminate]. rewrite (IH (proj1 H) s1 eq_refl). simpl. apply union_in_place_ref.
    + intros s. destruct (run true p) as [s1|]; [|discriminate]. rewrite (IH1 (proj1 H) s1 eq_refl). simpl.
      destruct (run true q) as [s2|]; [|discriminate]. rewrite (IH2 (proj2 H) s2 eq_refl). simpl. apply union_ref.
    + intros s. destruct (run true p) as [s1|]; [|discriminate]. rewrite (IH H s1 eq_refl). simpl. apply complement_ref.
    + intros s. destruct (run true p) as [s1|]; [|discriminate]. rewrite (IH1 (proj1 H) s1 eq_refl). simpl.
      destruct (run true q) as [s2|]; [|discriminate]. rewrite (IH2 (proj2 H) s2 eq_refl). simpl. apply intersect_ref.
    + intros s. destruct (run true p) as [s1|]; [|discriminate]. rewrite (IH (proj1 H) s1 eq_refl). simpl. apply minus_in_place_ref.
  - intros x. exists (den false s (At x)). unfold sel_contains. now rewrite !tree_contains_den by auto.
Qed.
Print Assumptions C43_no_panic.

Example C43_ex : inputs false (P_union ex1 ex2) /\ boolean (P_union ex1 ex2) /\
  means (P_union ex1 ex2) (v 3) /\ ~ means (P_union ex1 ex2) (v 4) /\
  (exists s, run true (P_union ex1 ex2) = Ok s /\ sel_contains true s (v 3) = Ok true /\ sel_contains true s (v 4) = Ok false).
Proof.
  split; [split; [apply ex1_inputs|apply ex2_inputs]|]. split; [simpl; tauto|].
  split; [left; left; left; reflexivity|].
  split.
  - simpl. intros [[[H|[H|[]]]|[H|H]]|H]; try discriminate H. now apply H.
  - eexists. split; [reflexivity|]. split; reflexivity.
Qed.

(** ** C44 *)

(** For every Selection and non-vacuous interval: nothing is lost, nothing of
    the interval stays, and the only values that can appear wrongly are the two
    next to the interval. *)
Theorem C44_minus_in_place_partial {T} {O : Ord T} {F : Finite T} dbg (p : prog T) s i :
  inputs false p -> run dbg p = Ok s -> reach true i ->
  exists s', sel_minus_in_place dbg s i = Ok s' /\
    (forall x, member dbg s x -> ~ ipoints i x -> member dbg s' x) /\
    (forall x, ipoints i x -> ~ member dbg s' x) /\
    (forall x, member dbg s' x -> ~ member dbg s x -> just_below i x \/ just_above i x).
Proof.
  intros H E R. pose proof (run_wf dbg p s H E) as W. pose proof (reach_solid i R) as S.
  destruct (denorm_in i (reach_weak i R)) as (Wi & NP & C).
  destruct (minus_one dbg s _ W Wi NP) as (s' & E' & W' & D). exists s'. split; [exact E'|].
  assert (M : forall x, member dbg s' x <-> (inS s x /\ ~ ipoints i x) \/ (hole s x = true /\ (just_below i x \/ just_above i x))).
  { intros x. rewrite member_in by auto. unfold inS. rewrite D, <- (C x). 
    rewrite <- (denorm_ends i x S). split.
    - intros [[A B]|(y & [= <-] & A & B)]; [left|right]; auto. split; auto. congruence.
    - intros [[A B]|[A B]]; [left|right; eauto]. split; auto. now destruct (covers _ (At x)). }
  split; [|split].
  - intros x Hx Nx. apply M. left. split; auto. now apply (member_in dbg).
  - intros x Hx Mx. apply M in Mx as [[_ K]|[_ K]]; [auto|].
    destruct K as [(m & [_ Hm] & Em)|(m & [_ Hm] & Em)]; apply Hm in Hx; clear - Hx Em; forder.
  - intros x Mx Nx. apply M in Mx as [[K _]|[_ K]]; [|auto]. apply (member_in dbg) in K; tauto.
Qed.
Print Assumptions C44_minus_in_place_partial.

(** For Selections built by unions the result is known exactly: a neighbour of
    the interval appears iff both of its own neighbours were present and it was
    not. *)
Theorem C44_minus_in_place_exact_partial {T} {O : Ord T} {F : Finite T} dbg (p : prog T) s i :
  inputs true p -> unions_only p -> run dbg p = Ok s -> reach true i ->
  exists s', sel_minus_in_place dbg s i = Ok s' /\
    sel_is dbg s' (fun x => (member dbg s x /\ ~ ipoints i x) \/
                            (lone_gap (member dbg s) x /\ (just_below i x \/ just_above i x))).
Proof.
  intros H U E R. destruct (run_open dbg p s H U E) as [W Op]. pose proof (reach_solid i R) as S.
  destruct (denorm_in i (reach_weak i R)) as (Wi & NP & C).
  destruct (minus_one dbg s _ W Wi NP) as (s' & E' & W' & D). exists s'. split; [exact E'|].
  intros x. exists (den false s' (At x)). unfold sel_contains. rewrite tree_contains_den by auto. split; auto.
  rewrite D, member_in, <- (denorm_ends i x S), <- (C x), lone_member, <- hole_open by auto. split.
  - intros [[A B]|(y & [= <-] & A & B)]; [left|right]; auto. split; auto. congruence.
  - intros [[A B]|[A B]]; [left|right; eauto]. split; auto. now destruct (covers _ (At x)).
Qed.
Print Assumptions C44_minus_in_place_exact_partial.

(** Hence removal is right whenever no neighbour of the interval is a lone gap. *)
Corollary C44_minus_in_place_right_partial {T} {O : Ord T} {F : Finite T} dbg (p : prog T) s i :
  inputs true p -> unions_only p -> run dbg p = Ok s -> reach true i ->
  (forall x, just_below i x \/ just_above i x -> ~ lone_gap (member dbg s) x) ->
  exists s', sel_minus_in_place dbg s i = Ok s' /\ sel_is dbg s' (fun x => member dbg s x /\ ~ ipoints i x).
Proof.
  intros H U E R N. destruct (C44_minus_in_place_exact_partial dbg p s i H U E R) as (s' & E' & M).
  exists s'. split; auto. intros x. destruct (M x) as (b & Eb & K). exists b. split; auto. rewrite K.
  split; [|auto]. intros [L|[L1 L2]]; [auto|]. now apply N in L1.
Qed.
Print Assumptions C44_minus_in_place_right_partial.

(** The difference of two Selections built by unions: a value missing from both
    is wrongly present iff it is a lone gap of the first next to a value of the
    second. *)
Theorem C44_minus_exact_partial {T} {O : Ord T} {F : Finite T} dbg (p q : prog T) s o :
  inputs true p -> unions_only p -> run dbg p = Ok s ->
  inputs true q -> unions_only q -> run dbg q = Ok o ->
  exists r, sel_minus dbg s o = Ok r /\
    sel_is dbg r (fun x => ~ member dbg o x /\
      (member dbg s x \/
       (lone_gap (member dbg s) x /\ exists y, (pred x = Some y \/ succ x = Some y) /\ member dbg o y))).
Proof.
  intros Hp Up Ep Hq Uq Eq. destruct (run_open dbg p s Hp Up Ep) as [W Op], (run_open dbg q o Hq Uq Eq) as [W' Op'].
  destruct (tree_minus_desc dbg s o W W' (open_no_points o W' Op')) as (r & E & Wr & D).
  exists r. split; [exact E|]. intros x. exists (den false r (At x)). unfold sel_contains. rewrite tree_contains_den by auto. split; auto.
  rewrite D, !member_in, lone_member, <- hole_open by auto.
  pose proof (open_ends o x W' Op') as Ends. unfold inS in *. split.
  - intros [[A B]|(y & i & [= <-] & A & B & C)]; [split; [congruence|auto]|].
    destruct (proj1 Ends (ex_intro _ i (conj B C))) as [N K]. split; auto. right. split; auto.
    destruct K as [(y & K1 & K2)|(y & K1 & K2)]; exists y; (split; [auto|]); now apply (member_in dbg).
  - intros [N [A|[A (y & B & C)]]]; [left; split; [auto|now destruct (den false o (At x))]|].
    right. apply (member_in dbg) in C; auto.
    assert (K : exists r0, In r0 (pieces None o) /\ ends_at r0 x).
    { apply Ends. split; auto. destruct B as [B|B]; [left|right]; eauto. }
    destruct K as (i & K1 & K2). exists x, i. auto.
Qed.
Print Assumptions C44_minus_exact_partial.

Example C44_ex : inputs true ex1 /\ unions_only ex1 /\ (exists s, run true ex1 = Ok s /\
   (exists s', sel_minus_in_place true s (cl 6 9) = Ok s' /\ sel_contains true s' (v 5) = Ok true /\ sel_contains true s' (v 6) = Ok false) /\
   (forall x, just_below (cl 6 9) x \/ just_above (cl 6 9) x -> ~ lone_gap (member true s) x)).
Proof.
  split; [apply ex1_inputs|]. split; [simpl; tauto|]. eexists. split; [reflexivity|].
  split; [eexists; split; [reflexivity|]; split; reflexivity|].
  assert (B : least (ipoints (cl 6 9)) (v 6) /\ greatest (ipoints (cl 6 9)) (v 9)).
  { apply bounds_extremes; try reflexivity. discriminate. }
  intros x [(m & Hm & Em)|(m & Hm & Em)] (N & _ & (z & K1 & K2)).
  - rewrite (least_unique _ _ _ Hm (proj1 B)) in Em.
    assert (E : pred (v 6) = Some (v 5)) by reflexivity. rewrite Em in E. injection E as ->. apply N. reflexivity.
  - rewrite (greatest_unique _ _ _ Hm (proj2 B)) in Em.
    assert (E : succ (v 9) = Some (v 10)) by reflexivity. rewrite Em in E. injection E as ->.
    assert (E : succ (v 10) = Some (v 11)) by reflexivity. rewrite K1 in E. injection E as ->. discriminate K2.
Qed.

(** [{1, 3}] minus 3, in either form, is [{1, 2}]; and removing a Selection made
    with [complement] leaves a malformed tree on which [contains] panics. *)
Theorem C44_minus_refuted :
  (exists s s', run true (P_points [v 1; v 3]) = Ok s /\ sel_minus_in_place true s (pt 3) = Ok s' /\
     sel_contains true s (v 2) = Ok false /\ sel_contains true s' (v 2) = Ok true) /\
  (exists s o s', run true (P_points [v 1; v 3]) = Ok s /\ run true (P_from (pt 3)) = Ok o /\ sel_minus true s o = Ok s' /\
     sel_contains true s' (v 2) = Ok true) /\
  (exists s o s', run false (P_from (cl 0 2)) = Ok s /\
     run false (P_complement (P_intervals [cl (-128) 2; cl 4 127])) = Ok o /\
     (forall z, member false o z <-> z = v 3) /\
     sel_minus false s o = Ok s' /\ sel_contains false s' (v 1) = Panic).
Proof.
  split; [|split].
  - do 2 eexists. split; [reflexivity|]. split; [reflexivity|]. split; reflexivity.
  - do 3 eexists. split; [reflexivity|]. split; [reflexivity|]. split; reflexivity.
  - destruct (C43_set_semantics false (P_complement (P_intervals [cl (-128) 2; cl 4 127]))) as (o & Eo & Mo);
      [repeat constructor|constructor|].
    do 3 eexists. split; [reflexivity|]. split; [exact Eo|]. split; [|injection Eo as <-; split; reflexivity].
    intros z. destruct (Mo z) as (b & Eb & K). unfold member. rewrite Eb.
    assert (Q : means (P_complement (P_intervals [cl (-128) 2; cl 4 127])) z <-> z = v 3).
    { pose proof (int_bounds z). split.
      - intros N. apply int_ext. rewrite v_val by lia.
        assert (~ ival z <= 2) by (intros L; apply N; exists (cl (-128) 2); split; [left; auto|]; apply cl_points; lia).
        assert (~ 4 <= ival z) by (intros L; apply N; exists (cl 4 127); split; [right; left; auto|]; apply cl_points; lia). lia.
      - intros ->. intros (i & [<-|[<-|[]]] & C); discriminate C. }
    rewrite <- Q, <- K. split; congruence.
Qed.
Print Assumptions C44_minus_refuted.

(** ** C45 *)

(** Intersection never adds points and never panics, for all programs. *)
Theorem C45_intersect_sound_partial {T} {O : Ord T} {F : Finite T} dbg (p q : prog T) s o :
  inputs false p -> run dbg p = Ok s -> inputs false q -> run dbg q = Ok o ->
  exists r, sel_intersect dbg s o = Ok r /\ (forall x, member dbg r x -> member dbg s x /\ member dbg o x) /\
    exists b, sel_intersects dbg s o = Ok b.
Proof.
  intros Hp Ep Hq Eq. pose proof (run_wf dbg p s Hp Ep) as W. pose proof (run_wf dbg q o Hq Eq) as W'.
  destruct (tree_intersect_sound dbg s o W W') as (r & E & Wr & D). exists r. split; [exact E|]. split.
  - intros x. rewrite !member_in by auto. apply D.
  - unfold sel_intersects. rewrite E. simpl. eauto.
Qed.
Print Assumptions C45_intersect_sound_partial.

(** It is exact when the first operand is one interval that meets every
    interval of the second. *)
Theorem C45_intersect_single_partial {T} {O : Ord T} {F : Finite T} dbg (p q : prog T) s o i l :
  inputs false p -> run dbg p = Ok s -> inputs false q -> run dbg q = Ok o ->
  sel_intervals_are dbg s [i] -> sel_intervals_are dbg o l ->
  (forall j, In j l -> exists x, ipoints i x /\ ipoints j x) ->
  exists r, sel_intersect dbg s o = Ok r /\ sel_is dbg r (fun x => member dbg s x /\ member dbg o x) /\
    sel_intersects dbg s o = Ok (match l with [] => false | _ => true end).
Proof.
  intros Hp Ep Hq Eq Is Io Meet. pose proof (run_wf dbg p s Hp Ep) as W. pose proof (run_wf dbg q o Hq Eq) as W'.
  apply sel_intervals_pieces in Is, Io; auto.
  destruct (pieces None s) as [|k [|? ?]] eqn:Ek; try discriminate Is. injection Is as ->.
  destruct (tree_intersect_single dbg s o k W W' Ek) as (r & E & Wr & D).
  { apply Forall_forall. intros j Hj. destruct (Meet (nrm j)) as (x & Hx & Hy); [rewrite Io; now apply in_map|].
    apply (proj1 (nrm_points _ _)) in Hx, Hy.
    apply raw_nonempty_covers; [apply raw_intersect_wf|]. exists (At x). now rewrite raw_intersect_covers, !covers_At, Hx, Hy. }
  exists r. split; [exact E|]. split.
  - intros x. exists (den false r (At x)). unfold sel_contains. rewrite tree_contains_den by auto. split; auto.
    now rewrite D, andb_true_iff, !member_in by auto.
  - unfold sel_intersects. rewrite E. simpl. f_equal. destruct l as [|j l].
    + destruct (pieces None o) eqn:Eo; [|discriminate]. apply pieces_nil in Eo; auto. subst o.
      assert (r = []) as ->; [|reflexivity]. apply den_ext; auto using new_wf. intros u. rewrite D. simpl. now rewrite andb_false_r.
    + destruct r as [|t r]; [|reflexivity]. exfalso. destruct (Meet j (or_introl eq_refl)) as (x & Hx & Hy).
      destruct (pieces None o) as [|k' l'] eqn:Eo; [discriminate|]. injection Io as -> _.
      apply (proj1 (nrm_points _ _)) in Hx, Hy. rewrite <- covers_At in Hx, Hy. specialize (D (At x)). simpl in D.
      rewrite (piece_den s k (At x) W), (piece_den o k' (At x) W') in D; auto; [discriminate|rewrite Eo|rewrite Ek]; left; auto.
Qed.
Print Assumptions C45_intersect_single_partial.

Example C45_ex : exists s o, run true (P_from (cl 0 6)) = Ok s /\ run true ex1 = Ok o /\
  sel_intervals_are true s [cl 0 6] /\ sel_intervals_are true o [one 1; one 3; cl 5 9] /\
  (forall j, In j [one 1; one 3; cl 5 9] -> exists x, ipoints (cl 0 6) x /\ ipoints j x).
Proof.
  do 2 eexists. split; [reflexivity|]. split; [reflexivity|].
  split; [drain|]. split; [drain|].
  intros j [<-|[<-|[<-|[]]]]; [exists (v 1)|exists (v 3)|exists (v 5)]; split; reflexivity.
Qed.

(** [{1, 3}] intersected with itself is [{1}]; [intersects] misses a common
    point, and claims one for [{1}] and [{2}]. *)
Theorem C45_intersect_refuted :
  (exists s r, run true (P_points [v 1; v 3]) = Ok s /\ sel_intersect true s s = Ok r /\
     sel_contains true s (v 3) = Ok true /\ sel_contains true r (v 3) = Ok false) /\
  (exists s o, run true (P_points [v 1; v 4]) = Ok s /\ run true (P_points [v 4]) = Ok o /\
     sel_contains true s (v 4) = Ok true /\ sel_contains true o (v 4) = Ok true /\ sel_intersects true s o = Ok false) /\
  (exists s o, run true (P_points [v 1]) = Ok s /\ run true (P_points [v 2]) = Ok o /\
     (forall x, ~ (member true s x /\ member true o x)) /\ sel_intersects true s o = Ok true).
Proof.
  split; [|split].
  - do 2 eexists. split; [reflexivity|]. split; [reflexivity|]. split; reflexivity.
  - do 2 eexists. split; [reflexivity|]. split; [reflexivity|]. split; [reflexivity|]. split; reflexivity.
  - destruct (C43_set_semantics true (P_points [v 1]) I I) as (s & Es & Ms).
    destruct (C43_set_semantics true (P_points [v 2]) I I) as (o & Eo & Mo).
    exists s, o. split; auto. split; auto. split.
    + intros x [H1 H2]. destruct (Ms x) as (b & Eb & K), (Mo x) as (b' & Eb' & K'). unfold member in *.
      rewrite Eb in H1. rewrite Eb' in H2. injection H1 as ->. injection H2 as ->.
      destruct (proj1 K eq_refl) as [<-|[]], (proj1 K' eq_refl) as [E|[]]. discriminate E.
    + injection Es as <-. injection Eo as <-. reflexivity.
Qed.
Print Assumptions C45_intersect_refuted.

(** ** C46 *)

(** Right when both ends of the interval are in the Selection or next to one of
    its values. *)
Theorem C46_intersect_in_place_partial {T} {O : Ord T} {F : Finite T} dbg (p : prog T) s i :
  inputs true p -> unions_only p -> run dbg p = Ok s -> reach true i ->
  (forall m, least (ipoints i) m -> member dbg s m \/ exists x, pred m = Some x /\ member dbg s x) ->
  (forall m, greatest (ipoints i) m -> member dbg s m \/ exists x, succ m = Some x /\ member dbg s x) ->
  exists s', sel_intersect_in_place dbg s i = Ok s' /\ sel_is dbg s' (fun x => member dbg s x /\ ipoints i x).
Proof.
  intros H U E R HL HU. destruct (run_open dbg p s H U E) as [W Op].
  destruct (sel_isect_inside dbg s i W Op (reach_solid i R)) as (s' & E' & W' & D).
  - intros m Hm. destruct (HL m Hm) as [K|(x & K & K')]; [left|right; exists x; split; auto]; now apply (member_in dbg).
  - intros m Hm. destruct (HU m Hm) as [K|(x & K & K')]; [left|right; exists x; split; auto]; now apply (member_in dbg).
  - exists s'. split; auto. intros x. exists (den false s' (At x)). unfold sel_contains. rewrite tree_contains_den by auto. split; auto.
    rewrite member_in by auto. apply D.
Qed.
Print Assumptions C46_intersect_in_place_partial.

Example C46_ex : exists s s', run true ex1 = Ok s /\ reach true (cl 3 6) /\ member true s (v 3) /\ member true s (v 6) /\
  sel_intersect_in_place true s (cl 3 6) = Ok s' /\ sel_contains true s' (v 1) = Ok false /\ sel_contains true s' (v 3) = Ok true.
Proof.
  do 2 eexists. split; [reflexivity|]. split; [constructor|]. repeat split; reflexivity.
Qed.

(** Otherwise: [{0, 5}] with [[2, 3]] panics, in either build; [[1, 2]] with
    [[0, 5]] gives a malformed tree on which [contains] panics. *)
Theorem C46_intersect_in_place_refuted (dbg : bool) :
  (exists s, run dbg (P_points [v 0; v 5]) = Ok s /\ sel_intersect_in_place dbg s (cl 2 3) = Panic) /\
  (exists s s', run dbg (P_from (cl 1 2)) = Ok s /\ sel_intersect_in_place dbg s (cl 0 5) = Ok s' /\
     exists x, sel_contains true s' x = Panic) .
Proof.
  split.
  - eexists. destruct dbg; (split; [reflexivity|reflexivity]).
  - do 2 eexists. destruct dbg; (split; [reflexivity|]; split; [reflexivity|]; exists (v 1); reflexivity).
Qed.
Print Assumptions C46_intersect_in_place_refuted.

(** ** C47, C48 *)
Theorem C47_equal_same_points_partial {T} {O : Ord T} {F : Finite T} dbg (s s' : Selection T) :
  tree_eqb s s' = true -> forall x, sel_contains dbg s x = sel_contains dbg s' x.
Proof. intros H. apply tree_eqb_eq in H. now subst. Qed.
Print Assumptions C47_equal_same_points_partial.
(** {1 .. 3} built in two ways. *)
Example C47_ex : exists s s', run true (P_points [v 3; v 1; v 2]) = Ok s /\ run true (P_intervals [cl 1 2; cl 2 3]) = Ok s' /\ tree_eqb s s' = true /\
  sel_contains true s (v 3) = Ok true /\ sel_contains true s' (v 4) = Ok false.
Proof. eexists _, _. split; [reflexivity|]. split; [reflexivity|]. repeat split. Qed.

(** The complement of [[-128, 2]] and [[3, 127]] contain the same values but are
    unequal. *)
Theorem C47_equality_refuted :
  exists s s' : Selection i8, run true (P_complement (P_from (cl (-128) 2))) = Ok s /\ run true (P_from (cl 3 127)) = Ok s' /\
    (forall x, member true s x <-> member true s' x) /\ tree_eqb s s' = false.
Proof.
  destruct (C43_set_semantics true (P_complement (P_from (cl (-128) 2)))) as (s & Es & Ms); [constructor|constructor|].
  destruct (C43_set_semantics true (P_from (cl 3 127))) as (s' & Es' & Ms'); [constructor|constructor|].
  exists s, s'. split; auto. split; auto. split.
  - intros x. destruct (Ms x) as (b & Eb & K), (Ms' x) as (b' & Eb' & K'). unfold member. rewrite Eb, Eb'.
    assert (Q : means (P_complement (P_from (cl (-128) 2))) x <-> means (P_from (cl 3 127)) x).
    { simpl. rewrite !cl_points by lia. pose proof (int_bounds x). lia. }
    rewrite <- K in Q. rewrite <- K' in Q. destruct b, b'; intuition congruence.
  - injection Es as <-. injection Es' as <-. reflexivity.
Qed.
Print Assumptions C47_equality_refuted.

Theorem C48_canonical {T} {O : Ord T} {F : Finite T} dbg (p q : prog T) s s' :
  inputs true p -> unions_only p -> run dbg p = Ok s ->
  inputs true q -> unions_only q -> run dbg q = Ok s' ->
  (tree_eqb s s' = true <-> forall x, sel_contains dbg s x = sel_contains dbg s' x) /\
  (tree_eqb s s' = true <-> forall x, means p x <-> means q x).
Proof.
  intros Hp Up Ep Hq Uq Eq. destruct (run_open dbg p s Hp Up Ep) as [W Op], (run_open dbg q s' Hq Uq Eq) as [W' Op'].
  assert (A : tree_eqb s s' = true <-> forall x, den false s (At x) = den false s' (At x)).
  { rewrite tree_eqb_eq. split; [now intros ->|]. now apply open_canonical. }
  split; rewrite A.
  - unfold sel_contains. split; intros H x; specialize (H x); rewrite !tree_contains_den in * by auto; congruence.
  - destruct (run_ok dbg p (inputs_weak p Hp)) as (k & Ek & _ & Mp & _). rewrite Ep in Ek. injection Ek as <-.
    destruct (run_ok dbg q (inputs_weak q Hq)) as (k & Ek & _ & Mq & _). rewrite Eq in Ek. injection Ek as <-.
    specialize (Mp (unions_boolean p Up)). specialize (Mq (unions_boolean q Uq)).
    split; intros H x; specialize (H x).
    + rewrite <- Mp, <- Mq, H. reflexivity.
    + rewrite <- Mp, <- Mq in H. destruct (den false s (At x)), (den false s' (At x)); intuition congruence.
Qed.
Print Assumptions C48_canonical.

(** In particular the order of insertion and duplicates do not matter. *)
Corollary C48_order {T} {O : Ord T} {F : Finite T} dbg (l l' : list (Interval T)) s s' :
  Forall (reach true) l -> (forall i, In i l <-> In i l') ->
  sel_from_intervals dbg l = Ok s -> sel_from_intervals dbg l' = Ok s' -> tree_eqb s s' = true.
Proof.
  intros H P E E'. apply (C48_canonical dbg (P_intervals l) (P_intervals l') s s'); simpl; auto.
  - apply Forall_forall. intros i Hl. apply P in Hl. rewrite Forall_forall in H. auto.
  - intros x. unfold some_icontains. split; intros (i & A & B); exists i; (split; [now apply P|auto]).
Qed.
Print Assumptions C48_order.

Example C48_ex : inputs true ex1 /\ unions_only ex1 /\
  (exists s, run true ex1 = Ok s /\ run true (P_extend (P_from (cl 5 9)) [pt 3; pt 1; cl 6 8]) = Ok s) /\
  Forall (reach true) [cl 5 9; pt 3].
Proof.
  split; [apply ex1_inputs|]. split; [simpl; tauto|]. split; [eexists; split; reflexivity|]. repeat constructor.
Qed.

(** ** C49 *)
Theorem C49_iteration_partial {T} {O : Ord T} {F : Finite T} dbg (p : prog T) s :
  inputs true p -> shallow p -> run dbg p = Ok s ->
  exists l, lists l (member dbg s) /\ drains (sel_next dbg) (sel_iter s) l /\
    forall n, runs (sel_next dbg) (sel_next_back dbg) (sel_iter s) (repeat Front n) (deque_run l (repeat Front n)).
Proof.
  intros H S E. destruct (run_gapless dbg p s H S E) as [W G].
  destruct (sel_iter_front dbg s W G) as (l & L & D & R). exists l. split; [|auto].
  destruct L as [L1 L2]. split; auto. intros x. rewrite member_in by auto. apply L2.
Qed.
Print Assumptions C49_iteration_partial.

Example C49_ex : inputs true (P_minus_in_place (P_union ex1 ex2) (cl (-128) 2)) /\ shallow (P_minus_in_place (P_union ex1 ex2) (cl (-128) 2)) /\
  exists s, run true ex1 = Ok s /\ drains (sel_next true) (sel_iter s) [v 1; v 3; v 5; v 6; v 7; v 8; v 9].
Proof.
  split; [split; [split; [apply ex1_inputs|apply ex2_inputs]|constructor]|]. split; [simpl; tauto|].
  eexists. split; [reflexivity|]. drain.
Qed.

(** The empty intersection of [{1}] and [{2}], computed by [intersect] or by De
    Morgan, and the Selection of the empty interval (3,4) yield values they do
    not contain. *)
Theorem C49_iteration_refuted :
  (exists s, run true (P_intersect (P_points [v 1]) (P_points [v 2])) = Ok s /\
     sel_contains true s (v 2) = Ok false /\ drains (sel_next true) (sel_iter s) [v 2]) /\
  (exists s, run true (P_complement (P_union (P_complement (P_points [v 1])) (P_complement (P_points [v 2])))) = Ok s /\
     sel_contains true s (v 2) = Ok false /\ drains (sel_next true) (sel_iter s) [v 2]) /\
  (exists s, run true (P_from (interval_open (v 3) (v 4))) = Ok s /\
     sel_contains true s (v 4) = Ok false /\ drains (sel_next true) (sel_iter s) [v 4]).
Proof.
  split; [|split]; (eexists; split; [reflexivity|]; split; [reflexivity|]; drain).
Qed.
Print Assumptions C49_iteration_refuted.

(** ** C50 *)
Lemma sorted_apart {T} {O : Ord T} {F : Finite T} dbg (s : Selection T) k : wf s -> open_cov (den false s) ->
  incl k (pieces None s) -> StronglySorted separated k -> StronglySorted (apart (member dbg s)) (map nrm k).
Proof.
  intros W Op I SK. induction SK as [|r k SK IH Fk]; simpl; constructor.
  - apply IH. intros y Hy. apply I. right. auto.
  - apply Forall_map. rewrite Forall_forall in Fk |- *. intros r' Hr'.
    destruct (open_apart s r r' W Op) as (x & N & A & B); auto; [apply I; left; auto|apply I; right; auto|].
    exists x. split; auto. now rewrite member_in.
Qed.
Theorem C50_interval_runs_partial {T} {O : Ord T} {F : Finite T} dbg (p : prog T) s :
  inputs true p -> unions_only p -> run dbg p = Ok s ->
  exists l, sel_intervals_are dbg s l /\ Forall closed_form l /\
    (forall x, some_icontains l x <-> member dbg s x) /\
    StronglySorted (apart (member dbg s)) l.
Proof.
  intros H U E. destruct (run_open dbg p s H U E) as [W Op]. pose proof (open_gapless _ Op) as G.
  exists (map nrm (pieces None s)). split; [now apply interval_iter_drains|]. split; [|split].
  - apply Forall_map, Forall_forall. intros r Hr. pose proof (piece_solid s r W G Hr) as Sr.
    destruct (solid_cases _ Sr) as [K|(l & u & L & U' & Hlu)]; [|exists l, u; auto].
    exfalso. destruct (piece_point s r W G Hr) as (x & Hx). rewrite nrm_raw in K. rewrite <- normalized_contains, K in Hx. discriminate.
  - intros x. rewrite member_in by auto. unfold some_icontains. split.
    + intros (i & K & Hx). apply in_map_iff in K as (r & <- & Hr). apply (proj1 (nrm_points r x)) in Hx.
      apply (piece_den s r); auto. now rewrite covers_At.
    + intros Hx. destruct (den_piece s _ W Hx) as (r & Hr & Hc). rewrite covers_At in Hc. exists (nrm r). split; [now apply in_map|].
      now apply nrm_points.
  - apply sorted_apart; auto using incl_refl, pieces_sorted.
Qed.
Print Assumptions C50_interval_runs_partial.

(** So a single interval comes back, though perhaps in another stored form. *)
Theorem C50_single_partial {T} {O : Ord T} {F : Finite T} dbg (i : Interval T) : reach true i ->
  ((forall x, interval_contains i x = false) /\ sel_intervals_are dbg (sel_from i) []) \/
  exists j, sel_intervals_are dbg (sel_from i) [j] /\ forall x, interval_contains j x = interval_contains i x.
Proof.
  intros R. destruct (C50_interval_runs_partial dbg (P_from i) (sel_from i) R I eq_refl) as (l & Hl & Cl & U & S).
  assert (M : forall x, member dbg (sel_from i) x <-> ipoints i x).
  { intros x. destruct (run_ok dbg (P_from i) (reach_weak i R)) as (s & [= <-] & W & M & _).
    rewrite member_in by auto. apply (M I). }
  destruct l as [|j [|k l]].
  - left. split; auto. intros x. apply not_true_iff_false. intros H. apply M, U in H as (j & [] & _).
  - right. exists j. split; auto. intros x. apply eq_true_iff_eq. change (ipoints j x <-> ipoints i x). rewrite <- M, <- U.
    unfold some_icontains. split; [intros H; exists j; split; [left|]; auto|intros (j' & [<-|[]] & H); auto].
  - exfalso. inversion S as [|? ? _ Fj]; subst. inversion Fj as [|? ? (x & Nx & Bj & Bk) _]; subst.
    inversion Cl as [|? ? (a & a' & La & L1 & L2) Ck]; subst. inversion Ck as [|? ? (b & b' & Lb & L3 & L4) _]; subst.
    assert (Pa : ipoints j a) by (apply (bounded_contains (interval_raw j) a a'); auto; split; [order|auto]).
    assert (Pb : ipoints k b) by (apply (bounded_contains (interval_raw k) b b'); auto; split; [order|auto]).
    apply Nx, M. assert (Qa : ipoints i a) by (apply M, U; exists j; split; [left|]; auto).
    assert (Qb : ipoints i b) by (apply M, U; exists k; split; [right; left|]; auto).
    apply Bj in Pa. apply Bk in Pb. clear - Qa Qb Pa Pb.
    unfold ipoints, interval_contains in *. rewrite <- covers_At in *. apply (covers_convex _ (At a) (At x) (At b)); auto; po.
Qed.
Print Assumptions C50_single_partial.

Example C50_ex : exists s, run true ex1 = Ok s /\ sel_intervals_are true s [one 1; one 3; cl 5 9] /\ reach true (cl 5 9).
Proof. eexists. split; [reflexivity|]. split; [drain|constructor]. Qed.

(** The Selection of the empty interval (3,4), and an empty De Morgan
    intersection, yield an interval without points; and the interval yielded for
    a Selection of one point is unequal to that point. *)
Theorem C50_interval_runs_refuted :
  (exists s j, run true (P_from (interval_open (v 3) (v 4))) = Ok s /\ sel_intervals_are true s [j] /\ forall x, interval_contains j x = false) /\
  (exists s j, run true (P_complement (P_union (P_complement (P_points [v 1])) (P_complement (P_points [v 2])))) = Ok s /\
     sel_intervals_are true s [j] /\ forall x, interval_contains j x = false) /\
  (exists s, run true (P_from (pt 1)) = Ok s /\ sel_intervals_are true s [one 1] /\ one 1 <> pt 1).
Proof.
  assert (A : forall a b x, b < a -> -128 <= a <= 127 -> -128 <= b <= 127 -> interval_contains (mkInterval (Closed (v a) (v b))) x = false).
  { intros a b x L Ra Rb. apply not_true_iff_false. unfold interval_contains. simpl interval_raw. rewrite raw_contains_points. cbn [points].
    rewrite !int_le_val, !v_val by lia. lia. }
  split; [|split].
  - eexists. exists (mkInterval (Closed (v 4) (v 3))). split; [reflexivity|]. split; [drain|]. intros x. apply A; lia.
  - eexists. exists (mkInterval (Closed (v 2) (v 1))). split; [reflexivity|]. split; [drain|]. intros x. apply A; lia.
  - eexists. split; [reflexivity|]. split; [drain|discriminate].
Qed.
Print Assumptions C50_interval_runs_refuted.

(** ** C51 *)
Lemma no_lone_holeless {T} {O : Ord T} {F : Finite T} dbg (p : prog T) s :
  inputs true p -> unions_only p -> run dbg p = Ok s -> (forall x, ~ lone_gap (member dbg s) x) -> holeless s.
Proof.
  intros H U E N. destruct (run_open dbg p s H U E) as [W Op]. apply Forall_forall. intros t Ht.
  destruct t as [b|[x|x|]|b]; try reflexivity. exfalso. apply (N x). apply lone_member; auto. apply hole_open; auto. now apply hole_tine.
Qed.

(** From the back alone: right when no two intervals are separated by a single
    missing value. *)
Theorem C51_reverse_partial {T} {O : Ord T} {F : Finite T} dbg (p : prog T) s :
  inputs true p -> unions_only p -> run dbg p = Ok s -> (forall x, ~ lone_gap (member dbg s) x) ->
  exists l, lists l (member dbg s) /\ drains (sel_next_back dbg) (sel_iter s) (rev l).
Proof.
  intros H U E N. destruct (run_open dbg p s H U E) as [W Op]. pose proof (no_lone_holeless dbg p s H U E N) as Hl.
  destruct (sel_iter_back dbg s W (open_gapless _ Op) Hl) as (l & L & D). exists l. split; auto.
  destruct L as [L1 L2]. split; auto. intros x. rewrite member_in by auto. apply L2.
Qed.
Print Assumptions C51_reverse_partial.

(** Every schedule is right on a single interval. *)
Theorem C51_single_partial {T} {O : Ord T} {F : Finite T} dbg (i : Interval T) : reach true i ->
  exists l, lists l (ipoints i) /\
    forall sched, runs (sel_next dbg) (sel_next_back dbg) (sel_iter (sel_from i)) sched (deque_run l sched).
Proof.
  intros R. destruct (run_open dbg (P_from i) (sel_from i) R I eq_refl) as [W Op].
  assert (M : forall x, inS (sel_from i) x <-> ipoints i x).
  { intros x. destruct (run_ok dbg (P_from i) (reach_weak i R)) as (s & [= <-] & _ & M & _). apply (M I). }
  assert (Hl : holeless (sel_from i)).
  { apply (no_lone_holeless dbg (P_from i)); auto; [exact I|].
    intros x (N & (y & Ey & Hy) & (z & Ez & Hz)). apply N. rewrite member_in, M in * by auto.
    unfold ipoints, interval_contains in *. rewrite <- covers_At in *.
    apply pred_some in Ey as [Ly _]. apply succ_some in Ez as [Lz _].
    apply (covers_convex _ (At y) (At x) (At z)); auto; po. }
  assert (K : sel_from i = [] \/ exists r, pieces None (sel_from i) = [r]).
  { destruct (C50_single_partial dbg i R) as [[_ J]|(j & J & _)]; apply sel_intervals_pieces in J; auto.
    - left. apply pieces_nil; auto. now destruct (pieces None (sel_from i)).
    - right. destruct (pieces None (sel_from i)) as [|r [|? ?]]; try discriminate. eauto. }
  destruct K as [K|(r & K)].
  - exists []. split.
    + split; [constructor|]. intros x. rewrite <- M, K. split; [intros []|discriminate].
    + rewrite K. intros sched. clear. 
      assert (Q : forall it, si_intervals it = tree_interval_iter [] -> si_current it = interval_empty ->
        @runs _ T (sel_next dbg) (sel_next_back dbg) it sched (deque_run [] sched)).
      { intros it E1 E2. destruct it as [a b]. simpl in E1, E2. subst. induction sched as [|[|] sched IH]; [constructor| |];
        (econstructor; [reflexivity|exact IH]). }
      now apply Q.
  - destruct (sel_iter_single dbg _ r W (open_gapless _ Op) Hl K) as (l & [L1 L2] & Q). exists l. split; auto.
    split; auto. intros x. rewrite <- M. apply L2.
Qed.
Print Assumptions C51_single_partial.

Example C51_ex : exists s, run true (P_points [v 1; v 4]) = Ok s /\ drains (sel_next_back true) (sel_iter s) [v 4; v 1] /\
  (forall x, ~ lone_gap (member true s) x) /\ reach true (cl 5 9).
Proof.
  destruct (C43_set_semantics true (P_points [v 1; v 4]) I I) as (s & E & M). exists s. split; auto.
  split; [injection E as <-; drain|]. split; [|constructor].
  intros x (N & (y & Ey & Hy) & (z & Ez & Hz)).
  assert (Q : forall x, member true s x <-> x = v 1 \/ x = v 4).
  { intros w. destruct (M w) as (b & Eb & K). unfold member. rewrite Eb. simpl in K.
    split; [intros [= ->]; destruct (proj1 K eq_refl) as [|[|[]]]; auto|]. intros L. f_equal. apply K. intuition. }
  apply Q in Hy, Hz. apply pred_some in Ey as [E1 E2]. apply succ_some in Ez as [E3 E4].
  specialize (E2 (v 2)). specialize (E4 (v 3)). rewrite !int_lt_val, !int_le_val in *.
  destruct Hy as [->| ->], Hz as [->| ->]; rewrite !v_val in * by lia; lia.
Qed.

(** [{1, 3}] from the back: 3 and then a panic in a debug build, 3 and then
    nothing in a release build; [{1, 3, 5}] loses 3 in a release build.  Taking
    from both ends of [{1, 2, 5, 6}] yields 2 before 6. *)
Theorem C51_reverse_refuted :
  (exists s it, run true (P_points [v 1; v 3]) = Ok s /\ sel_next_back true (sel_iter s) = Ok (Some (v 3), it) /\ sel_next_back true it = Panic) /\
  (exists s, run false (P_points [v 1; v 3]) = Ok s /\ drains (sel_next_back false) (sel_iter s) [v 3]) /\
  (exists s, run false (P_points [v 1; v 3; v 5]) = Ok s /\ drains (sel_next_back false) (sel_iter s) [v 5; v 1]) /\
  (exists s, run false (P_points [v 1; v 2; v 5; v 6]) = Ok s /\
     exists it it', sel_next false (sel_iter s) = Ok (Some (v 1), it) /\ sel_next_back false it = Ok (Some (v 2), it')).
Proof.
  split; [|split; [|split]].
  - do 2 eexists. split; [reflexivity|]. split; reflexivity.
  - eexists. split; [reflexivity|drain].
  - eexists. split; [reflexivity|drain].
  - eexists. split; [reflexivity|]. do 2 eexists. split; reflexivity.
Qed.
Print Assumptions C51_reverse_refuted.

(** ** C52 *)
Theorem C52_bounds_partial {T} {O : Ord T} {F : Finite T} dbg (p : prog T) s :
  inputs true p -> shallow p -> run dbg p = Ok s ->
  (exists o, sel_lower_bound dbg s = Ok o /\
     ((exists m, o = Some (Include m) /\ least (member dbg s) m) \/ (o = None /\ forall x, ~ member dbg s x))) /\
  (exists o, sel_upper_bound dbg s = Ok o /\
     ((exists m, o = Some (Include m) /\ greatest (member dbg s) m) \/ (o = None /\ forall x, ~ member dbg s x))).
Proof.
  intros H S E. destruct (run_gapless dbg p s H S E) as [W G]. split.
  - destruct (sel_lower_ok dbg s W G) as (o & Eo & K). exists o. split; auto.
    destruct o as [[m|m|]|]; try contradiction; [left; exists m; split; auto; now apply least_member|].
    right. split; auto. intros x. rewrite member_in by auto. apply K.
  - destruct (sel_upper_ok dbg s W G) as (o & Eo & K). exists o. split; auto.
    destruct o as [[m|m|]|]; try contradiction; [left; exists m; split; auto; now apply greatest_member|].
    right. split; auto. intros x. rewrite member_in by auto. apply K.
Qed.
Print Assumptions C52_bounds_partial.

Example C52_ex : exists s, run true (P_minus_in_place ex1 (cl 7 20)) = Ok s /\ inputs true (P_minus_in_place ex1 (cl 7 20)) /\
  shallow (P_minus_in_place ex1 (cl 7 20)) /\ sel_lower_bound true s = Ok (Some (Include (v 1))) /\ sel_upper_bound true s = Ok (Some (Include (v 6))).
Proof.
  eexists. split; [reflexivity|]. split; [split; [apply ex1_inputs|constructor]|]. split; [simpl; tauto|]. split; reflexivity.
Qed.

Lemma vac_empty dbg s x : run dbg (P_from (interval_open (v 3) (v 4))) = Ok s -> ~ member dbg s x.
Proof.
  intros E M. destruct (C43_set_semantics dbg (P_from (interval_open (v 3) (v 4)))) as (s' & E' & K); [constructor; discriminate|exact I|].
  rewrite E in E'. injection E' as <-. destruct (K x) as (b & Eb & Kb). unfold member in M. rewrite Eb in M. injection M as ->.
  pose proof (proj1 Kb eq_refl) as H. apply (C20_constructors_exact x) in H. rewrite !int_lt_val, (v_val 3), (v_val 4) in H by lia. lia.
Qed.

(** The Selection of the empty interval (3,4) claims the least value 4. *)
Theorem C52_bounds_refuted :
  exists s, run true (P_from (interval_open (v 3) (v 4))) = Ok s /\ (forall x, ~ member true s x) /\
    sel_lower_bound true s = Ok (Some (Include (v 4))) /\ sel_upper_bound true s = Ok (Some (Include (v 3))).
Proof.
  eexists. split; [reflexivity|]. split; [|split; reflexivity]. intros x. now apply vac_empty.
Qed.
Print Assumptions C52_bounds_refuted.

(** ** C53 *)

(** What [infimum] and [supremum] really return on Selections built by unions:
    the neighbour outside the set ([None] when there is none). *)
Theorem C53_extremes_partial {T} {O : Ord T} {F : Finite T} dbg (p : prog T) s :
  inputs true p -> unions_only p -> run dbg p = Ok s ->
  (forall m, least (member dbg s) m -> sel_infimum s = pred m) /\
  (forall m, greatest (member dbg s) m -> sel_supremum s = succ m) /\
  ((forall x, ~ member dbg s x) -> sel_infimum s = None /\ sel_supremum s = None).
Proof.
  intros H U E. destruct (run_open dbg p s H U E) as [W Op]. split; [|split].
  - intros m Hm. apply inf_open; auto. now apply (least_member dbg).
  - intros m Hm. apply sup_open; auto. now apply (greatest_member dbg).
  - intros N. assert (s = []) as ->; [|split; reflexivity]. apply gapless_empty; auto using open_gapless.
    intros x. rewrite <- (member_in dbg) by auto. apply N.
Qed.
Print Assumptions C53_extremes_partial.

Example C53_ex : exists s, run true ex1 = Ok s /\ sel_infimum s = Some (v 0) /\ sel_supremum s = Some (v 10) /\ member true s (v 1).
Proof. eexists. split; [reflexivity|]. repeat split; reflexivity. Qed.

(** So the infimum of [[-2, 4]] is -3, below its least value, and the infimum of
    [[-128, 4]] does not exist. *)
Theorem C53_extremes_refuted :
  (exists s, run true (P_from (cl (-2) 4)) = Ok s /\ least (member true s) (v (-2)) /\
     sel_infimum s = Some (v (-3)) /\ sel_supremum s = Some (v 5)) /\
  (exists s, run true (P_from (cl (-128) 4)) = Ok s /\ least (member true s) (v (-128)) /\ sel_infimum s = None).
Proof.
  assert (A : forall a b, a <= b -> -128 <= a <= 127 -> -128 <= b <= 127 ->
    forall s, run true (P_from (cl a b)) = Ok s -> least (member true s) (v a)).
  { intros a b Hab Ha Hb s E. destruct (C43_set_semantics true (P_from (cl a b))) as (s' & E' & K); [constructor|exact I|].
    rewrite E in E'. injection E' as <-.
    assert (Q : forall x, member true s x <-> a <= ival x <= b).
    { intros x. destruct (K x) as (c & Ec & Kc). unfold member. rewrite Ec, <- (cl_points a b x), <- Kc by auto. split; congruence. }
    split; [apply Q; rewrite v_val; lia|]. intros x Hx. apply Q in Hx. rewrite int_le_val, v_val by auto. lia. }
  split.
  - eexists. split; [reflexivity|]. split; [apply (A (-2) 4); try lia; reflexivity|]. split; reflexivity.
  - eexists. split; [reflexivity|]. split; [apply (A (-128) 4); try lia; reflexivity|]. reflexivity.
Qed.
Print Assumptions C53_extremes_refuted.

(** ** C54 *)
Theorem C54_enclose_partial {T} {O : Ord T} {F : Finite T} dbg (p : prog T) s :
  inputs true p -> shallow p -> run dbg p = Ok s ->
  exists i, sel_enclose dbg s = Ok i /\
    forall x, ipoints i x <-> exists y z, member dbg s y /\ member dbg s z /\ le y x /\ le x z.
Proof.
  intros H S E. destruct (run_gapless dbg p s H S E) as [W G].
  destruct (sel_enclose_ok dbg s W G) as (i & Ei & _ & K). exists i. split; auto. intros x. rewrite K.
  split; intros (y & z & A & B & C); exists y, z; (split; [now apply (member_in dbg)|]); (split; [now apply (member_in dbg)|auto]).
Qed.
Print Assumptions C54_enclose_partial.

Example C54_ex : exists s, run true (P_minus_in_place ex1 (cl 7 20)) = Ok s /\ sel_enclose true s = Ok (cl 1 6).
Proof. eexists. split; reflexivity. Qed.

(** The Selection of the empty intervals (3,4) and (8,9) holds nothing but its
    enclosure holds 5. *)
Theorem C54_enclose_refuted :
  exists s i, run true (P_intervals [interval_open (v 3) (v 4); interval_open (v 8) (v 9)]) = Ok s /\
    (forall x, ~ member true s x) /\ sel_enclose true s = Ok i /\ ipoints i (v 5).
Proof.
  destruct (C43_set_semantics true (P_intervals [interval_open (v 3) (v 4); interval_open (v 8) (v 9)])) as (s & E & K);
    [repeat constructor; discriminate|exact I|].
  exists s. eexists. split; [exact E|]. split.
  - intros x M. destruct (K x) as (b & Eb & Kb). unfold member in M. rewrite Eb in M. injection M as ->.
    destruct (proj1 Kb eq_refl) as (i & [<-|[<-|[]]] & Hx); apply (C20_constructors_exact x) in Hx;
      rewrite !int_lt_val, !v_val in Hx by lia; lia.
  - injection E as <-. split; reflexivity.
Qed.
Print Assumptions C54_enclose_refuted.

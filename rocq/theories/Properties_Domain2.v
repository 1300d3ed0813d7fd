(** * Exact domains of correctness, continued (C76 and up) *)
From Coq Require Import List Bool ZArith Lia Sorted Permutation String.
From Verif Require Import Base OrdFacts Pos PFinite Ints MBound MRaw MNormalize MTine MBTree MTineTree MInterval MSelection MParse
  Spec Spec_Tree Spec_Sel Spec_More Spec_Parse Spec_Domain PRaw PRaw2 PNorm PIter PInterval PBTree PTree PTreeOps PTreeIsect PTree2 PTree3 PTree4 PTree5 PTree6 PTree7
  PSel PSel2 PSel3 PSel4 PSel5 Instances Properties_Raw Properties_Parse Properties_Interval Properties_Tree Properties_Selection Properties_Tree2
  Properties_Selection2 Properties_Selection4 Properties_Both PDomain PDomain2.
Import ListNotations.
Local Open Scope Z_scope.
Local Open Scope list_scope.
Local Arguments cmp : simpl never.

(** ** C76: difference of Selections built by unions *)
Section Minus.
  Context {T : Type} {O : Ord T} {F : Finite T}.

  Lemma beside_outside (i : Interval T) x : just_below i x \/ just_above i x -> ~ ipoints i x.
  Proof.
    intros [(m & [_ M] & E)|(m & [_ M] & E)] X; specialize (M x X); [apply pred_some in E as [E _]|apply succ_some in E as [E _]]; order.
  Qed.

  (** [minus_in_place] removes exactly the interval's values if and only if
      neither neighbour of the interval is a lone gap of the Selection. *)
  Theorem C76_minus_in_place_domain dbg (p : prog T) s i : inputs true p -> unions_only p -> run dbg p = Ok s -> reach true i ->
    ((exists r, sel_minus_in_place dbg s i = Ok r /\ sel_is dbg r (fun x => member dbg s x /\ ~ ipoints i x)) <->
     forall x, just_below i x \/ just_above i x -> ~ lone_gap (member dbg s) x).
  Proof.
    intros H U E R. destruct (C44_minus_in_place_exact_partial dbg p s i H U E R) as (r & Er & Hr). split.
    - intros (r' & E' & Hr') x B L. assert (r' = r) as -> by congruence.
      destruct (Hr x) as (c & Ec & Hc), (Hr' x) as (c' & Ec' & Hc'). assert (c' = c) as -> by congruence.
      destruct L as (N & L). apply N. apply Hc', Hc. right. unfold lone_gap. tauto.
    - intros N. exists r. split; auto. intros x. destruct (Hr x) as (c & Ec & Hc). exists c. split; auto. rewrite Hc.
      split; [|auto]. intros [K|[L B]]; auto. now destruct (N x B).
  Qed.

  (** [minus] of two Selections is right if and only if no value outside both is
      a lone gap of the left one and next to a value of the right one. *)
  Theorem C76_minus_domain dbg (p q : prog T) s o : inputs true p -> unions_only p -> run dbg p = Ok s ->
    inputs true q -> unions_only q -> run dbg q = Ok o ->
    ((exists r, sel_minus dbg s o = Ok r /\ sel_is dbg r (fun x => member dbg s x /\ ~ member dbg o x)) <->
     forall x y, lone_gap (member dbg s) x -> pred x = Some y \/ succ x = Some y -> member dbg o y -> member dbg o x).
  Proof.
    intros Hp Up Ep Hq Uq Eq. destruct (C44_minus_exact_partial dbg p q s o Hp Up Ep Hq Uq Eq) as (r & Er & Hr).
    destruct (run_open dbg q o Hq Uq Eq) as [Wo _].
    assert (Dec : forall x, member dbg o x \/ ~ member dbg o x).
    { intros x. rewrite member_in by auto. unfold inS. destruct (den false o (At x)); [now left|right; discriminate]. }
    split.
    - intros (r' & E' & Hr') x y L N M. assert (r' = r) as -> by congruence. destruct (Dec x) as [D|D]; auto. exfalso.
      destruct (Hr x) as (c & Ec & Hc), (Hr' x) as (c' & Ec' & Hc'). assert (c' = c) as -> by congruence.
      pose proof L as [K _]. apply K. apply Hc', Hc. split; auto. right. eauto.
    - intros N. exists r. split; auto. intros x. destruct (Hr x) as (c & Ec & Hc). exists c. split; auto. rewrite Hc.
      split; [|tauto]. intros [K [M|(L & y & B & My)]]; auto. destruct K. eauto.
  Qed.
End Minus.
Print Assumptions C76_minus_in_place_domain.
Print Assumptions C76_minus_domain.
(** {1,3,6,7} minus 7 is right, minus 3 is not (2 appears). *)
Example C76_ex : let p : prog i8 := P_points [v 1; v 3; v 6; v 7] in inputs true p /\ unions_only p /\
  exists s, run true p = Ok s /\
    (exists r, sel_minus_in_place true s (pt 7) = Ok r /\ sel_contains true r (v 7) = Ok false /\ sel_contains true r (v 6) = Ok true) /\
    (exists r, sel_minus_in_place true s (pt 3) = Ok r /\ sel_contains true r (v 2) = Ok true) /\
    lone_gap (member true s) (v 2) /\ just_below (pt 3 : Interval i8) (v 2).
Proof.
  cbv zeta. split; [exact I|]. split; [exact I|]. eexists. split; [reflexivity|]. split; [eexists; split; [reflexivity|]; split; reflexivity|].
  split; [eexists; split; reflexivity|]. split.
  - split; [discriminate|]. split; eexists; (split; [reflexivity|reflexivity]).
  - exists (v 3). split; [|reflexivity].
    assert (X : least (ipoints (pt 3 : Interval i8)) (v 3) /\ greatest (ipoints (pt 3 : Interval i8)) (v 3)) by (apply bounds_extremes; [reflexivity|reflexivity|discriminate]).
    apply X.
Qed.

(** ** C77: iteration over the intervals of a tree from both ends *)
Theorem C77_both_ends_domain {T} {O : Ord T} dbg (s : TineTree T) l : tree_wf s -> intervals_are dbg s l ->
  ((forall sched, runs (iter_next dbg) (iter_next_back dbg) (tree_interval_iter s) sched (deque_run l sched)) <-> forall x, ~ pinhole l x) /\
  (drains (iter_next_back dbg) (tree_interval_iter s) (rev l) <-> forall x, ~ pinhole l x).
Proof. apply C34_both_ends_iff_partial. Qed.
Print Assumptions C77_both_ends_domain.
Example C77_ex : let s := [TLower (Include 0); TUpper (Exclude 2); TLower (Exclude 3); TUpper Infinite] in
  tree_wf s /\ intervals_are true s [RightOpen 0 2; UpFrom 3] /\ forall x, ~ pinhole [RightOpen 0 2; UpFrom 3] x.
Proof.
  cbv zeta. split; [split; [repeat constructor|reflexivity]|]. split; [drain|].
  intros x (i & j & [<-|[<-|[]]] & [<-|[<-|[]]] & U & L); simpl in *; try discriminate; congruence.
Qed.

(** ** C78: iteration over the values of a Selection from both ends *)
Theorem C78_reverse_domain {T} {O : Ord T} {F : Finite T} dbg (p : prog T) s l :
  inputs true p -> unions_only p -> run dbg p = Ok s -> lists l (member dbg s) ->
  (drains (sel_next_back dbg) (sel_iter s) (rev l) <-> forall x, ~ lone_gap (member dbg s) x) /\
  ((forall sched, runs (sel_next dbg) (sel_next_back dbg) (sel_iter s) sched (deque_run l sched)) <->
   (forall x, ~ lone_gap (member dbg s) x) /\
   ((forall x y z, member dbg s x -> member dbg s z -> lt x y -> lt y z -> member dbg s y) \/
    (forall x y, succ x = Some y -> member dbg s x -> ~ member dbg s y))).
Proof. intros. split; [now apply (C51_reverse_iff_partial dbg p)|now apply (C51_meet_iff_partial dbg p)]. Qed.
Print Assumptions C78_reverse_domain.
Theorem C78_any_schedule {T} {O : Ord T} {F : Finite T} dbg (p : prog T) s sched :
  inputs true p -> unions_only p -> run dbg p = Ok s -> (forall x, ~ lone_gap (member dbg s) x) ->
  exists l out rest, lists l (member dbg s) /\ runs (sel_next dbg) (sel_next_back dbg) (sel_iter s) sched out /\
    Permutation (somes out ++ rest) l /\ (In None out -> rest = []).
Proof. apply C51_any_schedule_partial. Qed.
Print Assumptions C78_any_schedule.
Example C78_ex : let p : prog i8 := P_points [v 1; v 2; v 5; v 6] in inputs true p /\ unions_only p /\
  exists s, run true p = Ok s /\ drains (sel_next_back true) (sel_iter s) [v 6; v 5; v 2; v 1].
Proof. cbv zeta. split; [exact I|]. split; [exact I|]. eexists. split; [reflexivity|]. drain. Qed.

(** ** C79: iteration over the values of any Selection, forwards *)
Theorem C79_iteration_exact {T} {O : Ord T} {F : Finite T} dbg (p : prog T) s li :
  inputs false p -> run dbg p = Ok s -> sel_intervals_are dbg s li ->
  (exists l, drains (sel_next dbg) (sel_iter s) l /\ StronglySorted lt l /\
     forall x, In x l <->
       member dbg s x \/ exists j, In j li /\ (forall y, ~ ipoints j y) /\ interval_lower_bound j = Some (Include x)) /\
  ((exists l, drains (sel_next dbg) (sel_iter s) l /\ lists l (member dbg s)) <-> Forall (fun j => exists y, ipoints j y) li).
Proof. intros H E D. split; [now apply (C49_iteration_all_partial dbg p)|now apply (C49_exact_iff_partial dbg p)]. Qed.
Print Assumptions C79_iteration_exact.
(** {2} with the pointless (5,6): the values yielded are 2 and 6. *)
Example C79_ex : let p : prog i8 := P_intervals [pt 2; interval_open (v 5) (v 6)] in inputs false p /\
  exists s, run true p = Ok s /\ drains (sel_next true) (sel_iter s) [v 2; v 6] /\ sel_contains true s (v 6) = Ok false.
Proof.
  cbv zeta. split; [constructor; [constructor|constructor; [constructor; discriminate|constructor]]|].
  eexists. split; [reflexivity|]. split; [drain|reflexivity].
Qed.

(** ** C80: [is_empty] of any Selection *)
Theorem C80_is_empty_exact {T} {O : Ord T} {F : Finite T} dbg (p : prog T) s :
  inputs false p -> run dbg p = Ok s ->
  (sel_is_empty s = true <-> sel_intervals_are dbg s []) /\
  (sel_is_empty s = true <-> drains (sel_next dbg) (sel_iter s) []) /\
  (sel_is_empty s = true <-> tree_eqb s sel_new = true).
Proof.
  intros H E. pose proof (run_wf dbg p s H E) as W.
  assert (A : sel_is_empty s = true <-> s = []) by (destruct s; simpl; split; congruence).
  pose proof (interval_iter_drains dbg s W) as D. destruct (C49_iteration_all_partial dbg p s _ H E D) as (l & Dl & _ & K).
  assert (P0 : pieces None s = [] -> s = []).
  { intros P0. apply den_ext; auto using new_wf. intros q. now rewrite <- pieces_den, P0 by auto. }
  rewrite A. split; [|split].
  - split; [intros ->; exact D|]. intros D'. apply P0. assert (Q : [] = map nrm (pieces None s)) by exact (drains_det _ _ _ _ D' D).
    now destruct (pieces None s).
  - split.
    + intros ->. destruct l as [|x l]; auto. exfalso. destruct (proj1 (K x) (or_introl eq_refl)) as [M|(j & [] & _)].
      unfold member, sel_contains in M. rewrite tree_contains_den in M by auto. discriminate.
    + intros D'. assert (l = []) by exact (drains_det _ _ _ _ Dl D'). subst l. apply P0.
      destruct (pieces None s) as [|r P] eqn:Ep; auto. exfalso. assert (Hr : In r (pieces None s)) by (rewrite Ep; now left).
      destruct (run_edged dbg p s H E) as [_ Ed]. destruct (piece_kinds s r W Ed Hr) as [(y & Hy)|(y & Hy)]; apply (K y).
      * left. rewrite member_in by auto. apply (piece_den s r); auto. now rewrite covers_At.
      * right. exists (nrm r). split; [now left|]. split.
        -- intros z Hz. apply (proj1 (nrm_points r z)) in Hz. rewrite (pointless_empty r y z Hy) in Hz. discriminate.
        -- destruct (pointless_norm r y Hy) as (a & _ & N). unfold interval_lower_bound. now rewrite nrm_raw, N.
  - split; [intros ->; reflexivity|]. destruct s; [auto|discriminate].
Qed.
Print Assumptions C80_is_empty_exact.
Example C80_ex : inputs false (P_minus_in_place (P_points [v 1; v 3]) (cl 0 4)) /\
  exists s, run true (P_minus_in_place (P_points [v 1; v 3]) (cl 0 4)) = Ok s /\ sel_is_empty s = true.
Proof. split; [split; [exact I|constructor]|]. eexists. split; reflexivity. Qed.

(** ** C81: what [==] compares on intervals *)
Theorem C81_interval_eq_exact {T} {O : Ord T} {F : Finite T} (i j : Interval T) : reach false i -> reach false j ->
  (i = j <-> interval_lower_bound i = interval_lower_bound j /\ interval_upper_bound i = interval_upper_bound j /\
             interval_is_degenerate i = interval_is_degenerate j) /\
  ((exists x, ipoints i x) ->
   (i = j <-> (forall x, ipoints i x <-> ipoints j x) /\ interval_is_degenerate i = interval_is_degenerate j)).
Proof.
  intros Ri Rj. apply reach_tight in Ri, Rj. destruct i as [a], j as [b]. cbn [interval_raw] in *.
  assert (A : mkInterval a = mkInterval b <-> raw_lower_bound a = raw_lower_bound b /\ raw_upper_bound a = raw_upper_bound b /\ interval_is_degenerate (mkInterval a) = interval_is_degenerate (mkInterval b)).
  { split; [intros [= ->]; auto|]. intros (L & U & D). f_equal.
    destruct a, b; simpl in *; try contradiction; try discriminate; congruence. }
  split; [exact A|].
  intros (x & Hx). split; [intros ->; tauto|]. intros (P & D). apply A. unfold ipoints, interval_contains in *. cbn [interval_raw] in *.
  pose proof (proj1 (P x) Hx) as Hx'.
  assert (Q : forall r, tight r -> raw_contains r x = true -> exists l u, raw_lower_bound r = Some (Include l) /\ raw_upper_bound r = Some (Include u) /\ le l u /\
    forall y, raw_contains r y = true <-> le l y /\ le y u).
  { intros r Tr Hr. destruct r as [|z| | | |l u| | | | |]; simpl in Tr; try contradiction; try discriminate.
    - exists z, z. split; [reflexivity|]. split; [reflexivity|]. split; [order|]. intros y. simpl. rewrite eqb_iff. split; [intros ->; split; order|intros [? ?]; order].
    - exists l, u. split; [reflexivity|]. split; [reflexivity|]. rewrite raw_contains_points in Hr. simpl in Hr. split; [order|]. intros y. now rewrite raw_contains_points. }
  destruct (Q a Ri Hx) as (l & u & La & Ua & Le & Pa), (Q b Rj Hx') as (l' & u' & Lb & Ub & Le' & Pb).
  assert (B : forall y, le l y /\ le y u <-> le l' y /\ le y u') by (intros y; rewrite <- Pa, <- Pb; apply P).
  rewrite La, Ua, Lb, Ub.
  assert (E1 : l = l') by (pose proof (proj1 (B l)); pose proof (proj2 (B l')); assert (le l l) by order; assert (le l' l') by order; destruct H; auto; destruct H0; auto; order).
  assert (E2 : u = u') by (pose proof (proj1 (B u)) as H; pose proof (proj2 (B u')) as H0; assert (le u u) by order; assert (le u' u') by order; destruct H; auto; destruct H0; auto; order).
  rewrite E1, E2. auto.
Qed.
Print Assumptions C81_interval_eq_exact.
Example C81_ex : reach false (interval_open (v 3) (v 5)) /\ interval_is_degenerate (interval_open (v 3) (v 5)) = false /\
  interval_lower_bound (interval_open (v 3) (v 5)) = interval_lower_bound (pt 4) /\
  interval_upper_bound (interval_open (v 3) (v 5)) = interval_upper_bound (pt 4) /\ interval_is_degenerate (pt 4 : Interval i8) = true /\
  interval_open (v 3) (v 5) <> pt 4 /\ interval_open (v 2) (v 5) = cl 3 4.
Proof. split; [constructor; discriminate|]. repeat split. discriminate. Qed.

(** ** C82: [intersects] of raw intervals over any order *)
Section RawIntersects.
  Context {T : Type} {O : Ord T}.
  Lemma room_pos (l u : Bound T) : room l u <-> le (lpos l) (upos u).
  Proof. destruct l, u; simpl; split; intros; try exact I; po. Qed.

  (** It goes by the bounds alone: true exactly when each lower bound leaves room
      below each upper bound. *)
  Theorem C82_raw_intersects_exact (i j : RawInterval T) : raw_wf i -> raw_wf j ->
    (raw_intersects i j = true <->
     exists li ui lj uj, raw_lower_bound i = Some li /\ raw_upper_bound i = Some ui /\ raw_lower_bound j = Some lj /\ raw_upper_bound j = Some uj /\
       room li uj /\ room lj ui).
  Proof.
    intros Wi Wj. rewrite meets_covers. split.
    - intros (p & Ci & Cj).
      destruct (raw_bounds_cases i) as [(-> & _)|(li & ui & Li & Ui)]; [destruct p; discriminate|].
      destruct (raw_bounds_cases j) as [(-> & _)|(lj & uj & Lj & Uj)]; [destruct p; discriminate|].
      exists li, ui, lj, uj. do 4 (split; [assumption|]).
      apply (covers_bounds i p li ui) in Ci; auto. apply (covers_bounds j p lj uj) in Cj; auto. rewrite !room_pos.
      destruct Ci, Cj. split; po.
    - intros (li & ui & lj & uj & Li & Ui & Lj & Uj & R1 & R2). rewrite room_pos in R1, R2.
      pose proof (raw_wf_pos i li ui Wi Li Ui) as Pi. pose proof (raw_wf_pos j lj uj Wj Lj Uj) as Pj.
      setoid_rewrite (covers_bounds i _ li ui Li Ui). setoid_rewrite (covers_bounds j _ lj uj Lj Uj).
      assert (C : le (lpos li) (lpos lj) \/ le (lpos lj) (lpos li)).
      { destruct (leb (lpos li) (lpos lj)) eqn:C; [left; now apply leb_iff|right]. apply not_true_iff_false in C. rewrite leb_iff in C. po. }
      destruct C; [exists (lpos lj)|exists (lpos li)]; repeat split; po.
  Qed.
End RawIntersects.
Print Assumptions C82_raw_intersects_exact.
Example C82_ex : raw_wf (Open 0 2) /\ raw_wf (RightOpen 2 4) /\ raw_intersects (Open 0 2) (RightOpen 2 4) = false /\
  raw_intersects (Open 0 2) (Open 1 3) = true /\ room (Exclude 1) (Exclude 2) /\ ~ room (Include 2) (Exclude 2).
Proof. repeat split. intros K. vm_compute in K. discriminate. Qed.

(** ** C83: conversion of std ranges *)
Theorem C83_ranges_exact {T} {O : Ord T} {F : Finite T} (r : StdRange T) (x : T) :
  interval_contains (interval_from_range r) x = true <-> in_range r x \/ r = SRange x x.
Proof.
  assert (D : (exists a, r = SRange a a) \/ forall a, r <> SRange a a).
  { destruct r as [a b| | | |]; try (right; discriminate). destruct (cmp a b) eqn:E; [left; exists a; f_equal; order|right|right]; intros c [= -> ->]; order. }
  destruct D as [(a & ->)|N].
  - unfold interval_contains. cbn [interval_from_range interval_raw]. rewrite normalized_contains. unfold raw_right_open. rewrite cmp_refl. simpl.
    rewrite eqb_iff. split; [intros ->; auto|intros [[? ?]|[= ->]]; order].
  - rewrite C25_ranges_exact_partial by auto. split; auto. intros [K| ->]; auto. now destruct (N x).
Qed.
Print Assumptions C83_ranges_exact.
Example C83_ex : interval_contains (interval_from_range (SRange (v 2) (v 2))) (v 2) = true /\
  interval_contains (interval_from_range (SRange (v 2) (v 5))) (v 4) = true /\ interval_contains (interval_from_range (SRange (v 2) (v 5))) (v 5) = false.
Proof. repeat split. Qed.

(** ** C84: size *)
Theorem C84_size_domain {lo hi} {I : IntType lo hi} (dbg : bool) (i : Interval (int lo hi)) (l : list (int lo hi)) :
  lo <= 0 -> reach true i -> lists l (ipoints i) -> l <> [] ->
  ((exists d, interval_size (int_sub dbg) i = Ok (Some d) /\ ival d = Z.of_nat (List.length l) - 1) <-> Z.of_nat (List.length l) - 1 <= hi).
Proof.
  intros Z0 R L N. assert (S := reach_solid _ R).
  destruct (solid_cases _ S) as [E|(a & b & La & Ub & Hab)].
  { destruct l as [|x l]; [now destruct N|]. destruct L as [_ L]. specialize (proj1 (L x) (or_introl eq_refl)). unfold ipoints, interval_contains. now rewrite E. }
  destruct (bounds_extremes i a b La Ub Hab) as [Lm Gn].
  destruct (C24_size_partial dbg i a b l) as (H1 & H2 & H3); auto.
  rewrite H1. replace (ival b - ival a + 1 - 1) with (ival b - ival a) by lia.
  rewrite int_le_val in Hab. pose proof (int_bounds a). pose proof (int_bounds b). split.
  - intros (d & _ & Ed). rewrite <- Ed. apply int_bounds.
  - intros B. apply H2. lia.
Qed.
Print Assumptions C84_size_domain.
(** Seven values have size 6; the 201 values of [-100,100] are out of domain. *)
Example C84_ex : reach true (cl 3 9 : Interval i8) /\ interval_size (int_sub true) (cl 3 9) = Ok (Some (v 6)) /\
  interval_size (int_sub true) (cl (-100) 100) = Panic /\ ~ 201 - 1 <= 127.
Proof. split; [constructor|]. split; [reflexivity|]. split; [reflexivity|lia]. Qed.

(** ** C85: infimum, supremum and closure of a Selection built by unions *)
Theorem C85_outer_exact {T} {O : Ord T} {F : Finite T} dbg (p : prog T) s :
  inputs true p -> unions_only p -> run dbg p = Ok s ->
  ((forall x, ~ member dbg s x) -> sel_infimum s = None /\ sel_supremum s = None /\ exists i, sel_closure dbg s = Ok i /\ forall x, ~ ipoints i x) /\
  (forall m n, least (member dbg s) m -> greatest (member dbg s) n ->
     sel_infimum s = pred m /\ sel_supremum s = succ n /\
     exists i, sel_closure dbg s = Ok i /\ forall x, ipoints i x <-> (le m x \/ pred m = Some x) /\ (le x n \/ succ n = Some x)).
Proof.
  intros H U E. destruct (C53_extremes_partial dbg p s H U E) as (A & B & C). destruct (C55_closure_partial dbg p s H U E) as (i & Ei & C0 & C1).
  split.
  - intros N. destruct (C N). split; auto. split; auto. exists i. auto.
  - intros m n Hm Hn. split; auto. split; auto. exists i. split; auto.
Qed.
Print Assumptions C85_outer_exact.
Example C85_ex : let p : prog i8 := P_points [v 2; v 4] in inputs true p /\ unions_only p /\
  exists s, run true p = Ok s /\ sel_infimum s = Some (v 1) /\ sel_supremum s = Some (v 5) /\ sel_closure true s = Ok (cl 1 5).
Proof. cbv zeta. split; [exact I|]. split; [exact I|]. eexists. split; [reflexivity|]. repeat split. Qed.

(** ** C86: the exact language of the parser *)
Local Open Scope string_scope.
Theorem C86_language {T E} {O : Ord T} (parse : string -> result T E) (s : string) (i : RawInterval T) :
  parse_raw parse s = Ok (Good i) <->
  (exists junk, s = "Ø" ++ junk /\ i = Empty) \/
  (forall junk, s <> "Ø" ++ junk) /\
   ((exists p, parse s = Good p /\ i = Point p) \/
    (forall p, parse s <> Good p) /\
    exists x y lb ub, s = x ++ "," ++ y /\ (forall a b, x <> a ++ "," ++ b) /\
      lax_lower parse x lb /\ lax_upper parse y ub /\ i = raw_new lb ub).
Proof. apply C13_language_partial. Qed.
Print Assumptions C86_language.
Example C86_ex : parse_raw (T := i8) parse_int "(3,7]" = Ok (Good (LeftOpen (v 3) (v 7))) /\
  parse_raw (T := i8) parse_int "Ø and more" = Ok (Good Empty) /\ parse_raw (T := i8) parse_int "12" = Ok (Good (Point (v 12))).
Proof. repeat split; reflexivity. Qed.

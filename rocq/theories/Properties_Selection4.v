(** * What holds of every Selection a program can build: C49, C50, C52-C55

    The exact forms of these properties need Selections without pointless
    intervals (see Properties_Selection.v).  Here are their forms for all
    programs: unions, complements, intersections and differences of any
    intervals the API can make, including open pairs of neighbours like (3,4). *)
From Coq Require Import List Bool ZArith Lia Sorted.
From Verif Require Import Base OrdFacts Pos PFinite MBound MRaw MNormalize MTine MBTree MTineTree Ints MInterval MSelection
  Spec Spec_Tree Spec_Sel Spec_More Instances PRaw PRaw2 PNorm PIter PInterval PBTree PTree PTreeOps PTreeIsect PTree2 PTree3 PTree4 PTree5 PTree6 PTree7
  PSel PSel2 PSel3 PSel4 PSel5 PDebug Properties_Interval Properties_Selection.
Import ListNotations.
Local Open Scope Z_scope.
#[local] Arguments cmp : simpl never.

Section All.
  Context {T : Type} {O : Ord T} {F : Finite T}.

  Lemma run_edged dbg (p : prog T) s : inputs false p -> run dbg p = Ok s -> wf s /\ edge (den false s).
  Proof. intros H E. destruct (run_edge dbg p H) as (s' & E' & W). congruence. Qed.

  (** ** C50 *)
  Lemma nrm_pieces_points dbg (s : Selection T) x : wf s -> (some_icontains (map nrm (pieces None s)) x <-> member dbg s x).
  Proof.
    intros W. rewrite member_in by auto. unfold some_icontains, inS. split.
    - intros (j & Hj & Hx). apply in_map_iff in Hj as (r & <- & Hr). apply (proj1 (nrm_points r x)) in Hx. apply (piece_den s r); auto. now rewrite covers_At.
    - intros Hx. destruct (den_piece s (At x) W Hx) as (r & Hr & Hc). exists (nrm r). split; [now apply in_map|].
      apply nrm_points. now rewrite <- covers_At.
  Qed.

  (** The intervals yielded hold exactly the members, each in one interval, in
      ascending order. *)
  Theorem C50_points_all_partial dbg (p : prog T) s : inputs false p -> run dbg p = Ok s ->
    exists l, sel_intervals_are dbg s l /\
      (forall x, some_icontains l x <-> member dbg s x) /\
      StronglySorted (fun i j => forall x y, ipoints i x -> ipoints j y -> lt x y) l.
  Proof.
    intros H E. destruct (run_edged dbg p s H E) as [W _]. exists (map nrm (pieces None s)).
    split; [now apply interval_iter_drains|]. split; [intros; now apply nrm_pieces_points|].
    pose proof (pieces_sorted s W) as SS. pose proof (pieces_wf s None) as Wf. induction SS as [|r l SS IH Hr]; simpl; [constructor|].
    inversion Wf as [|? ? Wr Wl]; subst. constructor; auto. apply Forall_map. apply Forall_forall. intros k Hk x y Hx Hy.
    rewrite Forall_forall in Hr, Wl. apply (proj1 (nrm_points r x)) in Hx. apply (proj1 (nrm_points k y)) in Hy. apply (separated_points r k); auto.
  Qed.

  (** ** C49: iteration yields, strictly ascending, the members and one value
      for each pointless interval the Selection stores, and nothing else. *)
  Theorem C49_iteration_all_partial dbg (p : prog T) s li : inputs false p -> run dbg p = Ok s ->
    sel_intervals_are dbg s li ->
    exists l, drains (sel_next dbg) (sel_iter s) l /\ StronglySorted lt l /\
      forall x, In x l <->
        member dbg s x \/
        exists j, In j li /\ (forall y, ~ ipoints j y) /\ interval_lower_bound j = Some (Include x).
  Proof.
    intros H E D. destruct (run_edged dbg p s H E) as [W Ed]. apply sel_intervals_pieces in D; auto. subst li.
    destruct (sel_iter_any dbg s W Ed) as (l & D & S & K). exists l. split; auto. split; auto. intros x. rewrite K, member_in by auto.
    assert (Q : (exists r, In r (pieces None s) /\ pointless r x) <->
      exists j, In j (map nrm (pieces None s)) /\ (forall y, ~ ipoints j y) /\ interval_lower_bound j = Some (Include x)); [|now rewrite Q].
    split.
    - intros (r & Hr & Px). exists (nrm r). split; [now apply in_map|]. split.
      + intros y Hy. apply (proj1 (nrm_points r y)) in Hy. rewrite (pointless_empty r x y Px) in Hy. discriminate.
      + destruct (pointless_norm r x Px) as (a & _ & N). unfold interval_lower_bound. now rewrite nrm_raw, N.
    - intros (j & Hj & N & L). apply in_map_iff in Hj as (r & <- & Hr). exists r. split; auto.
      destruct (piece_kinds s r W Ed Hr) as [(y & Hy)|(y & Hy)]; [exfalso; apply (N y); now apply nrm_points|].
      destruct (pointless_norm r y Hy) as (a & _ & Er). unfold interval_lower_bound in L. rewrite nrm_raw, Er in L.
      cbn [raw_lower_bound] in L. congruence.
  Qed.

  (** Every member is yielded; if no stored interval is pointless, nothing else. *)
  Corollary C49_complete_all_partial dbg (p : prog T) s : inputs false p -> run dbg p = Ok s ->
    exists l, drains (sel_next dbg) (sel_iter s) l /\ StronglySorted lt l /\ forall x, member dbg s x -> In x l.
  Proof.
    intros H E. destruct (C50_points_all_partial dbg p s H E) as (li & D & _).
    destruct (C49_iteration_all_partial dbg p s li H E D) as (l & D' & S & K). exists l. split; auto. split; auto.
    intros x Hx. apply K. auto.
  Qed.
  Corollary C49_exact_iff_partial dbg (p : prog T) s li : inputs false p -> run dbg p = Ok s -> sel_intervals_are dbg s li ->
    ((exists l, drains (sel_next dbg) (sel_iter s) l /\ lists l (member dbg s)) <-> Forall (fun j => exists y, ipoints j y) li).
  Proof.
    intros H E D. destruct (C49_iteration_all_partial dbg p s li H E D) as (l & D' & S & K).
    destruct (run_edged dbg p s H E) as [W Ed]. pose proof D as Dl. apply sel_intervals_pieces in Dl; auto.
    split.
    - intros (l' & D'' & [_ L]). assert (l' = l).
      { clear - D' D''. revert l' D''. induction D'; intros l' D''; inversion D''; subst; try congruence.
        rewrite H in H0. injection H0 as <- <-. f_equal. now apply IHD'. }
      subst l'. apply Forall_forall. intros j Hj.
      pose proof Hj as Hj'. rewrite Dl in Hj'. apply in_map_iff in Hj' as (r & <- & Hr).
      destruct (piece_kinds s r W Ed Hr) as [(y & Hy)|(y & Hy)]; [exists y; now apply nrm_points|]. exfalso.
      assert (Ny : forall z, ~ ipoints (nrm r) z).
      { intros z Hz. apply (proj1 (nrm_points r z)) in Hz. rewrite (pointless_empty r y z Hy) in Hz. discriminate. }
      assert (Lb : interval_lower_bound (nrm r) = Some (Include y)).
      { destruct (pointless_norm r y Hy) as (a & _ & N). unfold interval_lower_bound. now rewrite nrm_raw, N. }
      assert (My : member dbg s y) by (apply L, K; right; exists (nrm r); auto).
      apply member_in in My; auto. destruct (den_piece s (At y) W My) as (k & Hk & Ck). rewrite covers_At in Ck.
      destruct (in_sorted_cases _ _ (pieces_sorted s W) r k Hr Hk) as [->|[Sp|Sp]].
      + apply (Ny y). now apply nrm_points.
      + pose proof (yields_lt r k y y Sp (or_intror Hy) (or_introl Ck)) as X. clear - X. order.
      + pose proof (yields_lt k r y y Sp (or_introl Ck) (or_intror Hy)) as X. clear - X. order.
    - intros Fa. exists l. split; auto. split; auto. intros x. rewrite K. split; auto. intros [Hx|(j & Hj & N & _)]; auto.
      rewrite Forall_forall in Fa. destruct (Fa j Hj) as (y & Hy). now apply N in Hy.
  Qed.

  (** ** C52: the bounds are those of the iteration; every member lies between them. *)
  Theorem C52_bounds_all_partial dbg (p : prog T) s : inputs false p -> run dbg p = Ok s ->
    (exists o, sel_lower_bound dbg s = Ok o /\
       match o with
       | Some (Include m) => forall x, member dbg s x -> le m x
       | None => forall x, ~ member dbg s x
       | _ => False
       end) /\
    (exists o, sel_upper_bound dbg s = Ok o /\
       match o with
       | Some (Include m) => forall x, member dbg s x -> le x m
       | None => forall x, ~ member dbg s x
       | _ => False
       end).
  Proof.
    intros H E. destruct (run_edged dbg p s H E) as [W Ed]. split.
    - unfold sel_lower_bound, sel_interval_next, sel_interval_iter.
      destruct (next_head dbg s W) as (it & ->). simpl. eexists. split; [reflexivity|].
      destruct (pieces None s) as [|r l] eqn:Ep; simpl.
      { intros x Hx. apply member_in in Hx; auto. destruct (den_piece s (At x) W Hx) as (k & Hk & _). rewrite Ep in Hk. destruct Hk. }
      fold (nrm r). assert (Hin : In r (pieces None s)) by (rewrite Ep; left; auto).
      assert (X : exists m, interval_lower_bound (nrm r) = Some (Include m) /\ yields r m /\ forall x, raw_contains r x = true -> le m x).
      { destruct (piece_kinds s r W Ed Hin) as [(y & Hy)|(y & Hy)].
        - pose proof (point_solid r y (piece_wf s r Hin) Hy) as Sr. rewrite <- nrm_raw in Sr.
          destruct (solid_cases _ Sr) as [Er|(a & b & La & Ub & Hab)].
          { exfalso. rewrite nrm_raw in Er. rewrite <- normalized_contains, Er in Hy. discriminate. }
          destruct (bounds_extremes (nrm r) a b La Ub Hab) as [[La1 La2] _].
          exists a. split; [exact La|]. split; [left; now apply (proj1 (nrm_points r a))|]. intros x Hx. apply La2. now apply nrm_points.
        - exists y. destruct (pointless_norm r y Hy) as (a & _ & N). unfold interval_lower_bound. rewrite nrm_raw, N.
          split; auto. split; [now right|]. intros x Hx. rewrite (pointless_empty r y x Hy) in Hx. discriminate. }
      destruct X as (m & -> & Ym & Lm). intros x Hx. apply member_in in Hx; auto.
      destruct (den_piece s (At x) W Hx) as (k & Hk & Ck). rewrite covers_At in Ck. rewrite Ep in Hk.
      destruct Hk as [<-|Hk]; auto. pose proof (pieces_sorted s W) as SS. rewrite Ep in SS.
      inversion SS as [|? ? S1 S2]; subst. rewrite Forall_forall in S2.
      pose proof (yields_lt r k m x (S2 k Hk) Ym (or_introl Ck)) as L. clear - L. order.
    - unfold sel_upper_bound, sel_interval_next_back, sel_interval_iter.
      destruct (next_back_last dbg s W) as (it & ->). simpl. eexists. split; [reflexivity|].
      destruct (ends (pieces None s)) as [Ep|(l & r & Ep)]; rewrite Ep.
      { simpl. intros x Hx. apply member_in in Hx; auto. destruct (den_piece s (At x) W Hx) as (k & Hk & _). rewrite Ep in Hk. destruct Hk. }
      rewrite last_of. simpl. fold (nrm r). assert (Hin : In r (pieces None s)) by (rewrite Ep; apply in_app_iff; right; left; auto).
      assert (X : exists m, interval_upper_bound (nrm r) = Some (Include m) /\ (raw_contains r m = true \/ raw_lower_bound r = Some (Exclude m)) /\ forall x, raw_contains r x = true -> le x m).
      { destruct (piece_kinds s r W Ed Hin) as [(y & Hy)|(y & Hy)].
        - pose proof (point_solid r y (piece_wf s r Hin) Hy) as Sr. rewrite <- nrm_raw in Sr.
          destruct (solid_cases _ Sr) as [Er|(a & b & La & Ub & Hab)].
          { exfalso. rewrite nrm_raw in Er. rewrite <- normalized_contains, Er in Hy. discriminate. }
          destruct (bounds_extremes (nrm r) a b La Ub Hab) as [_ [La1 La2]].
          exists b. split; [exact Ub|]. split; [left; now apply (proj1 (nrm_points r b))|]. intros x Hx. apply La2. now apply nrm_points.
        - destruct (pointless_norm r y Hy) as (a & Ea & N). exists a. unfold interval_upper_bound. rewrite nrm_raw, N.
          split; auto. split; [|intros x Hx; rewrite (pointless_empty r y x Hy) in Hx; discriminate].
          right. destruct Hy as (b & -> & Eb). simpl. f_equal. f_equal. clear - Ea Eb. forder. }
      destruct X as (m & -> & Ym & Lm). intros x Hx. apply member_in in Hx; auto.
      destruct (den_piece s (At x) W Hx) as (k & Hk & Ck). pose proof Hk as Hk'. rewrite Ep in Hk.
      apply in_app_iff in Hk as [Hk|[<-|[]]]; [|apply Lm; now rewrite <- covers_At].
      pose proof (pieces_sorted s W) as SS. rewrite Ep in SS. pose proof (sorted_snoc _ _ _ _ SS Hk) as Sep.
      destruct Ym as [Ym|Ym].
      + rewrite covers_At in Ck. pose proof (separated_points k r x m (piece_wf s k Hk') (piece_wf s r Hin) Sep Ck Ym) as L. clear - L. order.
      + rewrite covers_At in Ck. unfold separated in Sep. rewrite Ym in Sep. clear - Ck Sep.
        destruct k; simpl in *; try contradiction; try discriminate; order.
  Qed.

  (** ** C53: no member lies outside the infimum and supremum reported. *)
  Theorem C53_extremes_all_partial dbg (p : prog T) s x : inputs false p -> run dbg p = Ok s -> member dbg s x ->
    (forall m, sel_infimum s = Some m -> le m x) /\ (forall m, sel_supremum s = Some m -> le x m).
  Proof.
    intros H E Hx. pose proof (run_wf dbg p s H E) as W. apply member_in in Hx; auto. unfold inS in Hx. split; intros m Em.
    - destruct s as [|t s]; [discriminate|]. unfold sel_infimum, tree_lower_bound in Em. simpl in Em.
      pose proof (first_den s t _ W Hx) as L. destruct (tine_into_inner t); simpl in *; try discriminate; injection Em as ->; po.
    - destruct (snoc_cases s) as [->|(s' & t & ->)]; [discriminate|].
      unfold sel_supremum, tree_upper_bound in Em. rewrite last_app_one in Em. simpl in Em.
      pose proof (last_den s' t _ W Hx) as L. destruct (tine_into_inner t); simpl in *; try discriminate; injection Em as ->; po.
  Qed.

  (** ** C54, C55: the enclosing interval holds every member, the closure holds
      the enclosing interval. *)
  Theorem C54_enclose_all_partial dbg (p : prog T) s : inputs false p -> run dbg p = Ok s ->
    exists i, sel_enclose dbg s = Ok i /\ forall x, member dbg s x -> ipoints i x.
  Proof.
    intros H E. pose proof (run_wf dbg p s H E) as W. destruct (enclose_ok dbg s W) as (r & Er & Wr & _ & Sub & _).
    exists (mkInterval (normalized r)). unfold sel_enclose. rewrite Er. split; auto. intros x Hx. apply member_in in Hx; auto.
    unfold ipoints, interval_contains. simpl. rewrite normalized_contains, <- covers_At. now apply Sub.
  Qed.
  Theorem C55_closure_all_partial dbg (p : prog T) s : inputs false p -> run dbg p = Ok s ->
    exists i j, sel_enclose dbg s = Ok i /\ sel_closure dbg s = Ok j /\
      (forall x, member dbg s x -> ipoints j x) /\ (forall x, ipoints i x -> ipoints j x).
  Proof.
    intros H E. pose proof (run_wf dbg p s H E) as W. destruct (enclose_ok dbg s W) as (r & Er & Wr & _ & Sub & _).
    exists (mkInterval (normalized r)), (mkInterval (normalized (raw_closure r))). unfold sel_enclose, sel_closure, tree_closure. rewrite Er.
    split; auto. split; auto.
    assert (K : forall x, raw_contains r x = true -> raw_contains (raw_closure r) x = true).
    { intros x. clear - Wr. destruct r; simpl in *; auto; try order; unfold raw_closed; try (destruct (cmp _ _) eqn:C; simpl); try order. }
    split; intros x Hx; unfold ipoints, interval_contains in *; simpl in *; rewrite normalized_contains in *; auto.
    apply member_in in Hx; auto. apply K. rewrite <- covers_At. now apply Sub.
  Qed.
End All.
Print Assumptions C49_iteration_all_partial.
Print Assumptions C49_complete_all_partial.
Print Assumptions C49_exact_iff_partial.
Print Assumptions C50_points_all_partial.
Print Assumptions C52_bounds_all_partial.
Print Assumptions C53_extremes_all_partial.
Print Assumptions C54_enclose_all_partial.
Print Assumptions C55_closure_all_partial.

(** The intersection of {1} and {2} stores the pointless (1,2), next to [5,6]. *)
Definition ex_phantom : prog i8 := P_union (P_intersect (P_points [v 1]) (P_points [v 2])) (P_from (cl 5 6)).
Example C49_all_ex : inputs false ex_phantom /\ exists s, run true ex_phantom = Ok s /\
  sel_intervals_are true s [mkInterval (Closed (v 2) (v 1)); cl 5 6] /\
  drains (sel_next true) (sel_iter s) [v 2; v 5; v 6] /\
  sel_contains true s (v 2) = Ok false /\ sel_contains true s (v 5) = Ok true /\
  sel_lower_bound true s = Ok (Some (Include (v 2))) /\ sel_upper_bound true s = Ok (Some (Include (v 6))) /\
  sel_infimum s = Some (v 1) /\ sel_supremum s = Some (v 7) /\
  sel_enclose true s = Ok (cl 2 6) /\ sel_closure true s = Ok (cl 1 7).
Proof.
  split; [split; [split; exact I|constructor]|]. eexists. split; [reflexivity|].
  split; [drain|]. split; [drain|]. repeat split.
Qed.

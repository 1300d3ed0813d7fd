(** * What the refuted properties come to on every Interval and every Selection:
    exact forms of C03, C16, C21, C22, C23, C52, C56, C62, C67, C71 *)
From Coq Require Import List Bool ZArith Lia Sorted.
From Verif Require Import Base OrdFacts Pos PFinite MBound MRaw MNormalize MTine MBTree MTineTree Ints MInterval MSelection
  Spec Spec_Tree Spec_Sel Spec_More Instances PRaw PRaw2 PNorm PIter PInterval PBTree PTree PTreeOps PTreeIsect PTree2 PTree3 PTree4 PTree5 PTree6 PTree7
  PSel PSel2 PSel3 PSel4 PSel5 PDebug Properties_Raw Properties_Interval Properties_Selection Properties_Selection4 Properties_Outer.
Import ListNotations.
Local Open Scope Z_scope.
#[local] Arguments cmp : simpl never.

(** ** C03: [intersects] is wrong exactly if the intersection it stands for is
    an interval without values: an open one between neighbours, or an unbounded
    one beyond the last value of the type. *)
Theorem C03_intersects_wrong_iff_partial {T} {O : Ord T} (a b : RawInterval T) :
  raw_intersects a b = true /\ (forall x, ~ (raw_contains a x = true /\ raw_contains b x = true)) <->
  (exists x y, raw_intersect a b = Open x y /\ lt x y /\ forall z, ~ (lt x z /\ lt z y)) \/
  (exists x, raw_intersect a b = UpTo x /\ forall z, ~ lt z x) \/
  (exists x, raw_intersect a b = UpFrom x /\ forall z, ~ lt x z) \/
  (raw_intersect a b = Full /\ (T -> False)).
Proof.
  setoid_rewrite <- andb_true_iff. setoid_rewrite <- raw_intersect_contains. setoid_rewrite raw_contains_points.
  unfold raw_intersects. rewrite negb_true_iff. pose proof (raw_intersect_wf a b) as W.
  split.
  - intros [H N]. destruct (raw_intersect a b) as [|x|x y|x y|x y|x y|x|x|x|x|] eqn:E; simpl in *; try discriminate;
      try (exfalso; apply (N x); clear - W; order); try (exfalso; apply (N y); clear - W; order); eauto 8.
    + now destruct (N x).
    + right; right; right. split; auto. intros z. exact (N z I).
  - intros [(x & y & E & L & N)|[(x & E & N)|[(x & E & N)|(E & N)]]]; rewrite E; simpl; (split; [reflexivity|]); auto.
Qed.
Print Assumptions C03_intersects_wrong_iff_partial.
Example C03_wrong_ex : raw_intersect (Open 0 2) (Open 1 3) = Open 1 2 /\
  raw_intersect (UpFrom (v 127)) (From (v 5)) = UpFrom (v 127) /\ (forall z : i8, ~ lt (v 127) z).
Proof.
  split; [reflexivity|]. split; [reflexivity|]. intros z H. apply (proj1 (int_lt_val _ _)) in H. rewrite v_val in H by lia.
  pose proof (int_bounds z). lia.
Qed.

(** ** C16: what normalization keeps of the way an interval was written. *)
Lemma norm_cases {T} {O : Ord T} {F : Finite T} (i : RawInterval T) : raw_wf i ->
  (normalized i = Empty /\ (forall x, raw_contains i x = false) /\ (forall l r, i <> Open l r) /\ (forall p, i <> Point p)) \/
  (exists p, i = Point p /\ normalized i = Point p) \/
  (exists a b, normalized i = Closed a b /\ (forall x, raw_contains i x = leb a x && leb x b) /\ le a b /\ (forall p, i <> Point p)) \/
  (exists l r, i = Open l r /\ normalized i = Closed r l /\ succ l = Some r /\ forall x, raw_contains i x = false).
Proof.
  intros W.
  assert (C : forall a b, normalized i = Closed a b -> forall x, raw_contains i x = leb a x && leb x b).
  { intros a b E x. rewrite <- normalized_contains, E. simpl. apply eq_true_iff_eq. order. }
  assert (E0 : normalized i = Empty -> forall x, raw_contains i x = false).
  { intros E x. now rewrite <- normalized_contains, E. }
  destruct i as [|p|l r|l r|l r|l r|r|l|p|p|]; cbn [normalized raw_wf] in *.
  - left. repeat split; auto; discriminate.
  - right; left. eauto.
  - destruct (succ l) as [l'|] eqn:El, (pred r) as [r'|] eqn:Er.
    + destruct (leb l' r') eqn:L.
      * right; right; left. exists l', r'. repeat split; auto; try discriminate. order.
      * right; right; right. exists l, r. assert (l' = r /\ r' = l) as [-> ->] by (split; forder). repeat split; auto.
        intros x. rewrite (C r l eq_refl). order.
    + exfalso. forder.
    + exfalso. forder.
    + exfalso. forder.
  - destruct (succ l) as [l'|] eqn:El; [|exfalso; forder]. right; right; left. exists l', r. repeat split; auto; try discriminate. forder.
  - destruct (pred r) as [r'|] eqn:Er; [|exfalso; forder]. right; right; left. exists l, r'. repeat split; auto; try discriminate. forder.
  - right; right; left. exists l, r. repeat split; auto; try discriminate. order.
  - destruct (pred r) as [r'|] eqn:Er.
    + right; right; left. exists MINIMUM, r'. repeat split; auto; try discriminate. apply min_le.
    + left. repeat split; auto; discriminate.
  - destruct (succ l) as [l'|] eqn:El.
    + right; right; left. exists l', MAXIMUM. repeat split; auto; try discriminate. apply max_ge.
    + left. repeat split; auto; discriminate.
  - right; right; left. exists MINIMUM, p. repeat split; auto; try discriminate. apply min_le.
  - right; right; left. exists p, MAXIMUM. repeat split; auto; try discriminate. apply max_ge.
  - right; right; left. exists MINIMUM, MAXIMUM. repeat split; auto; try discriminate. apply min_le.
Qed.
Theorem C16_normalize_iff_partial {T} {O : Ord T} {F : Finite T} (i j : RawInterval T) : raw_wf i -> raw_wf j ->
  (normalized i = normalized j <->
   (forall x, raw_contains i x = raw_contains j x) /\
   ((exists p, i = Point p) <-> (exists p, j = Point p)) /\
   ((forall x, raw_contains i x = false) -> (exists l r, i = Open l r) \/ (exists l r, j = Open l r) -> i = j)).
Proof.
  intros Wi Wj.
  assert (P : normalized i = normalized j -> forall x, raw_contains i x = raw_contains j x).
  { intros E x. now rewrite <- (normalized_contains i), <- (normalized_contains j), E. }
  assert (Pq : forall p, raw_contains (Point p) p = true) by (intros p; simpl; order).
  assert (Cl : forall (k : RawInterval T) a b, (forall x, raw_contains k x = leb a x && leb x b) -> le a b -> raw_contains k a = true)
    by (intros k a b C L; rewrite C; order).
  destruct (norm_cases i Wi) as [(Ei & Ni & Oi & Pi)|[(p & -> & Ei)|[(a & b & Ei & Ci & Li & Pi)|(l & r & -> & Ei & Si & Ni)]]];
  destruct (norm_cases j Wj) as [(Ej & Nj & Oj & Pj)|[(q & -> & Ej)|[(c & d & Ej & Cj & Lj & Pj)|(m & n & -> & Ej & Sj & Nj)]]];
  rewrite ?Ei, ?Ej in *.
  all: split; [intros E; first [discriminate | split; [auto|]]|intros (H & K & M)].
  all: try (split; [split; intros (k & Hk); first [discriminate|exfalso; now apply (Pi k)|exfalso; now apply (Pj k)|eauto]|]).
  all: try reflexivity.
  - intros _ [(l & r & ->)|(l & r & ->)]; exfalso; [eapply Oi|eapply Oj]; reflexivity.
  - exfalso. specialize (H q). rewrite Ni, Pq in H. discriminate.
  - exfalso. specialize (H c). rewrite Ni, (Cl j c d) in H by auto. discriminate.
  - exfalso. assert (Hij : i = Open m n) by eauto. now apply Oi in Hij.
  - exfalso. specialize (H p). rewrite Nj, Pq in H. discriminate.
  - intros N. specialize (N p). rewrite Pq in N. discriminate.
  - f_equal. specialize (H p). rewrite Pq in H. symmetry in H. simpl in H. order.
  - exfalso. destruct (proj1 K (ex_intro _ p eq_refl)) as (k & ->). now apply (Pj k).
  - exfalso. destruct (proj1 K (ex_intro _ p eq_refl)) as (k & Hk). discriminate.
  - exfalso. specialize (H a). rewrite Nj, (Cl i a b) in H by auto. discriminate.
  - exfalso. destruct (proj2 K (ex_intro _ q eq_refl)) as (k & ->). now apply (Pi k).
  - intros N. specialize (N a). rewrite (Cl i a b) in N by auto. discriminate.
  - assert (Ha := H a). assert (Hb := H b). assert (Hc := H c). assert (Hd := H d). rewrite Ci, Cj in Ha, Hb, Hc, Hd. f_equal; order.
  - intros N. specialize (N a). rewrite (Cl i a b) in N by auto. discriminate.
  - exfalso. specialize (H a). rewrite Nj, (Cl i a b) in H by auto. discriminate.
  - exfalso. assert (Hij : Open l r = j) by eauto. symmetry in Hij. now apply Oj in Hij.
  - exfalso. destruct (proj2 K (ex_intro _ q eq_refl)) as (k & Hk). discriminate.
  - inversion E; subst. exfalso. forder.
  - exfalso. specialize (H c). rewrite Ni, (Cl j c d) in H by auto. discriminate.
  - inversion E; subst. intros; reflexivity.
  - assert (E : Open l r = Open m n) by eauto. now inversion E.
Qed.
Print Assumptions C16_normalize_iff_partial.
(** (3,5) and the point 4; (3,4), (4,5) and the empty interval. *)
Example C16_iff_ex : raw_wf (Open (v 3) (v 5)) /\ normalized (Open (v 3) (v 5)) = normalized (Closed (v 4) (v 4)) /\
  normalized (Open (v 3) (v 5)) <> normalized (Point (v 4)) /\
  raw_wf (Open (v 3) (v 4)) /\ normalized (Open (v 3) (v 4)) <> normalized (Open (v 4) (v 5)) /\
  normalized (UpTo (v (-128))) = normalized (@Empty i8).
Proof. repeat split; try reflexivity; vm_compute; discriminate. Qed.

Section Exact.
  Context {T : Type} {O : Ord T} {F : Finite T}.

  (** ** C62: every interval of the API is [is_empty] and without bounds, or has
      included bounds and contains what lies between them; these are in order or
      the upper one is just before the lower one. *)
  Theorem C62_bounds_all_partial (i : Interval T) : reach false i ->
    (interval_is_empty i = true /\ interval_lower_bound i = None /\ interval_upper_bound i = None /\
     interval_infimum i = None /\ interval_supremum i = None /\ (forall x, interval_contains i x = false)) \/
    (exists l u, interval_is_empty i = false /\
       interval_lower_bound i = Some (Include l) /\ interval_upper_bound i = Some (Include u) /\
       interval_infimum i = Some l /\ interval_supremum i = Some u /\
       (forall x, interval_contains i x = true <-> le l x /\ le x u) /\ (le l u \/ succ u = Some l)).
  Proof.
    intros R. apply reach_tight in R. destruct i as [[|p| | | |l u| | | | |]]; simpl in R; try tauto; right.
    - exists p, p. repeat (split; [reflexivity|]). split; [|left; clear; order].
      intros x. unfold interval_contains. simpl. clear. order.
    - exists l, u. repeat (split; [reflexivity|]). split; [|exact R].
      intros x. unfold interval_contains. simpl. clear. order.
  Qed.

  Lemma hollow_none (l u : T) : succ u = Some l -> forall x, ~ (le l x /\ le x u).
  Proof. unfold not. intros H x [H1 H2]. forder. Qed.

  (** ** C21: [is_empty] is wrong exactly on intervals whose upper bound is just
      before their lower one. *)
  Theorem C21_is_empty_iff_partial (i : Interval T) : reach false i ->
    (interval_is_empty i = false /\ (forall x, interval_contains i x = false) <->
     exists l u, interval_lower_bound i = Some (Include l) /\ interval_upper_bound i = Some (Include u) /\ succ u = Some l).
  Proof.
    intros R. destruct (C62_bounds_all_partial i R) as [(E & L & U & _)|(l & u & E & L & U & _ & _ & P & K)]; rewrite E, L, U.
    - split; [intros []; discriminate|]. intros (l & u & ? & _). discriminate.
    - split.
      + intros [_ N]. exists l, u. split; auto. split; auto. destruct K as [K|K]; auto. exfalso.
        specialize (N l). rewrite (proj2 (P l)) in N; [discriminate|]. clear - K. order.
      + intros (l' & u' & [= <-] & [= <-] & K'). split; auto. intros x. apply not_true_iff_false. rewrite P. now apply hollow_none.
  Qed.

  (** ** C22: two intervals of the API are equal exactly if their bounds are and
      both or neither are [is_degenerate]. *)
  Theorem C22_equality_iff_partial (i j : Interval T) : reach false i -> reach false j ->
    (i = j <-> interval_lower_bound i = interval_lower_bound j /\ interval_upper_bound i = interval_upper_bound j /\
               interval_is_degenerate i = interval_is_degenerate j).
  Proof.
    intros Ri Rj. split; [now intros ->|]. apply reach_tight in Ri, Rj.
    destruct i as [[|p| | | |l u| | | | |]]; simpl in Ri; try tauto; destruct j as [[|q| | | |m w| | | | |]]; simpl in Rj; try tauto;
      unfold interval_lower_bound, interval_upper_bound, interval_is_degenerate; simpl; intros (A & B & C); congruence.
  Qed.

  (** ** C23: an interval whose upper bound is just before its lower one yields
      one of them, whichever end is asked first, and then nothing. *)
  Theorem C23_iteration_hollow_partial (i : Interval T) l u : reach false i ->
    interval_lower_bound i = Some (Include l) -> interval_upper_bound i = Some (Include u) -> succ u = Some l ->
    (forall x, interval_contains i x = false) /\
    (forall sched, runs interval_next interval_next_back (interval_iter i) (Front :: sched) (Some l :: map (fun _ => None) sched)) /\
    (forall sched, runs interval_next interval_next_back (interval_iter i) (Back :: sched) (Some u :: map (fun _ => None) sched)).
  Proof.
    intros R L U S.
    destruct i as [[|p| | | |l' u'| | | | |]]; apply reach_tight in R; simpl in R; try tauto; try discriminate.
    { exfalso. injection L as ->. injection U as ->. forder. }
    injection L as ->. injection U as ->.
    assert (D : forall sched, runs interval_next interval_next_back (interval_empty : Interval T) sched (map (fun _ => None) sched)).
    { induction sched as [|[] sched IH]; simpl; [constructor| |]; econstructor; eauto; reflexivity. }
    split; [intros x; apply not_true_iff_false; unfold interval_contains; simpl; intros K; apply (hollow_none l u S x); clear - K; order|].
    assert (M : forall j, interval_minus (mkInterval (Closed l u)) j = []).
    { intros j. unfold interval_minus. cbn [interval_raw]. unfold raw_minus.
      induction (raw_complement (interval_raw j)) as [|r c IH]; simpl; auto.
      destruct (raw_is_empty (raw_intersect (Closed l u) r)) eqn:E; simpl; auto. exfalso.
      apply raw_nonempty_covers in E as (q & Hq); [|apply raw_intersect_wf]. rewrite raw_intersect_covers in Hq.
      apply andb_prop in Hq as [Hq _]. rewrite (covers_bounds _ q (Include l) (Include u)) in Hq by reflexivity.
      simpl in Hq. assert (lt u l) by (clear - S; forder). revert Hq H. clear. porder. }
    split; intros sched.
    - apply runs_front with (it' := interval_empty); [|apply D]. unfold interval_next, interval_iter. cbn -[interval_minus]. now rewrite M.
    - apply runs_back with (it' := interval_empty); [|apply D]. unfold interval_next_back, interval_iter. cbn -[interval_minus]. now rewrite M.
  Qed.

  (** ** C52: the bounds of a Selection are its extreme members exactly if the
      first (last) interval it yields contains a value. *)
  Lemma intervals_reach dbg (p : prog T) s li : inputs false p -> run dbg p = Ok s -> sel_intervals_are dbg s li ->
    wf s /\ li = map nrm (pieces None s) /\ Forall (reach false) li.
  Proof.
    intros H E D. pose proof (run_wf dbg p s H E) as W. apply sel_intervals_pieces in D; auto. subst li. split; auto. split; auto.
    apply Forall_map, Forall_forall. intros r Hr. rewrite nrm_mk. apply (R_from_raw false r); [now apply (piece_wf s)|discriminate].
  Qed.

  Theorem C52_bounds_iff_partial dbg (p : prog T) s j k li : inputs false p -> run dbg p = Ok s ->
    sel_intervals_are dbg s (j :: li) -> k = last (j :: li) j ->
    exists m n, sel_lower_bound dbg s = Ok (Some (Include m)) /\ sel_upper_bound dbg s = Ok (Some (Include n)) /\
      (least (member dbg s) m <-> exists x, ipoints j x) /\
      (greatest (member dbg s) n <-> exists x, ipoints k x).
  Proof.
    intros H E D ->.
    destruct (C95_outer dbg p s (j :: li) H E D) as (m & n & _ & _ & Lj & Uk & Ls & Us & _). exists m, n. split; auto. split; auto.
    destruct (C50_points_all_partial dbg p s H E) as (l & D' & Mem & SS).
    assert (l = j :: li) as -> by (eapply drains_det; eauto).
    destruct (intervals_reach dbg p s (j :: li) H E D) as (W & Sp & R).
    destruct (C52_bounds_all_partial dbg p s H E) as [(o & Eo & B1) (o' & Eo' & B2)].
    rewrite Ls in Eo. injection Eo as <-. rewrite Us in Eo'. injection Eo' as <-.
    assert (Rk : reach false (last (j :: li) j)).
    { rewrite Forall_forall in R. apply R. destruct (exists_last (l := j :: li)) as (a & b & Eab); [discriminate|].
      rewrite Eab, last_last. apply in_app_iff. right. now left. }
    assert (In1 : forall i l u, reach false i -> interval_lower_bound i = Some (Include l) -> interval_upper_bound i = Some (Include u) ->
      (exists x, ipoints i x) -> ipoints i l /\ ipoints i u).
    { intros i l u Ri Li Ui (x & Hx). destruct (C62_bounds_all_partial i Ri) as [(_ & L & _)|(l' & u' & _ & L & U & _ & _ & P & _)]; [congruence|].
      rewrite Li in L. injection L as <-. rewrite Ui in U. injection U as <-. unfold ipoints in *. rewrite P in Hx. rewrite !P. clear - Hx. order. }
    destruct (run_edged dbg p s H E) as [_ Ed].
    assert (Kj : exists u, interval_upper_bound j = Some (Include u)).
    { inversion R as [|? ? Rj _]; subst. destruct (C62_bounds_all_partial j Rj) as [(_ & L & _)|(l' & u' & _ & _ & U & _)]; [congruence|eauto]. }
    assert (Kk : exists l, interval_lower_bound (last (j :: li) j) = Some (Include l)).
    { destruct (C62_bounds_all_partial _ Rk) as [(_ & _ & U & _)|(l' & u' & _ & L & _ & _)]; [congruence|eauto]. }
    destruct Kj as (uj & Uj), Kk as (lk & Lk).
    assert (Ink : In (last (j :: li) j) (j :: li)).
    { destruct (exists_last (l := j :: li)) as (a & b & Eab); [discriminate|]. rewrite Eab, last_last. apply in_app_iff. right. now left. }
    split; split.
    - intros [Hm _]. assert (Hj : In j (map nrm (pieces None s))) by (rewrite <- Sp; now left).
      apply in_map_iff in Hj as (r & <- & Hr). destruct (piece_kinds s r W Ed Hr) as [(x & Hx)|(y & Py)]; [exists x; now apply nrm_points|].
      exfalso. destruct (pointless_norm r y Py) as (a & Ea & En). destruct Py as (a' & -> & Ea').
      unfold interval_lower_bound in Lj. rewrite nrm_raw, En in Lj. injection Lj as <-.
      apply member_in in Hm; auto. destruct (proj1 (upper_excluded s _ y W Hr) eq_refl) as [_ K]. congruence.
    - intros X. inversion R as [|? ? Rj _]; subst. destruct (In1 j m uj Rj Lj Uj X) as [K _]. split; auto. apply Mem. exists j. split; [now left|exact K].
    - intros [Hn _]. pose proof Ink as Hk. rewrite Sp in Hk at 2. apply in_map_iff in Hk as (r & Er & Hr). rewrite <- Er in *.
      destruct (piece_kinds s r W Ed Hr) as [(x & Hx)|(y & Py)]; [exists x; now apply nrm_points|].
      exfalso. destruct (pointless_norm r y Py) as (a & Ea & En). destruct Py as (a' & -> & Ea').
      assert (a' = a) by (clear - Ea Ea'; forder). subst a'.
      unfold interval_upper_bound in Uk. rewrite nrm_raw, En in Uk. injection Uk as <-.
      apply member_in in Hn; auto. destruct (proj1 (lower_excluded s _ a W Hr) eq_refl) as [_ K]. congruence.
    - intros X. destruct (In1 _ lk n Rk Lk Uk X) as [_ K]. split; auto. apply Mem. exists (last (j :: li) j). split; [exact Ink|exact K].
  Qed.

  (** ** C56, C67: [is_empty] says whether no interval is yielded; [is_bounded]
      the opposite. *)
  Theorem C56_is_empty_iff_partial dbg (p : prog T) s li : inputs false p -> run dbg p = Ok s -> sel_intervals_are dbg s li ->
    (sel_is_empty s = true <-> li = []).
  Proof.
    intros H E D. destruct (intervals_reach dbg p s li H E D) as (W & -> & _). split.
    - intros K. destruct s; [reflexivity|discriminate].
    - intros K. destruct (pieces None s) eqn:Ep; [|discriminate].
      assert (s = []) as -> by (apply den_ext; auto using new_wf; intros q; now rewrite <- pieces_den, Ep by auto). reflexivity.
  Qed.
  Theorem C67_is_bounded_all_partial dbg (p : prog T) s : inputs false p -> run dbg p = Ok s ->
    sel_is_bounded dbg s = Ok (negb (sel_is_empty s)).
  Proof.
    intros H E. pose proof (run_wf dbg p s H E) as W. pose proof (interval_iter_drains dbg s W) as D.
    pose proof (C56_is_empty_iff_partial dbg p s _ H E D) as Em. pose proof (C95_outer dbg p s _ H E D) as K.
    unfold sel_is_bounded. destruct (map nrm (pieces None s)) as [|j li].
    - destruct K as (-> & -> & _). rewrite (proj2 Em eq_refl). reflexivity.
    - destruct K as (m & n & _ & _ & _ & _ & -> & _). destruct (sel_is_empty s); [|reflexivity]. discriminate (proj1 Em eq_refl).
  Qed.

  (** ** C71: collecting the intervals of any Selection gives one with the same
      values. *)
  Theorem C71_round_trip_all_partial dbg (p : prog T) s : inputs false p -> run dbg p = Ok s ->
    exists l s', sel_intervals_are dbg s l /\ sel_from_intervals dbg l = Ok s' /\
      (forall x, sel_contains dbg s x = sel_contains dbg s' x).
  Proof.
    intros H E. destruct (C50_points_all_partial dbg p s H E) as (l & D & Mem & _).
    destruct (intervals_reach dbg p s l H E D) as (W & Sp & R).
    destruct (C43_set_semantics dbg (P_intervals l)) as (s' & E' & M'); [exact R|exact I|].
    exists l, s'. split; auto. split; [exact E'|]. intros x. destruct (M' x) as (b & -> & Hb).
    unfold sel_contains. rewrite tree_contains_den by auto. f_equal. apply eq_true_iff_eq. rewrite Hb.
    change (den false s (At x) = true <-> some_icontains l x). rewrite Mem, member_in by auto. reflexivity.
  Qed.
End Exact.
Print Assumptions C62_bounds_all_partial.
Print Assumptions C21_is_empty_iff_partial.
Print Assumptions C22_equality_iff_partial.
Print Assumptions C23_iteration_hollow_partial.
Print Assumptions C52_bounds_iff_partial.
Print Assumptions C56_is_empty_iff_partial.
Print Assumptions C67_is_bounded_all_partial.
Print Assumptions C71_round_trip_all_partial.

(** The open pair (3,4): not [is_empty], its bounds are 4 and 3, and it yields
    4 or 3. *)
Example C21_iff_ex : reach false (interval_open (v 3) (v 4)) /\ interval_is_empty (interval_open (v 3) (v 4)) = false /\
  interval_lower_bound (interval_open (v 3) (v 4)) = Some (Include (v 4)) /\
  interval_upper_bound (interval_open (v 3) (v 4)) = Some (Include (v 3)) /\ succ (v 3) = Some (v 4) /\
  runs interval_next interval_next_back (interval_iter (interval_open (v 3) (v 4))) [Back; Front] [Some (v 3); None].
Proof.
  split; [constructor; discriminate|]. repeat (split; [reflexivity|]).
  apply (proj2 (proj2 (C23_iteration_hollow_partial (interval_open (v 3) (v 4)) (v 4) (v 3) ltac:(constructor; discriminate) eq_refl eq_refl eq_refl))).
Qed.
(** (4,6) and the point 5 have equal bounds; only one of them is degenerate. *)
Example C22_iff_ex : reach false (interval_open (v 4) (v 6)) /\ reach false (interval_from_point (v 5)) /\
  interval_lower_bound (interval_open (v 4) (v 6)) = interval_lower_bound (interval_from_point (v 5)) /\
  interval_upper_bound (interval_open (v 4) (v 6)) = interval_upper_bound (interval_from_point (v 5)) /\
  interval_is_degenerate (interval_open (v 4) (v 6)) <> interval_is_degenerate (interval_from_point (v 5)) /\
  interval_open (v 4) (v 6) <> interval_from_point (v 5).
Proof. split; [constructor; discriminate|]. split; [constructor|]. split; [reflexivity|]. split; [reflexivity|]. split; discriminate. Qed.
(** Of [ex_phantom]'s two intervals the first is without values: its lower
    bound is no member, its upper bound is one; collecting the intervals gives
    the same values. *)
Example C52_iff_ex : inputs false ex_phantom /\ exists s, run true ex_phantom = Ok s /\
  sel_intervals_are true s [mkInterval (Closed (v 2) (v 1)); cl 5 6] /\
  sel_lower_bound true s = Ok (Some (Include (v 2))) /\ sel_contains true s (v 2) = Ok false /\
  sel_upper_bound true s = Ok (Some (Include (v 6))) /\ sel_contains true s (v 6) = Ok true /\
  sel_is_bounded true s = Ok true /\
  exists s', sel_from_intervals true [mkInterval (Closed (v 2) (v 1)); cl 5 6] = Ok s' /\ sel_contains true s' (v 2) = Ok false.
Proof.
  split; [split; [split; exact I|constructor]|]. eexists. split; [reflexivity|]. split; [drain|]. repeat (split; [reflexivity|]).
  eexists. split; reflexivity.
Qed.

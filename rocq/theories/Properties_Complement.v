(** * Selections that are not built by unions alone: differences,
    intersections, iteration (C44, C46, C50, C51, C93) *)
From Coq Require Import List Bool ZArith Lia Sorted Permutation.
From Verif Require Import Base OrdFacts Pos PFinite Ints MBound MRaw MNormalize MTine MBTree MTineTree MInterval MSelection
  Spec Spec_Tree Spec_Sel PRaw PRaw2 PNorm PIter PInterval PBTree PTree PTreeOps PTreeIsect PTree2 PTree3 PTree4 PTree5 PTree6 PTree7
  PSel PSel2 PSel3 PSel4 Instances Properties_Interval Properties_Tree Properties_Selection PBoth Properties_Both
  Spec_History Properties_History.
Import ListNotations.
Local Arguments cmp : simpl never.

Section Minus.
  Context {T : Type} {O : Ord T} {F : Finite T}.
  Implicit Types (s o c : Selection T) (p q : prog T).

  (** A complement of a Selection built by unions has every value whose
      neighbourhood is missing on either side: no pinholes. *)
  Lemma complement_no_hole dbg p s c : inputs true p -> unions_only p -> run dbg p = Ok s -> sel_complement dbg s = Ok c ->
    wf c /\ forall x, hole c x = false.
  Proof.
    intros H U E Ec. destruct (run_open dbg p s H U E) as [W (A & _ & _ & _)].
    destruct (complement_ok dbg s W) as (r & Er & Wr & Dr). unfold sel_complement in Ec. rewrite Er in Ec. injection Ec as ->.
    split; auto. intros x. unfold hole. rewrite !Dr, (A x). destruct (den false s (At x)); simpl; auto. now rewrite andb_false_r.
  Qed.

  (** From a complement of a Selection built by unions, [minus_in_place] removes
      exactly the values of the interval. *)
  Theorem C44_complement_minus_in_place_partial dbg p s c i : inputs true p -> unions_only p -> run dbg p = Ok s ->
    sel_complement dbg s = Ok c -> reach false i ->
    exists r, sel_minus_in_place dbg c i = Ok r /\ sel_is dbg r (fun x => member dbg c x /\ ~ ipoints i x).
  Proof.
    intros H U E Ec R. destruct (complement_no_hole dbg p s c H U E Ec) as [W N].
    destruct (denorm_in i R) as (Wi & NP & C). destruct (minus_one dbg c _ W Wi NP) as (r & Er & Wr & D). exists r. split; [exact Er|].
    intros x. exists (den false r (At x)). unfold sel_contains. rewrite tree_contains_den by auto. split; auto.
    rewrite D, member_in, <- (C x) by auto. unfold inS. split.
    - intros [[K1 K2]|(y & _ & K & _)]; [split; congruence|]. rewrite N in K. discriminate.
    - intros [K1 K2]. left. split; auto. now destruct (covers _ (At x)).
  Qed.

  (** And [minus] exactly those of another Selection built by unions. *)
  Theorem C44_complement_minus_partial dbg p q s c o : inputs true p -> unions_only p -> run dbg p = Ok s ->
    sel_complement dbg s = Ok c -> inputs true q -> unions_only q -> run dbg q = Ok o ->
    exists r, sel_minus dbg c o = Ok r /\ sel_is dbg r (fun x => member dbg c x /\ ~ member dbg o x).
  Proof.
    intros H U E Ec Hq Uq Eq. destruct (complement_no_hole dbg p s c H U E Ec) as [W N], (run_open dbg q o Hq Uq Eq) as [W' Op'].
    destruct (tree_minus_desc dbg c o W W' (open_no_points o W' Op')) as (r & Er & Wr & D). exists r. split; [exact Er|].
    intros x. exists (den false r (At x)). unfold sel_contains. rewrite tree_contains_den by auto. split; auto.
    rewrite D, !member_in by auto. unfold inS. split.
    - intros [[K1 K2]|(y & i & _ & K & _)]; [split; congruence|]. rewrite N in K. discriminate.
    - intros [K1 K2]. left. split; auto. now destruct (den false o (At x)).
  Qed.

  (** From any Selection, [minus] of one built by unions loses nothing, leaves
      nothing of the other, and adds at most values next to one of the other. *)
  Theorem C44_minus_all_partial dbg p q s o : inputs false p -> run dbg p = Ok s ->
    inputs true q -> unions_only q -> run dbg q = Ok o ->
    exists r, sel_minus dbg s o = Ok r /\
      (forall x, exists b, sel_contains dbg r x = Ok b) /\
      (forall x, member dbg s x -> ~ member dbg o x -> member dbg r x) /\
      (forall x, member dbg o x -> ~ member dbg r x) /\
      (forall x, member dbg r x -> ~ member dbg s x -> exists y, (pred x = Some y \/ succ x = Some y) /\ member dbg o y).
  Proof.
    intros H E Hq Uq Eq. pose proof (run_wf dbg p s H E) as W. destruct (run_open dbg q o Hq Uq Eq) as [W' Op'].
    destruct (tree_minus_desc dbg s o W W' (open_no_points o W' Op')) as (r & Er & Wr & D). exists r. split; [exact Er|].
    split; [intros x; eexists; now apply tree_contains_den|].
    assert (Ends : forall x i, In i (pieces None o) -> ends_at i x ->
      ~ inS o x /\ ((exists y, pred x = Some y /\ inS o y) \/ (exists y, succ x = Some y /\ inS o y))).
    { intros x i Hi Ex. apply (open_ends o x W' Op'). eauto. }
    split; [|split].
    - intros x. rewrite !member_in by auto. unfold inS. rewrite D. intros K1 K2. left. split; auto. now destruct (den false o (At x)).
    - intros x. rewrite !member_in by auto. unfold inS at 2. rewrite D. intros K [[_ K1]|(y & i & [= <-] & _ & Hi & Ex)]; [unfold inS in K; congruence|].
      now destruct (Ends x i Hi Ex).
    - intros x. rewrite !member_in by auto. unfold inS at 1. rewrite D. intros [[K1 _]|(y & i & [= <-] & _ & Hi & Ex)] K; [contradiction|].
      destruct (Ends x i Hi Ex) as [_ [(y & Ey & Hy)|(y & Ey & Hy)]]; exists y; rewrite (member_in dbg) by auto; auto.
  Qed.

  (** [intersect_in_place] on a complement is right when both ends of the
      interval and the values beyond them are in it. *)
  Theorem C46_complement_partial dbg p s c i : inputs true p -> unions_only p -> run dbg p = Ok s ->
    sel_complement dbg s = Ok c -> reach true i ->
    (forall m, least (ipoints i) m -> member dbg c m /\ forall x, pred m = Some x -> member dbg c x) ->
    (forall m, greatest (ipoints i) m -> member dbg c m /\ forall x, succ m = Some x -> member dbg c x) ->
    exists r, sel_intersect_in_place dbg c i = Ok r /\ sel_is dbg r (fun x => member dbg c x /\ ipoints i x).
  Proof.
    intros H U E Ec R HL HU. pose proof (reach_solid i R) as S. destruct (run_open dbg p s H U E) as [W (A & B & C & D)].
    destruct (complement_ok dbg s W) as (c' & Er & Wc & Dc). unfold sel_complement in Ec. rewrite Er in Ec. injection Ec as ->.
    destruct (denorm_in i (reach_weak i R)) as (Wi & _ & Cv).
    assert (K : exists r, tree_intersect_in_place dbg c (denormalized (interval_raw i)) = Ok r /\ wf r /\
              forall q : pos T, den false r q = den false c q && covers (denormalized (interval_raw i)) q).
    { destruct c as [|t c0].
      { rewrite isect_in_place_empty. exists []. split; [reflexivity|]. split; [apply new_wf|]. intros q. reflexivity. }
      destruct (reach_solid_cases i S) as [En|(l & u & Hl & Hu & En)].
      { rewrite En. apply isect_in_place_easy; [exact Wc|simpl; tauto]. }
      specialize (HL l Hl). specialize (HU u Hu). rewrite member_in in HL, HU by auto. unfold inS in HL, HU. rewrite Dc in HL, HU.
      destruct HL as [Ml HL], HU as [Mu HU]. apply negb_true_iff in Ml, Mu.
      assert (GL : match pred l with Some a => den false (t :: c0) (Hi a) | None => den false (t :: c0) NInf end = true).
      { destruct (pred l) as [a|] eqn:Ea.
        - specialize (HL a eq_refl). apply (member_in dbg) in HL; auto. unfold inS in HL. rewrite Dc in *. apply negb_true_iff in HL.
          assert (Es : succ a = Some l) by (clear - Ea; forder). now rewrite A, Es, HL, Ml.
        - apply pred_none in Ea. subst l. now rewrite Dc, C, Ml. }
      assert (GU : match succ u with Some b => den false (t :: c0) (Lo b) | None => den false (t :: c0) PInf end = true).
      { destruct (succ u) as [b|] eqn:Eb.
        - specialize (HU b eq_refl). apply (member_in dbg) in HU; auto. unfold inS in HU. rewrite Dc in *. apply negb_true_iff in HU.
          assert (Es : pred b = Some u) by (clear - Eb; forder). now rewrite B, Es, HU, Mu.
        - apply succ_none in Eb. subst u. now rewrite Dc, D, Mu. }
      rewrite En in *.
      destruct (pred l) as [a|] eqn:Ea, (succ u) as [b|] eqn:Eb; try (apply isect_in_place_easy; [exact Wc|simpl; tauto]);
        (eapply isect_in_place_iff; [exact Wc|discriminate|exact Wi|exact I|reflexivity|reflexivity|]);
        unfold isect_fine, near_lower, near_upper, isect_right; rewrite GL, GU; reflexivity. }
    destruct K as (r & Ek & Wr & Dr). exists r. split; [exact Ek|]. intros x. exists (den false r (At x)). unfold sel_contains.
    rewrite tree_contains_den by auto. split; auto. rewrite member_in, Dr, andb_true_iff, Cv by auto. reflexivity.
  Qed.
End Minus.
Print Assumptions C46_complement_partial.
Print Assumptions C44_complement_minus_in_place_partial.
Print Assumptions C44_complement_minus_partial.
Print Assumptions C44_minus_all_partial.

(** All i8 values but 1 and 3, less 2 and 5: 1 and 3 are missing between two
    values, next to the 2 removed, and stay away. *)
Example C44_complement_ex : let p := P_points [v 1; v 3] : prog i8 in let q := P_points [v 2; v 5] : prog i8 in
  inputs true p /\ unions_only p /\ inputs true q /\ unions_only q /\ reach false (pt 2) /\
  exists s c o r r', run true p = Ok s /\ sel_complement true s = Ok c /\ run true q = Ok o /\
    sel_minus true c o = Ok r /\ sel_intervals_are true r [cl (-128) 0; pt 4; cl 6 127] /\
    sel_minus_in_place true c (pt 2) = Ok r' /\ sel_intervals_are true r' [cl (-128) 0; cl 4 127].
Proof.
  cbv zeta. do 4 (split; [exact I|]). split; [constructor|]. eexists _, _, _, _, _. do 3 (split; [reflexivity|]).
  split; [reflexivity|]. split; [drain|]. split; [reflexivity|]. drain.
Qed.
(** The left side the union of a complement and points. *)
Example C44_all_ex : let p := P_union (P_complement (P_from (cl 1 9))) (P_points [v 3; v 5]) : prog i8 in
  inputs false p /\ exists s o r, run true p = Ok s /\ run true (P_points [v 5]) = Ok o /\ sel_minus true s o = Ok r /\
    member true s (v 3) /\ member true r (v 3) /\ member true o (v 5) /\ member true r (v 4).
Proof. cbv zeta. split; [simpl; split; [constructor|exact I]|]. eexists _, _, _. repeat split. Qed.
(** All i8 values but 3, cut down to 1 .. 9. *)
Example C46_complement_ex : let p := P_points [v 3] : prog i8 in
  inputs true p /\ unions_only p /\ reach true (cl 1 9) /\ least (ipoints (cl 1 9)) (v 1) /\ greatest (ipoints (cl 1 9)) (v 9) /\
  exists s c r, run true p = Ok s /\ sel_complement true s = Ok c /\
    member true c (v 0) /\ member true c (v 1) /\ member true c (v 9) /\ member true c (v 10) /\
    sel_intersect_in_place true c (cl 1 9) = Ok r /\ sel_intervals_are true r [cl 1 2; cl 4 9].
Proof.
  cbv zeta. do 2 (split; [exact I|]). split; [constructor|].
  assert (B : least (ipoints (cl 1 9)) (v 1) /\ greatest (ipoints (cl 1 9)) (v 9)) by (apply bounds_extremes; try reflexivity; discriminate).
  split; [apply B|]. split; [apply B|]. eexists _, _, _. do 7 (split; [reflexivity|]). drain.
Qed.

(** ** Iteration *)
Section Iterate.
  Context {T : Type} {O : Ord T} {F : Finite T}.
  Implicit Types (s o c : Selection T) (p q : prog T).

  Lemma no_hole_holeless s : wf s -> (forall x, hole s x = false) -> holeless s.
  Proof.
    intros W N. apply Forall_forall. intros t Ht. destruct (is_point_exclude t) eqn:E; auto.
    destruct t as [|[|x|]|]; try discriminate. apply (hole_tine s x W) in Ht. rewrite N in Ht. discriminate.
  Qed.

  Lemma both_ends dbg s : wf s -> gapless (den false s) -> holeless s ->
    exists l, lists l (member dbg s) /\ drains (sel_next_back dbg) (sel_iter s) (rev l) /\
      forall sched, exists out rest, runs (sel_next dbg) (sel_next_back dbg) (sel_iter s) sched out /\
        Permutation (somes out ++ rest) l /\ (In None out -> rest = []).
  Proof.
    intros W G Hl. destruct (chunks_of s W G _ (incl_refl _)) as (ls & C).
    assert (L : lists (concat ls) (member dbg s)).
    { destruct (chunks_lists s ls W C) as [L1 L2]. split; auto. intros x. rewrite member_in by auto. apply L2. }
    exists (concat ls). split; [exact L|]. split.
    - destruct (sel_iter_back dbg s W G Hl) as (l & [L1 L2] & D).
      assert (l = concat ls) as <-; [|exact D]. apply (lists_unique l (concat ls) (member dbg s)); auto.
      split; auto. intros x. rewrite member_in by auto. apply L2.
    - intros sched. destruct (both_sched dbg sched _ _ ls [] (both_start s ls W Hl C) C) as (out & rest & R & P & Q).
      exists out, rest. rewrite app_nil_r in P. auto.
  Qed.

  (** On a complement of a Selection built by unions reverse iteration is right,
      whatever is missing, and every schedule yields each member at most once,
      and [None] only after all of them. *)
  Theorem C51_complement_partial dbg p s c : inputs true p -> unions_only p -> run dbg p = Ok s -> sel_complement dbg s = Ok c ->
    exists l, lists l (member dbg c) /\ drains (sel_next_back dbg) (sel_iter c) (rev l) /\
      forall sched, exists out rest, runs (sel_next dbg) (sel_next_back dbg) (sel_iter c) sched out /\
        Permutation (somes out ++ rest) l /\ (In None out -> rest = []).
  Proof.
    intros H U E Ec. destruct (complement_no_hole dbg p s c H U E Ec) as [W N].
    destruct (run_gapless dbg (P_complement p) c H U) as [_ G]; [simpl; now rewrite E|].
    apply both_ends; auto. now apply no_hole_holeless.
  Qed.

  (** The intervals of a Selection, from both ends. *)
  Lemma interval_runs dbg (it : Iter T) sched out : runs (iter_next dbg) (iter_next_back dbg) it sched out ->
    runs (sel_interval_next dbg) (sel_interval_next_back dbg) it sched (map (option_map nrm) out).
  Proof.
    induction 1 as [it|it it' o' sched out E R IH|it it' o' sched out E R IH]; [constructor| |]; simpl.
    - eapply runs_front; [|exact IH]. unfold sel_interval_next. rewrite E. reflexivity.
    - eapply runs_back; [|exact IH]. unfold sel_interval_next_back. rewrite E. reflexivity.
  Qed.
  Lemma deque_run_map {A B} (f : A -> B) sched : forall l, deque_run (map f l) sched = map (option_map f) (deque_run l sched).
  Proof.
    induction sched as [|[] sched IH]; intros l; simpl; auto.
    - destruct l as [|a l]; simpl; rewrite <- IH; reflexivity.
    - rewrite <- map_rev. destruct (rev l) as [|a k]; simpl; rewrite <- ?map_rev, <- IH; reflexivity.
  Qed.
  Lemma intervals_both_ends dbg s : wf s -> holeless s ->
    forall sched, runs (sel_interval_next dbg) (sel_interval_next_back dbg) (sel_interval_iter s) sched (deque_run (map nrm (pieces None s)) sched).
  Proof. intros W N sched. rewrite deque_run_map. apply interval_runs. now apply brep_runs. Qed.

  Lemma interval_back_prefix dbg n : forall s X rest, length (pieces None s) = n -> chain false s false = true -> holeless s ->
    drains (sel_interval_next_back dbg) (st (X ++ s) None) (rev (map nrm (pieces None s)) ++ rest) ->
    drains (sel_interval_next_back dbg) (st X None) rest.
  Proof.
    induction n as [|n IH]; intros s X rest L H N D.
    - destruct (pieces None s) eqn:E; [|discriminate]. rewrite (pieces_nil_chain s H E), app_nil_r in D. exact D.
    - destruct (ends (pieces None s)) as [E|(l & a & E)]; [rewrite E in L; discriminate|].
      destruct (back_prefix dbg s H N a l E) as (s' & H' & N' & El & Eq).
      rewrite E, map_app, rev_app_distr in D. simpl in D. inversion D as [|it it' a' l' En D']; subst.
      unfold sel_interval_next_back in En. rewrite (Eq X) in En. simpl in En. injection En as <-.
      apply (IH s'); auto. rewrite E, app_length in L. simpl in L. lia.
  Qed.
  Lemma interval_back_holeless dbg s : wf s -> open_cov (den false s) ->
    drains (sel_interval_next_back dbg) (sel_interval_iter s) (rev (map nrm (pieces None s))) -> holeless s.
  Proof.
    intros W Op D. destruct (holeless_dec s) as [N|N]; auto. exfalso.
    destruct (chunks_of s W (open_gapless _ Op) _ (incl_refl _)) as (ls & C).
    destruct (around_hole s W N) as (A & w & x & d & B & k & Es & HB & NB & Lw & Kw & Bw & Ep). subst s.
    assert (Hin : In (raw_new (tine_into_inner w) (Exclude x)) (pieces None ((A ++ [w; TPoint (Exclude x); TUpper d]) ++ B))).
    { rewrite Ep. apply in_app_iff. left. apply in_app_iff. right. left. reflexivity. }
    destruct (chunks_lookup _ _ _ C Hin) as (lw & _ & Rw).
    assert (Nw : lw <> []).
    { destruct (piece_point _ _ W (open_gapless _ Op) Hin) as (y & Hy). apply (proj2 (nrm_points _ y)) in Hy. apply Rw in Hy. now intros ->. }
    rewrite Ep, !map_app, rev_app_distr in D. apply (interval_back_prefix dbg _ B _ _ eq_refl HB NB) in D.
    rewrite rev_app_distr in D. simpl in D. inversion D as [|it it' a' l' En D']; subst.
    unfold sel_interval_next_back in En. rewrite hole_first in En. simpl in En. injection En as <-.
    inversion D' as [|it2 it2' a2 l2 En2 D2]; subst. unfold sel_interval_next_back in En2.
    destruct (hole_second dbg A w x Lw Kw) as [K|(lo & its & K)]; rewrite K in En2; [discriminate|]. simpl in En2. injection En2 as En2 _.
    assert (Q : nrm (raw_new lo (tine_into_inner w)) = nrm (raw_new (tine_into_inner w) (Exclude x))) by (unfold nrm, interval_from_raw; now rewrite En2).
    destruct (ends lw) as [->|(lw' & m & ->)]; [now destruct Nw|].
    destruct (irep_back _ _ _ Rw) as (i' & Ei & _).
    rewrite <- Q in Ei.
    destruct (open_excluded _ _ W Op Hin) as [Kl _].
    assert (Nu : forall y, tine_into_inner w <> Include y).
    { intros y E. apply (Kl y). rewrite E. unfold before in Bw. rewrite E in Bw. simpl. unfold raw_right_open. unfold lt in Bw. now rewrite Bw. }
    assert (Hm : raw_contains (raw_new (tine_into_inner w) (Exclude x)) m = true).
    { apply nrm_points. destruct Rw as [_ [_ Rw]]. apply Rw. apply in_app_iff. right. left. auto. }
    destruct (wrong_value _ _ _ _ Nu Ei) as [->|(y & Ey & Ly)].
    - apply raw_new_contains in Hm as [[_ Hm]|Hm]; pose proof (max_ge x) as Mx.
      + simpl in Hm. generalize dependent MAXIMUM. clear. order.
      + unfold before in Bw. destruct (tine_into_inner w) as [y|y|]; simpl in Hm; [now specialize (Nu _ eq_refl)|tauto|tauto].
    - rewrite Ey in *. unfold before in Bw. rewrite Ey in Bw. apply raw_new_contains in Hm as [[Hm _]|Hm]; simpl in Hm; [clear - Ly Hm; order|tauto].
  Qed.

  (** For Selections built by unions: the intervals come out right from the
      back, and on every schedule, exactly when there is no lone gap. *)
  Theorem C34_selection_iff_partial dbg p s l : inputs true p -> unions_only p -> run dbg p = Ok s -> sel_intervals_are dbg s l ->
    ((forall sched, runs (sel_interval_next dbg) (sel_interval_next_back dbg) (sel_interval_iter s) sched (deque_run l sched)) <->
     (forall x, ~ lone_gap (member dbg s) x)) /\
    (drains (sel_interval_next_back dbg) (sel_interval_iter s) (rev l) <-> forall x, ~ lone_gap (member dbg s) x).
  Proof.
    intros H U E D. destruct (run_open dbg p s H U E) as [W Op]. apply sel_intervals_pieces in D; auto. subst l.
    assert (K1 : (forall x, ~ lone_gap (member dbg s) x) ->
      forall sched, runs (sel_interval_next dbg) (sel_interval_next_back dbg) (sel_interval_iter s) sched (deque_run (map nrm (pieces None s)) sched)).
    { intros N. apply intervals_both_ends; auto. exact (no_lone_holeless dbg p s H U E N). }
    assert (K2 : drains (sel_interval_next_back dbg) (sel_interval_iter s) (rev (map nrm (pieces None s))) -> forall x, ~ lone_gap (member dbg s) x).
    { intros D x Hx. apply lone_member in Hx; auto. apply hole_open in Hx; auto. apply hole_tine in Hx; auto.
      pose proof (interval_back_holeless dbg s W Op D) as N. unfold holeless in N. rewrite Forall_forall in N. now specialize (N _ Hx). }
    split; split; auto.
    - intros R. apply K2. exact (deque_drains_back _ _ _ _ R).
    - intros N. exact (deque_drains_back (sel_interval_next dbg) _ _ _ (K1 N)).
  Qed.

  (** The intervals of a complement of a Selection built by unions are the
      maximal runs of values, and come out right on every schedule. *)
  Theorem C50_complement_partial dbg p s c : inputs true p -> unions_only p -> run dbg p = Ok s -> sel_complement dbg s = Ok c ->
    exists l, Forall closed_form l /\ (forall x, some_icontains l x <-> member dbg c x) /\ StronglySorted (apart (member dbg c)) l /\
      forall sched, runs (sel_interval_next dbg) (sel_interval_next_back dbg) (sel_interval_iter c) sched (deque_run l sched).
  Proof.
    intros H U E Ec. destruct (complement_no_hole dbg p s c H U E Ec) as [W N].
    assert (Ch : do_calls dbg [C_union p; C_complement] sel_new = Ok c /\ Forall call_inputs [C_union p; C_complement] /\
      all_careful [C_union p; C_complement] (fun _ : T => False)).
    { destruct (run_open dbg p s H U E) as [Ws _]. split; [|split; [repeat constructor; auto|simpl; auto]].
      simpl. rewrite E. simpl. destruct (tree_union_ok dbg sel_new s new_wf Ws) as (r & Er & Wr & Dr).
      unfold sel_union. rewrite Er. simpl. assert (r = s) as -> by (apply den_ext; auto; intros q; now rewrite Dr). now rewrite Ec. }
    destruct Ch as (E' & In & Ca). destruct (C93_iteration dbg _ c In Ca E') as ((l & D & CF & M & S) & _).
    exists l. split; auto. split; auto. split; auto. apply sel_intervals_pieces in D; auto. subst l.
    apply intervals_both_ends; auto. now apply no_hole_holeless.
  Qed.

  (** After a history of careful calls that leaves no lone gap, both ends can be
      used. *)
  Theorem C93_both_ends dbg (h : list (call T)) s : Forall call_inputs h -> all_careful h (fun _ => False) -> do_calls dbg h sel_new = Ok s ->
    (forall x, ~ lone_gap (member dbg s) x) ->
    exists l, lists l (member dbg s) /\ drains (sel_next_back dbg) (sel_iter s) (rev l) /\
      forall sched, exists out rest, runs (sel_next dbg) (sel_next_back dbg) (sel_iter s) sched out /\
        Permutation (somes out ++ rest) l /\ (In None out -> rest = []).
  Proof.
    intros In Ca E N. destruct (history_run dbg h s In Ca E) as (W & Cl & _). pose proof (proj1 Cl) as G.
    apply both_ends; auto. apply no_hole_holeless; auto. intros x. destruct (hole s x) eqn:Hx; auto. exfalso. apply (N x).
    unfold hole in Hx. destruct G as (G1 & G2 & _).
    destruct (den false s (At x)) eqn:A; [simpl in Hx; rewrite ?andb_false_r in Hx; discriminate|].
    destruct (den false s (Lo x)) eqn:B; [|simpl in Hx; rewrite ?andb_false_r in Hx; discriminate].
    destruct (den false s (Hi x)) eqn:C; [|simpl in Hx; rewrite ?andb_false_r in Hx; discriminate].
    split; [rewrite member_in by auto; unfold inS; congruence|]. split.
    - destruct (G2 x B) as [K|(y & S & K)]; [congruence|]. exists y. split; auto. now rewrite member_in.
    - destruct (G1 x C) as [K|(y & S & K)]; [congruence|]. exists y. split; auto. now rewrite member_in.
  Qed.
End Iterate.
Print Assumptions C51_complement_partial.
Print Assumptions C34_selection_iff_partial.
Print Assumptions C50_complement_partial.
Print Assumptions C93_both_ends.

Local Open Scope Z_scope.
(** What -127 .. 2, 4 and 6 .. 126 leave of i8, with 4 a lone gap, from the back. *)
Example C51_complement_ex : let p := P_union (P_from (cl (-127) 2)) (P_union (P_points [v 4]) (P_from (cl 6 126))) : prog i8 in
  inputs true p /\ unions_only p /\ exists s c, run true p = Ok s /\ sel_complement true s = Ok c /\
    lone_gap (member true c) (v 4) /\
    drains (sel_next_back true) (sel_iter c) [v 127; v 5; v 3; v (-128)] /\
    runs (sel_interval_next true) (sel_interval_next_back true) (sel_interval_iter c) [Back; Front; Back; Back; Front]
      [Some (one 127); Some (one (-128)); Some (pt 5); Some (pt 3); None].
Proof.
  cbv zeta. split; [repeat split; constructor|]. split; [repeat split|]. eexists _, _. do 2 (split; [reflexivity|]).
  split; [split; [discriminate|]; split; eexists; (split; reflexivity)|]. split; [drain|].
  repeat (first [eapply runs_front | eapply runs_back]; [vm_compute; reflexivity|]). constructor.
Qed.
(** 1 .. 3, 6 .. 9: no lone gap, so all schedules are right on its intervals; {1, 3} is not. *)
Example C34_selection_ex : let p := P_union (P_from (cl 1 3)) (P_from (cl 6 9)) : prog i8 in let q := P_points [v 1; v 3] : prog i8 in
  inputs true p /\ unions_only p /\ inputs true q /\ unions_only q /\ exists s o, run true p = Ok s /\ run true q = Ok o /\
    sel_intervals_are true s [cl 1 3; cl 6 9] /\ sel_intervals_are true o [one 1; one 3] /\ lone_gap (member true o) (v 2) /\
    drains (sel_interval_next_back true) (sel_interval_iter s) [cl 6 9; cl 1 3].
Proof.
  cbv zeta. split; [repeat split; constructor|]. split; [repeat split|]. do 2 (split; [exact I|]). eexists _, _. do 2 (split; [reflexivity|]).
  split; [drain|]. split; [drain|]. split; [split; [discriminate|]; split; eexists; (split; reflexivity)|]. drain.
Qed.
(** 0 .. 20 without 5 .. 7, complemented twice: no lone gap. *)
Example C93_both_ends_ex : let h := [C_union_in_place (cl 0 20); C_minus_in_place (cl 5 7); C_complement; C_complement] : list (call i8) in
  Forall call_inputs h /\ all_careful h (fun _ => False) /\ exists s, do_calls true h sel_new = Ok s /\
    sel_intervals_are true s [cl 0 4; cl 8 20] /\ forall x, ~ lone_gap (member true s) x.
Proof.
  cbv zeta. assert (In : Forall call_inputs [C_union_in_place (cl 0 20); C_minus_in_place (cl 5 7); C_complement; C_complement]) by repeat constructor.
  assert (Ca : all_careful [C_union_in_place (cl 0 20); C_minus_in_place (cl 5 7); C_complement; C_complement] (fun _ : i8 => False)).
  { split; [exact I|]. split; [|repeat split].
    intros x [(m & Hm & E)|(m & Hm & E)] [N _]; apply cl_extremes in Hm; try lia; subst m; injection E as <-; apply N; right; reflexivity. }
  split; [exact In|]. split; [exact Ca|]. eexists. split; [reflexivity|].
  match goal with |- context [sel_intervals_are true ?s _] => set (r := s) end.
  assert (D : sel_intervals_are true r [cl 0 4; cl 8 20]) by drain. split; [exact D|].
  destruct (C93_iteration true _ r In Ca eq_refl) as ((l & D' & _ & M & _) & _).
  assert (l = [cl 0 4; cl 8 20]) as -> by exact (drains_det _ _ _ _ D' D).
  assert (V : forall x, member true r x <-> 0 <= ival x <= 4 \/ 8 <= ival x <= 20).
  { intros x. rewrite <- M. unfold some_icontains. split.
    - intros (i & [<-|[<-|[]]] & K); apply cl_points in K; lia.
    - intros [K|K]; [exists (cl 0 4)|exists (cl 8 20)]; (split; [simpl; auto|]; apply cl_points; lia). }
  intros x (N & (y & Ey & Hy) & (z & Ez & Hz)). rewrite V in N, Hy, Hz. apply pred_some in Ey as [Y1 Y2]. apply succ_some in Ez as [Z1 Z2].
  apply (proj1 (int_lt_val _ _)) in Y1. apply (proj1 (int_lt_val _ _)) in Z1. assert (ival x <= 6 \/ ival x = 7) as [K|K] by lia.
  - assert (Q : lt x (v 7)) by (apply int_lt_val; rewrite v_val; lia). apply Z2, (proj1 (int_le_val _ _)) in Q. rewrite v_val in Q by lia. lia.
  - assert (Q : lt (v 6) x) by (apply int_lt_val; rewrite v_val; lia). apply Y2, (proj1 (int_le_val _ _)) in Q. rewrite v_val in Q by lia. lia.
Qed.

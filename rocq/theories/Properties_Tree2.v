(** * What the intersection of two trees really computes: C38, C45 *)
From Coq Require Import List Bool ZArith Lia Sorted QArith Qcanon.
From Verif Require Import Base OrdFacts Pos PFinite MBound MRaw MNormalize MTine MBTree MTineTree Ints MInterval MSelection
  Spec Spec_Tree Spec_Sel Spec_More Instances PRaw PRaw2 PNorm PIter PInterval PBTree PTree PTreeOps PTreeIsect PTree2 PTree3 PTree4 PTree5 PTree6 PTree7
  PSel PSel2 PDebug Properties_Interval Properties_Tree Properties_Selection.
Import ListNotations.
Local Open Scope Z_scope.
#[local] Arguments cmp : simpl never.

Section Walk.
  Context {T : Type} {O : Ord T}.
  Implicit Types (s : list (Tine T)) (l A B : list (RawInterval T)) (i j : RawInterval T).

  Lemma walked_nil A : walked A [] = [].
  Proof. now destruct A. Qed.
  Lemma walked_nil_l B : walked [] B = [].
  Proof. now destruct B. Qed.
  Lemma walked_run i A l B : Forall (fun j => raw_is_empty (raw_intersect i j) = false) l ->
    walked (i :: A) (l ++ B) = map (raw_intersect i) l ++ walked (i :: A) B.
  Proof. induction 1 as [|j l H _ IH]; simpl; auto. now rewrite H, IH. Qed.
  Lemma lcovers_map i l p : lcovers (map (raw_intersect i) l) p = covers i p && lcovers l p.
  Proof.
    induction l as [|j l IH]; simpl; [now rewrite andb_false_r|]. fold (lcovers (map (raw_intersect i) l) p). fold (lcovers l p).
    rewrite IH, raw_intersect_covers. now destruct (covers i p), (covers j p).
  Qed.
  Lemma walked_wf A B : Forall raw_wf (walked A B).
  Proof.
    revert A. induction B as [|j B IH]; intros [|i A]; simpl; auto. destruct (raw_is_empty _); auto.
    constructor; auto. apply raw_intersect_wf.
  Qed.

  Lemma intersect_loop_walk dbg : forall fuel s o s2 o2 acc, stok s o -> stok s2 o2 ->
    (length s + (if has o then 1 else 0) < fuel)%nat -> wf acc ->
    exists r, intersect_loop fuel dbg (st s o) (st s2 o2) acc = Ok r /\ wf r /\
      forall p, den false r p = den false acc p || lcovers (walked (pieces o s) (pieces o2 s2)) p.
  Proof.
    induction fuel as [|fuel IH]; intros s o s2 o2 acc [H P] K2 F Wa; [lia|].
    generalize (iter_next_pieces dbg s o H P). generalize (pieces_wf s o). cbn [intersect_loop]. unfold st at 1.
    destruct (pieces o s) as [|i l] eqn:Ep.
    - intros _ [-> ->]. rewrite iter_next_none. cbn [bind]. exists acc. split; [reflexivity|]. split; [auto|].
      intros p. rewrite walked_nil_l. simpl. now rewrite orb_false_r.
    - intros Wl (s' & o' & H' & P' & -> & F' & _ & ->). cbn [bind]. pose proof (Forall_inv Wl) as Wi.
      destruct (segment_ok dbg i Wi (S (iter_size (st s2 o2))) s2 o2 acc K2) as
        (acc' & s3 & o3 & e & l1 & l2 & E & W' & K3 & F3 & P3 & L2 & T3 & N3 & A3 & D3); auto.
      { unfold iter_size, st; simpl. destruct o2; simpl; lia. }
      rewrite E. cbn [bind]. rewrite P3, walked_run by auto. destruct e.
      + destruct (T3 eq_refl) as [-> ->]. exists acc'. split; auto. split; auto.
        intros p. rewrite D3. simpl. rewrite ?app_nil_r, lcovers_map. reflexivity.
      + destruct (N3 eq_refl) as (j & -> & Ej). cbn [app walked]. rewrite Ej.
        destruct (IH s' o' s3 o3 acc') as (r & Er & Wr & D1); auto; [split; auto|lia|].
        exists r. split; auto. split; auto. intros p. rewrite D1, D3, lcovers_app, lcovers_map. symmetry. apply orb_assoc.
  Qed.

  Lemma tree_intersect_walk dbg s s' : wf s -> wf s' ->
    exists r, tree_intersect dbg s s' = Ok r /\ wf r /\
      forall p, den false r p = lcovers (walked (pieces None s) (pieces None s')) p.
  Proof.
    intros W W'. apply (intersect_loop_walk dbg (S (iter_size (st s None))) s None s' None tree_new).
    - destruct W. split; auto. discriminate.
    - destruct W'. split; auto. discriminate.
    - unfold iter_size, st; simpl; lia.
    - apply new_wf.
  Qed.

  Lemma sep_miss i j : raw_wf i -> raw_wf j -> separated i j -> raw_is_empty (raw_intersect i j) = true.
  Proof.
    intros Wi Wj S. destruct (raw_is_empty (raw_intersect i j)) eqn:E; auto. exfalso.
    assert (X : exists p, covers (raw_intersect i j) p = true).
    { destruct (raw_bounds_cases (raw_intersect i j)) as [(Z & _)|(l & u & L & U)]; [rewrite Z in E; discriminate|].
      exists (lpos l). pose proof (raw_intersect_wf i j) as Wk. apply (covers_bounds _ _ l u); auto.
      pose proof (raw_wf_pos _ l u Wk L U). po. }
    destruct X as (p & Hp). rewrite raw_intersect_covers in Hp. apply andb_true_iff in Hp as [Hi Hj].
    pose proof (separated_pos i j S Wi Wj _ _ Hi Hj). po.
  Qed.
  (** Two equal lists, the left one lagging behind by one, never meet again. *)
  Lemma walked_lag A : Forall raw_wf A -> StronglySorted separated A -> walked A (tl A) = [].
  Proof.
    induction A as [|i [|j A] IH]; intros W S; auto.
    inversion W as [|? ? Wi W1]; subst. inversion W1; subst. inversion S as [|? ? S1 S2]; subst. inversion S2; subst.
    cbn [tl walked]. rewrite sep_miss by auto. apply IH; auto.
  Qed.
  Lemma walked_self A : Forall raw_wf A -> Forall (fun i => raw_is_empty i = false) A -> StronglySorted separated A ->
    walked A A = match A with [] => [] | i :: _ => [i] end.
  Proof.
    intros W N S. destruct A as [|i A]; auto. inversion W; subst. inversion N; subst. cbn [walked].
    assert (E : raw_intersect i i = i).
    { apply raw_ext; auto using raw_intersect_wf. intros p. rewrite raw_intersect_covers. apply andb_diag. }
    rewrite E. rewrite H3. f_equal. exact (walked_lag (i :: A) W S).
  Qed.
End Walk.

(** ** C38 *)

(** On every pair of well-formed trees [intersect] is the union of the pieces
    its walk keeps. *)
Theorem C38_intersect_result_partial {T} {O : Ord T} dbg (a b : TineTree T) A B :
  tree_wf a -> tree_wf b -> intervals_are dbg a A -> intervals_are dbg b B ->
  tree_intersect dbg a b = tree_from_iter dbg (walked A B) /\
  exact dbg (tree_intersect dbg a b) (some_contains (walked A B)).
Proof.
  intros Wa Wb HA HB. apply wf_tree_wf in Wa, Wb. apply intervals_pieces in HA, HB; auto. subst.
  destruct (tree_intersect_walk dbg a b Wa Wb) as (r & E & W & D).
  destruct (from_iter_ok dbg _ (walked_wf (pieces None a) (pieces None b))) as (r' & E' & W' & D').
  split.
  - rewrite E, E'. f_equal. apply den_ext; auto. intros p. now rewrite D, D'.
  - apply exact_of_den. exists r. split; auto. split; auto. intros x. rewrite D, lcovers_ex. unfold some_contains.
    split; intros (k & Hk & Hx); exists k; split; auto; now rewrite covers_At in *.
Qed.
Print Assumptions C38_intersect_result_partial.

(** So it is the intersection when the walk visits every pair that meets, and
    over dense orders only then. *)
Lemma walked_in {T} {O : Ord T} (k : RawInterval T) : forall B A, In k (walked A B) ->
  exists i j, In i A /\ In j B /\ k = raw_intersect i j /\ raw_is_empty k = false.
Proof.
  induction B as [|j B IH]; intros [|i A]; simpl; try tauto. destruct (raw_is_empty (raw_intersect i j)) eqn:E.
  - intros H. destruct (IH _ H) as (i' & j' & Hi & Hj & K). exists i', j'. tauto.
  - intros [<-|H]; [exists i, j; tauto|]. destruct (IH _ H) as (i' & j' & Hi & Hj & K). exists i', j'. tauto.
Qed.
Lemma piece_unique {T} {O : Ord T} (s : list (Tine T)) i j p : wf s -> In i (pieces None s) -> In j (pieces None s) ->
  covers i p = true -> covers j p = true -> i = j.
Proof.
  intros W Hi Hj Ci Cj. destruct W as [S H]. assert (SS := pieces_separated s None H ltac:(discriminate) S).
  pose proof (pieces_wf s None) as Wf. rewrite Forall_forall in Wf.
  induction SS as [|k l SS IH Fk]; [destruct Hi|]. rewrite Forall_forall in Fk.
  destruct Hi as [<-|Hi], Hj as [<-|Hj]; auto.
  - assert (L := separated_pos k j (Fk j Hj) (Wf k (or_introl eq_refl)) (Wf j (or_intror Hj)) _ _ Ci Cj). po.
  - assert (L := separated_pos k i (Fk i Hi) (Wf k (or_introl eq_refl)) (Wf i (or_intror Hi)) _ _ Cj Ci). po.
  - apply IH; auto. intros; apply Wf; simpl; auto.
Qed.
Theorem C38_intersect_iff_partial {T} {O : Ord T} dbg (a b : TineTree T) A B :
  tree_wf a -> tree_wf b -> intervals_are dbg a A -> intervals_are dbg b B ->
  ((forall i j, In i A -> In j B -> raw_is_empty (raw_intersect i j) = false -> In (raw_intersect i j) (walked A B)) ->
   exact dbg (tree_intersect dbg a b) (fun x => holds dbg a x /\ holds dbg b x)) /\
  (dense T -> unbounded T -> inhabited T ->
   exact dbg (tree_intersect dbg a b) (fun x => holds dbg a x /\ holds dbg b x) ->
   forall i j, In i A -> In j B -> raw_is_empty (raw_intersect i j) = false -> In (raw_intersect i j) (walked A B)).
Proof.
  intros Wa Wb HA HB. destruct (C38_intersect_result_partial dbg a b A B Wa Wb HA HB) as (_ & (r & E & Wr & R)).
  apply wf_tree_wf in Wa, Wb. apply intervals_pieces in HA, HB; auto. subst.
  assert (K : forall s, wf s -> forall x, holds dbg s x <-> exists i, In i (pieces None s) /\ raw_contains i x = true).
  { intros s W x. rewrite holds_den, <- pieces_den, lcovers_ex by auto. now setoid_rewrite covers_At. }
  split.
  - intros V. exists r. split; auto. split; auto. intros x. destruct (R x) as (c & Ec & Hc). exists c. split; auto. rewrite Hc, !K by auto.
    unfold some_contains. split.
    + intros (k & Hk & Hx). apply walked_in in Hk as (i & j & Hi & Hj & -> & _).
      rewrite <- covers_At, raw_intersect_covers, !covers_At in Hx. apply andb_true_iff in Hx as [? ?]. split; eauto.
    + intros ((i & Hi & Xi) & (j & Hj & Xj)). exists (raw_intersect i j).
      assert (Xk : raw_contains (raw_intersect i j) x = true) by (rewrite <- covers_At, raw_intersect_covers, !covers_At; now rewrite Xi, Xj).
      split; auto. apply V; auto. destruct (raw_intersect i j); auto.
  - intros D U N (r' & E' & _ & R') i j Hi Hj NE. assert (r' = r) as -> by congruence.
    destruct (dense_point _ D U N (raw_intersect_wf i j) NE) as (x & Hx).
    pose proof Hx as Hx'. rewrite <- covers_At, raw_intersect_covers in Hx'. apply andb_true_iff in Hx' as [Xi Xj].
    destruct (R x) as (c & Ec & Hc), (R' x) as (c' & Ec' & Hc'). assert (c' = c) as -> by congruence.
    assert (C : c = true). { apply Hc'. rewrite !K by auto. rewrite covers_At in Xi, Xj. split; eauto. }
    apply Hc in C as (k & Hk & Kx). pose proof (walked_in k _ _ Hk) as (i' & j' & Hi' & Hj' & -> & _).
    rewrite <- covers_At, raw_intersect_covers in Kx. apply andb_true_iff in Kx as [Xi' Xj'].
    now rewrite (piece_unique a i i' (At x)), (piece_unique b j j' (At x)) by auto.
Qed.
Print Assumptions C38_intersect_iff_partial.

(** In particular intersecting a tree with itself, or with everything on the
    right, keeps its first interval only. *)
Theorem C38_intersect_self_partial {T} {O : Ord T} dbg (a : TineTree T) i l :
  tree_wf a -> intervals_are dbg a (i :: l) ->
  tree_intersect dbg a a = Ok (tree_from_raw_interval i) /\
  tree_intersect dbg a (tree_from_raw_interval Full) = Ok (tree_from_raw_interval i) /\
  tree_intersect dbg (tree_from_raw_interval Full) a = Ok a.
Proof.
  intros Wa HA. apply wf_tree_wf in Wa. apply intervals_pieces in HA; auto.
  assert (Wi : raw_wf i) by (apply (Forall_inv (P := raw_wf) (l := l)); rewrite HA; apply pieces_wf).
  assert (Ni : raw_is_empty i = false). { destruct Wa as [S H]. apply (pieces_nonempty a None i H); auto; [discriminate|]. rewrite <- HA. now left. }
  destruct (from_raw_wf i Wi) as (Wf & Ef & Df). rewrite Ef.
  assert (Wfull : wf (tree_from_raw_interval (@Full T))) by apply full_tree_wf.
  assert (Pf : pieces None (tree_from_raw_interval (@Full T)) = [Full]) by reflexivity.
  assert (E : forall j, raw_wf j -> raw_intersect j Full = j).
  { intros j Wj. apply raw_ext; auto using raw_intersect_wf. intros p. rewrite raw_intersect_covers. destruct p, (covers j _); reflexivity. }
  split; [|split].
  - destruct (tree_intersect_walk dbg a a Wa Wa) as (r & Er & Wr & D). rewrite Er. f_equal. apply den_ext; auto.
    intros p. rewrite D, Df, walked_self; [|apply pieces_wf| |].
    + rewrite <- HA. simpl. now rewrite orb_false_r.
    + apply Forall_forall. intros j Hj. destruct Wa as [S H]. apply (pieces_nonempty a None j H); auto; discriminate.
    + destruct Wa as [S H]. apply pieces_separated; auto. discriminate.
  - destruct (tree_intersect_walk dbg a _ Wa Wfull) as (r & Er & Wr & D). rewrite Er. f_equal. apply den_ext; auto.
    intros p. rewrite D, Df, Pf, <- HA. simpl. rewrite E, Ni by auto. simpl. now rewrite orb_false_r.
  - destruct (tree_intersect_single dbg _ a Full Wfull Wa Pf) as (r & Er & Wr & D).
    + apply Forall_forall. intros j Hj. destruct Wa as [S H].
      replace (raw_intersect Full j) with j; [apply (pieces_nonempty a None j H); auto; discriminate|].
      pose proof (pieces_wf a None) as W. rewrite Forall_forall in W. symmetry.
      apply raw_ext; auto using raw_intersect_wf. intros p. rewrite raw_intersect_covers. destruct p, (covers j _); reflexivity.
    + rewrite Er. f_equal. apply den_ext; auto. intros p. rewrite D, <- (pieces_den _ p Wfull), Pf. destruct p; reflexivity.
Qed.
Print Assumptions C38_intersect_self_partial.
Example C38_walk_ex : tree_wf exZ /\ intervals_are true exZ [Closed 0 1; Open 3 5; UpFrom 5] /\
  walked [Closed 0 1; Open 3 5; UpFrom 5] [To 4; From 6] = [Closed 0 1] /\
  walked [To 4; From 6] [Closed 0 1; Open 3 5; UpFrom 5] = [Closed 0 1; LeftOpen 3 4] .
Proof. split; [apply exZ_wf|]. split; [drain|]. split; reflexivity. Qed.

(** ** C45: the same for Selections *)
Section Denorm.
  Context {T : Type} {O : Ord T} {F : Finite T}.
  (** The open form a Selection stores an interval in. *)
  Definition dn (i : Interval T) : RawInterval T := denormalized (interval_raw i).

  Lemma pred_succ_iff (x y : T) : pred x = Some y <-> succ y = Some x.
  Proof.
    rewrite pred_some, succ_some. split; intros [L H]; split; auto; intros z Hz.
    - destruct (cmp x z) eqn:E; [order| |]; [order|]. assert (K : lt z x) by order. specialize (H z K). order.
    - destruct (cmp z y) eqn:E; [order|order|]. assert (K : lt y z) by order. specialize (H z K). order.
  Qed.
  Lemma denorm_norm_open (r : RawInterval T) x : raw_wf r -> raw_contains r x = true ->
    (forall y, raw_lower_bound r <> Some (Include y)) -> (forall y, raw_upper_bound r <> Some (Include y)) ->
    denormalized (normalized r) = r.
  Proof.
    intros W X Hl Hu. apply raw_contains_points in X.
    destruct r as [|z|l r|l r|l r|l r|r|l|z|z|]; simpl in *; try (now destruct (Hl z)); try (now destruct (Hl l)); try (now destruct (Hu z)); try (now destruct (Hu r)); try tauto.
    - destruct (succ l) as [l'|] eqn:E1; [|apply succ_none in E1; forder].
      destruct (pred r) as [r'|] eqn:E2; [|apply pred_none in E2; forder].
      simpl. now rewrite (proj2 (pred_succ_iff l' l) E1), (proj1 (pred_succ_iff r r') E2).
    - destruct (pred r) as [r'|] eqn:E2; [|apply pred_none in E2; forder].
      simpl. now rewrite (proj2 (pred_none MINIMUM) eq_refl), (proj1 (pred_succ_iff r r') E2).
    - destruct (succ l) as [l'|] eqn:E1; [|apply succ_none in E1; forder].
      simpl. now rewrite (proj2 (succ_none MAXIMUM) eq_refl), (proj2 (pred_succ_iff l' l) E1).
    - now rewrite (proj2 (pred_none MINIMUM) eq_refl), (proj2 (succ_none MAXIMUM) eq_refl).
  Qed.
End Denorm.

Lemma open_pieces {T} {O : Ord T} {F : Finite T} (s : Selection T) : wf s -> open_cov (den false s) ->
  map dn (map nrm (pieces None s)) = pieces None s.
Proof.
  intros W Op. rewrite map_map. rewrite <- (map_id (pieces None s)) at 2. apply map_ext_in. intros r Hr.
  unfold dn. rewrite nrm_raw. destruct (open_excluded s r W Op Hr) as [Hl Hu].
  destruct (piece_point s r W (open_gapless _ Op) Hr) as (x & Hx). apply (denorm_norm_open r x); auto. now apply (piece_wf s).
Qed.

(** For Selections built by unions, [intersect] is described by the walk over
    the open forms of the two lists of intervals, in which intervals without a
    common value but next to each other also count as meeting. *)
Theorem C45_intersect_result_partial {T} {O : Ord T} {F : Finite T} dbg (p q : prog T) a b A B :
  inputs true p -> unions_only p -> run dbg p = Ok a -> inputs true q -> unions_only q -> run dbg q = Ok b ->
  sel_intervals_are dbg a A -> sel_intervals_are dbg b B ->
  exists r, sel_intersect dbg a b = Ok r /\ sel_is dbg r (some_contains (walked (map dn A) (map dn B))) /\
    sel_intersects dbg a b = Ok (match walked (map dn A) (map dn B) with [] => false | _ => true end).
Proof.
  intros Hp Up Ep Hq Uq Eq HA HB. destruct (run_open dbg p a Hp Up Ep) as [Wa Oa]. destruct (run_open dbg q b Hq Uq Eq) as [Wb Ob].
  apply sel_intervals_pieces in HA, HB; auto. subst A B. rewrite !open_pieces by auto.
  destruct (tree_intersect_walk dbg a b Wa Wb) as (r & E & W & D). exists r. split; [exact E|]. split.
  - intros x. exists (den false r (At x)). unfold sel_contains. rewrite tree_contains_den by auto. split; auto.
    rewrite D, lcovers_ex. unfold some_contains. now setoid_rewrite covers_At.
  - unfold sel_intersects. rewrite E. simpl. f_equal. unfold tree_is_empty.
    destruct (walked (pieces None a) (pieces None b)) as [|k K] eqn:Ek.
    + replace r with (@nil (Tine T)); auto. apply den_ext; auto using new_wf. intros x. now rewrite D.
    + destruct r; auto. exfalso. assert (Hk : In k (walked (pieces None a) (pieces None b))) by (rewrite Ek; now left).
      apply walked_in in Hk as (i & j & _ & _ & Eij & Ne).
      destruct (raw_bounds_cases k) as [(Z & _)|(l & u & L & U)]; [rewrite Z in Ne; discriminate|].
      assert (C : covers k (lpos l) = true).
      { pose proof (raw_intersect_wf i j) as Wk. rewrite <- Eij in Wk. apply (covers_bounds _ _ l u); auto.
        pose proof (raw_wf_pos _ l u Wk L U). po. }
      specialize (D (lpos l)). simpl in D. rewrite C in D. discriminate.
Qed.
Print Assumptions C45_intersect_result_partial.

(** A Selection intersected with itself, or with everything on the right, is
    its first interval; with everything on the left it is unchanged. *)
Theorem C45_intersect_self_partial {T} {O : Ord T} {F : Finite T} dbg (p : prog T) s i l :
  inputs false p -> run dbg p = Ok s -> sel_intervals_are dbg s (i :: l) ->
  (exists r, sel_intersect dbg s s = Ok r /\ sel_intersect dbg s sel_full = Ok r /\ sel_is dbg r (ipoints i)) /\
  sel_intersect dbg sel_full s = Ok s.
Proof.
  intros H E HA. pose proof (run_wf dbg p s H E) as W. apply sel_intervals_pieces in HA; auto.
  destruct (pieces None s) as [|k K] eqn:Ek; [discriminate|]. injection HA as -> ->.
  assert (Ef : @sel_full T _ _ = tree_from_raw_interval Full).
  { apply den_ext; [apply (full_den NInf)|apply full_tree_wf|]. intros x. rewrite (proj1 (full_den x)). symmetry. apply full_tree_den. }
  destruct (C38_intersect_self_partial dbg s k K) as (E1 & E2 & E3).
  { now apply wf_tree_wf. } { unfold intervals_are. rewrite <- Ek. now apply pieces_drains. }
  unfold sel_intersect. rewrite Ef, E1, E2, E3. split; auto. eexists. split; [reflexivity|]. split; [reflexivity|].
  assert (Wk : raw_wf k) by (apply (piece_wf s); rewrite Ek; now left). destruct (from_raw_wf k Wk) as (Wr & -> & Dr).
  intros x. exists (den false (tine_from_raw_interval k) (At x)). unfold sel_contains. rewrite tree_contains_den by auto.
  split; auto. now rewrite Dr, covers_At, nrm_points.
Qed.
Print Assumptions C45_intersect_self_partial.
Example C45_self_ex : inputs false ex1 /\ exists s, run true ex1 = Ok s /\ sel_intervals_are true s [one 1; one 3; cl 5 9] /\
  map dn [one 1; one 3; cl 5 9] = [Open (v 0) (v 2); Open (v 2) (v 4); Open (v 4) (v 10)] /\
  walked [Open (v 0) (v 2); Open (v 2) (v 4); Open (v 4) (v 10)] [Open (v 0) (v 2); Open (v 2) (v 4); Open (v 4) (v 10)] = [Open (v 0) (v 2)].
Proof. split; [apply ex1_inputs|]. eexists. split; [reflexivity|]. split; [drain|]. split; reflexivity. Qed.

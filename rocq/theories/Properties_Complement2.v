(** * [intersect] with a complement of a Selection built by unions (C45) *)
From Coq Require Import List Bool ZArith Lia Sorted Permutation.
From Verif Require Import Base OrdFacts Pos PFinite Ints MBound MRaw MNormalize MTine MBTree MTineTree MInterval MSelection
  Spec Spec_Tree Spec_Sel Spec_More Spec_Domain PRaw PRaw2 PNorm PIter PInterval PBTree PTree PTreeOps PTreeIsect PTree2 PTree3 PTree4 PTree5 PTree6 PTree7
  PSel PSel2 PSel3 PSel4 Instances Properties_Interval Properties_Tree Properties_Selection Properties_Tree2 PBoth Properties_Both
  PDomain PDomain2.
Import ListNotations.
Local Arguments cmp : simpl never.

(** Two intervals have a common value. *)
Definition sharing {T} {O : Ord T} {F : Finite T} (i j : Interval T) : Prop := exists x, ipoints i x /\ ipoints j x.

Section Meet.
  Context {T : Type} {O : Ord T} {F : Finite T}.
  Implicit Types (s a b : Selection T) (p q : prog T) (r k : RawInterval T).

  (** There is room for a value's end between two pieces. *)
  Lemma apart_pos s r k (u w : pos T) : wf s -> In r (pieces None s) -> In k (pieces None s) -> separated r k ->
    covers r u = true -> covers k w = true ->
    (exists z, lt u (At z) /\ lt (At z) w) \/ exists z z', le u (At z) /\ lt z z' /\ le (At z') w.
  Proof.
    intros W Ir Ik S Cu Ck.
    destruct (piece_bounds s r W Ir) as (lr & ur & Lr & Ur & _), (piece_bounds s k W Ik) as (lk & uk & Lk & Uk & _).
    apply (covers_bounds r _ _ _ Lr Ur) in Cu as [_ Cu]. apply (covers_bounds k _ _ _ Lk Uk) in Ck as [Ck _].
    unfold separated in S. rewrite Ur, Lk in S. clear - Cu Ck S.
    destruct ur as [x|x|], lk as [y|y|]; try contradiction; cbn [upos lpos] in *.
    - right. exists x, y. auto.
    - left. exists y. split; po.
    - left. exists x. split; po.
    - left. exists x. split; po.
  Qed.
  Lemma same_piece s r (u w : pos T) : wf s -> In r (pieces None s) -> covers r u = true -> den false s w = true ->
    (forall z, ~ (lt u (At z) /\ lt (At z) w)) -> (forall z, ~ (lt w (At z) /\ lt (At z) u)) ->
    (forall z z', ~ (le u (At z) /\ lt z z' /\ le (At z') w)) -> (forall z z', ~ (le w (At z) /\ lt z z' /\ le (At z') u)) ->
    covers r w = true.
  Proof.
    intros W Ir Cu Dw B1 B2 B3 B4. destruct (den_piece s w W Dw) as (k & Ik & Ck).
    destruct (pieces_order s r k W Ir Ik) as [<-|[S|S]]; auto; exfalso.
    - destruct (apart_pos s r k u w W Ir Ik S Cu Ck) as [(z & K)|(z & z' & K)]; [exact (B1 z K)|exact (B3 z z' K)].
    - destruct (apart_pos s k r w u W Ik Ir S Ck Cu) as [(z & K)|(z & z' & K)]; [exact (B2 z K)|exact (B4 z z' K)].
  Qed.
  Ltac near := eapply same_piece; eauto; intros; intros Z; decompose [and] Z; clear Z; try po.
  Lemma near_Hi s r x : wf s -> In r (pieces None s) -> covers r (Hi x) = true -> den false s (At x) = true -> covers r (At x) = true.
  Proof. intros. near. Qed.
  Lemma near_Lo s r x : wf s -> In r (pieces None s) -> covers r (Lo x) = true -> den false s (At x) = true -> covers r (At x) = true.
  Proof. intros. near. Qed.
  Lemma near_succ s r x y : wf s -> In r (pieces None s) -> succ x = Some y -> covers r (Hi x) = true -> den false s (At y) = true -> covers r (At y) = true.
  Proof.
    intros W Ir E. apply succ_some in E as [E1 E2]. intros C D. near.
    - assert (K : lt x z) by po. apply E2 in K. po.
    - assert (K : lt x z) by po. apply E2 in K. po.
  Qed.
  Lemma near_pred s r x y : wf s -> In r (pieces None s) -> pred x = Some y -> covers r (Lo x) = true -> den false s (At y) = true -> covers r (At y) = true.
  Proof.
    intros W Ir E. apply pred_some in E as [E1 E2]. intros C D. near.
    - assert (K : lt z x) by po. apply E2 in K. po.
    - assert (K : lt z' x) by po. apply E2 in K. po.
  Qed.
  Lemma near_NInf s r : wf s -> In r (pieces None s) -> covers r NInf = true -> den false s (At MINIMUM) = true -> covers r (At MINIMUM) = true.
  Proof.
    intros W Ir C D. near; pose proof (min_le z) as M; try pose proof (min_le z') as M'; po.
  Qed.
  Lemma near_PInf s r : wf s -> In r (pieces None s) -> covers r PInf = true -> den false s (At MAXIMUM) = true -> covers r (At MAXIMUM) = true.
  Proof.
    intros W Ir C D. near; pose proof (max_ge z) as M; try pose proof (max_ge z') as M'; po.
  Qed.

  (** A piece of a complement and one of a Selection without hollow pieces
      meet only in a value. *)
  Definition closed_cov (c : pos T -> bool) : Prop :=
    (forall x, c (Hi x) = true -> c (At x) = true /\ forall y, succ x = Some y -> c (At y) = true) /\
    (forall x, c (Lo x) = true -> c (At x) = true /\ forall y, pred x = Some y -> c (At y) = true) /\
    (c NInf = true -> c (At MINIMUM) = true) /\ (c PInf = true -> c (At MAXIMUM) = true).

  Lemma closed_meets a b r k : wf a -> wf b -> closed_cov (den false a) -> gapless (den false b) ->
    In r (pieces None a) -> In k (pieces None b) ->
    (exists u, covers r u = true /\ covers k u = true) <-> exists x, ipoints (nrm r) x /\ ipoints (nrm k) x.
  Proof.
    intros Wa Wb (A1 & A2 & A3 & A4) (B1 & B2 & B3 & B4) Ir Ik.
    transitivity (exists x, covers r (At x) = true /\ covers k (At x) = true); 
      [|split; intros (x & K1 & K2); exists x; rewrite !covers_At in *; split; now apply nrm_points].
    split; [|intros (x & K); eauto].
    intros ([|x|x|x|] & C1 & C2); pose proof (piece_den a r _ Wa Ir C1) as D1; pose proof (piece_den b k _ Wb Ik C2) as D2.
    - exists MINIMUM. split; [apply (near_NInf a)|apply (near_NInf b)]; auto.
    - destruct (A2 x D1) as [Q1 Q2]. destruct (B2 x D2) as [K|(y & E & K)]; [exists x|exists y]; split.
      + now apply (near_Lo a).
      + now apply (near_Lo b).
      + apply (near_pred a r x y); auto.
      + now apply (near_pred b k x y).
    - eauto.
    - destruct (A1 x D1) as [Q1 Q2]. destruct (B1 x D2) as [K|(y & E & K)]; [exists x|exists y]; split.
      + now apply (near_Hi a).
      + now apply (near_Hi b).
      + apply (near_succ a r x y); auto.
      + now apply (near_succ b k x y).
    - exists MAXIMUM. split; [apply (near_PInf a)|apply (near_PInf b)]; auto.
  Qed.
  Lemma complement_closed dbg p s c : inputs true p -> unions_only p -> run dbg p = Ok s -> sel_complement dbg s = Ok c ->
    wf c /\ closed_cov (den false c) /\ gapless (den false c).
  Proof.
    intros H U E Ec. destruct (run_open dbg p s H U E) as [W (A & B & C & D)].
    destruct (run_gapless dbg (P_complement p) c H U) as [_ G]; [simpl; now rewrite E|].
    destruct (complement_ok dbg s W) as (r & Er & Wr & Dr). unfold sel_complement in Ec. rewrite Er in Ec. injection Ec as ->.
    split; auto. split; auto. repeat split; intros; rewrite Dr in *; rewrite ?A, ?B, ?C, ?D in *;
      repeat match goal with H : _ |- _ => rewrite negb_orb in H; apply andb_true_iff in H as [? ?] end; auto.
    - now rewrite H1 in *.
    - now rewrite H1 in *.
  Qed.

  (** ** The walk *)
  Lemma visited_map {I J} (f : I -> J) (m : I -> I -> Prop) (m' : J -> J -> Prop) : forall B A,
    (forall i j, In i A -> In j B -> (m i j <-> m' (f i) (f j))) ->
    forall x y, visited m' (map f A) (map f B) x y <-> exists i j, visited m A B i j /\ x = f i /\ y = f j.
  Proof.
    induction B as [|j B IH]; intros [|i A] Q x y; simpl; try solve [split; [intros K; inversion K|intros (? & ? & K & _); inversion K]].
    pose proof (Q i j (or_introl eq_refl) (or_introl eq_refl)) as Qij.
    assert (Q1 : forall i0 j0, In i0 (i :: A) -> In j0 B -> (m i0 j0 <-> m' (f i0) (f j0))) by (intros; apply Q; simpl; auto).
    assert (Q2 : forall i0 j0, In i0 A -> In j0 B -> (m i0 j0 <-> m' (f i0) (f j0))) by (intros; apply Q; simpl; auto).
    split.
    - intros V. apply visited_inv in V as [[M [[-> ->]|V]]|[M V]].
      + exists i, j. split; auto. apply visited_here. now apply Qij.
      + apply (IH (i :: A) Q1) in V as (i' & j' & V & E). exists i', j'. split; auto. apply visited_right; auto. now apply Qij.
      + apply (IH A Q2) in V as (i' & j' & V & E). exists i', j'. split; auto. apply visited_both; auto. rewrite Qij. exact M.
    - intros (i' & j' & V & -> & ->). apply visited_inv in V as [[M [[-> ->]|V]]|[M V]].
      + apply visited_here. now apply Qij.
      + apply visited_right; [now apply Qij|]. apply (IH (i :: A) Q1). eauto.
      + apply visited_both; [now rewrite <- Qij|]. apply (IH A Q2). eauto.
  Qed.

  Lemma intersect_sharing dbg a b : wf a -> wf b ->
    (forall r k, In r (pieces None a) -> In k (pieces None b) ->
       ((exists u, covers r u = true /\ covers k u = true) <-> sharing (nrm r) (nrm k))) ->
    let A := map nrm (pieces None a) in let B := map nrm (pieces None b) in
    (exists t, sel_intersect dbg a b = Ok t /\ sel_is dbg t (fun x => exists i j, visited sharing A B i j /\ ipoints i x /\ ipoints j x)) /\
    exists c, sel_intersects dbg a b = Ok c /\ (c = true <-> exists i j, visited sharing A B i j).
  Proof.
    intros Wa Wb Q A B.
    assert (V : forall i j, visited sharing A B i j <->
      exists r k, visited (fun i j => raw_intersects i j = true) (pieces None a) (pieces None b) r k /\ i = nrm r /\ j = nrm k).
    { intros i j. apply visited_map. intros r k Ir Ik. rewrite <- Q by auto. exact (meets_covers r k). }
    destruct (tree_intersect_walk dbg a b Wa Wb) as (t & E & W & D). split.
    - exists t. split; [exact E|]. intros x. exists (den false t (At x)). unfold sel_contains. rewrite tree_contains_den by auto. split; auto.
      rewrite D, lcovers_ex. setoid_rewrite V. setoid_rewrite walked_visited. split.
      + intros (l & (r & k & Vr & ->) & C). rewrite covers_At, raw_intersect_contains, andb_true_iff in C.
        exists (nrm r), (nrm k). rewrite !nrm_points. split; [eauto|tauto].
      + intros (i & j & (r & k & Vr & -> & ->) & X1 & X2). apply (proj1 (nrm_points _ _)) in X1. apply (proj1 (nrm_points _ _)) in X2.
        exists (raw_intersect r k). split; [eauto|]. now rewrite covers_At, raw_intersect_contains, X1, X2.
    - exists (negb (tree_is_empty t)). split; [unfold sel_intersects; rewrite E; reflexivity|].
      assert (K : t = [] <-> walked (pieces None a) (pieces None b) = []).
      { split.
        - intros ->. destruct (walked (pieces None a) (pieces None b)) as [|k K] eqn:Ek; auto. exfalso.
          assert (Hk : In k (walked (pieces None a) (pieces None b))) by (rewrite Ek; now left).
          apply walked_in in Hk as (i & j & _ & _ & Eij & Ne).
          destruct (raw_bounds_cases k) as [(Z & _)|(l & u & L & U)]; [rewrite Z in Ne; discriminate|].
          assert (C : covers k (lpos l) = true).
          { pose proof (raw_intersect_wf i j) as Wk. rewrite <- Eij in Wk. apply (covers_bounds _ _ l u); auto.
            pose proof (raw_wf_pos _ l u Wk L U). po. }
          specialize (D (lpos l)). simpl in D. rewrite C in D. discriminate.
        - intros K. apply den_ext; auto using new_wf. intros x. rewrite D, K. reflexivity. }
      split.
      + intros N. destruct (walked (pieces None a) (pieces None b)) as [|k l] eqn:Ek.
        * rewrite (proj2 K eq_refl) in N. discriminate.
        * assert (Hk : In k (walked (pieces None a) (pieces None b))) by (rewrite Ek; now left).
          apply walked_visited in Hk as (r & k' & Vr & _). exists (nrm r), (nrm k'). apply V. eauto.
      + intros (i & j & Vij). apply V in Vij as (r & k & Vr & _).
        assert (Hk : In (raw_intersect r k) (walked (pieces None a) (pieces None b))) by (apply walked_visited; eauto).
        destruct t; [|reflexivity]. rewrite (proj1 K eq_refl) in Hk. destruct Hk.
  Qed.

  (** What [intersect] and [intersects] do with two Selections of the intervals
      [A] and [B]: the common values of the pairs met by walking both lists in
      step, where only intervals with a common value meet; so [intersect] is
      right exactly when all pairs with a common value are met, and [intersects]
      answers whether the intervals at one position share a value. *)
  Definition walks dbg a b (A B : list (Interval T)) : Prop :=
    (exists t, sel_intersect dbg a b = Ok t /\ sel_is dbg t (fun x => exists i j, visited sharing A B i j /\ ipoints i x /\ ipoints j x)) /\
    ((exists t, sel_intersect dbg a b = Ok t /\ sel_is dbg t (fun x => member dbg a x /\ member dbg b x)) <->
     (forall i j x, In i A -> In j B -> ipoints i x -> ipoints j x -> visited sharing A B i j)) /\
    exists c, sel_intersects dbg a b = Ok c /\
      (c = true <-> exists n i j, nth_error A n = Some i /\ nth_error B n = Some j /\ sharing i j).

  Lemma piece_members dbg s : wf s -> (forall x, member dbg s x <-> exists i, In i (map nrm (pieces None s)) /\ ipoints i x) /\
    (forall i i' x, In i (map nrm (pieces None s)) -> In i' (map nrm (pieces None s)) -> ipoints i x -> ipoints i' x -> i = i').
  Proof.
    intros W. split.
    - intros x. rewrite member_in by auto. unfold inS. rewrite <- pieces_den, lcovers_ex by auto. split.
      + intros (r & Hr & Hx). exists (nrm r). split; [now apply in_map|]. apply nrm_points. now rewrite <- covers_At.
      + intros (i & Hi & Hx). apply in_map_iff in Hi as (r & <- & Hr). exists r. split; auto. rewrite covers_At. now apply nrm_points.
    - intros i i' x Hi Hi' Hx Hx'. apply in_map_iff in Hi as (r & <- & Hr), Hi' as (r' & <- & Hr'). f_equal.
      apply (piece_unique s r r' (At x)); auto; rewrite covers_At; now apply nrm_points.
  Qed.
  Lemma walks_sharing dbg a b : wf a -> wf b ->
    (forall r k, In r (pieces None a) -> In k (pieces None b) ->
       ((exists u, covers r u = true /\ covers k u = true) <-> sharing (nrm r) (nrm k))) ->
    walks dbg a b (map nrm (pieces None a)) (map nrm (pieces None b)).
  Proof.
    intros Wa Wb Q. destruct (intersect_sharing dbg a b Wa Wb Q) as ((t & E & R) & (c & Ec & Hc)).
    destruct (piece_members dbg a Wa) as [MA UA], (piece_members dbg b Wb) as [MB UB]. split; [eauto|]. split; [split|].
    - intros (r' & E' & R') i j x Hi Hj Xi Xj. assert (r' = t) as -> by congruence.
      destruct (R x) as (d & Ed & Hd), (R' x) as (d' & Ed' & Hd'). assert (d' = d) as -> by congruence.
      assert (C : d = true) by (apply Hd'; rewrite MA, MB; split; eauto). apply Hd in C as (i' & j' & V & Xi' & Xj').
      destruct (visited_in _ _ _ _ _ V) as (Hi' & Hj' & _). rewrite (UA i i' x), (UB j j' x) by auto. exact V.
    - intros V. exists t. split; auto. intros x. destruct (R x) as (d & Ed & Hd). exists d. split; auto. rewrite Hd, MA, MB. split.
      + intros (i & j & K & Xi & Xj). destruct (visited_in _ _ _ _ _ K) as (Hi & Hj & _). split; eauto.
      + intros ((i & Hi & Xi) & (j & Hj & Xj)). exists i, j. split; eauto.
    - exists c. split; auto. rewrite Hc. apply visited_diagonal. intros i j Hi Hj.
      apply in_map_iff in Hi as (r & <- & Hr), Hj as (k & <- & Hk). rewrite <- Q by auto.
      destruct (raw_intersects r k) eqn:M; [left; now apply meets_covers|right]. intros K. apply meets_covers in K. unfold meets in K. congruence.
  Qed.

  (** [intersect] of a complement of a Selection built by unions with any shallow
      one, either way round. *)
  Theorem C45_complement_partial dbg p q s a b A B : inputs true p -> unions_only p -> run dbg p = Ok s -> sel_complement dbg s = Ok a ->
    inputs true q -> shallow q -> run dbg q = Ok b -> sel_intervals_are dbg a A -> sel_intervals_are dbg b B ->
    walks dbg a b A B /\ walks dbg b a B A.
  Proof.
    intros H U E Ea Hq Uq Eb HA HB. destruct (complement_closed dbg p s a H U E Ea) as (Wa & Ca & _), (run_gapless dbg q b Hq Uq Eb) as [Wb Gb].
    apply sel_intervals_pieces in HA, HB; auto. subst A B.
    assert (Q : forall r k, In r (pieces None a) -> In k (pieces None b) ->
       ((exists u, covers r u = true /\ covers k u = true) <-> sharing (nrm r) (nrm k))) by (intros; now apply (closed_meets a b)).
    split; apply walks_sharing; auto. intros r k Ir Ik. unfold sharing. specialize (Q k r Ik Ir). unfold sharing in Q. split.
    - intros (u & K1 & K2). destruct Q as [Q _]. destruct Q as (x & X1 & X2); eauto.
    - intros (x & X1 & X2). destruct Q as [_ Q]. destruct Q as (u & K1 & K2); eauto.
  Qed.
End Meet.
Print Assumptions C45_complement_partial.

Local Open Scope Z_scope.
(** Everything but 3 .. 5, intersected with {2, 3, 8}: ... 2 meets 2, 3, and not 8, so 8 is lost. *)
Example C45_complement_ex : let p := P_from (cl 3 5) : prog i8 in let q := P_points [v 2; v 3; v 8] : prog i8 in
  inputs true p /\ unions_only p /\ inputs true q /\ shallow q /\
  exists s a b, run true p = Ok s /\ sel_complement true s = Ok a /\ run true q = Ok b /\
    sel_intervals_are true a [cl (-128) 2; cl 6 127] /\ sel_intervals_are true b [cl 2 3; one 8] /\
    (exists t, sel_intersect true a b = Ok t /\ sel_contains true t (v 2) = Ok true /\ sel_contains true t (v 8) = Ok false) /\
    (exists t, sel_intersect true b a = Ok t /\ sel_contains true t (v 2) = Ok true /\ sel_contains true t (v 8) = Ok false) /\
    sel_intersects true a b = Ok true.
Proof.
  cbv zeta. split; [constructor|]. do 3 (split; [exact I|]). eexists _, _, _. do 3 (split; [reflexivity|]). split; [drain|]. split; [drain|].
  split; [eexists; repeat split|]. split; [eexists; repeat split|]. reflexivity.
Qed.

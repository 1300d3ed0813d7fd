(** * Serialisation: C88, C89 *)
From Coq Require Import List Bool ZArith Lia Sorted Permutation String.
From Verif Require Import Base OrdFacts Pos PFinite Ints MBound MRaw MNormalize MTine MBTree MTineTree MInterval MSelection MSerde
  Spec Spec_Tree Spec_Sel PRaw PRaw2 PNorm PIter PInterval PBTree PTree PSel PSel2 PSel5 Instances
  Properties_Raw Properties_Interval Properties_Tree Properties_Selection Properties_Selection4.
Import ListNotations.
Local Open Scope list_scope.
Local Arguments cmp : simpl never.

Section Serde.
  Context {T : Type} {O : Ord T} {D : Serde T}.

  Lemma de_of (x : T) : de (ser x) = Some x.
  Proof. now apply de_ser. Qed.

  Ltac names := repeat match goal with
    | |- context [if (?n =? ?m)%string then _ else _] => destruct (String.eqb_spec n m) as [->|]
    end; try discriminate.

  (** ** C88: round trips *)
  Theorem C88_bound_exact c (b : Bound T) : bound_de c = Some b <-> c = bound_ser b.
  Proof.
    split.
    - destruct c as [z|n|n c|n l|l]; simpl; try discriminate; names; [now intros [= <-]| |];
      destruct (de c) as [x|] eqn:E; try discriminate; intros [= <-]; simpl; f_equal; now apply de_ser.
    - intros ->. destruct b; simpl; rewrite ?de_of; reflexivity.
  Qed.
  Theorem C88_raw_exact c (r : RawInterval T) : raw_de c = Some r <-> c = raw_ser r.
  Proof.
    split.
    - destruct c as [z|n|n c|n [|a [|b [|? ?]]]|l]; simpl; try discriminate; names; try (now intros [= <-]).
      all: unfold de_pair; try (destruct (de c) as [x|] eqn:E; try discriminate; intros [= <-]; simpl; f_equal; now apply de_ser).
      all: destruct (de a) as [x|] eqn:Ea; try discriminate; destruct (de b) as [y|] eqn:Eb; try discriminate;
           intros [= <-]; simpl; apply de_ser in Ea, Eb; now subst.
    - intros ->. destruct r; simpl; unfold de_pair; rewrite ?de_of; reflexivity.
  Qed.
  Lemma tine_exact c (t : Tine T) : tine_de c = Some t <-> c = tine_ser t.
  Proof.
    split.
    - destruct c as [z|n|n c|n l|l]; simpl; try discriminate; names.
      all: destruct (bound_de c) as [x|] eqn:E; try discriminate; intros [= <-]; simpl; f_equal; now apply C88_bound_exact.
    - intros ->. destruct t; simpl; rewrite (proj2 (C88_bound_exact _ b) eq_refl); reflexivity.
  Qed.

  (** What is read back is what was written, and nothing else is accepted: for
      every [Interval] value. *)
  Theorem C88_interval_exact c (i : Interval T) : interval_de c = Some i <-> c = interval_ser i.
  Proof.
    unfold interval_de, interval_ser. split.
    - destruct (raw_de c) as [r|] eqn:E; try discriminate. intros [= <-]. now apply C88_raw_exact.
    - intros ->. rewrite (proj2 (C88_raw_exact _ (interval_raw i)) eq_refl). now destruct i.
  Qed.

  (** Inserting in any order. *)
  Lemma try_insert_ok t (s : TineTree T) : okt t = true -> Forall (fun u => okt u = true) s -> try_insert t s = Ok (btree_insert t s).
  Proof.
    intros K H. induction H as [|u s Ku H IH]; simpl; auto.
    rewrite tine_partial_cmp_loc, tine_cmp_loc by auto. cbn [bind]. destruct (cmp (loc t) (loc u)); auto. rewrite IH. reflexivity.
  Qed.
  Definition ascending (s : TineTree T) := StronglySorted (fun a b => lt (loc a) (loc b)) s.
  Lemma insert_in t (s : TineTree T) : okt t = true -> Forall (fun u => okt u = true) s ->
    (forall u, In u s -> loc u <> loc t) -> Permutation (btree_insert t s) (t :: s).
  Proof.
    intros K H. induction H as [|u s Ku H IH]; intros N; simpl; auto.
    rewrite tine_cmp_loc by auto. destruct (cmp (loc t) (loc u)) eqn:E; auto.
    - apply cmp_eq in E. now destruct (N u (or_introl eq_refl)).
    - rewrite IH by (intros; apply N; now right). constructor.
  Qed.
  Lemma insert_ascending t (s : TineTree T) : okt t = true -> Forall (fun u => okt u = true) s ->
    (forall u, In u s -> loc u <> loc t) -> ascending s -> ascending (btree_insert t s).
  Proof.
    intros K H N A. induction A as [|u s A IH B]; simpl; [repeat constructor|].
    inversion H as [|? ? Ku H']; subst. rewrite tine_cmp_loc by auto. destruct (cmp (loc t) (loc u)) eqn:E.
    - constructor; auto.
    - constructor; [constructor; auto|]. constructor; auto. eapply Forall_impl; [|exact B]. intros w Hw. eapply plt_trans; eauto.
    - assert (N' : forall w, In w s -> loc w <> loc t) by (intros; apply N; now right).
      constructor; [now apply IH|]. apply Forall_forall. intros w Hw.
      apply (Permutation_in _ (insert_in t s K H' N')) in Hw as [<-|Hw]; [now apply cmp_gt_lt|].
      rewrite Forall_forall in B. now apply B.
  Qed.
  Lemma ascending_unique (a b : TineTree T) : ascending a -> ascending b -> Permutation a b -> a = b.
  Proof.
    intros A. revert b. induction A as [|x a A IH B]; intros b A' P.
    - symmetry. now apply Permutation_nil.
    - destruct b as [|y b]; [apply Permutation_sym, Permutation_nil in P; discriminate|].
      inversion A' as [|? ? A2 B2]; subst. rewrite Forall_forall in B, B2.
      assert (x = y) as ->.
      { assert (Hx : In x (y :: b)) by (apply (Permutation_in _ P); now left).
        assert (Hy : In y (x :: a)) by (apply (Permutation_in _ (Permutation_sym P)); now left).
        destruct Hx as [->|Hx]; auto. destruct Hy as [->|Hy]; auto. specialize (B _ Hy). specialize (B2 _ Hx).
        exfalso. apply (plt_irrefl (loc x)). eapply plt_trans; eauto. }
      f_equal. apply IH; auto. now apply Permutation_cons_inv in P.
  Qed.
  Lemma ascending_locs (s : TineTree T) : ascending s -> NoDup (map loc s).
  Proof.
    induction 1 as [|u s A IH B]; simpl; constructor; auto. intros H. apply in_map_iff in H as (w & E & Hw).
    rewrite Forall_forall in B. specialize (B _ Hw). rewrite E in B. now apply plt_irrefl in B.
  Qed.

  Lemma de_seq l : forall s : TineTree T, Forall (fun u => okt u = true) (l ++ s) -> NoDup (map loc (l ++ s)) -> ascending s ->
    exists r, tree_de_seq (map tine_ser l) s = Ok (Some r) /\ ascending r /\ Permutation r (l ++ s).
  Proof.
    induction l as [|t l IH]; intros s K N A; simpl; [eauto|].
    rewrite (proj2 (tine_exact _ t) eq_refl). inversion K as [|? ? Kt K']; subst. inversion N as [|? ? Nt N']; subst.
    apply Forall_app in K' as [Kl Ks]. rewrite (try_insert_ok t s Kt Ks). cbn [bind].
    assert (Ns : forall u, In u s -> loc u <> loc t).
    { intros u Hu E. apply Nt. rewrite <- E. apply in_map, in_or_app. now right. }
    pose proof (insert_in t s Kt Ks Ns) as P.
    destruct (IH (btree_insert t s)) as (r & E & A' & P').
    - apply Forall_app. split; auto. apply Forall_forall. intros u Hu. apply (Permutation_in _ P) in Hu as [<-|Hu]; auto.
      rewrite Forall_forall in Ks. auto.
    - apply (Permutation_NoDup (l := map loc (t :: l ++ s))); [|exact N]. apply Permutation_map.
      rewrite P. apply Permutation_middle.
    - now apply insert_ascending.
    - exists r. split; auto. split; auto. rewrite P', P. symmetry. apply Permutation_middle.
  Qed.

  Lemma wf_okt (s : TineTree T) : wf s -> Forall (fun u => okt u = true) s.
  Proof.
    intros [_ H]. now apply chain_ok in H.
  Qed.
  Lemma wf_de (s : TineTree T) l : wf s -> Permutation l (map tine_ser s) -> tree_de (CSeq l) = Ok (Some s).
  Proof.
    intros W P. destruct (Permutation_map_inv _ _ P) as (l' & -> & P').
    destruct (de_seq l' []) as (r & E & A & P2).
    - rewrite app_nil_r. apply Forall_forall. intros u Hu. pose proof (wf_okt s W) as K. rewrite Forall_forall in K.
      apply K. apply (Permutation_in _ (Permutation_sym P')). exact Hu.
    - rewrite app_nil_r. apply (Permutation_NoDup (l := map loc s)); [now apply Permutation_map|]. apply ascending_locs, W.
    - constructor.
    - simpl. rewrite E. rewrite app_nil_r in P2. do 2 f_equal. apply ascending_unique; [auto|apply W|]. rewrite P2. now symmetry.
  Qed.

  (** Every well-formed tree (built by unions and complements) is read back, in
      whatever order its tines arrive. *)
  Theorem C88_tree_round_trip (s : TineTree T) l : tree_wf s -> Permutation l (map tine_ser s) ->
    tree_de (tree_ser s) = Ok (Some s) /\ tree_de (CSeq l) = Ok (Some s).
  Proof. intros W P. apply wf_tree_wf in W. split; [now apply wf_de|now apply wf_de]. Qed.

  (** Every Selection a program can make is read back. *)
  Context {F : Finite T}.
  Theorem C88_selection_round_trip dbg (p : prog T) s : inputs false p -> run dbg p = Ok s ->
    sel_de (sel_ser s) = Ok (Some s).
  Proof. intros H E. destruct (run_edged dbg p s H E) as [W _]. now apply wf_de. Qed.

  (** Two Selections with the same serialisation are the same. *)
  Theorem C88_selection_injective (s o : Selection T) : sel_ser s = sel_ser o -> s = o.
  Proof.
    unfold sel_ser, tree_ser. intros [= E]. revert o E. induction s as [|t s IH]; intros [|u o] E; simpl in E; try discriminate; auto.
    injection E as E1 E2. f_equal; auto. assert (K : tine_de (tine_ser t) = Some t) by now apply tine_exact.
    rewrite E1 in K. rewrite (proj2 (tine_exact _ u) eq_refl) in K. congruence.
  Qed.

  (** ** C89: what is accepted *)
  (** Without [Point(Infinite)] reading a list of tines at distinct values never
      panics. *)
  Theorem C89_no_panic_partial (l : list (Tine T)) : Forall (fun t => t <> TPoint Infinite) l -> NoDup (map loc l) ->
    exists s, sel_de (CSeq (map tine_ser l)) = Ok (Some s) /\ Permutation s l /\ StronglySorted (fun a b => tine_cmp a b = Lt) s.
  Proof.
    intros K N. assert (K' : Forall (fun u => okt u = true) l).
    { eapply Forall_impl; [|exact K]. intros [|[]|] H; auto; try congruence. }
    destruct (de_seq l []) as (r & E & A & P); rewrite ?app_nil_r; auto; try solve [constructor]. rewrite app_nil_r in P.
    exists r. split; auto. split; auto.
    assert (Kr : Forall (fun u => okt u = true) r).
    { apply Forall_forall. intros u Hu. rewrite Forall_forall in K'. apply K'. now apply (Permutation_in _ P). }
    clear - A Kr. induction A as [|u r A IH B]; constructor; inversion Kr as [|? ? K1 K2]; subst; auto.
    apply Forall_forall. intros w Hw. rewrite Forall_forall in B, K2. rewrite tine_cmp_loc by auto. now apply B.
  Qed.
End Serde.
Print Assumptions C88_bound_exact.
Print Assumptions C88_raw_exact.
Print Assumptions C88_interval_exact.
Print Assumptions C88_tree_round_trip.
Print Assumptions C88_selection_round_trip.
Print Assumptions C88_selection_injective.
Print Assumptions C89_no_panic_partial.

(** Beside these: (2, 8] with the point 11, read from its serialisation and
    from its tines in another order; a list of tines. *)
Example C88_ex : exists p : prog i8, inputs false p /\ exists s, run true p = Ok s /\
  sel_ser s = CSeq [CNewtypeVariant "Lower" (CNewtypeVariant "Exclude" (CInt 2));
                    CNewtypeVariant "Upper" (CNewtypeVariant "Exclude" (CInt 9));
                    CNewtypeVariant "Lower" (CNewtypeVariant "Exclude" (CInt 10));
                    CNewtypeVariant "Upper" (CNewtypeVariant "Exclude" (CInt 12))] /\
  tree_wf s /\
  Permutation [CNewtypeVariant "Upper" (CNewtypeVariant "Exclude" (CInt 9));
               CNewtypeVariant "Lower" (CNewtypeVariant "Exclude" (CInt 2));
               CNewtypeVariant "Upper" (CNewtypeVariant "Exclude" (CInt 12));
               CNewtypeVariant "Lower" (CNewtypeVariant "Exclude" (CInt 10))] (map tine_ser s).
Proof.
  exists (P_intervals [interval_left_open (v 2) (v 8); pt 11]).
  split; [repeat constructor|]. eexists. split; [vm_compute; reflexivity|].
  split; [reflexivity|]. split; [split; [repeat constructor|reflexivity]|]. simpl.
  eapply perm_trans; [apply perm_swap|]. do 2 constructor. apply perm_swap.
Qed.
Example C89_ex : let l := [TUpper (Include (v 3)); TLower (Include (v 1))] in
  Forall (fun t => t <> TPoint Infinite) l /\ NoDup (map loc l).
Proof. cbv zeta. split; [repeat constructor; discriminate|]. repeat constructor; simpl; intuition; discriminate. Qed.

(** The interval (2, 8) is accepted as it stands: it holds 3..7, it is unequal
    to [3, 7], and iterating it panics. *)
Theorem C89_interval_refuted :
  exists c (i : Interval i8), interval_de c = Some i /\
    (forall x, interval_contains i x = interval_contains (cl 3 7) x) /\
    i <> cl 3 7 /\ interval_next i = Panic.
Proof.
  exists (CTupleVariant "Open" [CInt 2; CInt 8]). eexists. split; [reflexivity|].
  split; [|split; [discriminate|reflexivity]]. intros [x r]. unfold interval_contains. simpl.
  unfold gtb, ltb, geb, leb, cmp. simpl. change (ival (v 3)) with 3%Z. change (ival (v 7)) with 7%Z.
  destruct (Z.compare_spec x 2), (Z.compare_spec x 8), (Z.compare_spec x 3), (Z.compare_spec x 7); try reflexivity; lia.
Qed.
Print Assumptions C89_interval_refuted.

(** A list of tines that delimits nothing is accepted as a Selection, and then
    every query panics; a [Point(Infinite)] panics already when read. *)
Theorem C89_selection_refuted dbg :
  (exists c (s : Selection i8), sel_de c = Ok (Some s) /\ sel_contains dbg s (v 2) = Panic /\ sel_next dbg (sel_iter s) = Panic) /\
  (exists c, sel_de (T := i8) c = Panic).
Proof.
  split.
  - exists (CSeq [CNewtypeVariant "Upper" (CNewtypeVariant "Include" (CInt 3))]). eexists.
    split; [vm_compute; reflexivity|]. destruct dbg; split; vm_compute; reflexivity.
  - exists (CSeq [CNewtypeVariant "Point" (CUnitVariant "Infinite"); CNewtypeVariant "Upper" (CNewtypeVariant "Include" (CInt 3))]).
    vm_compute. reflexivity.
Qed.
Print Assumptions C89_selection_refuted.

(** * Bounds, hull and fullness of every Selection a program can build: C95 *)
From Coq Require Import List Bool ZArith Lia Sorted.
From Verif Require Import Base OrdFacts Pos PFinite MBound MRaw MNormalize MTine MBTree MTineTree Ints MInterval MSelection
  Spec Spec_Tree Spec_Sel Spec_More Instances PRaw PRaw2 PNorm PIter PInterval PBTree PTree PTreeOps PTreeIsect PTree2 PTree3 PTree4 PTree5 PTree6 PTree7
  PSel PSel2 PSel3 PSel4 PSel5 PDebug Properties_Interval Properties_Selection Properties_Selection4.
Import ListNotations.
Local Open Scope Z_scope.
#[local] Arguments cmp : simpl never.

Section Outer.
  Context {T : Type} {O : Ord T} {F : Finite T}.
  Implicit Types (s : Selection T) (r : RawInterval T) (x y m n : T).

  (** The first and the last value a bound lets through. *)
  Definition first_of (b : Bound T) : option T := match b with Include x => Some x | Exclude x => succ x | Infinite => Some MINIMUM end.
  Definition last_of_b (b : Bound T) : option T := match b with Include x => Some x | Exclude x => pred x | Infinite => Some MAXIMUM end.
  Lemma norm_bounds r lo up m n : raw_lower_bound r = Some lo -> raw_upper_bound r = Some up -> first_of lo = Some m -> last_of_b up = Some n ->
    raw_lower_bound (normalized r) = Some (Include m) /\ raw_upper_bound (normalized r) = Some (Include n).
  Proof.
    destruct r; simpl; intros L U; try discriminate L; injection L as <-; injection U as <-; simpl; intros Hm Hn;
      rewrite ?Hm, ?Hn; simpl; split; congruence.
  Qed.
  Lemma closure_bounds r lo up : raw_wf r -> raw_lower_bound r = Some lo -> raw_upper_bound r = Some up ->
    raw_lower_bound (normalized (raw_closure r)) = Some (Include (bound_unwrap_or lo MINIMUM)) /\
    raw_upper_bound (normalized (raw_closure r)) = Some (Include (bound_unwrap_or up MAXIMUM)).
  Proof.
    destruct r; simpl; intros W L U; try discriminate L; injection L as <-; injection U as <-; simpl; auto.
  Qed.
  Lemma lpos_inj (b b' : Bound T) : lpos b = lpos b' -> b = b'.
  Proof. destruct b, b'; simpl; congruence. Qed.
  Lemma upos_inj (b b' : Bound T) : upos b = upos b' -> b = b'.
  Proof. destruct b, b'; simpl; congruence. Qed.
  Lemma pos_antisym (p q : pos T) : le p q -> le q p -> p = q.
  Proof. intros. po. Qed.

  Lemma piece_first s r lo : wf s -> edge (den false s) -> In r (pieces None s) -> raw_lower_bound r = Some lo -> exists m, first_of lo = Some m.
  Proof.
    intros W Ed Hr L. destruct (piece_bounds s r W Hr) as (lo' & up & L' & U & Hle). rewrite L in L'. injection L' as <-.
    destruct (piece_edge s r W Ed Hr) as (A & B & C & D).
    destruct lo as [x|x|]; simpl; eauto. destruct (succ x) eqn:E; eauto. exfalso. apply succ_none in E. subst x.
    assert (K : covers r (Hi MAXIMUM) = true) by (apply (covers_bounds r _ _ _ L U); cbn [lpos] in *; split; [po|auto]).
    rewrite C in K. assert (K' : covers r (At MAXIMUM) = true) by now rewrite D. apply (covers_bounds r _ _ _ L U) in K' as [K' _]. cbn [lpos] in K'. po.
  Qed.
  Lemma piece_last s r up : wf s -> edge (den false s) -> In r (pieces None s) -> raw_upper_bound r = Some up -> exists m, last_of_b up = Some m.
  Proof.
    intros W Ed Hr U. destruct (piece_bounds s r W Hr) as (lo & up' & L & U' & Hle). rewrite U in U'. injection U' as <-.
    destruct (piece_edge s r W Ed Hr) as (A & B & C & D).
    destruct up as [x|x|]; simpl; eauto. destruct (pred x) eqn:E; eauto. exfalso. apply pred_none in E. subst x.
    assert (K : covers r (Lo MINIMUM) = true) by (apply (covers_bounds r _ _ _ L U); cbn [upos] in *; split; [auto|po]).
    rewrite A in K. assert (K' : covers r (At MINIMUM) = true) by now rewrite B. apply (covers_bounds r _ _ _ L U) in K' as [_ K']. cbn [upos] in K'. po.
  Qed.

  (** The first piece starts at the first position of the tree, the last ends at the last. *)
  Lemma head_least s r l lo p : wf s -> pieces None s = r :: l -> raw_lower_bound r = Some lo -> den false s p = true -> le (lpos lo) p.
  Proof.
    intros W E L Hp. destruct (den_piece s p W Hp) as (k & Hk & Ck). assert (Hr : In r (pieces None s)) by (rewrite E; now left).
    destruct (piece_bounds s r W Hr) as (lo' & up & L' & U & Hle). rewrite L in L'. injection L' as <-.
    assert (Cr : covers r (lpos lo) = true) by (apply (covers_bounds r _ _ _ L U); split; auto; po).
    pose proof Hk as Hk'. rewrite E in Hk. destruct Hk as [<-|Hk]; [apply (covers_bounds r _ _ _ L U) in Ck; tauto|].
    pose proof (pieces_sorted s W) as SS. rewrite E in SS. inversion SS as [|? ? _ S2]; subst. rewrite Forall_forall in S2.
    pose proof (separated_pos r k (S2 k Hk) (piece_wf s r Hr) (piece_wf s k Hk') _ _ Cr Ck). po.
  Qed.
  Lemma tail_greatest s r l up p : wf s -> pieces None s = l ++ [r] -> raw_upper_bound r = Some up -> den false s p = true -> le p (upos up).
  Proof.
    intros W E U Hp. destruct (den_piece s p W Hp) as (k & Hk & Ck). assert (Hr : In r (pieces None s)) by (rewrite E; apply in_app_iff; right; now left).
    destruct (piece_bounds s r W Hr) as (lo & up' & L & U' & Hle). rewrite U in U'. injection U' as <-.
    assert (Cr : covers r (upos up) = true) by (apply (covers_bounds r _ _ _ L U); split; auto; po).
    pose proof Hk as Hk'. rewrite E in Hk. apply in_app_iff in Hk as [Hk|[<-|[]]]; [|apply (covers_bounds r _ _ _ L U) in Ck; tauto].
    pose proof (pieces_sorted s W) as SS. rewrite E in SS. pose proof (sorted_snoc _ _ _ _ SS Hk) as Sep.
    pose proof (separated_pos k r Sep (piece_wf s k Hk') (piece_wf s r Hr) _ _ Ck Cr). po.
  Qed.

  (** For every program, from the intervals [li] its Selection yields: without
      any, all bounds are missing and hull and closure are empty; otherwise the
      bounds are the first interval's lower and the last one's upper bound, the
      hull has just these bounds, infimum and supremum are those values or
      their outer neighbours, and the closure runs from one to the other. *)
  Theorem C95_outer dbg (p : prog T) s li : inputs false p -> run dbg p = Ok s -> sel_intervals_are dbg s li ->
    match li with
    | [] => sel_lower_bound dbg s = Ok None /\ sel_upper_bound dbg s = Ok None /\ sel_infimum s = None /\ sel_supremum s = None /\
        sel_enclose dbg s = Ok interval_empty /\ sel_closure dbg s = Ok interval_empty
    | j :: _ => exists m n e c,
        interval_lower_bound j = Some (Include m) /\ interval_upper_bound (last li j) = Some (Include n) /\
        sel_lower_bound dbg s = Ok (Some (Include m)) /\ sel_upper_bound dbg s = Ok (Some (Include n)) /\
        sel_enclose dbg s = Ok e /\ interval_lower_bound e = Some (Include m) /\ interval_upper_bound e = Some (Include n) /\
        (sel_infimum s = Some m \/ sel_infimum s = pred m) /\ (sel_supremum s = Some n \/ sel_supremum s = succ n) /\
        sel_closure dbg s = Ok c /\
        interval_lower_bound c = Some (Include (match sel_infimum s with Some a => a | None => MINIMUM end)) /\
        interval_upper_bound c = Some (Include (match sel_supremum s with Some b => b | None => MAXIMUM end))
    end.
  Proof.
    intros H E D. destruct (run_edged dbg p s H E) as [W Ed]. apply sel_intervals_pieces in D; auto. subst li.
    destruct (pieces None s) as [|r l] eqn:Ep; simpl.
    { assert (s = []) as -> by (apply den_ext; auto using new_wf; intros q; now rewrite <- pieces_den, Ep by auto).
      repeat split; reflexivity. }
    assert (Hr : In r (pieces None s)) by (rewrite Ep; now left).
    destruct (ends (pieces None s)) as [En|(l' & k & En)]; [rewrite En in Hr; destruct Hr|].
    assert (Hk : In k (pieces None s)) by (rewrite En; apply in_app_iff; right; now left).
    assert (Lst : match map nrm l with [] => nrm r | _ :: _ => last (map nrm l) (nrm r) end = nrm k).
    { change (last (map nrm (r :: l)) (nrm r) = nrm k). rewrite <- Ep, En, map_app. simpl. apply last_last. }
    destruct (piece_bounds s r W Hr) as (lo & ur & L & Ur & Hler), (piece_bounds s k W Hk) as (lk & up & Lk & U & Hlek).
    destruct (piece_first s r lo W Ed Hr L) as (m & Hm), (piece_last s k up W Ed Hk U) as (n & Hn).
    destruct (piece_last s r ur W Ed Hr Ur) as (nr & Hnr), (piece_first s k lk W Ed Hk Lk) as (mk & Hmk).
    destruct (norm_bounds r lo ur m nr L Ur Hm Hnr) as [N1 _], (norm_bounds k lk up mk n Lk U Hmk Hn) as [_ N2].
    assert (Dlo : den false s (lpos lo) = true) by (apply (piece_den s r); auto; apply (covers_bounds r _ _ _ L Ur); split; auto; po).
    assert (Dup : den false s (upos up) = true) by (apply (piece_den s k); auto; apply (covers_bounds k _ _ _ Lk U); split; auto; po).
    destruct (enclose_ok dbg s W) as (e & Ee & We & Em & Sub & Hull).
    assert (Be : raw_lower_bound e = Some lo /\ raw_upper_bound e = Some up).
    { destruct (raw_bounds_cases e) as [(-> & _)|(le' & ue & Le & Ue)].
      { specialize (Sub _ Dlo). discriminate. }
      pose proof (raw_wf_pos e _ _ We Le Ue) as Hlee. rewrite Le, Ue. split; f_equal.
      - apply lpos_inj, pos_antisym; [apply (covers_bounds e _ _ _ Le Ue), Sub, Dlo|].
        destruct (Hull (lpos le')) as (q & _ & Hq & _ & Hle & _); [apply (covers_bounds e _ _ _ Le Ue); split; auto; po|].
        pose proof (head_least s r l lo q W Ep L Hq). po.
      - apply upos_inj, pos_antisym; [|apply (covers_bounds e _ _ _ Le Ue), Sub, Dup].
        destruct (Hull (upos ue)) as (_ & q & _ & Hq & _ & Hle); [apply (covers_bounds e _ _ _ Le Ue); split; auto; po|].
        pose proof (tail_greatest s k l' up q W En U Hq). po. }
    destruct Be as [B1 B2]. destruct (norm_bounds e lo up m n B1 B2 Hm Hn) as [N3 N4], (closure_bounds e lo up We B1 B2) as [N5 N6].
    assert (Inf : sel_infimum s = bound_as_ref lo).
    { destruct s as [|t s']; [discriminate|]. unfold sel_infimum, tree_lower_bound. cbn [btree_first option_map].
      f_equal. apply lpos_inj, pos_antisym; [apply (first_den s' t); auto|]. apply (head_least (t :: s') r l lo); auto. now apply first_covered. }
    assert (Sup : sel_supremum s = bound_as_ref up).
    { destruct (snoc_cases s) as [->|(s' & t & ->)]; [discriminate|]. unfold sel_supremum, tree_upper_bound. rewrite last_app_one. cbn [option_map].
      f_equal. apply upos_inj, pos_antisym; [|apply (last_den s' t); auto]. apply (tail_greatest (s' ++ [t]) k l' up); auto. now apply last_covered. }
    exists m, n, (mkInterval (normalized e)), (mkInterval (normalized (raw_closure e))).
    rewrite Lst, Inf, Sup. unfold interval_lower_bound, interval_upper_bound. rewrite !nrm_raw. cbn [interval_raw].
    unfold sel_enclose, sel_closure, tree_closure. rewrite Ee. cbn [bind].
    split; auto. split; auto. split.
    { unfold sel_lower_bound, sel_interval_next, sel_interval_iter. destruct (next_head dbg s W) as (it & ->). rewrite Ep. cbn.
      fold (nrm r). unfold interval_lower_bound. now rewrite nrm_raw, N1. }
    split.
    { unfold sel_upper_bound, sel_interval_next_back, sel_interval_iter. destruct (next_back_last dbg s W) as (it & ->). rewrite En, last_of. cbn.
      fold (nrm k). unfold interval_upper_bound. now rewrite nrm_raw, N2. }
    split; auto. split; auto. split; auto. split.
    { destruct lo as [x|x|]; simpl in *; [left; congruence|right; symmetry; clear - Hm; forder|right]. injection Hm as <-. symmetry. now apply pred_none. }
    split.
    { destruct up as [x|x|]; simpl in *; [left; congruence|right; symmetry; clear - Hn; forder|right]. injection Hn as <-. symmetry. now apply succ_none. }
    split; auto. rewrite N5, N6. split; destruct lo, up; reflexivity.
  Qed.

  (** [is_full] says that the complement is empty, [is_empty] that it is full. *)
  Theorem C95_full_empty dbg (p : prog T) s : inputs false p -> run dbg p = Ok s ->
    exists o, sel_complement dbg s = Ok o /\ sel_is_full s = sel_is_empty o /\ sel_is_empty s = sel_is_full o /\
      (sel_is_full s = true <-> tree_eqb s sel_full = true).
  Proof.
    intros H E. pose proof (run_wf dbg p s H E) as W. destruct (complement_ok dbg s W) as (o & Eo & Wo & Dn). exists o. split; auto.
    assert (Ef : @sel_full T _ _ = [TLower Infinite; TUpper Infinite]).
    { unfold sel_full, sel_from, interval_full; cbn [interval_raw normalized denormalized].
      rewrite (proj2 (pred_none _) eq_refl), (proj2 (succ_none _) eq_refl). reflexivity. }
    assert (Wf : wf [TLower (@Infinite T); TUpper Infinite]).
    { destruct (run_ok true (@P_full T) I) as (s' & [= <-] & Wf & _). now rewrite <- Ef. }
    assert (Full : forall s0 : Selection T, wf s0 -> (sel_is_full s0 = true <-> forall q, den false s0 q = true)).
    { intros s0 W0. split.
      - intros K q. unfold sel_is_full, tree_is_full in K.
        destruct s0 as [|a [|b [|? ?]]]; try discriminate. apply andb_prop in K as [K1 K2].
        assert (K : tree_eqb [a; b] [TLower Infinite; TUpper Infinite] = true) by (simpl; now rewrite K1, K2).
        apply tree_eqb_eq in K. rewrite K. destruct q; reflexivity.
      - intros K. assert (s0 = [TLower Infinite; TUpper Infinite]) as -> by (apply den_ext; auto; intros q; rewrite K; destruct q; reflexivity). reflexivity. }
    assert (Emp : forall s0 : Selection T, wf s0 -> (sel_is_empty s0 = true <-> forall q, den false s0 q = false)).
    { intros s0 W0. split.
      - intros K q. destruct s0; [reflexivity|discriminate].
      - intros K. assert (s0 = []) as -> by (apply den_ext; auto using new_wf). reflexivity. }
    split; [|split].
    - apply eq_true_iff_eq. rewrite Full, Emp by auto. split; intros K q; specialize (K q); rewrite Dn in *; destruct (den false s q); auto.
    - apply eq_true_iff_eq. rewrite Full, Emp by auto. split; intros K q; specialize (K q); rewrite Dn in *; destruct (den false s q); auto.
    - rewrite Ef. split.
      + intros K. apply tree_eqb_eq. apply den_ext; auto. intros q. rewrite (proj1 (Full s W) K). destruct q; reflexivity.
      + intros K. apply tree_eqb_eq in K. rewrite K. reflexivity.
  Qed.
End Outer.
Print Assumptions C95_outer.
Print Assumptions C95_full_empty.

(** A Selection whose first interval (1,2) has no values; one made with
    [complement], whose infimum is its least value. *)
Example C95_ex : inputs false ex_phantom /\ inputs false (P_complement (P_from (cl (-128) 2))) /\
  (exists s, run true ex_phantom = Ok s /\ sel_intervals_are true s [mkInterval (Closed (v 2) (v 1)); cl 5 6] /\
     sel_infimum s = pred (v 2) /\ sel_closure true s = Ok (cl 1 7)) /\
  (exists s, run true (P_complement (P_from (cl (-128) 2))) = Ok s /\ sel_infimum s = Some (v 3) /\ sel_supremum s = None /\
     sel_closure true s = Ok (cl 3 127)).
Proof.
  split; [split; [split; exact I|constructor]|]. split; [constructor|]. split; eexists; (split; [reflexivity|]).
  - split; [drain|]. split; reflexivity.
  - repeat split; reflexivity.
Qed.

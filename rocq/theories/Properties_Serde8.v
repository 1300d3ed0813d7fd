(** * The complement of any ordered sequence of tines: C115, continued *)
From Coq Require Import List Bool ZArith Sorted.
From Verif Require Import Base OrdFacts Pos MBound MRaw MTine MBTree MTineTree
  Spec Spec_Take Spec_Take5 PRaw PBTree PTree PTree2 PTree4 PMirror PMirror2 Instances.
Import ListNotations.
Local Open Scope list_scope.

Section Turn.
  Context {T : Type} {O : Ord T}.
  Implicit Types (s m c : list (Tine T)) (t : Tine T).

  Lemma in_order_asc s : in_order s <-> asc s.
  Proof.
    unfold in_order, asc. assert (K : Forall (fun t => okt t = true) s <-> ~ In (TPoint Infinite) s).
    { rewrite Forall_forall. split; [intros H X; discriminate (H _ X)|]. intros H t X. destruct t as [|[]|]; try reflexivity; contradiction. }
    rewrite <- K. assert (L : Forall (fun t => okt t = true) s -> (StronglySorted (fun a b => tine_cmp a b = Lt) s <-> srt s)); [|tauto].
    induction s as [|t s IH]; intros F; [split; constructor|]. inversion F as [|? ? Kt F']; subst.
    assert (E : Forall (fun u => tine_cmp t u = Lt) s <-> Forall (fun u => lt (loc t) (loc u)) s).
    { rewrite !Forall_forall. rewrite Forall_forall in F'. split; intros H u X; specialize (H u X); rewrite ?tine_cmp_loc in * by auto; exact H. }
    assert (K' : Forall (fun t => okt t = true) s <-> ~ In (TPoint Infinite) s).
    { rewrite Forall_forall. split; [intros H X; discriminate (H _ X)|]. intros H u X. destruct u as [|[]|]; try reflexivity; contradiction. }
    split; intros X; inversion X as [|? ? S1 S2]; subst; constructor; try (now apply (IH K' F')); now apply E.
  Qed.

  Lemma other_inv t : other_side t = inv t.
  Proof. now destruct t as [[]|[]|[]]. Qed.
  Lemma turned_ends a m b : fins m -> (m = [] -> a = b) -> turned (pre a ++ m ++ suf b) = pre (negb a) ++ map inv m ++ suf (negb b).
  Proof.
    intros F N. unfold turned. rewrite (map_ext _ _ other_inv).
    assert (L : swap_last (pre a ++ m ++ suf b) = pre a ++ m ++ suf (negb b)).
    { unfold swap_last. destruct b; cbn [suf negb].
      - now rewrite app_assoc, rev_unit, rev_involutive, app_nil_r.
      - rewrite app_nil_r, !app_assoc. destruct (snoc_cases m) as [->|(m' & u & ->)].
        + rewrite (N eq_refl). reflexivity.
        + apply Forall_app in F as [_ F]. inversion F as [|? ? Fu _]; subst. rewrite (app_assoc (pre a)), rev_unit.
          destruct u as [[]|[]|[]]; try discriminate; reflexivity. }
    rewrite L. assert (X : swap_first (pre a ++ m ++ suf (negb b)) = pre (negb a) ++ m ++ suf (negb b)).
    { destruct a; cbn [pre app negb]; auto. destruct m as [|t m]; [rewrite <- (N eq_refl); reflexivity|].
      inversion F as [|? ? Ft _]; subst. destruct t as [[]|[]|[]]; try discriminate; reflexivity. }
    rewrite X, !map_app. f_equal; [now destruct a|]. f_equal. now destruct b.
  Qed.

  (** [complement()] turns every end to the other side and swaps the infinite ends; it panics exactly for a lone tine that is not a value
      (in release builds: that is infinite). *)
  Theorem C115_complement_any dbg s : in_order s ->
    (stuck dbg s -> tree_complement dbg s = Panic) /\
    (~ stuck dbg s -> tree_complement dbg s = Ok (turned s) /\ in_order (turned s)).
  Proof.
    intros A. split.
    - intros (t & -> & [E|[-> N]]).
      + destruct t as [[]|[]|[]]; try discriminate E; reflexivity.
      + destruct t as [[]|[]|[]]; try reflexivity. destruct N. eexists; reflexivity.
    - intros N. apply in_order_asc in A. destruct (asc_ends s A) as (a & m & b & -> & F & S).
      assert (E : m = [] -> a = b).
      { intros ->. destruct a, b; auto; destruct N; eexists; (split; [reflexivity|now left]). }
      rewrite turned_ends by auto. split.
      + apply complement_eq_gen; auto. intros t -> -> ->. destruct dbg; auto. inversion F as [|? ? Ft _]; subst.
        destruct (is_point_exclude (inv t)) eqn:K; auto. destruct N. exists t. split; auto. right. split; auto. intros [p ->]. discriminate K.
      + apply in_order_asc, asc_of_ends; [now apply map_inv_fins|now apply map_inv_srt].
  Qed.

  (** So the complement of the complement is the same sequence, unless the first one left a lone tine that stops a debug build. *)
  Theorem C115_complement_twice dbg s c : in_order s -> tree_complement dbg s = Ok c ->
    (stuck dbg c -> tree_complement dbg c = Panic) /\ (~ stuck dbg c -> tree_complement dbg c = Ok s).
  Proof.
    intros A E. destruct (C115_complement_any dbg s A) as [P Q].
    assert (N : ~ stuck dbg s) by (intros X; apply P in X; congruence). destruct (Q N) as [E' A']. rewrite E in E'. injection E' as ->.
    destruct (C115_complement_any dbg _ A') as [P' Q']. split; auto. intros N'. destruct (Q' N') as [-> _]. f_equal.
    apply in_order_asc in A. destruct (asc_ends s A) as (a & m & b & -> & F & S).
    assert (K : m = [] -> a = b).
    { intros ->. destruct a, b; auto; destruct N; eexists; (split; [reflexivity|now left]). }
    rewrite turned_ends by auto. rewrite turned_ends, !negb_involutive, map_map; [|now apply map_inv_fins|].
    - f_equal. f_equal. rewrite <- (map_id m) at 2. apply map_ext_in. intros t X. apply inv_inv. eapply fins_in; eauto.
    - intros X. apply map_eq_nil in X. rewrite (K X). reflexivity.
  Qed.
End Turn.
Print Assumptions C115_complement_any.
Print Assumptions C115_complement_twice.

(** Two lower ends in a row, which no operation makes; and what a debug build refuses. *)
Example C115_complement_ex :
  let s := [TLower (Include 1); TLower (Exclude 4); TUpper Infinite]%Z in
  in_order s /\ tree_complement true s = Ok [TLower Infinite; TUpper (Exclude 1); TUpper (Include 4)]%Z /\
  in_order [TLower (Include 1)]%Z /\ stuck true [TLower (Include 1)]%Z /\ tree_complement true [TLower (Include 1)]%Z = Panic /\
  tree_complement false [TLower (Include 1)]%Z = Ok [TLower Infinite; TUpper (Exclude 1); TUpper Infinite]%Z.
Proof.
  cbv zeta. split; [|split; [reflexivity|split; [|split; [|split; reflexivity]]]].
  - split; [repeat constructor|]. intros [X|[X|[X|[]]]]; discriminate X.
  - split; [repeat constructor|]. intros [X|[]]; discriminate X.
  - exists (TLower (Include 1%Z)). split; auto. right. split; auto. intros [p X]. discriminate X.
Qed.

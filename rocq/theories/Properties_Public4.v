(** * Operations on Intervals however they came to be (C112)

    An [Interval] made from a raw interval written with the public variants can
    have its bounds out of order; a deserialised one can hold any shape.  Nothing
    here assumes anything about the Intervals. *)
From Coq Require Import List Bool ZArith Lia.
From Verif Require Import Base OrdFacts Pos PFinite MBound MRaw MNormalize Ints MInterval
  Spec Instances PRaw PRaw2 PNorm Properties_Raw Properties_Interval PIter PInterval Properties_Public Properties_Public2 Properties_Exact.
Import ListNotations.
Local Open Scope list_scope.
Local Arguments cmp : simpl never.

Section Any.
  Context {T : Type} {O : Ord T} {F : Finite T}.
  Implicit Types i j k : Interval T.

  Lemma some_map (l : list (RawInterval T)) x :
    some_icontains (map (fun r => mkInterval (normalized r)) l) x <-> some_contains l x.
  Proof.
    unfold some_icontains, some_contains, interval_contains. split.
    - intros (i & Hi & H). apply in_map_iff in Hi as (r & <- & Hr). exists r. split; auto. now rewrite <- normalized_contains.
    - intros (r & Hr & H). exists (mkInterval (normalized r)). split; [apply in_map_iff; eauto|]. simpl. now rewrite normalized_contains.
  Qed.

  (** [complement], [intersect] and [minus] contain the right values; [union],
      [enclose] and [closure] lose none. *)
  Theorem C112_operations_any i j x :
    (some_icontains (interval_complement i) x <-> interval_contains i x = false) /\
    (interval_contains (interval_intersect i j) x = true <-> interval_contains i x = true /\ interval_contains j x = true) /\
    (some_icontains (interval_minus i j) x <-> interval_contains i x = true /\ interval_contains j x = false) /\
    (interval_contains i x = true \/ interval_contains j x = true -> some_icontains (interval_union i j) x) /\
    (interval_contains i x = true \/ interval_contains j x = true -> interval_contains (interval_enclose i j) x = true) /\
    (interval_contains i x = true -> interval_contains (interval_closure i) x = true) /\
    (interval_contains i x = true -> interval_contains j x = true -> interval_intersects i j = true).
  Proof.
    unfold interval_complement, interval_minus, interval_union. rewrite !some_map.
    unfold interval_contains, interval_intersect, interval_enclose, interval_closure, interval_from_raw, interval_intersects.
    cbn [interval_raw]. rewrite !normalized_idem, !normalized_contains.
    pose proof (C91_operations_any (interval_raw i) (interval_raw j) x). tauto.
  Qed.

  (** [union] adds a value only if both have their bounds out of order and one
      begins where the other ends. *)
  Theorem C112_union_iff i j x :
    some_icontains (interval_union i j) x <->
    interval_contains i x = true \/ interval_contains j x = true \/
    (out_of_order (interval_raw i) /\ out_of_order (interval_raw j) /\
     (joined_at (interval_raw i) (interval_raw j) x \/ joined_at (interval_raw j) (interval_raw i) x)).
  Proof. unfold interval_union. rewrite some_map. apply C91_union_iff_partial. Qed.

  (** ** C89: the first call on an Interval of any shape *)

  Lemma next_eq i l : interval_lower_bound i = Some (Include l) ->
    interval_next i = Ok (Some l, first_or_empty (interval_minus i (interval_from_point l))).
  Proof. unfold interval_next. now intros ->. Qed.

  Lemma front_empty (r : RawInterval T) l : raw_lower_bound r = Some (Include l) -> raw_intersect r (UpTo l) = Empty.
  Proof.
    intros L. destruct (raw_is_empty (raw_intersect r (UpTo l))) eqn:E; [now destruct (raw_intersect r (UpTo l))|]. exfalso.
    apply raw_nonempty_covers in E as (q & Hq); [|apply raw_intersect_wf]. rewrite raw_intersect_covers in Hq.
    destruct (raw_bounds_cases r) as [(-> & _)|(a & b & La & Ub)]; [discriminate|]. rewrite La in L. injection L as ->.
    apply andb_prop in Hq as [Hq Hq']. rewrite (covers_bounds r q (Include l) b) in Hq by auto.
    rewrite (covers_bounds (UpTo l) q Infinite (Exclude l)) in Hq' by reflexivity.
    revert Hq Hq'. simpl. generalize (upos b). clear. porder.
  Qed.
  Lemma back_empty (r : RawInterval T) u : raw_upper_bound r = Some (Include u) -> raw_intersect r (UpFrom u) = Empty.
  Proof.
    intros L. destruct (raw_is_empty (raw_intersect r (UpFrom u))) eqn:E; [now destruct (raw_intersect r (UpFrom u))|]. exfalso.
    apply raw_nonempty_covers in E as (q & Hq); [|apply raw_intersect_wf]. rewrite raw_intersect_covers in Hq.
    destruct (raw_bounds_cases r) as [(-> & _)|(a & b & La & Ub)]; [discriminate|]. rewrite Ub in L. injection L as ->.
    apply andb_prop in Hq as [Hq Hq']. rewrite (covers_bounds r q a (Include u)) in Hq by auto.
    rewrite (covers_bounds (UpFrom u) q (Exclude u) Infinite) in Hq' by reflexivity.
    revert Hq Hq'. simpl. generalize (lpos a). clear. porder.
  Qed.
  Lemma gtb_irr (l : T) : gtb l l = false. Proof. order. Qed.
  Lemma ltb_irr (l : T) : ltb l l = false. Proof. order. Qed.
  Lemma minus_front (r : RawInterval T) l : raw_lower_bound r = Some (Include l) ->
    interval_minus (mkInterval r) (interval_from_point l) =
    match r with
    | RightOpen _ u => if ltb l u then [mkInterval (normalized (Open l u))] else []
    | Closed _ u => if ltb l u then [mkInterval (normalized (LeftOpen l u))] else []
    | From _ => [mkInterval (normalized (UpFrom l))]
    | _ => []
    end.
  Proof.
    intros L. unfold interval_minus, interval_from_point, raw_minus. cbn [interval_raw normalized raw_complement map].
    rewrite (front_empty r l L). cbn [filter raw_is_empty negb].
    destruct r as [|p|a b|a b|a b|a b|b|a|b|a|]; simpl in L; try discriminate; injection L as ->.
    - rewrite back_empty by reflexivity. reflexivity.
    - unfold raw_intersect. simpl. rewrite gtb_irr. simpl. rewrite andb_false_r. unfold raw_open, ltb. destruct (cmp l b); reflexivity.
    - unfold raw_intersect. simpl. rewrite gtb_irr. simpl. rewrite andb_true_r. unfold raw_left_open, ltb, eqb. destruct (cmp l b); reflexivity.
    - unfold raw_intersect. simpl. rewrite gtb_irr. reflexivity.
  Qed.
  Lemma minus_back (r : RawInterval T) u : raw_upper_bound r = Some (Include u) ->
    interval_minus (mkInterval r) (interval_from_point u) =
    match r with
    | LeftOpen l _ => if ltb l u then [mkInterval (normalized (Open l u))] else []
    | Closed l _ => if ltb l u then [mkInterval (normalized (RightOpen l u))] else []
    | To _ => [mkInterval (normalized (UpTo u))]
    | _ => []
    end.
  Proof.
    intros L. unfold interval_minus, interval_from_point, raw_minus. cbn [interval_raw normalized raw_complement map].
    rewrite (back_empty r u L). cbn [filter raw_is_empty negb].
    destruct r as [|p|a b|a b|a b|a b|b|a|b|a|]; simpl in L; try discriminate; injection L as ->.
    - rewrite front_empty by reflexivity. reflexivity.
    - unfold raw_intersect. simpl. rewrite ltb_irr. simpl. rewrite ?andb_false_r. unfold raw_open, ltb. destruct (cmp a u); reflexivity.
    - unfold raw_intersect. simpl. rewrite ltb_irr. simpl. rewrite andb_true_r. unfold raw_right_open, ltb, eqb. destruct (cmp a u); reflexivity.
    - unfold raw_intersect. simpl. rewrite ltb_irr. reflexivity.
  Qed.

  (** [next] on an Interval with an included lower bound [l] does what it does on
      the Interval [From] makes of the same raw interval, unless the upper
      bound is excluded and is the least value of the type or the one after [l]:
      the first gives [l], the second [l] and the upper bound. *)
  Theorem C89_first_next_partial i l : interval_lower_bound i = Some (Include l) ->
    ((forall u, interval_upper_bound i = Some (Exclude u) -> u <> MINIMUM /\ succ l <> Some u) ->
       interval_next i = interval_next (interval_from_raw (interval_raw i))) /\
    (interval_upper_bound i = Some (Exclude MINIMUM) -> interval_next i = Ok (Some l, interval_empty)) /\
    (forall u, interval_upper_bound i = Some (Exclude u) -> succ l = Some u ->
       runs interval_next interval_next_back i [Front; Front; Front] [Some l; Some u; None]).
  Proof.
    intros L. destruct i as [r]. rewrite (next_eq _ l L). unfold interval_lower_bound, interval_upper_bound in *. cbn [interval_raw] in *.
    rewrite (minus_front r l L). split; [|split].
    - intros N. destruct r as [|p|a b|a b|a b|a b|b|a|b|a|]; simpl in L; try discriminate; injection L as ->.
      + rewrite (next_eq _ l) by reflexivity. unfold interval_from_raw. cbn [interval_raw normalized]. now rewrite minus_front.
      + destruct (N b eq_refl) as [N1 N2]. unfold interval_from_raw. cbn [interval_raw normalized].
        destruct (pred b) as [w|] eqn:Ew; [|apply pred_none in Ew; tauto].
        rewrite (next_eq _ l) by reflexivity. rewrite minus_front by reflexivity.
        destruct (ltb l w) eqn:G.
        * assert (G' : ltb l b = true) by forder. rewrite G'. cbn [first_or_empty normalized]. reflexivity.
        * assert (G' : ltb l b = false); [|now rewrite G'].
          apply not_true_iff_false. intros G'. apply N2. apply succ_some. apply pred_some in Ew as [P1 P2]. split; [clear - G'; order|].
          intros z Hz. destruct (cmp_spec b z) as [K|[K|K]]; try (clear - K; order). exfalso. specialize (P2 z K). clear - P2 G Hz. order.
      + rewrite (next_eq _ l) by reflexivity. unfold interval_from_raw. cbn [interval_raw normalized]. now rewrite minus_front.
      + rewrite (next_eq _ l) by reflexivity. unfold interval_from_raw. cbn [interval_raw normalized]. rewrite minus_front by reflexivity.
        destruct (succ l) as [m|] eqn:E.
        * assert (G : ltb l MAXIMUM = true) by forder. rewrite G. cbn [first_or_empty normalized]. now rewrite E.
        * assert (G : ltb l MAXIMUM = false) by forder. rewrite G. reflexivity.
    - intros U. destruct r as [|p|a b|a b|a b|a b|b|a|b|a|]; simpl in L, U; try discriminate; injection L as ->; injection U as ->.
      assert (G : ltb l MINIMUM = false) by forder. now rewrite G.
    - intros u U S. destruct r as [|p|a b|a b|a b|a b|b|a|b|a|]; simpl in L, U; try discriminate; injection L as ->; injection U as ->.
      assert (G : ltb l u = true) by forder.
      eapply runs_front with (it' := mkInterval (Closed u l)).
      { rewrite (next_eq _ l) by reflexivity. rewrite minus_front by reflexivity. rewrite G. cbn [first_or_empty normalized]. rewrite S.
        destruct (pred u) as [w|] eqn:Ew; [|exfalso; forder]. replace w with l; [reflexivity|]. forder. }
      eapply runs_front with (it' := interval_empty).
      { rewrite (next_eq _ u) by reflexivity. rewrite minus_front by reflexivity. assert (G' : ltb u l = false) by forder. now rewrite G'. }
      eapply runs_front; [reflexivity|constructor].
  Qed.

  Lemma next_back_eq i u : interval_upper_bound i = Some (Include u) ->
    interval_next_back i = Ok (Some u, first_or_empty (interval_minus i (interval_from_point u))).
  Proof. unfold interval_next_back. now intros ->. Qed.

  (** The same at the other end. *)
  Theorem C89_first_next_back_partial i u : interval_upper_bound i = Some (Include u) ->
    ((forall l, interval_lower_bound i = Some (Exclude l) -> l <> MAXIMUM /\ succ l <> Some u) ->
       interval_next_back i = interval_next_back (interval_from_raw (interval_raw i))) /\
    (interval_lower_bound i = Some (Exclude MAXIMUM) -> interval_next_back i = Ok (Some u, interval_empty)) /\
    (forall l, interval_lower_bound i = Some (Exclude l) -> succ l = Some u ->
       runs interval_next interval_next_back i [Back; Back; Back] [Some u; Some l; None]).
  Proof.
    intros L. destruct i as [r]. rewrite (next_back_eq _ u L). unfold interval_lower_bound, interval_upper_bound in *. cbn [interval_raw] in *.
    rewrite (minus_back r u L). split; [|split].
    - intros N. destruct r as [|p|a b|a b|a b|a b|b|a|b|a|]; simpl in L; try discriminate; injection L as ->.
      + rewrite (next_back_eq _ u) by reflexivity. unfold interval_from_raw. cbn [interval_raw normalized]. now rewrite minus_back.
      + destruct (N a eq_refl) as [N1 N2]. unfold interval_from_raw. cbn [interval_raw normalized].
        destruct (succ a) as [w|] eqn:Ew; [|apply succ_none in Ew; tauto].
        rewrite (next_back_eq _ u) by reflexivity. rewrite minus_back by reflexivity.
        destruct (ltb w u) eqn:G.
        * assert (G' : ltb a u = true) by forder. rewrite G'. cbn [first_or_empty normalized]. destruct (pred u); reflexivity.
        * assert (G' : ltb a u = false); [|now rewrite G'].
          apply not_true_iff_false. intros G'. apply N2. f_equal. apply succ_some in Ew as [P1 P2].
          assert (P3 := P2 u). clear - P3 G G'. order.
      + rewrite (next_back_eq _ u) by reflexivity. unfold interval_from_raw. cbn [interval_raw normalized]. now rewrite minus_back.
      + rewrite (next_back_eq _ u) by reflexivity. unfold interval_from_raw. cbn [interval_raw normalized]. rewrite minus_back by reflexivity.
        destruct (pred u) as [m|] eqn:E.
        * assert (G : ltb MINIMUM u = true) by forder. rewrite G. cbn [first_or_empty normalized]. now rewrite E.
        * assert (G : ltb MINIMUM u = false) by forder. rewrite G. reflexivity.
    - intros U. destruct r as [|p|a b|a b|a b|a b|b|a|b|a|]; simpl in L, U; try discriminate; injection L as ->; injection U as ->.
      assert (G : ltb MAXIMUM u = false) by forder. now rewrite G.
    - intros l U S. destruct r as [|p|a b|a b|a b|a b|b|a|b|a|]; simpl in L, U; try discriminate; injection L as ->; injection U as ->.
      assert (G : ltb l u = true) by forder.
      eapply runs_back with (it' := mkInterval (Closed u l)).
      { rewrite (next_back_eq _ u) by reflexivity. rewrite minus_back by reflexivity. rewrite G. cbn [first_or_empty normalized]. rewrite S.
        destruct (pred u) as [w|] eqn:Ew; [|exfalso; forder]. replace w with l; [reflexivity|]. forder. }
      eapply runs_back with (it' := interval_empty).
      { rewrite (next_back_eq _ l) by reflexivity. rewrite minus_back by reflexivity. assert (G' : ltb u l = false) by forder. now rewrite G'. }
      eapply runs_back; [reflexivity|constructor].
  Qed.

  (** A bound that is not included makes the call at its end panic, and only that. *)
  Theorem C89_first_panics i :
    (interval_next i = Panic <-> exists b, interval_lower_bound i = Some b /\ forall x, b <> Include x) /\
    (interval_next_back i = Panic <-> exists b, interval_upper_bound i = Some b /\ forall x, b <> Include x).
  Proof.
    unfold interval_next, interval_next_back. split.
    - destruct (interval_lower_bound i) as [[x|x|]|]; split; try discriminate; try (intros (b & [= <-] & H); now destruct (H x));
        try (intros _; eexists; split; [reflexivity|discriminate]); auto; try (now intros (b & ? & _)).
    - destruct (interval_upper_bound i) as [[x|x|]|]; split; try discriminate; try (intros (b & [= <-] & H); now destruct (H x));
        try (intros _; eexists; split; [reflexivity|discriminate]); auto; try (now intros (b & ? & _)).
  Qed.
End Any.
Print Assumptions C112_operations_any.
Print Assumptions C112_union_iff.
Print Assumptions C89_first_next_partial.
Print Assumptions C89_first_next_back_partial.
Print Assumptions C89_first_panics.

Local Open Scope Z_scope.
(** [3, 8) read from serialised data: from the front it is right, from the back
    it panics.  [3, 4) yields 4 as well.  [5, 2] and (2, 9]. *)
Example C89_first_ex :
  runs interval_next interval_next_back (mkInterval (RightOpen (v 3) (v 6))) [Front; Back; Front; Front] [Some (v 3); Some (v 5); Some (v 4); None] /\
  interval_next_back (mkInterval (RightOpen (v 3) (v 6))) = Panic /\
  runs interval_next interval_next_back (mkInterval (RightOpen (v 3) (v 4))) [Front; Front; Front] [Some (v 3); Some (v 4); None].
Proof.
  split; [|split; [reflexivity|]]; repeat (first [eapply runs_front; [vm_compute; reflexivity|] | eapply runs_back; [vm_compute; reflexivity|]]); constructor.
Qed.
Example C112_ex :
  interval_union (interval_from_raw (Closed (v 5) (v 2))) (interval_from_raw (LeftOpen (v 1) (v 9))) = [interval_from_raw (Closed (v 2) (v 9))] /\
  out_of_order (interval_raw (interval_from_raw (Closed (v 5) (v 2)))) /\
  interval_intersect (interval_from_raw (Closed (v 5) (v 2))) interval_full = interval_empty.
Proof. repeat split; vm_compute; reflexivity. Qed.

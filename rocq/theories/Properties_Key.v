(** * Results depend on values only through their order: C96 *)
From Coq Require Import List Bool ZArith Lia.
From Verif Require Import Base OrdFacts MBound MRaw MNormalize MTine MBTree MTineTree Ints MInterval MSelection
  Spec Spec_Sel Spec_Key PKey Properties_Interval Properties_Selection.
Import ListNotations.

(** [f] maps the values of [T] to a type [U] with the same comparisons.  No law
    is asked of either type.  Applying an operation and then [f] to every value
    of the result is applying [f] to the arguments and then the operation; a
    panic is a panic on both sides. *)
Theorem C96_raw {T U} {CT : Cmp T} {CU : Cmp U} (f : T -> U) : ordered_by f ->
  (forall l u, raw_new (bound_key f l) (bound_key f u) = raw_key f (raw_new l u)) /\
  (forall i x, raw_contains (raw_key f i) (f x) = raw_contains i x) /\
  (forall i j, raw_intersects (raw_key f i) (raw_key f j) = raw_intersects i j) /\
  (forall i j, raw_is_adjacent_to (raw_key f i) (raw_key f j) = raw_is_adjacent_to i j) /\
  (forall i j, raw_intersect (raw_key f i) (raw_key f j) = raw_key f (raw_intersect i j)) /\
  (forall i j, raw_enclose (raw_key f i) (raw_key f j) = raw_key f (raw_enclose i j)) /\
  (forall i j, raw_union (raw_key f i) (raw_key f j) = map (raw_key f) (raw_union i j)) /\
  (forall i j, raw_minus (raw_key f i) (raw_key f j) = map (raw_key f) (raw_minus i j)) /\
  (forall l, raw_union_all (map (raw_key f) l) = map (raw_key f) (raw_union_all l)) /\
  (forall l, raw_intersect_all (map (raw_key f) l) = raw_key f (raw_intersect_all l)) /\
  (forall l, raw_enclose_all (map (raw_key f) l) = raw_key f (raw_enclose_all l)).
Proof.
  intros H. repeat split; intros.
  - now apply k_new.
  - now apply k_contains.
  - now apply k_intersects.
  - now apply k_is_adjacent.
  - now apply k_intersect.
  - now apply k_enclose.
  - now apply k_union.
  - now apply k_minus.
  - now apply k_union_all.
  - now apply k_intersect_all.
  - now apply k_enclose_all.
Qed.
Print Assumptions C96_raw.

Theorem C96_tree {T U} {CT : Cmp T} {CU : Cmp U} (f : T -> U) : ordered_by f ->
  (forall i, tree_from_raw_interval (raw_key f i) = tree_key f (tree_from_raw_interval i)) /\
  (forall s s', tree_eqb (tree_key f s) (tree_key f s') = tree_eqb s s') /\
  (forall s, tree_is_full (tree_key f s) = tree_is_full s) /\
  (forall dbg s x, tree_contains dbg (tree_key f s) (f x) = tree_contains dbg s x) /\
  (forall dbg s i, tree_union_in_place dbg (tree_key f s) (raw_key f i) = res_key (tree_key f) (tree_union_in_place dbg s i)) /\
  (forall dbg s i, tree_minus_in_place dbg (tree_key f s) (raw_key f i) = res_key (tree_key f) (tree_minus_in_place dbg s i)) /\
  (forall dbg s i, tree_intersect_in_place dbg (tree_key f s) (raw_key f i) = res_key (tree_key f) (tree_intersect_in_place dbg s i)) /\
  (forall dbg s, tree_complement dbg (tree_key f s) = res_key (tree_key f) (tree_complement dbg s)) /\
  (forall dbg s o, tree_union dbg (tree_key f s) (tree_key f o) = res_key (tree_key f) (tree_union dbg s o)) /\
  (forall dbg s o, tree_minus dbg (tree_key f s) (tree_key f o) = res_key (tree_key f) (tree_minus dbg s o)) /\
  (forall dbg s o, tree_intersect dbg (tree_key f s) (tree_key f o) = res_key (tree_key f) (tree_intersect dbg s o)) /\
  (forall dbg s, tree_enclose dbg (tree_key f s) = res_key (raw_key f) (tree_enclose dbg s)) /\
  (forall dbg s, tree_closure dbg (tree_key f s) = res_key (raw_key f) (tree_closure dbg s)) /\
  (forall dbg s l, drains (iter_next dbg) (tree_interval_iter s) l ->
     drains (iter_next dbg) (tree_interval_iter (tree_key f s)) (map (raw_key f) l)).
Proof.
  intros H. repeat split; intros.
  - now apply k_tree_from.
  - now apply k_tree_eqb.
  - now apply k_tree_is_full.
  - now apply k_tree_contains.
  - now apply k_union_in_place.
  - now apply k_minus_in_place.
  - now apply k_intersect_in_place.
  - now apply k_tree_complement.
  - now apply k_tree_union.
  - now apply k_tree_minus.
  - now apply k_tree_intersect.
  - now apply k_tree_enclose.
  - now apply k_tree_closure.
  - exact (k_drains _ _ (raw_key f) (iter_key f) (k_iter_next f H dbg) (tree_interval_iter s) l H0).
Qed.
Print Assumptions C96_tree.

(** Whole programs over the Selection API, with what can be asked of the result. *)
Theorem C96_program {T U} {CT : Cmp T} {CU : Cmp U} {FT : FiniteOps T} {FU : FiniteOps U} (f : T -> U) :
  ordered_by f -> finite_by f ->
  (forall dbg p, run dbg (prog_key f p) = res_key (tree_key f) (run dbg p)) /\
  (forall dbg s x, sel_contains dbg (tree_key f s) (f x) = sel_contains dbg s x) /\
  (forall dbg s, sel_lower_bound dbg (tree_key f s) = res_key (option_map (bound_key f)) (sel_lower_bound dbg s)) /\
  (forall dbg s, sel_upper_bound dbg (tree_key f s) = res_key (option_map (bound_key f)) (sel_upper_bound dbg s)) /\
  (forall dbg s l, drains (sel_next dbg) (sel_iter s) l -> drains (sel_next dbg) (sel_iter (tree_key f s)) (map f l)) /\
  (forall dbg s l, sel_intervals_are dbg s l -> sel_intervals_are dbg (tree_key f s) (map (interval_key f) l)) /\
  (forall dbg s l, drains (sel_next_back dbg) (sel_iter s) l -> drains (sel_next_back dbg) (sel_iter (tree_key f s)) (map f l)).
Proof.
  intros H HF. repeat split; intros.
  - now apply k_run.
  - now apply k_tree_contains.
  - now apply k_sel_lower.
  - now apply k_sel_upper.
  - exact (k_drains _ _ f (sel_iter_key f) (k_sel_next f H HF dbg) (sel_iter s) l H0).
  - exact (k_drains _ _ (interval_key f) (iter_key f) (k_sel_interval_next f H HF dbg) (sel_interval_iter s) l H0).
  - exact (k_drains _ _ f (sel_iter_key f) (k_sel_next_back f H HF dbg) (sel_iter s) l H0).
Qed.
Print Assumptions C96_program.

(** Now let [U] be a lawful type and [T] one that compares by a key in [U], so
    that values of [T] may be [==] without being identical.  The set semantics
    holds on [T], up to [==]. *)
Theorem C96_set_semantics {T U} {CT : Cmp T} {FT : FiniteOps T} {O : Ord U} {F : Finite U} (f : T -> U) :
  ordered_by f -> finite_by f -> forall dbg (p : prog T), inputs false p -> boolean p ->
  exists s, run dbg p = Ok s /\ forall x, exists b, sel_contains dbg s x = Ok b /\ (b = true <-> means_eq p x).
Proof.
  intros H HF dbg p I B.
  destruct (C43_set_semantics dbg (prog_key f p) (k_inputs f H HF p I) (k_boolean f p B)) as (s & E & M).
  rewrite (k_run f H HF) in E. destruct (run dbg p) as [s'|] eqn:E'; [|discriminate]. injection E as <-.
  exists s'. split; auto. intros x. destruct (M (f x)) as (b & Eb & Mb). exists b.
  unfold sel_contains in *. rewrite (k_tree_contains f H) in Eb. split; auto. rewrite Mb. clear - H.
  assert (P : forall i, ipoints (interval_key f i) (f x) <-> ipoints i x) by (intros i; unfold ipoints; now rewrite (k_interval_contains f H)).
  assert (L : forall l, some_icontains (map (interval_key f) l) (f x) <-> some_icontains l x) by (intros l; apply (k_some f H)).
  induction p; cbn [prog_key means means_eq]; rewrite ?P, ?L; try tauto.
  rewrite in_map_iff. split.
  - intros (y & E & K). exists y. split; auto. rewrite <- (k_eqb f H), E. now apply eqb_iff.
  - intros (y & K & E). exists y. split; auto. rewrite <- (k_eqb f H) in E. symmetry. now apply eqb_iff.
Qed.
Print Assumptions C96_set_semantics.

(** Two programs given [==] values instead of each other's build [==]
    Selections, which give the same answers for [==] values; and neither panics
    alone. *)
Theorem C96_congruence {T U} {CT : Cmp T} {FT : FiniteOps T} {O : Ord U} {F : Finite U} (f : T -> U) :
  ordered_by f -> finite_by f -> forall dbg (p q : prog T), prog_key f p = prog_key f q ->
  match run dbg p, run dbg q with
  | Ok s, Ok s' => tree_eqb s s' = true /\
      (forall x y, eqb x y = true -> sel_contains dbg s x = sel_contains dbg s' y)
  | Panic, Panic => True
  | _, _ => False
  end.
Proof.
  intros H HF dbg p q E. pose proof (k_run f H HF dbg p) as Ep. pose proof (k_run f H HF dbg q) as Eq.
  rewrite E, Eq in Ep. destruct (run dbg p) as [s|], (run dbg q) as [s'|]; cbn in Ep; try discriminate; auto.
  injection Ep as Ep. split.
  - rewrite <- (k_tree_eqb f H), Ep. generalize (map (tine_key f) s). intros l.
    induction l as [|t l IH]; cbn; auto. rewrite IH, andb_true_r.
    destruct t as [[]|[]|[]]; cbn; auto; now apply eqb_iff.
  - intros x y K. unfold sel_contains. rewrite <- (k_tree_contains f H dbg s), <- (k_tree_contains f H dbg s').
    rewrite <- (k_eqb f H) in K. apply (proj1 (eqb_iff (f x) (f y))) in K. unfold tree_key in *. now rewrite K, Ep.
Qed.
Print Assumptions C96_congruence.

(** ** A type whose [==] is not identity: bytes with a tag the order ignores. *)
Section Tagged.
  Definition tagged : Type := (i8 * bool)%type.
  #[local] Instance tagged_Cmp : Cmp tagged := {| cmp := fun x y => cmp (fst x) (fst y) |}.
  #[local] Instance tagged_Finite : FiniteOps tagged :=
    {| MINIMUM := (MINIMUM, false); MAXIMUM := (MAXIMUM, true);
       pred := fun x => option_map (fun y => (y, snd x)) (pred (fst x));
       succ := fun x => option_map (fun y => (y, snd x)) (succ (fst x)) |}.
  Lemma tagged_ordered : ordered_by (fst : tagged -> i8).
  Proof. intros x y. reflexivity. Qed.
  Lemma tagged_finite : finite_by (fst : tagged -> i8).
  Proof.
    repeat split; auto; intros [x b]; cbn [pred succ tagged_Finite fst snd].
    - now destruct (pred x).
    - now destruct (succ x).
  Qed.
  (** Different values that are [==]; a program over them, and the same program
      with the tags changed. *)
  Definition tagged_prog (b : bool) : prog tagged :=
    P_complement (P_union (P_points [(v 3, b); (v 4, true)]) (P_from (interval_open (v 10, negb b) (v 20, b)))).
  Example C96_ex : (v 3, true) <> (v 3, false) /\ eqb ((v 3, true) : tagged) (v 3, false) = true /\
    inputs false (tagged_prog true) /\ boolean (tagged_prog true) /\
    prog_key fst (tagged_prog true) = prog_key fst (tagged_prog false) /\
    (exists s s', run true (tagged_prog true) = Ok s /\ run true (tagged_prog false) = Ok s' /\ s <> s' /\ tree_eqb s s' = true) /\
    means_eq (tagged_prog true) (v 5, false) /\ ~ means_eq (tagged_prog true) (v 3, false).
  Proof.
    split; [congruence|]. split; [reflexivity|]. split.
    { cbn. split; auto. apply R_open. discriminate. }
    split; [cbn; tauto|]. split; [reflexivity|]. split.
    { do 2 eexists. split; [reflexivity|]. split; [reflexivity|]. split; [discriminate|reflexivity]. }
    split.
    - cbn. intros [(y & [<-|[<-|[]]] & E)|E]; discriminate E.
    - cbn. intros K. apply K. left. exists (v 3, true). auto.
  Qed.
End Tagged.

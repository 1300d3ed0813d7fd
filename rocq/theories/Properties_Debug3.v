(** * The text of [{:?}] shows what an iterator has left: C114 *)
From Coq Require Import List Bool ZArith Lia String Ascii.
From Verif Require Import Base OrdFacts PFinite MBound MRaw MNormalize MTine MBTree MTineTree Ints MInterval MSelection MHash MParse
  MDebug MDebugIter Spec Spec_Sel Spec_Parse Instances PTree7 PParse PParse2 Properties_Debug Properties_Interval Properties_Selection.
Import ListNotations.
Local Open Scope string_scope.

(** std's text for the rest of an owning set iterator tells where it ends when a comma
    follows it, and then which tines it is of.  Nothing more is assumed of it. *)
Definition owned_delimited {T} (owned : list (Tine T) -> string) : Prop :=
  forall s s' a b, owned s ++ String "," a = owned s' ++ String "," b -> s = s'.

Section DebugIter.
  Context {T : Type} {O : Ord T} (show : T -> string) (P : debug_delimited show).

  Lemma ord_consistent : debug_consistent show.
  Proof. intros x y E. apply (proj1 (eqb_iff x y)) in E. now subst. Qed.
  Let C := ord_consistent.

  Lemma tine_prefix (t u : Tine T) a b : tine_debug show t ++ a = tine_debug show u ++ b -> t = u /\ a = b.
  Proof.
    intros E. apply tine_debug_prefix in E as [K E]; auto. split; auto.
    assert (Q : tree_eqb [t] [u] = true) by (unfold tree_eqb; cbn; now rewrite K).
    apply tree_eqb_eq in Q. congruence.
  Qed.
  Lemma interval_prefix (i j : Interval T) a b : interval_debug show i ++ a = interval_debug show j ++ b -> i = j /\ a = b.
  Proof.
    intros E. apply interval_debug_prefix in E as [K E]; auto. split; auto. unfold interval_eqb in K.
    destruct i as [i], j as [j]; cbn in K. f_equal.
    destruct i, j; cbn in K; try discriminate; auto;
      try (apply andb_prop in K as [K K']; apply (proj1 (eqb_iff _ _)) in K'); apply (proj1 (eqb_iff _ _)) in K; congruence.
  Qed.
  Lemma saved_prefix (o p : option (Tine T)) a b : saved_debug show o ++ a = saved_debug show p ++ b -> o = p /\ a = b.
  Proof.
    destruct o as [t|], p as [u|]; cbn; try discriminate; intros E; injection E as E; auto.
    rewrite !app_assoc_str in E. apply tine_prefix in E as [-> E]. cbn in E. injection E as E. auto.
  Qed.

  Fixpoint rest (s : list (Tine T)) : string := match s with [] => "])" | t :: s => ", " ++ tine_debug show t ++ rest s end.
  Lemma rest_spec t s : String.concat ", " (map (tine_debug show) (t :: s)) ++ "])" = tine_debug show t ++ rest s.
  Proof.
    revert t. induction s as [|u s IH]; intros t; [reflexivity|].
    change (String.concat ", " (map (tine_debug show) (t :: u :: s)))
      with (tine_debug show t ++ ", " ++ String.concat ", " (map (tine_debug show) (u :: s))).
    rewrite !app_assoc_str, IH. reflexivity.
  Qed.
  Lemma rest_prefix s s' a b : rest s ++ a = rest s' ++ b -> s = s' /\ a = b.
  Proof.
    revert s'. induction s as [|t s IH]; intros [|u s']; cbn; try discriminate; intros E; injection E as E; auto.
    rewrite !app_assoc_str in E. apply tine_prefix in E as [-> E]. apply IH in E as [-> ->]. auto.
  Qed.
  Lemma set_iter_prefix s s' a b : set_iter_debug show s ++ a = set_iter_debug show s' ++ b -> s = s' /\ a = b.
  Proof.
    unfold set_iter_debug. rewrite !app_assoc_str. intros E. apply app_inv_str in E. rewrite <- !app_assoc_str in E.
    destruct s as [|t s], s' as [|u s']; rewrite ?rest_spec in E.
    - cbn in E. injection E as E. auto.
    - exfalso. cbn in E. destruct u; discriminate.
    - exfalso. cbn in E. destruct t; discriminate.
    - rewrite !app_assoc_str in E. apply tine_prefix in E as [-> E]. apply rest_prefix in E as [-> ->]. auto.
  Qed.

  (** The two saved tines, after the set iterator. *)
  Definition tail (it : Iter T) : string :=
    ", saved_lower: " ++ saved_debug show (saved_lower it) ++ ", saved_upper: " ++ saved_debug show (saved_upper it) ++ " }".
  Lemma tail_prefix it it' a b : tail it ++ a = tail it' ++ b ->
    saved_lower it = saved_lower it' /\ saved_upper it = saved_upper it' /\ a = b.
  Proof.
    unfold tail. rewrite !app_assoc_str. intros E. apply app_inv_str in E. apply saved_prefix in E as [K E].
    apply app_inv_str in E. apply saved_prefix in E as [K' E]. apply app_inv_str in E. auto.
  Qed.
  Lemma iter_eq (it it' : Iter T) : tine_iter it = tine_iter it' -> saved_lower it = saved_lower it' -> saved_upper it = saved_upper it' -> it = it'.
  Proof. destruct it, it'; cbn; congruence. Qed.
  Lemma tree_iter_prefix it it' a b : tree_iter_debug show it ++ a = tree_iter_debug show it' ++ b -> it = it' /\ a = b.
  Proof.
    change (tree_iter_debug show it) with ("Iter { tine_iter: " ++ set_iter_debug show (tine_iter it) ++ tail it).
    change (tree_iter_debug show it') with ("Iter { tine_iter: " ++ set_iter_debug show (tine_iter it') ++ tail it').
    rewrite !app_assoc_str. intros E. apply app_inv_str in E. apply set_iter_prefix in E as [K E].
    apply tail_prefix in E as (K1 & K2 & E). split; auto. now apply iter_eq.
  Qed.
  Lemma interval_iter_prefix i j a b : interval_iter_debug show i ++ a = interval_iter_debug show j ++ b -> i = j /\ a = b.
  Proof.
    unfold interval_iter_debug. rewrite !app_assoc_str. intros E. apply app_inv_str in E. apply interval_prefix in E as [K E].
    apply app_inv_str in E. auto.
  Qed.

  (** Two iterators print alike exactly if they are in the same state, whatever is printed
      after them. *)
  Theorem C114_distinguishes (c d : string) :
    (forall i j : Interval T, interval_iter_debug show i ++ c = interval_iter_debug show j ++ d <-> i = j /\ c = d) /\
    (forall it it' : Iter T, tree_iter_debug show it ++ c = tree_iter_debug show it' ++ d <-> it = it' /\ c = d) /\
    (forall it it' : Iter T, sel_interval_iter_debug show it ++ c = sel_interval_iter_debug show it' ++ d <-> it = it' /\ c = d) /\
    (forall it it' : SelIter T, sel_iter_debug show it ++ c = sel_iter_debug show it' ++ d <-> it = it' /\ c = d).
  Proof.
    split; [|split; [|split]]; intros x y; (split; [intros E|intros [-> ->]; reflexivity]).
    - now apply interval_iter_prefix.
    - now apply tree_iter_prefix.
    - unfold sel_interval_iter_debug in E. rewrite !app_assoc_str in E. apply app_inv_str in E. apply tree_iter_prefix in E as [K E].
      apply app_inv_str in E. auto.
    - unfold sel_iter_debug in E. rewrite !app_assoc_str in E. apply app_inv_str in E. apply tree_iter_prefix in E as [K E].
      apply app_inv_str in E. apply interval_iter_prefix in E as [K' E]. apply app_inv_str in E. split; auto.
      destruct x, y; cbn in *; congruence.
  Qed.

  (** The owning iterators. *)
  Theorem C114_owning (owned : list (Tine T) -> string) (c d : string) : owned_delimited owned ->
    (forall it it' : Iter T, tree_into_iter_debug show owned it ++ c = tree_into_iter_debug show owned it' ++ d <-> it = it' /\ c = d) /\
    (forall it it' : Iter T, sel_into_interval_iter_debug show owned it ++ c = sel_into_interval_iter_debug show owned it' ++ d <-> it = it' /\ c = d) /\
    (forall it it' : SelIter T, sel_into_iter_debug show owned it ++ c = sel_into_iter_debug show owned it' ++ d <-> it = it' /\ c = d).
  Proof.
    intros D.
    assert (X : forall it it' a b, tree_into_iter_debug show owned it ++ a = tree_into_iter_debug show owned it' ++ b -> it = it' /\ a = b).
    { intros it it' a b.
      change (tree_into_iter_debug show owned it) with ("IntoIter { inner: " ++ owned (tine_iter it) ++ tail it).
      change (tree_into_iter_debug show owned it') with ("IntoIter { inner: " ++ owned (tine_iter it') ++ tail it').
      rewrite !app_assoc_str. intros E. apply app_inv_str in E. assert (K : tine_iter it = tine_iter it') by exact (D _ _ _ _ E).
      rewrite K in E. apply app_inv_str in E. apply tail_prefix in E as (K1 & K2 & E). split; auto. now apply iter_eq. }
    split; [|split]; intros x y; (split; [intros E|intros [-> ->]; reflexivity]).
    - now apply X.
    - unfold sel_into_interval_iter_debug in E. rewrite !app_assoc_str in E. apply app_inv_str in E. apply X in E as [K E].
      apply app_inv_str in E. auto.
    - unfold sel_into_iter_debug in E. rewrite !app_assoc_str in E. apply app_inv_str in E. apply X in E as [K E].
      apply app_inv_str in E. apply interval_iter_prefix in E as [K' E]. apply app_inv_str in E. split; auto.
      destruct x, y; cbn in *; congruence.
  Qed.
End DebugIter.
Print Assumptions C114_distinguishes.
Print Assumptions C114_owning.

(** ** The multi-line form *)
Section PrettyIter.
  Context {T : Type} {O : Ord T} (show : T -> string) (P : debug_delimited show).
  #[local] Arguments field : simpl never.
  Let C := ord_consistent show.

  Lemma tine_p_prefix (t u : Tine T) a b : tine_pretty show t ++ a = tine_pretty show u ++ b -> t = u /\ a = b.
  Proof.
    intros E. apply tine_pretty_prefix in E as [K E]; auto. split; auto.
    assert (Q : tree_eqb [t] [u] = true) by (unfold tree_eqb; cbn; now rewrite K). apply tree_eqb_eq in Q. congruence.
  Qed.
  Lemma interval_p_prefix (i j : Interval T) a b : interval_pretty show i ++ a = interval_pretty show j ++ b -> i = j /\ a = b.
  Proof.
    intros E. apply interval_pretty_prefix in E as [K E]; auto. split; auto. unfold interval_eqb in K.
    destruct i as [i], j as [j]; cbn in K. f_equal.
    destruct i, j; cbn in K; try discriminate; auto;
      try (apply andb_prop in K as [K K']; apply (proj1 (eqb_iff _ _)) in K'); apply (proj1 (eqb_iff _ _)) in K; congruence.
  Qed.

  (** A field whose text is prefix-free, with its name. *)
  Lemma named_free {A} (f : A -> string) n (u v : A) X Y : (forall a b, f u ++ String "," a = f v ++ String "," b -> u = v) ->
    field (n ++ ": " ++ f u) ++ X = field (n ++ ": " ++ f v) ++ Y -> u = v /\ X = Y.
  Proof.
    intros F E. destruct (field_prefix _ _ _ _ E) as (a & b & Q). rewrite !app_assoc_str in Q. do 2 apply app_inv_str in Q.
    apply F in Q. subst v. split; auto. now apply app_inv_str in E.
  Qed.
  Lemma plain_free {A} (f : A -> string) (u v : A) X Y : (forall a b, f u ++ a = f v ++ b -> u = v) ->
    field (f u) ++ X = field (f v) ++ Y -> u = v /\ X = Y.
  Proof.
    intros F E. destruct (field_prefix _ _ _ _ E) as (a & b & Q). apply F in Q. subst v. split; auto. now apply app_inv_str in E.
  Qed.
  Lemma struct_cons n f fs g gs a b : struct n (f :: fs) ++ a = struct n (g :: gs) ++ b ->
    field (fst f ++ ": " ++ snd f) ++ String.concat "" (map (fun f => field (fst f ++ ": " ++ snd f)) fs) ++ String "}" a =
    field (fst g ++ ": " ++ snd g) ++ String.concat "" (map (fun f => field (fst f ++ ": " ++ snd f)) gs) ++ String "}" b.
  Proof.
    unfold struct. cbn [map].
    assert (K : forall x l, String.concat "" (x :: l) = x ++ String.concat "" l).
    { intros x [|y l]; cbn; [|reflexivity]. induction x; cbn; congruence. }
    rewrite !K, !app_assoc_str. intros E. do 3 apply app_inv_str in E. exact E.
  Qed.
  Lemma concat_cons' x l : String.concat "" (x :: l) = x ++ String.concat "" l.
  Proof. destruct l; cbn; [|reflexivity]. induction x; cbn; congruence. Qed.

  Lemma interval_iter_p_prefix (i j : Interval T) a b : interval_iter_pretty show i ++ a = interval_iter_pretty show j ++ b -> i = j /\ a = b.
  Proof.
    intros E. unfold interval_iter_pretty in E. apply struct_cons in E. cbn [fst snd map String.concat] in E.
    apply (named_free (interval_pretty show)) in E as [K E]; [|intros a' b' Q; now apply interval_p_prefix in Q].
    cbn in E. injection E as E. auto.
  Qed.
  Lemma saved_p_prefix (o p : option (Tine T)) a b : saved_pretty show o ++ a = saved_pretty show p ++ b -> o = p /\ a = b.
  Proof.
    destruct o as [t|], p as [u|]; cbn [saved_pretty]; try (unfold tuple; cbn; discriminate); intros E.
    - apply tuple_one in E. apply (plain_free (tine_pretty show)) in E as [-> E]; [|intros a' b' Q; now apply tine_p_prefix in Q].
      injection E as E. auto.
    - cbn in E. injection E as E. auto.
  Qed.
  Fixpoint rows (s : list (Tine T)) (a : string) : string :=
    match s with [] => String "]" a | t :: s => field (tine_pretty show t) ++ rows s a end.
  Lemma rows_spec s a : (String.concat "" (map (fun t => field (tine_pretty show t)) s) ++ "]") ++ a = rows s a.
  Proof. induction s as [|t s IH]; [reflexivity|]. cbn [map rows]. now rewrite concat_cons', <- IH, !app_assoc_str. Qed.
  Lemma rows_prefix s s' a b : rows s a = rows s' b -> s = s' /\ a = b.
  Proof.
    assert (N : forall t u X Y, String "]" X <> field (tine_pretty show t) ++ rows u Y)
      by (intros [? | ? | ?] u X Y E; unfold field, tine_pretty, tuple in E; cbn in E; discriminate).
    revert s'. induction s as [|t s IH]; intros [|u s'] E; cbn in E.
    - injection E as E. auto.
    - now apply N in E.
    - symmetry in E. now apply N in E.
    - apply (plain_free (tine_pretty show)) in E as [-> E]; [|intros a' b' Q; now apply tine_p_prefix in Q]. apply IH in E as [-> ->]. auto.
  Qed.
  Lemma list_p_prefix s s' a b : list_pretty show s ++ a = list_pretty show s' ++ b -> s = s' /\ a = b.
  Proof.
    destruct s as [|t s], s' as [|u s']; unfold list_pretty.
    - intros E. injection E as E. auto.
    - discriminate.
    - discriminate.
    - intros E. rewrite !app_assoc_str in E. do 2 apply app_inv_str in E. rewrite <- !app_assoc_str, !rows_spec in E. now apply rows_prefix.
  Qed.
  Lemma set_iter_p_prefix s s' a b : set_iter_pretty show s ++ a = set_iter_pretty show s' ++ b -> s = s' /\ a = b.
  Proof.
    intros E. unfold set_iter_pretty in E. apply tuple_one in E.
    apply (plain_free (list_pretty show)) in E as [-> E]; [|intros a' b' Q; now apply list_p_prefix in Q]. injection E as E. auto.
  Qed.
  (** Both kinds of interval iterator; [set] is the text for the set iterator. *)
  Lemma tree_p_prefix (set : list (Tine T) -> string) n m (it it' : Iter T) a b :
    (forall s s' a b, set s ++ String "," a = set s' ++ String "," b -> s = s') ->
    struct n [(m, set (tine_iter it)); ("saved_lower", saved_pretty show (saved_lower it)); ("saved_upper", saved_pretty show (saved_upper it))] ++ a =
    struct n [(m, set (tine_iter it')); ("saved_lower", saved_pretty show (saved_lower it')); ("saved_upper", saved_pretty show (saved_upper it'))] ++ b ->
    it = it' /\ a = b.
  Proof.
    intros D E. apply struct_cons in E. cbn [fst snd map] in E. rewrite !concat_cons' in E. cbn [String.concat] in E. rewrite !app_assoc_str in E.
    apply (named_free set) in E as [K E]; [|intros a' b' Q; now apply D in Q].
    apply (named_free (saved_pretty show)) in E as [K1 E]; [|intros a' b' Q; now apply saved_p_prefix in Q].
    apply (named_free (saved_pretty show)) in E as [K2 E]; [|intros a' b' Q; now apply saved_p_prefix in Q].
    cbn in E. injection E as E. split; auto. now apply iter_eq.
  Qed.
  Lemma tree_iter_p_prefix it it' a b : tree_iter_pretty show it ++ a = tree_iter_pretty show it' ++ b -> it = it' /\ a = b.
  Proof. intros E. apply (tree_p_prefix (set_iter_pretty show)) in E; auto. intros s s' a' b' Q. now apply set_iter_p_prefix in Q. Qed.
  Lemma sel_p_prefix (f : Iter T -> string) n (it it' : SelIter T) a b :
    (forall i j a b, f i ++ a = f j ++ b -> i = j /\ a = b) ->
    struct n [("intervals", f (si_intervals it)); ("current", interval_iter_pretty show (si_current it))] ++ a =
    struct n [("intervals", f (si_intervals it')); ("current", interval_iter_pretty show (si_current it'))] ++ b -> it = it' /\ a = b.
  Proof.
    intros D E. apply struct_cons in E. cbn [fst snd map String.concat] in E.
    apply (named_free f) in E as [K E]; [|intros a' b' Q; now apply D in Q].
    apply (named_free (interval_iter_pretty show)) in E as [K1 E]; [|intros a' b' Q; now apply interval_iter_p_prefix in Q].
    cbn in E. injection E as E. split; auto. destruct it, it'; cbn in *; congruence.
  Qed.

  (** The same for [{:#?}]. *)
  Theorem C114_multi_line (owned : list (Tine T) -> string) (c d : string) : owned_delimited owned ->
    (forall i j : Interval T, interval_iter_pretty show i ++ c = interval_iter_pretty show j ++ d <-> i = j /\ c = d) /\
    (forall it it' : Iter T, tree_iter_pretty show it ++ c = tree_iter_pretty show it' ++ d <-> it = it' /\ c = d) /\
    (forall it it' : Iter T, sel_interval_iter_pretty show it ++ c = sel_interval_iter_pretty show it' ++ d <-> it = it' /\ c = d) /\
    (forall it it' : SelIter T, sel_iter_pretty show it ++ c = sel_iter_pretty show it' ++ d <-> it = it' /\ c = d) /\
    (forall it it' : Iter T, tree_into_iter_pretty show owned it ++ c = tree_into_iter_pretty show owned it' ++ d <-> it = it' /\ c = d) /\
    (forall it it' : Iter T, sel_into_interval_iter_pretty show owned it ++ c = sel_into_interval_iter_pretty show owned it' ++ d <-> it = it' /\ c = d) /\
    (forall it it' : SelIter T, sel_into_iter_pretty show owned it ++ c = sel_into_iter_pretty show owned it' ++ d <-> it = it' /\ c = d).
  Proof.
    intros D.
    assert (X : forall it it' a b, tree_into_iter_pretty show owned it ++ a = tree_into_iter_pretty show owned it' ++ b -> it = it' /\ a = b).
    { intros it it' a b E. now apply (tree_p_prefix owned) in E. }
    repeat apply conj; intros x y; (split; [intros E|intros [-> ->]; reflexivity]).
    - now apply interval_iter_p_prefix.
    - now apply tree_iter_p_prefix.
    - unfold sel_interval_iter_pretty in E. apply tuple_one in E.
      apply (plain_free (tree_iter_pretty show)) in E as [-> E]; [|intros a' b' Q; now apply tree_iter_p_prefix in Q]. injection E as E. auto.
    - apply (sel_p_prefix (tree_iter_pretty show)) in E; auto. apply tree_iter_p_prefix.
    - now apply X.
    - unfold sel_into_interval_iter_pretty in E. apply tuple_one in E.
      apply (plain_free (tree_into_iter_pretty show owned)) in E as [-> E]; [|intros a' b' Q; now apply X in Q]. injection E as E. auto.
    - apply (sel_p_prefix (tree_into_iter_pretty show owned)) in E; auto.
  Qed.
End PrettyIter.
Print Assumptions C114_multi_line.

(** So iterators that print alike answer every sequence of calls alike.  And one that has just
    been made prints the Selection it iterates. *)
Theorem C114_answers {T} {O : Ord T} {F : Finite T} (show : T -> string) dbg : debug_delimited show ->
  (forall (i j : Interval T) calls out, interval_iter_debug show i = interval_iter_debug show j ->
     runs interval_next interval_next_back i calls out -> runs interval_next interval_next_back j calls out) /\
  (forall (it it' : Iter T) calls out, sel_interval_iter_debug show it = sel_interval_iter_debug show it' ->
     runs (sel_interval_next dbg) (sel_interval_next_back dbg) it calls out ->
     runs (sel_interval_next dbg) (sel_interval_next_back dbg) it' calls out) /\
  (forall (it it' : SelIter T) calls out, sel_iter_debug show it = sel_iter_debug show it' ->
     runs (sel_next dbg) (sel_next_back dbg) it calls out -> runs (sel_next dbg) (sel_next_back dbg) it' calls out) /\
  (forall s s' : Selection T, sel_iter_debug show (sel_iter s) = sel_iter_debug show (sel_iter s') <-> sel_debug show s = sel_debug show s').
Proof.
  intros P. destruct (C114_distinguishes show P "" "") as (D1 & _ & D3 & D4).
  assert (N : forall a b : string, a = b -> a ++ "" = b ++ "") by congruence.
  split; [|split; [|split]].
  - intros i j calls out E. apply N, D1 in E as [-> _]. auto.
  - intros i j calls out E. apply N, D3 in E as [-> _]. auto.
  - intros i j calls out E. apply N, D4 in E as [-> _]. auto.
  - intros s s'. split; intros E.
    + apply N, D4 in E as [E _]. unfold sel_iter, tree_interval_iter in E. congruence.
    + destruct (C111_distinguishes show (ord_consistent show) P "" "") as (_ & _ & _ & _ & D).
      apply N, D in E as [E _]. apply tree_eqb_eq in E. congruence.
Qed.
Print Assumptions C114_answers.

(** [0, 2] and 5, before and after the first value is taken. *)
Example C114_ex :
  let s := sel_union true (sel_from (cl 0 2)) (sel_from (cl 5 5)) in
  debug_delimited (show_int (lo := -128) (hi := 127)) /\
  owned_delimited (set_iter_debug (show_int (lo := -128) (hi := 127))) /\
  (exists t x it, s = Ok t /\ sel_next true (sel_iter t) = Ok (Some x, it) /\
   sel_iter_debug show_int (sel_iter t) =
     "Iter { intervals: Iter { tine_iter: Iter([Lower(Exclude(-1)), Upper(Exclude(3)), Lower(Exclude(4)), Upper(Exclude(6))]), saved_lower: None, saved_upper: None }, current: Iter { inner: Interval(Empty) } }" /\
   sel_iter_debug show_int it =
     "Iter { intervals: Iter { tine_iter: Iter([Lower(Exclude(4)), Upper(Exclude(6))]), saved_lower: None, saved_upper: None }, current: Iter { inner: Interval(Closed(1, 2)) } }").
Proof.
  assert (D : debug_delimited (show_int (lo := -128) (hi := 127))) by (apply (C111_int (lo := -128) (hi := 127)); lia).
  cbv zeta. split; [exact D|]. split; [intros s s' a b E; exact (proj1 (set_iter_prefix show_int D s s' _ _ E))|].
  eexists. eexists. eexists. split; [reflexivity|]. split; [reflexivity|]. vm_compute. auto.
Qed.
(** A saved tine shows: 0 to 9 without 4, after the first interval is taken. *)
Example C114_saved_ex :
  let s := [TLower (Exclude (v (-1))); TPoint (Exclude (v 4)); TUpper (Exclude (v 10))] in
  exists x it, sel_interval_next true (sel_interval_iter s) = Ok (Some x, it) /\
    sel_interval_iter_debug show_int it =
      "IntervalIter(Iter { tine_iter: Iter([Upper(Exclude(10))]), saved_lower: Some(Point(Exclude(4))), saved_upper: None })".
Proof. cbv zeta. eexists. eexists. split; [reflexivity|]. vm_compute. reflexivity. Qed.
Example C114_multi_line_ex :
  sel_iter_pretty show_int (sel_iter [TPoint (Include (v 4))]) = "Iter {
    intervals: Iter {
        tine_iter: Iter(
            [
                Point(
                    Include(
                        4,
                    ),
                ),
            ],
        ),
        saved_lower: None,
        saved_upper: None,
    },
    current: Iter {
        inner: Interval(
            Empty,
        ),
    },
}".
Proof. vm_compute. reflexivity. Qed.

(** * The text of [{:?}] tells values apart: C111 *)
From Coq Require Import List Bool ZArith Lia String Ascii.
From Verif Require Import Base OrdFacts MBound MRaw MNormalize MTine MBTree MTineTree Ints MInterval MSelection MHash MParse
  MDebug Spec Spec_Sel Spec_Parse PParse PParse2 Properties_Interval Properties_Selection.
Import ListNotations.
Local Open Scope string_scope.

(** [T]'s [{:?}] gives equal values the same text. *)
Definition debug_consistent {T} {O : Cmp T} (show : T -> string) : Prop :=
  forall x y : T, eqb x y = true -> show x = show y.
(** The text of a value tells where it ends when a comma or a closing
    parenthesis follows it, and then which value it is of.  True of numbers,
    of quoted texts, and of tuples, structs and enums made of them. *)
Definition debug_delimited {T} {O : Cmp T} (show : T -> string) : Prop :=
  forall (x y : T) c d a b, In c [","%char; ")"%char] -> In d [","%char; ")"%char] ->
  show x ++ String c a = show y ++ String d b -> eqb x y = true.

Section Debug.
  Context {T : Type} {O : Cmp T} (show : T -> string).
  Implicit Types (x y : T) (s : TineTree T).

  Lemma app_assoc_str (a b c : string) : (a ++ b) ++ c = a ++ b ++ c.
  Proof. induction a as [|h a IH]; cbn; [auto|now rewrite IH]. Qed.
  Lemma app_inv_str (a b c : string) : a ++ b = a ++ c -> b = c.
  Proof. induction a as [|h a IH]; cbn; auto. intros E. injection E as E. auto. Qed.

  Section Consistent.
    Context (C : debug_consistent show).
    Lemma bound_debug_eq (a b : Bound T) : bound_eqb a b = true -> bound_debug show a = bound_debug show b.
    Proof. destruct a, b; cbn; try discriminate; intros E; rewrite ?(C _ _ E); auto. Qed.
    Lemma tine_debug_eq (a b : Tine T) : tine_eqb a b = true -> tine_debug show a = tine_debug show b.
    Proof. destruct a, b; cbn; try discriminate; intros E; now rewrite (bound_debug_eq _ _ E). Qed.
    Lemma raw_debug_eq (i j : RawInterval T) : raw_eqb i j = true -> raw_debug show i = raw_debug show j.
    Proof.
      destruct i, j; cbn; try discriminate; auto; intros E; try now rewrite (C _ _ E).
      all: apply andb_prop in E as [E E']; now rewrite (C _ _ E), (C _ _ E').
    Qed.
    Lemma interval_debug_eq (i j : Interval T) : interval_eqb i j = true -> interval_debug show i = interval_debug show j.
    Proof. intros E. unfold interval_debug. now rewrite (raw_debug_eq (interval_raw i) (interval_raw j) E). Qed.
    Lemma set_debug_eq s s' : tree_eqb s s' = true -> set_debug show s = set_debug show s'.
    Proof.
      intros E. unfold set_debug. do 3 f_equal. revert s' E. induction s as [|a s IH]; intros [|b s']; cbn; try discriminate; auto.
      intros E. apply andb_prop in E as [E E']. now rewrite (tine_debug_eq _ _ E), (IH s' E').
    Qed.
  End Consistent.

  Section Prefix.
    Context (P : debug_delimited show) (C : debug_consistent show).
    Lemma val_debug_prefix x y c d a b : In c [","%char; ")"%char] -> In d [","%char; ")"%char] ->
      show x ++ String c a = show y ++ String d b -> eqb x y = true /\ String c a = String d b.
    Proof. intros Hc Hd E. pose proof (P x y c d a b Hc Hd E) as K. split; auto. rewrite (C _ _ K) in E. now apply app_inv_str in E. Qed.
    Lemma val_close x y a b : show x ++ String ")" a = show y ++ String ")" b -> eqb x y = true /\ a = b.
    Proof. intros E. apply val_debug_prefix in E as [K E]; cbn; auto. injection E as E. auto. Qed.
    Lemma val_comma x y a b : show x ++ String "," a = show y ++ String "," b -> eqb x y = true /\ a = b.
    Proof. intros E. apply val_debug_prefix in E as [K E]; cbn; auto. injection E as E. auto. Qed.

    Lemma bound_debug_prefix (x y : Bound T) a b : bound_debug show x ++ a = bound_debug show y ++ b -> bound_eqb x y = true /\ a = b.
    Proof.
      destruct x, y; cbn; try discriminate; intros E; rewrite ?app_assoc_str in E; cbn in E; injection E as E; auto using val_close.
    Qed.
    Lemma tine_debug_prefix (x y : Tine T) a b : tine_debug show x ++ a = tine_debug show y ++ b -> tine_eqb x y = true /\ a = b.
    Proof.
      destruct x, y; cbn; try discriminate; intros E; rewrite ?app_assoc_str in E; cbn in E; injection E as E;
        apply bound_debug_prefix in E as [K E]; injection E as E; auto.
    Qed.
    Lemma raw_debug_prefix (i j : RawInterval T) a b : raw_debug show i ++ a = raw_debug show j ++ b -> raw_eqb i j = true /\ a = b.
    Proof.
      destruct i, j; cbn; try discriminate; intros E; rewrite ?app_assoc_str in E; cbn in E; rewrite ?app_assoc_str in E; cbn in E;
        injection E as E; auto using val_close.
      all: apply val_comma in E as [K E]; injection E as E; apply val_close in E as [K' E]; now rewrite K, K'.
    Qed.
    Lemma interval_debug_prefix (i j : Interval T) a b :
      interval_debug show i ++ a = interval_debug show j ++ b -> interval_eqb i j = true /\ a = b.
    Proof.
      unfold interval_debug. cbn. intros E. injection E as E. rewrite !app_assoc_str in E.
      apply raw_debug_prefix in E as [K E]. injection E as E. auto.
    Qed.
    (** The entries of a set after its first one, and what follows it. *)
    Fixpoint entries (s : list (Tine T)) : string :=
      match s with [] => "}" | t :: s => ", " ++ tine_debug show t ++ entries s end.
    Lemma entries_spec t s : String.concat ", " (map (tine_debug show) (t :: s)) ++ "}" = tine_debug show t ++ entries s.
    Proof.
      revert t. induction s as [|u s IH]; intros t; [reflexivity|].
      change (String.concat ", " (map (tine_debug show) (t :: u :: s)))
        with (tine_debug show t ++ ", " ++ String.concat ", " (map (tine_debug show) (u :: s))).
      rewrite !app_assoc_str, IH. reflexivity.
    Qed.
    Lemma entries_prefix s s' a b : entries s ++ a = entries s' ++ b -> tree_eqb s s' = true /\ a = b.
    Proof.
      revert s'. induction s as [|t s IH]; intros [|u s']; cbn; try discriminate; intros E; injection E as E; auto.
      rewrite !app_assoc_str in E. apply tine_debug_prefix in E as [K E]. apply IH in E as [K' E]. now rewrite K.
    Qed.
    Lemma set_debug_prefix s s' a b : set_debug show s ++ a = set_debug show s' ++ b -> tree_eqb s s' = true /\ a = b.
    Proof.
      unfold set_debug. rewrite !app_assoc_str. intros E. apply app_inv_str in E. rewrite <- !app_assoc_str in E.
      destruct s as [|t s], s' as [|u s']; rewrite ?entries_spec in E.
      - cbn in E. injection E as E. auto.
      - exfalso. cbn in E. destruct u; discriminate.
      - exfalso. cbn in E. destruct t; discriminate.
      - rewrite !app_assoc_str in E. apply tine_debug_prefix in E as [K E]. apply entries_prefix in E as [K' E].
        cbn. unfold tree_eqb in K'. now rewrite K.
    Qed.
  End Prefix.

  (** Equal values print alike. *)
  Theorem C111_consistent : debug_consistent show ->
    (forall a b : Bound T, bound_eqb a b = true -> bound_debug show a = bound_debug show b) /\
    (forall i j : RawInterval T, raw_eqb i j = true -> raw_debug show i = raw_debug show j) /\
    (forall i j : Interval T, interval_eqb i j = true -> interval_debug show i = interval_debug show j) /\
    (forall s s' : TineTree T, tree_eqb s s' = true -> tree_debug show s = tree_debug show s') /\
    (forall s s' : Selection T, tree_eqb s s' = true -> sel_debug show s = sel_debug show s').
  Proof.
    intros C. repeat apply conj; intros a b E.
    - now apply bound_debug_eq.
    - now apply raw_debug_eq.
    - now apply interval_debug_eq.
    - unfold tree_debug. now rewrite (set_debug_eq C a b E).
    - unfold sel_debug, tree_debug. now rewrite (set_debug_eq C a b E).
  Qed.

  (** Values print alike only if they are equal, and the text of one is never
      the beginning of that of another: whatever is printed after it, it can be
      read back. *)
  Theorem C111_distinguishes : debug_consistent show -> debug_delimited show -> forall c d : string,
    (forall a b : Bound T, bound_debug show a ++ c = bound_debug show b ++ d <-> bound_eqb a b = true /\ c = d) /\
    (forall i j : RawInterval T, raw_debug show i ++ c = raw_debug show j ++ d <-> raw_eqb i j = true /\ c = d) /\
    (forall i j : Interval T, interval_debug show i ++ c = interval_debug show j ++ d <-> interval_eqb i j = true /\ c = d) /\
    (forall s s' : TineTree T, tree_debug show s ++ c = tree_debug show s' ++ d <-> tree_eqb s s' = true /\ c = d) /\
    (forall s s' : Selection T, sel_debug show s ++ c = sel_debug show s' ++ d <-> tree_eqb s s' = true /\ c = d).
  Proof.
    intros C P c d. destruct (C111_consistent C) as (K1 & K2 & K3 & K4 & K5).
    repeat apply conj; intros x y; (split; [intros E|intros [E ->]; f_equal; auto]).
    - now apply bound_debug_prefix.
    - now apply raw_debug_prefix.
    - now apply interval_debug_prefix.
    - unfold tree_debug in E. rewrite !app_assoc_str in E. apply app_inv_str in E.
      apply set_debug_prefix in E as [K E]; auto. injection E as E. auto.
    - unfold sel_debug, tree_debug in E. rewrite !app_assoc_str in E. do 2 apply app_inv_str in E.
      apply set_debug_prefix in E as [K E]; auto. injection E as E. auto.
  Qed.
End Debug.
Print Assumptions C111_consistent.
Print Assumptions C111_distinguishes.

(** ** The multi-line form *)
Section Pretty.
  Context {T : Type} {O : Cmp T} (show : T -> string).
  Implicit Types (x y : T) (s : TineTree T).
  #[local] Arguments field : simpl never.

  Lemma pad_prefix n (u v X Y : string) : pad n u ++ X = pad n v ++ Y -> exists a b, u ++ a = v ++ b.
  Proof.
    revert n v. induction u as [|c u IH]; intros n [|d v] E.
    - now exists "", "".
    - exists (String d v), "". cbn. f_equal. clear. induction v; cbn; congruence.
    - exists "", (String c u). cbn. f_equal. clear. induction u; cbn; congruence.
    - assert (K : String c (pad (Ascii.eqb c "010") u ++ X) = String d (pad (Ascii.eqb d "010") v ++ Y)).
      { cbn in E. destruct n; cbn in E; [now injection E as -> ->|exact E]. }
      injection K as <- K. destruct (IH _ _ K) as (a & b & Q). exists a, b. cbn. now rewrite Q.
  Qed.
  Lemma field_prefix (u v X Y : string) : field u ++ X = field v ++ Y -> exists a b, u ++ String "," a = v ++ String "," b.
  Proof.
    unfold field. intros E. apply pad_prefix in E as (a & b & E). rewrite !app_assoc_str in E. cbn in E. eauto.
  Qed.
  (** A field whose text is prefix-free. *)
  Lemma field_free {A} (f : A -> string) (eq : A -> A -> bool) (u v : A) X Y :
    (forall a b, f u ++ a = f v ++ b -> eq u v = true) -> (eq u v = true -> f u = f v) ->
    field (f u) ++ X = field (f v) ++ Y -> eq u v = true /\ X = Y.
  Proof.
    intros P C E. destruct (field_prefix _ _ _ _ E) as (a & b & Q). apply P in Q. split; auto.
    rewrite (C Q) in E. now apply app_inv_str in E.
  Qed.
  Lemma tuple_one name (u v a b : string) : tuple name [u] ++ a = tuple name [v] ++ b ->
    field u ++ String ")" a = field v ++ String ")" b.
  Proof. unfold tuple. cbn. rewrite !app_assoc_str. intros E. apply app_inv_str in E. cbn in E. injection E as E. now rewrite !app_assoc_str in E. Qed.
  Lemma tuple_two name (u u' v v' a b : string) : tuple name [u; u'] ++ a = tuple name [v; v'] ++ b ->
    field u ++ field u' ++ String ")" a = field v ++ field v' ++ String ")" b.
  Proof.
    unfold tuple. cbn. rewrite !app_assoc_str. intros E. apply app_inv_str in E. cbn in E. injection E as E.
    now rewrite !app_assoc_str in E.
  Qed.

  Context (C : debug_consistent show).
  Lemma bound_pretty_eq (a b : Bound T) : bound_eqb a b = true -> bound_pretty show a = bound_pretty show b.
  Proof. destruct a, b; cbn; try discriminate; intros E; rewrite ?(C _ _ E); auto. Qed.
  Lemma tine_pretty_eq (a b : Tine T) : tine_eqb a b = true -> tine_pretty show a = tine_pretty show b.
  Proof. destruct a, b; cbn; try discriminate; intros E; now rewrite (bound_pretty_eq _ _ E). Qed.
  Lemma raw_pretty_eq (i j : RawInterval T) : raw_eqb i j = true -> raw_pretty show i = raw_pretty show j.
  Proof.
    destruct i, j; cbn; try discriminate; auto; intros E; try now rewrite (C _ _ E).
    all: apply andb_prop in E as [E E']; now rewrite (C _ _ E), (C _ _ E').
  Qed.
  Lemma interval_pretty_eq (i j : Interval T) : interval_eqb i j = true -> interval_pretty show i = interval_pretty show j.
  Proof. intros E. unfold interval_pretty. now rewrite (raw_pretty_eq (interval_raw i) (interval_raw j) E). Qed.
  Lemma set_pretty_eq s s' : tree_eqb s s' = true -> set_pretty show s = set_pretty show s'.
  Proof.
    intros E. assert (K : map (fun t => field (tine_pretty show t)) s = map (fun t => field (tine_pretty show t)) s').
    { revert s' E. induction s as [|a s IH]; intros [|b s']; cbn; try discriminate; auto.
      intros E. apply andb_prop in E as [E E']. now rewrite (tine_pretty_eq _ _ E), (IH s' E'). }
    destruct s as [|a s], s' as [|b s']; try discriminate; auto. unfold set_pretty. now rewrite K.
  Qed.
  Lemma tree_pretty_eq s s' : tree_eqb s s' = true -> tree_pretty show s = tree_pretty show s'.
  Proof. intros E. unfold tree_pretty. now rewrite (set_pretty_eq s s' E). Qed.
  Lemma sel_pretty_eq (s s' : Selection T) : tree_eqb s s' = true -> sel_pretty show s = sel_pretty show s'.
  Proof. intros E. unfold sel_pretty. now rewrite (tree_pretty_eq s s' E). Qed.

  Context (P : debug_delimited show).
  Lemma val_field x y (X Y : string) : field (show x) ++ X = field (show y) ++ Y -> eqb x y = true /\ X = Y.
  Proof.
    intros E. destruct (field_prefix _ _ _ _ E) as (a & b & Q). apply P in Q; [|cbn; auto..]. split; auto.
    rewrite (C _ _ Q) in E. now apply app_inv_str in E.
  Qed.
  Lemma bound_pretty_prefix (x y : Bound T) a b : bound_pretty show x ++ a = bound_pretty show y ++ b -> bound_eqb x y = true /\ a = b.
  Proof.
    destruct x, y; try (cbn; discriminate); intros E; try (apply tuple_one, val_field in E as [K E]; injection E as E; auto).
    cbn in E. injection E as E. auto.
  Qed.
  Lemma tine_pretty_prefix (x y : Tine T) a b : tine_pretty show x ++ a = tine_pretty show y ++ b -> tine_eqb x y = true /\ a = b.
  Proof.
    destruct x as [x|x|x], y as [y|y|y]; try (cbn; discriminate); intros E; apply tuple_one in E;
      apply (field_free (bound_pretty show) bound_eqb x y) in E as [K E]; auto using bound_pretty_eq;
      try (injection E as E; auto); intros a' b' Q; now apply bound_pretty_prefix in Q.
  Qed.
  Lemma raw_pretty_prefix (i j : RawInterval T) a b : raw_pretty show i ++ a = raw_pretty show j ++ b -> raw_eqb i j = true /\ a = b.
  Proof.
    destruct i, j; try (cbn; discriminate); intros E; try (cbn in E; injection E as E; now auto);
      try (apply tuple_one, val_field in E as [K E]; injection E as E; now auto).
    all: apply tuple_two, val_field in E as [K E]; apply val_field in E as [K' E]; injection E as E; cbn; now rewrite K, K'.
  Qed.
  Lemma interval_pretty_prefix (i j : Interval T) a b :
    interval_pretty show i ++ a = interval_pretty show j ++ b -> interval_eqb i j = true /\ a = b.
  Proof.
    intros E. apply tuple_one in E. apply (field_free (raw_pretty show) raw_eqb (interval_raw i) (interval_raw j)) in E as [K E].
    - injection E as E. auto.
    - intros a' b' Q. now apply raw_pretty_prefix in Q.
    - apply raw_pretty_eq.
  Qed.
  Fixpoint lines (s : list (Tine T)) (a : string) : string :=
    match s with [] => String "}" a | t :: s => field (tine_pretty show t) ++ lines s a end.
  Lemma lines_spec s a : (String.concat "" (map (fun t => field (tine_pretty show t)) s) ++ "}") ++ a = lines s a.
  Proof.
    induction s as [|t s IH]; [reflexivity|]. destruct s as [|u s]; [cbn; now rewrite !app_assoc_str|].
    change (String.concat "" (map (fun t => field (tine_pretty show t)) (t :: u :: s)))
      with (field (tine_pretty show t) ++ "" ++ String.concat "" (map (fun t => field (tine_pretty show t)) (u :: s))).
    change (lines (t :: u :: s) a) with (field (tine_pretty show t) ++ lines (u :: s) a).
    rewrite <- IH, !app_assoc_str. reflexivity.
  Qed.
  Lemma lines_prefix s s' a b : lines s a = lines s' b -> tree_eqb s s' = true /\ a = b.
  Proof.
    assert (N : forall t u X Y, String "}" X <> field (tine_pretty show t) ++ lines u Y)
      by (intros [? | ? | ?] u X Y E; unfold field, tine_pretty, tuple in E; cbn in E; discriminate).
    revert s'. induction s as [|t s IH]; intros [|u s'] E; cbn in E.
    - injection E as E. auto.
    - now apply N in E.
    - symmetry in E. now apply N in E.
    - apply (field_free (tine_pretty show) tine_eqb t u) in E as [K E]; auto using tine_pretty_eq.
      + apply IH in E as [K' E]. cbn. unfold tree_eqb in K'. now rewrite K.
      + intros a' b' Q. now apply tine_pretty_prefix in Q.
  Qed.
  Lemma set_pretty_prefix s s' a b : set_pretty show s ++ a = set_pretty show s' ++ b -> tree_eqb s s' = true /\ a = b.
  Proof.
    destruct s as [|t s], s' as [|u s']; unfold set_pretty.
    - intros E. injection E as E. auto.
    - discriminate.
    - discriminate.
    - intros E. rewrite !app_assoc_str in E. do 2 apply app_inv_str in E. rewrite <- !app_assoc_str, !lines_spec in E.
      now apply lines_prefix.
  Qed.
  Lemma tree_pretty_prefix s s' a b : tree_pretty show s ++ a = tree_pretty show s' ++ b -> tree_eqb s s' = true /\ a = b.
  Proof.
    intros E. apply tuple_one in E. apply (field_free (set_pretty show) tree_eqb s s') in E as [K E]; auto using set_pretty_eq.
    - injection E as E. auto.
    - intros a' b' Q. now apply set_pretty_prefix in Q.
  Qed.
  Lemma sel_pretty_prefix (s s' : Selection T) a b : sel_pretty show s ++ a = sel_pretty show s' ++ b -> tree_eqb s s' = true /\ a = b.
  Proof.
    intros E. apply tuple_one in E. apply (field_free (tree_pretty show) tree_eqb s s') in E as [K E]; auto using tree_pretty_eq.
    - injection E as E. auto.
    - intros a' b' Q. now apply tree_pretty_prefix in Q.
  Qed.
End Pretty.

(** The same for [{:#?}]: equal values print alike, others differently, also
    when something is printed after them. *)
Theorem C111_multi_line {T} {O : Cmp T} (show : T -> string) : debug_consistent show -> debug_delimited show -> forall c d : string,
  (forall a b : Bound T, bound_pretty show a ++ c = bound_pretty show b ++ d <-> bound_eqb a b = true /\ c = d) /\
  (forall i j : RawInterval T, raw_pretty show i ++ c = raw_pretty show j ++ d <-> raw_eqb i j = true /\ c = d) /\
  (forall i j : Interval T, interval_pretty show i ++ c = interval_pretty show j ++ d <-> interval_eqb i j = true /\ c = d) /\
  (forall s s' : TineTree T, tree_pretty show s ++ c = tree_pretty show s' ++ d <-> tree_eqb s s' = true /\ c = d) /\
  (forall s s' : Selection T, sel_pretty show s ++ c = sel_pretty show s' ++ d <-> tree_eqb s s' = true /\ c = d).
Proof.
  intros C P c d. repeat apply conj; intros x y; (split; [intros E|intros [E ->]; f_equal]).
  - now apply (bound_pretty_prefix show).
  - now apply bound_pretty_eq.
  - now apply (raw_pretty_prefix show).
  - now apply raw_pretty_eq.
  - now apply (interval_pretty_prefix show).
  - now apply interval_pretty_eq.
  - now apply (tree_pretty_prefix show).
  - now apply tree_pretty_eq.
  - now apply (sel_pretty_prefix show).
  - now apply sel_pretty_eq.
Qed.
Print Assumptions C111_multi_line.

(** The builtin integers, whose [{:?}] is their [Display], meet the hypotheses. *)
Theorem C111_int {lo hi} {I : IntType lo hi} : (lo <= 0 <= hi)%Z ->
  debug_consistent (show_int (lo := lo) (hi := hi)) /\ debug_delimited (show_int (lo := lo) (hi := hi)).
Proof.
  intros L. split; [intros x y E; apply (proj1 (eqb_iff x y)) in E; now subst|].
  intros x y c d a b Hc Hd E. apply eqb_iff.
  assert (N : forall z : int lo hi, forall e : ascii, In e [","%char; ")"%char] -> lacks e (show_int z)).
  { intros z e He. pose proof (show_int_decimal z) as D. cbn in He.
    destruct He as [<-|[<-|[]]]; apply (decimal_chars _ _ _ _ D); first [reflexivity|discriminate]. }
  assert (K : forall s t : string, (forall e, In e [","%char; ")"%char] -> lacks e s) -> (forall e, In e [","%char; ")"%char] -> lacks e t) ->
     s ++ String c a = t ++ String d b -> s = t).
  { clear - Hc Hd. induction s as [|h s IH]; intros [|k t] Hs Ht; cbn; intros Q; injection Q as Q1 Q2; auto.
    - subst. specialize (Ht _ Hc). apply lacks_cons in Ht as [Ht _]. congruence.
    - subst. specialize (Hs _ Hd). apply lacks_cons in Hs as [Hs _]. congruence.
    - subst. f_equal. apply IH; auto; intros e He; [specialize (Hs e He)|specialize (Ht e He)];
        [apply lacks_cons in Hs|apply lacks_cons in Ht]; tauto. }
  assert (Q : show_int x = show_int y) by (apply K; auto).
  pose proof (reads_back _ _ (int_contract (lo := lo) (hi := hi) L)) as R.
  pose proof (R x) as Rx. rewrite Q, R in Rx. now injection Rx.
Qed.
Print Assumptions C111_int.

(** Selections built by unions print by the set of values they contain, however
    they were built: equal sets alike, different sets differently. *)
Theorem C111_selection {T} {O : Ord T} {F : Finite T} (show : T -> string) dbg (p q : prog T) s s' :
  debug_delimited show ->
  inputs true p -> unions_only p -> run dbg p = Ok s -> inputs true q -> unions_only q -> run dbg q = Ok s' ->
  (sel_debug show s = sel_debug show s' <-> forall x, means p x <-> means q x).
Proof.
  intros P Hp Up Ep Hq Uq Eq. destruct (C48_canonical dbg p q s s' Hp Up Ep Hq Uq Eq) as [_ K].
  assert (C : debug_consistent show) by (intros x y E; apply (proj1 (eqb_iff x y)) in E; now subst).
  destruct (C111_distinguishes show C P "" "") as (_ & _ & _ & _ & D). rewrite <- K.
  specialize (D s s'). split; intros E.
  - apply D. now rewrite E.
  - assert (Q : sel_debug show s ++ "" = sel_debug show s' ++ "") by (apply D; split; auto).
    clear - Q. revert Q. assert (N : forall a : string, a ++ "" = a) by (induction a; cbn; congruence). now rewrite !N.
Qed.
Print Assumptions C111_selection.

(** The error of [FromStr] tells which of its two kinds it is, and of what
    value error. *)
Theorem C111_parse_error {E} (show : E -> string) : (forall x y, show x = show y -> x = y) ->
  forall a b : parse_error E, parse_error_debug show a = parse_error_debug show b <-> a = b.
Proof.
  intros J a b. split; [|now intros ->]. destruct a as [|a], b as [|b]; cbn; try discriminate; auto. intros Q. injection Q as Q.
  f_equal. apply J. now apply app_inj_tail in Q.
Qed.
Print Assumptions C111_parse_error.

Example C111_ex :
  debug_consistent (show_int (lo := -128) (hi := 127)) /\ debug_delimited (show_int (lo := -128) (hi := 127)) /\
  bound_debug show_int (Include (v (-3))) = "Include(-3)" /\
  raw_debug show_int (UpTo (v 100)) = "UpTo(100)" /\
  interval_debug show_int (interval_open (v 3) (v 6)) = "Interval(Closed(4, 5))" /\
  inputs true ex1 /\ unions_only ex1 /\
  sel_debug show_int (sel_from (cl 5 9)) = "Selection(TineTree({Lower(Exclude(4)), Upper(Exclude(10))}))" /\
  (exists s, run true ex1 = Ok s /\ sel_debug show_int s <> sel_debug show_int (sel_from (cl 5 9))) /\
  parse_error_debug show_int (InvalidValue (v 1)) = "InvalidValue(1)".
Proof.
  destruct (C111_int (lo := -128) (hi := 127)) as [C D]; [lia|].
  split; [exact C|]. split; [exact D|]. split; [reflexivity|]. split; [reflexivity|]. split; [reflexivity|].
  split; [apply ex1_inputs|]. split; [cbn; tauto|]. split; [vm_compute; reflexivity|].
  split; [eexists; split; [reflexivity|vm_compute; discriminate]|reflexivity].
Qed.
Example C111_multi_line_ex :
  interval_pretty show_int (interval_open (v 3) (v 6)) = "Interval(
    Closed(
        4,
        5,
    ),
)" /\
  sel_pretty show_int (sel_from (cl 5 9)) = "Selection(
    TineTree(
        {
            Lower(
                Exclude(
                    4,
                ),
            ),
            Upper(
                Exclude(
                    10,
                ),
            ),
        },
    ),
)" /\
  tree_pretty (show_int (lo := -128) (hi := 127)) [] = "TineTree(
    {},
)".
Proof. vm_compute. auto. Qed.

(** * Hashing agrees with equality: C97 *)
From Coq Require Import List Bool ZArith Lia.
From Verif Require Import Base OrdFacts MBound MRaw MNormalize MTine MBTree MTineTree Ints MInterval MSelection MHash
  Spec Spec_Sel Properties_Interval Properties_Selection.
Import ListNotations.

(** The law [std::hash::Hash] states: equal values write the same. *)
Definition hash_consistent (T W : Type) {O : Cmp T} {H : HashOps T W} : Prop :=
  forall x y : T, eqb x y = true -> feed x = feed y.
(** What it recommends: the writes of different values differ, also when
    something else is written after them ("prefix collisions"). *)
Definition hash_prefix_free (T W : Type) {O : Cmp T} {H : HashOps T W} : Prop :=
  forall (x y : T) a b, feed x ++ a = feed y ++ b -> eqb x y = true.

Section Hash.
  Context {T W : Type} {O : Cmp T} {H : HashOps T W}.
  Implicit Types (x y : T) (i j : RawInterval T) (s : TineTree T).

  Section Consistent.
    Context (C : hash_consistent T W).
    Lemma val_hash_eq x y : eqb x y = true -> val_hash x = val_hash y :> list (write W).
    Proof. intros E. unfold val_hash. now rewrite (C x y E). Qed.
    Lemma bound_hash_eq (a b : Bound T) : bound_eqb a b = true -> bound_hash a = bound_hash b :> list (write W).
    Proof. destruct a, b; cbn; try discriminate; intros E; rewrite ?(val_hash_eq _ _ E); auto. Qed.
    Lemma tine_hash_eq (a b : Tine T) : tine_eqb a b = true -> tine_hash a = tine_hash b :> list (write W).
    Proof. destruct a, b; cbn; try discriminate; intros E; now rewrite (bound_hash_eq _ _ E). Qed.
    Lemma raw_hash_eq i j : raw_eqb i j = true -> raw_hash i = raw_hash j :> list (write W).
    Proof.
      destruct i, j; cbn; try discriminate; auto; intros E; try now rewrite (val_hash_eq _ _ E).
      all: apply andb_prop in E as [E E']; now rewrite (val_hash_eq _ _ E), (val_hash_eq _ _ E').
    Qed.
    Lemma tree_hash_eq s s' : tree_eqb s s' = true -> tree_hash s = tree_hash s' :> list (write W).
    Proof.
      intros E. unfold tree_hash. assert (K : length s = length s' /\ flat_map tine_hash s = flat_map tine_hash s' :> list (write W)).
      { revert s' E. induction s as [|a s IH]; intros [|b s']; cbn; try discriminate; auto. intros E.
        apply andb_prop in E as [E E']. destruct (IH s' E') as [-> ->]. now rewrite (tine_hash_eq _ _ E). }
      destruct K as [-> ->]. reflexivity.
    Qed.
  End Consistent.

  (** ** Different values write differently *)
  Section Prefix.
    Context (P : hash_prefix_free T W) (C : hash_consistent T W).
    Lemma val_prefix x y (a b : list (write W)) : val_hash x ++ a = val_hash y ++ b -> eqb x y = true /\ a = b.
    Proof.
      intros E. assert (K : eqb x y = true).
      { assert (Q : exists a' b', feed x ++ a' = feed y ++ b').
        { unfold val_hash in E. revert E. generalize (feed x) as k, (feed y) as l. intros k. induction k as [|w k IH]; intros l E.
          - exists l, []. now rewrite app_nil_r.
          - destruct l as [|w' l].
            + exists [], (w :: k). now rewrite app_nil_r.
            + cbn in E. injection E as -> E. destruct (IH l E) as (a' & b' & Q). exists a', b'. cbn. now rewrite Q. }
        destruct Q as (a' & b' & Q). exact (P x y a' b' Q). }
      split; auto. rewrite (val_hash_eq C x y K) in E. now apply app_inv_head in E.
    Qed.
    Lemma bound_prefix (x y : Bound T) (a b : list (write W)) : bound_hash x ++ a = bound_hash y ++ b -> bound_eqb x y = true /\ a = b.
    Proof.
      destruct x, y; cbn; try discriminate; intros E; injection E as E; try (now apply val_prefix). auto.
    Qed.
    Lemma tine_prefix (x y : Tine T) (a b : list (write W)) : tine_hash x ++ a = tine_hash y ++ b -> tine_eqb x y = true /\ a = b.
    Proof. destruct x, y; cbn; try discriminate; intros E; injection E as E; now apply bound_prefix. Qed.
    Lemma raw_prefix i j (a b : list (write W)) : raw_hash i ++ a = raw_hash j ++ b -> raw_eqb i j = true /\ a = b.
    Proof.
      destruct i, j; cbn; try discriminate; intros E; injection E as E; try (now apply val_prefix); try (now split).
      all: rewrite <- !app_assoc in E; apply val_prefix in E as [E1 E2]; apply val_prefix in E2 as [E2 E3]; now rewrite E1, E2.
    Qed.
    Lemma tree_prefix s s' (a b : list (write W)) : tree_hash s ++ a = tree_hash s' ++ b -> tree_eqb s s' = true /\ a = b.
    Proof.
      unfold tree_hash. cbn. intros E. injection E as L E. revert s' L E. induction s as [|x s IH]; intros [|y s']; cbn; try discriminate; auto.
      intros L E. rewrite <- !app_assoc in E. apply tine_prefix in E as [E1 E2]. apply IH in E2; [|lia]. now rewrite E1.
    Qed.
  End Prefix.

  (** Equal values of the crate's types hash alike, for every [T] whose [Hash]
      agrees with its [==]. *)
  Theorem C97_consistent : hash_consistent T W ->
    (forall a b : Bound T, bound_eqb a b = true -> bound_hash a = bound_hash b :> list (write W)) /\
    (forall i j : RawInterval T, raw_eqb i j = true -> raw_hash i = raw_hash j :> list (write W)) /\
    (forall i j : Interval T, interval_eqb i j = true -> interval_hash i = interval_hash j :> list (write W)) /\
    (forall s s' : TineTree T, tree_eqb s s' = true -> tree_hash s = tree_hash s' :> list (write W)) /\
    (forall s s' : Selection T, tree_eqb s s' = true -> sel_hash s = sel_hash s' :> list (write W)).
  Proof.
    intros C. repeat split; intros.
    - now apply bound_hash_eq.
    - now apply raw_hash_eq.
    - now apply raw_hash_eq.
    - now apply tree_hash_eq.
    - now apply tree_hash_eq.
  Qed.

  (** If [T]'s writes are prefix-free, so are those of the crate's types, and
      they are equal exactly for equal values: whatever is written next, one
      can tell what was hashed. *)
  Theorem C97_distinguishes : hash_consistent T W -> hash_prefix_free T W -> forall c d : list (write W),
    (forall a b : Bound T, bound_hash a ++ c = bound_hash b ++ d <-> bound_eqb a b = true /\ c = d) /\
    (forall i j : RawInterval T, raw_hash i ++ c = raw_hash j ++ d <-> raw_eqb i j = true /\ c = d) /\
    (forall i j : Interval T, interval_hash i ++ c = interval_hash j ++ d <-> interval_eqb i j = true /\ c = d) /\
    (forall s s' : TineTree T, tree_hash s ++ c = tree_hash s' ++ d <-> tree_eqb s s' = true /\ c = d) /\
    (forall s s' : Selection T, sel_hash s ++ c = sel_hash s' ++ d <-> tree_eqb s s' = true /\ c = d).
  Proof.
    intros C P c d. repeat apply conj; intros x y; (split; [intros E|intros [E ->]; f_equal]).
    - now apply bound_prefix.
    - now apply bound_hash_eq.
    - now apply raw_prefix.
    - now apply raw_hash_eq.
    - now apply (raw_prefix P C (interval_raw x) (interval_raw y)).
    - now apply (raw_hash_eq C (interval_raw x) (interval_raw y)).
    - now apply tree_prefix.
    - now apply tree_hash_eq.
    - now apply (tree_prefix P C x y).
    - now apply (tree_hash_eq C x y).
  Qed.
End Hash.
Print Assumptions C97_consistent.
Print Assumptions C97_distinguishes.

(** Selections built by unions hash by the set of values they contain, however
    they were built: equal sets alike, different sets differently. *)
Theorem C97_selection {T W} {O : Ord T} {F : Finite T} {H : HashOps T W} dbg (p q : prog T) s s' :
  inputs true p -> unions_only p -> run dbg p = Ok s -> inputs true q -> unions_only q -> run dbg q = Ok s' ->
  ((forall x, means p x <-> means q x) -> sel_hash s = sel_hash s' :> list (write W)) /\
  (hash_prefix_free T W -> sel_hash s = sel_hash s' :> list (write W) -> forall x, means p x <-> means q x).
Proof.
  intros Hp Up Ep Hq Uq Eq. destruct (C48_canonical dbg p q s s' Hp Up Ep Hq Uq Eq) as [_ K].
  assert (C : hash_consistent T W) by (intros x y E; apply (proj1 (eqb_iff x y)) in E; now subst).
  split.
  - intros M. apply (tree_hash_eq C). now apply K.
  - intros P E. apply K. apply (tree_prefix P C s s' [] []). now rewrite !app_nil_r.
Qed.
Print Assumptions C97_selection.

(** i8 writes one byte. *)
#[local] Instance i8_Hash : HashOps i8 Z := {| feed := fun x => [ival x] |}.
Example C97_ex : hash_consistent i8 Z /\ hash_prefix_free i8 Z /\
  inputs true ex1 /\ unions_only ex1 /\
  (exists s, run true ex1 = Ok s /\ (sel_hash s : list (write Z)) <> sel_hash (sel_from (cl 5 9))) /\
  (raw_hash (Open (v 1) (v 3)) : list (write Z)) <> raw_hash (Closed (v 1) (v 3)).
Proof.
  split; [intros x y E; apply (proj1 (eqb_iff x y)) in E; now subst|].
  split; [intros x y a b E; injection E as E _; apply eqb_iff; now apply int_ext|].
  split; [apply ex1_inputs|]. split; [cbn; tauto|].
  split; [eexists; split; [reflexivity|discriminate]|discriminate].
Qed.

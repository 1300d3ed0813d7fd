(** * Proofs about normalization *)
From Coq Require Import List Bool ZArith Lia Sorted.
From Verif Require Import Base OrdFacts Pos PFinite MBound MRaw MNormalize Spec PRaw PRaw2.
Import ListNotations.

Section PNorm.
  Context {T : Type} {O : Ord T} {F : Finite T}.
  Implicit Types (i j r : RawInterval T) (x y : T).

  Ltac split_fin :=
    repeat match goal with
    | |- context [match succ ?x with _ => _ end] => destruct (succ x) eqn:?
    | |- context [match pred ?x with _ => _ end] => destruct (pred x) eqn:?
    end.

  Lemma normalized_contains i x : raw_contains (normalized i) x = raw_contains i x.
  Proof. destruct i; simpl; split_fin; simpl; forder. Qed.

  Definition closed_shape i : Prop :=
    match i with Empty | Point _ | Closed _ _ => True | _ => False end.

  Lemma normalized_shape i : closed_shape (normalized i).
  Proof. destruct i; simpl; split_fin; simpl; auto. Qed.

  Lemma normalized_id i : closed_shape i -> normalized i = i.
  Proof. destruct i; simpl; tauto. Qed.

  Lemma normalized_idem i : normalized (normalized i) = normalized i.
  Proof. apply normalized_id, normalized_shape. Qed.

  (** A one-sided inversion is all that can go wrong. *)
  Definition tight i : Prop :=
    match i with
    | Closed l u => le l u \/ succ u = Some l
    | Empty | Point _ => True
    | _ => False
    end.
  (** Not vacuous: [Empty] or with a point. *)
  Definition solid i : Prop :=
    match i with Closed l u => le l u | Empty | Point _ => True | _ => False end.

  Lemma solid_tight i : solid i -> tight i.
  Proof. destruct i; simpl; tauto. Qed.

  Lemma normalized_tight i : raw_wf i -> tight (normalized i).
  Proof.
    destruct i; simpl; auto; split_fin; simpl; auto; intros; forder.
  Qed.
  Lemma normalized_solid i : raw_wf i -> ~ gap i -> solid (normalized i).
  Proof.
    destruct i as [|p|l r|l r|l r|l r|p|p|p|p|]; simpl; auto; try (split_fin; simpl; auto; intros; forder).
    intros W G. split_fin; simpl; auto.
    destruct (succ l) as [l'|] eqn:El; [|discriminate].
    assert (l' <> r) by congruence. 
    match goal with H : Some l' = Some _ |- _ => injection H as -> end.
    forder.
  Qed.

  Lemma solid_empty i : solid i -> (raw_is_empty i = true <-> forall x, raw_contains i x = false).
  Proof.
    destruct i; simpl; try tauto; intros S; split; try discriminate; auto; intros H; exfalso.
    - specialize (H p). order.
    - specialize (H l). order.
  Qed.

  (** Canonicity when there are two points. *)
  Lemma closed_shape_two i m n :
    closed_shape i -> lt m n -> least (points i) m -> greatest (points i) n -> i = Closed m n.
  Proof.
    intros S L [Hm Lm] [Hn Gn]. destruct i as [|p| | | |l r| | | | |]; simpl in *; try tauto.
    - subst. exfalso. order.
    - f_equal; [specialize (Lm l)|specialize (Gn r)]; forder.
  Qed.

  Lemma denormalized_contains i x :
    match i with To _ | From _ => True | _ => raw_contains (denormalized i) x = raw_contains i x end.
  Proof. destruct i; simpl; auto; split_fin; simpl; forder. Qed.

  Lemma denormalized_wf i : raw_wf i -> raw_wf (denormalized i).
  Proof. destruct i; simpl; auto; split_fin; simpl; auto; intros; forder. Qed.

  (** Denormalization of what intervals hold. *)
  Lemma denormalized_tight_wf i : tight i -> raw_wf (denormalized i).
  Proof.
    destruct i; simpl; try tauto; intros H; split_fin; simpl; auto; try forder.
    all: destruct H as [H|H]; [forder|try injection H as <-; forder].
  Qed.
  Lemma denormalized_tight_contains i x : tight i -> raw_contains (denormalized i) x = raw_contains i x.
  Proof. intros H. generalize (denormalized_contains i x). destruct i; simpl in H; tauto. Qed.
End PNorm.

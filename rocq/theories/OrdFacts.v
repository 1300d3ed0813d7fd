(** * Order reasoning for an arbitrary [Ord T].

    Any finite set of elements of a total order embeds in Z by counting
    smaller elements, so order goals over finitely many variables are decided
    by [lia] after replacing each comparison on [T] by one on ranks. *)
From Coq Require Import List Bool ZArith Lia.
From Coq Require Import ZifyBool ZifyComparison.
From Verif Require Import Base.
Import ListNotations.
Local Open Scope Z_scope.

Section Facts.
  Context {T : Type} {O : Ord T}.

  Lemma cmp_refl (x : T) : cmp x x = Eq.
  Proof. now apply cmp_eq. Qed.

  Lemma cmp_gt_lt (x y : T) : cmp x y = Gt <-> cmp y x = Lt.
  Proof. rewrite (cmp_antisym x y). destruct (cmp x y); simpl; intuition congruence. Qed.

  Lemma cmp_spec (x y : T) : (cmp x y = Lt) \/ (x = y) \/ (cmp y x = Lt).
  Proof.
    destruct (cmp x y) eqn:E.
    - right; left; now apply cmp_eq.
    - now left.
    - right; right; now apply cmp_gt_lt.
  Qed.

  Lemma lt_irrefl (x : T) : ~ lt x x.
  Proof. unfold lt. rewrite cmp_refl. discriminate. Qed.

  Definition rank (l : list T) (x : T) : Z :=
    Z.of_nat (length (filter (fun y => ltb y x) l)).

  Lemma ltb_trans x y z : ltb x y = true -> ltb y z = true -> ltb x z = true.
  Proof.
    unfold ltb. destruct (cmp x y) eqn:A; try discriminate.
    destruct (cmp y z) eqn:B; try discriminate.
    now rewrite (cmp_lt_trans _ _ _ A B).
  Qed.

  Lemma rank_mono l x y : ltb x y = true -> rank l x <= rank l y.
  Proof.
    intros H. unfold rank. apply inj_le.
    induction l as [|a l IH]; simpl; auto.
    destruct (ltb a x) eqn:A; simpl.
    - rewrite (ltb_trans _ _ _ A H); simpl. apply le_n_S, IH.
    - destruct (ltb a y); simpl; auto.
  Qed.

  Lemma rank_lt l x y : In x l -> ltb x y = true -> rank l x < rank l y.
  Proof.
    intros HI H. induction l as [|a l IH]; [easy|].
    assert (Hm := rank_mono l x y H).
    assert (Hs : forall z, rank (a :: l) z = (if ltb a z then 1 else 0) + rank l z).
    { intros z. unfold rank. cbn [filter]. destruct (ltb a z); cbn [length]; lia. }
    rewrite !Hs. destruct HI as [->|HI].
    - rewrite H. unfold ltb at 1. rewrite cmp_refl. lia.
    - specialize (IH HI). destruct (ltb a x) eqn:A.
      + rewrite (ltb_trans _ _ _ A H). lia.
      + destruct (ltb a y); lia.
  Qed.

  Lemma rank_cmp l x y : In x l -> In y l -> cmp x y = Z.compare (rank l x) (rank l y).
  Proof.
    intros Hx Hy. symmetry. destruct (cmp_spec x y) as [H|[->|H]].
    - rewrite H. apply Z.compare_lt_iff, rank_lt; auto. unfold ltb; now rewrite H.
    - rewrite cmp_refl. apply Z.compare_refl.
    - rewrite (proj2 (cmp_gt_lt x y) H). apply Z.compare_gt_iff, rank_lt; auto.
      unfold ltb; now rewrite H.
  Qed.

  Lemma rank_eq l x y : In x l -> In y l -> (x = y <-> rank l x = rank l y).
  Proof.
    intros Hx Hy. rewrite <- cmp_eq, (rank_cmp l x y Hx Hy). apply Z.compare_eq_iff.
  Qed.

  (** Transfer lemmas, one per comparison form. *)
  Lemma rank_ltb l x y : In x l -> In y l -> ltb x y = Z.ltb (rank l x) (rank l y).
  Proof. intros; unfold ltb, Z.ltb; now rewrite (rank_cmp l). Qed.
  Lemma rank_leb l x y : In x l -> In y l -> leb x y = Z.leb (rank l x) (rank l y).
  Proof. intros; unfold leb, Z.leb; now rewrite (rank_cmp l). Qed.
  Lemma rank_gtb l x y : In x l -> In y l -> gtb x y = Z.gtb (rank l x) (rank l y).
  Proof. intros; unfold gtb, Z.gtb; now rewrite (rank_cmp l). Qed.
  Lemma rank_geb l x y : In x l -> In y l -> geb x y = Z.geb (rank l x) (rank l y).
  Proof. intros; unfold geb, Z.geb; now rewrite (rank_cmp l). Qed.
  Lemma rank_eqb l x y : In x l -> In y l -> eqb x y = Z.eqb (rank l x) (rank l y).
  Proof.
    intros; unfold eqb. rewrite (rank_cmp l) by auto. rewrite Z.eqb_compare. reflexivity.
  Qed.
  Lemma rank_lt_iff l x y : In x l -> In y l -> (lt x y <-> rank l x < rank l y).
  Proof. intros; unfold lt. rewrite (rank_cmp l) by auto. reflexivity. Qed.
  Lemma rank_le_iff l x y : In x l -> In y l -> (le x y <-> rank l x <= rank l y).
  Proof. intros; unfold le. rewrite (rank_cmp l) by auto. reflexivity. Qed.

  Lemma ltb_iff x y : ltb x y = true <-> lt x y.
  Proof. unfold ltb, lt; destruct (cmp x y); intuition congruence. Qed.
  Lemma leb_iff x y : leb x y = true <-> le x y.
  Proof. unfold leb, le; destruct (cmp x y); intuition congruence. Qed.
  Lemma gtb_iff x y : gtb x y = true <-> lt y x.
  Proof. unfold gtb, lt. rewrite <- cmp_gt_lt. destruct (cmp x y); intuition congruence. Qed.
  Lemma geb_iff x y : geb x y = true <-> le y x.
  Proof.
    unfold geb, le. rewrite cmp_gt_lt. destruct (cmp x y); intuition congruence.
  Qed.
  Lemma eqb_iff x y : eqb x y = true <-> x = y.
  Proof. unfold eqb. rewrite <- cmp_eq. destruct (cmp x y); intuition congruence. Qed.
End Facts.

(** [order]: decides goals over [lt], [le], [=], [ltb], ..., [cmp] on [T]. *)
Ltac ord_vars T acc k :=
  match goal with
  | x : T |- _ =>
      lazymatch acc with
      | context [cons x _] => fail
      | _ => idtac
      end;
      ord_vars T (cons x acc) k
  | _ => k acc
  end.

Ltac in_list := simpl; solve [repeat (first [left; reflexivity | right])].

Ltac order_with l :=
  repeat match goal with
  | H : ?x <> ?y |- _ => rewrite (rank_eq l x y ltac:(in_list) ltac:(in_list)) in H
  | H : ?x = ?y |- _ => rewrite (rank_eq l x y ltac:(in_list) ltac:(in_list)) in H
  end;
  repeat match goal with
  | H : context [cmp ?x ?y] |- _ => rewrite (rank_cmp l x y ltac:(in_list) ltac:(in_list)) in H
  | H : context [ltb ?x ?y] |- _ => rewrite (rank_ltb l x y ltac:(in_list) ltac:(in_list)) in H
  | H : context [leb ?x ?y] |- _ => rewrite (rank_leb l x y ltac:(in_list) ltac:(in_list)) in H
  | H : context [gtb ?x ?y] |- _ => rewrite (rank_gtb l x y ltac:(in_list) ltac:(in_list)) in H
  | H : context [geb ?x ?y] |- _ => rewrite (rank_geb l x y ltac:(in_list) ltac:(in_list)) in H
  | H : context [eqb ?x ?y] |- _ => rewrite (rank_eqb l x y ltac:(in_list) ltac:(in_list)) in H
  | H : context [lt ?x ?y] |- _ => rewrite (rank_lt_iff l x y ltac:(in_list) ltac:(in_list)) in H
  | H : context [le ?x ?y] |- _ => rewrite (rank_le_iff l x y ltac:(in_list) ltac:(in_list)) in H
  | |- context [cmp ?x ?y] => rewrite (rank_cmp l x y ltac:(in_list) ltac:(in_list))
  | |- context [ltb ?x ?y] => rewrite (rank_ltb l x y ltac:(in_list) ltac:(in_list))
  | |- context [leb ?x ?y] => rewrite (rank_leb l x y ltac:(in_list) ltac:(in_list))
  | |- context [gtb ?x ?y] => rewrite (rank_gtb l x y ltac:(in_list) ltac:(in_list))
  | |- context [geb ?x ?y] => rewrite (rank_geb l x y ltac:(in_list) ltac:(in_list))
  | |- context [eqb ?x ?y] => rewrite (rank_eqb l x y ltac:(in_list) ltac:(in_list))
  | |- context [lt ?x ?y] => rewrite (rank_lt_iff l x y ltac:(in_list) ltac:(in_list))
  | |- context [le ?x ?y] => rewrite (rank_le_iff l x y ltac:(in_list) ltac:(in_list))
  | |- context [?x = ?y] => rewrite (rank_eq l x y ltac:(in_list) ltac:(in_list))
  end;
  repeat match goal with
  | |- context [rank l ?x] => let r := fresh "r" in set (r := rank l x) in *; clearbody r
  | H : context [rank l ?x] |- _ => let r := fresh "r" in set (r := rank l x) in *; clearbody r
  end;
  lia.

Ltac ord_type :=
  match goal with O : Ord ?T |- _ => T end.

Ltac order :=
  intros;
  match goal with O : Ord ?T |- _ =>
    ord_vars T (@nil T) ltac:(fun l => order_with l)
  end.

(** The tactic at work. *)
Section Test.
  Context {T : Type} {O : Ord T}.
  Example order_test1 : forall x y z : T, lt x y -> le y z -> x <> z /\ ltb x z = true.
  Proof. order. Qed.
  Example order_test2 : forall x y z : T, cmp x y = Lt -> geb y z = true -> x = z \/ gtb y x && negb (eqb y x) = true.
  Proof. order. Qed.
  Example order_test3 : forall x y z : T, (ltb x y && leb y z = true) -> ltb x y = gtb z x.
  Proof. order. Qed.
End Test.

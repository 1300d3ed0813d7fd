(** * Properties of Bound's operators on partially ordered types: C94 *)
From Coq Require Import Bool ZArith Floats.SpecFloat.
From Verif Require Import Base MBound MBoundP Spec Ints Instances.

Section PartialOrder.
  Context {T : Type} {O : POrd T}.
  Implicit Types (a b : Bound T) (p q x : T).

  (** A value above a lower bound, below an upper bound: [l <= x], [l < x] ... *)
  Definition p_above b x : Prop :=
    match b with Include l => pcmp l x = Some Lt \/ pcmp l x = Some Eq | Exclude l => pcmp l x = Some Lt | Infinite => True end.
  Definition p_below b x : Prop :=
    match b with Include u => pcmp x u = Some Lt \/ pcmp x u = Some Eq | Exclude u => pcmp x u = Some Lt | Infinite => True end.
  (** The points of two bounds, if both have one, are comparable. *)
  Definition comparable a b : Prop :=
    match bound_as_ref a, bound_as_ref b with Some p, Some q => pcmp p q <> None | _, _ => True end.

  Lemma lt_via_eq_r x y z : pcmp x y = Some Lt -> pcmp y z = Some Eq -> pcmp x z = Some Lt.
  Proof.
    intros H E. rewrite (pcmp_dual z x). rewrite (pcmp_dual x z). rewrite (pcmp_dual z x).
    apply pcmp_equal with (z := x) in E. rewrite (pcmp_dual x y), H in E. simpl in E. now rewrite <- E.
  Qed.
  Lemma lt_via_eq_l x y z : pcmp x y = Some Eq -> pcmp y z = Some Lt -> pcmp x z = Some Lt.
  Proof. intros E H. now rewrite (pcmp_equal x y z E). Qed.
  Lemma eq_via_eq x y z : pcmp x y = Some Eq -> pcmp y z = Some Eq -> pcmp x z = Some Eq.
  Proof. intros E H. now rewrite (pcmp_equal x y z E). Qed.
  Lemma eq_swap x y : pcmp x y = Some Eq -> pcmp y x = Some Eq.
  Proof. intros E. now rewrite pcmp_dual, E. Qed.
  Lemma gt_swap x y : pcmp x y = Some Gt -> pcmp y x = Some Lt.
  Proof. intros E. now rewrite pcmp_dual, E. Qed.

  (** On comparable points the four operators are union and intersection of the
      values the bounds let through, for every value, comparable or not. *)
  Theorem C94_comparable a b x : comparable a b ->
    (p_above (p_least_union a b) x <-> p_above a x \/ p_above b x) /\
    (p_above (p_greatest_intersect a b) x <-> p_above a x /\ p_above b x) /\
    (p_below (p_greatest_union a b) x <-> p_below a x \/ p_below b x) /\
    (p_below (p_least_intersect a b) x <-> p_below a x /\ p_below b x).
  Proof.
    destruct a as [p|p|], b as [q|q|]; cbn; try tauto; intros C;
      unfold pltb, pleb, pgtb, pgeb; destruct (pcmp p q) as [[]|] eqn:E; try congruence; cbn;
      pose proof (lt_via_eq_r p q x); pose proof (lt_via_eq_l p q x); pose proof (eq_via_eq p q x); pose proof (pcmp_trans p q x);
      pose proof (lt_via_eq_r q p x); pose proof (lt_via_eq_l q p x); pose proof (eq_via_eq q p x); pose proof (pcmp_trans q p x);
      pose proof (lt_via_eq_r x p q); pose proof (lt_via_eq_l x p q); pose proof (eq_via_eq x p q); pose proof (pcmp_trans x p q);
      pose proof (lt_via_eq_r x q p); pose proof (lt_via_eq_l x q p); pose proof (eq_via_eq x q p); pose proof (pcmp_trans x q p);
      try apply eq_swap in E as E'; try apply gt_swap in E as E'; tauto.
  Qed.

  (** The result is one of the operands or, if one of them is, infinite; equal
      operands give themselves; on comparable points the order of the operands
      does not matter up to [==]. *)
  Theorem C94_algebra a b :
    (forall f, f = p_least_union \/ f = p_greatest_union \/ f = p_least_intersect \/ f = p_greatest_intersect ->
       (f a b = a \/ f a b = b) /\ f a a = a /\
       (comparable a b -> (forall p, bound_as_ref a = Some p -> pcmp p p <> None) -> (forall p, bound_as_ref b = Some p -> pcmp p p <> None) ->
          p_bound_eqb (f a b) (f b a) = true)).
  Proof.
    assert (R : forall p, pcmp p p <> None -> pcmp p p = Some Eq).
    { intros p H. pose proof (pcmp_dual p p) as K. destruct (pcmp p p) as [[]|]; simpl in K; congruence. }
    intros f Hf. split; [|split].
    - destruct Hf as [->|[->|[->| ->]]]; destruct a as [p|p|], b as [q|q|]; cbn; auto;
        unfold pltb, pleb, pgtb, pgeb; destruct (pcmp p q) as [[]|]; auto.
    - destruct Hf as [->|[->|[->| ->]]]; destruct a as [p|p|]; cbn; auto;
        unfold pltb, pleb, pgtb, pgeb; destruct (pcmp p p) as [[]|]; auto.
    - intros C Ra Rb.
      destruct Hf as [->|[->|[->| ->]]]; destruct a as [p|p|], b as [q|q|]; cbn in *; auto;
        try (apply R, (Ra _ eq_refl)); try (rewrite R; [reflexivity|]; first [now apply (Ra _ eq_refl)|now apply (Rb _ eq_refl)]);
        specialize (Ra _ eq_refl); specialize (Rb _ eq_refl);
        unfold pltb, pleb, pgtb, pgeb; rewrite (pcmp_dual p q);
        destruct (pcmp p q) as [[]|] eqn:E; cbn; try congruence; rewrite ?R by auto; auto; now rewrite (pcmp_dual p q), E.
  Qed.

  (** [==] of bounds: both infinite, or both included or both excluded at points
      that are equal; then they let the same values through on either side. *)
  Theorem C94_equality a b :
    (p_bound_eqb a b = true <->
       (a = Infinite /\ b = Infinite) \/
       (exists p q, a = Include p /\ b = Include q /\ pcmp p q = Some Eq) \/
       (exists p q, a = Exclude p /\ b = Exclude q /\ pcmp p q = Some Eq)) /\
    (p_bound_eqb a b = true -> forall x, (p_above a x <-> p_above b x) /\ (p_below a x <-> p_below b x)).
  Proof.
    assert (E : p_bound_eqb a b = true <->
       (a = Infinite /\ b = Infinite) \/
       (exists p q, a = Include p /\ b = Include q /\ pcmp p q = Some Eq) \/
       (exists p q, a = Exclude p /\ b = Exclude q /\ pcmp p q = Some Eq)).
    { split.
      - destruct a as [p|p|], b as [q|q|]; cbn; try discriminate; auto; intros H; right; [left|right]; exists p, q; (split; [|split]; auto);
          destruct (pcmp p q) as [[]|]; easy.
      - intros [[-> ->]|[(p & q & -> & -> & H)|(p & q & -> & -> & H)]]; cbn; rewrite ?H; reflexivity. }
    split; [exact E|]. rewrite E.
    intros [[-> ->]|[(p & q & -> & -> & H)|(p & q & -> & -> & H)]] x; cbn; [tauto| |]; rewrite (pcmp_equal p q x H);
      rewrite (pcmp_dual p x), (pcmp_dual q x), (pcmp_equal p q x H); tauto.
  Qed.

  (** Incomparable points: the argument wins, whatever the operator. *)
  Theorem C94_incomparable a b : ~ comparable a b ->
    p_least_union a b = b /\ p_greatest_union a b = b /\ p_least_intersect a b = b /\ p_greatest_intersect a b = b.
  Proof.
    unfold comparable. destruct a as [p|p|], b as [q|q|]; cbn; try tauto; intros C;
      unfold pltb, pleb, pgtb, pgeb; destruct (pcmp p q); try (exfalso; apply C; discriminate); auto.
  Qed.
End PartialOrder.
Print Assumptions C94_comparable.
Print Assumptions C94_algebra.
Print Assumptions C94_equality.
Print Assumptions C94_incomparable.

(** On totally ordered types these are the operators of MBound.v. *)
Theorem C94_total {T} {O : Ord T} (a b : Bound T) :
  p_least_union a b = least_union a b /\ p_greatest_union a b = greatest_union a b /\
  p_least_intersect a b = least_intersect a b /\ p_greatest_intersect a b = greatest_intersect a b.
Proof.
  destruct a as [p|p|], b as [q|q|]; cbn; auto; unfold pltb, pleb, pgtb, pgeb, ltb, leb, gtb, geb, pcmp, Ord_POrd;
    destruct (cmp p q); auto.
Qed.
Print Assumptions C94_total.

(** With floats: 1.0 and 2.0 combine, both zeros are equal. *)
Definition f_one : spec_float := S754_finite false 1 0.
Definition f_two : spec_float := S754_finite false 1 1.
Example C94_ex : comparable (Include f_one) (Exclude f_two) /\ p_least_union (Include f_two) (Exclude f_one) = Exclude f_one /\
  p_above (Exclude f_one) f_two /\ ~ p_above (Exclude f_one) S754_nan /\
  p_bound_eqb (p_least_union (Include (S754_zero false)) (Include (S754_zero true))) (Include (S754_zero false)) = true /\
  ~ comparable (Include S754_nan) (Include f_one).
Proof. repeat split; try discriminate; try reflexivity. unfold comparable. simpl. tauto. Qed.

(** With NaN the operators are neither commutative nor associative, and
    [least_union] can lose values a bound lets through. *)
Theorem C94_nan :
  (p_least_union (Include f_one) (Include S754_nan) = Include S754_nan /\ p_least_union (Include S754_nan) (Include f_one) = Include f_one) /\
  (p_above (Include f_one) f_two /\ ~ p_above (p_least_union (Include f_one) (Include S754_nan)) f_two) /\
  (p_least_union (Include f_one) (p_least_union (Include S754_nan) (Include f_two)) = Include f_one /\
   p_least_union (p_least_union (Include f_one) (Include S754_nan)) (Include f_two) = Include f_two).
Proof. repeat split; try reflexivity; try (left; reflexivity). intros [H|H]; discriminate H. Qed.
Print Assumptions C94_nan.

(** * Positions (proof device)

    The points of an order together with the neighbourhoods just below and
    just above each point, and the two ends.  Every bound is a closed bound on
    positions, which makes intervals over an arbitrary order as simple as
    closed integer intervals. *)
From Coq Require Import List Bool ZArith Lia.
From Coq Require Import ZifyBool ZifyComparison.
From Verif Require Import Base OrdFacts MBound MRaw.
Import ListNotations.
Local Open Scope Z_scope.

Inductive pos (T : Type) : Type :=
| NInf
| Lo (x : T)
| At (x : T)
| Hi (x : T)
| PInf.
Arguments NInf {T}.
Arguments Lo {T} x.
Arguments At {T} x.
Arguments Hi {T} x.
Arguments PInf {T}.

Section Pos.
  Context {T : Type} {O : Ord T}.

  Definition lex (c d : comparison) : comparison := match c with Eq => d | _ => c end.

  Definition pos_cmp (p q : pos T) : comparison :=
    match p, q with
    | NInf, NInf => Eq
    | NInf, _ => Lt
    | _, NInf => Gt
    | PInf, PInf => Eq
    | PInf, _ => Gt
    | _, PInf => Lt
    | Lo x, Lo y => cmp x y
    | Lo x, At y => lex (cmp x y) Lt
    | Lo x, Hi y => lex (cmp x y) Lt
    | At x, Lo y => lex (cmp x y) Gt
    | At x, At y => cmp x y
    | At x, Hi y => lex (cmp x y) Lt
    | Hi x, Lo y => lex (cmp x y) Gt
    | Hi x, At y => lex (cmp x y) Gt
    | Hi x, Hi y => cmp x y
    end.

  (** The integer of a position relative to a list containing its base. *)
  Definition pbase (p : pos T) : list T :=
    match p with NInf | PInf => [] | Lo x | At x | Hi x => [x] end.
  Definition pgood (L : list T) (p : pos T) : Prop := incl (pbase p) L.
  Definition pz (L : list T) (p : pos T) : Z :=
    match p with
    | NInf => -1
    | Lo x => 3 * rank L x
    | At x => 3 * rank L x + 1
    | Hi x => 3 * rank L x + 2
    | PInf => 3 * Z.of_nat (length L) + 3
    end.

  Lemma rank_bounds L x : 0 <= rank L x <= Z.of_nat (length L).
  Proof.
    unfold rank. split; [lia|]. apply inj_le.
    induction L as [|a L IH]; simpl; auto. destruct (ltb a x); simpl; lia.
  Qed.

  Lemma pz_bounds L p : -1 <= pz L p <= 3 * Z.of_nat (length L) + 3.
  Proof.
    destruct p as [|x|x|x|]; cbn [pz]; try lia; pose proof (rank_bounds L x); lia.
  Qed.

  Lemma pgood_1 (L : list T) x : incl [x] L -> In x L.
  Proof. intros H. apply H. now left. Qed.

  Lemma pz_cmp L p q : pgood L p -> pgood L q -> pos_cmp p q = Z.compare (pz L p) (pz L q).
  Proof.
    intros Hp Hq.
    destruct p as [|x|x|x|], q as [|y|y|y|]; unfold pgood in *;
      cbn [pz pos_cmp pbase] in *; try apply pgood_1 in Hp; try apply pgood_1 in Hq;
      try (rewrite (rank_cmp L x y Hp Hq));
      repeat match goal with
        | |- context [rank L ?x] =>
            pose proof (rank_bounds L x); generalize dependent (rank L x); intros
        end; unfold lex; try lia;
      match goal with
      | |- context [match (?a ?= ?b) with _ => _ end] => destruct (a ?= b) eqn:?
      end; lia.
  Qed.

  Lemma pz_eq L p q : pgood L p -> pgood L q -> (p = q <-> pz L p = pz L q).
  Proof.
    intros Hp Hq. split; [now intros ->|]. intros H.
    destruct p as [|x|x|x|], q as [|y|y|y|]; unfold pgood in *;
      cbn [pz pos_cmp pbase] in *; try apply pgood_1 in Hp; try apply pgood_1 in Hq;
      try pose proof (rank_bounds L x); try pose proof (rank_bounds L y);
      try reflexivity; try lia;
      f_equal; apply (rank_eq L); auto; lia.
  Qed.

  Lemma good_L p q : pgood (pbase p ++ pbase q) p /\ pgood (pbase p ++ pbase q) q.
  Proof. split; intros x Hx; apply in_or_app; auto. Qed.

  Global Program Instance pos_Ord : Ord (pos T) := {| ord_cmp := {| cmp := pos_cmp |} |}.
  Next Obligation.
    destruct (good_L x y). rewrite (pz_cmp _ _ _ H H0), (pz_eq _ _ _ H H0). apply Z.compare_eq_iff.
  Qed.
  Next Obligation.
    destruct (good_L x y). rewrite (pz_cmp _ _ _ H H0), (pz_cmp _ _ _ H0 H). apply Z.compare_antisym.
  Qed.
  Next Obligation.
    set (L := pbase x ++ pbase y ++ pbase z).
    assert (pgood L x) by (intros a Ha; apply in_or_app; auto).
    assert (pgood L y) by (intros a Ha; apply in_or_app; right; apply in_or_app; auto).
    assert (pgood L z) by (intros a Ha; apply in_or_app; right; apply in_or_app; auto).
    rewrite (pz_cmp L) in * by assumption. lia.
  Qed.

  (** Transfer lemmas for the tactic. *)
  Section Transfer.
    Variables (L : list T) (p q : pos T) (Hp : pgood L p) (Hq : pgood L q).
    Lemma pz_cmp' : cmp p q = Z.compare (pz L p) (pz L q).
    Proof using Hp Hq. now apply pz_cmp. Qed.
    Lemma pz_ltb : ltb p q = Z.ltb (pz L p) (pz L q).
    Proof using Hp Hq. unfold ltb, Z.ltb. now rewrite pz_cmp'. Qed.
    Lemma pz_leb : leb p q = Z.leb (pz L p) (pz L q).
    Proof using Hp Hq. unfold leb, Z.leb. now rewrite pz_cmp'. Qed.
    Lemma pz_gtb : gtb p q = Z.gtb (pz L p) (pz L q).
    Proof using Hp Hq. unfold gtb, Z.gtb. now rewrite pz_cmp'. Qed.
    Lemma pz_geb : geb p q = Z.geb (pz L p) (pz L q).
    Proof using Hp Hq. unfold geb, Z.geb. now rewrite pz_cmp'. Qed.
    Lemma pz_eqb : eqb p q = Z.eqb (pz L p) (pz L q).
    Proof using Hp Hq. unfold eqb. rewrite pz_cmp', Z.eqb_compare. reflexivity. Qed.
    Lemma pz_lt_iff : lt p q <-> pz L p < pz L q.
    Proof using Hp Hq. unfold lt. now rewrite pz_cmp'. Qed.
    Lemma pz_le_iff : le p q <-> pz L p <= pz L q.
    Proof using Hp Hq. unfold le. now rewrite pz_cmp'. Qed.
  End Transfer.

  Lemma pgood_Lo L x : In x L -> pgood L (Lo x).
  Proof. intros H y [<-|[]]; auto. Qed.
  Lemma pgood_At L x : In x L -> pgood L (At x).
  Proof. intros H y [<-|[]]; auto. Qed.
  Lemma pgood_Hi L x : In x L -> pgood L (Hi x).
  Proof. intros H y [<-|[]]; auto. Qed.
  Lemma pgood_NInf L : pgood L NInf.
  Proof. intros y []. Qed.
  Lemma pgood_PInf L : pgood L PInf.
  Proof. intros y []. Qed.

  Lemma pgood_var (xs : list T) (ps : list (pos T)) p :
    In p ps -> pgood (xs ++ flat_map pbase ps) p.
  Proof. intros H x Hx. apply in_or_app; right. apply in_flat_map. eauto. Qed.
  Lemma in_var (xs : list T) (ps : list (pos T)) x :
    In x xs -> In x (xs ++ flat_map pbase ps).
  Proof. intros H. apply in_or_app; now left. Qed.
End Pos.

(** [porder]: decides goals over comparisons of [T] and of positions. *)
Ltac pgood_tac :=
  first [ assumption | apply pgood_NInf | apply pgood_PInf
        | apply pgood_Lo; assumption | apply pgood_At; assumption | apply pgood_Hi; assumption ].

Ltac porder_facts T xs ps L :=
  repeat match goal with
  | x : T |- _ =>
      lazymatch goal with H : In x L |- _ => fail | _ => idtac end;
      assert (In x L) by (unfold L; apply (in_var xs ps); in_list)
  | p : pos T |- _ =>
      lazymatch goal with H : pgood L p |- _ => fail | _ => idtac end;
      assert (pgood L p) by (unfold L; apply (pgood_var xs ps); in_list)
  end.

Ltac porder_with T xs ps :=
  let L := fresh "L" in
  pose (L := xs ++ flat_map pbase ps);
  porder_facts T xs ps L; clearbody L;
  repeat match goal with
  | H : @eq T ?x ?y |- _ => rewrite (rank_eq L x y ltac:(assumption) ltac:(assumption)) in H
  | H : @eq (pos T) ?x ?y |- _ => rewrite (pz_eq L x y ltac:(pgood_tac) ltac:(pgood_tac)) in H
  | H : context [@eq T ?x ?y] |- _ => rewrite (rank_eq L x y ltac:(assumption) ltac:(assumption)) in H
  | H : context [@eq (pos T) ?x ?y] |- _ => rewrite (pz_eq L x y ltac:(pgood_tac) ltac:(pgood_tac)) in H
  | |- context [@eq T ?x ?y] => rewrite (rank_eq L x y ltac:(assumption) ltac:(assumption))
  | |- context [@eq (pos T) ?x ?y] => rewrite (pz_eq L x y ltac:(pgood_tac) ltac:(pgood_tac))
  end;
  repeat match goal with
  | H : context [@cmp T _ ?x ?y] |- _ => rewrite (rank_cmp L x y ltac:(assumption) ltac:(assumption)) in H
  | H : context [@ltb T _ ?x ?y] |- _ => rewrite (rank_ltb L x y ltac:(assumption) ltac:(assumption)) in H
  | H : context [@leb T _ ?x ?y] |- _ => rewrite (rank_leb L x y ltac:(assumption) ltac:(assumption)) in H
  | H : context [@gtb T _ ?x ?y] |- _ => rewrite (rank_gtb L x y ltac:(assumption) ltac:(assumption)) in H
  | H : context [@geb T _ ?x ?y] |- _ => rewrite (rank_geb L x y ltac:(assumption) ltac:(assumption)) in H
  | H : context [@eqb T _ ?x ?y] |- _ => rewrite (rank_eqb L x y ltac:(assumption) ltac:(assumption)) in H
  | H : context [@lt T _ ?x ?y] |- _ => rewrite (rank_lt_iff L x y ltac:(assumption) ltac:(assumption)) in H
  | H : context [@le T _ ?x ?y] |- _ => rewrite (rank_le_iff L x y ltac:(assumption) ltac:(assumption)) in H
  | H : context [@cmp (pos T) _ ?x ?y] |- _ => rewrite (pz_cmp' L x y ltac:(pgood_tac) ltac:(pgood_tac)) in H
  | H : context [@pos_cmp T _ ?x ?y] |- _ => rewrite (pz_cmp L x y ltac:(pgood_tac) ltac:(pgood_tac)) in H
  | H : context [@ltb (pos T) _ ?x ?y] |- _ => rewrite (pz_ltb L x y ltac:(pgood_tac) ltac:(pgood_tac)) in H
  | H : context [@leb (pos T) _ ?x ?y] |- _ => rewrite (pz_leb L x y ltac:(pgood_tac) ltac:(pgood_tac)) in H
  | H : context [@gtb (pos T) _ ?x ?y] |- _ => rewrite (pz_gtb L x y ltac:(pgood_tac) ltac:(pgood_tac)) in H
  | H : context [@geb (pos T) _ ?x ?y] |- _ => rewrite (pz_geb L x y ltac:(pgood_tac) ltac:(pgood_tac)) in H
  | H : context [@eqb (pos T) _ ?x ?y] |- _ => rewrite (pz_eqb L x y ltac:(pgood_tac) ltac:(pgood_tac)) in H
  | H : context [@lt (pos T) _ ?x ?y] |- _ => rewrite (pz_lt_iff L x y ltac:(pgood_tac) ltac:(pgood_tac)) in H
  | H : context [@le (pos T) _ ?x ?y] |- _ => rewrite (pz_le_iff L x y ltac:(pgood_tac) ltac:(pgood_tac)) in H
  | |- context [@cmp T _ ?x ?y] => rewrite (rank_cmp L x y ltac:(assumption) ltac:(assumption))
  | |- context [@ltb T _ ?x ?y] => rewrite (rank_ltb L x y ltac:(assumption) ltac:(assumption))
  | |- context [@leb T _ ?x ?y] => rewrite (rank_leb L x y ltac:(assumption) ltac:(assumption))
  | |- context [@gtb T _ ?x ?y] => rewrite (rank_gtb L x y ltac:(assumption) ltac:(assumption))
  | |- context [@geb T _ ?x ?y] => rewrite (rank_geb L x y ltac:(assumption) ltac:(assumption))
  | |- context [@eqb T _ ?x ?y] => rewrite (rank_eqb L x y ltac:(assumption) ltac:(assumption))
  | |- context [@lt T _ ?x ?y] => rewrite (rank_lt_iff L x y ltac:(assumption) ltac:(assumption))
  | |- context [@le T _ ?x ?y] => rewrite (rank_le_iff L x y ltac:(assumption) ltac:(assumption))
  | |- context [@cmp (pos T) _ ?x ?y] => rewrite (pz_cmp' L x y ltac:(pgood_tac) ltac:(pgood_tac))
  | |- context [@pos_cmp T _ ?x ?y] => rewrite (pz_cmp L x y ltac:(pgood_tac) ltac:(pgood_tac))
  | |- context [@ltb (pos T) _ ?x ?y] => rewrite (pz_ltb L x y ltac:(pgood_tac) ltac:(pgood_tac))
  | |- context [@leb (pos T) _ ?x ?y] => rewrite (pz_leb L x y ltac:(pgood_tac) ltac:(pgood_tac))
  | |- context [@gtb (pos T) _ ?x ?y] => rewrite (pz_gtb L x y ltac:(pgood_tac) ltac:(pgood_tac))
  | |- context [@geb (pos T) _ ?x ?y] => rewrite (pz_geb L x y ltac:(pgood_tac) ltac:(pgood_tac))
  | |- context [@eqb (pos T) _ ?x ?y] => rewrite (pz_eqb L x y ltac:(pgood_tac) ltac:(pgood_tac))
  | |- context [@lt (pos T) _ ?x ?y] => rewrite (pz_lt_iff L x y ltac:(pgood_tac) ltac:(pgood_tac))
  | |- context [@le (pos T) _ ?x ?y] => rewrite (pz_le_iff L x y ltac:(pgood_tac) ltac:(pgood_tac))
  end;
  cbn [pz] in *;
  repeat match goal with
  | |- context [rank L ?x] => let r := fresh "r" in
      pose proof (rank_bounds L x); set (r := rank L x) in *; clearbody r
  | H : context [rank L ?x] |- _ => let r := fresh "r" in
      pose proof (rank_bounds L x); set (r := rank L x) in *; clearbody r
  | |- context [pz L ?p] => let r := fresh "r" in
      pose proof (pz_bounds L p); set (r := pz L p) in *; clearbody r
  | H : context [pz L ?p] |- _ => let r := fresh "r" in
      pose proof (pz_bounds L p); set (r := pz L p) in *; clearbody r
  end;
  lia.

Ltac porder :=
  intros;
  match goal with O : Ord ?T |- _ =>
    ord_vars T (@nil T) ltac:(fun xs => ord_vars (pos T) (@nil (pos T)) ltac:(fun ps => porder_with T xs ps))
  end.

Section Test.
  Context {T : Type} {O : Ord T}.
  Example porder_test1 (x y : T) (p : pos T) : lt (At x) p -> lt p (Hi y) -> le x y -> p <> Hi x -> lt x y.
  Proof. porder. Qed.
  Example porder_test2 (x : T) (p : pos T) : lt (At x) p -> le (Hi x) p /\ le p PInf.
  Proof. porder. Qed.
  Example porder_test3 (x : T) (p : pos T) : ltb (At x) p = leb (Hi x) p.
  Proof. porder. Qed.
End Test.

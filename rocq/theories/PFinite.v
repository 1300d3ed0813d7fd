(** * Order reasoning for a lawful [Finite T]: it is an interval of integers *)
From Coq Require Import List Bool ZArith Lia.
From Coq Require Import ZifyBool ZifyComparison.
From Verif Require Import Base OrdFacts.
Import ListNotations.
Local Open Scope Z_scope.

Section PFinite.
  Context {T : Type} {O : Ord T} {F : Finite T}.

  Fixpoint dedup_T (l : list T) : list T :=
    match l with
    | [] => []
    | x :: l' => if existsb (eqb x) l' then dedup_T l' else x :: dedup_T l'
    end.
  Lemma dedup_T_In l x : In x (dedup_T l) <-> In x l.
  Proof.
    induction l as [|a l IH]; simpl; [tauto|]. destruct (existsb (eqb a) l) eqn:E; simpl; rewrite IH; [|tauto].
    split; [tauto|]. intros [->|H]; auto. apply existsb_exists in E as (y & Hy & E). apply eqb_iff in E. now subst.
  Qed.
  Lemma dedup_T_NoDup l : NoDup (dedup_T l).
  Proof.
    induction l as [|a l IH]; simpl; [constructor|]. destruct (existsb (eqb a) l) eqn:E; auto.
    constructor; auto. rewrite dedup_T_In. intros H.
    assert (existsb (eqb a) l = true); [|congruence]. apply existsb_exists. exists a. split; auto. now apply eqb_iff.
  Qed.

  Lemma rank_cons l a x : rank (a :: l) x = (if ltb a x then 1 else 0) + rank l x.
  Proof. unfold rank. cbn [filter]. destruct (ltb a x); cbn [length]; lia. Qed.

  Lemma rank_step l x y : NoDup l -> (forall z, lt z y <-> (lt z x \/ z = x)) ->
    (~ In x l -> rank l y = rank l x) /\ (In x l -> rank l y = rank l x + 1).
  Proof.
    intros N H. assert (Hx : lt x y) by (apply H; auto).
    induction N as [|a l Ha N [IH1 IH2]].
    - split; [reflexivity|easy].
    - rewrite !rank_cons. specialize (H a). simpl.
      assert (D : {In x l} + {~ In x l}).
      { destruct (existsb (eqb x) l) eqn:E.
        - left. apply existsb_exists in E as (z & Hz & E). apply eqb_iff in E. now subst.
        - right. intros K. assert (existsb (eqb x) l = true); [|congruence].
          apply existsb_exists. exists x. split; auto. now apply eqb_iff. }
      split.
      + intros NI. rewrite IH1 by tauto. destruct (ltb a y) eqn:A.
        * apply ltb_iff in A. apply H in A as [A| ->]; [|tauto]. apply ltb_iff in A. rewrite A. lia.
        * destruct (ltb a x) eqn:B; auto. apply ltb_iff in B. exfalso.
          assert (lt a y) by tauto. apply ltb_iff in H0. congruence.
      + intros [->|I].
        * rewrite IH1 by auto. assert (ltb x x = false) by order. assert (ltb x y = true) by order. rewrite H0, H1. lia.
        * rewrite IH2 by auto. assert (a <> x) by (intros ->; tauto).
          destruct (ltb a y) eqn:A; destruct (ltb a x) eqn:B; try lia; exfalso.
          -- apply ltb_iff in A. apply H in A as [A|A]; [|tauto]. apply ltb_iff in A. congruence.
          -- apply ltb_iff in B. assert (lt a y) by tauto. apply ltb_iff in H1. congruence.
  Qed.

  Lemma finite_embedding : exists (fr : T -> Z) (N : Z),
    (forall x y, cmp x y = Z.compare (fr x) (fr y)) /\
    (forall x, 0 <= fr x <= N) /\
    (forall z, 0 <= z <= N -> exists x, fr x = z) /\
    fr MINIMUM = 0 /\ fr MAXIMUM = N /\
    (forall x y, succ x = Some y <-> fr y = fr x + 1) /\
    (forall x y, pred x = Some y <-> fr y = fr x - 1) /\
    (forall x, succ x = None <-> fr x = N) /\ (forall x, pred x = None <-> fr x = 0).
  Proof.
    destruct values_finite as (l0 & Hl0). set (l := dedup_T l0).
    assert (Hl : forall x, In x l) by (intros x; now apply dedup_T_In).
    assert (N : NoDup l) by apply dedup_T_NoDup.
    exists (rank l), (rank l MAXIMUM).
    assert (C : forall x y, cmp x y = Z.compare (rank l x) (rank l y)) by (intros; apply rank_cmp; auto).
    assert (E : forall x y, x = y <-> rank l x = rank l y) by (intros; apply rank_eq; auto).
    assert (LT : forall x y, lt x y <-> rank l x < rank l y) by (intros; apply rank_lt_iff; auto).
    assert (LE : forall x y, le x y <-> rank l x <= rank l y) by (intros; apply rank_le_iff; auto).
    assert (S : forall x y, succ x = Some y -> rank l y = rank l x + 1).
    { intros x y H. apply succ_some in H as [H1 H2]. apply rank_step; auto.
      intros z. specialize (H2 z). rewrite LT, LT, E. rewrite LT, LE in H2. rewrite LT in H1. lia. }
    assert (P : forall x y, pred x = Some y -> rank l y = rank l x - 1).
    { intros x y H. apply pred_some in H as [H1 H2].
      assert (rank l x = rank l y + 1); [|lia]. apply rank_step; auto.
      intros z. specialize (H2 z). rewrite LT, LT, E. rewrite LT, LE in H2. rewrite LT in H1. lia. }
    assert (M0 : rank l MINIMUM = 0).
    { unfold rank. assert (filter (fun y => ltb y MINIMUM) l = []) as ->; [|reflexivity].
      clearbody l. clear -O F. induction l as [|a l IH]; simpl; auto. rewrite IH.
      pose proof (min_le a). destruct (ltb a MINIMUM) eqn:E; auto. exfalso.
      apply ltb_iff in E. unfold le, lt in *. apply cmp_gt_lt in E. contradiction. }
    assert (B : forall x, 0 <= rank l x <= rank l MAXIMUM).
    { intros x. split; [unfold rank; lia|]. apply LE, max_ge. }
    split; [exact C|]. split; [exact B|]. split.
    { intros z Hz.
      assert (G : forall n, Z.of_nat n <= rank l MAXIMUM -> exists x, rank l x = Z.of_nat n).
      { induction n as [|n IH]; intros Hn; [now exists MINIMUM|].
        destruct IH as (x & Hx); [lia|].
        destruct (succ x) as [y|] eqn:Sx.
        - exists y. rewrite (S _ _ Sx). lia.
        - apply succ_none in Sx. subst. lia. }
      destruct (G (Z.to_nat z)) as (x & Hx); [lia|]. exists x. lia. }
    split; [exact M0|]. split; [reflexivity|].
    split; [|split; [|split]].
    - intros x y. split; [apply S|]. intros H. destruct (succ x) as [y'|] eqn:Sx.
      + apply S in Sx. f_equal. apply E. lia.
      + apply succ_none in Sx. subst. specialize (B y). lia.
    - intros x y. split; [apply P|]. intros H. destruct (pred x) as [y'|] eqn:Sx.
      + apply P in Sx. f_equal. apply E. lia.
      + apply pred_none in Sx. subst. specialize (B y). lia.
    - intros x. rewrite succ_none. apply E.
    - intros x. rewrite pred_none, E, M0. reflexivity.
  Qed.

  Record fembed (fr : T -> Z) (N : Z) : Prop := {
    fe_cmp : forall x y, cmp x y = Z.compare (fr x) (fr y);
    fe_bounds : forall x, 0 <= fr x <= N;
    fe_surj : forall z, 0 <= z <= N -> exists x, fr x = z;
    fe_min : fr MINIMUM = 0;
    fe_max : fr MAXIMUM = N;
    fe_succ : forall x y, succ x = Some y <-> fr y = fr x + 1;
    fe_pred : forall x y, pred x = Some y <-> fr y = fr x - 1;
    fe_sn : forall x, succ x = None <-> fr x = N;
    fe_pn : forall x, pred x = None <-> fr x = 0
  }.
  Lemma finite_embed : exists fr N, fembed fr N.
  Proof.
    destruct finite_embedding as (fr & N & H1 & H2 & H3 & H4 & H5 & H6 & H7 & H8 & H9).
    exists fr, N. now split.
  Qed.
  Lemma fe_eq fr N : fembed fr N -> forall x y, x = y <-> fr x = fr y.
  Proof. intros H x y. rewrite <- cmp_eq, (fe_cmp _ _ H). apply Z.compare_eq_iff. Qed.
  Lemma fe_ltb fr N : fembed fr N -> forall x y, ltb x y = Z.ltb (fr x) (fr y).
  Proof. intros H x y. unfold ltb, Z.ltb. now rewrite (fe_cmp _ _ H). Qed.
  Lemma fe_leb fr N : fembed fr N -> forall x y, leb x y = Z.leb (fr x) (fr y).
  Proof. intros H x y. unfold leb, Z.leb. now rewrite (fe_cmp _ _ H). Qed.
  Lemma fe_gtb fr N : fembed fr N -> forall x y, gtb x y = Z.gtb (fr x) (fr y).
  Proof. intros H x y. unfold gtb, Z.gtb. now rewrite (fe_cmp _ _ H). Qed.
  Lemma fe_geb fr N : fembed fr N -> forall x y, geb x y = Z.geb (fr x) (fr y).
  Proof. intros H x y. unfold geb, Z.geb. now rewrite (fe_cmp _ _ H). Qed.
  Lemma fe_eqb fr N : fembed fr N -> forall x y, eqb x y = Z.eqb (fr x) (fr y).
  Proof. intros H x y. unfold eqb. now rewrite (fe_cmp _ _ H), Z.eqb_compare. Qed.
  Lemma fe_lt fr N : fembed fr N -> forall x y, lt x y <-> fr x < fr y.
  Proof. intros H x y. unfold lt. now rewrite (fe_cmp _ _ H). Qed.
  Lemma fe_le fr N : fembed fr N -> forall x y, le x y <-> fr x <= fr y.
  Proof. intros H x y. unfold le. now rewrite (fe_cmp _ _ H). Qed.
End PFinite.

(** [forder]: goals about comparisons, [pred], [succ], [MINIMUM], [MAXIMUM]. *)
Ltac forder_with T :=
  let fr := fresh "fr" in let N := fresh "N" in let Fe := fresh "Fe" in
  destruct (@finite_embed T _ _) as (fr & N & Fe);
  pose proof (fe_bounds _ _ Fe MAXIMUM);
  repeat match goal with
  | H : succ _ = Some _ |- _ => rewrite (fe_succ _ _ Fe) in H
  | H : pred _ = Some _ |- _ => rewrite (fe_pred _ _ Fe) in H
  | H : succ _ = None |- _ => rewrite (fe_sn _ _ Fe) in H
  | H : pred _ = None |- _ => rewrite (fe_pn _ _ Fe) in H
  | |- context [succ _ = Some _] => rewrite (fe_succ _ _ Fe)
  | |- context [pred _ = Some _] => rewrite (fe_pred _ _ Fe)
  | |- context [succ _ = None] => rewrite (fe_sn _ _ Fe)
  | |- context [pred _ = None] => rewrite (fe_pn _ _ Fe)
  | H : @eq T ?x ?y |- _ => rewrite (fe_eq _ _ Fe x y) in H
  | H : context [@eq T ?x ?y] |- _ => rewrite (fe_eq _ _ Fe x y) in H
  | |- context [@eq T ?x ?y] => rewrite (fe_eq _ _ Fe x y)
  end;
  repeat match goal with
  | H : context [@cmp T _ ?x ?y] |- _ => rewrite (fe_cmp _ _ Fe x y) in H
  | |- context [@cmp T _ ?x ?y] => rewrite (fe_cmp _ _ Fe x y)
  | H : context [@ltb T _ ?x ?y] |- _ => rewrite (fe_ltb _ _ Fe x y) in H
  | |- context [@ltb T _ ?x ?y] => rewrite (fe_ltb _ _ Fe x y)
  | H : context [@leb T _ ?x ?y] |- _ => rewrite (fe_leb _ _ Fe x y) in H
  | |- context [@leb T _ ?x ?y] => rewrite (fe_leb _ _ Fe x y)
  | H : context [@gtb T _ ?x ?y] |- _ => rewrite (fe_gtb _ _ Fe x y) in H
  | |- context [@gtb T _ ?x ?y] => rewrite (fe_gtb _ _ Fe x y)
  | H : context [@geb T _ ?x ?y] |- _ => rewrite (fe_geb _ _ Fe x y) in H
  | |- context [@geb T _ ?x ?y] => rewrite (fe_geb _ _ Fe x y)
  | H : context [@eqb T _ ?x ?y] |- _ => rewrite (fe_eqb _ _ Fe x y) in H
  | |- context [@eqb T _ ?x ?y] => rewrite (fe_eqb _ _ Fe x y)
  | H : context [@lt T _ ?x ?y] |- _ => rewrite (fe_lt _ _ Fe x y) in H
  | |- context [@lt T _ ?x ?y] => rewrite (fe_lt _ _ Fe x y)
  | H : context [@le T _ ?x ?y] |- _ => rewrite (fe_le _ _ Fe x y) in H
  | |- context [@le T _ ?x ?y] => rewrite (fe_le _ _ Fe x y)
  end;
  repeat match goal with
  | H : context [fr MINIMUM] |- _ => rewrite (fe_min _ _ Fe) in H
  | H : context [fr MAXIMUM] |- _ => rewrite (fe_max _ _ Fe) in H
  | |- context [fr MINIMUM] => rewrite (fe_min _ _ Fe)
  | |- context [fr MAXIMUM] => rewrite (fe_max _ _ Fe)
  end;
  repeat match goal with
  | |- context [fr ?x] => let r := fresh "r" in
      pose proof (fe_bounds _ _ Fe x); set (r := fr x) in *; clearbody r
  | H : context [fr ?x] |- _ => let r := fresh "r" in
      pose proof (fe_bounds _ _ Fe x); set (r := fr x) in *; clearbody r
  end;
  lia.
Ltac forder :=
  intros; lazymatch goal with F : @Finite ?T _ |- _ => forder_with T end.

Section Test.
  Context {T : Type} {O : Ord T} {F : Finite T}.
  Example forder_test1 (x y z : T) : succ x = Some y -> lt x z -> le y z.
  Proof. forder. Qed.
  Example forder_test2 (x y z : T) : succ x = Some y -> pred y = Some z -> x = z.
  Proof. forder. Qed.
  Example forder_test3 (x y : T) : pred x = None -> geb y x = true.
  Proof. forder. Qed.
End Test.

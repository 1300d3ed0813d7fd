(** * Facts about the instances used in examples: Z is not dense, Qc is *)
From Coq Require Import ZArith QArith Qcanon Lia Lqa.
From Verif Require Import Base Ints Spec.

Lemma Z_lt_iff (x y : Z) : lt x y <-> (x < y)%Z.
Proof. reflexivity. Qed.
Lemma Z_le_iff (x y : Z) : le x y <-> (x <= y)%Z.
Proof. reflexivity. Qed.

Lemma Qc_lt_iff (x y : Qc) : lt x y <-> (x < y)%Qc.
Proof. unfold lt. simpl. now rewrite Qclt_alt. Qed.

Lemma Qc_dense : dense Qc.
Proof.
  intros x y H. rewrite Qc_lt_iff in H.
  exists (Q2Qc ((x + y) / 2)). rewrite !Qc_lt_iff.
  unfold Qclt in *. cbn [this Q2Qc]. rewrite !Qred_correct.
  split; [apply Qlt_shift_div_l; [reflexivity|]|apply Qlt_shift_div_r; [reflexivity|]]; lra.
Qed.

Lemma Qc_unbounded : unbounded Qc.
Proof.
  split; intros x; [exists (Q2Qc (x + 1))|exists (Q2Qc (x - 1))];
    rewrite Qc_lt_iff; unfold Qclt; cbn [this Q2Qc]; rewrite Qred_correct; lra.
Qed.

Lemma Z_not_dense : ~ dense Z.
Proof.
  intros H. destruct (H 0 1)%Z as (z & H1 & H2); [reflexivity|].
  rewrite Z_lt_iff in *. lia.
Qed.

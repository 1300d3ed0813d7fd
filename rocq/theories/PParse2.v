(** * Proofs about the text of the builtin integers *)
From Coq Require Import List Bool ZArith Lia String Ascii ZifyBool.
From Verif Require Import Base OrdFacts MBound MRaw Ints MParse Spec Spec_Parse PRaw PParse.
Local Open Scope string_scope.
Local Open Scope Z_scope.

#[local] Arguments to_digit : simpl never.
#[local] Arguments ascii_of_nat : simpl never.
Notation dig d := (ascii_of_nat (Z.to_nat (48 + d))).

Lemma to_digit_some a d : to_digit a = Some d <-> 0 <= d <= 9 /\ a = dig d.
Proof.
  unfold to_digit. split.
  - destruct ((48 <=? _) && _) eqn:E; [|discriminate]. intros [= <-]. split; [lia|].
    replace (Z.to_nat (48 + (Z.of_nat (nat_of_ascii a) - 48))) with (nat_of_ascii a) by lia. symmetry. apply ascii_nat_embedding.
  - intros [H ->]. rewrite nat_ascii_embedding by lia. replace ((48 <=? _) && _) with true by lia. f_equal. lia.
Qed.

(** The value of a digit string after digits worth [acc]. *)
Fixpoint dvalue (acc : Z) (s : string) : option Z :=
  match s with
  | EmptyString => Some acc
  | String a s' => match to_digit a with Some d => dvalue (10 * acc + d) s' | None => None end
  end.
Lemma dvalue_snoc acc s a : dvalue acc (s ++ String a "") =
  match dvalue acc s, to_digit a with Some n, Some d => Some (10 * n + d) | _, _ => None end.
Proof.
  revert acc. induction s as [|b s IH]; intros acc; simpl; [destruct (to_digit a); auto|].
  destruct (to_digit b); auto.
Qed.
Lemma snoc_string s : s = "" \/ exists t a, s = t ++ String a "".
Proof.
  induction s as [|b s [->|(t & a & ->)]]; auto; right; [exists "", b|exists (String b t), a]; auto.
Qed.
Lemma digits_dvalue s n : digits s n <-> s <> "" /\ dvalue 0 s = Some n.
Proof.
  split.
  - induction 1 as [d H|s n d H [N IH] Hd].
    + split; [discriminate|]. cbn [dvalue]. rewrite (proj2 (to_digit_some _ _) (conj H eq_refl)). f_equal. 
    + split; [now destruct s|]. now rewrite dvalue_snoc, IH, (proj2 (to_digit_some _ _) (conj Hd eq_refl)).
  - revert n. remember (String.length s) as k. revert s Heqk. induction k as [|k IH]; intros s Hk n [N H]; [now destruct s|].
    destruct (snoc_string s) as [->|(t & a & ->)]; [congruence|]. rewrite dvalue_snoc in H.
    destruct (dvalue 0 t) as [m|] eqn:Em; [|discriminate]. destruct (to_digit a) as [d|] eqn:Ed; [|discriminate]. injection H as <-.
    apply to_digit_some in Ed as [Hd ->]. destruct t as [|b t].
    + injection Em as <-. replace (10 * 0 + d) with d by lia. now constructor.
    + constructor; auto. apply IH; [|split; [discriminate|auto]]. rewrite app_len in Hk. simpl in *. lia.
Qed.
Lemma dvalue_ge acc s n : 0 <= acc -> dvalue acc s = Some n -> acc <= n.
Proof.
  revert acc. induction s as [|a s IH]; intros acc H; cbn [dvalue]; [intros [= <-]; lia|].
  destruct (to_digit a) as [d|] eqn:E; [|discriminate]. apply to_digit_some in E as [Hd _]. intros K. apply IH in K; lia.
Qed.

(** Every character of a digit string is a digit. *)
Lemma digits_chars s n c : digits s n -> to_digit c = None -> lacks c s.
Proof.
  intros H Hc. assert (K : forall d, 0 <= d <= 9 -> c <> dig d).
  { intros d Hd ->. rewrite (proj2 (to_digit_some _ _) (conj Hd eq_refl)) in Hc. discriminate. }
  induction H as [d Hd|s n d H IH Hd].
  - apply lacks_cons. split; auto using lacks_nil.
  - apply lacks_app. split; auto. apply lacks_cons. split; auto using lacks_nil.
Qed.
Lemma digits_first a s n : digits (String a s) n -> exists d, to_digit a = Some d.
Proof. intros H. apply digits_dvalue in H as [_ H]. cbn [dvalue] in H. destruct (to_digit a); eauto; discriminate. Qed.

Lemma show_digits_acc k n acc : show_digits k n acc = show_digits k n "" ++ acc.
Proof.
  revert n acc. induction k as [|k IH]; intros n acc; simpl; auto. destruct (n <? 10); auto.
  rewrite (IH _ (String _ acc)), (IH _ (String _ "")), app_assoc. reflexivity.
Qed.
Lemma show_digits_digits k n : 0 <= n < 2 ^ Z.of_nat (S k) -> digits (show_digits (S k) n "") n.
Proof.
  revert n. induction k as [|k IH]; intros n Hn.
  - cbn [show_digits]. change (2 ^ Z.of_nat 1) with 2 in Hn. destruct (Z.ltb_spec n 10); [|lia].
    rewrite Z.mod_small by lia. unfold byte. constructor. lia.
  - remember (S k) as k'. cbn [show_digits]. destruct (Z.ltb_spec n 10).
    + rewrite Z.mod_small by lia. unfold byte. constructor. lia.
    + rewrite show_digits_acc. replace n with (10 * (n / 10) + n mod 10) at 3 by (symmetry; apply Z.div_mod; lia).
      unfold byte. constructor.
      * apply IH. rewrite Nat2Z.inj_succ, Z.pow_succ_r in Hn by lia.
        split; [apply Z.div_pos; lia|]. apply Z.div_lt_upper_bound; lia.
      * pose proof (Z.mod_pos_bound n 10). lia.
Qed.
Lemma show_nat_digits n : 0 <= n -> digits (show_digits (S (Z.to_nat (Z.log2 n))) n "") n.
Proof.
  intros H. apply show_digits_digits. rewrite Nat2Z.inj_succ, Z2Nat.id by apply Z.log2_nonneg.
  split; auto. destruct (Z.eq_dec n 0) as [->|]; [reflexivity|]. apply Z.log2_spec. lia.
Qed.
Lemma show_Z_decimal z : decimal (z <? 0) (show_Z z) z.
Proof.
  unfold show_Z. pose proof (show_nat_digits (Z.abs z) (Z.abs_nonneg z)) as H. destruct (Z.ltb_spec z 0).
  - replace z with (- Z.abs z) at 3 by lia. now apply dec_minus.
  - rewrite Z.abs_eq in * by lia. now apply dec_plain.
Qed.

Section IntParse.
  Context {lo hi : Z} {I : IntType lo hi}.

  Lemma parse_digits_good (neg : bool) acc s z : lo <= 0 <= hi -> lo <= acc <= hi -> (if neg then acc <= 0 else 0 <= acc) ->
    (parse_digits (lo := lo) (hi := hi) neg acc s = Good z <->
     exists n, dvalue (Z.abs acc) s = Some n /\ z = (if neg then - n else n) /\ lo <= z <= hi).
  Proof.
    intros L. revert acc. induction s as [|a s IH]; intros acc R S; cbn [dvalue parse_digits].
    - split.
      + intros [= <-]. exists (Z.abs acc). destruct neg; split; auto; split; lia.
      + intros (n & [= <-] & -> & _). f_equal. destruct neg; lia.
    - destruct (to_digit a) as [d|] eqn:Ed; [|split; [discriminate|intros (n & [=] & _)]].
      apply to_digit_some in Ed as [Hd _].
      set (next := if neg then acc * 10 - d else acc * 10 + d).
      assert (Hn : 10 * Z.abs acc + d = Z.abs next) by (unfold next; destruct neg; lia).
      rewrite Hn. unfold fits. destruct (((lo <=? acc * 10) && (acc * 10 <=? hi)) && ((lo <=? next) && (next <=? hi))) eqn:Er.
      + apply IH; [lia|]. unfold next. destruct neg; lia.
      + split; [discriminate|]. intros (n & Dn & -> & Rz). exfalso. apply dvalue_ge in Dn; [|lia].
        unfold next in *. destruct neg; lia.
  Qed.

  Lemma int_of_Z_in z : lo <= z <= hi -> ival (int_of_Z (lo := lo) (hi := hi) z) = z.
  Proof. intros H. rewrite int_of_Z_val. now apply wrap_id. Qed.

  Lemma run_good (neg : bool) s x : lo <= 0 <= hi -> s <> "" ->
    (match parse_digits (lo := lo) (hi := hi) neg 0 s with Good z => Good (int_of_Z z) | Err e => Err e end = Good x <->
     exists n, digits s n /\ ival x = if neg then - n else n).
  Proof.
    intros L N. split.
    - destruct (parse_digits neg 0 s) as [z|] eqn:E; [|discriminate]. intros [= <-].
      apply parse_digits_good in E as (n & Dn & -> & R); [|auto|auto|destruct neg; lia].
      exists n. split; [apply digits_dvalue; auto|]. now rewrite int_of_Z_in.
    - intros (n & Dn & Ex). apply digits_dvalue in Dn as [_ Dn].
      assert (E : parse_digits (lo := lo) (hi := hi) neg 0 s = Good (ival x)).
      { apply parse_digits_good; auto; [destruct neg; lia|]. exists n. split; auto. split; auto. apply int_bounds. }
      rewrite E. f_equal. apply int_ext. rewrite int_of_Z_in; auto. apply int_bounds.
  Qed.

  (** Exactly the decimal integers in range are accepted. *)
  Lemma parse_int_good s (x : int lo hi) : lo <= 0 <= hi ->
    (parse_int s = Good x <-> decimal (lo <? 0) s (ival x)).
  Proof.
    intros L. destruct s as [|a s].
    { split; [discriminate|]. intros H. inversion H as [? ? D|? ? D|? ? ? D]; subst. apply digits_dvalue in D as [D _]. congruence. }
    assert (NP : forall n b r, to_digit b = None -> ~ digits (String b r) n).
    { intros n b r Hb D. apply digits_first in D as (d & Hd). congruence. }
    unfold parse_int. destruct (Ascii.eqb_spec a "+") as [->|N1]; [|destruct (Ascii.eqb_spec a "-") as [->|N2]].
    - destruct s as [|b s].
      { split; [discriminate|]. intros H. inversion H as [? ? D|? ? D|? ? ? D]; subst; [now apply NP in D|].
        apply digits_dvalue in D as [D _]. congruence. }
      rewrite run_good by (auto; discriminate). split.
      + intros (n & D & ->). now apply dec_plus.
      + intros H. inversion H as [? ? D|? ? D|? ? ? D]; subst; [now apply NP in D|]. eauto.
    - destruct s as [|b s].
      { split; [discriminate|]. intros H. inversion H as [? ? D|? ? D|? ? ? D]; subst; [now apply NP in D|].
        apply digits_dvalue in D as [D _]. congruence. }
      destruct (lo <? 0) eqn:Sg.
      + rewrite run_good by (auto; discriminate). split.
        * intros (n & D & ->). now apply dec_minus.
        * intros H. inversion H as [? ? D|? ? D|? ? ? D]; subst; [now apply NP in D|]. eauto.
      + rewrite run_good by (auto; discriminate). split.
        * intros (n & D & ->). now apply NP in D.
        * intros H. inversion H as [? ? D|? ? D|? ? D2 D]; subst; [now apply NP in D|discriminate].
    - rewrite run_good by (auto; discriminate). split.
      + intros (n & D & ->). now constructor.
      + intros H. inversion H as [? ? D|? ? D|? ? D2 D]; subst; [eauto|congruence|congruence].
  Qed.

  Lemma show_int_decimal (x : int lo hi) : decimal (lo <? 0) (show_int x) (ival x).
  Proof.
    unfold show_int. pose proof (show_Z_decimal (ival x)) as H. pose proof (int_bounds x).
    destruct (Z.ltb_spec (ival x) 0); [replace (lo <? 0) with true by lia; auto|].
    inversion H as [? ? D|? ? D|? ? D2 D]; subst; [now constructor|now constructor|discriminate].
  Qed.

  Lemma decimal_chars sg s n c : decimal sg s n -> to_digit c = None -> c <> "+"%char -> c <> "-"%char -> lacks c s.
  Proof.
    intros [t m D|t m D|t m _ D] Hc N1 N2; simpl; rewrite ?lacks_cons; eauto using digits_chars.
  Qed.

  Lemma int_plain : lo <= 0 <= hi -> plain_texts (parse_int (lo := lo) (hi := hi)).
  Proof.
    intros L. constructor; intros s x a; intros; intros ->;
      (match goal with H : parse_int _ = Good _ |- _ => apply parse_int_good in H; auto; rename H into D end).
    - apply (decimal_chars _ _ _ ",") in D; try reflexivity; try discriminate. now apply (D a b).
    - apply (decimal_chars _ _ _ (ascii_of_nat 195)) in D; try reflexivity; try discriminate. now apply (D "" (String (ascii_of_nat 152) a)).
    - apply (decimal_chars _ _ _ (ascii_of_nat 226)) in D; try reflexivity; try discriminate.
      now apply (D "-" (String (ascii_of_nat 136) (String (ascii_of_nat 158) a))).
    - apply (decimal_chars _ _ _ (ascii_of_nat 226)) in D; try reflexivity; try discriminate.
      now apply (D a (String (ascii_of_nat 136) (String (ascii_of_nat 158) ""))).
  Qed.

  Lemma int_contract : lo <= 0 <= hi -> text_contract (show_int (lo := lo) (hi := hi)) parse_int.
  Proof.
    intros L. destruct (int_plain L) as [P1 P2 P3 P4].
    assert (RB : forall x, parse_int (show_int x) = Good x) by (intros x; apply parse_int_good; auto; apply show_int_decimal).
    constructor; eauto.
    - intros s x H. apply parse_int_good in H; auto. apply (decimal_chars _ _ _ "(") in H; try reflexivity; try discriminate. now apply (H "" s).
    - intros s x H. apply parse_int_good in H; auto. apply (decimal_chars _ _ _ "[") in H; try reflexivity; try discriminate. now apply (H "" s).
  Qed.
End IntParse.

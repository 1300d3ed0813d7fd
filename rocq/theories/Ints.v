(** * The types the theorems are instantiated at

    - Rust's fixed-width integers, with src/normalize.rs 140-163;
    - Z (an unbounded discrete order) and Qc (a dense order), which a user can
      supply as [T: Ord] for [RawInterval] and [TineTree]. *)
From Coq Require Import ZArith Lia Bool Eqdep_dec List QArith Qcanon.
From Coq Require Import ZifyBool ZifyComparison.
From Verif Require Import Base.
Import ListNotations.
Local Open Scope Z_scope.

(** Values of an integer type with [MIN = lo] and [MAX = hi], for the types of
    src/normalize.rs 160-163. *)
Record int (lo hi : Z) : Type := mkint {
  ival : Z;
  irange : (lo <=? ival) && (ival <=? hi) = true
}.
Arguments mkint {lo hi} ival irange.
Arguments ival {lo hi} i.
Arguments irange {lo hi} i.

(** [lo <= hi] for the types in use (src/normalize.rs 160-163). *)
Class IntType (lo hi : Z) : Prop := int_type : (lo <=? hi) = true.

(** The 12 builtin types of src/normalize.rs 160-163
    ([usize]/[isize] on a 64-bit target; every theorem
    below is for arbitrary [lo <= hi], so other widths are covered too). *)
Notation u8 := (int 0 255).
Notation u16 := (int 0 65535).
Notation u32 := (int 0 4294967295).
Notation u64 := (int 0 18446744073709551615).
Notation u128 := (int 0 340282366920938463463374607431768211455).
Notation usize := (int 0 18446744073709551615).
Notation i8 := (int (-128) 127).
Notation i16 := (int (-32768) 32767).
Notation i32 := (int (-2147483648) 2147483647).
Notation i64 := (int (-9223372036854775808) 9223372036854775807).
Notation i128 := (int (-170141183460469231731687303715884105728) 170141183460469231731687303715884105727).
Notation isize := (int (-9223372036854775808) 9223372036854775807).

#[global] Instance it_u8 : IntType 0 255 := eq_refl.
#[global] Instance it_u16 : IntType 0 65535 := eq_refl.
#[global] Instance it_u32 : IntType 0 4294967295 := eq_refl.
#[global] Instance it_u64 : IntType 0 18446744073709551615 := eq_refl.
#[global] Instance it_u128 : IntType 0 340282366920938463463374607431768211455 := eq_refl.
#[global] Instance it_i8 : IntType (-128) 127 := eq_refl.
#[global] Instance it_i16 : IntType (-32768) 32767 := eq_refl.
#[global] Instance it_i32 : IntType (-2147483648) 2147483647 := eq_refl.
#[global] Instance it_i64 : IntType (-9223372036854775808) 9223372036854775807 := eq_refl.
#[global] Instance it_i128 : IntType (-170141183460469231731687303715884105728)
                              170141183460469231731687303715884105727 := eq_refl.

Section Int.
  Context {lo hi : Z}.

  Lemma int_ext (x y : int lo hi) : ival x = ival y -> x = y.
  Proof.
    destruct x as [x hx], y as [y hy]; simpl; intros ->.
    f_equal. apply UIP_dec. apply bool_dec.
  Qed.

  #[global] Instance int_Ord : Ord (int lo hi).
  Proof.
    refine {| ord_cmp := {| cmp := fun x y => Z.compare (ival x) (ival y) |} |}; simpl.
    - intros x y. rewrite Z.compare_eq_iff. split; [apply int_ext | now intros ->].
    - intros x y. apply Z.compare_antisym.
    - intros x y z. rewrite !Z.compare_lt_iff. lia.
  Defined.

  Context {I : IntType lo hi}.

  Lemma lo_in_range : (lo <=? lo) && (lo <=? hi) = true.
  Proof. unfold IntType in I. lia. Qed.

  (** For src/normalize.rs 149, 153 and src/interval.rs 978-983.  Truncation of a
      mathematical integer to the type: reduction modulo the
      number of values, as Rust's wrapping arithmetic does. *)
  Definition wrap (z : Z) : Z := lo + (z - lo) mod (hi - lo + 1).
  (** The value of the type. *)
  Definition int_of_Z (z : Z) : int lo hi :=
    match bool_dec ((lo <=? wrap z) && (wrap z <=? hi)) true with
    | left p => mkint (wrap z) p
    | right _ => mkint lo lo_in_range (* impossible, see [int_of_Z_val] *)
    end.

  Lemma wrap_range z : (lo <=? wrap z) && (wrap z <=? hi) = true.
  Proof.
    unfold wrap. unfold IntType in I.
    pose proof (Z.mod_pos_bound (z - lo) (hi - lo + 1)). lia.
  Qed.

  Lemma wrap_id z : lo <= z <= hi -> wrap z = z.
  Proof. intros. unfold wrap. rewrite Z.mod_small by lia. lia. Qed.

  Lemma int_of_Z_val z : ival (int_of_Z z) = wrap z.
  Proof.
    unfold int_of_Z. destruct bool_dec as [p|n]; [reflexivity|].
    now rewrite wrap_range in n.
  Qed.

  Lemma int_bounds (x : int lo hi) : lo <= ival x <= hi.
  Proof. pose proof (irange x). lia. Qed.

  (** [x - y] on integers, for [size] (src/interval.rs 978-983): overflow
      panics in a debug build and wraps in a
      release build. *)
  Definition int_sub (dbg : bool) (x y : int lo hi) : res (int lo hi) :=
    let z := ival x - ival y in
    if dbg && negb ((lo <=? z) && (z <=? hi)) then Panic else Ok (int_of_Z z).
  (** [x - 1] and [x + 1], for src/normalize.rs 149, 153. *)
  Definition int_sub_1 (dbg : bool) (x : int lo hi) : res (int lo hi) :=
    let z := ival x - 1 in
    if dbg && negb ((lo <=? z) && (z <=? hi)) then Panic else Ok (int_of_Z z).
  Definition int_add_1 (dbg : bool) (x : int lo hi) : res (int lo hi) :=
    let z := ival x + 1 in
    if dbg && negb ((lo <=? z) && (z <=? hi)) then Panic else Ok (int_of_Z z).

  (** src/normalize.rs 145-146: [MINIMUM], [MAXIMUM]. *)
  Definition int_MIN : int lo hi := int_of_Z lo.
  Definition int_MAX : int lo hi := int_of_Z hi.

  (** src/normalize.rs 148-150: [pred], with the arithmetic as written. *)
  Definition int_pred_code (dbg : bool) (x : int lo hi) : res (option (int lo hi)) :=
    if negb (eqb x int_MIN) then do y <- int_sub_1 dbg x; Ok (Some y) else Ok None.
  (** src/normalize.rs 152-154: [succ], with the arithmetic as written. *)
  Definition int_succ_code (dbg : bool) (x : int lo hi) : res (option (int lo hi)) :=
    if negb (eqb x int_MAX) then do y <- int_add_1 dbg x; Ok (Some y) else Ok None.

  (** src/normalize.rs 148-154: the same without the panic; [int_pred_ok] and [int_succ_ok] show the
      panic is never reached. *)
  Definition int_pred (x : int lo hi) : option (int lo hi) :=
    if negb (eqb x int_MIN) then Some (int_of_Z (ival x - 1)) else None.
  Definition int_succ (x : int lo hi) : option (int lo hi) :=
    if negb (eqb x int_MAX) then Some (int_of_Z (ival x + 1)) else None.

  Lemma int_min_val : ival int_MIN = lo.
  Proof. unfold int_MIN. rewrite int_of_Z_val, wrap_id; unfold IntType in I; lia. Qed.
  Lemma int_max_val : ival int_MAX = hi.
  Proof. unfold int_MAX. rewrite int_of_Z_val, wrap_id; unfold IntType in I; lia. Qed.

  Lemma int_eqb_val (x y : int lo hi) : eqb x y = (ival x =? ival y).
  Proof. unfold eqb; simpl. now rewrite Z.eqb_compare. Qed.

  Lemma int_pred_ok dbg x : int_pred_code dbg x = Ok (int_pred x).
  Proof.
    unfold int_pred_code, int_pred, int_sub_1. rewrite int_eqb_val, int_min_val.
    pose proof (int_bounds x).
    destruct (ival x =? lo) eqn:E; simpl; [reflexivity|].
    destruct (dbg && _) eqn:D; [lia|reflexivity].
  Qed.

  Lemma int_succ_ok dbg x : int_succ_code dbg x = Ok (int_succ x).
  Proof.
    unfold int_succ_code, int_succ, int_add_1. rewrite int_eqb_val, int_max_val.
    pose proof (int_bounds x).
    destruct (ival x =? hi) eqn:E; simpl; [reflexivity|].
    destruct (dbg && _) eqn:D; [lia|reflexivity].
  Qed.

  Lemma int_lt_val (x y : int lo hi) : lt x y <-> ival x < ival y.
  Proof. reflexivity. Qed.
  Lemma int_le_val (x y : int lo hi) : le x y <-> ival x <= ival y.
  Proof. reflexivity. Qed.

  Lemma int_finite : exists l : list (int lo hi), forall x, In x l.
  Proof.
    exists (map (fun n => int_of_Z (lo + Z.of_nat n)) (seq 0 (Z.to_nat (hi - lo + 1)))).
    intros x. pose proof (int_bounds x) as B.
    apply in_map_iff. exists (Z.to_nat (ival x - lo)). split.
    - apply int_ext. rewrite int_of_Z_val. rewrite wrap_id; lia.
    - apply in_seq. lia.
  Qed.

  #[global] Instance int_Finite : Finite (int lo hi).
  Proof.
    refine {| finite_ops := {| MINIMUM := int_MIN; MAXIMUM := int_MAX; pred := int_pred; succ := int_succ |} |}; simpl.
    - intros x. rewrite int_le_val, int_min_val. pose proof (int_bounds x). lia.
    - intros x. rewrite int_le_val, int_max_val. pose proof (int_bounds x). lia.
    - intros x. unfold int_succ. rewrite int_eqb_val, int_max_val. split.
      + destruct (ival x =? hi) eqn:E; [|discriminate]. intros _.
        apply int_ext. rewrite int_max_val. lia.
      + intros ->. rewrite int_max_val, Z.eqb_refl. reflexivity.
    - intros x y. unfold int_succ. rewrite int_eqb_val, int_max_val.
      pose proof (int_bounds x) as Bx. pose proof (int_bounds y) as By. split.
      + destruct (ival x =? hi) eqn:E; [discriminate|]. intros [= <-].
        unfold lt, le; simpl. rewrite int_of_Z_val, wrap_id by lia. split; [lia|].
        intros z. lia.
      + intros [H1 H2]. unfold lt, le in *; simpl in *.
        destruct (ival x =? hi) eqn:E; simpl; [lia|]. f_equal. apply int_ext.
        assert (S : ival (int_of_Z (ival x + 1)) = ival x + 1)
          by (rewrite int_of_Z_val; apply wrap_id; lia).
        specialize (H2 (int_of_Z (ival x + 1))). rewrite S in *. lia.
    - intros x. unfold int_pred. rewrite int_eqb_val, int_min_val. split.
      + destruct (ival x =? lo) eqn:E; [|discriminate]. intros _.
        apply int_ext. rewrite int_min_val. lia.
      + intros ->. rewrite int_min_val, Z.eqb_refl. reflexivity.
    - intros x y. unfold int_pred. rewrite int_eqb_val, int_min_val.
      pose proof (int_bounds x) as Bx. pose proof (int_bounds y) as By. split.
      + destruct (ival x =? lo) eqn:E; [discriminate|]. intros [= <-].
        unfold lt, le; simpl. rewrite int_of_Z_val, wrap_id by lia. split; [lia|].
        intros z. lia.
      + intros [H1 H2]. unfold lt, le in *; simpl in *.
        destruct (ival x =? lo) eqn:E; simpl; [lia|]. f_equal. apply int_ext.
        assert (S : ival (int_of_Z (ival x - 1)) = ival x - 1)
          by (rewrite int_of_Z_val; apply wrap_id; lia).
        specialize (H2 (int_of_Z (ival x - 1))). rewrite S in *. lia.
    - exact int_finite.
  Defined.
End Int.

(** Z as [T: Ord]: discrete, without endpoints. *)
#[global] Instance Z_Ord : Ord Z.
Proof.
  refine {| ord_cmp := {| cmp := Z.compare |} |}; simpl.
  - apply Z.compare_eq_iff.
  - intros; apply Z.compare_antisym.
  - intros x y z; rewrite !Z.compare_lt_iff; lia.
Defined.

(** Qc as [T: Ord]: dense, without endpoints. *)
#[global] Instance Qc_Ord : Ord Qc.
Proof.
  refine {| ord_cmp := {| cmp := fun x y : Qc => Qccompare x y |} |}; simpl.
  - intros x y. rewrite <- Qceq_alt. reflexivity.
  - intros x y. unfold Qccompare, Qcompare.
    rewrite Z.compare_antisym. reflexivity.
  - intros x y z. rewrite <- !Qclt_alt. apply Qclt_trans.
Defined.

(** A lawful [Finite] type other than the integers, for instances: [bool] with
    [false < true], as a user could implement the trait. *)
#[global] Instance bool_Ord : Ord bool.
Proof.
  refine {| ord_cmp := {| cmp := Bool.compare |} |}; simpl.
  - intros [] []; simpl; intuition congruence.
  - intros [] []; reflexivity.
  - intros [] [] []; simpl; congruence.
Defined.
#[global] Instance bool_Finite : Finite bool.
Proof.
  refine {| finite_ops := {| MINIMUM := false; MAXIMUM := true;
                               pred := fun b : bool => if b then Some false else None;
                               succ := fun b : bool => if b then None else Some true |} |}; simpl.
  - intros []; discriminate.
  - intros []; discriminate.
  - intros []; intuition congruence.
  - intros [] []; unfold lt, le; simpl; split; try discriminate; try tauto;
      try (intros _; split; [reflexivity | intros []; discriminate]);
      intros [H _]; discriminate H.
  - intros []; intuition congruence.
  - intros [] []; unfold lt, le; simpl; split; try discriminate; try tauto;
      try (intros _; split; [reflexivity | intros []; discriminate]);
      intros [H _]; discriminate H.
  - exists [true; false]. intros []; simpl; tauto.
Defined.

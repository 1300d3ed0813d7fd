(** * Properties of the text of intervals: C11-C13

    The notions used are in Spec_Parse.v. *)
From Coq Require Import List Bool ZArith Lia String Ascii.
From Verif Require Import Base OrdFacts MBound MRaw Ints MParse Spec Spec_Parse Instances PRaw PRaw2 PParse PParse2 Properties_Interval.
Local Open Scope string_scope.
#[local] Arguments cmp : simpl never.

(** ** C11 *)

(** For any [T] that meets the contract, exactly the well-formed intervals read
    back as themselves. *)
Theorem C11_round_trip {T E} {O : Ord T} (show : T -> string) (parse : string -> result T E) (i : RawInterval T) :
  text_contract show parse -> (parse_raw parse (show_raw show i) = Ok (Good i) <-> raw_wf i).
Proof.
  intros C. split; [apply parse_raw_wf|now apply round_trip].
Qed.
Print Assumptions C11_round_trip.

(** The contract holds for every integer type with zero in its range. *)
Theorem C11_integers_meet_contract (lo hi : Z) (I : IntType lo hi) : (lo <= 0 <= hi)%Z ->
  text_contract (show_int (lo := lo) (hi := hi)) parse_int.
Proof. apply int_contract. Qed.
Print Assumptions C11_integers_meet_contract.

(** So the round trip holds for the builtin integers. *)
Definition rt (lo hi : Z) {I : IntType lo hi} : Prop :=
  forall i : RawInterval (int lo hi), raw_wf i -> parse_raw parse_int (show_raw show_int i) = Ok (Good i).
Theorem C11_builtin :
  rt 0 255 /\ rt 0 65535 /\ rt 0 4294967295 /\ rt 0 18446744073709551615 /\ rt 0 340282366920938463463374607431768211455 /\
  rt (-128) 127 /\ rt (-32768) 32767 /\ rt (-2147483648) 2147483647 /\ rt (-9223372036854775808) 9223372036854775807 /\
  rt (-170141183460469231731687303715884105728) 170141183460469231731687303715884105727.
Proof.
  assert (K : forall lo hi (I : IntType lo hi), (lo <= 0 <= hi)%Z -> rt lo hi).
  { intros lo hi I H i W. apply C11_round_trip; auto using int_contract. }
  repeat split; apply K; lia.
Qed.
Print Assumptions C11_builtin.

(** Distinct well-formed intervals have distinct texts. *)
Corollary C11_injective {T E} {O : Ord T} (show : T -> string) (parse : string -> result T E) (i j : RawInterval T) :
  text_contract show parse -> raw_wf i -> raw_wf j -> show_raw show i = show_raw show j -> i = j.
Proof.
  intros C Wi Wj H. apply (C11_round_trip show parse i C) in Wi. apply (C11_round_trip show parse j C) in Wj. congruence.
Qed.
Print Assumptions C11_injective.

Example C11_ex : raw_wf (LeftOpen (v (-12)) (v 127)) /\ show_raw show_int (LeftOpen (v (-12)) (v 127)) = "(-12,127]" /\
  parse_raw parse_int "(-12,127]" = Ok (Good (LeftOpen (v (-12)) (v 127))) /\
  show_raw show_int (UpTo (v 5)) = "(-∞,5)" /\ show_raw (T := i8) show_int Empty = "Ø".
Proof. repeat split; reflexivity. Qed.

(** ** C12 *)

(** Parsing any string with any [T] returns; what it accepts is well-formed and
    the value errors it reports are [T]'s own, about a part of the string. *)
Theorem C12_total {T E} {O : Ord T} (parse : string -> result T E) (s : string) :
  exists r, parse_raw parse s = Ok r /\
    match r with
    | Good i => raw_wf i
    | Err (InvalidValue e) => exists a t b, s = a ++ t ++ b /\ parse t = Err e
    | Err InvalidInterval => True
    end.
Proof.
  destruct (parse_raw_total parse s) as (r & E1 & H). exists r. split; auto.
  destruct r as [i|[|e]]; auto. now apply parse_raw_wf in E1.
Qed.
Print Assumptions C12_total.

(** Without a comma, a string that is neither a [T] nor starts as the empty
    interval is an invalid interval. *)
Theorem C12_invalid {T E} {O : Ord T} (parse : string -> result T E) (s : string) :
  (forall a, s <> "Ø" ++ a) -> (forall p, parse s <> Good p) -> (forall a b, s <> a ++ "," ++ b) ->
  parse_raw parse s = Ok (Err InvalidInterval).
Proof.
  intros N P C. unfold parse_raw. rewrite (proj2 (starts_with_not _ _) N). destruct (parse s) as [p|] eqn:E1; [now destruct (P p)|].
  now rewrite (proj2 (split_once_none "," s) C).
Qed.
Print Assumptions C12_invalid.

Example C12_ex : parse_raw (T := i8) parse_int "[5,3]" = Ok (Good Empty) /\
  parse_raw (T := i8) parse_int "(1,é)" = Ok (Err (InvalidValue InvalidDigit)) /\
  parse_raw (T := i8) parse_int "(1,300]" = Ok (Err (InvalidValue PosOverflow)) /\
  parse_raw (T := i8) parse_int "[1..2]" = Ok (Err InvalidInterval).
Proof. repeat split; reflexivity. Qed.

(** ** C13 *)

(** Exactly which strings are accepted, and as what: the only text ignored is
    what follows the empty sign, what lies between minus infinity and the comma,
    and what lies between the comma and infinity ([junk] in Spec_Parse.v). *)
Theorem C13_language_partial {T E} {O : Ord T} (parse : string -> result T E) (s : string) (i : RawInterval T) :
  parse_raw parse s = Ok (Good i) <->
  (exists junk, s = "Ø" ++ junk /\ i = Empty) \/
  (forall junk, s <> "Ø" ++ junk) /\
   ((exists p, parse s = Good p /\ i = Point p) \/
    (forall p, parse s <> Good p) /\
    exists x y lb ub, s = x ++ "," ++ y /\ (forall a b, x <> a ++ "," ++ b) /\
      lax_lower parse x lb /\ lax_upper parse y ub /\ i = raw_new lb ub).
Proof. apply parse_raw_good. Qed.
Print Assumptions C13_language_partial.

(** One bound includes and the other excludes the same value. *)
Definition mixed_text {T E} (parse : string -> result T E) (s : string) (i : RawInterval T) : Prop :=
  exists p a b, i = Point p /\ parse a = Good p /\ parse b = Good p /\
    (s = "(" ++ a ++ "," ++ b ++ "]" \/ s = "[" ++ a ++ "," ++ b ++ ")").

(** Without such junk an accepted string is interval notation, and the result is
    the set it denotes, except that (p,p] and [p,p) are read as the point p. *)
Theorem C13_strict_partial {T E} {O : Ord T} (parse : string -> result T E) (s : string) (i : RawInterval T) :
  (forall j, s = "Ø" ++ j -> j = "") ->
  (forall j y, s = ("(-∞" ++ j) ++ "," ++ y -> (forall a b, j <> a ++ "," ++ b) -> j = "") ->
  (forall x j, s = x ++ "," ++ j ++ "∞)" -> (forall a b, x <> a ++ "," ++ b) -> j = "") ->
  parse_raw parse s = Ok (Good i) ->
  exists P, notation parse s P /\ ((forall x, points i x <-> P x) \/ mixed_text parse s i).
Proof.
  intros J1 J2 J3 H. apply parse_raw_good in H as [(j & Es & ->)|[_ [(p & Ep & ->)|(_ & x & y & lb & ub & Es & L & Hl & Hu & ->)]]].
  - apply J1 in Es as Ej. subst j s. eexists. split; [apply n_empty|]. left. intros x. simpl. tauto.
  - eexists. split; [exact (n_point _ _ _ Ep)|]. left. intros x. simpl. tauto.
  - assert (Hl' : lower_text parse x lb).
    { inversion Hl as [j E1|a l Ha Hj E1|a l Ha E1]; subst; [|now constructor|now constructor].
      rewrite (J2 j y eq_refl). { apply lt_inf. }
      intros a b ->. now apply (L ("(-∞" ++ a) b). }
    assert (Hu' : upper_text parse y ub).
    { inversion Hu as [j E1|a l Ha Hj E1|a l Ha E1]; subst; [|now constructor|now constructor].
      rewrite (J3 x j eq_refl L). apply ut_inf. }
    eexists. rewrite Es. split; [apply n_bounds; eauto|].
    assert (K : (forall z, ~ mixed_at lb ub z) \/ (exists z, mixed_at lb ub z)).
    { destruct lb as [l|l|], ub as [u|u|]; try (left; intros z Hz; exact Hz); unfold mixed_at;
      destruct (cmp l u) eqn:C; try (apply cmp_eq in C; subst u; right; eexists; eauto; fail);
      left; intros z [E1 E2]; subst; rewrite cmp_refl in C; discriminate. }
    destruct K as [K|(z & K)].
    + left. intros z. rewrite <- raw_contains_points, raw_new_contains. specialize (K z). tauto.
    + right. destruct Hl' as [|a l Ha|a l Ha], Hu' as [|c u Hc|c u Hc]; try contradiction; destruct K as [-> ->];
        exists u, a, c; (split; [cbn [raw_new]; unfold raw_left_open, raw_right_open; now rewrite cmp_refl|]); auto.
Qed.
Print Assumptions C13_strict_partial.

(** Conversely all interval notation is accepted as the set it denotes, with the
    same exception, for any [T] whose texts do not look like intervals. *)
Theorem C13_complete_partial {T E} {O : Ord T} (show : T -> string) (parse : string -> result T E) (s : string) (P : T -> Prop) :
  text_contract show parse -> plain_texts parse -> notation parse s P ->
  exists i, parse_raw parse s = Ok (Good i) /\ ((forall x, points i x <-> P x) \/ mixed_text parse s i).
Proof.
  intros C [P1 P2 P3 P4] N. destruct N as [|s p Hp|x y lb ub Hl Hu].
  - exists Empty. split; [reflexivity|]. left. simpl. tauto.
  - exists (Point p). split; [|left; simpl; tauto]. apply parse_raw_good. right. split; [intros j; eapply P2; eauto|]. left. eauto.
  - exists (raw_new lb ub). split.
    + apply parse_raw_good. right. split; [|right; split].
      * intros j. destruct Hl; discriminate.
      * intros p. destruct Hl; simpl; [apply (no_round _ _ C (String "-" _))|apply (no_round _ _ C)|apply (no_square _ _ C)].
      * exists x, y, lb, ub. split; auto. split; [|split; [|split; auto]].
        -- destruct Hl as [|a l Ha|a l Ha]; intros a' b'.
           ++ assert (Q : lacks "," "(-∞") by (repeat (apply lacks_cons; split; [discriminate|]); apply lacks_nil). apply Q.
           ++ assert (Q : lacks "," ("(" ++ a)) by (apply lacks_cons; split; [discriminate|]; intros ? ?; eapply P1; eauto). apply Q.
           ++ assert (Q : lacks "," ("[" ++ a)) by (apply lacks_cons; split; [discriminate|]; intros ? ?; eapply P1; eauto). apply Q.
        -- destruct Hl; [apply (lax_inf _ "")|constructor; eauto|constructor; auto].
        -- destruct Hu; [apply (lax_inf' _ "")|constructor; eauto|constructor; auto].
    + assert (K : (forall z, ~ mixed_at lb ub z) \/ (exists z, mixed_at lb ub z)).
      { destruct lb as [l|l|], ub as [u|u|]; try (left; intros z Hz; exact Hz); unfold mixed_at;
        destruct (cmp l u) eqn:Cm; try (apply cmp_eq in Cm; subst u; right; eexists; eauto; fail);
        left; intros z [E1 E2]; subst; rewrite cmp_refl in Cm; discriminate. }
      destruct K as [K|(z & K)].
      * left. intros z. rewrite <- raw_contains_points, raw_new_contains. specialize (K z). tauto.
      * right. destruct Hl as [|a l Ha|a l Ha], Hu as [|c u Hc|c u Hc]; try contradiction; destruct K as [-> ->];
          exists u, a, c; (split; [cbn [raw_new]; unfold raw_left_open, raw_right_open; now rewrite cmp_refl|]); auto.
Qed.
Print Assumptions C13_complete_partial.

(** For the integers: the value texts accepted are exactly the decimal integers
    of the type, with an optional sign. *)
Theorem C13_integer_language (lo hi : Z) (I : IntType lo hi) (s : string) (x : int lo hi) : (lo <= 0 <= hi)%Z ->
  (parse_int s = Good x <-> decimal (lo <? 0)%Z s (ival x)) /\ plain_texts (parse_int (lo := lo) (hi := hi)).
Proof. intros L. split; [now apply parse_int_good|now apply int_plain]. Qed.
Print Assumptions C13_integer_language.

Example C13_ex : decimal true "-12" (ival (v (-12))) /\
  notation (parse_int : string -> result i8 int_error) "[-12,+5)" (fun z => above (Include (v (-12))) z /\ below (Exclude (v 5)) z) /\
  parse_raw parse_int "[-12,+5)" = Ok (Good (RightOpen (v (-12)) (v 5))).
Proof.
  split; [|split; [|reflexivity]].
  - apply (dec_minus true "12" 12 eq_refl). apply (digits_more "1" 1 2); [apply (digits_one 1)|]; lia.
  - apply (n_bounds parse_int "[-12" "+5)"); [apply (lt_include parse_int "-12")|apply (ut_exclude parse_int "+5")]; reflexivity.
Qed.

(** Junk is ignored, and (3,3] is read as {3}. *)
Theorem C13_strict_refuted :
  parse_raw (T := i8) parse_int "Øgarbage" = Ok (Good Empty) /\
  parse_raw parse_int "(-∞junk,5)" = Ok (Good (UpTo (v 5))) /\
  parse_raw parse_int "[3,foo∞)" = Ok (Good (From (v 3))) /\
  parse_raw parse_int "(3,3]" = Ok (Good (Point (v 3))) /\
  (forall P, ~ notation (parse_int : string -> result i8 int_error) "Øgarbage" P) /\
  (forall x, ~ (above (Exclude (v 3)) x /\ below (Include (v 3)) x)).
Proof.
  split; [reflexivity|]. split; [reflexivity|]. split; [reflexivity|]. split; [reflexivity|]. split.
  - intros P N. remember "Øgarbage" as s eqn:Es. destruct N as [|s p Hp|x y lb ub Hl Hu].
    + discriminate.
    + subst s. discriminate Hp.
    + destruct Hl; discriminate.
  - intros x [A B]. cbn [above below] in A, B. rewrite int_lt_val in A. rewrite int_le_val in B. lia.
Qed.
Print Assumptions C13_strict_refuted.

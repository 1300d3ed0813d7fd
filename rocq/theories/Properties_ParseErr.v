(** * Properties of the errors of the parser: C92 *)
From Coq Require Import List Bool ZArith Lia String Ascii ZifyBool.
From Verif Require Import Base OrdFacts MBound MRaw Ints MParse Spec Spec_Parse Instances PRaw PRaw2 PParse PParse2 Properties_Interval.
Local Open Scope string_scope.
#[local] Arguments cmp : simpl never.
#[local] Arguments to_digit : simpl never.
#[local] Arguments ascii_of_nat : simpl never.

(** ** C92 *)

(** What is wrong with the text of a lower bound: it has no bracket, or its
    bracket is followed by something [T] refuses. *)
Inductive lower_error {T E} (parse : string -> result T E) : string -> parse_error E -> Prop :=
| le_bracket x : (forall a, x <> "(" ++ a) -> (forall a, x <> "[" ++ a) -> lower_error parse x InvalidInterval
| le_round a e : parse a = Err e -> (forall junk, a <> "-∞" ++ junk) -> lower_error parse ("(" ++ a) (InvalidValue e)
| le_square a e : parse a = Err e -> lower_error parse ("[" ++ a) (InvalidValue e).

(** What is wrong with the text of an upper bound. *)
Inductive upper_error {T E} (parse : string -> result T E) : string -> parse_error E -> Prop :=
| ue_bracket y : (forall a, y <> a ++ ")") -> (forall a, y <> a ++ "]") -> upper_error parse y InvalidInterval
| ue_round a e : parse a = Err e -> (forall junk, a <> junk ++ "∞") -> upper_error parse (a ++ ")") (InvalidValue e)
| ue_square a e : parse a = Err e -> upper_error parse (a ++ "]") (InvalidValue e).

Section Errors.
  Context {T E : Type} {O : Ord T} (parse : string -> result T E).

  Lemma parse_lower_err x e : parse_lower parse x = Err e <-> lower_error parse x e.
  Proof.
    unfold parse_lower. destruct (starts_with "(-∞" x) eqn:S.
    - apply starts_with_iff in S as (r & ->). split; [discriminate|].
      intros H. inversion H as [j N1 N2 E1|a l Ha Hj E1|a l Ha E1]; exfalso.
      + now apply (N1 ("-∞" ++ r)).
      + subst a. now apply (Hj r).
    - pose proof (proj1 (starts_with_not _ _) S) as NI. destruct (strip_prefix "(" x) as [r|] eqn:P.
      + apply strip_prefix_some in P. subst x. split.
        * destruct (parse r) as [l|e'] eqn:Pr; [discriminate|intros [= <-]]. constructor; auto. intros j ->. apply (NI j). reflexivity.
        * intros H. inversion H as [j N1 N2 E1|a l Ha Hj E1|a l Ha E1]; subst; [|now rewrite Ha].
          exfalso. now apply (N1 r).
      + pose proof (proj1 (strip_prefix_none _ _) P) as NP. destruct (strip_prefix "[" x) as [r|] eqn:Q.
        * apply strip_prefix_some in Q. subst x. split.
          -- destruct (parse r) as [l|e'] eqn:Pr; [discriminate|intros [= <-]]. now constructor.
          -- intros H. inversion H as [j N1 N2 E1|a l Ha Hj E1|a l Ha E1]; subst; [now destruct (N2 r)|]. now rewrite Ha.
        * pose proof (proj1 (strip_prefix_none _ _) Q) as NQ. split; [intros [= <-]; now constructor|].
          intros H. inversion H as [j N1 N2 E1|a l Ha Hj E1|a l Ha E1]; subst; auto; exfalso; [apply (NP a)|apply (NQ a)]; reflexivity.
  Qed.

  Lemma parse_upper_err y e : parse_upper parse y = Ok (Err e) <-> upper_error parse y e.
  Proof.
    unfold parse_upper. destruct (ends_with "∞)" y) eqn:S.
    - apply ends_with_iff in S as (r & ->). split; [discriminate|].
      intros H. change "∞)" with ("∞" ++ ")") in H. rewrite <- app_assoc in H.
      inversion H as [j N1 N2 E1|a l Ha Hj E1|a l Ha E1]; exfalso.
      + now apply (N1 (r ++ "∞")).
      + apply app_inj_tail in E1 as [-> _]. now apply (Hj r).
      + apply app_inj_tail in E1 as [_ E1]. discriminate.
    - pose proof (proj1 (ends_with_not _ _) S) as NI. destruct (ends_with ")" y) eqn:P.
      + apply ends_with_iff in P as (r & ->). pose proof (slice_ok r ")" eq_refl) as K.
        destruct (len_minus_1 (r ++ ")")) as [n|]; [|discriminate]. simpl in K |- *. rewrite K. simpl. split.
        * destruct (parse r) as [l|e'] eqn:Pr; [discriminate|intros [= <-]]. constructor; auto. intros j ->. apply (NI j). apply app_assoc.
        * intros H. inversion H as [j N1 N2 E1|a l Ha Hj E1|a l Ha E1].
          -- exfalso. now apply (N1 r).
          -- apply app_inj_tail in E1 as [-> _]. now rewrite Ha.
          -- apply app_inj_tail in E1 as [_ E1]. discriminate.
      + pose proof (proj1 (ends_with_not _ _) P) as NP. destruct (ends_with "]" y) eqn:Q.
        * apply ends_with_iff in Q as (r & ->). pose proof (slice_ok r "]" eq_refl) as K.
          destruct (len_minus_1 (r ++ "]")) as [n|]; [|discriminate]. simpl in K |- *. rewrite K. simpl. split.
          -- destruct (parse r) as [l|e'] eqn:Pr; [discriminate|intros [= <-]]. now constructor.
          -- intros H. inversion H as [j N1 N2 E1|a l Ha Hj E1|a l Ha E1].
             ++ exfalso. now apply (N2 r).
             ++ exfalso. now apply (NP a).
             ++ apply app_inj_tail in E1 as [-> _]. now rewrite Ha.
        * pose proof (proj1 (ends_with_not _ _) Q) as NQ. split; [intros [= <-]; now constructor|].
          intros H. inversion H as [j N1 N2 E1|a l Ha Hj E1|a l Ha E1]; subst; auto; exfalso; [now apply (NP a)|now apply (NQ a)].
  Qed.
End Errors.

(** Exactly which error any string gets: strings without a comma are invalid
    intervals, and otherwise the lower bound is blamed first. *)
Theorem C92_errors_exact {T E} {O : Ord T} (parse : string -> result T E) (s : string) (e : parse_error E) :
  parse_raw parse s = Ok (Err e) <->
  (forall junk, s <> "Ø" ++ junk) /\ (forall p, parse s <> Good p) /\
  ((forall x y, s <> x ++ "," ++ y) /\ e = InvalidInterval \/
   exists x y, s = x ++ "," ++ y /\ (forall a b, x <> a ++ "," ++ b) /\
     (lower_error parse x e \/ (exists lb, lax_lower parse x lb) /\ upper_error parse y e)).
Proof.
  unfold parse_raw. destruct (starts_with "Ø" s) eqn:S.
  { apply starts_with_iff in S as (r & ->). split; [discriminate|]. intros [N _]. now destruct (N r). }
  pose proof (proj1 (starts_with_not _ _) S) as NS.
  destruct (parse s) as [p|e'] eqn:P.
  { split; [discriminate|]. intros (_ & N & _). now destruct (N p). }
  destruct (split_once "," s) as [[x y]|] eqn:Sp.
  - destruct (proj1 (split_once_some _ _ _ _) Sp) as [-> L].
    destruct (parse_upper_ok parse y) as (r & Er & Hr & _). split.
    + intros H. split; auto. split; [discriminate|]. right. exists x, y. split; auto. split; auto.
      destruct (parse_lower parse x) as [lb|e1] eqn:El.
      * right. split; [exists lb; now apply parse_lower_good|]. apply parse_upper_err.
        rewrite Er in H |- *. simpl in H. destruct r; [discriminate|congruence].
      * left. injection H as ->. now apply parse_lower_err.
    + intros (_ & _ & [[N _]|(x' & y' & E1 & L' & H)]); [now destruct (N x y)|].
      assert (Some (x, y) = Some (x', y')) as [= <- <-].
      { rewrite <- Sp. apply split_once_some. split; auto. }
      destruct H as [H|[(lb & Hl) H]].
      * apply parse_lower_err in H. now rewrite H.
      * apply parse_lower_good in Hl. rewrite Hl. apply parse_upper_err in H. rewrite H. reflexivity.
  - apply split_once_none in Sp. split.
    + intros [= <-]. split; auto. split; [discriminate|]. left. split; auto.
    + intros (_ & _ & [[_ ->]|(x' & y' & E1 & _)]); auto. now destruct (Sp x' y').
Qed.
Print Assumptions C92_errors_exact.

Local Open Scope Z_scope.

(** Some digits at the front of [s] are already worth more than [hi]. *)
Definition too_large (hi : Z) (s : string) : Prop :=
  exists d rest n, (s = d ++ rest \/ s = "+" ++ d ++ rest)%string /\ digits d n /\ hi < n.
(** Some digits after the minus sign of [s] already make it less than [lo]. *)
Definition too_small (lo : Z) (s : string) : Prop :=
  exists d rest n, s = ("-" ++ d ++ rest)%string /\ digits d n /\ - n < lo.

Section IntErrors.
  Context {lo hi : Z} {I : IntType lo hi}.

  Lemma parse_digits_empty (neg : bool) acc s : parse_digits (lo := lo) (hi := hi) neg acc s <> Err IntEmpty.
  Proof.
    revert acc. induction s as [|a s IH]; intros acc; cbn [parse_digits]; [discriminate|].
    destruct (to_digit a); [|discriminate]. destruct (_ && _); [apply IH|]. now destruct neg.
  Qed.

  (** An overflow is reported iff some prefix is out of range. *)
  Lemma parse_digits_over (neg : bool) acc s e : lo <= 0 <= hi -> lo <= acc <= hi -> (if neg then acc <= 0 else 0 <= acc) ->
    (parse_digits (lo := lo) (hi := hi) neg acc s = Err e /\ e <> InvalidDigit <->
     e = (if neg then NegOverflow else PosOverflow) /\
     exists d rest n, s = (d ++ rest)%string /\ dvalue (Z.abs acc) d = Some n /\ (if neg then - n < lo else hi < n)).
  Proof.
    intros L. revert acc. induction s as [|a s IH]; intros acc R S; cbn [parse_digits].
    - split; [intros [[=] _]|]. intros (_ & d & rest & n & E1 & D & B). exfalso.
      destruct d; [|discriminate]. injection D as <-. destruct neg; lia.
    - destruct (to_digit a) as [d0|] eqn:Ed.
      + apply to_digit_some in Ed as K. destruct K as [Hd _].
        set (next := if neg then acc * 10 - d0 else acc * 10 + d0).
        assert (Hn : 10 * Z.abs acc + d0 = Z.abs next) by (unfold next; destruct neg; lia).
        unfold fits. destruct (((lo <=? acc * 10) && (acc * 10 <=? hi)) && ((lo <=? next) && (next <=? hi))) eqn:Er.
        * rewrite IH by (try lia; unfold next; destruct neg; lia). split; intros (He & d & rest & n & E1 & D & B); (split; [exact He|]).
          -- exists (String a d), rest, n. split; [now rewrite E1|]. cbn [dvalue]. rewrite Ed, Hn. auto.
          -- destruct d as [|b d]; [exfalso; injection D as <-; destruct neg; lia|].
             injection E1 as <- ->. cbn [dvalue] in D. rewrite Ed, Hn in D. exists d, rest, n. auto.
        * split.
          -- intros [[= <-] _]. split; auto. exists (String a ""), s, (Z.abs next). split; [reflexivity|]. cbn [dvalue]. rewrite Ed, Hn. split; auto.
             unfold next in *. destruct neg; lia.
          -- intros (-> & _). split; auto. now destruct neg.
      + split; [intros [[= <-] N]; congruence|]. intros (_ & d & rest & n & E1 & D & B). exfalso.
        destruct d as [|b d]; [injection D as <-; destruct neg; lia|].
        injection E1 as <- _. cbn [dvalue] in D. now rewrite Ed in D.
  Qed.

  Definition run_int (neg : bool) (s : string) : result (int lo hi) int_error :=
    match parse_digits (lo := lo) (hi := hi) neg 0 s with Good z => Good (int_of_Z z) | Err e => Err e end.

  Lemma run_over (neg : bool) s e : lo <= 0 <= hi ->
    (run_int neg s = Err e /\ e <> InvalidDigit <->
     e = (if neg then NegOverflow else PosOverflow) /\
     exists d rest n, s = (d ++ rest)%string /\ digits d n /\ (if neg then - n < lo else hi < n)).
  Proof.
    intros L. pose proof (parse_digits_over neg 0 s e L L ltac:(destruct neg; lia)) as H.
    unfold run_int. split.
    - intros K. assert (K' : parse_digits (lo := lo) (hi := hi) neg 0 s = Err e /\ e <> InvalidDigit).
      { destruct K as [K N]. split; auto. destruct (parse_digits neg 0 s); [discriminate|congruence]. }
      apply H in K' as (He & d & rest & n & E1 & D & B). split; auto. exists d, rest, n. split; auto. split; auto.
      apply digits_dvalue. split; auto. intros ->. injection D as <-. simpl in B. destruct neg; lia.
    - intros (He & d & rest & n & E1 & D & B). apply digits_dvalue in D as [_ D].
      assert (K : parse_digits (lo := lo) (hi := hi) neg 0 s = Err e /\ e <> InvalidDigit).
      { apply H. split; auto. exists d, rest, n. auto. }
      destruct K as [-> N]. auto.
  Qed.

  Lemma app_first d rest n a s : String a s = (d ++ rest)%string -> digits d n -> exists k, to_digit a = Some k.
  Proof.
    intros E1 D. destruct d as [|b d]; [apply digits_dvalue in D as [D _]; congruence|].
    injection E1 as <- _. eapply digits_first. eauto.
  Qed.

  (** Which failure the integer parser reports, other than a bad digit. *)
  Lemma parse_int_over s e : lo <= 0 <= hi -> e <> InvalidDigit ->
    (parse_int (lo := lo) (hi := hi) s = Err e <->
     e = IntEmpty /\ s = "" \/ e = PosOverflow /\ too_large hi s \/ e = NegOverflow /\ lo < 0 /\ too_small lo s).
  Proof.
    intros L Ne. destruct s as [|a s].
    { split.
      - intros [= <-]. auto.
      - intros [[-> _]|[(_ & d & rest & n & [E1|E1] & D & _)|(_ & _ & d & rest & n & E1 & _)]]; auto; try discriminate.
        destruct d; [|discriminate]. apply digits_dvalue in D as [D _]. congruence. }
    assert (P : forall t, (run_int false t = Err e <-> e = PosOverflow /\ exists d rest n, t = (d ++ rest)%string /\ digits d n /\ hi < n)).
    { intros t. rewrite <- (run_over false t e L). intuition. }
    assert (N : forall t, (run_int true t = Err e <-> e = NegOverflow /\ exists d rest n, t = (d ++ rest)%string /\ digits d n /\ - n < lo)).
    { intros t. rewrite <- (run_over true t e L). intuition. }
    assert (Nil : forall d rest n, "" = (d ++ rest)%string -> ~ digits d n).
    { intros d rest n E1 D. destruct d; [|discriminate]. apply digits_dvalue in D as [D _]. congruence. }
    assert (Big : forall b t, too_large hi (String b t) <->
              (exists d rest n, String b t = (d ++ rest)%string /\ digits d n /\ hi < n) \/
              b = "+"%char /\ (exists d rest n, t = (d ++ rest)%string /\ digits d n /\ hi < n)).
    { intros b t. split.
      - intros (d & rest & n & [E1|E1] & D & B); [left; eauto 6|]. injection E1 as -> ->. right. eauto 8.
      - intros [(d & rest & n & E1 & D & B)|(-> & d & rest & n & -> & D & B)]; exists d, rest, n; auto. }
    assert (Small : forall b t, too_small lo (String b t) <->
              b = "-"%char /\ (exists d rest n, t = (d ++ rest)%string /\ digits d n /\ - n < lo)).
    { intros b t. split.
      - intros (d & rest & n & E1 & D & B). injection E1 as -> ->. eauto 8.
      - intros (-> & d & rest & n & -> & D & B). exists d, rest, n. auto. }
    assert (ND : forall b t (Q : Z -> Prop), to_digit b = None -> ~ exists d rest n, String b t = (d ++ rest)%string /\ digits d n /\ Q n).
    { intros b t Q Hb (d & rest & n & E1 & D & _). destruct (app_first _ _ _ _ _ E1 D) as (k & Hk). congruence. }
    rewrite Big, Small.
    unfold parse_int. destruct (Ascii.eqb_spec a "+") as [->|N1]; [|destruct (Ascii.eqb_spec a "-") as [->|N2]].
    - pose proof (ND "+"%char s (fun n => hi < n) eq_refl) as K. destruct s as [|b s].
      { split; [intros [= <-]; congruence|].
        intros [(_ & [=])|[(_ & [Q|(_ & d & rest & n & E1 & D & _)])|(_ & _ & [=] & _)]]; [now destruct K|]. now destruct (Nil _ _ _ E1 D). }
      fold (run_int false (String b s)). rewrite P. split.
      + intros [-> H]. right. left. auto.
      + intros [(_ & [=])|[(-> & [Q|(_ & H)])|(_ & _ & [=] & _)]]; [now destruct K|]. auto.
    - pose proof (ND "-"%char s (fun n => hi < n) eq_refl) as K. destruct s as [|b s].
      { split; [intros [= <-]; congruence|].
        intros [(_ & [=])|[(_ & [Q|([=] & _)])|(_ & _ & _ & d & rest & n & E1 & D & _)]]; [now destruct K|]. now destruct (Nil _ _ _ E1 D). }
      destruct (Z.ltb_spec lo 0) as [Sg|Sg].
      + fold (run_int true (String b s)). rewrite N. split.
        * intros [-> H]. right. right. auto.
        * intros [(_ & [=])|[(-> & [Q|([=] & _)])|(-> & _ & _ & H)]]; [now destruct K|]. auto.
      + fold (run_int false (String "-" (String b s))). rewrite P. split.
        * intros [-> H]. now destruct K.
        * intros [(_ & [=])|[(-> & [Q|([=] & _)])|(_ & Ls & _)]]; [now destruct K|lia].
    - fold (run_int false (String a s)). rewrite P. split.
      + intros [-> H]. right. left. auto.
      + intros [(_ & [=])|[(-> & [Q|(-> & _)])|(_ & _ & -> & _)]]; try congruence. auto.
  Qed.
End IntErrors.

(** Exactly which error the integers give: overflow is reported as soon as the
    digits read so far leave the range, whatever follows them, and a bad digit
    for everything else that is not a decimal integer of the type. *)
Theorem C92_integer_errors (lo hi : Z) (I : IntType lo hi) (s : string) : lo <= 0 <= hi ->
  (parse_int (lo := lo) (hi := hi) s = Err IntEmpty <-> s = "") /\
  (parse_int (lo := lo) (hi := hi) s = Err PosOverflow <-> too_large hi s) /\
  (parse_int (lo := lo) (hi := hi) s = Err NegOverflow <-> lo < 0 /\ too_small lo s) /\
  (parse_int (lo := lo) (hi := hi) s = Err InvalidDigit <->
   s <> "" /\ ~ too_large hi s /\ ~ (lo < 0 /\ too_small lo s) /\ forall n, ~ decimal (lo <? 0) s n).
Proof.
  intros L.
  assert (A : parse_int (lo := lo) (hi := hi) s = Err IntEmpty <-> s = "").
  { rewrite parse_int_over by (auto; discriminate). intuition congruence. }
  assert (B : parse_int (lo := lo) (hi := hi) s = Err PosOverflow <-> too_large hi s).
  { rewrite parse_int_over by (auto; discriminate). intuition congruence. }
  assert (C : parse_int (lo := lo) (hi := hi) s = Err NegOverflow <-> lo < 0 /\ too_small lo s).
  { rewrite parse_int_over by (auto; discriminate). intuition congruence. }
  split; auto. split; auto. split; auto. rewrite <- B, <- C, <- A.
  destruct (parse_int (lo := lo) (hi := hi) s) as [x|[| | |]] eqn:E1.
  - apply parse_int_good in E1; auto. split; [discriminate|]. intros (_ & _ & _ & H). now destruct (H _ E1).
  - intuition congruence.
  - split; auto. intros _. repeat (split; [discriminate|]). intros n D.
    destruct (Z.le_gt_cases lo n) as [H1|H1]; [destruct (Z.le_gt_cases n hi) as [H2|H2]|].
    + assert (K : ival (int_of_Z (lo := lo) (hi := hi) n) = n) by (rewrite int_of_Z_val; now apply wrap_id).
      rewrite <- K in D. apply parse_int_good in D; auto. congruence.
    + enough (Err (A := int lo hi) InvalidDigit = Err PosOverflow) by discriminate. apply B.
      destruct D as [t n D|t n D|t n Sg D].
      * exists t, "", n. rewrite app_nil. auto.
      * exists t, "", n. rewrite app_nil. auto.
      * exfalso. apply digits_dvalue in D as [_ D]. apply dvalue_ge in D; lia.
    + enough (Err (A := int lo hi) InvalidDigit = Err NegOverflow) by discriminate. apply C.
      destruct D as [t n D|t n D|t n Sg D]; try (exfalso; apply digits_dvalue in D as [_ D]; apply dvalue_ge in D; lia).
      split; [lia|]. exists t, "", n. rewrite app_nil. auto.
  - intuition congruence.
  - intuition congruence.
Qed.
Print Assumptions C92_integer_errors.

Example C92_ex :
  parse_raw (T := i8) parse_int "1..2" = Ok (Err InvalidInterval) /\
  parse_raw (T := i8) parse_int "1,2]" = Ok (Err InvalidInterval) /\
  parse_raw (T := i8) parse_int "[1,2" = Ok (Err InvalidInterval) /\
  parse_raw (T := i8) parse_int "(999,x]" = Ok (Err (InvalidValue PosOverflow)) /\
  parse_raw (T := i8) parse_int "(-129,x]" = Ok (Err (InvalidValue NegOverflow)) /\
  parse_raw (T := i8) parse_int "(,2]" = Ok (Err (InvalidValue IntEmpty)) /\
  parse_raw (T := i8) parse_int "[1,2,3]" = Ok (Err (InvalidValue InvalidDigit)) /\
  parse_int (lo := -128) (hi := 127) "128x" = Err PosOverflow /\ too_large 127 "128x" /\
  parse_int (lo := -128) (hi := 127) "12x8" = Err InvalidDigit.
Proof.
  do 8 (split; [reflexivity|]). split; [|reflexivity].
  exists "128"%string, "x"%string, 128. split; [auto|]. split; [|lia].
  apply (digits_more "12" 12 8); [apply (digits_more "1" 1 2); [apply (digits_one 1)|]|]; lia.
Qed.

(** * Proofs about Display and FromStr *)
From Coq Require Import List Bool ZArith Lia String Ascii.
From Verif Require Import Base OrdFacts Pos MBound MRaw Ints MParse Spec Spec_Parse PRaw.
Local Open Scope string_scope.

(** ** Strings *)
Lemma app_assoc a b c : (a ++ b) ++ c = a ++ b ++ c.
Proof. induction a as [|x a IH]; simpl; congruence. Qed.
Lemma app_nil a : a ++ "" = a.
Proof. induction a as [|x a IH]; simpl; congruence. Qed.
Lemma app_len a b : String.length (a ++ b) = (String.length a + String.length b)%nat.
Proof. induction a as [|x a IH]; simpl; congruence. Qed.
Lemma app_inj_tail a b c d : a ++ String c "" = b ++ String d "" -> a = b /\ c = d.
Proof.
  revert b. induction a as [|x a IH]; intros [|y b]; simpl.
  - intros [= ->]. auto.
  - intros [= _ H]. now destruct b.
  - intros [= _ H]. now destruct a.
  - intros [= -> H]. apply IH in H as [-> ->]. auto.
Qed.
Lemma substring_drop a b : substring (String.length a) (String.length b) (a ++ b) = b.
Proof.
  induction a as [|x a IH]; simpl; auto. induction b as [|y b IH]; simpl; congruence.
Qed.
Lemma substring_take a b : substring 0 (String.length a) (a ++ b) = a.
Proof. induction a as [|x a IH]; simpl; [now destruct b|congruence]. Qed.
Lemma get_app a c b : get (String.length a) (a ++ String c b) = Some c.
Proof. induction a as [|x a IH]; simpl; auto. Qed.
Lemma split_at n s : (n <= String.length s)%nat -> exists a b, s = a ++ b /\ String.length a = n.
Proof.
  revert s. induction n as [|n IH]; intros s H; [exists "", s; auto|].
  destruct s as [|c s]; simpl in H; [lia|]. destruct (IH s) as (a & b & -> & L); [lia|]. exists (String c a), b. simpl. auto.
Qed.

Lemma strip_prefix_some p s r : strip_prefix p s = Some r <-> s = p ++ r.
Proof.
  revert s. induction p as [|a p IH]; intros s; simpl.
  - split; [intros [= ->]|intros ->]; auto.
  - destruct s as [|b s]; [split; discriminate|]. destruct (Ascii.eqb_spec a b) as [->|N].
    + rewrite IH. split; [intros ->|intros [= ->]]; auto.
    + split; [discriminate|]. intros [= E _]. congruence.
Qed.
Lemma strip_prefix_none p s : strip_prefix p s = None <-> forall r, s <> p ++ r.
Proof.
  destruct (strip_prefix p s) as [r|] eqn:E.
  - apply strip_prefix_some in E. split; [discriminate|]. intros H. now apply H in E.
  - split; auto. intros _ r H. apply strip_prefix_some in H. congruence.
Qed.
Lemma starts_with_iff p s : starts_with p s = true <-> exists r, s = p ++ r.
Proof.
  unfold starts_with. destruct (strip_prefix p s) as [r|] eqn:E.
  - apply strip_prefix_some in E. split; eauto.
  - split; [discriminate|]. intros (r & H). now apply (proj1 (strip_prefix_none p s) E) in H.
Qed.
Lemma starts_with_not p s : starts_with p s = false <-> forall r, s <> p ++ r.
Proof.
  rewrite <- not_true_iff_false, starts_with_iff. split.
  - intros H r E. apply H. eauto.
  - intros H (r & E). now apply H in E.
Qed.
Lemma ends_with_iff p s : ends_with p s = true <-> exists r, s = r ++ p.
Proof.
  unfold ends_with. rewrite andb_true_iff, Nat.leb_le, String.eqb_eq. split.
  - intros [L E]. destruct (split_at (String.length s - String.length p) s) as (a & b & -> & La); [lia|].
    exists a. f_equal. rewrite app_len in *. rewrite <- La in E.
    replace (String.length p) with (String.length b) in E by lia. now rewrite substring_drop in E.
  - intros (r & ->). rewrite app_len. split; [lia|]. replace (String.length r + String.length p - String.length p)%nat with (String.length r) by lia.
    apply substring_drop.
Qed.
Lemma ends_with_not p s : ends_with p s = false <-> forall r, s <> r ++ p.
Proof.
  rewrite <- not_true_iff_false, ends_with_iff. split.
  - intros H r E. apply H. eauto.
  - intros H (r & E). now apply H in E.
Qed.

(** [c] does not occur in [s]. *)
Definition lacks (c : ascii) (s : string) : Prop := forall a b, s <> a ++ String c b.
Lemma lacks_nil c : lacks c "".
Proof. intros [|x a] b; discriminate. Qed.
Lemma lacks_cons c x s : lacks c (String x s) <-> c <> x /\ lacks c s.
Proof.
  split.
  - intros H. split; [intros ->; now apply (H "" s)|]. intros a b ->. now apply (H (String x a) b).
  - intros [N H] [|y a] b; simpl; intros [= -> E]; [congruence|]. now apply H in E.
Qed.
Lemma lacks_app c s t : lacks c (s ++ t) <-> lacks c s /\ lacks c t.
Proof.
  induction s as [|x s IH]; simpl; [|rewrite !lacks_cons, IH; tauto].
  split; [|tauto]. split; auto. apply lacks_nil.
Qed.
Lemma split_once_some c s x y : split_once c s = Some (x, y) <-> s = x ++ String c y /\ lacks c x.
Proof.
  revert x y. induction s as [|a s IH]; intros x y; simpl.
  - split; [discriminate|]. intros [H _]. now destruct x.
  - destruct (Ascii.eqb_spec a c) as [->|N].
    + split; [intros [= <- <-]; split; auto; apply lacks_nil|]. intros [E L]. destruct x as [|b x]; simpl in E; [congruence|]. injection E as E1 E2.
      subst b. apply lacks_cons in L. tauto.
    + destruct (split_once c s) as [[x' y']|] eqn:E.
      * split.
        -- intros [= <- <-]. destruct (proj1 (IH x' y') eq_refl) as [-> L]. split; auto. apply lacks_cons. split; auto.
        -- intros [E' L]. destruct x as [|b x]; simpl in E'; [congruence|injection E' as -> E2].
           apply lacks_cons in L as [_ L]. assert (Some (x', y') = Some (x, y)) as [= -> ->] by (apply IH; auto). auto.
      * split; [discriminate|]. intros [E' L]. destruct x as [|b x]; simpl in E'; [congruence|injection E' as -> E2].
        apply lacks_cons in L as [_ L]. assert (None = Some (x, y)) by (apply IH; auto). discriminate.
Qed.
Lemma split_once_none c s : split_once c s = None <-> lacks c s.
Proof.
  induction s as [|a s IH]; simpl; [split; auto; intros _; apply lacks_nil|]. rewrite lacks_cons.
  destruct (Ascii.eqb_spec a c) as [->|N]; [split; [discriminate|intros [? _]; congruence]|].
  destruct (split_once c s) as [[x y]|]; rewrite <- IH; split; try discriminate; try (intros [_ ?]; discriminate); auto.
Qed.

Lemma slice_ok s c : is_continuation c = false ->
  (do n <- len_minus_1 (s ++ String c ""); slice_to (s ++ String c "") n) = Ok s.
Proof.
  intros H. unfold len_minus_1. rewrite app_len. simpl. rewrite Nat.add_1_r. simpl. unfold slice_to, is_char_boundary.
  destruct (String.length s) as [|n] eqn:L; [destruct s; [reflexivity|discriminate]|].
  rewrite <- L, get_app, H. simpl. now rewrite substring_take.
Qed.

(** ** The parser *)
Section Parser.
  Context {T E : Type} {O : Ord T}.
  Context (show : T -> string) (parse : string -> result T E).

  Lemma parse_lower_good x lb : parse_lower parse x = Good lb <-> lax_lower parse x lb.
  Proof.
    unfold parse_lower. destruct (starts_with "(-∞" x) eqn:S.
    - apply starts_with_iff in S as (r & ->). split; [intros [= <-]; constructor|].
      intros H. inversion H as [j E1|a l Ha Hj E1|a l Ha E1]; auto.
      exfalso. subst a. now apply (Hj r).
    - pose proof (proj1 (starts_with_not _ _) S) as NI. destruct (strip_prefix "(" x) as [r|] eqn:P.
      + apply strip_prefix_some in P. subst x. split.
        * destruct (parse r) as [l|e] eqn:Pr; [intros [= <-]|discriminate]. constructor; auto. intros j ->. apply (NI j). reflexivity.
        * intros H. inversion H as [j E1|a l Ha Hj E1|a l Ha E1]; subst; [|now rewrite Ha].
          exfalso. now apply (NI j).
      + pose proof (proj1 (strip_prefix_none _ _) P) as NP. destruct (strip_prefix "[" x) as [r|] eqn:Q.
        * apply strip_prefix_some in Q. subst x. split.
          -- destruct (parse r) as [l|e] eqn:Pr; [intros [= <-]|discriminate]. now constructor.
          -- intros H. inversion H as [j E1|a l Ha Hj E1|a l Ha E1]; subst. now rewrite Ha.
        * split; [discriminate|]. pose proof (proj1 (strip_prefix_none _ _) Q) as NQ.
          intros H. inversion H as [j E1|a l Ha Hj E1|a l Ha E1]; subst; exfalso; [apply (NI j)|apply (NP a)|apply (NQ a)]; reflexivity.
  Qed.

  Lemma parse_upper_ok y : exists r, parse_upper parse y = Ok r /\ (forall ub, r = Good ub <-> lax_upper parse y ub) /\
    (forall e, r = Err (InvalidValue e) -> exists a c, y = a ++ c /\ parse a = Err e).
  Proof.
    unfold parse_upper. destruct (ends_with "∞)" y) eqn:S.
    - apply ends_with_iff in S as (r & ->). eexists. split; [reflexivity|]. split; [|discriminate].
      intros ub. split; [intros [= <-]; constructor|].
      intros H. inversion H as [j E1|a l Ha Hj E1|a l Ha E1]; auto; exfalso.
      + change "∞)" with ("∞" ++ ")") in E1. rewrite <- app_assoc in E1. apply app_inj_tail in E1 as [-> _]. now apply (Hj r).
      + change "∞)" with ("∞" ++ ")") in E1. rewrite <- app_assoc in E1. apply app_inj_tail in E1 as [_ E1]. discriminate.
    - pose proof (proj1 (ends_with_not _ _) S) as NI. destruct (ends_with ")" y) eqn:P.
      + apply ends_with_iff in P as (r & ->). pose proof (slice_ok r ")" eq_refl) as K.
        destruct (len_minus_1 (r ++ ")")) as [n|]; [|discriminate]. simpl in K |- *. rewrite K. simpl.
        eexists. split; [reflexivity|]. split.
        * intros ub. split.
          -- destruct (parse r) as [l|e] eqn:Pr; [intros [= <-]|discriminate]. constructor; auto. intros j ->. apply (NI j). apply app_assoc.
          -- intros H. inversion H as [j E1|a l Ha Hj E1|a l Ha E1].
             ++ exfalso. now apply (NI j).
             ++ apply app_inj_tail in E1 as [-> _]. now rewrite Ha.
             ++ apply app_inj_tail in E1 as [_ E1]. discriminate.
        * destruct (parse r) as [l|e'] eqn:Pr; intros e [= <-]; eauto.
      + pose proof (proj1 (ends_with_not _ _) P) as NP. destruct (ends_with "]" y) eqn:Q.
        * apply ends_with_iff in Q as (r & ->). pose proof (slice_ok r "]" eq_refl) as K.
          destruct (len_minus_1 (r ++ "]")) as [n|]; [|discriminate]. simpl in K |- *. rewrite K. simpl.
          eexists. split; [reflexivity|]. split.
          -- intros ub. split.
             ++ destruct (parse r) as [l|e] eqn:Pr; [intros [= <-]|discriminate]. now constructor.
             ++ intros H. inversion H as [j E1|a l Ha Hj E1|a l Ha E1].
                ** exfalso. now apply (NI j).
                ** exfalso. now apply (NP a).
                ** apply app_inj_tail in E1 as [-> _]. now rewrite Ha.
          -- destruct (parse r) as [l|e'] eqn:Pr; intros e [= <-]; eauto.
        * pose proof (proj1 (ends_with_not _ _) Q) as NQ. eexists. split; [reflexivity|]. split; [|discriminate].
          intros ub. split; [discriminate|].
          intros H. inversion H as [j E1|a l Ha Hj E1|a l Ha E1]; subst; exfalso; [now apply (NI j)|now apply (NP a)|now apply (NQ a)].
  Qed.

  (** Which strings are accepted, and as what. *)
  Lemma parse_raw_good s i : parse_raw parse s = Ok (Good i) <->
    (exists junk, s = "Ø" ++ junk /\ i = Empty) \/
    (forall junk, s <> "Ø" ++ junk) /\
     ((exists p, parse s = Good p /\ i = Point p) \/
      (forall p, parse s <> Good p) /\
      exists x y lb ub, s = x ++ "," ++ y /\ lacks "," x /\ lax_lower parse x lb /\ lax_upper parse y ub /\ i = raw_new lb ub).
  Proof.
    unfold parse_raw. destruct (starts_with "Ø" s) eqn:S.
    { apply starts_with_iff in S as (r & ->). split.
      - intros [= <-]. left. eauto.
      - intros [(j & _ & ->)|[N _]]; [reflexivity|]. now destruct (N r). }
    pose proof (proj1 (starts_with_not _ _) S) as NS.
    destruct (parse s) as [p|e] eqn:P.
    { split.
      - intros [= <-]. right. split; auto. left. eauto.
      - intros [(j & -> & _)|[_ [(q & [= ->] & ->)|[N _]]]]; [now destruct (NS j)|reflexivity|now destruct (N p)]. }
    destruct (split_once "," s) as [[x y]|] eqn:Sp.
    - destruct (proj1 (split_once_some _ _ _ _) Sp) as [-> L].
      destruct (parse_upper_ok y) as (r & Er & Hr & _). rewrite Er. simpl. split.
      + destruct (parse_lower parse x) as [lb|] eqn:El; [|discriminate]. destruct r as [ub|]; [|discriminate]. intros [= <-].
        right. split; auto. right. split; [discriminate|]. exists x, y, lb, ub. split; auto. split; auto. split; [now apply parse_lower_good|].
        split; [now apply Hr|auto].
      + intros [(j & E1 & _)|[_ [(q & [=] & _)|[_ (x' & y' & lb & ub & E1 & L' & Hl & Hu & ->)]]]]; [now destruct (NS j)|].
        assert (Some (x, y) = Some (x', y')) as [= <- <-].
        { rewrite <- Sp. apply split_once_some. split; auto. }
        apply parse_lower_good in Hl. rewrite Hl. apply Hr in Hu. now rewrite Hu.
    - apply split_once_none in Sp. split; [discriminate|].
      intros [(j & E1 & _)|[_ [(q & [=] & _)|[_ (x' & y' & lb & ub & E1 & _)]]]]; [now destruct (NS j)|]. now apply Sp in E1.
  Qed.

  Lemma parse_raw_total s : exists r, parse_raw parse s = Ok r /\
    forall e, r = Err (InvalidValue e) -> exists a t c, s = a ++ t ++ c /\ parse t = Err e.
  Proof.
    unfold parse_raw. destruct (starts_with "Ø" s); [eexists; split; [reflexivity|discriminate]|].
    destruct (parse s) as [p|e] eqn:P; [eexists; split; [reflexivity|discriminate]|].
    destruct (split_once "," s) as [[x y]|] eqn:Sp; [|eexists; split; [reflexivity|discriminate]].
    apply split_once_some in Sp as [-> L]. destruct (parse_upper_ok y) as (r & Er & _ & He). rewrite Er. simpl.
    destruct (parse_lower parse x) as [lb|e'] eqn:El.
    - destruct r as [ub|e']; (eexists; split; [reflexivity|]); [discriminate|]. intros e2 [= ->]. destruct (He e2 eq_refl) as (a & c & -> & K).
      exists (x ++ ","), a, c. split; auto. now rewrite app_assoc.
    - eexists. split; [reflexivity|]. intros e2 [= ->]. unfold parse_lower in El.
      destruct (starts_with "(-∞" x); [discriminate|]. 
      destruct (strip_prefix "(" x) as [t|] eqn:S1.
      + apply strip_prefix_some in S1 as ->. destruct (parse t) eqn:K; [discriminate|]. injection El as ->. exists "(", t, (String "," y). split; auto.
      + destruct (strip_prefix "[" x) as [t|] eqn:S2; [|discriminate]. apply strip_prefix_some in S2 as ->.
        destruct (parse t) eqn:K; [discriminate|]. injection El as ->. exists "[", t, (String "," y). split; auto.
  Qed.

  Lemma parse_raw_wf s i : parse_raw parse s = Ok (Good i) -> raw_wf i.
  Proof.
    intros H. apply parse_raw_good in H as [(j & _ & ->)|[_ [(q & _ & ->)|(_ & x & y & lb & ub & _ & _ & _ & _ & ->)]]]; simpl; auto.
    apply raw_new_wf.
  Qed.

  (** ** Round trip *)
  Lemma round_trip i : text_contract show parse -> raw_wf i -> parse_raw parse (show_raw show i) = Ok (Good i).
  Proof.
    intros [RB NC NE NM NI PR PS] W. apply parse_raw_good.
    assert (B : forall lb ub x y, lax_lower parse x lb -> lax_upper parse y ub -> lacks "," x ->
      raw_lower_bound i = Some lb -> raw_upper_bound i = Some ub -> show_raw show i = x ++ "," ++ y ->
      (exists junk, show_raw show i = "Ø" ++ junk /\ i = Empty) \/ (forall junk, show_raw show i <> "Ø" ++ junk) /\
      ((exists p, parse (show_raw show i) = Good p /\ i = Point p) \/ (forall p, parse (show_raw show i) <> Good p) /\
      exists x y lb ub, show_raw show i = x ++ "," ++ y /\ lacks "," x /\ lax_lower parse x lb /\ lax_upper parse y ub /\ i = raw_new lb ub)).
    { intros lb ub x y Hl Hu Lx EL EU Es. right. split; [|right; split].
      - intros j. rewrite Es. inversion Hl; subst; discriminate.
      - intros p. rewrite Es. inversion Hl; subst; simpl; [apply (PR (String "-" _))|apply PR|apply PS].
      - exists x, y, lb, ub. split; auto. split; auto. split; auto. split; auto. symmetry. now apply raw_new_bounds. }
    assert (Lc : forall x c, c <> ","%char -> lacks "," (String c (show x))).
    { intros x c Hc. apply lacks_cons. split; auto. intros a b. apply NC. }
    assert (Li : lacks "," "(-∞") by (repeat (apply lacks_cons; split; [discriminate|]); apply lacks_nil).
    destruct i as [|p|l r|l r|l r|l r|p|p|p|p|]; cbn [show_raw raw_lower_bound raw_upper_bound] in *.
    - left. exists "". auto.
    - right. split; [apply NE|]. left. eauto.
    - apply (B (Exclude l) (Exclude r) ("(" ++ show l) (show r ++ ")")); auto; [constructor; auto|constructor; auto|now apply Lc].
    - apply (B (Exclude l) (Include r) ("(" ++ show l) (show r ++ "]")); auto; [constructor; auto|constructor; auto|now apply Lc].
    - apply (B (Include l) (Exclude r) ("[" ++ show l) (show r ++ ")")); auto; [constructor; auto|constructor; auto|now apply Lc].
    - apply (B (Include l) (Include r) ("[" ++ show l) (show r ++ "]")); auto; [constructor; auto|constructor; auto|now apply Lc].
    - apply (B Infinite (Exclude p) "(-∞" (show p ++ ")")); auto; [apply (lax_inf _ "")|constructor; auto].
    - apply (B (Exclude p) Infinite ("(" ++ show p) "∞)"); auto; [constructor; auto|apply (lax_inf' _ "")|now apply Lc].
    - apply (B Infinite (Include p) "(-∞" (show p ++ "]")); auto; [apply (lax_inf _ "")|constructor; auto].
    - apply (B (Include p) Infinite ("[" ++ show p) "∞)"); auto; [constructor; auto|apply (lax_inf' _ "")|now apply Lc].
    - apply (B Infinite Infinite "(-∞" "∞)"); auto; [apply (lax_inf _ "")|apply (lax_inf' _ "")].
  Qed.
End Parser.

(** * More exact forms of refuted properties, for every Interval and every
    Selection: C20, C47, C53, C54, C55, C63, C71 *)
From Coq Require Import List Bool ZArith Lia Sorted.
From Verif Require Import Base OrdFacts Pos PFinite MBound MRaw MNormalize MTine MBTree MTineTree Ints MInterval MSelection
  Spec Spec_Tree Spec_Sel Spec_More Instances PRaw PRaw2 PNorm PIter PInterval PBTree PTree PTreeOps PTreeIsect PTree2 PTree3 PTree4 PTree5 PTree6 PTree7
  PSel PSel2 PSel3 PSel4 PSel5 PDebug Properties_Raw Properties_Interval Properties_Selection Properties_Selection2 Properties_Selection3 Properties_Selection4 Properties_Outer Properties_Exact.
Import ListNotations.
Local Open Scope Z_scope.
#[local] Arguments cmp : simpl never.

Ltac only_facts := repeat match goal with H : forall _, _ |- _ => clear H end.
Ltac co := only_facts; order.
Ltac cf := only_facts; forder.

Section Intervals.
  Context {T : Type} {O : Ord T} {F : Finite T}.
  Implicit Types i j : Interval T.

  (** ** C20: when [enclose] is the hull and [union] the union *)
  Lemma enclose_points i j l u m n x : reach false i -> reach false j ->
    interval_lower_bound i = Some (Include l) -> interval_upper_bound i = Some (Include u) ->
    interval_lower_bound j = Some (Include m) -> interval_upper_bound j = Some (Include n) ->
    interval_contains (interval_enclose i j) x = true <-> (le l x \/ le m x) /\ (le x u \/ le x n).
  Proof.
    intros Ri Rj Li Ui Lj Uj. apply reach_tight in Ri, Rj. unfold interval_enclose, interval_contains, interval_from_raw. cbn [interval_raw].
    rewrite !normalized_contains. unfold interval_lower_bound, interval_upper_bound in *.
    unfold raw_enclose. rewrite Li, Ui, Lj, Uj. unfold least_union, greatest_union.
    destruct (ltb l m) eqn:A, (gtb u n) eqn:B; cbn [raw_new]; unfold raw_closed; (destruct (cmp _ _) eqn:C in |- *); simpl; clear - A B C; order.
  Qed.

  Lemma bounded_points i l u : reach false i -> interval_lower_bound i = Some (Include l) -> interval_upper_bound i = Some (Include u) ->
    (forall x, ipoints i x <-> le l x /\ le x u) /\ (le l u \/ succ u = Some l) /\ ((exists x, ipoints i x) <-> le l u).
  Proof.
    intros R L U. destruct (C62_bounds_all_partial i R) as [(_ & L' & _)|(l' & u' & _ & L' & U' & _ & _ & P & K)]; [congruence|].
    rewrite L in L'. injection L' as <-. rewrite U in U'. injection U' as <-.
    split; [exact P|]. split; [exact K|]. split.
    - intros (x & Hx). apply P in Hx. clear - Hx. order.
    - intros Le. exists l. apply P. split; [clear; order|exact Le].
  Qed.

  (** [enclose] of two non-empty intervals holds just what lies between values of
      either, exactly if each interval without values stays within the bounds of
      the other. *)
  Theorem C20_enclose_iff_partial i j l u m n : reach false i -> reach false j ->
    interval_lower_bound i = Some (Include l) -> interval_upper_bound i = Some (Include u) ->
    interval_lower_bound j = Some (Include m) -> interval_upper_bound j = Some (Include n) ->
    ((forall x, ipoints (interval_enclose i j) x <->
        exists y z, (ipoints i y \/ ipoints j y) /\ (ipoints i z \/ ipoints j z) /\ le y x /\ le x z) <->
     ((exists x, ipoints i x) \/ (le m l /\ le u n)) /\ ((exists x, ipoints j x) \/ (le l m /\ le n u))).
  Proof.
    intros Ri Rj Li Ui Lj Uj.
    destruct (bounded_points i l u Ri Li Ui) as (Pi & Ki & Xi), (bounded_points j m n Rj Lj Uj) as (Pj & Kj & Xj).
    assert (Pe : forall x, ipoints (interval_enclose i j) x <-> (le l x \/ le m x) /\ (le x u \/ le x n)) by (intros; eapply enclose_points; eauto).
    rewrite Xi, Xj. setoid_rewrite Pe. setoid_rewrite Pi. setoid_rewrite Pj. clear - Ki Kj. split.
    - intros H. split.
      + destruct Ki as [Ki|Ki]; [now left|]. right.
        assert (A : le m l \/ lt l m) by co. assert (B : le u n \/ lt n u) by co. split.
        * destruct A as [A|A]; [exact A|exfalso]. assert (C : le l n \/ lt n l) by co. destruct C as [C|C].
          -- destruct (proj1 (H l)) as (y & z & [[Y Y']|[Y Y']] & _ & Le & _); [split; [left; co|now right]| |]; cf.
          -- destruct Kj as [Kj|Kj]; cf.
        * destruct B as [B|B]; [exact B|exfalso]. assert (C : le m u \/ lt u m) by co. destruct C as [C|C].
          -- destruct (proj1 (H u)) as (y & z & _ & [[Y Y']|[Y Y']] & _ & Le); [split; [now right|left; co]| |]; cf.
          -- destruct Kj as [Kj|Kj]; cf.
      + destruct Kj as [Kj|Kj]; [now left|]. right.
        assert (A : le l m \/ lt m l) by co. assert (B : le n u \/ lt u n) by co. split.
        * destruct A as [A|A]; [exact A|exfalso]. assert (C : le m u \/ lt u m) by co. destruct C as [C|C].
          -- destruct (proj1 (H m)) as (y & z & [[Y Y']|[Y Y']] & _ & Le & _); [split; [right; co|now left]| |]; cf.
          -- destruct Ki as [Ki|Ki]; cf.
        * destruct B as [B|B]; [exact B|exfalso]. assert (C : le l n \/ lt n l) by co. destruct C as [C|C].
          -- destruct (proj1 (H n)) as (y & z & _ & [[Y Y']|[Y Y']] & _ & Le); [split; [now left|right; co]| |]; cf.
          -- destruct Ki as [Ki|Ki]; cf.
    - intros [Hi Hj] x. split.
      + intros [A B].
        assert (Lo : exists y, ((le l y /\ le y u) \/ (le m y /\ le y n)) /\ le y x).
        { destruct A as [A|A].
          - assert (C : le l u \/ lt u l) by co. destruct C as [C|C]; [exists l; split; [left; split; co|exact A]|].
            destruct Hi as [Hi|[Hi Hi']]; [exfalso; co|]. destruct Hj as [Hj|[Hj Hj']]; [exists m; split; [right; split; co|co]|].
            exfalso. destruct B; cf.
          - assert (C : le m n \/ lt n m) by co. destruct C as [C|C]; [exists m; split; [right; split; co|exact A]|].
            destruct Hj as [Hj|[Hj Hj']]; [exfalso; co|]. destruct Hi as [Hi|[Hi Hi']]; [exists l; split; [left; split; co|co]|].
            exfalso. destruct B; cf. }
        assert (Up : exists z, ((le l z /\ le z u) \/ (le m z /\ le z n)) /\ le x z).
        { destruct B as [B|B].
          - assert (C : le l u \/ lt u l) by co. destruct C as [C|C]; [exists u; split; [left; split; co|exact B]|].
            destruct Hi as [Hi|[Hi Hi']]; [exfalso; co|]. destruct Hj as [Hj|[Hj Hj']]; [exists n; split; [right; split; co|co]|].
            exfalso. destruct A; cf.
          - assert (C : le m n \/ lt n m) by co. destruct C as [C|C]; [exists n; split; [right; split; co|exact B]|].
            destruct Hj as [Hj|[Hj Hj']]; [exfalso; co|]. destruct Hi as [Hi|[Hi Hi']]; [exists u; split; [left; split; co|co]|].
            exfalso. destruct A; cf. }
        destruct Lo as (y & Y & Le), Up as (z & Z & Le'). exists y, z. auto.
      + intros (y & z & Y & Z & A & B). clear - Y Z A B. split; [destruct Y as [[Y _]|[Y _]]; clear - Y A|destruct Z as [[_ Z]|[_ Z]]; clear - Z B]; order.
  Qed.
  (** The hull with an empty interval is always right. *)
  Theorem C20_enclose_empty i j : reach false i -> reach false j -> interval_is_empty i = true \/ interval_is_empty j = true ->
    forall x, ipoints (interval_enclose i j) x <-> ipoints i x \/ ipoints j x.
  Proof.
    intros Ri Rj H x. unfold ipoints, interval_enclose, interval_contains, interval_from_raw. cbn [interval_raw]. rewrite !normalized_contains.
    apply reach_tight in Ri, Rj. unfold interval_is_empty, raw_is_empty in H.
    destruct i as [[]], j as [[]]; cbn [interval_raw tight] in *; try tauto; try (destruct H; discriminate); unfold raw_enclose; cbn [raw_lower_bound raw_upper_bound raw_new];
      unfold raw_closed; try (destruct (cmp _ _) eqn:C in |- *); simpl; try (clear - C; order); clear; order.
  Qed.

  (** [union] adds a value exactly if both intervals have none and one ends where
      the other begins. *)
  Theorem C20_union_iff_partial i j : reach false i -> reach false j ->
    ((forall x, some_icontains (interval_union i j) x <-> ipoints i x \/ ipoints j x) <->
     ~ ((forall x, ~ ipoints i x) /\ (forall x, ~ ipoints j x) /\
        exists b, (interval_lower_bound i = Some (Include b) /\ interval_upper_bound j = Some (Include b)) \/
                  (interval_lower_bound j = Some (Include b) /\ interval_upper_bound i = Some (Include b)))).
  Proof.
    intros Ri Rj.
    assert (Dec : forall k, reach false k -> (exists x, ipoints k x) \/ forall x, ~ ipoints k x).
    { intros k R. destruct (C62_bounds_all_partial k R) as [(_ & _ & _ & _ & _ & N)|(l & u & _ & L & U & _ & _ & P & [K|K])].
      - right. intros x. unfold ipoints. now rewrite N.
      - left. exists l. apply P. split; [clear; order|exact K].
      - right. intros x Hx. apply P in Hx. clear - Hx K. forder. }
    destruct (Dec i Ri) as [(y & Hy)|Ni].
    { split; [intros _ (N & _); now apply (N y)|]. intros _ x. apply (C20_operations_exact_vacuous_partial i j x Ri Rj). eauto. }
    destruct (Dec j Rj) as [(y & Hy)|Nj].
    { split; [intros _ (_ & N & _); now apply (N y)|]. intros _ x. apply (C20_operations_exact_vacuous_partial i j x Ri Rj). eauto. }
    destruct (C62_bounds_all_partial i Ri) as [(Ei & Li & Ui & _)|(l & u & Ei & Li & Ui & _ & _ & Pi & Ki)].
    { split; [intros _ (_ & _ & b & [[A B]|[A B]]); congruence|]. intros _ x. split; [|intros [K|K]; [now apply Ni in K|now apply Nj in K]].
      intros (k & Hk & Hx). unfold interval_union, raw_union in Hk. change (raw_is_empty (interval_raw i) = true) in Ei. rewrite Ei in Hk.
      destruct (raw_is_empty (interval_raw j)); simpl in Hk; [destruct Hk|destruct Hk as [<-|[]]].
      right. unfold interval_contains in Hx. cbn [interval_raw] in Hx. now rewrite normalized_contains in Hx. }
    destruct (C62_bounds_all_partial j Rj) as [(Ej & Lj & Uj & _)|(m & n & Ej & Lj & Uj & _ & _ & Pj & Kj)].
    { split; [intros _ (_ & _ & b & [[A B]|[A B]]); congruence|]. intros _ x. split; [|intros [K|K]; [now apply Ni in K|now apply Nj in K]].
      intros (k & Hk & Hx). unfold interval_union, raw_union in Hk. change (raw_is_empty (interval_raw i) = false) in Ei. change (raw_is_empty (interval_raw j) = true) in Ej. rewrite Ei, Ej in Hk. simpl in Hk. destruct Hk as [<-|[]].
      left. unfold interval_contains in Hx. cbn [interval_raw] in Hx. now rewrite normalized_contains in Hx. }
    assert (Si : succ u = Some l). { destruct Ki as [Ki|Ki]; auto. exfalso. apply (Ni l). apply Pi. split; [clear; order|exact Ki]. }
    assert (Sj : succ n = Some m). { destruct Kj as [Kj|Kj]; auto. exfalso. apply (Nj m). apply Pj. split; [clear; order|exact Kj]. }
    assert (Pe : forall x, interval_contains (interval_enclose i j) x = true <-> (le l x \/ le m x) /\ (le x u \/ le x n)) by (intros; eapply enclose_points; eauto).
    assert (Un : (exists x, some_icontains (interval_union i j) x) <-> l = n \/ m = u).
    { unfold interval_union, raw_union. change (raw_is_empty (interval_raw i) = false) in Ei. change (raw_is_empty (interval_raw j) = false) in Ej. rewrite Ei, Ej.
      assert (Is : raw_intersects (interval_raw i) (interval_raw j) = false).
      { unfold raw_intersects, raw_intersect. unfold interval_lower_bound, interval_upper_bound in *. rewrite Li, Lj, Ui, Uj.
        unfold greatest_intersect, least_intersect. destruct (gtb l m) eqn:A, (ltb u n) eqn:B; cbn [raw_new bound_as_ref is_inclusive is_exclusive andb orb];
          rewrite andb_false_r; unfold raw_closed; (destruct (cmp _ _) eqn:C in |- *); try reflexivity; exfalso; clear - A B C Si Sj; forder. }
      rewrite Is. cbn [orb]. unfold raw_is_adjacent_to. unfold interval_lower_bound, interval_upper_bound in *. rewrite Li, Lj, Ui, Uj.
      cbn [is_union_adjacent_to].
      destruct (eqb l n || eqb m u) eqn:A.
      - split; [intros _; clear - A; order|]. intros _. exists (if ltb l m then l else m). eexists. split; [left; reflexivity|].
        specialize (Pe (if ltb l m then l else m)). unfold interval_enclose, interval_contains, interval_from_raw in Pe. cbn [interval_raw] in Pe. rewrite normalized_contains in Pe.
        unfold interval_contains. cbn [interval_raw]. apply Pe. destruct (ltb l m) eqn:B; clear - A B Si Sj; forder.
      - split.
        + intros (x & k & Hk & Hx). exfalso. unfold interval_contains in Hx. simpl in Hk. destruct Hk as [<-|[<-|[]]]; cbn [interval_raw] in Hx; rewrite normalized_contains in Hx.
          * now apply (Ni x).
          * now apply (Nj x).
        + intros K. exfalso. clear - A K F. forder. }
    split.
    - intros H (_ & _ & b & K). assert (K' : l = n \/ m = u) by (destruct K as [[K1 K2]|[K1 K2]]; [left|right]; congruence).
      apply Un in K' as (x & Hx). apply H in Hx as [Hx|Hx]; [now apply (Ni x)|now apply (Nj x)].
    - intros H x. split; [|intros [K|K]; [now apply Ni in K|now apply Nj in K]]. intros Hx. exfalso. apply H. split; [exact Ni|]. split; [exact Nj|].
      destruct (proj1 Un (ex_intro _ x Hx)) as [<-|<-]; eauto.
  Qed.

  (** ** C63: what the classes say of every Interval *)
  Theorem C63_classes_all_partial i : reach false i ->
    (interval_is_degenerate i = true <-> exists p, i = interval_point p) /\
    (interval_is_degenerate i = true -> exactly_one (ipoints i)) /\
    (interval_is_proper i = true -> exists l u, interval_lower_bound i = Some (Include l) /\ interval_upper_bound i = Some (Include u) /\
       (exactly_one (ipoints i) <-> l = u) /\ ((forall x, ~ ipoints i x) <-> succ u = Some l)) /\
    (interval_is_proper i = negb (interval_is_empty i || interval_is_degenerate i)).
  Proof.
    intros R. destruct (C62_bounds_all_partial i R) as [K|K]; apply reach_tight in R; destruct i as [[|p| | | |l u| | | | |]]; cbn [interval_raw tight] in R; try tauto.
    - split; [split; [discriminate|intros (p & K'); discriminate K']|]. split; [discriminate|]. split; [discriminate|reflexivity].
    - destruct K as (K & _). discriminate K.
    - destruct K as (K & _). discriminate K.
    - destruct K as (l & u & K & _). discriminate K.
    - split; [split; [intros _; exists p; reflexivity|reflexivity]|]. split; [|split; [discriminate|reflexivity]].
      intros _. exists p. unfold ipoints, interval_contains. simpl. clear. split; order.
    - split; [split; [discriminate|intros (p & K'); discriminate K']|]. split; [discriminate|]. split; [|reflexivity]. intros _.
      exists l, u. split; [reflexivity|]. split; [reflexivity|]. destruct K as (l' & u' & _ & L & U & _ & _ & P & K). injection L as <-. injection U as <-.
      unfold ipoints, exactly_one. setoid_rewrite P. split; split.
      + intros (p & [A B] & Hp). assert (K' : le l u) by (clear - A B; order).
        rewrite (Hp l), (Hp u); [reflexivity| |]; (split; [|]); first [exact K'|clear; order].
      + intros <-. exists l. clear. split; order.
      + intros N. destruct K as [K|K]; auto. exfalso. apply (N l). split; [clear; order|exact K].
      + intros S x Hx. clear - S Hx. forder.
  Qed.
  Lemma bounds_contains (i : Interval T) m n x : interval_lower_bound i = Some (Include m) -> interval_upper_bound i = Some (Include n) ->
    (ipoints i x <-> le m x /\ le x n).
  Proof.
    unfold interval_lower_bound, interval_upper_bound, ipoints, interval_contains. intros L U. now rewrite raw_bounds_contains, L, U.
  Qed.
End Intervals.
Print Assumptions C20_enclose_iff_partial.
Print Assumptions C20_enclose_empty.
Print Assumptions C20_union_iff_partial.
Print Assumptions C63_classes_all_partial.

Example C20_iff_ex : reach false (interval_open (v 3) (v 4)) /\ reach false (interval_open (v 4) (v 5)) /\
  (forall x, ~ ipoints (interval_open (v 3) (v 4)) x) /\ (forall x, ~ ipoints (interval_open (v 4) (v 5)) x) /\
  interval_lower_bound (interval_open (v 3) (v 4)) = Some (Include (v 4)) /\
  interval_upper_bound (interval_open (v 4) (v 5)) = Some (Include (v 4)) /\
  some_icontains (interval_union (interval_open (v 3) (v 4)) (interval_open (v 4) (v 5))) (v 4) /\
  ipoints (interval_enclose (interval_open (v 3) (v 4)) (interval_open (v 4) (v 5))) (v 4) /\
  ipoints (interval_enclose (interval_open (v 3) (v 4)) (cl 6 9)) (v 5) /\
  ~ ipoints (interval_enclose (interval_open (v 6) (v 7)) (cl 6 9)) (v 5).
Proof.
  assert (N : forall a b, interval_lower_bound (interval_open a b) = Some (Include b) -> interval_upper_bound (interval_open a b) = Some (Include a) ->
    succ a = Some b -> forall x : i8, ~ ipoints (interval_open a b) x).
  { intros a b L U S x Hx. apply (bounds_contains _ b a x L U) in Hx. now apply (hollow_none b a S x). }
  split; [constructor; discriminate|]. split; [constructor; discriminate|]. split; [now apply N|]. split; [now apply N|].
  split; [reflexivity|]. split; [reflexivity|]. split; [eexists; split; [left; reflexivity|reflexivity]|].
  split; [reflexivity|]. split; [reflexivity|discriminate].
Qed.
(** The open pair (3,5) is proper and holds just 4. *)
Example C63_all_ex : reach false (interval_open (v 3) (v 5)) /\ interval_is_proper (interval_open (v 3) (v 5)) = true /\
  interval_is_degenerate (interval_open (v 3) (v 5)) = false /\ exactly_one (ipoints (interval_open (v 3) (v 5))) /\
  interval_is_degenerate (interval_point (v 4)) = true.
Proof.
  split; [constructor; discriminate|]. split; [reflexivity|]. split; [reflexivity|]. split; [|reflexivity].
  destruct (C63_classes_all_partial (interval_open (v 3) (v 5)) ltac:(constructor; discriminate)) as (_ & _ & K & _).
  destruct (K eq_refl) as (l & u & [= <-] & [= <-] & K1 & _). now apply K1.
Qed.

Section Selections.
  Context {T : Type} {O : Ord T} {F : Finite T}.
  Implicit Types (s : Selection T) (p q : prog T).

  (** ** C54 *)
  Lemma lower_up r m y : raw_wf r -> raw_lower_bound (normalized r) = Some (Include m) ->
    raw_upper_bound r = Some (Include y) \/ raw_upper_bound r = Some (Exclude y) -> le m y.
  Proof.
    intros W L U. destruct r as [|z|l u|l u|l u|l u|u|l|u|l|]; cbn [raw_upper_bound] in U; destruct U as [U|U]; try discriminate; injection U as ->;
      cbn [normalized] in L; unfold raw_lower_bound in L;
      repeat match goal with H : context [match succ ?x with _ => _ end] |- _ => destruct (succ x) eqn:?; try discriminate
                   | H : context [match pred ?x with _ => _ end] |- _ => destruct (pred x) eqn:?; try discriminate end;
      injection L as <-; simpl in W; forder.
  Qed.
  Lemma upper_low r m y : raw_wf r -> raw_upper_bound (normalized r) = Some (Include m) ->
    raw_lower_bound r = Some (Include y) \/ raw_lower_bound r = Some (Exclude y) -> le y m.
  Proof.
    intros W L U. destruct r as [|z|l u|l u|l u|l u|u|l|u|l|]; cbn [raw_lower_bound] in U; destruct U as [U|U]; try discriminate; injection U as ->;
      cbn [normalized] in L; unfold raw_upper_bound in L;
      repeat match goal with H : context [match succ ?x with _ => _ end] |- _ => destruct (succ x) eqn:?; try discriminate
                   | H : context [match pred ?x with _ => _ end] |- _ => destruct (pred x) eqn:?; try discriminate end;
      injection L as <-; simpl in W; forder.
  Qed.
  Lemma below_next (r k : RawInterval T) m n : raw_wf r -> raw_wf k -> separated r k ->
    interval_lower_bound (nrm r) = Some (Include m) -> interval_upper_bound (nrm k) = Some (Include n) -> le m n.
  Proof.
    intros W W' Sep L U. unfold interval_lower_bound, interval_upper_bound in *. rewrite nrm_raw in L, U. unfold separated in Sep.
    assert (exists y z, le y z /\ (raw_upper_bound r = Some (Include y) \/ raw_upper_bound r = Some (Exclude y)) /\
      (raw_lower_bound k = Some (Include z) \/ raw_lower_bound k = Some (Exclude z))) as (y & z & Le & A & B).
    { destruct (raw_upper_bound r) as [[y|y|]|]; try contradiction; destruct (raw_lower_bound k) as [[z|z|]|]; try contradiction;
        exists y, z; (split; [clear - Sep; order|]); auto. }
    pose proof (lower_up r m y W L A). pose proof (upper_low k n z W' U B). clear - Le H H0. order.
  Qed.

  (** [enclose] holds just what lies between members, exactly if there is no
      more than one interval or both outer intervals have values. *)
  Theorem C54_enclose_iff_partial dbg p s j k li e : inputs false p -> run dbg p = Ok s ->
    sel_intervals_are dbg s (j :: li) -> k = last (j :: li) j -> sel_enclose dbg s = Ok e ->
    ((forall x, ipoints e x <-> exists y z, member dbg s y /\ member dbg s z /\ le y x /\ le x z) <->
     li = [] \/ ((exists x, ipoints j x) /\ (exists x, ipoints k x))).
  Proof.
    intros H E D -> Ee.
    destruct (C95_outer dbg p s (j :: li) H E D) as (m & n & e' & c & Lj & Uk & Ls & Us & Ee' & Le & Ue & _).
    rewrite Ee in Ee'. injection Ee' as <-.
    destruct (C52_bounds_iff_partial dbg p s j _ li H E D eq_refl) as (m' & n' & Ls' & Us' & Lm & Gn).
    rewrite Ls in Ls'. injection Ls' as <-. rewrite Us in Us'. injection Us' as <-.
    destruct (C52_bounds_all_partial dbg p s H E) as [(o & Eo & B1) (o' & Eo' & B2)].
    rewrite Ls in Eo. injection Eo as <-. rewrite Us in Eo'. injection Eo' as <-.
    destruct (C50_points_all_partial dbg p s H E) as (l & D' & Mem & _).
    assert (l = j :: li) as -> by (eapply drains_det; eauto).
    pose proof (fun x => bounds_contains e m n x Le Ue) as Pe.
    split.
    - intros Hull. destruct li as [|i li]; [now left|]. right.
      destruct (intervals_reach dbg p s _ H E D) as (W & Sp & _).
      assert (Lt : le m n).
      { pose proof (pieces_sorted s W) as SS. pose proof (pieces_wf s None) as Wf. destruct (pieces None s) as [|r l]; [discriminate|].
        injection Sp as -> Sp. inversion SS as [|? ? _ Hr]; subst. inversion Wf as [|? ? Wr Wl]; subst. rewrite Forall_forall in Hr, Wl.
        assert (Hk : In (last (nrm r :: i :: li) (nrm r)) (map nrm l)).
        { rewrite <- Sp. destruct (exists_last (l := i :: li)) as (a & b & Eab); [discriminate|]. rewrite Eab.
          change (nrm r :: a ++ [b]) with ((nrm r :: a) ++ [b]). rewrite last_last. apply in_app_iff. right. now left. }
        apply in_map_iff in Hk as (k & Ek & Hk). rewrite <- Ek in Uk. apply (below_next r k); auto. }
      split.
      + apply Lm. destruct (proj1 (Hull m) (proj2 (Pe m) ltac:(clear - Lt; order))) as (y & z & Hy & _ & Hle & _).
        split; [|exact B1]. assert (y = m) as <- by (apply B1 in Hy as K; clear - K Hle; order). exact Hy.
      + apply Gn. destruct (proj1 (Hull n) (proj2 (Pe n) ltac:(clear - Lt; order))) as (y & z & _ & Hz & _ & Hle).
        split; [|exact B2]. assert (z = n) as <- by (apply B2 in Hz as K; clear - K Hle; order). exact Hz.
    - intros K x. rewrite Pe. destruct K as [->|[X Y]].
      + assert (Pj : forall x, member dbg s x <-> le m x /\ le x n).
        { intros y. rewrite <- Mem, <- (bounds_contains j m n y Lj Uk). unfold some_icontains. split.
          - intros (i & [<-|[]] & Hx). exact Hx.
          - intros Hx. exists j. split; [now left|exact Hx]. }
        split.
        * intros Hx. exists x, x. rewrite !Pj. split; auto. split; auto. clear. order.
        * intros (y & z & Hy & Hz & A & B). apply Pj in Hy, Hz. clear - Hy Hz A B. order.
      + apply Lm in X as [X X']. apply Gn in Y as [Y Y']. split.
        * intros [A B]. exists m, n. auto.
        * intros (y & z & Hy & Hz & A & B). apply X' in Hy. apply Y' in Hz. clear - Hy Hz A B. order.
  Qed.

  (** ** C71, C47: Selections built by unions, also of hollow intervals *)
  Definition around (c : pos T -> bool) : Prop := forall x, c (At x) = true -> c (Lo x) = true /\ c (Hi x) = true.
  Lemma around_ext (c c' : pos T -> bool) : (forall w, c w = c' w) -> around c' -> around c.
  Proof. intros H A x. rewrite !H. apply A. Qed.
  Lemma around_or (c c' : pos T -> bool) : around c -> around c' -> around (fun w => c w || c' w).
  Proof.
    intros A A' x K. apply orb_true_iff in K as [K|K]; [apply A in K|apply A' in K]; destruct K as [-> ->]; rewrite ?orb_true_r; auto.
  Qed.
  Lemma denorm_around (i : Interval T) : reach false i -> around (covers (denormalized (interval_raw i))).
  Proof.
    intros R x Hx. destruct (denorm_in i R) as (W & NP & _). apply reach_tight in R.
    assert (E : (forall y, raw_lower_bound (denormalized (interval_raw i)) <> Some (Include y)) /\
                (forall y, raw_upper_bound (denormalized (interval_raw i)) <> Some (Include y))).
    { destruct i as [[|z| | | |l u| | | | |]]; cbn [interval_raw tight denormalized] in *; try tauto;
        repeat match goal with |- context [match pred ?a with _ => _ end] => destruct (pred a)
                      | |- context [match succ ?a with _ => _ end] => destruct (succ a) end; split; discriminate. }
    destruct E as [E1 E2]. set (r := denormalized (interval_raw i)) in *. clearbody r.
    destruct (raw_bounds_cases r) as [(-> & _)|(lo & up & L & U)]; [discriminate|].
    rewrite !(covers_bounds r _ lo up) in * by auto.
    destruct lo as [y|y|]; [now destruct (E1 y)| |]; (destruct up as [z|z|]; [now destruct (E2 z)| |]); cbn [lpos upos] in *; first [clear - Hx O; porder|split; split; discriminate].
  Qed.
  Lemma lcovers_around l : Forall (reach false) l -> around (lcovers (map (fun i => denormalized (interval_raw i)) l)).
  Proof.
    induction 1 as [|i l H _ IH]; [intros x K; discriminate K|].
    change (lcovers (map _ (i :: l))) with (fun w => covers (denormalized (interval_raw i)) w || lcovers (map (fun i => denormalized (interval_raw i)) l) w).
    apply around_or; auto using denorm_around.
  Qed.
  Lemma run_around dbg p : inputs false p -> unions_only p -> exists s, run dbg p = Ok s /\ wf s /\ around (den false s).
  Proof.
    induction p as [| |i|l|l|p IH l|p IH i|p IH1 q IH2|p IH|p IH1 q IH2|p IH i]; simpl; intros H U; try contradiction.
    - exists []. split; auto. split; [apply new_wf|]. intros x K. discriminate K.
    - exists sel_full. split; auto. split; [apply (full_den NInf)|]. intros x _. split; apply full_den.
    - destruct (denorm_in i H) as (W & _). destruct (from_raw_wf _ W) as (W' & E & Dn). unfold sel_from. eexists. split; [reflexivity|]. rewrite E.
      split; auto. apply (around_ext _ _ Dn). now apply denorm_around.
    - unfold sel_from_intervals. rewrite sel_extend_tree.
      destruct (extend_ok dbg _ [] new_wf (inputs_wf l H)) as (s & E & W & Dn). exists s. split; auto. split; auto.
      apply (around_ext _ _ Dn). now apply (lcovers_around l).
    - unfold sel_from_points. rewrite sel_extend_tree.
      destruct (extend_ok dbg _ [] new_wf (inputs_wf _ (points_reach l false))) as (s & E & W & Dn). exists s. split; auto. split; auto.
      apply (around_ext _ _ Dn). apply (lcovers_around _ (points_reach l false)).
    - destruct H as [H1 H2]. destruct (IH H1 U) as (s & -> & W & A). simpl. rewrite sel_extend_tree.
      destruct (extend_ok dbg _ s W (inputs_wf l H2)) as (s' & E & W' & Dn). exists s'. split; auto. split; auto.
      apply (around_ext _ _ Dn). apply around_or; auto. now apply lcovers_around.
    - destruct H as [H1 H2]. destruct (IH H1 U) as (s & -> & W & A). simpl. unfold sel_union_in_place.
      destruct (denorm_in i H2) as (Wi & _ & C).
      destruct (union_in_place_ok dbg s _ W Wi) as (s' & E & W' & Dn). exists s'. split; auto. split; auto.
      apply (around_ext _ _ Dn). apply around_or; auto. now apply denorm_around.
    - destruct H as [H1 H2], U as [U1 U2]. destruct (IH1 H1 U1) as (s & -> & W & A), (IH2 H2 U2) as (s2 & -> & W2 & A2). simpl. unfold sel_union.
      destruct (tree_union_ok dbg s s2 W W2) as (s' & E & W' & Dn). exists s'. split; auto. split; auto.
      apply (around_ext _ _ Dn). now apply around_or.
  Qed.

  Lemma around_excluded s r : wf s -> around (den false s) -> In r (pieces None s) ->
    (forall x, raw_lower_bound r <> Some (Include x)) /\ (forall x, raw_upper_bound r <> Some (Include x)).
  Proof.
    intros W A Hin. destruct (piece_bounds s r W Hin) as (lo & up & L & U & H).
    assert (Conv : forall w, den false s w = true -> exists r', In r' (pieces None s) /\ covers r' w = true /\
      (r' = r \/ (forall a b, covers r a = true -> covers r' b = true -> lt a b) \/ (forall a b, covers r a = true -> covers r' b = true -> lt b a))).
    { intros q Dq. destruct (den_piece s _ W Dq) as (r' & Hin' & C'). exists r'. split; auto. split; auto.
      pose proof (pieces_sorted s W) as SS.
      assert (Wf : forall k, In k (pieces None s) -> raw_wf k) by (intros; now apply (piece_wf s)).
      clear - SS Hin Hin' Wf. induction SS as [|k l SS IH Fk]; [destruct Hin|]. rewrite Forall_forall in Fk.
      destruct Hin as [<-|Hin], Hin' as [<-|Hin']; auto.
      - right; left. apply separated_pos; auto; apply Wf; simpl; auto.
      - right; right. intros p q Hp Hq. eapply (separated_pos k r); eauto; apply Wf; simpl; auto.
      - apply IH; auto. intros; apply Wf; simpl; auto. }
    split; intros x E.
    - assert (lo = Include x) by congruence. subst lo.
      assert (Cx : covers r (At x) = true) by (apply (covers_bounds r _ (Include x) up); auto; split; auto; cbn; po).
      destruct (A x (piece_den s r _ W Hin Cx)) as [Dl _].
      destruct (Conv _ Dl) as (r' & Hin' & C' & [->|[K|K]]).
      + apply (covers_bounds r _ (Include x) up) in C'; auto. cbn in C'. destruct C' as [C' _]. po.
      + specialize (K _ _ Cx C'). po.
      + assert (Ex : raw_upper_bound r' = Some (Exclude x)).
        { destruct (piece_bounds s r' W Hin') as (lo' & up' & L' & U' & H').
          rewrite U'. f_equal. apply (covers_bounds r' _ lo' up') in C'; auto. destruct C' as [C1 C2].
          assert (N : covers r' (At x) <> true) by (intros N; specialize (K _ _ Cx N); po).
          assert (N2 : ~ le (At x) (upos up')).
          { intros N3. apply N. apply (covers_bounds r' _ lo' up'); auto. split; auto. clear - C1 O. po. }
          clear - C2 N2 O. destruct up' as [b|b|]; cbn in *; [exfalso; po|f_equal; po|exfalso; po]. }
        apply (upper_excluded s r' x W Hin') in Ex as [_ Ex]. rewrite (piece_den s r _ W Hin Cx) in Ex. discriminate.
    - assert (up = Include x) by congruence. subst up.
      assert (Cx : covers r (At x) = true) by (apply (covers_bounds r _ lo (Include x)); auto; split; auto; cbn; po).
      destruct (A x (piece_den s r _ W Hin Cx)) as [_ Dl].
      destruct (Conv _ Dl) as (r' & Hin' & C' & [->|[K|K]]).
      + apply (covers_bounds r _ lo (Include x)) in C'; auto. cbn in C'. destruct C' as [_ C']. po.
      + assert (Ex : raw_lower_bound r' = Some (Exclude x)).
        { destruct (piece_bounds s r' W Hin') as (lo' & up' & L' & U' & H').
          rewrite L'. f_equal. apply (covers_bounds r' _ lo' up') in C'; auto. destruct C' as [C1 C2].
          assert (N : covers r' (At x) <> true) by (intros N; specialize (K _ _ Cx N); po).
          assert (N2 : ~ le (lpos lo') (At x)).
          { intros N3. apply N. apply (covers_bounds r' _ lo' up'); auto. split; auto. clear - C2 O. po. }
          clear - C1 N2 O. destruct lo' as [b|b|]; cbn in *; [exfalso; po|f_equal; po|exfalso; po]. }
        apply (lower_excluded s r' x W Hin') in Ex as [_ Ex]. rewrite (piece_den s r _ W Hin Cx) in Ex. discriminate.
      + specialize (K _ _ Cx C'). po.
  Qed.
  Lemma around_denorm s r : wf s -> edge (den false s) -> around (den false s) -> In r (pieces None s) ->
    denormalized (interval_raw (nrm r)) = r.
  Proof.
    intros W Ed A Hr. destruct (around_excluded s r W A Hr) as [E1 E2]. rewrite nrm_raw.
    pose proof (piece_edge s r W Ed Hr) as Er. pose proof (piece_wf s r Hr) as Wr. pose proof (piece_nonempty s r W Hr) as NE.
    destruct r as [|z|l u|l u|l u|l u|u|l|u|l|]; cbn [raw_lower_bound raw_upper_bound] in E1, E2;
      try (now destruct (E1 _ eq_refl)); try (now destruct (E2 _ eq_refl)).
    - reflexivity.
    - cbn [normalized]. simpl in Wr. destruct (succ l) as [a|] eqn:Sa; [|exfalso; clear - Sa Wr; forder].
      destruct (pred u) as [b|] eqn:Pb; [|exfalso; clear - Pb Wr; forder]. simpl.
      assert (pred a = Some l) as -> by (clear - Sa; forder). assert (succ b = Some u) as -> by (clear - Pb; forder). reflexivity.
    - destruct Er as (_ & B & _). cbn [normalized]. destruct (pred u) as [b|] eqn:Pb.
      + simpl. rewrite (proj2 (pred_none MINIMUM) eq_refl). assert (succ b = Some u) as -> by (clear - Pb; forder). reflexivity.
      + exfalso. rewrite covers_At in B. assert (covers (UpTo u) NInf = true) as Cn by reflexivity. rewrite Cn in B. simpl in B. clear - B Pb. forder.
    - destruct Er as (_ & _ & _ & B). cbn [normalized]. destruct (succ l) as [b|] eqn:Pb.
      + simpl. rewrite (proj2 (succ_none MAXIMUM) eq_refl). assert (pred b = Some l) as -> by (clear - Pb; forder). reflexivity.
      + exfalso. rewrite covers_At in B. assert (covers (UpFrom l) PInf = true) as Cn by reflexivity. rewrite Cn in B. simpl in B. clear - B Pb. forder.
    - simpl. rewrite (proj2 (succ_none MAXIMUM) eq_refl), (proj2 (pred_none MINIMUM) eq_refl). reflexivity.
  Qed.
  Lemma around_collect dbg s : wf s -> edge (den false s) -> around (den false s) -> sel_from_intervals dbg (map nrm (pieces None s)) = Ok s.
  Proof.
    intros W Ed A. unfold sel_from_intervals. rewrite sel_extend_tree, map_map.
    assert (E : map (fun r => denormalized (interval_raw (nrm r))) (pieces None s) = pieces None s).
    { rewrite <- (map_id (pieces None s)) at 2. apply map_ext_in. intros r Hr. now apply (around_denorm s). }
    rewrite E. destruct (extend_ok dbg _ [] new_wf (pieces_wf s None)) as (s' & E' & W' & Dn). transitivity (Ok s'); [exact E'|]. f_equal. apply den_ext; auto.
    intros q. rewrite Dn. simpl. now apply pieces_den.
  Qed.

  (** Collecting the intervals a Selection yields gives an equal one, exactly if
      the Selection can be built by unions. *)
  Theorem C71_round_trip_iff_partial dbg p s li s' : inputs false p -> run dbg p = Ok s ->
    sel_intervals_are dbg s li -> sel_from_intervals dbg li = Ok s' ->
    (tree_eqb s s' = true <-> exists q, inputs false q /\ unions_only q /\ run dbg q = Ok s).
  Proof.
    intros H E D C. rewrite tree_eqb_eq. destruct (intervals_reach dbg p s li H E D) as (W & -> & R).
    destruct (run_edged dbg p s H E) as [_ Ed]. split.
    - intros <-. exists (P_intervals (map nrm (pieces None s))). split; [exact R|]. split; [exact I|exact C].
    - intros (q & Hq & Uq & Eq). destruct (run_around dbg q Hq Uq) as (s0 & E0 & _ & A). rewrite Eq in E0. injection E0 as <-.
      rewrite (around_collect dbg s W Ed A) in C. congruence.
  Qed.
  (** Two Selections built by unions are equal exactly if they yield the same
      intervals. *)
  Theorem C47_unions_iff_partial dbg p q s s' l l' : inputs false p -> unions_only p -> run dbg p = Ok s ->
    inputs false q -> unions_only q -> run dbg q = Ok s' -> sel_intervals_are dbg s l -> sel_intervals_are dbg s' l' ->
    (tree_eqb s s' = true <-> l = l').
  Proof.
    intros Hp Up Ep Hq Uq Eq Dl Dl'. rewrite tree_eqb_eq. split.
    - intros <-. eapply drains_det; eauto.
    - intros <-.
      destruct (run_around dbg p Hp Up) as (s0 & E0 & W & A). rewrite Ep in E0. injection E0 as <-.
      destruct (run_around dbg q Hq Uq) as (s0 & E0 & W' & A'). rewrite Eq in E0. injection E0 as <-.
      destruct (run_edged dbg p s Hp Ep) as [_ Ed], (run_edged dbg q s' Hq Eq) as [_ Ed'].
      apply sel_intervals_pieces in Dl; auto. apply sel_intervals_pieces in Dl'; auto.
      pose proof (around_collect dbg s W Ed A) as C. pose proof (around_collect dbg s' W' Ed' A') as C'. rewrite <- Dl in C. rewrite <- Dl' in C'. congruence.
  Qed.
  (** Complements of Selections built by unions are equal exactly if they have
      the same values. *)
  Theorem C47_complements_partial dbg p q s s' o o' : inputs true p -> unions_only p -> run dbg p = Ok s ->
    inputs true q -> unions_only q -> run dbg q = Ok s' -> sel_complement dbg s = Ok o -> sel_complement dbg s' = Ok o' ->
    (tree_eqb o o' = true <-> forall x, sel_contains dbg o x = sel_contains dbg o' x).
  Proof.
    intros Hp Up Ep Hq Uq Eq Eo Eo'. destruct (run_open dbg p s Hp Up Ep) as [W Op], (run_open dbg q s' Hq Uq Eq) as [W' Op'].
    destruct (complement_ok dbg s W) as (r & Er & Wr & Dr). unfold sel_complement in Eo, Eo'. rewrite Er in Eo. injection Eo as ->.
    destruct (complement_ok dbg s' W') as (r & Er' & Wr' & Dr'). rewrite Er' in Eo'. injection Eo' as ->.
    rewrite tree_eqb_eq. split; [now intros ->|]. intros K.
    assert (s = s') as <-; [|congruence]. apply open_canonical; auto. intros x. specialize (K x). unfold sel_contains in K.
    rewrite !tree_contains_den in K by auto. injection K as K. rewrite Dr, Dr' in K. destruct (den false s (At x)), (den false s' (At x)); auto; discriminate.
  Qed.
  (** A Selection built by unions equals the complement of another only if both
      are empty or both are full. *)
  Theorem C47_mixed_partial dbg p q s s' o : inputs true p -> unions_only p -> run dbg p = Ok s ->
    inputs true q -> unions_only q -> run dbg q = Ok s' -> sel_complement dbg s' = Ok o ->
    (tree_eqb s o = true <-> ((forall x, sel_contains dbg s x = Ok false) /\ (forall x, sel_contains dbg o x = Ok false)) \/
                             ((forall x, sel_contains dbg s x = Ok true) /\ (forall x, sel_contains dbg o x = Ok true))).
  Proof.
    intros Hp Up Ep Hq Uq Eq Eo. destruct (run_open dbg p s Hp Up Ep) as [W Op], (run_open dbg q s' Hq Uq Eq) as [W' Op'].
    destruct (complement_ok dbg s' W') as (r & Er' & Wr & Dr). unfold sel_complement in Eo. rewrite Er' in Eo. injection Eo as ->.
    rewrite tree_eqb_eq. unfold sel_contains. setoid_rewrite tree_contains_den; auto. split.
    - intros <-. destruct Op as (A & B & _), Op' as (A' & B' & _).
      assert (St : forall x y, succ x = Some y -> den false s (At x) = den false s (At y)).
      { intros x y S. specialize (A x). specialize (A' x). rewrite S in A, A'. specialize (Dr (Hi x)) as D1. specialize (Dr (At x)) as D2. specialize (Dr (At y)) as D3.
        rewrite A, A', D2, D3 in D1. rewrite D2, D3. destruct (den false s' (At x)), (den false s' (At y)); auto; discriminate. }
      assert (All : forall x, den false s (At x) = den false s (At MINIMUM)).
      { destruct (@finite_embed T _ _) as (fr & N & Fe).
        assert (K : forall n, forall x, fr x = Z.of_nat n -> den false s (At x) = den false s (At MINIMUM)).
        { induction n as [|n IH]; intros x Hx.
          - assert (x = MINIMUM) as -> by (apply (fe_eq _ _ Fe); rewrite (fe_min _ _ Fe); exact Hx). reflexivity.
          - pose proof (fe_bounds _ _ Fe x). destruct (fe_surj _ _ Fe (Z.of_nat n)) as (y & Hy); [lia|].
            rewrite <- (IH y Hy). symmetry. apply St. apply (fe_succ _ _ Fe). lia. }
        intros x. pose proof (fe_bounds _ _ Fe x). apply (K (Z.to_nat (fr x))). lia. }
      destruct (den false s (At MINIMUM)) eqn:Em; [right|left]; split; intros x; now rewrite All.
    - intros K. assert (Eqx : forall x, den false s (At x) = den false o (At x)) by (destruct K as [[K1 K2]|[K1 K2]]; intros x; specialize (K1 x); specialize (K2 x); congruence).
      apply den_ext; auto. destruct Op as (A & B & C & D), Op' as (A' & B' & C' & D').
      assert (Const : exists b, (forall x, den false s (At x) = b) /\ (forall x, den false s' (At x) = negb b)).
      { destruct K as [[K1 K2]|[K1 K2]]; [exists false|exists true]; (split; intros x; specialize (K1 x); specialize (K2 x)); try congruence;
          rewrite Dr in K2; injection K2 as K2; destruct (den false s' (At x)); auto; discriminate. }
      destruct Const as (b & C1 & C2). intros [|x|x|x|]; rewrite Dr, ?A, ?B, ?C, ?D, ?A', ?B', ?C', ?D', ?C1, ?C2.
      + now destruct b.
      + destruct (pred x); rewrite ?C1, ?C2; now destruct b.
      + now destruct b.
      + destruct (succ x); rewrite ?C1, ?C2; now destruct b.
      + now destruct b.
  Qed.

  (** ** C53, C55: the complement of a Selection built by unions *)
  (** Its infimum is its least value, its supremum its greatest, unless this is
      the type's own; its closure is what lies between them. *)
  Theorem C53_complement_partial dbg p s o m n : inputs true p -> unions_only p -> run dbg p = Ok s -> sel_complement dbg s = Ok o ->
    least (member dbg o) m -> greatest (member dbg o) n ->
    (m <> MINIMUM -> sel_infimum o = Some m) /\ (m = MINIMUM -> sel_infimum o = None) /\
    (n <> MAXIMUM -> sel_supremum o = Some n) /\ (n = MAXIMUM -> sel_supremum o = None).
  Proof.
    intros H U E Eo Lm Gn. destruct (run_open dbg p s H U E) as [W (A & B & C & D)].
    destruct (complement_ok dbg s W) as (r & Er & Wr & Dr). unfold sel_complement in Eo. rewrite Er in Eo. injection Eo as ->.
    apply least_member in Lm; auto. apply greatest_member in Gn; auto.
    destruct (run_edged dbg (P_complement p) o (inputs_weak p H)) as [_ (_ & Ed1 & _ & Ed2)]; [simpl; now rewrite E|].
    assert (Inf : if eqb m MINIMUM then sel_infimum o = None else sel_infimum o = Some m).
    { destruct o as [|t o']; [destruct Lm as [Lm _]; discriminate Lm|]. unfold sel_infimum, tree_lower_bound. cbn [btree_first option_map].
      pose proof (first_covered o' t Wr) as Fc. pose proof (fun w => first_den o' t w Wr) as Fd. destruct Lm as [L1 L2]. unfold inS in *.
      destruct (tine_into_inner t) as [a|a|]; cbn [lpos bound_as_ref] in *.
      - assert (a = m) as ->. { apply L2 in Fc. apply Fd in L1. assert (le a m) by (clear - L1; porder). clear - Fc H0. order. }
        destruct (eqb m MINIMUM) eqn:Em; [|reflexivity]. exfalso. assert (m = MINIMUM) as -> by (clear - Em F; forder).
        rewrite Ed1 in L1. apply Fd in L1. clear - L1. po.
      - exfalso. assert (Na : den false (t :: o') (At a) = true); [|apply Fd in Na; clear - Na; po].
        rewrite Dr in *. rewrite A in Fc. destruct (den false s (At a)); [discriminate Fc|reflexivity].
      - assert (m = MINIMUM) as ->; [|assert (eqb MINIMUM MINIMUM = true) as -> by (clear - F; forder); reflexivity].
        rewrite <- Ed1 in Fc. apply L2 in Fc. clear - Fc. forder. }
    assert (Sup : if eqb n MAXIMUM then sel_supremum o = None else sel_supremum o = Some n).
    { destruct (snoc_cases o) as [->|(o' & t & ->)]; [destruct Gn as [Gn _]; discriminate Gn|]. unfold sel_supremum, tree_upper_bound. rewrite last_app_one. cbn [option_map].
      pose proof (last_covered o' t Wr) as Fc. pose proof (fun w => last_den o' t w Wr) as Fd. destruct Gn as [L1 L2]. unfold inS in *.
      destruct (tine_into_inner t) as [a|a|]; cbn [upos bound_as_ref] in *.
      - assert (a = n) as ->. { apply L2 in Fc. apply Fd in L1. assert (le n a) by (clear - L1; porder). clear - Fc H0. order. }
        destruct (eqb n MAXIMUM) eqn:Em; [|reflexivity]. exfalso. assert (n = MAXIMUM) as -> by (clear - Em F; forder).
        rewrite Ed2 in L1. apply Fd in L1. clear - L1. po.
      - exfalso. assert (Na : den false (o' ++ [t]) (At a) = true); [|apply Fd in Na; clear - Na; po].
        rewrite Dr in *. rewrite B in Fc. destruct (den false s (At a)); [discriminate Fc|reflexivity].
      - assert (n = MAXIMUM) as ->; [|assert (eqb MAXIMUM MAXIMUM = true) as -> by (clear - F; forder); reflexivity].
        rewrite <- Ed2 in Fc. apply L2 in Fc. clear - Fc. forder. }
    destruct (eqb m MINIMUM) eqn:E1, (eqb n MAXIMUM) eqn:E2;
      (split; [intros K; try exact Inf; exfalso; clear - E1 K F; forder|]); (split; [intros K; try exact Inf; exfalso; clear - E1 K F; forder|]);
      (split; [intros K; try exact Sup; exfalso; clear - E2 K F; forder|]); intros K; try exact Sup; exfalso; clear - E2 K F; forder.
  Qed.
  Theorem C55_complement_partial dbg p s o m n : inputs true p -> unions_only p -> run dbg p = Ok s -> sel_complement dbg s = Ok o ->
    least (member dbg o) m -> greatest (member dbg o) n ->
    exists c, sel_closure dbg o = Ok c /\ forall x, ipoints c x <-> le m x /\ le x n.
  Proof.
    intros H U E Eo Lm Gn. destruct (C53_complement_partial dbg p s o m n H U E Eo Lm Gn) as (I1 & I2 & S1 & S2).
    assert (Hc : inputs false (P_complement p)) by exact (inputs_weak p H). assert (Ec : run dbg (P_complement p) = Ok o) by (simpl; now rewrite E).
    destruct (C50_points_all_partial dbg _ o Hc Ec) as (li & D & Mem & _).
    pose proof (C95_outer dbg _ o li Hc Ec D) as K. destruct li as [|j li].
    { exfalso. destruct Lm as [Lm _]. apply Mem in Lm as (i & [] & _). }
    destruct K as (a & b & e & c & _ & _ & _ & _ & _ & _ & _ & _ & _ & Ecl & L & Up). exists c. split; auto.
    intros x. apply bounds_contains; [rewrite L|rewrite Up]; do 2 f_equal.
    - destruct (cmp m MINIMUM) eqn:C; [rewrite I2 by (clear - C F; forder); clear - C F; forder| |]; now rewrite I1 by (clear - C F; forder).
    - destruct (cmp n MAXIMUM) eqn:C; [rewrite S2 by (clear - C F; forder); clear - C F; forder| |]; now rewrite S1 by (clear - C F; forder).
  Qed.
End Selections.
Print Assumptions C54_enclose_iff_partial.
Print Assumptions C71_round_trip_iff_partial.
Print Assumptions C47_unions_iff_partial.
Print Assumptions C47_complements_partial.
Print Assumptions C47_mixed_partial.
Print Assumptions C53_complement_partial.
Print Assumptions C55_complement_partial.

(** The Selection of (3,4) and (8,9): two intervals without values, so the
    hull has values. *)
Definition ex_hollow2 : prog i8 := P_intervals [interval_open (v 3) (v 4); interval_open (v 8) (v 9)].
Example C54_iff_ex : inputs false ex_hollow2 /\ unions_only ex_hollow2 /\ exists s, run true ex_hollow2 = Ok s /\
  sel_intervals_are true s [mkInterval (Closed (v 4) (v 3)); mkInterval (Closed (v 9) (v 8))] /\
  exists e, sel_enclose true s = Ok e /\ ipoints e (v 5) /\ sel_contains true s (v 5) = Ok false /\
  sel_from_intervals true [mkInterval (Closed (v 4) (v 3)); mkInterval (Closed (v 9) (v 8))] = Ok s.
Proof.
  split; [repeat (apply Forall_cons || apply Forall_nil); constructor; discriminate|]. split; [exact I|]. eexists. split; [reflexivity|].
  split; [drain|]. eexists. split; [reflexivity|]. split; [reflexivity|]. split; reflexivity.
Qed.
(** The same intervals in the other order and one of them twice: equal. *)
Example C47_iff_ex : let q : prog i8 := P_intervals [interval_open (v 8) (v 9); interval_open (v 3) (v 4); interval_open (v 8) (v 9)] in
  inputs false ex_hollow2 /\ unions_only ex_hollow2 /\ inputs false q /\ unions_only q /\ exists s s', run true ex_hollow2 = Ok s /\ run true q = Ok s' /\
  sel_intervals_are true s' [mkInterval (Closed (v 4) (v 3)); mkInterval (Closed (v 9) (v 8))] /\ tree_eqb s s' = true.
Proof.
  cbv zeta. split; [repeat (apply Forall_cons || apply Forall_nil); constructor; discriminate|]. split; [exact I|].
  split; [repeat (apply Forall_cons || apply Forall_nil); constructor; discriminate|]. split; [exact I|]. eexists. eexists.
  split; [reflexivity|]. split; [reflexivity|]. split; [drain|reflexivity].
Qed.
(** The complement of [0,4] has two intervals with values; it cannot be built by
    unions, as collecting its intervals gives another Selection. *)
Example C71_iff_ex : inputs false (P_complement (P_from (cl 0 4))) /\ exists s s', run true (P_complement (P_from (cl 0 4))) = Ok s /\
  sel_intervals_are true s [cl (-128) (-1); cl 5 127] /\ sel_from_intervals true [cl (-128) (-1); cl 5 127] = Ok s' /\
  tree_eqb s s' = false /\ ~ exists q, inputs false q /\ unions_only q /\ run true q = Ok s.
Proof.
  assert (H : inputs false (P_complement (P_from (cl 0 4)))) by constructor. split; [exact H|].
  destruct (run true (P_complement (P_from (cl 0 4)))) as [s|] eqn:E; [|discriminate E]. exists s.
  destruct (sel_from_intervals true [cl (-128) (-1); cl 5 127]) as [s'|] eqn:E'; [|discriminate E']. exists s'.
  assert (D : sel_intervals_are true s [cl (-128) (-1); cl 5 127]) by (vm_compute in E; injection E as <-; drain).
  assert (N : tree_eqb s s' = false) by (vm_compute in E, E'; injection E as <-; injection E' as <-; reflexivity).
  repeat (split; [first [reflexivity|assumption]|]). intros K.
  apply (C71_round_trip_iff_partial true _ s _ s' H E D E') in K. congruence.
Qed.
(** The complement of [-128,4]: least value and infimum 5, greatest value 127 and
    no supremum, closure [5,127]; unequal to [5,127]. *)
Example C53_complement_ex : inputs true (P_from (cl (-128) 4)) /\ unions_only (P_from (cl (-128) 4)) /\
  exists s o s', run true (P_from (cl (-128) 4)) = Ok s /\ sel_complement true s = Ok o /\
  least (member true o) (v 5) /\ greatest (member true o) (v 127) /\ sel_infimum o = Some (v 5) /\ sel_supremum o = None /\
  sel_closure true o = Ok (cl 5 127) /\ run true (P_from (cl 5 127)) = Ok s' /\ tree_eqb s' o = false /\
  sel_contains true s' (v 5) = Ok true /\ sel_contains true s' (v 4) = Ok false.
Proof.
  split; [constructor|]. split; [exact I|]. eexists. eexists. eexists. split; [reflexivity|]. split; [reflexivity|].
  assert (H : inputs false (P_complement (P_from (cl (-128) 4)))) by constructor.
  destruct (C52_bounds_iff_partial true _ _ (cl 5 127) (cl 5 127) [] H eq_refl) as (m & n & [= <-] & [= <-] & L & G); [drain|reflexivity|].
  split; [apply L; exists (v 6); reflexivity|]. split; [apply G; exists (v 6); reflexivity|]. repeat (split; [reflexivity|]). reflexivity.
Qed.

(** * [intersect_in_place] on complements of Selections built by unions:
    where it is right, where it panics, what it does otherwise (C72, C101) *)
From Coq Require Import List Bool ZArith Lia Sorted Permutation.
From Verif Require Import Base OrdFacts Pos PFinite Ints MBound MRaw MNormalize MTine MBTree MTineTree MInterval MSelection
  Spec Spec_Tree Spec_Sel Spec_More Spec_Domain Spec_Panic PRaw PRaw2 PNorm PIter PInterval PBTree PTree PTreeOps PTreeIsect PTree2 PTree3 PTree4 PTree5 PTree6 PTree7
  PSel PSel2 PSel3 PSel4 Instances Properties_Raw Properties_Parse Properties_Interval Properties_Tree Properties_Selection Properties_Tree2
  Properties_Selection2 Properties_Selection4 Properties_Both PDomain PDomain2 Properties_Domain PPanic Properties_Panic
  PBoth Properties_Complement Properties_Complement2.
Import ListNotations.
Local Arguments cmp : simpl never.

(** ** Specification *)
Section Spec.
  Context {T : Type} {C : Cmp T} {F : FiniteOps T}.
  Implicit Types (P : T -> Prop) (i : Interval T).

  (** [m] and the value before (after) it, if there is one, are in [P]. *)
  Definition runs_up_to P m : Prop := P m /\ forall x, pred m = Some x -> P x.
  Definition runs_on_from P m : Prop := P m /\ forall x, succ m = Some x -> P x.
  (** The value before (after) [m] is in [P]. *)
  Definition before P m : Prop := exists x, pred m = Some x /\ P x.
  Definition after P m : Prop := exists x, succ m = Some x /\ P x.
  (** The value before [m], and the one before that if there is one. *)
  Definition before_twice P m : Prop := exists x, pred m = Some x /\ runs_up_to P x.
  Definition after_twice P m : Prop := exists x, succ m = Some x /\ runs_on_from P x.

  (** Where [intersect_in_place] with the interval [i] is right on a complement
      of the values [P]: it runs across both ends of [i]; or across one end, and
      ends before the other; or has a single value next to [i], and does not
      run across or up to the ends. *)
  Definition complement_domain P i : Prop :=
    (forall x, ~ P x) \/ (forall x, ~ ipoints i x) \/ (forall x, ipoints i x) \/
    exists l u, least (ipoints i) l /\ greatest (ipoints i) u /\
      ((runs_up_to P l /\ runs_on_from P u) \/
       (before_twice P l /\ runs_up_to P l /\ ~ runs_on_from P u /\ ~ after_twice P u) \/
       (~ before_twice P l /\ ~ runs_up_to P l /\ runs_on_from P u /\ after_twice P u) \/
       (~ before_twice P l /\ ~ runs_up_to P l /\ ~ runs_on_from P u /\ ~ after_twice P u /\ (before P l \/ after P u))).
  (** Where it panics. *)
  Definition complement_panics P i : Prop :=
    exists l u, least (ipoints i) l /\ greatest (ipoints i) u /\ (exists x, ~ ipoints i x) /\
      ((runs_up_to P l /\ ~ runs_on_from P u /\ (~ before_twice P l \/ after_twice P u)) \/
       (~ runs_up_to P l /\ runs_on_from P u /\ (before_twice P l \/ ~ after_twice P u)) \/
       (~ runs_up_to P l /\ ~ runs_on_from P u /\ (before_twice P l \/ after_twice P u))).
  (** No value next to [i], and none at an end of the type in [i]. *)
  Definition apart_from_ends P i : Prop :=
    exists l u, least (ipoints i) l /\ greatest (ipoints i) u /\ (exists x, ~ ipoints i x) /\
      ~ before P l /\ ~ runs_up_to P l /\ ~ after P u /\ ~ runs_on_from P u.
End Spec.

Section Complement.
  Context {T : Type} {O : Ord T} {F : Finite T}.
  Implicit Types (s o c : Selection T) (p q : prog T).

  Definition closed_exact (c : pos T -> bool) : Prop :=
    (forall x, c (Hi x) = true <-> runs_on_from (fun y => c (At y) = true) x) /\
    (forall x, c (Lo x) = true <-> runs_up_to (fun y => c (At y) = true) x) /\
    (c NInf = c (At MINIMUM)) /\ (c PInf = c (At MAXIMUM)).

  Lemma complement_exact dbg p s c : inputs true p -> unions_only p -> run dbg p = Ok s -> sel_complement dbg s = Ok c ->
    wf c /\ closed_exact (den false c) /\ gapless (den false c).
  Proof.
    intros H U E Ec. destruct (run_open dbg p s H U E) as [W (A & B & C & D)].
    destruct (run_gapless dbg (P_complement p) c H U) as [_ G]; [simpl; now rewrite E|].
    destruct (complement_ok dbg s W) as (r & Er & Wr & Dr). unfold sel_complement in Ec. rewrite Er in Ec. injection Ec as ->.
    split; auto. split; auto. split; [|split; [|split; rewrite !Dr; congruence]]; intros x; unfold runs_on_from, runs_up_to; rewrite !Dr, ?A, ?B, negb_orb, andb_true_iff.
    - split; (intros [K1 K2]; split; [exact K1|]); [intros y Ey; now rewrite Ey, <- Dr in K2|].
      destruct (succ x) as [y|]; auto. specialize (K2 y eq_refl). now rewrite Dr in K2.
    - split; (intros [K1 K2]; split; [exact K1|]); [intros y Ey; now rewrite Ey, <- Dr in K2|].
      destruct (pred x) as [y|]; auto. specialize (K2 y eq_refl). now rewrite Dr in K2.
  Qed.

  Lemma low_ends s l : closed_exact (den false s) -> forall b0 v (c0 : bool), near_lower s (lo_of l) = (b0, v, c0) ->
    (c0 = true <-> runs_up_to (inS s) l) /\ (b0 = true <-> before_twice (inS s) l) /\ (before (inS s) l <-> v && negb (incl_b (lo_of l)) = true) /\
    (incl_b (lo_of l) = true -> v = c0 /\ b0 = false).
  Proof.
    intros (A & B & C & D) b0 v c0. unfold lo_of, before, before_twice. destruct (pred l) as [a|] eqn:Ea; intros [= <- <- <-]; simpl incl_b.
    - assert (Es : succ a = Some l) by (clear - Ea; forder). rewrite A, B. unfold runs_on_from, runs_up_to, inS. rewrite Ea, Es.
      split; [split; intros [K1 K2]; (split; [now apply K2|intros y [= <-]; auto])|].
      split; [split; [intros K; exists a; auto|intros (y & [= <-] & K); auto]|].
      split; [rewrite andb_true_r; split; [intros (y & [= <-] & K); auto|eauto]|discriminate].
    - apply pred_none in Ea as ->. rewrite C. unfold runs_up_to, inS.
      split; [split; [intros K; split; [auto|]|tauto]; intros x Ex; apply pred_some in Ex as [Ex _]; pose proof (min_le x) as Mx; revert Ex Mx; generalize (@MINIMUM T _); clear; order|].
      split; [split; [discriminate|intros (y & ? & _); discriminate]|]. rewrite andb_false_r. split; [split; [intros (y & ? & _); discriminate|discriminate]|auto].
  Qed.
  Lemma high_ends s u : closed_exact (den false s) -> forall (c1 : bool) v b1, near_upper s (up_of u) = (c1, v, b1) ->
    (c1 = true <-> runs_on_from (inS s) u) /\ (b1 = true <-> after_twice (inS s) u) /\ (after (inS s) u <-> v && negb (incl_b (up_of u)) = true) /\
    (incl_b (up_of u) = true -> v = c1 /\ b1 = false).
  Proof.
    intros (A & B & C & D) b0 v c0. unfold up_of, after, after_twice. destruct (succ u) as [a|] eqn:Ea; intros [= <- <- <-]; simpl incl_b.
    - assert (Es : pred a = Some u) by (clear - Ea; forder). rewrite A, B. unfold runs_on_from, runs_up_to, inS. rewrite Ea, Es.
      split; [split; intros [K1 K2]; (split; [now apply K2|intros y [= <-]; auto])|].
      split; [split; [intros K; exists a; auto|intros (y & [= <-] & K); auto]|].
      split; [rewrite andb_true_r; split; [intros (y & [= <-] & K); auto|eauto]|discriminate].
    - apply succ_none in Ea as ->. rewrite D. unfold runs_on_from, inS.
      split; [split; [intros K; split; [auto|]|tauto]; intros x Ex; apply succ_some in Ex as [Ex _]; pose proof (max_ge x) as Mx; revert Ex Mx; generalize (@MAXIMUM T _); clear; order|].
      split; [split; [discriminate|intros (y & ? & _); discriminate]|]. rewrite andb_false_r. split; [split; [intros (y & ? & _); discriminate|discriminate]|auto].
  Qed.

  (** Which of the cases applies, by the positions near the two ends. *)
  Lemma end_cases dbg s l u : closed_exact (den false s) ->
    (isect_fine dbg s (lo_of l) (up_of u) = true <->
      ((runs_up_to (inS s) l /\ runs_on_from (inS s) u) \/
       (before_twice (inS s) l /\ runs_up_to (inS s) l /\ ~ runs_on_from (inS s) u /\ ~ after_twice (inS s) u) \/
       (~ before_twice (inS s) l /\ ~ runs_up_to (inS s) l /\ runs_on_from (inS s) u /\ after_twice (inS s) u) \/
       (~ before_twice (inS s) l /\ ~ runs_up_to (inS s) l /\ ~ runs_on_from (inS s) u /\ ~ after_twice (inS s) u /\ (before (inS s) l \/ after (inS s) u)))) /\
    (isect_panic dbg s (lo_of l) (up_of u) = true <->
      ((runs_up_to (inS s) l /\ ~ runs_on_from (inS s) u /\ (~ before_twice (inS s) l \/ after_twice (inS s) u)) \/
       (~ runs_up_to (inS s) l /\ runs_on_from (inS s) u /\ (before_twice (inS s) l \/ ~ after_twice (inS s) u)) \/
       (~ runs_up_to (inS s) l /\ ~ runs_on_from (inS s) u /\ (before_twice (inS s) l \/ after_twice (inS s) u)))).
  Proof.
    intros Cl. unfold isect_fine, isect_panic.
    destruct (near_lower s _) as [[b0 vl] c0] eqn:E1. destruct (near_upper s _) as [[c1 vu] b1] eqn:E2.
    destruct (low_ends s l Cl _ _ _ E1) as (<- & <- & -> & V). destruct (high_ends s u Cl _ _ _ E2) as (<- & <- & -> & U). clear E1 E2 Cl.
    unfold isect_right, isect_bad. destruct (incl_b (lo_of l)), (incl_b (up_of u));
      repeat match goal with H : true = true -> _ |- _ => destruct (H eq_refl) as [-> ->]; clear H | H : false = true -> _ |- _ => clear H end;
      repeat match goal with b : bool |- _ => destruct b end; simpl; clear; split; intuition discriminate.
  Qed.

  Lemma ends_ext (P Q : T -> Prop) : (forall x, P x <-> Q x) -> forall m,
    (runs_up_to P m <-> runs_up_to Q m) /\ (runs_on_from P m <-> runs_on_from Q m) /\ (before P m <-> before Q m) /\ (after P m <-> after Q m) /\
    (before_twice P m <-> before_twice Q m) /\ (after_twice P m <-> after_twice Q m).
  Proof.
    intros PQ.
    assert (A : forall m, runs_up_to P m <-> runs_up_to Q m).
    { intros m. unfold runs_up_to. rewrite PQ. split; (intros [K1 K2]; split; [exact K1|]; intros x Ex; apply PQ; auto). }
    assert (B : forall m, runs_on_from P m <-> runs_on_from Q m).
    { intros m. unfold runs_on_from. rewrite PQ. split; (intros [K1 K2]; split; [exact K1|]; intros x Ex; apply PQ; auto). }
    intros m. split; [apply A|]. split; [apply B|].
    split; [|split; [|split]]; (split; intros (x & Ex & K); exists x; (split; [exact Ex|]); first [now apply PQ|now apply A|now apply B]).
  Qed.
  Lemma complement_ext (P Q : T -> Prop) i : (forall x, P x <-> Q x) ->
    (complement_domain P i <-> complement_domain Q i) /\ (complement_panics P i <-> complement_panics Q i) /\ (apart_from_ends P i <-> apart_from_ends Q i).
  Proof.
    intros PQ. pose proof (ends_ext P Q PQ) as X.
    assert (N : (forall x, ~ P x) <-> (forall x, ~ Q x)) by (split; intros K x; [rewrite <- PQ|rewrite PQ]; apply K).
    unfold complement_domain, complement_panics, apart_from_ends. rewrite N. clear N.
    split; [|split].
    - split; (intros [K|[K|[K|(l & u & K1 & K2 & K)]]]; auto; right; right; right; exists l, u; (split; [exact K1|]); (split; [exact K2|]);
        destruct (X l) as (A1 & _ & A2 & _ & A3 & _), (X u) as (_ & B1 & _ & B2 & _ & B3)).
      + rewrite A1, A2, A3, B1, B2, B3 in K. exact K.
      + rewrite A1, A2, A3, B1, B2, B3. exact K.
    - split; (intros (l & u & K1 & K2 & K3 & K); exists l, u; (split; [exact K1|]); (split; [exact K2|]); (split; [exact K3|]);
        destruct (X l) as (A1 & _ & A2 & _ & A3 & _), (X u) as (_ & B1 & _ & B2 & _ & B3)).
      + rewrite A1, A3, B1, B3 in K. exact K.
      + rewrite A1, A3, B1, B3. exact K.
    - split; (intros (l & u & K1 & K2 & K3 & K); exists l, u; (split; [exact K1|]); (split; [exact K2|]); (split; [exact K3|]);
        destruct (X l) as (A1 & _ & A2 & _ & A3 & _), (X u) as (_ & B1 & _ & B2 & _ & B3)).
      + rewrite A1, A2, B1, B2 in K. exact K.
      + rewrite A1, A2, B1, B2. exact K.
  Qed.

  Lemma gapless_member s : wf s -> gapless (den false s) -> s <> [] -> exists x, inS s x.
  Proof.
    intros W G Ne. destruct (pieces None s) as [|r l] eqn:E; [now destruct Ne; apply (pieces_nil_chain s); [apply W|]|].
    assert (Hr : In r (pieces None s)) by (rewrite E; now left). destruct (piece_point s r W G Hr) as (x & Hx).
    exists x. unfold inS. apply (piece_den s r); auto. now rewrite covers_At.
  Qed.

  (** C72 for complements of Selections built by unions: exactly where the
      result is the common values, as a well-formed tree. *)
  Theorem C72_complement_domain dbg p s c i : inputs true p -> unions_only p -> run dbg p = Ok s -> sel_complement dbg s = Ok c -> reach true i ->
    ((exists r, sel_intersect_in_place dbg c i = Ok r /\ tree_wf r /\ sel_is dbg r (fun x => member dbg c x /\ ipoints i x)) <->
     complement_domain (member dbg c) i).
  Proof.
    intros H U E Ec R. destruct (complement_exact dbg p s c H U E Ec) as (W & Cl & G). clear H U E Ec p s.
    destruct (complement_ext (member dbg c) (inS c) i) as (-> & _ & _); [intros x; now apply member_in|].
    assert (Cv : forall x, covers (denormalized (interval_raw i)) (At x) = true <-> ipoints i x).
    { intros x. rewrite covers_At, denormalized_tight_contains by (apply solid_tight; now apply reach_solid). reflexivity. }
    assert (Rt : (exists r, sel_intersect_in_place dbg c i = Ok r /\ tree_wf r /\ sel_is dbg r (fun x => member dbg c x /\ ipoints i x)) <->
      (exists r, tree_intersect_in_place dbg c (denormalized (interval_raw i)) = Ok r /\ wf r /\
         forall x, den false r (At x) = den false c (At x) && covers (denormalized (interval_raw i)) (At x))).
    { unfold sel_intersect_in_place. split; intros (r & E' & W' & D); exists r; (split; [exact E'|]); (split; [now apply wf_tree_wf|]).
      - intros x. apply wf_tree_wf in W'. destruct (D x) as (b & Eb & K). unfold sel_contains in Eb. rewrite tree_contains_den in Eb by auto.
        injection Eb as Eb. apply eq_true_iff_eq. rewrite Eb, K, member_in, andb_true_iff, Cv by auto. reflexivity.
      - intros x. exists (den false r (At x)). unfold sel_contains. rewrite tree_contains_den by auto. split; auto.
        rewrite D, member_in, andb_true_iff, Cv by auto. reflexivity. }
    rewrite Rt. clear Rt.
    assert (Dec : c = [] \/ c <> []) by (destruct c; [now left|now right]). destruct Dec as [->|Ne].
    { split; [left; discriminate|]. intros _. rewrite isect_in_place_empty. exists []. split; [reflexivity|]. split; [apply new_wf|]. reflexivity. }
    destruct (call_cases i R) as [(Ei & K)|[(Ei & K)|(l & u & Hl & Hu & Hx & Pi & Wi & EL & EU)]].
    - split; [right; left; auto|]. intros _. rewrite Ei.
      destruct (isect_in_place_easy dbg c Empty W) as (r & Er & Wr & Dr); [simpl; tauto|]. exists r. auto.
    - split; [right; right; left; auto|]. intros _. rewrite Ei.
      destruct (isect_in_place_easy dbg c Full W) as (r & Er & Wr & Dr); [simpl; tauto|]. exists r. auto.
    - assert (Q : complement_domain (inS c) i <-> isect_fine dbg c (lo_of l) (up_of u) = true).
      { destruct (end_cases dbg c l u Cl) as [-> _]. split.
        - intros [D|[D|[D|(l' & u' & Hl' & Hu' & D)]]].
          + destruct (gapless_member c W G Ne) as (x & X). now apply D in X.
          + destruct Hl as [X _]. now apply D in X.
          + destruct Hx as (x & X). now destruct X.
          + rewrite (least_same _ l l' Hl Hl'), (greatest_same _ u u' Hu Hu'). exact D.
        - intros D. right; right; right. exists l, u. auto. }
      rewrite Q. split.
      + apply (isect_points_fine dbg c _ (lo_of l) (up_of u) l); auto.
        * unfold lo_of. destruct (pred l); discriminate.
        * unfold up_of. destruct (succ u); discriminate.
        * rewrite <- covers_At. apply Cv, Hl.
      + intros Fine.
        assert (K : exists r, tree_intersect_in_place dbg c (denormalized (interval_raw i)) = Ok r /\ wf r /\
          forall q : pos T, den false r q = den false c q && covers (denormalized (interval_raw i)) q) by (eapply isect_in_place_iff; eauto).
        destruct K as (r & Er & Wr & Dr). exists r. auto.
  Qed.

  (** C101 for complements: exactly where the call panics, in both builds. *)
  Theorem C101_complement dbg p s c i : inputs true p -> unions_only p -> run dbg p = Ok s -> sel_complement dbg s = Ok c -> reach true i ->
    (sel_intersect_in_place dbg c i = Panic <-> complement_panics (member dbg c) i).
  Proof.
    intros H U E Ec R. destruct (complement_exact dbg p s c H U E Ec) as (W & Cl & G). clear H U E Ec p s.
    destruct (complement_ext (member dbg c) (inS c) i) as (_ & -> & _); [intros x; now apply member_in|].
    unfold sel_intersect_in_place.
    destruct (call_cases i R) as [(Ei & K)|[(Ei & K)|(l & u & Hl & Hu & Hx & Pi & Wi & EL & EU)]].
    - rewrite Ei. split; [intros X; apply isect_panic_easy in X; auto; contradiction|]. intros (l & u & [X _] & _). now apply K in X.
    - rewrite Ei. split; [intros X; apply isect_panic_easy in X; auto; contradiction|]. intros (l & u & _ & _ & (x & X) & _). now destruct X.
    - assert (Q : complement_panics (inS c) i <-> isect_panic dbg c (lo_of l) (up_of u) = true).
      { destruct (end_cases dbg c l u Cl) as [_ ->]. split.
        - intros (l' & u' & Hl' & Hu' & _ & X). rewrite (least_same _ l l' Hl Hl'), (greatest_same _ u u' Hu Hu'). exact X.
        - intros X. exists l, u. auto. }
      rewrite Q. destruct c as [|t c0].
      + rewrite isect_in_place_empty. split; [discriminate|]. unfold lo_of, up_of. destruct dbg, (pred l), (succ u); discriminate.
      + apply isect_panic_iff; auto. discriminate.
  Qed.

  (** And the rest: with no value next to the interval the call does not
      intersect.  Without a common value it returns the interval itself; with one
      it returns a Selection on which any [contains] of a debug build panics. *)
  Theorem C101_complement_apart dbg p s c i : inputs true p -> unions_only p -> run dbg p = Ok s -> sel_complement dbg s = Ok c -> reach true i ->
    (exists x, member dbg c x) -> apart_from_ends (member dbg c) i ->
    ((forall x, member dbg c x -> ~ ipoints i x) -> sel_intersect_in_place dbg c i = Ok (sel_from i)) /\
    (forall x, member dbg c x -> ipoints i x ->
       exists r, sel_intersect_in_place dbg c i = Ok r /\ forall y, sel_contains true r y = Panic).
  Proof.
    intros H U E Ec R (x0 & Hx0). destruct (complement_exact dbg p s c H U E Ec) as (W & Cl & G). clear H U E Ec p s.
    assert (M : forall x, member dbg c x <-> inS c x) by (intros; now apply member_in).
    destruct (complement_ext (member dbg c) (inS c) i M) as (_ & _ & ->). intros (l' & u' & Hl' & Hu' & Hx' & K1 & K2 & K3 & K4).
    unfold sel_intersect_in_place, sel_from.
    destruct (call_cases i R) as [(Ei & K)|[(Ei & K)|(l & u & Hl & Hu & Hx & Pi & Wi & EL & EU)]].
    - destruct Hl' as [X _]. now apply K in X.
    - destruct Hx' as (x & X). now destruct X.
    - assert (l' = l) as -> by (eapply least_same; eauto). assert (u' = u) as -> by (eapply greatest_same; eauto).
      assert (Ne : c <> []) by (intros ->; apply M in Hx0; discriminate).
      assert (NL : near_lower c (lo_of l) = (false, false, false)).
      { destruct (near_lower c (lo_of l)) as [[b0 vl] c0] eqn:E1. destruct (low_ends c l Cl _ _ _ E1) as (A1 & A2 & A3 & V).
        destruct c0; [now destruct K2; apply A1|]. destruct b0.
        { destruct K1. destruct (proj1 A2 eq_refl) as (x & Ex & K & _). exists x. auto. }
        destruct vl; [|reflexivity]. destruct (incl_b (lo_of l)); [destruct (V eq_refl); discriminate|]. now destruct K1; apply A3. }
      assert (NU : near_upper c (up_of u) = (false, false, false)).
      { destruct (near_upper c (up_of u)) as [[c1 vu] b1] eqn:E1. destruct (high_ends c u Cl _ _ _ E1) as (A1 & A2 & A3 & V).
        destruct c1; [now destruct K4; apply A1|]. destruct b1.
        { destruct K3. destruct (proj1 A2 eq_refl) as (x & Ex & K & _). exists x. auto. }
        destruct vu; [|reflexivity]. destruct (incl_b (up_of u)); [destruct (V eq_refl); discriminate|]. now destruct K3; apply A3. }
      destruct (isect_clear dbg c _ (lo_of l) (up_of u) W Ne Wi Pi EL EU NL NU) as (C & Er & WC & DC). rewrite Er.
      assert (Cv : forall x, covers (denormalized (interval_raw i)) (At x) = true <-> ipoints i x).
      { intros x. rewrite covers_At, denormalized_tight_contains by (apply solid_tight; now apply reach_solid). reflexivity. }
      assert (Iv : forall x, ipoints i x <-> le l x /\ le x u) by (intros x; eapply between_extremes; eauto).
      assert (GC : gapless (den false C)).
      { destruct Cl as (A & B & C1 & C2). pose proof (denorm_open _ (reach_solid i R)) as (B1 & B2 & B3 & B4).
        split; [|split; [|split]].
        - intros x. rewrite !DC. intros X. apply andb_true_iff in X as [X Y]. rewrite B1 in Y. apply A in X as [X1 X2]. rewrite X1.
          destruct (covers (denormalized (interval_raw i)) (At x)); [left; reflexivity|]. destruct (succ x) as [y|]; [|discriminate].
          right. exists y. split; auto. rewrite DC, (X2 y eq_refl). exact Y.
        - intros x. rewrite !DC. intros X. apply andb_true_iff in X as [X Y]. rewrite B2 in Y. apply B in X as [X1 X2]. rewrite X1.
          destruct (covers (denormalized (interval_raw i)) (At x)); [left; reflexivity|]. destruct (pred x) as [y|]; [|discriminate].
          right. exists y. split; auto. rewrite DC, (X2 y eq_refl). exact Y.
        - now rewrite !DC, C1, B3.
        - now rewrite !DC, C2, B4. }
      split.
      + intros N.
        assert (C = []) as ->.
        { destruct C as [|t C']; auto. exfalso. destruct (gapless_member _ WC GC) as (x & X); [discriminate|].
          unfold inS in X. rewrite DC in X. apply andb_true_iff in X as [X Y]. apply (N x); [now apply M|now apply Cv]. }
        destruct (from_raw_wf _ Wi) as (_ & -> & _).
        destruct (tines_cases _ Wi) as [(E1 & _)|[(x & E1 & _)|(l' & u' & EL' & EU' & _ & -> & _)]]; [rewrite E1 in Pi; destruct Pi|rewrite E1 in Pi; destruct Pi|].
        rewrite EL in EL'. rewrite EU in EU'. injection EL' as <-. injection EU' as <-. reflexivity.
      + intros x Hx1 Hx2. eexists. split; [reflexivity|]. intros y.
        destruct C as [|t C].
        { exfalso. apply M in Hx1. unfold inS in Hx1. apply Cv in Hx2. specialize (DC (At x)). rewrite Hx1, Hx2 in DC. discriminate. }
        assert (Lt : is_upper_bound t = false).
        { destruct WC as [_ WC]. simpl in WC. apply andb_true_iff in WC as [WC _]. apply andb_true_iff in WC as [_ WC]. now destruct (is_upper_bound t). }
        unfold sel_contains, tree_contains. cbn [contains_fuel tree_interval_iter iter_size tine_iter saved_lower saved_upper length].
        unfold iter_next. cbn [tree_interval_iter tine_iter saved_lower saved_upper btree_first btree_rest_front app debug_assert is_lower_bound bind].
        cbn. rewrite Lt. reflexivity.
  Qed.

  (** One of the three always applies. *)
  Theorem C101_complement_cases dbg p s c i : inputs true p -> unions_only p -> run dbg p = Ok s -> sel_complement dbg s = Ok c -> reach true i ->
    complement_domain (member dbg c) i \/ complement_panics (member dbg c) i \/
    ((exists x, member dbg c x) /\ apart_from_ends (member dbg c) i).
  Proof.
    intros H U E Ec R. destruct (complement_exact dbg p s c H U E Ec) as (W & Cl & G). clear H U E Ec p s.
    assert (M : forall x, member dbg c x <-> inS c x) by (intros; now apply member_in).
    destruct (complement_ext (member dbg c) (inS c) i M) as (-> & -> & ->).
    destruct (call_cases i R) as [(Ei & K)|[(Ei & K)|(l & u & Hl & Hu & Hx & Pi & Wi & EL & EU)]].
    - left. right; left. exact K.
    - left. right; right; left. exact K.
    - destruct (near_lower c (lo_of l)) as [[b0 vl] c0] eqn:E1. destruct (low_ends c l Cl _ _ _ E1) as (A1 & A2 & A3 & V1).
      destruct (near_upper c (up_of u)) as [[c1 vu] b1] eqn:E2. destruct (high_ends c u Cl _ _ _ E2) as (B1 & B2 & B3 & V2).
      assert (Dec : c = [] \/ c <> []) by (destruct c; [now left|now right]). destruct Dec as [->|Ne]; [left; left; discriminate|].
      destruct (gapless_member c W G Ne) as (x0 & X0). apply M in X0.
      assert (D : complement_domain (inS c) i \/ complement_panics (inS c) i \/ apart_from_ends (inS c) i).
      { destruct (vl && negb (incl_b (lo_of l))), (vu && negb (incl_b (up_of u))), b0, c0, c1, b1;
          first [left; right; right; right; exists l, u; (split; [exact Hl|]); (split; [exact Hu|]); rewrite <- A1, <- A2, A3, <- B1, <- B2, B3; clear; intuition discriminate
                |right; left; exists l, u; (split; [exact Hl|]); (split; [exact Hu|]); (split; [exact Hx|]); rewrite <- A1, <- A2, <- B1, <- B2; clear; intuition discriminate
                |right; right; exists l, u; (split; [exact Hl|]); (split; [exact Hu|]); (split; [exact Hx|]); rewrite <- A1, A3, <- B1, B3; clear; intuition discriminate]. }
      destruct D as [D|[D|D]]; eauto 6.
  Qed.
End Complement.
Print Assumptions C72_complement_domain.
Print Assumptions C101_complement.
Print Assumptions C101_complement_apart.
Print Assumptions C101_complement_cases.

(** All i8 values but 3 with 3 .. 9: a panic.  {1, 7} as a complement with 2 .. 6:
    nothing is left, rightly.  {4} as a complement: with 10 .. 20 the result is
    10 .. 20, with 1 .. 9 it cannot be used. *)
Example C72_complement_ex : let p := P_points [v 3] : prog i8 in let q := P_union (P_from (cl (-128) 0)) (P_union (P_from (cl 2 6)) (P_from (cl 8 127))) : prog i8 in
  let o := P_union (P_from (cl (-128) 3)) (P_from (cl 5 127)) : prog i8 in
  inputs true p /\ unions_only p /\ inputs true q /\ unions_only q /\ inputs true o /\ unions_only o /\
  (exists s c, run true p = Ok s /\ sel_complement true s = Ok c /\ sel_intersect_in_place true c (cl 3 9) = Panic /\ complement_panics (member true c) (cl 3 9)) /\
  (exists s c r, run true q = Ok s /\ sel_complement true s = Ok c /\ sel_intersect_in_place true c (cl 2 6) = Ok r /\ sel_is_empty r = true /\
     complement_domain (member true c) (cl 2 6)) /\
  (exists s c r, run true o = Ok s /\ sel_complement true s = Ok c /\ member true c (v 4) /\ sel_intersect_in_place true c (cl 10 20) = Ok (sel_from (cl 10 20)) /\
     apart_from_ends (member true c) (cl 10 20) /\
     sel_intersect_in_place true c (cl 1 9) = Ok r /\ sel_contains true r (v 4) = Panic).
Proof.
  assert (B1 : least (ipoints (cl 3 9)) (v 3) /\ greatest (ipoints (cl 3 9)) (v 9)) by (apply bounds_extremes; try reflexivity; discriminate).
  assert (B2 : least (ipoints (cl 2 6)) (v 2) /\ greatest (ipoints (cl 2 6)) (v 6)) by (apply bounds_extremes; try reflexivity; discriminate).
  assert (B3 : least (ipoints (cl 10 20)) (v 10) /\ greatest (ipoints (cl 10 20)) (v 20)) by (apply bounds_extremes; try reflexivity; discriminate).
  cbv zeta. split; [exact I|]. split; [exact I|]. split; [repeat split; constructor|]. split; [repeat split|]. split; [repeat split; constructor|]. split; [repeat split|].
  split; [|split].
  - eexists _, _. do 3 (split; [reflexivity|]). exists (v 3), (v 9). split; [apply B1|]. split; [apply B1|]. split; [exists (v 0); discriminate|].
    right; left. split; [intros [X _]; discriminate X|]. split; [split; [reflexivity|intros x [= <-]; reflexivity]|].
    left. exists (v 2). split; [reflexivity|]. split; [reflexivity|intros x [= <-]; reflexivity].
  - eexists _, _, _. do 4 (split; [reflexivity|]). right; right; right. exists (v 2), (v 6). split; [apply B2|]. split; [apply B2|].
    right; right; right. split; [intros (x & [= <-] & _ & X); discriminate (X (v 0) eq_refl)|]. split; [intros [X _]; discriminate X|].
    split; [intros [X _]; discriminate X|]. split; [intros (x & [= <-] & _ & X); discriminate (X (v 8) eq_refl)|].
    left. exists (v 1). split; reflexivity.
  - eexists _, _, _. do 4 (split; [reflexivity|]). split; [|split; reflexivity]. exists (v 10), (v 20). split; [apply B3|]. split; [apply B3|].
    split; [exists (v 0); discriminate|]. split; [intros (x & [= <-] & X); discriminate X|]. split; [intros [X _]; discriminate X|].
    split; [intros (x & [= <-] & X); discriminate X|intros [X _]; discriminate X].
Qed.

(** * What [intersect] keeps, in closed form: lemmas for C73 and C74 *)
From Coq Require Import List Bool ZArith Lia Sorted.
From Verif Require Import Base OrdFacts Pos PFinite MBound MRaw MNormalize MTine MBTree MTineTree Ints MInterval MSelection
  Spec Spec_Tree Spec_Sel Spec_More Spec_Domain PRaw PRaw2 PNorm PIter PInterval PBTree PTree PTreeOps PTreeIsect PTree2 PTree3 PTree4 PTree5 PTree6 PTree7
  PSel PSel2 PDebug Properties_Interval Properties_Tree Properties_Selection Properties_Tree2.
Import ListNotations.
#[local] Arguments cmp : simpl never.

Section Visits.
  Context {I : Type} (meet : I -> I -> Prop).

  Lemma visited_in A B x y : visited meet A B x y -> In x A /\ In y B /\ meet x y.
  Proof. induction 1 as [| |]; simpl; intuition. Qed.
  Lemma visited_inv i A j B x y : visited meet (i :: A) (j :: B) x y ->
    (meet i j /\ ((x = i /\ y = j) \/ visited meet (i :: A) B x y)) \/ (~ meet i j /\ visited meet A B x y).
  Proof. inversion 1; subst; auto. Qed.
End Visits.

Section TreeWalk.
  Context {T : Type} {O : Ord T}.
  Implicit Types (A B : list (RawInterval T)) (i j k : RawInterval T).
  Let meets i j : Prop := raw_intersects i j = true.

  Lemma meets_dec i j : {meets i j} + {~ meets i j}.
  Proof. unfold meets. destruct (raw_intersects i j); [left|right]; congruence. Qed.

  Lemma walked_visited : forall B A k, In k (walked A B) <-> exists i j, visited meets A B i j /\ k = raw_intersect i j.
  Proof.
    induction B as [|j B IH]; intros [|i A] k; simpl; try solve [split; [tauto|intros (? & ? & K & _); inversion K]].
    unfold meets in *. destruct (raw_is_empty (raw_intersect i j)) eqn:E.
    - assert (N : raw_intersects i j <> true) by (unfold raw_intersects; rewrite E; discriminate).
      rewrite IH. split; intros (x & y & V & ->); exists x, y; (split; [|reflexivity]).
      + now apply visited_both.
      + apply visited_inv in V as [[M _]|[_ V]]; [contradiction|auto].
    - assert (N : raw_intersects i j = true) by (unfold raw_intersects; now rewrite E).
      simpl. rewrite IH. split.
      + intros [<-|(x & y & V & ->)]; [exists i, j|exists x, y]; (split; [|reflexivity]); [now apply visited_here|now apply visited_right].
      + intros (x & y & V & ->). apply visited_inv in V as [[_ [[-> ->]|V]]|[M _]]; [auto|right; eauto|contradiction].
  Qed.

  Lemma forallb_none A j : forallb (fun i' => negb (raw_intersects i' j)) A = true <-> forall i', In i' A -> ~ meets i' j.
  Proof. rewrite forallb_forall. unfold meets. split; intros H i' K; specialize (H i' K); destruct (raw_intersects i' j); simpl in *; congruence. Qed.

  Lemma in_step_right i A j B : meets i j -> in_step (i :: A) (j :: B) -> in_step (i :: A) B.
  Proof.
    intros M H A1 x A2 B1 y B2 EA EB X. destruct (H A1 x A2 (j :: B1) y B2 EA ltac:(simpl; now rewrite EB) X) as [U C].
    split; auto. rewrite C. cbn [filter].
    destruct (forallb (fun i' => negb (raw_intersects i' j)) (i :: A)) eqn:E; auto. exfalso. apply (proj1 (forallb_none (i :: A) j) E i); simpl; auto.
  Qed.

  Lemma walk_complete : forall B A, NoDup A -> NoDup B ->
    ((forall i j, In i A -> In j B -> meets i j -> visited meets A B i j) <-> in_step A B).
  Proof.
    induction B as [|j B IH]; intros A NA NB.
    { split; [intros _ A1 i A2 [|] y B2 _ EB; discriminate|intros _ i j _ []]. }
    destruct A as [|i A].
    { split; [intros _ [|] x A2 B1 y B2 EA; discriminate|intros _ x y []]. }
    pose proof (NoDup_cons_iff j B) as [NB' _]. specialize (NB' NB) as [Nj NB'].
    pose proof (NoDup_cons_iff i A) as [NA' _]. specialize (NA' NA) as [Ni NA'].
    destruct (meets_dec i j) as [M|M].
    - assert (Step : in_step (i :: A) (j :: B) <-> in_step (i :: A) B /\ forall i', In i' (i :: A) -> meets i' j -> i' = i).
      { split.
        - intros H. split; [now apply in_step_right in H|].
          exact (proj1 (H [] i A [] j B eq_refl eq_refl M)).
        - intros [H U] A1 x A2 [|j' B1] y B2 EA EB X.
          + injection EB as <- <-. assert (Hx : x = i).
            { apply U; auto. rewrite EA. apply in_elt. }
            subst x. split; auto. destruct A1 as [|a A1]; auto. injection EA as -> EA. exfalso. apply Ni. rewrite EA. apply in_elt.
          + injection EB as <- EB. destruct (H A1 x A2 B1 y B2 EA EB X) as [U' C]. split; auto. rewrite C. cbn [filter].
            destruct (forallb (fun i' => negb (raw_intersects i' j)) (i :: A)) eqn:E; auto. exfalso. apply (proj1 (forallb_none (i :: A) j) E i); simpl; auto. }
      rewrite Step, <- (IH (i :: A)) by auto. split.
      + intros H. split.
        * intros x y Hx Hy X. specialize (H x y Hx (or_intror Hy) X). apply visited_inv in H as [[_ [[-> ->]|V]]|[K _]]; auto; contradiction.
        * intros x Hx X. specialize (H x j Hx (or_introl eq_refl) X). apply visited_inv in H as [[_ [[-> _]|V]]|[K _]]; auto; [|contradiction].
          apply visited_in in V. tauto.
      + intros [H U] x y Hx [<-|Hy] X.
        * rewrite (U x Hx X). now apply visited_here.
        * apply visited_right; auto.
    - assert (Step : in_step (i :: A) (j :: B) <-> in_step A B /\ (forall i', In i' A -> ~ meets i' j) /\ (forall j', In j' B -> ~ meets i j')).
      { assert (Same : (forall j', In j' B -> ~ meets i j') -> forall B1, incl B1 B ->
            filter (fun j' => forallb (fun i' => negb (raw_intersects i' j')) (i :: A)) B1 = filter (fun j' => forallb (fun i' => negb (raw_intersects i' j')) A) B1).
        { intros N B1 Hi. apply filter_ext_in. intros b Hb. simpl. specialize (N b (Hi b Hb)). unfold meets in N. now destruct (raw_intersects i b). }
        split.
        - intros H.
          assert (N1 : forall i', In i' A -> ~ meets i' j).
          { intros x Hx X. destruct (in_split _ _ Hx) as (A1 & A2 & EA). destruct (H (i :: A1) x A2 [] j B ltac:(simpl; now rewrite EA) eq_refl X) as [_ C]. discriminate. }
          assert (N2 : forall j', In j' B -> ~ meets i j').
          { intros y Hy Y. destruct (in_split _ _ Hy) as (B1 & B2 & EB). destruct (H [] i A (j :: B1) y B2 eq_refl ltac:(simpl; now rewrite EB) Y) as [_ C].
            cbn [filter] in C. rewrite (proj2 (forallb_none (i :: A) j)) in C; [discriminate|]. intros x [<-|Hx]; auto. }
          split; auto. intros A1 x A2 B1 y B2 EA EB X.
          destruct (H (i :: A1) x A2 (j :: B1) y B2 ltac:(simpl; now rewrite EA) ltac:(simpl; now rewrite EB) X) as [U C].
          split; [intros x' Hx'; apply U; simpl; auto|]. cbn [filter length] in C.
          rewrite (proj2 (forallb_none (i :: A) j)) in C by (intros x' [<-|Hx']; auto). cbn [length] in C. injection C as C. rewrite C, Same; auto.
          rewrite EB. intros b Hb. apply in_or_app; auto.
        - intros (H & N1 & N2) A1 x A2 [|j' B1] y B2 EA EB X.
          + injection EB as <- <-. exfalso. assert (Hx : In x (i :: A)) by (rewrite EA; apply in_elt). destruct Hx as [<-|Hx]; [auto|exact (N1 x Hx X)].
          + injection EB as <- EB. assert (Hy : In y B) by (rewrite EB; apply in_elt).
            destruct A1 as [|a A1]; [injection EA as <- <-; exfalso; exact (N2 y Hy X)|]. injection EA as <- EA.
            destruct (H A1 x A2 B1 y B2 EA EB X) as [U C]. split.
            * intros x' [<-|Hx'] X'; [exfalso; exact (N2 y Hy X')|auto].
            * cbn [filter length]. rewrite (proj2 (forallb_none (i :: A) j)) by (intros x' [<-|Hx']; auto). cbn [length]. f_equal.
              rewrite C, Same; auto. rewrite EB. intros b Hb. apply in_or_app; auto. }
      rewrite Step, <- (IH A) by auto. split.
      + intros H.
        assert (Inv : forall x y, In x (i :: A) -> In y (j :: B) -> meets x y -> visited meets A B x y).
        { intros x y Hx Hy X. specialize (H x y Hx Hy X). apply visited_inv in H as [[K _]|[_ V]]; [contradiction|auto]. }
        split; [intros; apply Inv; simpl; auto|]. split.
        * intros x Hx X. destruct (visited_in _ _ _ _ _ (Inv x j (or_intror Hx) (or_introl eq_refl) X)) as (_ & K & _). auto.
        * intros y Hy X. destruct (visited_in _ _ _ _ _ (Inv i y (or_introl eq_refl) (or_intror Hy) X)) as (K & _). auto.
      + intros (H & N1 & N2) x y Hx Hy X.
        destruct Hx as [<-|Hx], Hy as [<-|Hy]; [contradiction|now destruct (N2 y Hy)|now destruct (N1 x Hx)|].
        apply visited_both; auto.
  Qed.

  Lemma meets_covers i j : meets i j <-> exists p, covers i p = true /\ covers j p = true.
  Proof.
    unfold meets, raw_intersects. rewrite negb_true_iff. split.
    - intros E. destruct (raw_bounds_cases (raw_intersect i j)) as [(Z & _)|(l & u & L & U)]; [rewrite Z in E; discriminate|].
      exists (lpos l). apply andb_true_iff. rewrite <- raw_intersect_covers. pose proof (raw_intersect_wf i j) as Wk. apply (covers_bounds _ _ l u); auto.
      pose proof (raw_wf_pos _ l u Wk L U). po.
    - intros (p & H1 & H2). assert (K : covers (raw_intersect i j) p = true) by (now rewrite raw_intersect_covers, H1, H2).
      destruct (raw_intersect i j); auto; destruct p; discriminate.
  Qed.

  Lemma pieces_nodup s : wf s -> NoDup (pieces None s).
  Proof.
    intros [S H]. assert (SS := pieces_separated s None H ltac:(discriminate) S).
    pose proof (pieces_wf s None) as Wf. rewrite Forall_forall in Wf.
    assert (Ne : forall i, In i (pieces None s) -> raw_is_empty i = false) by (intros i Hi; apply (pieces_nonempty s None i H); auto; discriminate).
    induction SS as [|k l SS IH Fk]; constructor.
    - intros Hk. rewrite Forall_forall in Fk. pose proof (sep_miss k k (Wf k (or_introl eq_refl)) (Wf k (or_introl eq_refl)) (Fk k Hk)) as E.
      assert (Ek : raw_intersect k k = k).
      { apply raw_ext; auto using raw_intersect_wf; [apply Wf; now left|]. intros p. rewrite raw_intersect_covers. apply andb_diag. }
      rewrite Ek, Ne in E by now left. discriminate.
    - apply IH; intros; [apply Wf|apply Ne]; now right.
  Qed.
End TreeWalk.

Section SelWalk.
  Context {T : Type} {O : Ord T} {F : Finite T}.
  Implicit Types (i j : Interval T).

  Lemma touching_meets i j : solid (interval_raw i) -> solid (interval_raw j) -> (raw_intersects (dn i) (dn j) = true <-> touching i j).
  Proof.
    intros Si Sj. rewrite meets_covers.
    assert (Pt : forall k x, solid (interval_raw k) -> covers (dn k) (At x) = true <-> ipoints k x).
    { intros k x Sk. unfold dn. rewrite covers_At, denormalized_tight_contains by now apply solid_tight. reflexivity. }
    destruct (denorm_open _ Si) as (Hi1 & Lo1 & N1 & P1), (denorm_open _ Sj) as (Hi2 & Lo2 & N2 & P2). fold (dn i) in *. fold (dn j) in *. split.
    - intros (p & C1 & C2). unfold touching. destruct p as [|x|x|x|].
      + rewrite N1 in C1. rewrite N2 in C2. (apply Pt in C1; [|assumption]; apply Pt in C2; [|assumption]; do 2 eexists; split; [eassumption|split; [eassumption|auto]]).
      + rewrite Lo1 in C1. rewrite Lo2 in C2. destruct (pred x) as [y|] eqn:E.
        * apply pred_succ_iff in E. apply orb_true_iff in C1 as [C1|C1], C2 as [C2|C2]; (apply Pt in C1; [|assumption]; apply Pt in C2; [|assumption]; do 2 eexists; split; [eassumption|split; [eassumption|auto]]).
        * rewrite orb_false_r in C1, C2. (apply Pt in C1; [|assumption]; apply Pt in C2; [|assumption]; do 2 eexists; split; [eassumption|split; [eassumption|auto]]).
      + (apply Pt in C1; [|assumption]; apply Pt in C2; [|assumption]; do 2 eexists; split; [eassumption|split; [eassumption|auto]]).
      + rewrite Hi1 in C1. rewrite Hi2 in C2. destruct (succ x) as [y|] eqn:E.
        * apply orb_true_iff in C1 as [C1|C1], C2 as [C2|C2]; (apply Pt in C1; [|assumption]; apply Pt in C2; [|assumption]; do 2 eexists; split; [eassumption|split; [eassumption|auto]]).
        * rewrite orb_false_r in C1, C2. (apply Pt in C1; [|assumption]; apply Pt in C2; [|assumption]; do 2 eexists; split; [eassumption|split; [eassumption|auto]]).
      + rewrite P1 in C1. rewrite P2 in C2. (apply Pt in C1; [|assumption]; apply Pt in C2; [|assumption]; do 2 eexists; split; [eassumption|split; [eassumption|auto]]).
    - intros (x & y & C1 & C2 & [->|[E|E]]); (apply Pt in C1; [|assumption]; apply Pt in C2; [|assumption]).
      + eauto.
      + exists (Hi x). rewrite Hi1, Hi2, E, C1, C2. split; auto. apply orb_true_r.
      + exists (Hi y). rewrite Hi1, Hi2, E, C1, C2. split; auto. apply orb_true_r.
  Qed.

  Lemma visited_dn : forall (B A : list (Interval T)), Forall (fun i => solid (interval_raw i)) A -> Forall (fun i => solid (interval_raw i)) B ->
    forall r r', visited (fun a b => raw_intersects a b = true) (map dn A) (map dn B) r r' <->
      exists i j, visited touching A B i j /\ r = dn i /\ r' = dn j.
  Proof.
    induction B as [|j B IH]; intros [|i A] SA SB r r'; simpl; try solve [split; [intros K; inversion K|intros (? & ? & K & _); inversion K]].
    pose proof (Forall_inv SA) as Si. pose proof (Forall_inv SB) as Sj. apply Forall_inv_tail in SB.
    pose proof (touching_meets i j Si Sj) as Q. split.
    - intros V. apply visited_inv in V as [[M [[-> ->]|V]]|[M V]].
      + exists i, j. split; [apply visited_here; now apply Q|auto].
      + change (dn i :: map dn A) with (map dn (i :: A)) in V. apply IH in V as (x & y & V & E); auto. exists x, y. split; [|exact E]. apply visited_right; [now apply Q|exact V].
      + apply IH in V as (x & y & V & E); auto; [|now apply Forall_inv_tail in SA]. exists x, y. split; [|exact E]. apply visited_both; [now rewrite <- Q|exact V].
    - intros (x & y & V & -> & ->). apply visited_inv in V as [[M [[-> ->]|V]]|[M V]].
      + apply visited_here. now apply Q.
      + apply visited_right; [now apply Q|]. change (dn i :: map dn A) with (map dn (i :: A)). apply IH; eauto.
      + apply visited_both; [now rewrite Q|]. apply IH; eauto. now apply Forall_inv_tail in SA.
  Qed.

  (** The first pair kept stands at the same place in both lists. *)
  Lemma visited_diagonal (meet : Interval T -> Interval T -> Prop) : forall A B,
    (forall i j, In i A -> In j B -> meet i j \/ ~ meet i j) ->
    (exists i j, visited meet A B i j) <-> exists k i j, nth_error A k = Some i /\ nth_error B k = Some j /\ meet i j.
  Proof.
    intros A. induction A as [|i A IH]; intros [|j B] D.
    - split; [intros (? & ? & V); inversion V|intros ([|k] & ? & ? & E & _); discriminate].
    - split; [intros (? & ? & V); inversion V|intros ([|k] & ? & ? & E & _); discriminate].
    - split; [intros (? & ? & V); inversion V|intros ([|k] & ? & ? & _ & E & _); discriminate].
    - destruct (D i j) as [M|M]; simpl; auto.
      + split; [intros _; exists 0, i, j; auto|intros _; exists i, j; now apply visited_here].
      + assert (D' : forall i j, In i A -> In j B -> meet i j \/ ~ meet i j) by (intros; apply D; simpl; auto). split.
        * intros (x & y & V). apply visited_inv in V as [[K _]|[_ V]]; [contradiction|].
          destruct (proj1 (IH B D') ltac:(eauto)) as (k & a & b & K). exists (S k), a, b. exact K.
        * intros ([|k] & a & b & E1 & E2 & K); [simpl in *; congruence|].
          destruct (proj2 (IH B D')) as (x & y & V); [exists k, a, b; auto|]. exists x, y. now apply visited_both.
  Qed.
End SelWalk.

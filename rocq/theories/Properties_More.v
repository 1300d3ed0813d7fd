(** * Properties of bounds, accessors, adjacency and classification: C58-C66 *)
From Coq Require Import List Bool ZArith QArith Qcanon Lia Sorted.
From Verif Require Import Base OrdFacts Pos PFinite MBound MRaw MNormalize Ints MInterval Spec Spec_More Instances PRaw PRaw2
  PNorm PIter PInterval Properties_Raw Properties_Interval.
Import ListNotations.
Local Open Scope Z_scope.

(** ** C58: the bounds of a raw interval *)

(** [lower_bound] and [upper_bound] delimit exactly the points of the interval,
    are [None] exactly for [Empty], and [new] rebuilds the interval from them. *)
Theorem C58_bounds_delimit {T} {O : Ord T} (i : RawInterval T) : raw_wf i ->
  (i = Empty /\ raw_lower_bound i = None /\ raw_upper_bound i = None /\ forall x, raw_contains i x = false) \/
  exists l u, raw_lower_bound i = Some l /\ raw_upper_bound i = Some u /\ raw_new l u = i /\
    forall x, raw_contains i x = true <-> above l x /\ below u x.
Proof.
  intros W. destruct (raw_bounds_cases i) as [(-> & L & U)|(l & u & L & U)]; [left; auto|right].
  exists l, u. split; [auto|]. split; [auto|]. split; [now apply raw_new_bounds|].
  intros x. rewrite raw_bounds_contains, L, U. tauto.
Qed.
Print Assumptions C58_bounds_delimit.
Example C58_ex1 : raw_wf (LeftOpen 2 5) /\ raw_lower_bound (LeftOpen 2 5) = Some (Exclude 2) /\
  raw_upper_bound (LeftOpen 2 5) = Some (Include 5).
Proof. repeat split. Qed.

(** [infimum] and [supremum] bound every point; *)
Theorem C58_infimum_bounds_partial {T} {O : Ord T} (i : RawInterval T) (p x : T) :
  raw_contains i x = true ->
  (raw_infimum i = Some p -> le p x) /\ (raw_supremum i = Some p -> le x p).
Proof.
  rewrite raw_contains_points. unfold raw_infimum, raw_supremum.
  destruct i; simpl; intros H; split; intros E; try discriminate; injection E as <-; order.
Qed.
Print Assumptions C58_infimum_bounds_partial.

(** over a dense order without end points they are the greatest lower and the
    least upper bound, and exist exactly for intervals bounded on that side; *)
Theorem C58_infimum_dense_partial {T} {O : Ord T} (i : RawInterval T) :
  dense T -> unbounded T -> raw_wf i -> i <> Empty ->
  (forall p, raw_infimum i = Some p <-> is_infimum (fun x => raw_contains i x = true) p) /\
  (forall p, raw_supremum i = Some p <-> is_supremum (fun x => raw_contains i x = true) p) /\
  (raw_infimum i = None <-> ~ bounded_below (fun x => raw_contains i x = true)) /\
  (raw_supremum i = None <-> ~ bounded_above (fun x => raw_contains i x = true)).
Proof.
  intros D [U1 U2] W NE.
  assert (D' : forall a b : T, lt a b -> exists z, lt a z /\ lt z b) by exact D.
  (* below a finite lower end nothing more can be bounded; without one, nothing bounds *)
  assert (A : forall p, raw_infimum i = Some p -> is_infimum (fun x => raw_contains i x = true) p).
  { intros p E. split; [intros x Hx; now apply (C58_infimum_bounds_partial i p x Hx)|].
    intros q Hq. destruct (leb q p) eqn:K; [now apply leb_iff|]. exfalso.
    assert (L : lt p q) by order. clear K.
    unfold raw_infimum in E. 
    destruct i; simpl in E, W; try discriminate; injection E as ->.
    - assert (H := Hq p). cbn [raw_contains] in H. order.
    - destruct (D' p r W) as (z & Z1 & Z2). destruct (D' p q L) as (y & Y1 & Y2).
      destruct (leb z y) eqn:K; [assert (H := Hq z)|assert (H := Hq y)]; cbn [raw_contains] in H; order.
    - destruct (leb r q) eqn:K.
      + destruct (D' p r W) as (z & Z1 & Z2). assert (H := Hq z). cbn [raw_contains] in H. order.
      + destruct (D' p q L) as (y & Y1 & Y2). assert (H := Hq y). cbn [raw_contains] in H. order.
    - assert (H := Hq p). cbn [raw_contains] in H. order.
    - assert (H := Hq p). cbn [raw_contains] in H. order.
    - destruct (D' p q L) as (y & Y1 & Y2). assert (H := Hq y). cbn [raw_contains] in H. order.
    - assert (H := Hq p). cbn [raw_contains] in H. order. }
  assert (B : forall p, raw_supremum i = Some p -> is_supremum (fun x => raw_contains i x = true) p).
  { intros p E. split; [intros x Hx; now apply (C58_infimum_bounds_partial i p x Hx)|].
    intros q Hq. destruct (leb p q) eqn:K; [now apply leb_iff|]. exfalso.
    assert (L : lt q p) by order. clear K.
    unfold raw_supremum in E.
    destruct i; simpl in E, W; try discriminate; injection E as ->.
    - assert (H := Hq p). cbn [raw_contains] in H. order.
    - destruct (D' l p W) as (z & Z1 & Z2). destruct (D' q p L) as (y & Y1 & Y2).
      destruct (leb y z) eqn:K; [assert (H := Hq z)|assert (H := Hq y)]; cbn [raw_contains] in H; order.
    - assert (H := Hq p). cbn [raw_contains] in H. order.
    - destruct (leb q l) eqn:K.
      + destruct (D' l p W) as (z & Z1 & Z2). assert (H := Hq z). cbn [raw_contains] in H. order.
      + destruct (D' q p L) as (y & Y1 & Y2). assert (H := Hq y). cbn [raw_contains] in H. order.
    - assert (H := Hq p). cbn [raw_contains] in H. order.
    - destruct (D' q p L) as (y & Y1 & Y2). assert (H := Hq y). cbn [raw_contains] in H. order.
    - assert (H := Hq p). cbn [raw_contains] in H. order. }
  assert (A' : raw_infimum i = None -> ~ bounded_below (fun x => raw_contains i x = true)).
  { intros E (q & Hq). destruct (U2 q) as (z & Hz). unfold raw_infimum in E.
    destruct i; simpl in E; try discriminate; try tauto.
    - destruct (U2 p) as (w & Hw). destruct (leb z w) eqn:K; [assert (H := Hq z)|assert (H := Hq w)]; cbn [raw_contains] in H; order.
    - destruct (leb z p) eqn:K; [assert (H := Hq z)|assert (H := Hq p)]; cbn [raw_contains] in H; order.
    - assert (H := Hq z eq_refl). order. }
  assert (B' : raw_supremum i = None -> ~ bounded_above (fun x => raw_contains i x = true)).
  { intros E (q & Hq). destruct (U1 q) as (z & Hz). unfold raw_supremum in E.
    destruct i; simpl in E; try discriminate; try tauto.
    - destruct (U1 p) as (w & Hw). destruct (leb z w) eqn:K; [assert (H := Hq w)|assert (H := Hq z)]; cbn [raw_contains] in H; order.
    - destruct (leb z p) eqn:K; [assert (H := Hq p)|assert (H := Hq z)]; cbn [raw_contains] in H; order.
    - assert (H := Hq z eq_refl). order. }
  split; [|split; [|split]].
  - intros p. split; [apply A|]. intros [H1 H2]. destruct (raw_infimum i) as [m|] eqn:E.
    + destruct (A m eq_refl) as [M1 M2]. specialize (M2 p H1). specialize (H2 m M1). f_equal. order.
    + exfalso. apply (A' eq_refl). now exists p.
  - intros p. split; [apply B|]. intros [H1 H2]. destruct (raw_supremum i) as [m|] eqn:E.
    + destruct (B m eq_refl) as [M1 M2]. specialize (M2 p H1). specialize (H2 m M1). f_equal. order.
    + exfalso. apply (B' eq_refl). now exists p.
  - split; [apply A'|]. intros H. destruct (raw_infimum i) as [m|] eqn:E; auto. destruct H. exists m. apply (A m eq_refl).
  - split; [apply B'|]. intros H. destruct (raw_supremum i) as [m|] eqn:E; auto. destruct H. exists m. apply (B m eq_refl).
Qed.
Print Assumptions C58_infimum_dense_partial.
Example C58_ex2 : raw_wf (Open (Q2Qc 0) (Q2Qc 1)) /\ Open (Q2Qc 0) (Q2Qc 1) <> Empty /\
  raw_infimum (Open (Q2Qc 0) (Q2Qc 1)) = Some (Q2Qc 0).
Proof. repeat split. discriminate. Qed.

(** On a discrete order the infimum of an open interval is not its greatest
    lower bound. *)
Theorem C58_infimum_refuted :
  exists i : RawInterval Z, raw_wf i /\ raw_infimum i = Some 0 /\ raw_supremum i = Some 5 /\
  is_infimum (fun x => raw_contains i x = true) 1 /\ is_supremum (fun x => raw_contains i x = true) 4.
Proof.
  exists (Open 0 5). split; [reflexivity|]. split; [reflexivity|]. split; [reflexivity|].
  split; (split; [intros x H; apply raw_contains_points in H; simpl in H; rewrite !Z_lt_iff in H; rewrite Z_le_iff; lia|]).
  - intros q H. now apply (H 1).
  - intros q H. now apply (H 4).
Qed.
Print Assumptions C58_infimum_refuted.

(** ** C59: is_empty and is_full of raw intervals *)
Theorem C59_sound_partial {T} {O : Ord T} (i : RawInterval T) (x : T) :
  (raw_is_empty i = true -> raw_contains i x = false) /\ (raw_is_full i = true -> raw_contains i x = true).
Proof. destruct i; split; try discriminate; reflexivity. Qed.
Print Assumptions C59_sound_partial.

Theorem C59_dense_partial {T} {O : Ord T} (i : RawInterval T) :
  dense T -> unbounded T -> inhabited T -> raw_wf i ->
  (raw_is_empty i = true <-> forall x, raw_contains i x = false) /\
  (raw_is_full i = true <-> forall x, raw_contains i x = true).
Proof.
  intros D U I W. split.
  - split; [intros H x; now apply C59_sound_partial|]. intros H. destruct (raw_is_empty i) eqn:E; auto.
    destruct (dense_point i D U I W E) as (x & Hx). now rewrite H in Hx.
  - split; [intros H x; now apply C59_sound_partial|]. intros H. destruct I as [t], U as [U1 U2].
    destruct i; auto; exfalso; simpl in H; try (specialize (H t); discriminate).
    + destruct (U1 p) as (z & Hz). specialize (H z). order.
    + specialize (H l). order.
    + specialize (H l). order.
    + specialize (H r). order.
    + destruct (U1 r) as (z & Hz). specialize (H z). order.
    + specialize (H p). order.
    + specialize (H p). order.
    + destruct (U1 p) as (z & Hz). specialize (H z). order.
    + destruct (U2 p) as (z & Hz). specialize (H z). order.
Qed.
Print Assumptions C59_dense_partial.
Example C59_ex : raw_is_full (raw_enclose (To (Q2Qc 0)) (From (Q2Qc 1))) = true /\
  raw_is_empty (raw_intersect (UpTo (Q2Qc 0)) (From (Q2Qc 0))) = true.
Proof. split; reflexivity. Qed.

(** Types with neighbours or end points break both. *)
Theorem C59_refuted :
  (exists i : RawInterval Z, raw_wf i /\ (forall x, raw_contains i x = false) /\ raw_is_empty i = false) /\
  (exists i : RawInterval i8, raw_wf i /\ (forall x, raw_contains i x = true) /\ raw_is_full i = false).
Proof.
  split.
  - exists (Open 0 1). split; [reflexivity|]. split; [|reflexivity].
    intros x. apply not_true_iff_false. rewrite raw_contains_points. simpl. rewrite !Z_lt_iff. lia.
  - exists (From (v (-128))). split; [exact I|]. split; [|reflexivity].
    intros x. apply raw_contains_points. cbn [points]. rewrite int_le_val, v_val by lia.
    destruct x as [z Hz]. cbn. lia.
Qed.
Print Assumptions C59_refuted.

(** ** C60: closure of a raw interval *)

(** The closure includes its ends, contains the interval and nothing else but
    the ends, and closing twice changes nothing. *)
Theorem C60_closure_partial {T} {O : Ord T} (i : RawInterval T) : raw_wf i ->
  raw_wf (raw_closure i) /\ closed_ends (raw_closure i) /\ raw_closure (raw_closure i) = raw_closure i /\
  forall x, raw_contains (raw_closure i) x = true <->
            raw_contains i x = true \/ raw_infimum i = Some x \/ raw_supremum i = Some x.
Proof.
  intros W. split; [destruct i; auto|]. split; [split; intros p; destruct i; simpl; congruence|].
  split; [destruct i; auto|]. intros x. rewrite !raw_contains_points. unfold raw_infimum, raw_supremum.
  destruct i; simpl in *; split; intros H;
    repeat match goal with
    | H : _ \/ _ |- _ => destruct H
    | H : None = Some _ |- _ => discriminate H
    | H : Some _ = Some _ |- _ => injection H as ->
    end; auto; try order.
  all: try match goal with |- _ \/ Some ?a = Some ?x \/ Some ?b = Some ?x =>
      assert (K : a = x \/ b = x \/ (a <> x /\ b <> x)) by order; destruct K as [->|[->|[? ?]]]; auto; left; order end.
  all: try match goal with |- _ \/ None = _ \/ Some ?b = Some ?x =>
      assert (K : b = x \/ b <> x) by order; destruct K as [->|?]; auto; left; order end.
  all: try match goal with |- _ \/ Some ?b = Some ?x \/ None = _ =>
      assert (K : b = x \/ b <> x) by order; destruct K as [->|?]; auto; left; order end.
Qed.
Print Assumptions C60_closure_partial.

(** Over a dense order without end points it is the smallest interval with
    included ends around the points of the interval. *)
Theorem C60_closure_smallest_partial {T} {O : Ord T} (i j : RawInterval T) :
  dense T -> unbounded T -> raw_wf i -> raw_wf j -> closed_ends j ->
  (forall x, raw_contains i x = true -> raw_contains j x = true) ->
  forall x, raw_contains (raw_closure i) x = true -> raw_contains j x = true.
Proof.
  intros D U Wi Wj [Cl Cu] Sub x Hx. apply (C60_closure_partial i Wi) in Hx.
  destruct (raw_is_empty i) eqn:E; [destruct i; try discriminate; destruct Hx as [Hx|[Hx|Hx]]; discriminate|].
  assert (NE : i <> Empty) by (intros ->; discriminate).
  destruct (C58_infimum_dense_partial i D U Wi NE) as (I1 & S1 & _).
  destruct (dense_point i D U (inhabits x) Wi E) as (y & Hy).
  assert (Hy' := Sub y Hy).
  destruct (raw_bounds_cases j) as [(-> & _)|(l & u & L & Up)]; [discriminate|].
  assert (B : forall z, raw_contains j z = true <-> above l z /\ below u z) by (intros z; now rewrite raw_bounds_contains, L, Up).
  setoid_rewrite B in Sub. rewrite B in *. destruct Hx as [Hx|[Hx|Hx]]; auto.
  - assert (Hx' := Hx). apply I1 in Hx as [H1 H2]. split.
    + destruct l as [l|l|]; [| now destruct (Cl l) |exact I]. simpl. apply H2. intros z Hz. now apply Sub.
    + destruct u as [u|u|]; [| now destruct (Cu u) |exact I]. simpl in *. specialize (H1 y Hy). order.
  - assert (Hx' := Hx). apply S1 in Hx as [H1 H2]. split.
    + destruct l as [l|l|]; [| now destruct (Cl l) |exact I]. simpl in *. specialize (H1 y Hy). order.
    + destruct u as [u|u|]; [| now destruct (Cu u) |exact I]. simpl. apply H2. intros z Hz. now apply Sub.
Qed.
Print Assumptions C60_closure_smallest_partial.
Example C60_ex : raw_closure (Open (Q2Qc 0) (Q2Qc 1)) = Closed (Q2Qc 0) (Q2Qc 1) /\
  raw_wf (Closed (Q2Qc 0) (Q2Qc 2)) /\ closed_ends (Closed (Q2Qc 0) (Q2Qc 2)).
Proof. repeat split; simpl; congruence. Qed.

(** Not the smallest on a discrete order: (0,5) lies in [1,4]. *)
Theorem C60_closure_refuted :
  exists i j : RawInterval Z, raw_wf i /\ raw_wf j /\ closed_ends j /\
  (forall x, raw_contains i x = true -> raw_contains j x = true) /\
  exists x, raw_contains (raw_closure i) x = true /\ raw_contains j x = false.
Proof.
  exists (Open 0 5), (Closed 1 4). split; [reflexivity|]. split; [reflexivity|].
  split; [split; simpl; congruence|]. split.
  - intros x. rewrite !raw_contains_points. simpl. rewrite !Z_lt_iff, !Z_le_iff. lia.
  - exists 0. split; reflexivity.
Qed.
Print Assumptions C60_closure_refuted.

(** ** C61: adjacency *)

(** [is_adjacent_to] holds exactly when one interval ends where the other
    starts and at least one of them includes that value; it is symmetric. *)
Definition shares_end {T} (a b : RawInterval T) : Prop :=
  exists p, (raw_upper_bound a = Some (Include p) /\ (raw_lower_bound b = Some (Include p) \/ raw_lower_bound b = Some (Exclude p))) \/
            (raw_upper_bound a = Some (Exclude p) /\ raw_lower_bound b = Some (Include p)).
Theorem C61_adjacent {T} {O : Ord T} (a b : RawInterval T) :
  (raw_is_adjacent_to a b = true <-> shares_end a b \/ shares_end b a) /\
  raw_is_adjacent_to a b = raw_is_adjacent_to b a.
Proof.
  assert (K : forall l u : Bound T, is_union_adjacent_to l u = true <->
    exists p, (u = Include p /\ (l = Include p \/ l = Exclude p)) \/ (u = Exclude p /\ l = Include p)).
  { intros [x|x|] [y|y|]; simpl; rewrite ?eqb_iff; split; try discriminate.
    all: try (intros ->; exists y; auto 6).
    all: intros (p & [(H1 & [H2|H2])|(H1 & H2)]); congruence. }
  assert (M : forall a b : RawInterval T,
    match raw_upper_bound a, raw_lower_bound b with Some ub, Some lb => is_union_adjacent_to lb ub | _, _ => false end = true
    <-> shares_end a b).
  { clear a b. intros a b. unfold shares_end. destruct (raw_upper_bound a) as [u|], (raw_lower_bound b) as [l|].
    - rewrite K. split; intros (p & [(H1 & [H2|H2])|(H1 & H2)]); exists p; (try (injection H1 as ->)); (try (injection H2 as ->)); subst; auto 6.
    - split; [discriminate|]. intros (p & [(H1 & [H2|H2])|(H1 & H2)]); discriminate.
    - split; [discriminate|]. intros (p & [(H1 & [H2|H2])|(H1 & H2)]); discriminate.
    - split; [discriminate|]. intros (p & [(H1 & [H2|H2])|(H1 & H2)]); discriminate. }
  assert (N : forall a b : RawInterval T, raw_is_adjacent_to a b = true <-> shares_end a b \/ shares_end b a).
  { clear a b. intros a b. unfold raw_is_adjacent_to. rewrite orb_true_iff, <- !M.
    destruct (raw_upper_bound a), (raw_lower_bound b), (raw_upper_bound b), (raw_lower_bound a); tauto. }
  split; [apply N|]. apply eq_true_iff_eq. rewrite !N. tauto.
Qed.
Print Assumptions C61_adjacent.

Lemma separated_hole {T} {O : Ord T} (a b : RawInterval T) x y :
  dense T -> separated a b -> raw_contains a x = true -> raw_contains b y = true ->
  exists z, le x z /\ le z y /\ raw_contains a z = false /\ raw_contains b z = false.
Proof.
  intros D S Hx Hy. unfold separated in S.
  destruct (raw_bounds_cases a) as [(-> & _)|(la & ua & La & Ua)]; [discriminate|].
  destruct (raw_bounds_cases b) as [(-> & _)|(lb & ub & Lb & Ub)]; [discriminate|].
  rewrite raw_bounds_contains, La, Ua in Hx. rewrite raw_bounds_contains, Lb, Ub in Hy. rewrite Ua, Lb in S.
  assert (K : exists z, le x z /\ le z y /\ ~ below ua z /\ ~ above lb z).
  { destruct Hx as [_ Hx], Hy as [Hy _]. destruct ua as [p|p|], lb as [q|q|]; simpl in *; try tauto.
    - destruct (D p q S) as (z & ? & ?). exists z. clear - S Hx Hy H H0. order.
    - destruct (D p q S) as (z & ? & ?). exists z. clear - S Hx Hy H H0. order.
    - exists p. clear - S Hx Hy. order.
    - exists p. clear - S Hx Hy. order. }
  destruct K as (z & L1 & L2 & Z1 & Z2). exists z. split; [auto|]. split; [auto|].
  split; apply not_true_iff_false; rewrite raw_bounds_contains, ?La, ?Ua, ?Lb, ?Ub; tauto.
Qed.

(** Over a dense order without end points: two intervals overlap or are
    adjacent exactly when their union has no hole, and exactly then [union]
    yields a single interval. *)
Theorem C61_merge_dense {T} {O : Ord T} (a b : RawInterval T) :
  dense T -> unbounded T -> raw_wf a -> raw_wf b -> a <> Empty -> b <> Empty ->
  (raw_intersects a b = true \/ raw_is_adjacent_to a b = true <->
   convex (fun x => raw_contains a x = true \/ raw_contains b x = true)) /\
  (length (raw_union a b) = 1%nat <-> convex (fun x => raw_contains a x = true \/ raw_contains b x = true)).
Proof.
  intros D U Wa Wb Na Nb.
  assert (Ea : raw_is_empty a = false) by (destruct a; auto; now destruct Na).
  assert (Eb : raw_is_empty b = false) by (destruct b; auto; now destruct Nb).
  assert (K : meets a b = true <-> convex (fun x => raw_contains a x = true \/ raw_contains b x = true)).
  { split.
    - intros M x y z Hx Hz L1 L2.
      assert (C := meets_enclose a b).
      assert (Cy : covers (raw_enclose a b) (At y) = true).
      { rewrite covers_At. eapply (contains_convex _ x y z); eauto;
          [destruct Hx as [H|H]|destruct Hz as [H|H]]; rewrite <- covers_At in *;
          (now apply raw_enclose_covers_l) || now apply raw_enclose_covers_r. }
      specialize (C (At y)). rewrite <- !covers_At. apply orb_true_iff. rewrite <- C; auto.
    - intros C. destruct (meets a b) eqn:M; auto. exfalso.
      assert (Hi : inhabited T).
      { destruct a; try (constructor; assumption); [now destruct Na|].
        destruct b; try (constructor; assumption); [now destruct Nb|discriminate M]. }
      destruct (dense_point a D U Hi Wa Ea) as (x & Hx). destruct (dense_point b D U Hi Wb Eb) as (y & Hy).
      destruct (not_meets_separated a b Wa Wb Ea Eb M) as [S|S].
      + destruct (separated_hole a b x y D S Hx Hy) as (z & L1 & L2 & Z1 & Z2).
        destruct (C x z y); auto; congruence.
      + destruct (separated_hole b a y x D S Hy Hx) as (z & L1 & L2 & Z1 & Z2).
        destruct (C y z x); auto; congruence. }
  assert (M : meets a b = true <-> raw_intersects a b = true \/ raw_is_adjacent_to a b = true) by apply orb_true_iff.
  split; [now rewrite <- M|]. rewrite <- K.
  unfold raw_union. rewrite Ea, Eb. fold (meets a b). destruct (meets a b); simpl; split; auto; discriminate.
Qed.
Print Assumptions C61_merge_dense.
Example C61_ex : raw_is_adjacent_to (RightOpen (Q2Qc 0) (Q2Qc 1)) (Closed (Q2Qc 1) (Q2Qc 2)) = true /\
  raw_union (RightOpen (Q2Qc 0) (Q2Qc 1)) (Closed (Q2Qc 1) (Q2Qc 2)) = [Closed (Q2Qc 0) (Q2Qc 2)] /\
  raw_is_adjacent_to (RightOpen (Q2Qc 0) (Q2Qc 1)) (LeftOpen (Q2Qc 1) (Q2Qc 2)) = false /\
  length (raw_union (RightOpen (Q2Qc 0) (Q2Qc 1)) (LeftOpen (Q2Qc 1) (Q2Qc 2))) = 2%nat.
Proof. repeat split. Qed.

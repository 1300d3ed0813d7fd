(** * [minus] of trees: what an obstacle leaves stays wrong *)
From Coq Require Import List Bool ZArith Lia Sorted.
From Verif Require Import Base OrdFacts Pos MBound MRaw MTine MBTree MTineTree Spec Spec_Tree
  PRaw PRaw2 PBTree PTree PTreeOps PTree2 PTree3 PTree4 PTree5 PTree6 PTree7.
Import ListNotations.
#[local] Arguments cmp : simpl never.

Section PTreeMinus.
  Context {T : Type} {O : Ord T}.
  Implicit Types (t u : Tine T) (s L R C : list (Tine T)) (p q : pos T) (i j : RawInterval T) (b c v : bool).

  (** A tine at [q] or after it. *)
  Definition from q t : Prop := okt t = true /\ ~ lt (loc t) q.

  Lemma from_gt q L t : bl q L -> from q t -> Forall (fun x => tine_cmp t x = Gt) L.
  Proof.
    intros B [K N]. eapply Forall_impl; [|exact B]. intros x [Kx Hx]. rewrite tine_cmp_loc by auto. apply cmp_gt_lt.
    revert N Hx. generalize (loc t) (loc x). clear. intros; porder.
  Qed.
  Lemma insert_low t L R : Forall (fun x => tine_cmp t x = Gt) L -> btree_insert t (L ++ R) = L ++ btree_insert t R.
  Proof. induction 1 as [|x L E _ IH]; simpl; auto. now rewrite E, IH. Qed.
  Lemma take_low t L R : Forall (fun x => tine_cmp t x = Gt) L ->
    btree_take t (L ++ R) = (fst (btree_take t R), L ++ snd (btree_take t R)).
  Proof. induction 1 as [|x L E _ IH]; simpl; [now destruct btree_take|]. now rewrite E, IH. Qed.
  Lemma split_off_low t L R : Forall (fun x => tine_cmp t x = Gt) L ->
    btree_split_off t (L ++ R) = (L ++ fst (btree_split_off t R), snd (btree_split_off t R)).
  Proof. induction 1 as [|x L E _ IH]; simpl; [now destruct btree_split_off|]. now rewrite E, IH. Qed.
  Lemma append_nil_r L : btree_append L [] = L.
  Proof. now destruct L. Qed.
  Lemma append_low L R C : Forall (fun x => Forall (fun y => tine_cmp x y = Lt) C) L -> btree_append (L ++ R) C = L ++ btree_append R C.
  Proof.
    induction 1 as [|x L E _ IH]; simpl; auto. destruct C as [|y C].
    - now rewrite append_nil_r.
    - inversion E; subst. rewrite H1. now rewrite <- IH.
  Qed.

  Section Keep.
    Variable P : Tine T -> Prop.
    Lemma insert_keep t s : P t -> Forall P s -> Forall P (btree_insert t s).
    Proof. intros Pt. induction 1 as [|x s Px Ps IH]; simpl; auto. destruct tine_cmp; auto. Qed.
    Lemma take_keep t s : Forall P s -> Forall P (snd (btree_take t s)) /\ (forall r, fst (btree_take t s) = Some r -> P r /\ tine_cmp t r = Eq).
    Proof.
      induction 1 as [|x s Px Ps [I1 I2]]; simpl.
      - split; auto. discriminate.
      - destruct (tine_cmp t x) eqn:E; simpl.
        + split; auto. intros r H. inversion H; subst. auto.
        + split; auto. discriminate.
        + destruct (btree_take t s); simpl in *. auto.
    Qed.
    Lemma split_off_keep t s : Forall P s -> Forall P (fst (btree_split_off t s)) /\ Forall P (snd (btree_split_off t s)).
    Proof.
      induction 1 as [|x s Px Ps [I1 I2]]; simpl; auto. destruct (tine_cmp t x); simpl; auto.
      destruct (btree_split_off t s); simpl in *. auto.
    Qed.
    Lemma append_keep s : forall s', Forall P s -> Forall P s' -> Forall P (btree_append s s').
    Proof.
      induction s as [|x s IH]; intros s' H H'.
      - destruct s'; auto.
      - induction H' as [|y s' Py Ps' IH']; auto. inversion H as [|? ? Px Ps]; subst. cbn [btree_append]. destruct (tine_cmp x y).
        + constructor; auto.
        + constructor; auto.
        + constructor; auto.
    Qed.
  End Keep.

  Lemma invert_from q t t' : from q t -> tine_invert t = Ok t' -> from q t'.
  Proof. unfold from. destruct t as [[]|[]|[]]; simpl; intros [K N] E; inversion E; subst; simpl; auto; split; auto; revert N; unfold loc; simpl; clear; intros; porder. Qed.
  Lemma minus_from q dbg t u o : from q t -> tine_minus dbg t u = Ok (Some o) -> from q o.
  Proof.
    intros Ft. unfold tine_minus, debug_assert. destruct (dbg && _); [discriminate|].
    destruct t as [[a|a|]|[a|a|]|[a|a|]], u as [[c|c|]|[c|c|]|[c|c|]]; simpl; intros H; try discriminate; inversion H; subst; exact Ft.
  Qed.
  Lemma merge_from q dbg (x : option (Tine T)) t (m : option (Tine T)) : from q t -> (forall r, x = Some r -> from q r) ->
    match x with Some r => tine_minus dbg r t | None => Ok (Some t) end = Ok m -> forall o, m = Some o -> from q o.
  Proof.
    intros Ft Fx E o ->. destruct x as [r|].
    - apply (minus_from q dbg r t o); auto.
    - now inversion E; subst.
  Qed.

  (** The splits leave the tines before [q] in front. *)
  Lemma take_cons q t L R : bl q L -> Forall (from q) R -> from q t ->
    exists x R', btree_take t (L ++ R) = (x, L ++ R') /\ Forall (from q) R' /\ (forall r, x = Some r -> from q r).
  Proof.
    intros B F Ft. rewrite take_low by (eapply from_gt; eauto). destruct (take_keep (from q) t R F) as [F1 F2].
    eexists _, _. split; [reflexivity|]. split; auto. intros r E. now apply F2.
  Qed.
  Lemma append_cons q L R C : bl q L -> Forall (from q) R -> Forall (from q) C ->
    exists R', btree_append (L ++ R) C = L ++ R' /\ Forall (from q) R'.
  Proof.
    intros B F FC. rewrite append_low.
    - eexists. split; [reflexivity|]. now apply append_keep.
    - eapply Forall_impl; [|exact B]. intros x [Kx Hx]. eapply Forall_impl; [|exact FC]. intros y [Ky Hy]. rewrite tine_cmp_loc by auto.
      change (lt (loc x) (loc y)). revert Hx Hy. generalize (loc x) (loc y). clear. intros; porder.
  Qed.
  Definition keeps q L r : Prop := exists R, r = L ++ R /\ Forall (from q) R.
  Lemma insert_keeps q t L s : bl q L -> from q t -> keeps q L s -> keeps q L (btree_insert t s).
  Proof.
    intros B Ft (R & -> & F). rewrite insert_low by (eapply from_gt; eauto). eexists. split; [reflexivity|]. now apply insert_keep.
  Qed.

  Lemma minus_point_keeps dbg q t L s r : bl q L -> keeps q L s -> from q t ->
    minus_point_interval dbg t s = Ok r -> keeps q L r.
  Proof.
    intros B (R & -> & F) Ft. unfold minus_point_interval, exterior_split_for_point_interval.
    destruct (take_cons q t L R B F Ft) as (x & R1 & -> & F1 & Fx).
    rewrite split_off_low by (eapply from_gt; eauto). destruct (split_off_keep (from q) t R1 F1) as [Fa Fb].
    destruct (append_cons q L _ _ B Fa Fb) as (R2 & -> & F2).
    assert (K : keeps q L (L ++ R2)) by (exists R2; auto).
    destruct (match x with Some pt => tine_minus dbg pt t | None => Ok (Some t) end) as [m|] eqn:Em; [|discriminate]. simpl.
    pose proof (merge_from q dbg x t m Ft Fx Em) as Fm. destruct m as [o|]; [|intros E; inversion E; subst; exact K].
    specialize (Fm o eq_refl). unfold debug_assert. destruct (is_some_and _ _), (is_some_and _ _); simpl.
    - destruct (tine_invert o) as [o'|] eqn:Ei; [|discriminate]. simpl. intros E; inversion E; subst. apply insert_keeps; auto. now apply (invert_from q o).
    - destruct (dbg && _); [discriminate|]. simpl. intros E; inversion E; subst. now apply insert_keeps.
    - destruct (dbg && _); [discriminate|]. simpl. intros E; inversion E; subst. now apply insert_keeps.
    - intros E; inversion E; subst; exact K.
  Qed.

  Lemma as_upper_from q t t' : from q t -> as_upper t = Ok t' -> from q t'.
  Proof. unfold as_upper. destruct is_upper_bound; [intros F E; now inversion E; subst|apply invert_from]. Qed.
  Lemma as_lower_from q t t' : from q t -> as_lower t = Ok t' -> from q t'.
  Proof. unfold as_lower. destruct is_lower_bound; [intros F E; now inversion E; subst|apply invert_from]. Qed.

  Lemma minus_proper_keeps dbg q l u L s r : bl q L -> keeps q L s -> from q l -> from q u ->
    minus_proper_interval dbg l u s = Ok r -> keeps q L r.
  Proof.
    intros B (R & -> & F) Fl Fu. unfold minus_proper_interval, exterior_split_for_proper_interval.
    destruct (take_cons q l L R B F Fl) as (x & R1 & -> & F1 & Fx).
    destruct (take_cons q u L R1 B F1 Fu) as (y & R2 & -> & F2 & Fy).
    rewrite split_off_low by (eapply from_gt; eauto). destruct (split_off_keep (from q) l R2 F2) as [Fa Fb].
    destruct (split_off_keep (from q) u _ Fb) as [_ Fd]. destruct (btree_split_off u _) as [ce ri]. simpl in Fd.
    destruct (append_cons q L _ _ B Fa Fd) as (R3 & -> & F3).
    assert (K : keeps q L (L ++ R3)) by (exists R3; auto).
    destruct (match x with Some lower => tine_minus dbg lower l | None => Ok (Some l) end) as [ml|] eqn:El; [|discriminate].
    pose proof (merge_from q dbg x l ml Fl Fx El) as Gl.
    destruct (match y with Some upper => tine_minus dbg upper u | None => Ok (Some u) end) as [mu|] eqn:Eu; [|discriminate].
    pose proof (merge_from q dbg y u mu Fu Fy Eu) as Gu. cbn [bind].
    assert (Ins : forall s' (c : bool) t, keeps q L s' -> from q t -> keeps q L (if c then btree_insert t s' else s')).
    { intros s' [|] t Ks Ft; auto. now apply insert_keeps. }
    assert (Opt : forall s' (m : option (Tine T)), keeps q L s' -> (forall o, m = Some o -> from q o) ->
              keeps q L (match m with Some (TPoint (Include p)) => btree_insert (TPoint (Include p)) s' | _ => s' end)).
    { intros s' [[?|[?|?|]|?]|] Ks G; auto. apply insert_keeps; auto. }
    match goal with |- context [is_some_and is_lower_bound ?a] => generalize (is_some_and is_lower_bound a); intros ob end.
    match goal with |- context [is_some_and is_upper_bound ?a] => generalize (is_some_and is_upper_bound a); intros ca end.
    destruct ob, ml as [l1|], mu as [u1|], ca; try discriminate; cbn [bind];
      try (specialize (Gl _ eq_refl)); try (specialize (Gu _ eq_refl)).
    all: try (destruct (as_upper l1) as [l2|] eqn:E1; [|discriminate]; cbn [bind]; apply (as_upper_from q) in E1; auto).
    all: try (destruct (as_lower u1) as [u2|] eqn:E2; [|discriminate]; cbn [bind]; apply (as_lower_from q) in E2; auto).
    all: intros E; inversion E; subst; clear E.
    - repeat apply insert_keeps; auto.
    - apply (Opt _ (Some u1)); [now apply insert_keeps|]. intros o H; inversion H; subst; auto.
    - now apply insert_keeps.
    - apply (Opt _ (Some l1)); [now apply insert_keeps|]. intros o H; inversion H; subst; auto.
    - apply Ins; auto.
    - apply Ins; auto.
    - now apply insert_keeps.
    - apply Ins; auto.
    - exact K.
  Qed.

  (** All of [i] at [q] or after it. *)
  Definition starts_from q i : Prop :=
    match raw_lower_bound i with Some Infinite => False | Some (Include x) | Some (Exclude x) => ~ lt (At x) q | None => True end.

  Lemma minus_keeps dbg q i L s r : bl q L -> keeps q L s -> raw_wf i -> starts_from q i ->
    tree_minus_in_place dbg s i = Ok r -> keeps q L r.
  Proof.
    intros B K Wi Si. unfold tree_minus_in_place.
    destruct (tree_is_empty s || raw_is_empty i) eqn:E0; [intros E; now inversion E; subst|].
    apply orb_false_iff in E0 as [_ E0].
    destruct (raw_is_full i) eqn:E1.
    { destruct i; simpl in E1; try discriminate. destruct Si. }
    destruct (tines_cases i Wi) as [(-> & _)|[(x & -> & ->)|(l & u & EL & EU & Hlu & -> & _)]].
    - discriminate.
    - apply minus_point_keeps; auto. split; auto.
    - apply minus_proper_keeps; auto.
      + split; auto. unfold starts_from in Si. rewrite EL in Si. destruct l; tauto.
      + split; auto. unfold starts_from in Si. rewrite EL in Si. destruct l as [a|a|]; [| |destruct Si];
          [change (loc (TLower (Include a))) with (At a) in Hlu|change (loc (TLower (Exclude a))) with (At a) in Hlu];
          revert Si Hlu; generalize (loc (TUpper u)); clear; intros; porder.
  Qed.
  Lemma fold_keeps dbg q L : bl q L -> forall l s r, keeps q L s -> Forall raw_wf l -> Forall (starts_from q) l ->
    mfold (fun acc i => tree_minus_in_place dbg acc i) l s = Ok r -> keeps q L r.
  Proof.
    intros B. induction l as [|i l IH]; intros s r K W S E.
    - now inversion E; subst.
    - inversion W; inversion S; subst. simpl in E. destruct (tree_minus_in_place dbg s i) as [s1|] eqn:E1; [|discriminate]. simpl in E.
      apply (IH s1); auto. now apply (minus_keeps dbg q i L s).
  Qed.

  (** A piece of a sorted list after a piece ending at [x] starts after [x]. *)
  Lemma separated_from i j x : raw_wf i -> raw_wf j -> separated i j -> ends_at i x -> (forall y, j = Point y -> lt x y) /\ covers j (At x) = false.
  Proof.
    intros Wi Wj S H. apply ends_at_of in H.
    destruct (raw_bounds_cases i) as [(-> & _)|(li & ui & ELi & EUi)]; [destruct H; contradiction|].
    unfold end_of in H. rewrite ELi, EUi in H. pose proof (raw_wf_pos i _ _ Wi ELi EUi) as Pi.
    destruct (raw_bounds_cases j) as [(-> & _)|(lj & uj & ELj & EUj)]; [split; [discriminate|reflexivity]|].
    unfold separated in S. rewrite EUi, ELj in S. split.
    - intros y ->. simpl in ELj. inversion ELj; subst lj.
      destruct ui; simpl in *; try contradiction; destruct H as [H|H]; try (destruct li; simpl in *; try contradiction; subst); porder.
    - destruct (covers j (At x)) eqn:C; auto. exfalso. rewrite (covers_bounds j _ _ _ ELj EUj) in C.
      destruct ui, lj; simpl in *; try contradiction; destruct H as [H|H]; try (destruct li; simpl in *; try contradiction; subst); porder.
  Qed.
  Lemma separated_point x j : raw_wf j -> separated (Point x) j -> starts_from (Hi x) j /\ covers j (Hi x) = false.
  Proof.
    intros Wj S. destruct (raw_bounds_cases j) as [(-> & _)|(lj & uj & ELj & EUj)]; [split; [exact I|reflexivity]|].
    unfold separated in S. rewrite ELj in S. simpl in S. unfold starts_from. rewrite ELj. split.
    - destruct lj; simpl in *; try contradiction; porder.
    - destruct (covers j (Hi x)) eqn:C; auto. exfalso. rewrite (covers_bounds j _ _ _ ELj EUj) in C.
      destruct lj; simpl in *; try contradiction; porder.
  Qed.

  (** Taking a point out where an end is: what is before it stays. *)
  Lemma rim_keeps dbg s x l r : wf s -> rim s x = true -> Forall raw_wf l -> Forall (separated (Point x)) l ->
    mfold (fun acc i => tree_minus_in_place dbg acc i) (Point x :: l) s = Ok r ->
    (forall p, lt p (At x) -> den false r p = den false s p) /\
    ~ (wf r /\ den false r (Hi x) = den false s (Hi x)).
  Proof.
    intros W HR Wl Sl E. simpl in E. unfold tree_minus_in_place at 1 in E. cbn [raw_is_empty raw_is_full tine_from_raw_interval] in E. rewrite orb_false_r in E.
    destruct (tree_is_empty s) eqn:Es.
    { destruct s; [discriminate|discriminate]. }
    destruct W as [Ss Hc]. destruct (split_at (At x) false s false) as (L & R & c0 & v & c1 & -> & A & HL & HR' & BL & AR & SL & SR);
      try exact I; try discriminate; auto.
    unfold rim in HR. rewrite den_Lo, den_At, den_Hi in HR by auto.
    assert (v = false) as -> by (destruct v; auto).
    rewrite minus_point_bad in E by (auto; destruct c0, c1; auto). cbn [bind] in E.
    set (M := if c0 && c1 then [TPoint (Include x)] else []) in *.
    assert (FR : Forall (from (Hi x)) R).
    { eapply Forall_impl; [|exact AR]. intros t [K H]. split; auto. apply loc_Hi in H. revert H. generalize (loc t). clear. intros; porder. }
    assert (BM : bl (Hi x) (L ++ M)).
    { apply bl_app. split; [apply (bl_weaken (At x)); auto; clear; porder|]. unfold M. destruct (c0 && c1); constructor; auto. split; auto. unfold loc. simpl. porder. }
    apply (fold_keeps dbg (Hi x) (L ++ M) BM) in E.
    2: { exists R. now rewrite app_assoc. }
    2: exact Wl.
    2: { rewrite Forall_forall in *. intros j Hj. apply separated_point; auto. }
    destruct E as (R' & -> & FR').
    assert (InR : forall t, In t R' -> lt (Hi x) (loc t)).
    { intros t Ht. rewrite Forall_forall in FR'. destruct (FR' t Ht) as [K N]. pose proof (loc_tine t) as Q. revert N Q. generalize (loc t). clear.
      intros [| | | |] N Q; simpl in Q; try contradiction; porder. }
    assert (InM : forall t, In t M -> loc t = At x).
    { unfold M. destruct (c0 && c1); simpl; intros t Ht; [destruct Ht as [<-|[]]; reflexivity|destruct Ht]. }
    split.
    - intros p Hp. rewrite <- app_assoc. rewrite !den_app_low; auto.
      + intros t Ht. apply in_app_or in Ht as [Ht|Ht].
        * generalize (mk_at (At x) c0 false c1). destruct (mk (At x) c0 false c1); [|destruct Ht]. destruct Ht as [<-|[]]. simpl. intros [_ ->]. exact Hp.
        * eapply plt_trans; [exact Hp|]. now apply (ab_in (At x) R).
      + intros t Ht. apply in_app_or in Ht as [Ht|Ht]; [now rewrite (InM t Ht)|]. eapply plt_trans; [|apply InR, Ht].
        revert Hp. clear. intros; porder.
    - intros [[_ Cr] D]. rewrite den_Hi in D by auto. apply chain_app in Cr as (m & Cm & _). apply chain_app in Cm as (m' & C1 & C2).
      assert (m' = c0) as -> by (eapply chain_end; eauto). unfold M in *. destruct (c0 && c1) eqn:Ec.
      + apply andb_true_iff in Ec as [-> ->]. discriminate.
      + rewrite app_nil_r in D. rewrite den_app_low in D by auto. rewrite (den_high false L (Hi x) c0) in D; auto.
        * subst c1. destruct c0; discriminate.
        * intros t Ht. pose proof (bl_in (At x) L t BL Ht) as H. revert H. generalize (loc t). clear. intros; porder.
  Qed.

  (** A point that is there and in none of the intervals stays. *)
  Lemma fold_spurious dbg x l : forall s r, wf s -> Forall raw_wf l -> StronglySorted separated l ->
    (forall j, In j l -> covers j (At x) = false /\ forall y, j = Point y -> lt x y) ->
    den false s (At x) = true -> mfold (fun acc i => tree_minus_in_place dbg acc i) l s = Ok r -> den false r (At x) = true.
  Proof.
    induction l as [|j l IH]; intros s r W Wl S N D E.
    - inversion E; subst. exact D.
    - inversion Wl as [|? ? Wj Wl']; subst. inversion S as [|? ? S1 S2]; subst.
      destruct (N j (or_introl eq_refl)) as [Nc Np]. destruct (point_or j) as [[y ->]|NP].
      + destruct (rim s y) eqn:Ry.
        * destruct (rim_keeps dbg s y l r W Ry Wl' S2 E) as [K _]. rewrite K; auto. specialize (Np y eq_refl). revert Np. clear. intros; porder.
        * destruct (minus_in_place_point dbg s y W Ry) as (s1 & E1 & W1 & H1). simpl in E. rewrite E1 in E. simpl in E.
          apply (IH s1); auto. { intros k Hk. apply N. now right. } now rewrite H1, D, Nc.
      + destruct (minus_in_place_proper dbg s j W Wj NP) as (s1 & E1 & W1 & H1). simpl in E. rewrite E1 in E. simpl in E.
        apply (IH s1); auto. { intros k Hk. apply N. now right. } now rewrite H1, D, Nc.
  Qed.

  (** An obstacle to a later interval stays one. *)
  Lemma obstacle_stays s s' i j : raw_wf i -> raw_wf j -> separated i j -> ~ obstacle s i ->
    (forall p, den false s' p = den false s p && negb (covers i p)) -> obstacle s j -> obstacle s' j.
  Proof.
    intros Wi Wj S Ni H Oj.
    destruct (raw_bounds_cases i) as [(-> & _)|(li & ui & ELi & EUi)].
    { unfold separated in S. simpl in S. contradiction. }
    destruct (raw_bounds_cases j) as [(-> & _)|(lj & uj & ELj & EUj)].
    { unfold separated in S. rewrite EUi in S. destruct ui; contradiction. }
    assert (Ci := fun p => covers_bounds i p _ _ ELi EUi).
    destruct (point_or j) as [[x ->]|NP].
    - simpl in *. unfold rim in *. rewrite !H.
      assert (U : lt (upos ui) (Lo x)) by (unfold separated in S; rewrite EUi in S; simpl in S; destruct ui; simpl in *; try contradiction; porder).
      assert (Z : forall q, le (Lo x) q -> covers i q = false).
      { intros q Hq. destruct (covers i q) eqn:E; auto. rewrite Ci in E. exfalso. revert U Hq E. generalize (upos ui) (lpos li). clear. intros; porder. }
      rewrite !Z by (clear; porder). now rewrite !andb_true_r.
    - apply obstacle_proper in Oj as (x & K1 & K2); auto. apply obstacle_proper; auto. exists x. split; auto.
      unfold hole in *. rewrite !H. rewrite !andb_true_iff, negb_true_iff in K2. destruct K2 as [[K2 K3] K4]. rewrite K2, K3, K4. simpl.
      pose proof (raw_wf_pos j _ _ Wj ELj EUj) as Pj. pose proof (raw_wf_pos i _ _ Wi ELi EUi) as Pi.
      apply ends_at_of in K1. unfold end_of in K1. rewrite ELj, EUj in K1. unfold separated in S. rewrite EUi, ELj in S.
      assert (Chi : covers i (Hi x) = false).
      { destruct (covers i (Hi x)) eqn:C; auto. exfalso. apply Ci in C.
        destruct ui, lj; simpl in *; try contradiction; destruct K1 as [K1|K1]; try (destruct uj; simpl in *; try contradiction; subst); porder. }
      rewrite Chi, andb_true_r. destruct (covers i (Lo x)) eqn:C; auto. exfalso. apply Ci in C.
      apply Ni. assert (Ex : raw_upper_bound i = Some (Exclude x)).
      { rewrite EUi. destruct ui, lj; simpl in *; try contradiction; destruct K1 as [K1|K1]; try (destruct uj; simpl in *; try contradiction; subst);
          try (exfalso; porder); do 2 f_equal; porder. }
      assert (Hx : hole s x = true) by (unfold hole; now rewrite K2, K3, K4).
      apply obstacle_proper.
      + intros y ->. discriminate.
      + exists x. split; auto. right. exists (Exclude x). split; auto. simpl. auto.
  Qed.

  Lemma fold_obstacle dbg l : forall s r, wf s -> Forall raw_wf l -> StronglySorted separated l -> (exists i, In i l /\ obstacle s i) ->
    mfold (fun acc i => tree_minus_in_place dbg acc i) l s = Ok r -> wf r ->
    exists p, den false r p <> den false s p && negb (lcovers l p).
  Proof.
    induction l as [|i l IH]; intros s r W Wl S (k & Hk & Ok') E Wr; [destruct Hk|].
    inversion Wl as [|? ? Wi Wl']; subst. inversion S as [|? ? S1 S2]; subst. rewrite Forall_forall in S2, Wl'.
    destruct (point_or i) as [[x ->]|NP].
    - destruct (rim s x) eqn:Rx.
      + exists (Hi x). intros D. destruct (rim_keeps dbg s x l r W Rx) as [_ K]; auto.
        { now rewrite Forall_forall. } { now rewrite Forall_forall. }
        apply K. split; auto. rewrite D.
        assert (lcovers (Point x :: l) (Hi x) = false) as ->; [|apply andb_true_r].
        destruct (lcovers (Point x :: l) (Hi x)) eqn:C; auto. apply lcovers_ex in C as (j & [<-|Hj] & C).
        * rewrite covers_point in C. assert (K' : cmp (Hi x) (At x) = Gt) by (apply cmp_gt_lt; porder). now rewrite K' in C.
        * destruct (separated_point x j) as [_ N]; auto. congruence.
      + assert (No : ~ obstacle s (Point x)) by (simpl; congruence).
        destruct (minus_exact dbg s (Point x) W Wi No) as (s1 & E1 & W1 & H1). simpl in E. rewrite E1 in E. simpl in E.
        destruct Hk as [<-|Hk]; [contradiction|].
        destruct (IH s1 r W1) as (p & Hp); auto. { now rewrite Forall_forall. }
        { exists k. split; auto. apply (obstacle_stays s s1 (Point x) k); auto. }
        exists p. rewrite H1 in Hp. unfold lcovers in *. simpl. now rewrite negb_orb, andb_assoc.
    - destruct (hole_dec s i) as [Ho|Nh].
      + destruct Ho as (x & Hx & Ho). exists (At x).
        assert (Ob : obstacle s i) by (apply obstacle_proper; eauto).
        destruct (minus_in_place_proper dbg s i W Wi NP) as (s1 & E1 & W1 & H1). simpl in E. rewrite E1 in E. simpl in E.
        rewrite (fold_spurious dbg x l s1 r); auto.
        * unfold hole in Ho. destruct (den false s (At x)); [discriminate|]. discriminate.
        * now rewrite Forall_forall.
        * intros j Hj. destruct (separated_from i j x); auto.
        * rewrite H1. destruct (raw_bounds_cases i) as [(-> & _)|(lo & up & EL & EU)].
          { destruct Hx as [(b & K & _)|(b & K & _)]; discriminate. }
          rewrite EL, EU. assert (F : fills s lo (At x) || fills s up (At x) = true) by (apply (bound_fills s i lo up (At x) EL EU); eauto).
          rewrite F. apply orb_true_r.
      + assert (No : ~ obstacle s i).
        { intros K. apply obstacle_proper in K as (x & K1 & K2); auto. rewrite Nh in K2; auto. discriminate. }
        destruct (minus_exact dbg s i W Wi No) as (s1 & E1 & W1 & H1). simpl in E. rewrite E1 in E. simpl in E.
        destruct Hk as [<-|Hk]; [contradiction|].
        destruct (IH s1 r W1) as (p & Hp); auto. { now rewrite Forall_forall. }
        { exists k. split; auto. apply (obstacle_stays s s1 i k); auto. }
        exists p. rewrite H1 in Hp. unfold lcovers in *. simpl. now rewrite negb_orb, andb_assoc.
  Qed.

  Lemma tree_minus_obstacle dbg s o r : wf s -> wf o -> (exists i, In i (pieces None o) /\ obstacle s i) ->
    tree_minus dbg s o = Ok r -> wf r -> exists p, den false r p <> den false s p && negb (den false o p).
  Proof.
    intros W Wo Ob E Wr. unfold tree_minus in E. rewrite tree_fold_pieces in E by auto.
    destruct (fold_obstacle dbg (pieces None o) s r) as (p & Hp); auto.
    - apply pieces_wf.
    - apply pieces_separated; [apply Wo|discriminate|apply Wo].
    - exists p. now rewrite pieces_den in Hp.
  Qed.
End PTreeMinus.

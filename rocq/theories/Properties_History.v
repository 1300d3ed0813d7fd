(** * Properties of histories of calls on a Selection: C93 *)
From Coq Require Import List Bool ZArith Lia Sorted.
From Verif Require Import Base OrdFacts Pos PFinite Ints MBound MRaw MNormalize MTine MBTree MTineTree MInterval MSelection
  Spec Spec_Tree Spec_Sel Spec_History PRaw PRaw2 PNorm PIter PInterval PBTree PTree PTreeOps PTreeIsect PTree2 PTree3 PTree4 PTree5 PTree6 PTree7
  PSel PSel2 PSel3 PSel4 PDebug Instances Properties_Interval Properties_Tree Properties_Selection Properties_Tree2.
Import ListNotations.
Local Open Scope Z_scope.
#[local] Arguments cmp : simpl never.

Section History.
  Context {T : Type} {O : Ord T} {F : Finite T}.
  Implicit Types (s : Selection T) (i : Interval T) (x y : T) (P : T -> Prop) (c k : pos T -> bool).

  (** No interval of the tree and no gap between them is without values. *)
  Definition clean c : Prop := gapless c /\ gapless (fun p => negb (c p)).

  Lemma clean_ext c c' : (forall p, c p = c' p) -> clean c' -> clean c.
  Proof.
    intros H [A B]. split; [now apply (gapless_ext _ c')|]. apply (gapless_ext _ (fun p => negb (c' p))); auto. intros p. now rewrite H.
  Qed.
  Lemma gapless_and_not c k : gapless c -> open_cov k -> gapless (fun p => c p && negb (k p)).
  Proof.
    intros G Op. apply (gapless_ext _ (fun p => (c p && negb (k p)) || false)); [intros p; now rewrite orb_false_r|].
    apply (gapless_minus c k (fun _ => false)); auto. discriminate.
  Qed.
  Lemma clean_or c k : clean c -> open_cov k -> clean (fun p => c p || k p).
  Proof.
    intros [A B] Op. split; [apply gapless_or; auto using open_gapless|].
    apply (gapless_ext _ (fun p => negb (c p) && negb (k p))); [intros p; apply negb_orb|]. now apply (gapless_and_not (fun p => negb (c p))).
  Qed.
  Lemma clean_minus c k : clean c -> open_cov k -> clean (fun p => c p && negb (k p)).
  Proof.
    intros [A B] Op. split; [now apply gapless_and_not|].
    apply (gapless_ext _ (fun p => negb (c p) || k p)); [intros p; destruct (c p), (k p); reflexivity|].
    apply (gapless_or (fun p => negb (c p))); auto using open_gapless.
  Qed.
  Lemma clean_not c : clean c -> clean (fun p => negb (c p)).
  Proof.
    intros [A B]. split; auto. apply (gapless_ext _ c); auto. intros p. apply negb_involutive.
  Qed.
  Lemma clean_false : clean (fun _ => false).
  Proof. split; unfold gapless; simpl; repeat split; auto; discriminate. Qed.

  (** Intersection with an open interval whose ends lie well inside. *)
  Lemma clean_and c k : clean c -> open_cov k ->
    (forall x y, succ x = Some y -> c (At x) = true \/ c (At y) = true -> k (At x) <> k (At y) -> c (At x) = true /\ c (At y) = true) ->
    clean (fun p => c p && k p).
  Proof.
    intros [(A & B & C & D) G] Op H. pose proof Op as (A' & B' & C' & D'). split.
    - unfold gapless. repeat split.
      + intros x Hx. apply andb_true_iff in Hx as [H1 H2]. rewrite A' in H2.
        destruct (A x H1) as [K|(y & S & K)].
        * destruct (k (At x)) eqn:Kx; [left; now rewrite K|]. destruct (succ x) as [y|] eqn:S; [|discriminate]. right. exists y. split; auto.
          simpl in H2. rewrite H2. destruct (H x y S) as [_ ->]; auto. congruence.
        * rewrite S in H2. destruct (k (At y)) eqn:Ky; [right; exists y; now rewrite K|].
          rewrite orb_false_r in H2. left. rewrite H2. destruct (H x y S) as [-> _]; auto. congruence.
      + intros x Hx. apply andb_true_iff in Hx as [H1 H2]. rewrite B' in H2.
        destruct (B x H1) as [K|(y & S & K)].
        * destruct (k (At x)) eqn:Kx; [left; now rewrite K|]. destruct (pred x) as [y|] eqn:S; [|discriminate]. right. exists y. split; auto.
          simpl in H2. rewrite H2. destruct (H y x) as [-> _]; auto; [clear - S; forder|congruence].
        * rewrite S in H2. destruct (k (At y)) eqn:Ky; [right; exists y; now rewrite K|].
          rewrite orb_false_r in H2. left. rewrite H2. destruct (H y x) as [_ ->]; auto; [clear - S; forder|congruence].
      + intros K. apply andb_true_iff in K as [H1 H2]. rewrite <- C', H2, (C H1). reflexivity.
      + intros K. apply andb_true_iff in K as [H1 H2]. rewrite <- D', H2, (D H1). reflexivity.
    - apply (gapless_ext _ (fun p => negb (c p) || negb (k p))); [intros p; apply negb_andb|].
      apply (gapless_or (fun p => negb (c p))); auto. now apply gapless_not.
  Qed.

  (** Between two present neighbours everything is present. *)
  Lemma clean_between c x y : clean c -> succ x = Some y -> c (At x) = true -> c (At y) = true -> c (Hi x) = true /\ c (Lo y) = true.
  Proof.
    intros [_ (A & B & _)] S Hx Hy. split.
    - destruct (c (Hi x)) eqn:E; auto. destruct (A x) as [K|(z & S' & K)]; [now rewrite E|rewrite Hx in K; discriminate|].
      rewrite S in S'. injection S' as <-. rewrite Hy in K. discriminate.
    - assert (S2 : pred y = Some x) by (clear - S; forder).
      destruct (c (Lo y)) eqn:E; auto. destruct (B y) as [K|(z & S' & K)]; [now rewrite E|rewrite Hy in K; discriminate|].
      rewrite S2 in S'. injection S' as <-. rewrite Hx in K. discriminate.
  Qed.
  Lemma clean_ends c : clean c -> (c (At MINIMUM) = true -> c NInf = true) /\ (c (At MAXIMUM) = true -> c PInf = true).
  Proof.
    intros [_ (_ & _ & A & B)]. split; intros H.
    - destruct (c NInf) eqn:E; auto. assert (K : negb (c (At MINIMUM)) = true) by (now apply A). rewrite H in K. discriminate.
    - destruct (c PInf) eqn:E; auto. assert (K : negb (c (At MAXIMUM)) = true) by (now apply B). rewrite H in K. discriminate.
  Qed.

  (** A hole of the tree is a lone gap. *)
  Lemma gapless_hole s x : gapless (den false s) -> hole s x = true -> lone_gap (inS s) x.
  Proof.
    intros (A & B & _) H. apply hole_iff in H as (N & L & U). unfold inS. split; [congruence|]. split.
    - destruct (B x L) as [K|(y & S & K)]; [congruence|eauto].
    - destruct (A x U) as [K|(y & S & K)]; [congruence|eauto].
  Qed.

  (** [intersect_in_place] where the tree runs through both ends of the interval. *)
  Lemma isect_through dbg s i : wf s -> solid (interval_raw i) ->
    (forall l, least (ipoints i) l -> match pred l with Some a => den false s (Hi a) | None => den false s NInf end = true) ->
    (forall u, greatest (ipoints i) u -> match succ u with Some b => den false s (Lo b) | None => den false s PInf end = true) ->
    exists s', sel_intersect_in_place dbg s i = Ok s' /\ wf s' /\
      forall p, den false s' p = den false s p && covers (denormalized (interval_raw i)) p.
  Proof.
    intros W S GL GU. unfold sel_intersect_in_place. destruct s as [|t s0].
    { rewrite isect_in_place_empty. exists []. split; [reflexivity|]. split; [apply new_wf|]. intros p. reflexivity. }
    destruct (reach_solid_cases i S) as [E|(l & u & Hl & Hu & E)].
    { rewrite E. apply isect_in_place_easy; [exact W|simpl; tauto]. }
    specialize (GL l Hl). specialize (GU u Hu).
    assert (Wf : raw_wf (denormalized (interval_raw i))) by (apply denormalized_tight_wf; now apply solid_tight).
    rewrite E in *.
    destruct (pred l) as [a|] eqn:Ea, (succ u) as [b|] eqn:Eb; try (apply isect_in_place_easy; [exact W|simpl; tauto]);
      (eapply isect_in_place_iff; [exact W|discriminate|exact Wf|exact I|reflexivity|reflexivity|]);
      unfold isect_fine, near_lower, near_upper, isect_right; rewrite GL, GU; reflexivity.
  Qed.

  Lemma lone_ext P Q x : (forall y, P y <-> Q y) -> lone_gap P x -> lone_gap Q x.
  Proof.
    intros H (A & (y & E & B) & (z & E' & C)). split; [now rewrite <- H|]. split; [exists y|exists z]; (split; auto; now apply H).
  Qed.
  Lemma denorm_cov i : reach true i -> forall x, covers (denormalized (interval_raw i)) (At x) = true <-> ipoints i x.
  Proof. intros R x. now apply denorm_in, reach_weak. Qed.

  (** One call. *)
  Lemma call_step dbg (a : call T) s P : call_inputs a -> careful a P -> wf s -> clean (den false s) -> (forall x, inS s x <-> P x) ->
    exists s', do_call dbg a s = Ok s' /\ wf s' /\ clean (den false s') /\ forall x, inS s' x <-> effect a P x.
  Proof.
    intros In Ca W Cl M. destruct a as [i|l|q| |i|q|i]; simpl in In, Ca |- *.
    - pose proof (denorm_cov i In) as Cv. destruct (denorm_in i (reach_weak i In)) as (Wi & _ & _).
      destruct (union_in_place_ok dbg s _ W Wi) as (s' & E & W' & Dn). exists s'. split; auto. split; auto. split.
      + apply (clean_ext _ _ Dn), clean_or; auto using denorm_open, reach_solid.
      + intros x. unfold inS in *. now rewrite Dn, orb_true_iff, M, Cv.
    - assert (Wk : Forall (reach false) l) by (eapply Forall_impl; [|exact In]; intros; now apply reach_weak).
      rewrite sel_extend_tree. destruct (extend_ok dbg _ s W (inputs_wf l Wk)) as (s' & E & W' & Dn).
      exists s'. split; auto. split; auto. split.
      + apply (clean_ext _ _ Dn), clean_or; auto using lcovers_open.
      + intros x. unfold inS in *. now rewrite Dn, orb_true_iff, M, lcovers_inputs by auto.
    - destruct In as [I1 I2]. destruct (run_ok dbg q (inputs_weak q I1)) as (o & -> & Wo & Mo & Op & _). simpl.
      destruct (tree_union_ok dbg s o W Wo) as (s' & E & W' & Dn). exists s'. split; [exact E|]. split; auto. split.
      + apply (clean_ext _ _ Dn), clean_or; auto.
      + intros x. unfold inS in *. now rewrite Dn, orb_true_iff, M, Mo by now apply unions_boolean.
    - destruct (complement_ok dbg s W) as (s' & E & W' & Dn). exists s'. split; auto. split; auto. split.
      + apply (clean_ext _ _ Dn), clean_not; auto.
      + intros x. unfold inS in *. rewrite Dn, negb_true_iff, <- M. destruct (den false s (At x)); split; congruence.
    - pose proof (denorm_cov i In) as Cv. destruct (denorm_in i (reach_weak i In)) as (Wi & NP & _).
      pose proof (reach_solid i In) as S.
      destruct (minus_one dbg s (denormalized (interval_raw i)) W Wi NP) as (s' & E & W' & Dn).
      assert (Dn' : forall p, den false s' p = den false s p && negb (covers (denormalized (interval_raw i)) p)).
      { intros p. apply eq_true_iff_eq. rewrite Dn, andb_true_iff, negb_true_iff. split; [|auto].
        intros [K|(x & -> & Hx & He)]; auto. exfalso. apply (denorm_ends i x S) in He. apply (Ca x He).
        apply (lone_ext (inS s)); auto. apply gapless_hole; auto. apply Cl. }
      exists s'. split; [exact E|]. split; auto. split.
      + apply (clean_ext _ _ Dn'), clean_minus; auto using denorm_open.
      + intros x. unfold inS in *. rewrite Dn', andb_true_iff, negb_true_iff, M, <- Cv.
        destruct (covers _ (At x)); intuition congruence.
    - destruct In as [I1 I2]. destruct (run_ok dbg q (inputs_weak q I1)) as (o & -> & Wo & Mo & Op & _). simpl.
      specialize (Op I1 I2). assert (Mo' : forall x, den false o (At x) = true <-> means q x) by (apply Mo; now apply unions_boolean).
      destruct (tree_minus_desc dbg s o W Wo (open_no_points o Wo Op)) as (s' & E & W' & Dn).
      assert (Dn' : forall p, den false s' p = den false s p && negb (den false o p)).
      { intros p. apply eq_true_iff_eq. rewrite Dn, andb_true_iff, negb_true_iff. split; [|auto].
        intros [K|(x & r & -> & Hx & Hr & He)]; auto. exfalso.
        apply gapless_hole in Hx; [|apply Cl]. apply (lone_ext _ P) in Hx; auto.
        destruct (proj1 (open_ends o x Wo Op)) as [N Nb]; [eauto|]. apply N, Mo'.
        destruct Nb as [(y & Ey & Hy)|(y & Ey & Hy)]; apply (Ca x y); auto; now apply Mo'. }
      exists s'. split; [exact E|]. split; auto. split.
      + apply (clean_ext _ _ Dn'), clean_minus; auto.
      + intros x. unfold inS in *. rewrite Dn', andb_true_iff, negb_true_iff, M, <- Mo'.
        destruct (den false o (At x)); intuition congruence.
    - pose proof (denorm_cov i In) as Cv. pose proof (reach_solid i In) as S. pose proof (denorm_open _ S) as Op.
      assert (Z : (forall x, ~ P x) \/ ((forall x, ipoints i x) /\ forall p, covers (denormalized (interval_raw i)) p = true) \/ well_inside P i).
      { destruct Ca as [Ca|[Ca|Ca]]; auto. right. left. split; auto. destruct (reach_solid_cases i S) as [E|(l & u & Hl & Hu & E)].
        - exfalso. specialize (Ca MINIMUM). rewrite <- Cv, E in Ca. discriminate.
        - assert (l = MINIMUM) as -> by (destruct Hl as [_ Hl]; specialize (Hl _ (Ca MINIMUM)); forder).
          assert (u = MAXIMUM) as -> by (destruct Hu as [_ Hu]; specialize (Hu _ (Ca MAXIMUM)); forder).
          rewrite (proj2 (pred_none MINIMUM) eq_refl), (proj2 (succ_none MAXIMUM) eq_refl) in E. rewrite E. apply covers_full. }
      clear Ca. destruct Z as [Ca|[[Ca Fu]|[HL HU]]].
      + assert (s = []) as ->.
        { apply gapless_empty; auto; [apply Cl|]. intros x. rewrite M. apply Ca. }
        exists []. split; [reflexivity|]. split; auto. split; auto. intros x. split; [discriminate|]. intros [K _]. now destruct (Ca x).
      + assert (K : exists s', tree_intersect_in_place dbg s (denormalized (interval_raw i)) = Ok s' /\ wf s' /\
          forall p, den false s' p = den false s p && covers (denormalized (interval_raw i)) p).
        { destruct (reach_solid_cases i S) as [E|(l & u & Hl & Hu & E)]; [specialize (Fu NInf); rewrite E in Fu; discriminate|].
          pose proof (Fu NInf) as F1. pose proof (Fu PInf) as F2.
          assert (E2 : denormalized (interval_raw i) = Full) by (rewrite E in F1, F2 |- *; destruct (pred l), (succ u); auto; discriminate).
          rewrite E2. apply isect_in_place_easy; auto. }
        destruct K as (s' & E & W' & Dn). exists s'. split; [exact E|]. split; auto.
        assert (Dn' : forall p, den false s' p = den false s p) by (intros p; now rewrite Dn, Fu, andb_true_r).
        split; [now apply (clean_ext _ _ Dn')|]. intros x. unfold inS in *. rewrite Dn', M. split; [auto|tauto].
      + assert (Min : forall x, P x -> inS s x) by (intros x; now rewrite M).
        destruct (isect_through dbg s i W S) as (s' & E & W' & Dn).
        * intros l Hl. destruct (HL l Hl) as [K1 K2]. destruct (pred l) as [a|] eqn:Ea.
          -- assert (Es : succ a = Some l) by (clear - Ea; forder).
             apply (clean_between _ a l Cl Es); apply Min; auto.
          -- apply pred_none in Ea. subst l. apply (clean_ends _ Cl). now apply Min.
        * intros u Hu. destruct (HU u Hu) as [K1 K2]. destruct (succ u) as [b|] eqn:Eb.
          -- apply (clean_between _ u b Cl Eb); apply Min; auto.
          -- apply succ_none in Eb. subst u. apply (clean_ends _ Cl). now apply Min.
        * exists s'. split; [exact E|]. split; auto. split.
          -- apply (clean_ext _ _ Dn), clean_and; auto. intros x y Sx _ Nk.
             assert (Hlt : lt x y) by (clear - Sx; forder).
             destruct (reach_solid_cases i S) as [E1|(l & u & Hl & Hu & E1)]; [rewrite E1 in Nk; now destruct Nk|].
             destruct (HL l Hl) as [L1 L2], (HU u Hu) as [U1 U2].
             assert (Iv : forall z, ipoints i z <-> le l z /\ le z u).
             { intros z. split; [intros Hz; split; [now apply Hl|now apply Hu]|]. intros [Z1 Z2].
               apply Cv. rewrite E1. destruct (pred l) as [a'|] eqn:Ea, (succ u) as [b'|] eqn:Eb; rewrite covers_At; cbn [raw_contains]; forder. }
             assert (Q : (ipoints i x /\ ~ ipoints i y) \/ (~ ipoints i x /\ ipoints i y)).
             { rewrite <- !Cv. destruct (covers _ (At x)), (covers _ (At y)); intuition congruence. }
             rewrite !Iv in Q. destruct Q as [[Qx Qy]|[Qx Qy]].
             ++ assert (x = u) as -> by (clear - Qx Qy Sx Hlt; forder). split; apply Min; auto.
             ++ assert (y = l) as -> by (clear - Qx Qy Sx Hlt; forder).
                assert (Ep : pred l = Some x) by (clear - Sx; forder). split; apply Min; auto.
          -- intros x. unfold inS in *. now rewrite Dn, andb_true_iff, M, Cv.
  Qed.
End History.

Lemma sorted_trichotomy {A} (R : A -> A -> Prop) l a b : StronglySorted R l -> In a l -> In b l -> a = b \/ R a b \/ R b a.
Proof.
  induction 1 as [|c l S IH Fc]; intros Ha Hb; [destruct Ha|]. rewrite Forall_forall in Fc.
  destruct Ha as [<-|Ha], Hb as [<-|Hb]; auto.
Qed.

Section Queries.
  Context {T : Type} {O : Ord T} {F : Finite T}.
  Implicit Types (s : Selection T) (x y : T).

  (** Just above an included upper end there is nothing. *)
  Lemma upper_included s r a : wf s -> In r (pieces None s) -> raw_upper_bound r = Some (Include a) -> den false s (Hi a) = false.
  Proof.
    intros W Hr U. destruct (den false s (Hi a)) eqn:E; auto. exfalso.
    destruct (den_piece s _ W E) as (k & Hk & Ck). pose proof (piece_wf s r Hr) as Wr. pose proof (piece_wf s k Hk) as Wk.
    destruct (piece_bounds s r W Hr) as (lo & up & L' & U' & Hle). rewrite U in U'. injection U' as <-. cbn [upos] in Hle.
    assert (Ca : covers r (At a) = true) by (apply (covers_bounds r _ lo (Include a)); auto; cbn [upos]; split; auto; po).
    destruct (piece_bounds s k W Hk) as (lk & uk & Lk & Uk & _). pose proof Ck as Ck'. apply (covers_bounds k _ lk uk Lk Uk) in Ck' as [K _].
    destruct (sorted_trichotomy separated _ r k (pieces_sorted s W) Hr Hk) as [->|[S|S]].
    - apply (covers_bounds k _ _ _ L' U) in Ck as [_ Ck]. cbn [upos] in Ck. po.
    - unfold separated in S. rewrite U, Lk in S. destruct lk; cbn [lpos] in K; try contradiction; po.
    - pose proof (separated_pos k r S Wk Wr _ _ Ck Ca). po.
  Qed.
  Lemma clean_apart s r r' : wf s -> clean (den false s) -> In r (pieces None s) -> In r' (pieces None s) -> separated r r' ->
    apart (inS s) (nrm r) (nrm r').
  Proof.
    intros W [G (G1 & _ & _ & _)] Hin Hin' Sep. pose proof (piece_wf s r Hin) as Wr. pose proof (piece_wf s r' Hin') as Wr'.
    assert (Sp := fun x y => separated_points r r' x y Wr Wr' Sep).
    destruct (piece_point s r' W G Hin') as (y0 & Hy0).
    unfold separated in Sep. destruct (raw_upper_bound r) as [[a|a|]|] eqn:U; try contradiction.
    - pose proof (upper_included s r a W Hin U) as E.
      destruct (piece_bounds s r W Hin) as (lo & up & L' & U' & Hle). rewrite U in U'. injection U' as <-. cbn [upos] in Hle.
      assert (Ca : covers r (At a) = true) by (apply (covers_bounds r _ lo (Include a)); auto; cbn [upos]; split; auto; po).
      assert (Sa : den false s (At a) = true) by now apply (piece_den s r).
      rewrite covers_At in Ca. assert (La : lt a y0) by now apply Sp.
      destruct (G1 a) as [K|(x & Sx & K)]; [now rewrite E|rewrite Sa in K; discriminate|]. apply negb_true_iff in K.
      exists x. split; [unfold inS; congruence|]. split; intros y Hy; apply (proj1 (nrm_points _ _)) in Hy.
      + assert (le y a); [|clear - H Sx; forder]. rewrite <- covers_At in Hy. apply (covers_bounds r _ _ _ L' U) in Hy as [_ Hy]. cbn [upos] in Hy. po.
      + assert (lt a y) by now apply Sp. assert (x <> y); [|clear - H H0 Sx; forder].
        intros <-. rewrite <- covers_At in Hy. pose proof (piece_den s r' _ W Hin' Hy). congruence.
    - destruct (proj1 (upper_excluded s r a W Hin) U) as [_ Na].
      exists a. split; [unfold inS; congruence|].
      split; intros y Hy; apply (proj1 (nrm_points _ _)) in Hy.
      + rewrite raw_bounds_contains in Hy. rewrite U in Hy. destruct (raw_lower_bound r) as [[]|]; try contradiction; destruct Hy; auto.
      + assert (y <> a).
        { intros ->. rewrite <- covers_At in Hy. pose proof (piece_den s r' _ W Hin' Hy). congruence. }
        rewrite raw_bounds_contains in Hy.
        destruct (raw_lower_bound r') as [[b|b|]|]; try contradiction; destruct (raw_upper_bound r'); try contradiction;
          destruct Hy as [Hy _]; cbn [above] in Hy; clear - Hy H Sep; order.
  Qed.

  (** What the tree of a whole Selection is. *)
  Lemma clean_full s : wf s -> clean (den false s) -> (sel_is_full s = true <-> forall x, inS s x).
  Proof.
    intros W [_ (G1 & G2 & G3 & G4)]. split.
    - intros K x. unfold sel_is_full, tree_is_full in K.
      destruct s as [|a [|b [|? ?]]]; try discriminate. apply andb_prop in K as [K1 K2].
      assert (K : tree_eqb [a; b] [TLower Infinite; TUpper Infinite] = true) by (simpl; now rewrite K1, K2).
      apply tree_eqb_eq in K. rewrite K. reflexivity.
    - intros K. unfold inS in K. assert (Wf : wf (@sel_full T _ _)).
      { destruct (run_ok true P_full I) as (s' & [= <-] & Wf & _). exact Wf. }
      assert (Q : s = sel_full); [|rewrite Q; unfold sel_full, sel_from, interval_full; cbn [interval_raw normalized denormalized];
        rewrite (proj2 (pred_none _) eq_refl), (proj2 (succ_none _) eq_refl); reflexivity].
      apply den_ext; auto. intros p.
      assert (den false sel_full p = true) as ->.
      { unfold sel_full, sel_from, interval_full; cbn [interval_raw normalized denormalized].
        rewrite (proj2 (pred_none _) eq_refl), (proj2 (succ_none _) eq_refl). destruct p; reflexivity. }
      destruct p as [|x|x|x|]; auto.
      + destruct (den false s NInf) eqn:E; auto. specialize (G3 eq_refl). now rewrite K in G3.
      + destruct (den false s (Lo x)) eqn:E; auto. destruct (G2 x) as [Q|(y & _ & Q)]; [now rewrite E| |]; now rewrite K in Q.
      + destruct (den false s (Hi x)) eqn:E; auto. destruct (G1 x) as [Q|(y & _ & Q)]; [now rewrite E| |]; now rewrite K in Q.
      + destruct (den false s PInf) eqn:E; auto. specialize (G4 eq_refl). now rewrite K in G4.
  Qed.
End Queries.

(** ** C93: histories of calls *)
Section Histories.
  Context {T : Type} {O : Ord T} {F : Finite T}.
  Implicit Types (s : Selection T) (x y : T) (P : T -> Prop).

  Lemma calls_steps dbg (l : list (call T)) : forall s P, Forall call_inputs l -> all_careful l P -> wf s -> clean (den false s) ->
    (forall x, inS s x <-> P x) ->
    exists s', do_calls dbg l s = Ok s' /\ wf s' /\ clean (den false s') /\ forall x, inS s' x <-> effects l P x.
  Proof.
    induction l as [|a l IH]; intros s P In Ca W Cl M; [exists s; auto|].
    inversion In as [|? ? I1 I2]; subst. destruct Ca as [C1 C2].
    destruct (call_step dbg a s P I1 C1 W Cl M) as (s1 & E & W1 & Cl1 & M1).
    destruct (IH s1 (effect a P) I2 C2 W1 Cl1 M1) as (s' & E' & R). exists s'. split; [|exact R]. simpl. rewrite E. exact E'.
  Qed.
  Lemma call_ref (a : call T) s r : call_inputs a -> do_call true a s = Ok r -> do_call false a s = Ok r.
  Proof.
    intros In. destruct a as [i|l|q| |i|q|i]; simpl in *.
    - apply union_in_place_ref.
    - rewrite !sel_extend_tree. apply extend_ref.
    - destruct (C43_no_panic q (inputs_weak q (proj1 In))) as (o & -> & -> & _). apply union_ref.
    - apply complement_ref.
    - apply minus_in_place_ref.
    - destruct (C43_no_panic q (inputs_weak q (proj1 In))) as (o & -> & -> & _). apply minus_ref.
    - apply intersect_in_place_ref.
  Qed.
  Lemma calls_ref (l : list (call T)) : forall s r, Forall call_inputs l -> do_calls true l s = Ok r -> do_calls false l s = Ok r.
  Proof.
    induction l as [|a l IH]; intros s r In E; auto. inversion In as [|? ? I1 I2]; subst. simpl in *.
    destruct (do_call true a s) as [s1|] eqn:E1; [|discriminate]. rewrite (call_ref a s s1 I1 E1). simpl in *. now apply IH.
  Qed.
  Lemma history_run dbg (l : list (call T)) s : Forall call_inputs l -> all_careful l (fun _ => False) -> do_calls dbg l sel_new = Ok s ->
    wf s /\ clean (den false s) /\ forall x, inS s x <-> effects l (fun _ => False) x.
  Proof.
    intros In Ca E. destruct (calls_steps dbg l sel_new (fun _ => False) In Ca new_wf) as (s' & E' & R).
    - apply clean_false.
    - intros x. split; [discriminate|tauto].
    - rewrite E in E'. injection E' as <-. exact R.
  Qed.

  (** Any history of careful calls runs without a panic, leaves the same
      Selection in both builds, and that Selection holds exactly the set the
      calls describe. *)
  Theorem C93_history (l : list (call T)) : Forall call_inputs l -> all_careful l (fun _ => False) ->
    exists s, do_calls true l sel_new = Ok s /\ do_calls false l sel_new = Ok s /\
      forall dbg, sel_is dbg s (effects l (fun _ => False)).
  Proof.
    intros In Ca. destruct (calls_steps true l sel_new (fun _ => False) In Ca new_wf) as (s & E & W & _ & M).
    - apply clean_false.
    - intros x. split; [discriminate|tauto].
    - exists s. split; auto. split; [now apply calls_ref|]. intros dbg x. exists (den false s (At x)). unfold sel_contains.
      rewrite tree_contains_den by auto. split; auto. apply M.
  Qed.

  (** After it the queries are exact. *)
  Theorem C93_iteration dbg (l : list (call T)) s : Forall call_inputs l -> all_careful l (fun _ => False) -> do_calls dbg l sel_new = Ok s ->
    (exists li, sel_intervals_are dbg s li /\ Forall closed_form li /\ (forall x, some_icontains li x <-> member dbg s x) /\
       StronglySorted (apart (member dbg s)) li) /\
    (exists lx, lists lx (member dbg s) /\ drains (sel_next dbg) (sel_iter s) lx).
  Proof.
    intros In Ca E. destruct (history_run dbg l s In Ca E) as (W & Cl & _). pose proof (proj1 Cl) as G. split.
    - exists (map nrm (pieces None s)). split; [now apply interval_iter_drains|]. split; [|split].
      + apply Forall_map, Forall_forall. intros r Hr. pose proof (piece_solid s r W G Hr) as Sr.
        destruct (solid_cases _ Sr) as [K|(a & u & L & U' & Hlu)]; [|exists a, u; auto].
        exfalso. destruct (piece_point s r W G Hr) as (x & Hx). rewrite nrm_raw in K. rewrite <- normalized_contains, K in Hx. discriminate.
      + intros x. rewrite member_in by auto. unfold some_icontains. split.
        * intros (i & K & Hx). apply in_map_iff in K as (r & <- & Hr). apply (proj1 (nrm_points r x)) in Hx.
          apply (piece_den s r); auto. now rewrite covers_At.
        * intros Hx. destruct (den_piece s _ W Hx) as (r & Hr & Hc). rewrite covers_At in Hc. exists (nrm r). split; [now apply in_map|].
          now apply nrm_points.
      + assert (K : forall k, incl k (pieces None s) -> StronglySorted separated k -> StronglySorted (apart (member dbg s)) (map nrm k)).
        { intros k I SK. induction SK as [|r k SK IH Fk]; simpl; constructor.
          - apply IH. intros y Hy. apply I. right. auto.
          - apply Forall_map. rewrite Forall_forall in Fk |- *. intros r' Hr'.
            destruct (clean_apart s r r' W Cl) as (x & N & A & B); auto; [apply I; left; auto|apply I; right; auto|].
            exists x. split; auto. now rewrite member_in. }
        apply K; auto using incl_refl, pieces_sorted.
    - destruct (sel_iter_front dbg s W G) as (lx & [L1 L2] & D & _). exists lx. split; auto.
      split; auto. intros x. rewrite member_in by auto. apply L2.
  Qed.
  Theorem C93_queries dbg (l : list (call T)) s : Forall call_inputs l -> all_careful l (fun _ => False) -> do_calls dbg l sel_new = Ok s ->
    (sel_is_empty s = true <-> forall x, ~ member dbg s x) /\
    (sel_is_full s = true <-> forall x, member dbg s x) /\
    (forall m, least (member dbg s) m -> sel_lower_bound dbg s = Ok (Some (Include m)) /\ (sel_infimum s = Some m \/ sel_infimum s = pred m)) /\
    (forall m, greatest (member dbg s) m -> sel_upper_bound dbg s = Ok (Some (Include m)) /\ (sel_supremum s = Some m \/ sel_supremum s = succ m)) /\
    (exists i, sel_enclose dbg s = Ok i /\
       forall x, ipoints i x <-> exists y z, member dbg s y /\ member dbg s z /\ le y x /\ le x z).
  Proof.
    intros In Ca E. destruct (history_run dbg l s In Ca E) as (W & Cl & _). pose proof (proj1 Cl) as G.
    split; [|split; [|split; [|split]]].
    - assert (A : sel_is_empty s = true <-> s = []) by (destruct s; simpl; split; congruence).
      rewrite A, gapless_empty by auto. split; intros K x; specialize (K x); rewrite member_in in * by auto; auto.
    - rewrite clean_full by auto. split; intros K x; specialize (K x); rewrite member_in in * by auto; auto.
    - intros m Hm. apply (least_member dbg) in Hm; auto. split.
      + destruct (sel_lower_ok dbg s W G) as (o & -> & K). destruct o as [[n|n|]|]; try contradiction; [|now destruct (K m (proj1 Hm))].
        do 2 f_equal. assert (n = m) by (destruct K as [K1 K2], Hm as [M1 M2]; specialize (K2 m M1); specialize (M2 n K1); clear - K2 M2; order).
        now subst.
      + unfold sel_infimum, tree_lower_bound. destruct s as [|t s']; [now destruct Hm|]. cbn [btree_first option_map].
        pose proof (first_covered s' t W) as Fc. pose proof (fun p => first_den s' t p W) as Fd. destruct G as (G1 & _ & G3 & _).
        destruct Hm as [M1 M2]. unfold inS in *.
        destruct (tine_into_inner t) as [a|a|]; cbn [lpos bound_as_ref] in *.
        * left. f_equal. specialize (M2 a Fc). apply Fd in M1. assert (le a m) by (clear - M1; po). clear - H M2. order.
        * right. assert (Na : den false (t :: s') (At a) = false).
          { destruct (den false (t :: s') (At a)) eqn:Ea; auto. apply Fd in Ea. po. }
          destruct (G1 a Fc) as [K|(y & Sy & K)]; [congruence|]. specialize (M2 y K). apply Fd in M1.
          assert (lt a m) by (clear - M1; po). clear - H M2 Sy. symmetry. forder.
        * right. specialize (M2 MINIMUM (G3 Fc)). symmetry. apply pred_none. pose proof (min_le m). clear - H M2. revert H M2. generalize (@MINIMUM T _). intros; order.
    - intros m Hm. apply (greatest_member dbg) in Hm; auto. split.
      + destruct (sel_upper_ok dbg s W G) as (o & -> & K). destruct o as [[n|n|]|]; try contradiction; [|now destruct (K m (proj1 Hm))].
        do 2 f_equal. assert (n = m) by (destruct K as [K1 K2], Hm as [M1 M2]; specialize (K2 m M1); specialize (M2 n K1); clear - K2 M2; order).
        now subst.
      + unfold sel_supremum, tree_upper_bound. destruct (ends s) as [->|(s' & t & ->)]; [now destruct Hm|]. rewrite last_app_one. cbn [option_map].
        pose proof (last_covered s' t W) as Fc. pose proof (fun p => last_den s' t p W) as Fd. destruct G as (_ & G1 & _ & G3).
        destruct Hm as [M1 M2]. unfold inS in *.
        destruct (tine_into_inner t) as [a|a|]; cbn [upos bound_as_ref] in *.
        * left. f_equal. specialize (M2 a Fc). apply Fd in M1. assert (le m a) by (clear - M1; po). clear - H M2. order.
        * right. assert (Na : den false (s' ++ [t]) (At a) = false).
          { destruct (den false (s' ++ [t]) (At a)) eqn:Ea; auto. apply Fd in Ea. po. }
          destruct (G1 a Fc) as [K|(y & Sy & K)]; [congruence|]. specialize (M2 y K). apply Fd in M1.
          assert (lt m a) by (clear - M1; po). clear - H M2 Sy. symmetry. forder.
        * right. specialize (M2 MAXIMUM (G3 Fc)). symmetry. apply succ_none. pose proof (max_ge m). clear - H M2. revert H M2. generalize (@MAXIMUM T _). intros; order.
    - destruct (sel_enclose_ok dbg s W G) as (i & Ei & _ & K). exists i. split; auto. intros x. rewrite K.
      split; intros (y & z & K1 & K2 & K3); exists y, z; rewrite !member_in in * by auto; auto.
  Qed.
End Histories.
Print Assumptions C93_history.
Print Assumptions C93_iteration.
Print Assumptions C93_queries.

(** Seven calls: [0,20], less [5,7], complemented, less the points 30 and 40, complemented,
    with [100,101] added, then cut to [2,18]. *)
Definition history1 : list (call i8) :=
  [C_union_in_place (cl 0 20); C_minus_in_place (cl 5 7); C_complement; C_minus (P_points [v 30; v 40]); C_complement;
   C_extend [cl 100 101]; C_intersect_in_place (cl 2 18)].
Lemma cl_extremes a b m : -128 <= a -> a <= b -> b <= 127 ->
  (least (ipoints (cl a b)) m -> m = v a) /\ (greatest (ipoints (cl a b)) m -> m = v b).
Proof.
  intros A B C. split; intros [M1 M2]; apply int_ext; rewrite v_val by lia; apply cl_points in M1; try lia.
  - assert (K : ipoints (cl a b) (v a)) by (apply cl_points; rewrite ?v_val; lia).
    apply M2, (proj1 (int_le_val _ _)) in K. pose proof (v_val a ltac:(lia)) as V. lia.
  - assert (K : ipoints (cl a b) (v b)) by (apply cl_points; rewrite ?v_val; lia).
    apply M2, (proj1 (int_le_val _ _)) in K. pose proof (v_val b ltac:(lia)) as V. lia.
Qed.
Lemma next_to {T} {O : Ord T} {F : Finite T} (x y : T) : pred x = Some y \/ succ x = Some y -> succ y = Some x \/ pred y = Some x.
Proof. intros [H|H]; [left|right]; forder. Qed.
Example C93_ex : Forall call_inputs history1 /\ all_careful history1 (fun _ => False) /\
  exists s, do_calls true history1 sel_new = Ok s /\ sel_intervals_are true s [cl 2 4; cl 8 18] /\ sel_infimum s = Some (v 1).
Proof.
  split; [|split].
  - repeat constructor.
  - split; [exact I|]. split.
    { intros x [(m & Hm & E)|(m & Hm & E)] [N _]; apply cl_extremes in Hm; try lia; subst m; injection E as <-; apply N; right; reflexivity. }
    split; [exact I|]. split.
    { intros x y [N _] Nb Hy. exfalso. apply N. clear N. apply next_to in Nb.
      destruct Hy as [<-|[<-|[]]]; destruct Nb as [Nb|Nb]; injection Nb as <-; cbn; intros [[[]|K] _]; discriminate K. }
    split; [exact I|]. split; [exact I|]. split; [|exact I].
    right. right. split; intros m Hm; apply cl_extremes in Hm; try lia; subst m;
      (split; [|intros x E; injection E as <-]; left; cbn; intros [N _]; apply N; (split; [right; reflexivity|discriminate])).
  - eexists. split; [reflexivity|]. split; [drain|reflexivity].
Qed.

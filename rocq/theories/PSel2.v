(** * Proofs about Selections: iteration, bounds, canonicity *)
From Coq Require Import List Bool ZArith Lia Sorted.
From Verif Require Import Base OrdFacts Pos PFinite MBound MRaw MNormalize MTine MBTree MTineTree MInterval MSelection
  Spec Spec_Tree Spec_Sel PRaw PRaw2 PNorm PIter PInterval PBTree PTree PTreeOps PTreeIsect PTree2 PTree3 PTree4 PTree5 PTree6 PTree7 PSel.
Import ListNotations.
Local Arguments cmp : simpl never.

(** [porder] with only the order facts of the context, and the end positions
    of bounds as variables. *)
Ltac po_keep :=
  repeat match goal with
  | H : ?P |- _ =>
      lazymatch type of P with
      | Prop =>
          lazymatch P with
          | lt _ _ => fail | le _ _ => fail | ~ lt _ _ => fail | ~ le _ _ => fail
          | @eq (pos _) _ _ => fail
          | _ => clear H
          end
      end
  end.
Ltac po :=
  cbn [lpos upos] in *; try (exfalso; assumption); po_keep;
  repeat match goal with
  | H : ?P |- _ => lazymatch type of P with Prop => revert H end
  end;
  repeat match goal with
  | |- context [lpos ?b] => generalize (lpos b)
  | |- context [upos ?b] => generalize (upos b)
  | |- context [@MINIMUM ?T ?F] => generalize (@MINIMUM T F)
  | |- context [@MAXIMUM ?T ?F] => generalize (@MAXIMUM T F)
  end;
  porder.

Section PSel2.
  Context {T : Type} {O : Ord T} {F : Finite T}.
  Implicit Types (s : Selection T) (r : RawInterval T) (x y : T).

  Definition inS s x : Prop := den false s (At x) = true.

  (** ** Canonicity *)
  Lemma open_canonical s s' : wf s -> wf s' -> open_cov (den false s) -> open_cov (den false s') ->
    (forall x, den false s (At x) = den false s' (At x)) -> s = s'.
  Proof.
    intros W W' (A & B & C & E) (A' & B' & C' & E') H. apply den_ext; auto.
    intros [|x|x|x|]; rewrite ?A, ?B, ?C, ?E, ?A', ?B', ?C', ?E', ?H; auto.
    - destruct (pred x); rewrite ?H; auto.
    - destruct (succ x); rewrite ?H; auto.
  Qed.

  (** ** The pieces *)
  Lemma piece_den s r p : wf s -> In r (pieces None s) -> covers r p = true -> den false s p = true.
  Proof. intros W H C. rewrite <- pieces_den by auto. apply lcovers_ex. eauto. Qed.
  Lemma den_piece s p : wf s -> den false s p = true -> exists r, In r (pieces None s) /\ covers r p = true.
  Proof. intros W H. rewrite <- pieces_den in H by auto. now apply lcovers_ex in H. Qed.
  Lemma piece_wf s r : In r (pieces None s) -> raw_wf r.
  Proof. intros H. exact (proj1 (Forall_forall _ _) (pieces_wf s None) r H). Qed.
  Lemma piece_nonempty s r : wf s -> In r (pieces None s) -> raw_is_empty r = false.
  Proof. intros [S H] Hin. apply (pieces_nonempty s None); auto. discriminate. Qed.
  Lemma piece_bounds s r : wf s -> In r (pieces None s) ->
    exists lo up, raw_lower_bound r = Some lo /\ raw_upper_bound r = Some up /\ le (lpos lo) (upos up).
  Proof.
    intros W Hin. destruct (raw_bounds_cases r) as [(-> & _)|(lo & up & L & U)].
    - now apply (piece_nonempty s) in Hin.
    - exists lo, up. split; auto. split; auto. eapply raw_wf_pos; eauto. now apply (piece_wf s).
  Qed.

  Lemma piece_point s r : wf s -> gapless (den false s) -> In r (pieces None s) -> exists x, raw_contains r x = true.
  Proof.
    intros W (A & B & C & E) Hin. destruct (piece_bounds s r W Hin) as (lo & up & L & U & H).
    assert (Cl : covers r (lpos lo) = true) by (apply (covers_bounds r _ lo up); auto; split; auto; po).
    destruct lo as [a|a|]; cbn [lpos] in *.
    - exists a. now rewrite <- covers_At.
    - assert (Na : den false s (At a) = false) by now apply (lower_excluded s r a W Hin).
      destruct (A a (piece_den s r _ W Hin Cl)) as [K|(y & Sy & K)]; [congruence|].
      exists y. destruct (raw_contains r y) eqn:Ny; auto. exfalso. rewrite <- covers_At in Ny.
      assert (X : up = Exclude y).
      { assert (Ny' : ~ le (At y) (upos up)).
        { intros K2. assert (covers r (At y) = true); [|congruence]. apply (covers_bounds r _ (Exclude a) up); auto. split; auto.
          cbn [lpos]. assert (lt a y) by forder. po. }
        destruct up as [b|b|]; cbn [upos] in *.
        - exfalso. assert (le a b /\ a <> b /\ lt b y) by (split; [po|split; [intros ->; po|po]]). clear - Sy H0 F. 
          destruct H0 as (? & ? & ?). assert (lt a b) by order. forder.
        - assert (lt a b /\ le b y) by (split; po). f_equal. clear - Sy H0 F. destruct H0. forder.
        - exfalso. apply Ny'. po. }
      subst up. apply (upper_excluded s r y W Hin) in U. destruct U. congruence.
    - exists MINIMUM. pose proof (C (piece_den s r _ W Hin Cl)) as K.
      destruct (raw_contains r MINIMUM) eqn:Ny; auto. exfalso. rewrite <- covers_At in Ny.
      assert (X : up = Exclude MINIMUM).
      { assert (Ny' : ~ le (At MINIMUM) (upos up)).
        { intros K2. assert (covers r (At MINIMUM) = true); [|congruence]. apply (covers_bounds r _ Infinite up); auto. split; auto. po. }
        destruct up as [b|b|]; cbn [upos] in *.
        - exfalso. assert (lt b MINIMUM) by po. clear - H0 F. forder.
        - assert (le b MINIMUM) by po. f_equal. clear - H0 F. forder.
        - exfalso. apply Ny'. po. }
      subst up. apply (upper_excluded s r MINIMUM W Hin) in U. destruct U. congruence.
  Qed.

  Definition nrm r : Interval T := interval_from_raw (normalized r).

  Lemma nrm_raw r : interval_raw (nrm r) = normalized r.
  Proof. unfold nrm, interval_from_raw. simpl. now rewrite normalized_idem. Qed.
  Lemma nrm_mk r : nrm r = mkInterval (normalized r).
  Proof. unfold nrm, interval_from_raw. now rewrite normalized_idem. Qed.
  Lemma nrm_points r x : ipoints (nrm r) x <-> raw_contains r x = true.
  Proof. unfold ipoints, interval_contains. now rewrite nrm_raw, normalized_contains. Qed.
  Lemma point_solid r x : raw_wf r -> raw_contains r x = true -> solid (normalized r).
  Proof.
    intros W H. apply normalized_solid; auto. destruct r; simpl in *; auto. forder.
  Qed.
  Lemma piece_solid s r : wf s -> gapless (den false s) -> In r (pieces None s) -> solid (interval_raw (nrm r)).
  Proof.
    intros W G Hin. destruct (piece_point s r W G Hin) as (x & Hx). rewrite nrm_raw. apply (point_solid r x); auto. now apply (piece_wf s).
  Qed.

  (** ** Interval iteration *)
  Lemma interval_iter_drains dbg s : wf s ->
    drains (sel_interval_next dbg) (sel_interval_iter s) (map nrm (pieces None s)).
  Proof.
    intros W. generalize (pieces_drains dbg s W). unfold sel_interval_iter. generalize (tree_interval_iter s) (pieces None s). clear s W.
    intros it l H. induction H as [it it' E|it it' r l E H IH]; simpl.
    - econstructor. unfold sel_interval_next. rewrite E. reflexivity.
    - econstructor; eauto. unfold sel_interval_next. rewrite E. reflexivity.
  Qed.

  Lemma separated_points r r' x y : raw_wf r -> raw_wf r' -> separated r r' ->
    raw_contains r x = true -> raw_contains r' y = true -> lt x y.
  Proof.
    intros W W' S Hx Hy. rewrite <- covers_At in Hx, Hy. pose proof (separated_pos r r' S W W' _ _ Hx Hy) as K. po.
  Qed.

  Lemma pieces_sorted s : wf s -> StronglySorted separated (pieces None s).
  Proof. intros [S H]. apply pieces_separated; auto. discriminate. Qed.

  Lemma open_excluded s r : wf s -> open_cov (den false s) -> In r (pieces None s) ->
    (forall x, raw_lower_bound r <> Some (Include x)) /\ (forall x, raw_upper_bound r <> Some (Include x)).
  Proof.
    intros W (A & B & _) Hin. destruct (piece_bounds s r W Hin) as (lo & up & L & U & H).
    assert (Conv : forall p q, covers r p = true -> den false s q = true ->
      (forall r', In r' (pieces None s) -> covers r' q = true -> r' = r \/ (forall p q, covers r p = true -> covers r' q = true -> lt p q) \/
         (forall p q, covers r p = true -> covers r' q = true -> lt q p))).
    { intros p q _ _ r' Hin' _. pose proof (pieces_sorted s W) as SS.
      assert (Wf : forall k, In k (pieces None s) -> raw_wf k) by (intros; now apply (piece_wf s)).
      clear - SS Hin Hin' Wf. induction SS as [|k l SS IH Fk]; [destruct Hin|]. rewrite Forall_forall in Fk.
      destruct Hin as [<-|Hin], Hin' as [<-|Hin']; auto.
      - right; left. apply separated_pos; auto; apply Wf; simpl; auto.
      - right; right. intros p q Hp Hq. eapply (separated_pos k r); eauto; apply Wf; simpl; auto.
      - apply IH; auto. intros; apply Wf; simpl; auto. }
    split; intros x E.
    - assert (lo = Include x) by congruence. subst lo.
      assert (Cx : covers r (At x) = true) by (apply (covers_bounds r _ (Include x) up); auto; split; auto; cbn; po).
      assert (Dl : den false s (Lo x) = true) by (rewrite B; rewrite (piece_den s r _ W Hin Cx); auto).
      destruct (den_piece s _ W Dl) as (r' & Hin' & C').
      destruct (Conv _ _ Cx Dl r' Hin' C') as [->|[K|K]].
      + apply (covers_bounds r _ (Include x) up) in C'; auto. cbn in C'. destruct C' as [C' _]. po.
      + specialize (K _ _ Cx C'). po.
      + (* r' ends exactly at Lo x: covers up to x, so its upper bound excludes x while x is present *)
        assert (Ex : raw_upper_bound r' = Some (Exclude x)).
        { destruct (piece_bounds s r' W Hin') as (lo' & up' & L' & U' & H').
          rewrite U'. f_equal. apply (covers_bounds r' _ lo' up') in C'; auto. destruct C' as [C1 C2].
          assert (N : covers r' (At x) <> true) by (intros N; specialize (K _ _ Cx N); po).
          assert (N2 : ~ le (At x) (upos up')).
          { intros N3. apply N. apply (covers_bounds r' _ lo' up'); auto. split; auto. clear - C1 O. po. }
          clear - C2 N2 O. destruct up' as [b|b|]; cbn in *; [exfalso; po|f_equal; po|exfalso; po]. }
        apply (upper_excluded s r' x W Hin') in Ex as [_ Ex]. rewrite (piece_den s r _ W Hin Cx) in Ex. discriminate.
    - assert (up = Include x) by congruence. subst up.
      assert (Cx : covers r (At x) = true) by (apply (covers_bounds r _ lo (Include x)); auto; split; auto; cbn; po).
      assert (Dl : den false s (Hi x) = true) by (rewrite A; rewrite (piece_den s r _ W Hin Cx); auto).
      destruct (den_piece s _ W Dl) as (r' & Hin' & C').
      destruct (Conv _ _ Cx Dl r' Hin' C') as [->|[K|K]].
      + apply (covers_bounds r _ lo (Include x)) in C'; auto. cbn in C'. destruct C' as [_ C']. po.
      + assert (Ex : raw_lower_bound r' = Some (Exclude x)).
        { destruct (piece_bounds s r' W Hin') as (lo' & up' & L' & U' & H').
          rewrite L'. f_equal. apply (covers_bounds r' _ lo' up') in C'; auto. destruct C' as [C1 C2].
          assert (N : covers r' (At x) <> true) by (intros N; specialize (K _ _ Cx N); po).
          assert (N2 : ~ le (lpos lo') (At x)).
          { intros N3. apply N. apply (covers_bounds r' _ lo' up'); auto. split; auto. clear - C2 O. po. }
          clear - C1 N2 O. destruct lo' as [b|b|]; cbn in *; [exfalso; po|f_equal; po|exfalso; po]. }
        apply (lower_excluded s r' x W Hin') in Ex as [_ Ex]. rewrite (piece_den s r _ W Hin Cx) in Ex. discriminate.
      + specialize (K _ _ Cx C'). po.
  Qed.

  Lemma open_apart s r r' : wf s -> open_cov (den false s) -> In r (pieces None s) -> In r' (pieces None s) -> separated r r' ->
    apart (inS s) (nrm r) (nrm r').
  Proof.
    intros W Op Hin Hin' Sep. destruct (open_excluded s r W Op Hin) as [_ K], (open_excluded s r' W Op Hin') as [K' _].
    unfold separated in Sep. destruct (raw_upper_bound r) as [[a|a|]|] eqn:U; try contradiction; [now specialize (K a)|].
    destruct (raw_lower_bound r') as [[b|b|]|] eqn:L; try contradiction; [now specialize (K' b)|].
    destruct (proj1 (upper_excluded s r a W Hin) U) as [_ Na].
    exists a. split; [unfold inS; congruence|].
    split; intros y Hy; apply (proj1 (nrm_points _ _)) in Hy; rewrite raw_bounds_contains in Hy.
    - rewrite U in Hy. destruct (raw_lower_bound r) as [[]|]; try contradiction; destruct Hy; auto.
    - rewrite L in Hy. destruct (raw_upper_bound r'); try contradiction; destruct Hy as [Hy _]; cbn [above] in Hy; po.
  Qed.

  (** ** Extremes *)
  Lemma first_open s t : wf (t :: s) -> open_cov (den false (t :: s)) ->
    match tine_into_inner t with
    | Include _ => False
    | Exclude a => exists m, pred m = Some a /\ least (inS (t :: s)) m
    | Infinite => least (inS (t :: s)) MINIMUM
    end.
  Proof.
    intros W (A & B & C & E). pose proof (first_covered s t W) as Fc. pose proof (fun p => first_den s t p W) as Fd.
    destruct (tine_into_inner t) as [a|a|]; cbn [lpos] in *.
    - assert (K : den false (t :: s) (Lo a) = true) by (rewrite B, Fc; auto). apply Fd in K. po.
    - assert (Na : den false (t :: s) (At a) = false).
      { destruct (den false (t :: s) (At a)) eqn:Ea; auto. apply Fd in Ea. po. }
      rewrite A, Na in Fc. simpl in Fc. destruct (succ a) as [m|] eqn:Sm; [|discriminate]. exists m. split.
      + clear - Sm. forder.
      + split; [exact Fc|]. intros x Hx. apply Fd in Hx. assert (lt a x) by po. clear - Sm H. forder.
    - split; [unfold inS; now rewrite <- C|]. intros; apply min_le.
  Qed.
  Lemma last_open s t : wf (s ++ [t]) -> open_cov (den false (s ++ [t])) ->
    match tine_into_inner t with
    | Include _ => False
    | Exclude a => exists m, succ m = Some a /\ greatest (inS (s ++ [t])) m
    | Infinite => greatest (inS (s ++ [t])) MAXIMUM
    end.
  Proof.
    intros W (A & B & C & E). pose proof (last_covered s t W) as Fc. pose proof (fun p => last_den s t p W) as Fd.
    destruct (tine_into_inner t) as [a|a|]; cbn [upos] in *.
    - assert (K : den false (s ++ [t]) (Hi a) = true) by (rewrite A, Fc; auto). apply Fd in K. po.
    - assert (Na : den false (s ++ [t]) (At a) = false).
      { destruct (den false (s ++ [t]) (At a)) eqn:Ea; auto. apply Fd in Ea. po. }
      rewrite B, Na in Fc. simpl in Fc. destruct (pred a) as [m|] eqn:Sm; [|discriminate]. exists m. split.
      + clear - Sm. forder.
      + split; [exact Fc|]. intros x Hx. apply Fd in Hx. assert (lt x a) by po. clear - Sm H. forder.
    - split; [unfold inS; now rewrite <- E|]. intros; apply max_ge.
  Qed.
  Lemma least_unique (P : T -> Prop) m n : least P m -> least P n -> m = n.
  Proof. intros [A B] [C E]. apply B in C. apply E in A. clear - A C. order. Qed.
  Lemma greatest_unique (P : T -> Prop) m n : greatest P m -> greatest P n -> m = n.
  Proof. intros [A B] [C E]. apply B in C. apply E in A. clear - A C. order. Qed.

  Lemma inf_open s m : wf s -> open_cov (den false s) -> least (inS s) m -> sel_infimum s = pred m.
  Proof.
    intros W Op Lm. destruct s as [|t s]; [destruct Lm as [K _]; discriminate K|].
    unfold sel_infimum, tree_lower_bound. simpl. pose proof (first_open s t W Op) as K.
    destruct (tine_into_inner t); simpl; [contradiction| |].
    - destruct K as (m' & E & L). now rewrite (least_unique _ _ _ Lm L), E.
    - rewrite (least_unique _ _ _ Lm K). symmetry. now apply pred_none.
  Qed.
  Lemma sup_open s m : wf s -> open_cov (den false s) -> greatest (inS s) m -> sel_supremum s = succ m.
  Proof.
    intros W Op Lm. destruct (snoc_cases s) as [->|(s' & t & ->)]; [destruct Lm as [K _]; discriminate K|].
    unfold sel_supremum, tree_upper_bound. rewrite last_app_one. simpl. pose proof (last_open s' t W Op) as K.
    destruct (tine_into_inner t); simpl; [contradiction| |].
    - destruct K as (m' & E & L). now rewrite (greatest_unique _ _ _ Lm L), E.
    - rewrite (greatest_unique _ _ _ Lm K). symmetry. now apply succ_none.
  Qed.

  (** A present position has present values on both sides (or at it). *)
  Lemma gapless_below s q x : gapless (den false s) -> den false s q = true -> le q (At x) -> exists y, inS s y /\ le y x.
  Proof.
    intros (A & B & C & E) Hq Hle. destruct q as [|a|a|a|].
    - exists MINIMUM. split; [now apply C|apply min_le].
    - destruct (B a Hq) as [K|(y & Sy & K)]; [exists a|exists y]; (split; [exact K|]); assert (H : le a x) by po; [exact H|clear - Sy H; forder].
    - exists a. split; [exact Hq|]. po.
    - destruct (A a Hq) as [K|(y & Sy & K)]; [exists a|exists y]; (split; [exact K|]); assert (H : lt a x) by po; [clear - H; order|clear - Sy H; forder].
    - exfalso. po.
  Qed.
  Lemma gapless_above s q x : gapless (den false s) -> den false s q = true -> le (At x) q -> exists y, inS s y /\ le x y.
  Proof.
    intros (A & B & C & E) Hq Hle. destruct q as [|a|a|a|].
    - exfalso. po.
    - destruct (B a Hq) as [K|(y & Sy & K)]; [exists a|exists y]; (split; [exact K|]); assert (H : lt x a) by po; [clear - H; order|clear - Sy H; forder].
    - exists a. split; [exact Hq|]. po.
    - destruct (A a Hq) as [K|(y & Sy & K)]; [exists a|exists y]; (split; [exact K|]); assert (H : le x a) by po; [exact H|clear - Sy H; forder].
    - exists MAXIMUM. split; [now apply E|apply max_ge].
  Qed.

  Lemma covers_convex r p q w : covers r p = true -> covers r w = true -> le p q -> le q w -> covers r q = true.
  Proof.
    intros Hp Hw H1 H2. destruct (raw_bounds_cases r) as [(-> & _)|(lo & up & L & U)]; [discriminate|].
    rewrite (covers_bounds r p lo up) in Hp by auto. rewrite (covers_bounds r w lo up) in Hw by auto.
    rewrite (covers_bounds r q lo up) by auto. destruct Hp as [K1 K2], Hw as [K3 K4]. split; po.
  Qed.

  Lemma sel_enclose_ok dbg s : wf s -> gapless (den false s) ->
    exists i, sel_enclose dbg s = Ok i /\ solid (interval_raw i) /\
      forall x, ipoints i x <-> exists y z, inS s y /\ inS s z /\ le y x /\ le x z.
  Proof.
    intros W G. destruct (enclose_ok dbg s W) as (r & E & Wr & Em & Sub & Hull).
    assert (P : forall x, raw_contains r x = true <-> exists y z, inS s y /\ inS s z /\ le y x /\ le x z).
    { intros x. rewrite <- covers_At. split.
      - intros H. destruct (Hull _ H) as (q & w & Hq & Hw & H1 & H2).
        destruct (gapless_below s q x G Hq H1) as (y & Hy & Ly), (gapless_above s w x G Hw H2) as (z & Hz & Lz).
        exists y, z. auto.
      - intros (y & z & Hy & Hz & H1 & H2). apply (covers_convex r (At y) (At x) (At z)); auto; po. }
    exists (mkInterval (normalized r)). unfold sel_enclose. rewrite E. split; auto. split.
    - simpl. destruct (raw_is_empty r) eqn:Er; [destruct r; try discriminate; exact I|].
      destruct (proj1 (raw_nonempty_covers r Wr) Er) as (p & Hp). destruct (Hull _ Hp) as (q & _ & Hq & _).
      destruct (den_piece s q W Hq) as (k & Hk & _). destruct (piece_point s k W G Hk) as (x & Hx).
      apply (point_solid r x); auto. rewrite <- covers_At. apply Sub. apply (piece_den s k); auto. now rewrite covers_At.
    - intros x. unfold ipoints, interval_contains. simpl. now rewrite normalized_contains.
  Qed.

  Lemma gapless_empty s : wf s -> gapless (den false s) -> (s = [] <-> forall x, ~ inS s x).
  Proof.
    intros W G. split; [intros -> x H; discriminate H|]. intros H. apply pieces_nil; auto.
    destruct (pieces None s) as [|r l] eqn:E; auto. exfalso.
    assert (Hin : In r (pieces None s)) by (rewrite E; left; auto).
    destruct (piece_point s r W G Hin) as (x & Hx). apply (H x). apply (piece_den s r); auto. now rewrite covers_At.
  Qed.

  (** ** Bounds *)
  Lemma next_head dbg s : wf s -> exists it, iter_next dbg (tree_interval_iter s) = Ok (hd_error (pieces None s), it).
  Proof.
    intros W. generalize (pieces_drains dbg s W). intros H. inversion H; subst; eauto.
  Qed.
End PSel2.

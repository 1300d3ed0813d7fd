(** * Complement of a tree *)
From Coq Require Import List Bool ZArith Lia Sorted.
From Verif Require Import Base OrdFacts Pos MBound MRaw MTine MBTree MTineTree Spec PRaw PRaw2 PBTree PTree PTreeOps PTreeIsect PTree2 PTree3.
Import ListNotations.

#[local] Arguments cmp : simpl never.

Section PTree4.
  Context {T : Type} {O : Ord T}.
  Implicit Types (t u : Tine T) (s m L R C : list (Tine T)) (p q : pos T) (b c v : bool).

  Definition fin t : bool := match tine_into_inner t with Infinite => false | _ => true end.
  Definition inv t : Tine T :=
    match t with
    | TLower (Include x) => TUpper (Exclude x)
    | TLower (Exclude x) => TUpper (Include x)
    | TPoint (Include x) => TPoint (Exclude x)
    | TPoint (Exclude x) => TPoint (Include x)
    | TUpper (Include x) => TLower (Exclude x)
    | TUpper (Exclude x) => TLower (Include x)
    | _ => t
    end.

  Lemma invert_fin t : fin t = true -> tine_invert t = Ok (inv t).
  Proof. destruct t as [[]|[]|[]]; simpl; try discriminate; reflexivity. Qed.
  Lemma inv_spec t : fin t = true -> okt t = true /\ okt (inv t) = true /\ loc (inv t) = loc t /\ fin (inv t) = true /\
    is_lower_bound (inv t) = negb (is_lower_bound t) /\ is_upper_bound (inv t) = negb (is_upper_bound t) /\
    atv (inv t) = negb (atv t).
  Proof. destruct t as [[]|[]|[]]; simpl; try discriminate; auto 10. Qed.
  Lemma inv_inv t : fin t = true -> inv (inv t) = t.
  Proof. destruct t as [[]|[]|[]]; simpl; try discriminate; auto 10. Qed.

  Definition pre b : list (Tine T) := if b then [TLower Infinite] else [].
  Definition suf b : list (Tine T) := if b then [TUpper Infinite] else [].

  Lemma at_finite t : okt t = true -> fin t = true \/ t = TLower Infinite \/ t = TUpper Infinite.
  Proof. destruct t as [[]|[]|[]]; simpl; try discriminate; auto. Qed.

  (** Infinite tines sit at the ends only. *)
  Lemma infinite_ends s : wf s -> exists a m c,
    s = pre a ++ m ++ suf c /\ Forall (fun t => fin t = true) m /\ chain a m c = true /\ srt m.
  Proof.
    intros [Ss Hc].
    destruct (split2_at (@NInf T) (@PInf T) s) as [L C R c0 vl c1 c2 vu c3 E A A' HL HC HR BL AC BC AR SL SC SR];
      simpl; auto; [reflexivity|split; auto|].
    assert (L = []) as ->.
    { destruct L as [|t L]; auto. inversion BL as [|? ? [_ X] _]; subst. exfalso. now apply (nothing_below_NInf _ X). }
    assert (R = []) as ->.
    { destruct R as [|t R]; auto. inversion AR as [|? ? [_ X] _]; subst. exfalso. now apply (nothing_above_PInf _ X). }
    destruct A as [-> ->], A' as [-> ->].
    exists c1, C, c2. split; [|split; [|auto]].
    - rewrite E. destruct c1, c2; simpl; now rewrite ?app_nil_r.
    - apply Forall_forall. intros t Ht. unfold ab, bl in AC, BC. rewrite Forall_forall in AC, BC.
      destruct (AC t Ht) as [K X], (BC t Ht) as [_ Y].
      destruct (at_finite t K) as [F|[->| ->]]; auto; exfalso; [apply (plt_irrefl _ X)|apply (plt_irrefl _ Y)].
  Qed.

  Definition fins m : Prop := Forall (fun t => fin t = true) m.

  Lemma fin_loc t : fin t = true -> exists x, loc t = At x.
  Proof. destruct t as [[x|x|]|[x|x|]|[x|x|]]; simpl; try discriminate; intros _; exists x; reflexivity. Qed.
  Lemma fins_in m t : fins m -> In t m -> fin t = true.
  Proof. unfold fins. rewrite Forall_forall. auto. Qed.
  Lemma fins_bl m : fins m -> bl PInf m.
  Proof.
    intros F. apply Forall_forall. intros t Ht. pose proof (fins_in m t F Ht) as K. split; [apply (inv_spec t K)|].
    destruct (fin_loc t K) as [x ->]. reflexivity.
  Qed.
  Lemma fins_ab m : fins m -> ab NInf m.
  Proof.
    intros F. apply Forall_forall. intros t Ht. pose proof (fins_in m t F Ht) as K. split; [apply (inv_spec t K)|].
    destruct (fin_loc t K) as [x ->]. reflexivity.
  Qed.

  Lemma pre_den a m p : fins m -> den false (pre a ++ m) p = den a m p.
  Proof.
    intros F. destruct a; simpl; auto. change (loc (TLower Infinite)) with (@NInf T).
    destruct (cmp p NInf) eqn:E; auto.
    - apply cmp_eq in E. subst p. symmetry. apply den_low. intros t Ht. apply (ab_in NInf m t (fins_ab m F) Ht).
    - exfalso. now apply (nothing_below_NInf p).
  Qed.
  Lemma suf_den b m c p : fins m -> chain b m c = true -> den b (m ++ suf c) p = den b m p.
  Proof.
    intros F H. destruct c; [|now rewrite app_nil_r].
    change (suf true) with (opt (mk (@PInf T) true true false) ++ []).
    rewrite (den_split b m _ [] p PInf true true false); simpl; auto; [|apply fins_bl; auto|constructor].
    destruct (cmp p PInf) eqn:E; auto.
    - apply cmp_eq in E. subst p. symmetry. apply den_high; auto. intros t Ht. apply (bl_in PInf m t (fins_bl m F) Ht).
    - apply cmp_gt_lt in E. exfalso. now apply (nothing_above_PInf p).
  Qed.

  Lemma ends_den a m c p : fins m -> chain a m c = true -> den false (pre a ++ m ++ suf c) p = den a m p.
  Proof.
    intros F H. assert (chain false (pre a) a = true) by (destruct a; reflexivity).
    destruct a; simpl pre; simpl app; [|now apply suf_den].
    cbn [den is_lower_bound]. change (loc (TLower Infinite)) with (@NInf T).
    destruct (cmp p NInf) eqn:E.
    - apply cmp_eq in E. subst p. symmetry. rewrite <- (suf_den true m c NInf F H).
      rewrite suf_den by auto. apply den_low. intros t Ht. apply (ab_in NInf m t (fins_ab m F) Ht).
    - exfalso. now apply (nothing_below_NInf p).
    - now apply suf_den.
  Qed.

  Lemma ends_wf a m c : fins m -> srt m -> chain a m c = true -> wf (pre a ++ m ++ suf c).
  Proof.
    intros F S H. split.
    - assert (S1 : srt (m ++ suf c)).
      { 
        destruct c; [|now rewrite app_nil_r]. change (suf true) with (opt (Some (TUpper (@Infinite T))) ++ []).
        apply (srt_glue PInf); simpl; auto; try constructor. now apply fins_bl. }
      destruct a; simpl pre; simpl app; auto. constructor; auto.
      apply Forall_app. split.
      + apply Forall_forall. intros t Ht. apply (ab_in NInf m t (fins_ab m F) Ht).
      + destruct c; repeat constructor.
    - apply chain_app. exists a. split; [destruct a; reflexivity|]. apply chain_app. exists c. split; auto. destruct c; reflexivity.
  Qed.

  Lemma map_inv_fins m : fins m -> fins (map inv m).
  Proof. intros F. apply Forall_map. eapply Forall_impl; [|exact F]. intros t K. apply (inv_spec t K). Qed.
  Lemma map_inv_srt m : fins m -> srt m -> srt (map inv m).
  Proof.
    intros F S. induction S as [|t m S IH H]; simpl; [constructor|]. inversion F; subst. constructor; [apply IH; auto|].
    apply Forall_map. rewrite Forall_forall in H |- *. intros u Hu.
    destruct (inv_spec t) as (_ & _ & -> & _); auto. destruct (inv_spec u) as (_ & _ & -> & _); auto.
    apply (fins_in m); auto.
  Qed.
  Lemma map_inv_chain m : forall b c, fins m -> chain b m c = true -> chain (negb b) (map inv m) (negb c) = true.
  Proof.
    induction m as [|t m IH]; intros b c F H.
    - simpl in *. destruct b, c; auto.
    - inversion F; subst. apply chain_cons in H as (K & <- & H). destruct (inv_spec t) as (_ & K' & _ & _ & E1 & E2 & _); auto.
      cbn [map chain]. rewrite K', E2, E1, eqb_reflx. simpl. apply IH; auto.
  Qed.
  Lemma map_inv_den m : forall b p, fins m -> den (negb b) (map inv m) p = negb (den b m p).
  Proof.
    induction m as [|t m IH]; intros b p F; simpl; auto.
    inversion F; subst. destruct (inv_spec t) as (_ & _ & -> & _ & E1 & E2 & E3); auto.
    destruct (cmp p (loc t)); auto. rewrite E1. now apply IH.
  Qed.

  (** The loop over the middle tines. *)
  Lemma complement_rest_eq l : forall A B, fins l -> srt l ->
    (forall t, In t l -> bl (loc t) A /\ ab (loc t) B) ->
    complement_rest l (A ++ B) = Ok (A ++ map inv l ++ B).
  Proof.
    induction l as [|t l IH]; intros A B F S H; simpl; auto.
    inversion F; subst. inversion S as [|? ? S1 S2]; subst. destruct (inv_spec t) as (_ & K & E & _); auto.
    destruct (H t (or_introl eq_refl)) as [HA HB].
    rewrite invert_fin by auto. cbn [bind].
    rewrite insert_split by (auto; rewrite E; auto).
    change (A ++ inv t :: B) with (A ++ [inv t] ++ B). rewrite app_assoc, IH; auto.
    - now rewrite <- !app_assoc.
    - intros u Hu. destruct (H u (or_intror Hu)) as [HA' HB']. split; auto. apply bl_app. split; auto.
      repeat constructor; auto. rewrite E. rewrite Forall_forall in S2. now apply S2.
  Qed.

  Lemma sorted_mid t m u : srt (t :: m ++ [u]) ->
    srt m /\ Forall (fun w => lt (loc t) (loc w) /\ lt (loc w) (loc u)) m /\ lt (loc t) (loc u).
  Proof.
    intros S. inversion S as [|? ? S1 S2]; subst. apply srt_app in S1 as (S3 & _ & S4). apply Forall_app in S2 as [S5 S6].
    inversion S6; subst. split; auto. split; auto. rewrite Forall_forall in *. intros w Hw. split; auto.
    specialize (S4 w Hw). now inversion S4.
  Qed.

  Lemma first_case t : fin t = true ->
    match t with
    | TLower Infinite => Ok tree_new
    | _ => do t' <- tine_invert t; Ok (btree_insert t' (btree_insert (TLower Infinite) tree_new))
    end = Ok (btree_insert (inv t) [TLower Infinite]).
  Proof. destruct t as [[]|[]|[]]; simpl; try discriminate; reflexivity. Qed.
  Lemma last_case u s : fin u = true ->
    match Some u with
    | Some (TUpper Infinite) => Ok s
    | Some t => do t' <- tine_invert t; Ok (btree_insert t' (btree_insert (TUpper Infinite) s))
    | None => Panic
    end = Ok (btree_insert (inv u) (btree_insert (TUpper Infinite) s)).
  Proof. destruct u as [[]|[]|[]]; simpl; try discriminate; reflexivity. Qed.

  Lemma complement_eq_gen dbg a m c : fins m -> srt m -> (m = [] -> a = c) ->
    (forall t, m = [t] -> a = false -> c = false -> dbg && negb (is_point_exclude (inv t)) = false) ->
    tree_complement dbg (pre a ++ m ++ suf c) = Ok (pre (negb a) ++ map inv m ++ suf (negb c)).
  Proof.
    intros F S HN H1.
    assert (Mid : forall t, fin t = true -> exists x, loc t = At x) by apply fin_loc.
    assert (I1 : forall t, fin t = true -> btree_insert (inv t) [TLower Infinite] = [TLower Infinite; inv t]).
    { intros t K. destruct (inv_spec t K) as (_ & K' & E & _). apply (insert_split (inv t) [TLower Infinite] []); auto.
      - repeat constructor. rewrite E. destruct (Mid t K) as [x ->]. reflexivity.
      - constructor. }
    assert (I2 : forall s, fins s -> btree_insert (TUpper Infinite) (TLower Infinite :: s) = TLower Infinite :: s ++ [TUpper Infinite]).
    { intros s K. rewrite <- (app_nil_r (TLower Infinite :: s)) at 1. rewrite insert_split; auto; [|constructor].
      constructor; [repeat constructor|]. now apply fins_bl. }
    assert (I3 : forall s, fins s -> btree_insert (TUpper Infinite) s = s ++ [TUpper Infinite]).
    { intros s K. rewrite <- (app_nil_r s) at 1. rewrite insert_split; auto; [|constructor]. now apply fins_bl. }
    assert (I4 : forall A u, fin u = true -> bl (loc u) A -> btree_insert (inv u) (A ++ [TUpper Infinite]) = A ++ [inv u; TUpper Infinite]).
    { intros A u K HA. destruct (inv_spec u K) as (_ & K' & E & _). apply insert_split; auto; rewrite E; auto.
      repeat constructor. destruct (Mid u K) as [x ->]. reflexivity. }
    (* the two ends and the middle *)
    destruct a, c; cbn [pre suf app negb].
    - (* [TLower Infinite, m, TUpper Infinite] *)
      unfold tree_complement. destruct (m ++ [TUpper Infinite]) as [|t0 s0] eqn:Em; [destruct m; discriminate|].
      rewrite <- Em. rewrite last_app_one, rest_back_app_one. cbn [bind]. change (@tree_new T) with (@nil (Tine T) ++ []).
      rewrite complement_rest_eq; auto. intros t Ht. split; constructor.
    - (* [TLower Infinite, m', u] *)
      rewrite app_nil_r. destruct (snoc_cases m) as [->|(m' & u & ->)]; [discriminate (HN eq_refl)|].
      unfold tree_complement. destruct (m' ++ [u]) as [|t0 s0] eqn:Em; [destruct m'; discriminate|].
      rewrite <- Em. rewrite last_app_one, rest_back_app_one. rewrite <- Em in F, S. apply Forall_app in F as [Fm Fu]. inversion Fu; subst.
      cbn [bind]. rewrite last_case by auto. rewrite (I3 tree_new), (I4 tree_new) by (auto; constructor). cbn [bind app]. change [inv u; TUpper Infinite] with ([] ++ [inv u; TUpper Infinite]).
      rewrite complement_rest_eq; auto.
      + simpl. rewrite map_app. simpl. now rewrite <- app_assoc.
      + now apply srt_app in S as [? _].
      + intros t Ht. split; [constructor|]. apply srt_app in S as (_ & _ & S). rewrite Forall_forall in S. specialize (S t Ht).
        inversion S; subst. destruct (inv_spec u) as (_ & K' & E & _); auto. pose proof (fins_in m' t Fm Ht) as Ft.
        repeat constructor; auto; [now rewrite E|]. destruct (Mid t Ft) as [x ->]. reflexivity.
    - (* [t, m', TUpper Infinite] *)
      destruct m as [|t m]; [discriminate (HN eq_refl)|]. inversion F as [|? ? Ft Fm]; subst. inversion S as [|? ? Sm St]; subst.
      cbn [app]. unfold tree_complement. destruct (m ++ [TUpper Infinite]) as [|t0 s0] eqn:Em; [destruct m; discriminate|].
      rewrite <- Em. rewrite last_app_one, rest_back_app_one.
      rewrite first_case, I1 by auto. cbn [bind]. rewrite <- (app_nil_r [TLower Infinite; inv t]) at 1.
      rewrite complement_rest_eq; auto. intros u Hu. split; [|constructor].
      destruct (inv_spec t Ft) as (_ & K' & E & _). pose proof (fins_in m u Fm Hu) as Fu.
      rewrite Forall_forall in St. repeat constructor; auto; [|rewrite E; now apply St]. destruct (Mid u Fu) as [x ->]. reflexivity.
    - rewrite app_nil_r. destruct m as [|t m].
      { reflexivity. }
      inversion F as [|? ? Ft Fm]; subst. destruct (snoc_cases m) as [->|(m' & u & ->)].
      + unfold tree_complement. rewrite invert_fin by auto. cbn [bind map app].
        change (btree_insert (TLower Infinite) (@tree_new T)) with [TLower (@Infinite T)]. rewrite I1 by auto.
        unfold debug_assert. rewrite H1 by auto. cbn [bind].
        rewrite I2 by (constructor; [apply (inv_spec t Ft)|constructor]). reflexivity.
      + destruct (sorted_mid t m' u S) as (Sm & HM & Htu).
        apply Forall_app in Fm as [Fm Fu]. inversion Fu as [|? ? Fu' _]; subst.
        unfold tree_complement. destruct (m' ++ [u]) as [|t0 s0] eqn:Em; [destruct m'; discriminate|].
        rewrite <- Em. rewrite last_app_one, rest_back_app_one. rewrite first_case, I1 by auto. cbn [bind].
        rewrite last_case by auto. rewrite I2 by (constructor; [apply (inv_spec t Ft)|constructor]).
        change (TLower Infinite :: [inv t] ++ [TUpper Infinite]) with ([TLower Infinite; inv t] ++ [TUpper (@Infinite T)]).
        assert (Bt : forall w, fin w = true -> lt (loc t) (loc w) -> bl (loc w) [TLower Infinite; inv t]).
        { intros w Fw Hw. destruct (inv_spec t Ft) as (_ & K' & E & _). repeat constructor; auto; [|now rewrite E].
          destruct (Mid w Fw) as [x ->]. reflexivity. }
        rewrite I4 by auto. cbn [bind].
        rewrite complement_rest_eq; auto.
        * simpl. rewrite map_app. simpl. now rewrite <- app_assoc.
        * intros w Hw. rewrite Forall_forall in HM. destruct (HM w Hw) as [H2 H3]. pose proof (fins_in m' w Fm Hw) as Fw.
          split; [now apply Bt|]. destruct (inv_spec u Fu') as (_ & K' & E & _). repeat constructor; auto; [now rewrite E|].
          destruct (Mid w Fw) as [x ->]. reflexivity.
  Qed.

  Lemma complement_eq dbg a m c : fins m -> srt m -> chain a m c = true ->
    tree_complement dbg (pre a ++ m ++ suf c) = Ok (pre (negb a) ++ map inv m ++ suf (negb c)).
  Proof.
    intros F S H. apply complement_eq_gen; auto.
    - intros ->. simpl in H. now apply eqb_prop.
    - intros t -> -> ->. apply chain_cons in H as (_ & U & H).
      inversion F as [|? ? Ft _]; subst. destruct t as [[]|[]|[]]; simpl in *; try discriminate; apply andb_false_r.
  Qed.

  Lemma complement_ok dbg s : wf s ->
    exists s', tree_complement dbg s = Ok s' /\ wf s' /\ forall p, den false s' p = negb (den false s p).
  Proof.
    intros W. destruct (infinite_ends s W) as (a & m & c & -> & F & H & S).
    rewrite complement_eq by auto. eexists. split; [reflexivity|].
    pose proof (map_inv_fins m F). pose proof (map_inv_srt m F S). pose proof (map_inv_chain m a c F H).
    split; [now apply ends_wf|]. intros p. rewrite !ends_den by auto. now apply map_inv_den.
  Qed.
End PTree4.

(** * How a tree reads that an out-of-order interval has broken (C113) *)
From Coq Require Import List Bool ZArith Lia Sorted.
From Verif Require Import Base OrdFacts Pos PFinite MBound MRaw MNormalize MTine MBTree MTineTree Ints MInterval MSelection
  Spec Spec_Tree Instances PRaw PRaw2 PNorm PIter PInterval PBTree PTree PTreeOps PTreeIsect PTree2 PTree3 PTree4 PTree5 PTree6 PTree7
  Properties_Raw Properties_Interval Properties_Public Properties_Exact Properties_Exact3 Properties_Public3 Properties_Public5
  Properties_Public6 Properties_Public7.
Import ListNotations.
Local Open Scope list_scope.
Local Arguments cmp : simpl never.

Section Broken.
  Context {T : Type} {O : Ord T}.
  Implicit Types (r : RawInterval T) (t u : Tine T) (s L R C : list (Tine T)).

  (** A [Point(Exclude)] that nothing leads up to is read as the beginning of an interval. *)
  Lemma swap_drains S b L : forall o l, chain (has o) L false = true -> pend_ok o ->
    drains (iter_next true) {| tine_iter := L ++ TLower (Exclude b) :: S; saved_lower := o; saved_upper := None |} l ->
    drains (iter_next true) {| tine_iter := L ++ TPoint (Exclude b) :: S; saved_lower := o; saved_upper := None |} l.
  Proof.
    induction L as [|t L IH]; intros o l H P D.
    - destruct o; [discriminate|].
      inversion D as [? ? E|? ? ? ? E D']; subst; [eapply drains_nil|eapply drains_cons; [|exact D']]; rewrite <- E; reflexivity.
    - cbn [app] in *. apply chain_cons in H as (K & U & H). destruct o as [w|]; cbn [has] in U.
      + destruct (P w eq_refl) as [Kw Lw].
        assert (X : forall X, iter_next true {| tine_iter := t :: L ++ X; saved_lower := Some w; saved_upper := None |} =
          Ok (Some (raw_new (tine_into_inner w) (tine_into_inner t)),
              {| tine_iter := L ++ X; saved_lower := if is_point_exclude t then Some t else None; saved_upper := None |})).
        { intros X. destruct w as [d|[x|x|]|d]; try discriminate; destruct t as [e|[y|y|]|e]; try discriminate; reflexivity. }
        inversion D as [? ? E|? ? ? ? E D']; subst; rewrite X in E; [discriminate|]. injection E as <- <-.
        eapply drains_cons; [apply X|]. apply IH; auto.
        * destruct t as [e|[y|y|]|e]; cbn in *; auto; discriminate.
        * intros t' E. destruct t as [e|[y|y|]|e]; cbn in *; try discriminate; injection E as <-; auto.
      + destruct (is_lower_bound t) eqn:Lt.
        * assert (X : forall X, iter_next true {| tine_iter := t :: L ++ X; saved_lower := None; saved_upper := None |} =
            iter_next true {| tine_iter := L ++ X; saved_lower := Some t; saved_upper := None |}) by reflexivity.
          assert (D2 : drains (iter_next true) {| tine_iter := L ++ TLower (Exclude b) :: S; saved_lower := Some t; saved_upper := None |} l).
          { inversion D as [? ? E|? ? ? ? E D']; subst; rewrite X in E; [eapply drains_nil; exact E|eapply drains_cons; [exact E|exact D']]. }
          apply IH in D2; auto; [|intros t' E; injection E as <-; auto].
          inversion D2 as [? ? E|? ? ? ? E D']; subst; rewrite <- X in E; [eapply drains_nil; exact E|eapply drains_cons; [exact E|exact D']].
        * destruct t as [e|[y|y|]|e]; try discriminate.
          inversion D as [? ? E|? ? ? ? E D']; subst; cbn in E; [discriminate|]. injection E as <- <-.
          eapply drains_cons; [reflexivity|]. apply IH; auto; intros t0 E0; discriminate.
  Qed.

  (** ** Reading across a junction without a hole next to it *)
  Definition solid_head R : Prop := match R with TPoint (Exclude _) :: _ => False | _ => True end.

  Lemma reads_head R c m : chain c R false = true -> solid_head R -> reads m R = Bool.eqb m c.
  Proof.
    intros H N. destruct (Bool.bool_dec m c) as [->|Q].
    - rewrite eqb_reflx. rewrite <- (app_nil_r R). now rewrite (reads_chain R [] c false H).
    - destruct R as [|t R]; [apply eqb_prop in H; subst c; destruct m; [reflexivity|congruence]|].
      apply chain_cons in H as (K & U & H).
      destruct t as [d|[x|x|]|d], m, c; cbn in *; try discriminate; try reflexivity; try congruence; contradiction.
  Qed.
  Lemma reads_mid C X c1 c2 m : chain c1 C c2 = true -> solid_head C ->
    reads m (C ++ X) = match C with [] => reads m X | _ => Bool.eqb m c1 && reads c2 X end.
  Proof.
    intros H N. destruct C as [|t C]; [reflexivity|]. destruct (Bool.bool_dec m c1) as [->|Q].
    - now rewrite eqb_reflx, (reads_chain _ X c1 c2 H).
    - apply chain_cons in H as (K & U & H).
      destruct t as [d|[x|x|]|d], m, c1; cbn in *; try discriminate; try reflexivity; try congruence; contradiction.
  Qed.

  (** The two results that read although they are broken. *)
  Definition odd_union (iu c0 vu c1 c3 e : bool) : bool := negb iu && negb e && negb c0 && negb vu && c1 && c3.
  Definition odd_minus (il iu c0 vu c1 vl c3 e : bool) : bool := negb iu && e && negb c0 && vu && negb c1 && c3 && negb (vl && negb il).

  Lemma out_reads lb ub a b L C R c0 vu c1 c2 vl c3 :
    (lb = Include a \/ lb = Exclude a) -> (ub = Include b \/ ub = Exclude b) -> lt b a ->
    chain false L c0 = true -> chain c1 C c2 = true -> chain c3 R false = true ->
    bl (At b) L -> ab (At b) C -> bl (At a) C -> ab (At a) R -> solid_head C -> solid_head R ->
    let s := L ++ opt (mk (At b) c0 vu c1) ++ C ++ opt (mk (At a) c2 vl c3) ++ R in
    let e := match C with [] => true | _ => false end in
    let il := incl_b lb in let iu := incl_b ub in
    match union_proper_interval true (TLower lb) (TUpper ub) s with
    | Ok s' => chain false s' false = true /\ odd_union iu c0 vu c1 c3 e = false \/
        chain false s' false = false /\ odd_union iu c0 vu c1 c3 e = false /\ reads false s' = false \/
        chain false s' false = false /\ odd_union iu c0 vu c1 c3 e = true /\
        s' = L ++ TPoint (Exclude b) :: C ++ opt (mk (At a) c2 (vl || il) c3) ++ R
    | Panic => True
    end /\
    match minus_proper_interval true (TLower lb) (TUpper ub) s with
    | Ok s' => chain false s' false = true /\ odd_minus il iu c0 vu c1 vl c3 e = false \/
        chain false s' false = false /\ odd_minus il iu c0 vu c1 vl c3 e = false /\ reads false s' = false \/
        chain false s' false = false /\ odd_minus il iu c0 vu c1 vl c3 e = true /\ s' = L ++ TPoint (Exclude b) :: C ++ R
    | Panic => True
    end.
  Proof.
    intros La Ub H HL HC HR BL AC BC AR NC NR s e il iu.
    assert (Ll : loc (TLower lb) = At a) by (destruct La as [->| ->]; reflexivity).
    assert (Lu : loc (TUpper ub) = At b) by (destruct Ub as [->| ->]; reflexivity).
    assert (H' : lt (At b) (At a)) by exact H.
    assert (BL' : bl (At a) L) by (eapply bl_weaken; eauto).
    assert (AR' : ab (At b) R) by (eapply ab_weaken; eauto).
    assert (X : exterior_split_for_proper_interval (TLower lb) (TUpper ub) s =
      ((btree_last (L ++ C), mk (At a) c2 vl c3, mk (At b) c0 vu c1, btree_first R), L ++ C ++ R)).
    { apply ext_out; rewrite ?Ll, ?Lu; auto; apply mk_at. }
    unfold union_proper_interval, minus_proper_interval. rewrite X, (chain_first R c3 HR).
    assert (Ho : is_some_and is_lower_bound (btree_last (L ++ C)) = if e then c0 else c2).
    { subst e. destruct C as [|t C]; [rewrite app_nil_r; now apply chain_last|].
      rewrite last_app by discriminate. apply (chain_last_some (t :: C) c1); auto. discriminate. }
    rewrite Ho.
    assert (Hc : e = true -> c1 = c2).
    { subst e. destruct C; [|discriminate]. intros _. now apply eqb_prop in HC. }
    set (sel := fun x y : option (Tine T) => L ++ opt x ++ C ++ opt y ++ R).
    assert (E0 : L ++ C ++ R = sel None None) by reflexivity.
    assert (E1 : forall y, L ++ TPoint (Exclude b) :: C ++ opt y ++ R = sel (Some (TPoint (Exclude b))) y) by reflexivity.
    assert (E2 : L ++ TPoint (Exclude b) :: C ++ R = sel (Some (TPoint (Exclude b))) None) by reflexivity.
    assert (BC2 : forall x, at_loc (At b) x -> bl (At a) (L ++ opt x ++ C)).
    { intros x Hx. apply bl_app. split; auto. apply bl_app. split; auto. destruct x; repeat constructor; destruct Hx as [? Ex]; auto. now rewrite Ex. }
    assert (Ja : forall t x, okt t = true -> loc t = At a -> at_loc (At b) x -> btree_insert t (sel x None) = sel x (Some t)).
    { intros t x K E Hx. unfold sel. cbn [opt app]. rewrite 2 app_assoc, <- (app_assoc L). rewrite (insert_split t (L ++ opt x ++ C) R); rewrite ?E; auto.
      now rewrite <- !app_assoc. }
    assert (AC2 : forall y, at_loc (At a) y -> ab (At b) (C ++ opt y ++ R)).
    { intros y Hy. apply ab_app. split; auto. apply ab_app. split; auto. destruct y; repeat constructor; destruct Hy as [? Ey]; auto. now rewrite Ey. }
    assert (Jb : forall t y, okt t = true -> loc t = At b -> at_loc (At a) y -> btree_insert t (sel None y) = sel (Some t) y).
    { intros t y K E Hy. unfold sel. cbn [opt app]. rewrite (insert_split t L); rewrite ?E; auto. }
    assert (Ch : forall x y, chain false (sel x y) false =
      let f := fun m => match y with None => Bool.eqb m c3 | Some t => okt t && Bool.eqb m (is_upper_bound t) && Bool.eqb (is_lower_bound t) c3 end in
      let g := fun m => if e then f m else Bool.eqb m c1 && f c2 in
      match x with None => g c0 | Some t => okt t && Bool.eqb c0 (is_upper_bound t) && g (is_lower_bound t) end).
    { intros x y. unfold sel. rewrite (chain_left _ _ _ _ _ HL). cbv zeta.
      assert (F : forall m, chain m (opt y ++ R) false =
        match y with None => Bool.eqb m c3 | Some t => okt t && Bool.eqb m (is_upper_bound t) && Bool.eqb (is_lower_bound t) c3 end).
      { intros m. destruct y; cbn; now rewrite (chain_head R c3). }
      assert (G : forall m, chain m (C ++ opt y ++ R) false =
        if e then match y with None => Bool.eqb m c3 | Some t => okt t && Bool.eqb m (is_upper_bound t) && Bool.eqb (is_lower_bound t) c3 end
        else Bool.eqb m c1 && match y with None => Bool.eqb c2 c3 | Some t => okt t && Bool.eqb c2 (is_upper_bound t) && Bool.eqb (is_lower_bound t) c3 end).
      { intros m. rewrite (chain_mid _ _ _ _ _ _ HC), !F. subst e. destruct C; reflexivity. }
      destruct x; cbn; now rewrite G. }
    (* one tine, then what follows *)
    set (step := fun m (o : option (Tine T)) (k : bool -> bool) => match o with None => k m
      | Some (TLower _) => negb m && k true | Some (TPoint (Include _)) => negb m && k false
      | Some (TPoint (Exclude _)) => k true | Some (TPoint Infinite) => false | Some (TUpper _) => m && k false end).
    assert (St : forall m o X, reads m (opt o ++ X) = step m o (fun m' => reads m' X)).
    { intros m [[d|[x|x|]|d]|] Y; reflexivity. }
    assert (Rd : forall x y, reads false (sel x y) =
      let f := fun m => step m y (fun m' => Bool.eqb m' c3) in
      step c0 x (fun m => if e then f m else Bool.eqb m c1 && f c2)).
    { intros x y. unfold sel. rewrite (reads_chain _ _ _ _ HL), St. cbv zeta.
      assert (F : forall m, reads m (opt y ++ R) = step m y (fun m' => Bool.eqb m' c3)).
      { intros m. rewrite St. unfold step. destruct y as [[d|[z|z|]|d]|]; rewrite ?(reads_head R c3) by auto; reflexivity. }
      assert (G : forall m, reads m (C ++ opt y ++ R) = if e then step m y (fun m' => Bool.eqb m' c3) else Bool.eqb m c1 && step c2 y (fun m' => Bool.eqb m' c3)).
      { intros m. rewrite (reads_mid C _ c1 c2) by auto. subst e. destruct C; now rewrite F. }
      unfold step at 1 3. destruct x as [[d|[z|z|]|d]|]; now rewrite ?G. }
    unfold step in Rd. clear St step.
    subst s. rewrite E0, E1, E2. clear Ll Lu X Ho E0 E1 E2 AC2 BC2 HL HC HR BL AC BC AR BL' AR' H' NC NR. clearbody e sel.
    subst il iu. unfold odd_union, odd_minus.
    destruct La as [->| ->], Ub as [->| ->], c0, vu, c1, c2, vl, c3, e; try (specialize (Hc eq_refl); discriminate); clear Hc.
    all: cbn [mk incl_b Bool.eqb andb orb negb implb xorb]; unfold tine_union, tine_minus, debug_assert; cbn [opt_eqb tine_as_ref bound_as_ref].
    all: rewrite ?eqb_refl; cbn -[btree_insert chain reads];
      repeat first [ rewrite Ja by (try reflexivity; exact I) | rewrite Jb by (try reflexivity; repeat split; reflexivity) | rewrite Ja by (repeat split; reflexivity) ].
    all: split; first [exact I | rewrite Ch; first [left; split; reflexivity | right; left; rewrite Rd; split; [reflexivity|split; reflexivity] |
      right; right; split; [reflexivity|split; reflexivity]]].
  Qed.

  (** A hole of the tree, a value missing between two of its intervals, shows in its list. *)
  Lemma hole_in s x : wf s -> In (TPoint (Exclude x)) s ->
    filled_below (pieces None s) x /\ filled_above (pieces None s) x /\ ~ some_contains (pieces None s) x.
  Proof.
    intros W Hin. rewrite filled_below_den, filled_above_den, at_den by auto. assert (W' := W). destruct W' as [Ss Hc].
    destruct (split_at (At x) false s false) as (L & R & c0 & v & c1 & E & A & HL & HR & BL & AR & SL & SR); auto; try discriminate; try exact I.
    assert (M : mk (At x) c0 v c1 = Some (TPoint (Exclude x))).
    { rewrite E in Hin. apply in_app_or in Hin as [Q|Q]; [|apply in_app_or in Q as [Q|Q]].
      - apply (bl_in (At x) L) in Q; auto. now apply lt_irrefl in Q.
      - destruct (mk (At x) c0 v c1); [|contradiction]. destruct Q as [->|[]]. reflexivity.
      - apply (ab_in (At x) R) in Q; auto. now apply lt_irrefl in Q. }
    rewrite E, den_Lo, den_At, den_Hi by auto. destruct c0, v, c1; cbn in M; try discriminate. split; [|split]; auto; discriminate.
  Qed.
  Lemma solid_heads L X C Y R a b c : wf (L ++ X ++ C ++ Y ++ R) -> ab (At b) C -> bl (At a) C -> ab (At a) R -> lt b a ->
    c = pieces None (L ++ X ++ C ++ Y ++ R) ->
    (forall x, lt b x -> x <> a -> filled_below c x -> filled_above c x -> some_contains c x) ->
    solid_head C /\ solid_head R.
  Proof.
    intros W AC BC AR H -> N. split.
    - destruct C as [|t C]; cbn; auto. destruct t as [|[x|x|]|]; auto. destruct (hole_in _ x W) as (F & G & K).
      { apply in_or_app. right. apply in_or_app. right. cbn. auto. }
      apply K, N; auto.
      + exact (ab_in (At b) _ _ AC (or_introl eq_refl)).
      + intros ->. assert (Q := bl_in (At a) _ _ BC (or_introl eq_refl)). now apply lt_irrefl in Q.
    - destruct R as [|t R]; cbn; auto. destruct t as [|[x|x|]|]; auto. destruct (hole_in _ x W) as (F & G & K).
      { do 4 (apply in_or_app; right). cbn. auto. }
      assert (Q : lt a x) by exact (ab_in (At a) _ _ AR (or_introl eq_refl)).
      apply K, N; auto; [clear - Q H; order|]. intros ->. now apply lt_irrefl in Q.
  Qed.

  (** Whatever chains after such a call is well formed. *)
  Lemma out_wf lb ub a b L C R c0 vu c1 c2 vl c3 s' :
    (lb = Include a \/ lb = Exclude a) -> (ub = Include b \/ ub = Exclude b) -> lt b a ->
    chain false L c0 = true -> chain c1 C c2 = true -> chain c3 R false = true ->
    bl (At b) L -> ab (At b) C -> bl (At a) C -> ab (At a) R -> srt L -> srt C -> srt R -> chain false s' false = true ->
    let s := L ++ opt (mk (At b) c0 vu c1) ++ C ++ opt (mk (At a) c2 vl c3) ++ R in
    (union_proper_interval true (TLower lb) (TUpper ub) s = Ok s' -> wf s') /\
    (minus_proper_interval true (TLower lb) (TUpper ub) s = Ok s' -> wf s').
  Proof.
    intros La Ub H HL HC HR BL AC BC AR SL SC SR Q s.
    destruct (out_result true lb ub a b L C R c0 vu c1 c2 vl c3 La Ub H HL HC HR BL AC BC AR) as [U M]. cbv zeta in U, M. fold s in U, M.
    assert (F : forall v1 m v2, let e := match C with [] => true | _ => false end in
      wf (L ++ opt (mk (At b) c0 v1 (if e then m else c1)) ++ C ++ opt (mk (At a) (if e then m else c2) v2 c3) ++ R)).
    { intros v1 m v2 e. apply wf_split2; auto; try exact I. subst e. destruct C; [cbn; apply eqb_reflx|auto]. }
    assert (Qe : forall x y : list (Tine T), Ok x = Ok y -> x = y) by congruence.
    split; intros E.
    - destruct (out_ok _ _ _ _ _ _ _ _ _); [rewrite U in E; apply Qe in E; subst s'; apply F|apply U in E; congruence].
    - destruct (out_ok _ _ _ _ _ _ _ _ _ || _); [rewrite M in E; apply Qe in E; subst s'; apply F|apply M in E; congruence].
  Qed.

  Lemma not_true_negb' (x : bool) : ~ x = true <-> negb x = true.
  Proof. rewrite negb_true_iff. apply not_true_iff_false. Qed.
  Ltac to_bool' := repeat first [rewrite not_true_negb' | rewrite <- andb_true_iff | rewrite <- orb_true_iff].

  (** Trees without holes beyond the upper end: after an out-of-order interval is added, a
      tree that is no longer well formed cannot be read with debug assertions, but for one case.
      The interval excludes its upper end [b], an interval of the tree begins just after [b] and ends
      before [a], and the tree goes on after [a].  Then the values are as before, with [a]
      if the interval includes it. *)
  Theorem C113_union_reads_partial s l r lb ub a b : tree_wf s -> intervals_are true s l -> written r lb ub a b -> lt b a ->
    (forall x, lt b x -> x <> a -> filled_below l x -> filled_above l x -> some_contains l x) ->
    let odd := ub = Exclude b /\ ~ filled_below l b /\ ~ some_contains l b /\ filled_above l b /\ ~ bare l b a /\ filled_above l a in
    forall s', tree_union_in_place true s r = Ok s' -> ~ tree_wf s' ->
    (~ odd -> iter_collect true (tree_interval_iter s') = Panic) /\
    (odd -> exists l', intervals_are true s' l' /\
       forall x, some_contains l' x <-> some_contains l x \/ x = a /\ lb = Include a).
  Proof.
    intros W Hl Wr H N odd s' EU NW. subst odd. apply wf_tree_wf in W. rewrite (intervals_pieces true s l W Hl) in *. clear Hl l.
    assert (NP : forall x, r <> Point x).
    { intros x ->. destruct Wr as (A & B & [-> | ->] & [-> | ->]); cbn in A, B; try discriminate. injection A as ->. injection B as ->.
      now apply lt_irrefl in H. }
    destruct (written_tines r lb ub a b Wr NP) as (Et & Ef & Ee). destruct Wr as (_ & _ & La & Ub).
    destruct (split2_at (At b) (At a) s) as [L C R c0 vu c1 c2 vl c3 Hs A A' HL HC HR BL AC BC AR SL SC SR]; auto; try exact I.
    assert (B := between_steady a b L C R c0 vu c1 c2 vl c3 H HL HC HR BL AC BC AR SL SC SR). cbv zeta in B. rewrite <- Hs in B.
    destruct (near_split (Include b) (Include a) L C R c0 vu c1 c2 vl c3) as [N1 N2]; auto.
    change (loc (TLower (Include b))) with (At b) in N1. change (loc (TUpper (Include a))) with (At a) in N1.
    change (loc (TLower (Include b))) with (At b) in N2. change (loc (TUpper (Include a))) with (At a) in N2.
    rewrite <- Hs in N1, N2. cbn in N1, N2. injection N1 as D1 D2 D3. injection N2 as D4 D5 D6.
    assert (H' : lt (At b) (At a)) by exact H.
    assert (SH : solid_head C /\ solid_head R).
    { eapply (solid_heads L (opt (mk (At b) c0 vu c1)) C (opt (mk (At a) c2 vl c3)) R a b (pieces None s)); eauto; rewrite <- Hs; auto. }
    destruct SH as [SHC SHR].
    destruct (out_reads lb ub a b L C R c0 vu c1 c2 vl c3 La Ub H HL HC HR BL AC BC AR SHC SHR) as [U _]. cbv zeta in U.
    rewrite <- Hs in U.
    assert (EU' : tree_union_in_place true s r = union_proper_interval true (TLower lb) (TUpper ub) s)
      by (unfold tree_union_in_place; now rewrite Ef, Et).
    rewrite <- EU', EU in U. set (e := match C with [] => true | _ => false end) in *.
    assert (EC : C = [] <-> e = true) by (unfold e; destruct C; split; congruence).
    assert (Iu' : ub = Exclude b <-> negb (incl_b ub) = true) by (destruct Ub as [-> | ->]; cbn; split; congruence).
    assert (Il : lb = Include a <-> incl_b lb = true) by (destruct La as [-> | ->]; cbn; split; congruence).
    assert (Bb : bare (pieces None s) b a <-> e = true) by (unfold bare; rewrite B; exact EC).
    assert (Hodd : (ub = Exclude b /\ ~ filled_below (pieces None s) b /\ ~ some_contains (pieces None s) b /\ filled_above (pieces None s) b /\
      ~ bare (pieces None s) b a /\ filled_above (pieces None s) a) <-> odd_union (incl_b ub) c0 vu c1 c3 e = true).
    { rewrite Bb, filled_below_den, at_den, !filled_above_den, D1, D2, D3, D6, Iu' by auto. unfold odd_union. generalize (incl_b ub). clear. intros iu.
      to_bool'. destruct c0, vu, c1, c3, e, iu; reflexivity. }
    rewrite Hodd. clear Hodd Bb B Iu'.
    assert (Bad : chain false s' false = true -> False).
    { intros Q. apply NW, wf_tree_wf. rewrite EU' in EU. rewrite Hs in EU.
      eapply (proj1 (out_wf lb ub a b L C R c0 vu c1 c2 vl c3 s' La Ub H HL HC HR BL AC BC AR SL SC SR Q)); eauto. }
    clear EU EU'. destruct U as [[Q _]|[(_ & -> & Q)|(_ & Q & ->)]].
    - now apply Bad in Q.
    - split; [intros _; now apply unreadable|discriminate].
    - split; [intros X; congruence|intros _].
      set (s2 := L ++ TLower (Exclude b) :: C ++ opt (mk (At a) c2 (vl || incl_b lb) c3) ++ R).
      unfold odd_union in Q. rewrite !andb_true_iff, !negb_true_iff in Q. destruct Q as (((((_ & Qe) & ->) & ->) & ->) & ->).
      assert (W2 : wf s2) by (apply (wf_split2 (At b) (At a) L C R false false true c2 (vl || incl_b lb) true); auto; exact I).
      assert (P : forall p, den false s2 p = match cmp p (At b) with Lt => den false L p | Eq => false
        | Gt => match cmp p (At a) with Lt => den true C p | Eq => vl || incl_b lb | Gt => den true R p end end).
      { intros p. exact (den_split2 p (At b) (At a) L C R false false true c2 (vl || incl_b lb) true H' I I HL HC BL AC BC AR). }
      assert (P0 : forall p, den false s p = match cmp p (At b) with Lt => den false L p | Eq => false
        | Gt => match cmp p (At a) with Lt => den true C p | Eq => vl | Gt => den true R p end end).
      { intros p. rewrite Hs. exact (den_split2 p (At b) (At a) L C R false false true c2 vl true H' I I HL HC BL AC BC AR). }
      exists (pieces None s2). split; [apply swap_drains; auto; [intros ? X; discriminate|now apply pieces_drains]|].
      intros x. rewrite !at_den by auto. rewrite P, P0, Il. destruct (cmp (At x) (At b)) eqn:X.
      + apply cmp_eq in X. injection X as ->. split; [discriminate|]. intros [X|[-> _]]; [discriminate|]. now apply lt_irrefl in H.
      + split; auto. intros [X'|[-> _]]; auto. change (lt a b) in X. exfalso. clear - H X. order.
      + destruct (cmp (At x) (At a)) eqn:Y.
        * apply cmp_eq in Y. injection Y as ->. rewrite orb_true_iff. intuition congruence.
        * split; auto. intros [Y'|[-> _]]; auto. change (lt a a) in Y. now apply lt_irrefl in Y.
        * split; auto. intros [Y'|[-> _]]; auto. apply cmp_gt_lt in Y. now apply lt_irrefl in Y.
  Qed.

  (** Removing one: the case that reads has the value [b] alone in the tree, excluded by the
      interval, nothing of the tree between [b] and [a], and the tree going on after [a]
      (unless [a] is in the tree and not in the interval).  Then [b] goes, and all that lies
      between the two comes, [a] included. *)
  Theorem C113_minus_reads_partial s l r lb ub a b : tree_wf s -> intervals_are true s l -> written r lb ub a b -> lt b a ->
    (forall x, lt b x -> x <> a -> filled_below l x -> filled_above l x -> some_contains l x) ->
    let odd := ub = Exclude b /\ ~ filled_below l b /\ some_contains l b /\ ~ filled_above l b /\ bare l b a /\ filled_above l a /\
               ~ (some_contains l a /\ lb = Exclude a) in
    forall s', tree_minus_in_place true s r = Ok s' -> ~ tree_wf s' ->
    (~ odd -> iter_collect true (tree_interval_iter s') = Panic) /\
    (odd -> exists l', intervals_are true s' l' /\
       forall x, some_contains l' x <-> some_contains l x /\ x <> b \/ lt b x /\ (lt x a \/ x = a)).
  Proof.
    intros W Hl Wr H N odd s' EU NW. subst odd. apply wf_tree_wf in W. rewrite (intervals_pieces true s l W Hl) in *. clear Hl l.
    assert (NP : forall x, r <> Point x).
    { intros x ->. destruct Wr as (A & B & [-> | ->] & [-> | ->]); cbn in A, B; try discriminate. injection A as ->. injection B as ->.
      now apply lt_irrefl in H. }
    destruct (written_tines r lb ub a b Wr NP) as (Et & Ef & Ee). destruct Wr as (_ & _ & La & Ub).
    destruct (split2_at (At b) (At a) s) as [L C R c0 vu c1 c2 vl c3 Hs A A' HL HC HR BL AC BC AR SL SC SR]; auto; try exact I.
    assert (B := between_steady a b L C R c0 vu c1 c2 vl c3 H HL HC HR BL AC BC AR SL SC SR). cbv zeta in B. rewrite <- Hs in B.
    destruct (near_split (Include b) (Include a) L C R c0 vu c1 c2 vl c3) as [N1 N2]; auto.
    change (loc (TLower (Include b))) with (At b) in N1. change (loc (TUpper (Include a))) with (At a) in N1.
    change (loc (TLower (Include b))) with (At b) in N2. change (loc (TUpper (Include a))) with (At a) in N2.
    rewrite <- Hs in N1, N2. cbn in N1, N2. injection N1 as D1 D2 D3. injection N2 as D4 D5 D6.
    assert (H' : lt (At b) (At a)) by exact H.
    assert (SH : solid_head C /\ solid_head R).
    { eapply (solid_heads L (opt (mk (At b) c0 vu c1)) C (opt (mk (At a) c2 vl c3)) R a b (pieces None s)); eauto; rewrite <- Hs; auto. }
    destruct SH as [SHC SHR].
    destruct (out_reads lb ub a b L C R c0 vu c1 c2 vl c3 La Ub H HL HC HR BL AC BC AR SHC SHR) as [_ U]. cbv zeta in U.
    rewrite <- Hs in U.
    assert (EU' : tree_minus_in_place true s r = minus_proper_interval true (TLower lb) (TUpper ub) s).
    { unfold tree_minus_in_place. rewrite Ee, orb_false_r, Ef, Et. destruct s; [|reflexivity]. cbn [tree_is_empty].
      clear - La Ub. destruct La as [-> | ->], Ub as [-> | ->]; reflexivity. }
    rewrite <- EU', EU in U. set (e := match C with [] => true | _ => false end) in *.
    assert (EC : C = [] <-> e = true) by (unfold e; destruct C; split; congruence).
    assert (Iu' : ub = Exclude b <-> negb (incl_b ub) = true) by (destruct Ub as [-> | ->]; cbn; split; congruence).
    assert (Il' : lb = Exclude a <-> negb (incl_b lb) = true) by (destruct La as [-> | ->]; cbn; split; congruence).
    assert (Bb : bare (pieces None s) b a <-> e = true) by (unfold bare; rewrite B; exact EC).
    assert (Hodd : (ub = Exclude b /\ ~ filled_below (pieces None s) b /\ some_contains (pieces None s) b /\ ~ filled_above (pieces None s) b /\
      bare (pieces None s) b a /\ filled_above (pieces None s) a /\ ~ (some_contains (pieces None s) a /\ lb = Exclude a)) <->
      odd_minus (incl_b lb) (incl_b ub) c0 vu c1 vl c3 e = true).
    { rewrite Bb, filled_below_den, !at_den, !filled_above_den, D1, D2, D3, D5, D6, Iu', Il' by auto. unfold odd_minus.
      generalize (incl_b ub) (incl_b lb). clear. intros iu il. to_bool'. destruct c0, vu, c1, c3, e, iu, vl, il; reflexivity. }
    rewrite Hodd. clear Hodd Bb B Iu'.
    assert (Bad : chain false s' false = true -> False).
    { intros Q. apply NW, wf_tree_wf. rewrite EU' in EU. rewrite Hs in EU.
      eapply (proj2 (out_wf lb ub a b L C R c0 vu c1 c2 vl c3 s' La Ub H HL HC HR BL AC BC AR SL SC SR Q)); eauto. }
    clear EU EU'. destruct U as [[Q _]|[(_ & -> & Q)|(_ & Q & ->)]].
    - now apply Bad in Q.
    - split; [intros _; now apply unreadable|discriminate].
    - split; [intros X; congruence|intros _].
      unfold odd_minus in Q. rewrite !andb_true_iff, !negb_true_iff in Q. destruct Q as ((((((_ & Qe) & ->) & ->) & ->) & ->) & _).
      apply EC in Qe. subst C. cbn in HC. destruct c2; [discriminate|]. clear EC. set (s2 := L ++ TLower (Exclude b) :: [] ++ opt (mk (At a) true true true) ++ R).
      assert (W2 : wf s2) by (apply (wf_split2 (At b) (At a) L [] R false false true true true true); auto; exact I).
      assert (P : forall p, den false s2 p = match cmp p (At b) with Lt => den false L p | Eq => false
        | Gt => match cmp p (At a) with Lt => true | Eq => true | Gt => den true R p end end).
      { intros p. exact (den_split2 p (At b) (At a) L [] R false false true true true true H' I I HL eq_refl BL AC BC AR). }
      assert (P0 : forall p, den false s p = match cmp p (At b) with Lt => den false L p | Eq => true
        | Gt => match cmp p (At a) with Lt => den false [] p | Eq => vl | Gt => den true R p end end).
      { intros p. rewrite Hs. exact (den_split2 p (At b) (At a) L [] R false true false false vl true H' I I HL eq_refl BL AC BC AR). }
      exists (pieces None s2). split; [apply (swap_drains R b L None); auto; [intros ? X; discriminate|now apply pieces_drains]|].
      intros x. rewrite !at_den by auto. rewrite P, P0. destruct (cmp (At x) (At b)) eqn:X.
      + apply cmp_eq in X. injection X as ->. split; [discriminate|]. intros [[_ X]|[X _]]; [congruence|now apply lt_irrefl in X].
      + change (lt x b) in X. split; [intros Y; left; split; auto; intros ->; now apply lt_irrefl in X|].
        intros [[Y _]|[Y _]]; auto. exfalso. clear - X Y. order.
      + apply cmp_gt_lt in X. change (lt b x) in X. destruct (cmp (At x) (At a)) eqn:Y.
        * apply cmp_eq in Y. injection Y as ->. split; auto.
        * split; auto.
        * apply cmp_gt_lt in Y. change (lt a x) in Y. split; [intros Z; left; split; auto; intros ->; now apply lt_irrefl in X|].
          intros [[Z _]|[_ [Z|Z]]]; auto; exfalso; [clear - Y Z; order|subst x; now apply lt_irrefl in Y].
  Qed.

  (** Both ends at one value, written as an interval with two ends: such a case does not occur. *)
  Theorem C113_one_value_reads_partial s l r lb ub a : tree_wf s -> intervals_are true s l -> written r lb ub a a -> (forall x, r <> Point x) ->
    (forall x, lt a x -> filled_below l x -> filled_above l x -> some_contains l x) ->
    forall s', tree_union_in_place true s r = Ok s' \/ tree_minus_in_place true s r = Ok s' -> ~ tree_wf s' ->
    iter_collect true (tree_interval_iter s') = Panic.
  Proof.
    intros W Hl Wr NP N s' EU NW. apply wf_tree_wf in W. rewrite (intervals_pieces true s l W Hl) in N. clear Hl l.
    destruct (written_tines r lb ub a a Wr NP) as (Et & Ef & Ee). destruct Wr as (_ & _ & La & Ub).
    assert (Ll : loc (TLower lb) = At a) by (destruct La as [->| ->]; reflexivity).
    assert (Lu : loc (TUpper ub) = At a) by (destruct Ub as [->| ->]; reflexivity).
    assert (W' := W). destruct W' as [Ss Hc].
    destruct (split_at (At a) false s false) as (L & R & c0 & v & c1 & E & A & HL & HR & BL & AR & SL & SR); auto; try discriminate; try exact I.
    assert (SHR : solid_head R).
    { destruct R as [|t R]; cbn; auto. destruct t as [|[x|x|]|]; auto. destruct (hole_in s x W) as (F & G & K).
      { rewrite E. do 2 (apply in_or_app; right). cbn. auto. }
      apply K, N; auto. exact (ab_in (At a) _ _ AR (or_introl eq_refl)). }
    assert (X : exterior_split_for_proper_interval (TLower lb) (TUpper ub) s = ((btree_last L, mk (At a) c0 v c1, None, btree_first R), L ++ R)).
    { unfold exterior_split_for_proper_interval. rewrite E.
      rewrite (take_split (TLower lb) L _ R) by (rewrite ?Ll; auto; apply mk_at).
      assert (Q := take_split (TUpper ub) L None R). cbn [opt app] in Q. rewrite Q by (rewrite ?Lu; auto; exact I).
      rewrite (split_off_split (TLower lb) L R) by (rewrite ?Ll; auto).
      assert (Q' : btree_split_off (TUpper ub) R = ([], R)) by (apply (split_off_split _ [] R); rewrite ?Lu; auto; constructor).
      now rewrite Q', (append_split (At a)) by auto. }
    set (sel := fun x : option (Tine T) => L ++ opt x ++ R).
    assert (Ch : forall x, at_loc (At a) x -> chain false (sel x) false = true -> tree_wf (sel x)).
    { intros x Hx Q. apply wf_tree_wf. split; auto. apply (srt_glue (At a)); auto. }
    assert (Ch2 : forall x, chain false (sel x) false =
      match x with None => Bool.eqb c0 c1 | Some t => okt t && Bool.eqb c0 (is_upper_bound t) && Bool.eqb (is_lower_bound t) c1 end).
    { intros x. unfold sel. rewrite (chain_left _ _ _ _ _ HL). destruct x; cbn; now rewrite (chain_head R c1). }
    assert (Rd : forall x, reads false (sel x) = match x with None => Bool.eqb c0 c1
      | Some (TLower _) => negb c0 && c1 | Some (TPoint (Include _)) => negb c0 && negb c1
      | Some (TPoint (Exclude _)) => c1 | Some (TPoint Infinite) => false | Some (TUpper _) => c0 && negb c1 end).
    { intros x. unfold sel. rewrite (reads_chain _ _ _ _ HL).
      destruct x as [[d|[z|z|]|d]|]; cbn -[reads]; cbn [reads]; rewrite ?(reads_head R c1) by auto; destruct c1; reflexivity. }
    assert (J : forall t, okt t = true -> loc t = At a -> btree_insert t (sel None) = sel (Some t)).
    { intros t K Q. unfold sel. cbn [opt app]. apply insert_split; rewrite ?Q; auto. }
    assert (J2 : forall t u, okt t = true -> loc t = At a -> okt u = true -> loc u = At a -> btree_insert u (sel (Some t)) = sel (Some t)).
    { intros t u K Q K' Q'. unfold sel. cbn [opt app]. apply insert_same; auto; rewrite ?Q; congruence || auto. }
    assert (EU1 : tree_union_in_place true s r = union_proper_interval true (TLower lb) (TUpper ub) s)
      by (unfold tree_union_in_place; now rewrite Ef, Et).
    assert (EM : tree_minus_in_place true s r = minus_proper_interval true (TLower lb) (TUpper ub) s).
    { unfold tree_minus_in_place. rewrite Ee, orb_false_r, Ef, Et. destruct s; [|reflexivity]. cbn [tree_is_empty].
      clear - La Ub. destruct La as [-> | ->], Ub as [-> | ->]; reflexivity. }
    rewrite EU1, EM in EU. clear EU1 EM.
    unfold union_proper_interval, minus_proper_interval in EU. rewrite X, (chain_first R c1 HR), (chain_last L c0 HL) in EU.
    assert (E0 : L ++ R = sel None) by reflexivity. rewrite E0 in EU. clear - La Ub J J2 Ch Ch2 Rd EU NW. apply unreadable. clearbody sel.
    assert (Qe : forall x y : list (Tine T), Ok x = Ok y -> x = y) by congruence.
    destruct La as [->| ->], Ub as [->| ->], c0, v, c1, EU as [EU|EU]; revert EU.
    all: cbn [mk incl_b andb orb negb]; unfold tine_union, tine_minus, debug_assert; cbn [opt_eqb tine_as_ref bound_as_ref].
    all: rewrite ?eqb_refl; cbn -[btree_insert chain reads];
      repeat first [ rewrite J by reflexivity | rewrite J2 by reflexivity ].
    all: intros Q; first [discriminate | apply Qe in Q; subst s'; first [rewrite Rd; reflexivity |
      exfalso; apply NW, Ch; [repeat split; reflexivity | rewrite Ch2; reflexivity]]].
  Qed.

  (** Keeping only such an interval, without debug assertions: one value stays, nothing stays,
      the call panics, or what it leaves cannot be read even without debug assertions. *)
  Theorem C113_one_value_release_partial s l r lb ub a : tree_wf s -> intervals_are false s l -> written r lb ub a a -> (forall x, r <> Point x) -> s <> [] ->
    let keeps := ~ filled_above l a /\ some_contains l a /\ lb = Include a in
    let drops := ~ filled_above l a /\ some_contains l a /\ lb = Exclude a /\ ~ filled_below l a in
    (keeps -> tree_intersect_in_place false s r = Ok [TPoint (Include a)]) /\
    (drops -> tree_intersect_in_place false s r = Ok []) /\
    (~ keeps -> filled_below l a /\ ~ filled_above l a -> tree_intersect_in_place false s r = Panic) /\
    (~ keeps -> ~ drops -> ~ (filled_below l a /\ ~ filled_above l a) ->
       exists s', tree_intersect_in_place false s r = Ok s' /\ iter_collect false (tree_interval_iter s') = Panic).
  Proof.
    intros W Hl Wr NP NE keeps drops. subst keeps drops. apply wf_tree_wf in W. rewrite (intervals_pieces false s l W Hl). clear Hl l.
    destruct (written_tines r lb ub a a Wr NP) as (Et & Ef & Ee). destruct Wr as (_ & _ & La & Ub).
    assert (Ll : loc (TLower lb) = At a) by (destruct La as [->| ->]; reflexivity).
    assert (Lu : loc (TUpper ub) = At a) by (destruct Ub as [->| ->]; reflexivity).
    assert (W' := W). destruct W' as [Ss Hc].
    destruct (split_at (At a) false s false) as (L & R & c0 & v & c1 & E & A & HL & HR & BL & AR & SL & SR); auto; try discriminate; try exact I.
    assert (D : den false s (Lo a) = c0 /\ den false s (At a) = v /\ den false s (Hi a) = c1)
      by (rewrite E, den_Lo, den_At, den_Hi by auto; auto).
    destruct D as (D1 & D2 & D3). rewrite !filled_below_den, !filled_above_den, !at_den, D1, D2, D3 by auto.
    assert (X : interior_split_for_proper_interval false (TLower lb) (TUpper ub) s =
      Ok ((btree_last L, None, mk (At a) c0 v c1, None, None, btree_first R), [])).
    { unfold interior_split_for_proper_interval. cbn [debug_assert bind]. rewrite E.
      rewrite (take_split (TLower lb) L _ R) by (rewrite ?Ll; auto; apply mk_at).
      assert (Q := take_split (TUpper ub) L None R). cbn [opt app] in Q. rewrite Q by (rewrite ?Lu; auto; exact I).
      rewrite (split_off_split (TLower lb) L R) by (rewrite ?Ll; auto).
      assert (Q' : btree_split_off (TUpper ub) R = ([], R)) by (apply (split_off_split _ [] R); rewrite ?Lu; auto; constructor).
      now rewrite Q'. }
    assert (EI : tree_intersect_in_place false s r = intersect_proper_interval false (TLower lb) (TUpper ub) s).
    { unfold tree_intersect_in_place. rewrite Ef, Ee, orb_false_r, Et. destruct s; [congruence|]. cbn [tree_is_empty].
      destruct r; auto; try discriminate; now edestruct NP. }
    rewrite EI. unfold intersect_proper_interval. rewrite X. cbn [bind debug_assert]. rewrite (chain_last L c0 HL), (chain_first R c1 HR).
    clear - La Ub. assert (C : cmp (At a) (At a) = Eq) by apply cmp_refl.
    assert (J : forall t u, okt t = true -> okt u = true -> loc t = At a -> loc u = At a -> btree_insert u (btree_insert t []) = [t]).
    { intros t u K1 K2 Q1 Q2. cbn [btree_insert]. rewrite tine_cmp_loc by auto. now rewrite Q1, Q2, C. }
    destruct La as [->| ->], Ub as [->| ->], c0, v, c1.
    all: cbn [mk]; unfold tine_intersect; cbn -[btree_insert iter_collect]; rewrite ?J by reflexivity.
    all: split; [intuition (try discriminate; try congruence)|]; split; [intuition (try discriminate; try congruence)|];
      split; [intuition (try discriminate; try congruence)|]; intros G1 G2 G3;
      first [eexists; split; [reflexivity|reflexivity] | exfalso; intuition (try discriminate; try congruence)].
  Qed.
End Broken.
Print Assumptions C113_union_reads_partial.
Print Assumptions C113_minus_reads_partial.
Print Assumptions C113_one_value_reads_partial.
Print Assumptions C113_one_value_release_partial.

Local Open Scope Z_scope.
(** The case that reads, for adding: (2, 3] and [4, 9] with the out-of-order [5, 2).  One that
    does not: [0, 3] and [4, 9] with the out-of-order [5, 2]. *)
Example C113_union_reads_ex :
  let s := [TLower (Exclude 2); TUpper (Include 3); TLower (Include 4); TUpper (Include 9)] in
  let s' := [TPoint (Exclude 2); TUpper (Include 3); TLower (Include 4); TUpper (Include 9)] in
  let u := [TLower (Include 0); TUpper (Include 3); TLower (Include 6); TUpper (Include 9)] in
  tree_wf s /\ intervals_are true s [LeftOpen 2 3; Closed 4 9] /\ written (RightOpen 5 2) (Include 5) (Exclude 2) 5 2 /\ lt 2 5 /\
  tree_union_in_place true s (RightOpen 5 2) = Ok s' /\ chain false s' false = false /\ intervals_are true s' [LeftOpen 2 3; Closed 4 9] /\
  tree_wf u /\ (exists v, tree_union_in_place true u (Closed 5 2) = Ok v /\ chain false v false = false /\
    iter_collect true (tree_interval_iter v) = Panic).
Proof.
  cbv zeta. split; [repeat constructor|]. 
  split; [eapply drains_cons; [reflexivity|]; eapply drains_cons; [reflexivity|]; eapply drains_nil; reflexivity|].
  split; [repeat split; auto|]. split; [reflexivity|]. split; [reflexivity|]. split; [reflexivity|].
  split; [eapply drains_cons; [reflexivity|]; eapply drains_cons; [reflexivity|]; eapply drains_nil; reflexivity|].
  split; [repeat constructor|]. eexists. split; [reflexivity|]. split; reflexivity.
Qed.
(** For removing: from the single value 2 and [5, 9], the out-of-order [5, 2) leaves a list that
    reads as (2, 9].  And from [0, 9], the out-of-order [5, 5) leaves one that does not read. *)
Example C113_minus_reads_ex :
  let s := [TPoint (Include 2); TLower (Include 5); TUpper (Include 9)] in
  let s' := [TPoint (Exclude 2); TUpper (Include 9)] in
  let u := [TLower (Include 0); TUpper (Include 9)] in
  tree_wf s /\ intervals_are true s [Point 2; Closed 5 9] /\ written (RightOpen 5 2) (Include 5) (Exclude 2) 5 2 /\ lt 2 5 /\
  tree_minus_in_place true s (RightOpen 5 2) = Ok s' /\ chain false s' false = false /\ intervals_are true s' [LeftOpen 2 9] /\
  tree_wf u /\ intervals_are true u [Closed 0 9] /\ written (RightOpen 5 5) (Include 5) (Exclude 5) 5 5 /\
  (exists v, tree_minus_in_place true u (RightOpen 5 5) = Ok v /\ chain false v false = false /\
    iter_collect true (tree_interval_iter v) = Panic).
Proof.
  cbv zeta. split; [repeat constructor|].
  split; [eapply drains_cons; [reflexivity|]; eapply drains_cons; [reflexivity|]; eapply drains_nil; reflexivity|].
  split; [repeat split; auto|]. split; [reflexivity|]. split; [reflexivity|]. split; [reflexivity|].
  split; [eapply drains_cons; [reflexivity|]; eapply drains_nil; reflexivity|].
  split; [repeat constructor|]. split; [eapply drains_cons; [reflexivity|]; eapply drains_nil; reflexivity|].
  split; [repeat split; auto|]. eexists. split; [reflexivity|]. split; reflexivity.
Qed.
(** Without debug assertions: keeping only [2, 2) of [0, 2] leaves 2, keeping only (2, 2) of 2 leaves
    nothing, keeping only (2, 2) of [0, 2] panics, and keeping only [2, 2) of [0, 9] leaves a list that cannot be read. *)
Example C113_one_value_release_ex :
  let s := [TLower (Include 0); TUpper (Include 2)] in
  let p := [TPoint (Include 2)] in
  let u := [TLower (Include 0); TUpper (Include 9)] in
  tree_wf s /\ intervals_are false s [Closed 0 2] /\ tree_wf p /\ intervals_are false p [Point 2] /\ tree_wf u /\ intervals_are false u [Closed 0 9] /\
  written (RightOpen 2 2) (Include 2) (Exclude 2) 2 2 /\ written (Open 2 2) (Exclude 2) (Exclude 2) 2 2 /\
  tree_intersect_in_place false s (RightOpen 2 2) = Ok p /\ tree_intersect_in_place false p (Open 2 2) = Ok [] /\
  tree_intersect_in_place false s (Open 2 2) = Panic /\
  exists v, tree_intersect_in_place false u (RightOpen 2 2) = Ok v /\ iter_collect false (tree_interval_iter v) = Panic.
Proof.
  cbv zeta. split; [repeat constructor|]. split; [eapply drains_cons; [reflexivity|]; eapply drains_nil; reflexivity|].
  split; [repeat constructor|]. split; [eapply drains_cons; [reflexivity|]; eapply drains_nil; reflexivity|].
  split; [repeat constructor|]. split; [eapply drains_cons; [reflexivity|]; eapply drains_nil; reflexivity|].
  split; [repeat split; auto|]. split; [repeat split; auto|]. split; [reflexivity|]. split; [reflexivity|]. split; [reflexivity|].
  eexists. split; reflexivity.
Qed.

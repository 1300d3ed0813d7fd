(** * The end of iteration, exactly (C87)

    [ends_for_good] of Properties_Fused.v for a [None] from [next_back]: on
    which trees and Selections [next] is then finished too.  The answer is the
    domain of two-ended iteration (C77, C78); outside it all intervals come out,
    then [None], and then [next] panics, in either build. *)
From Coq Require Import List Bool ZArith Lia Sorted Permutation.
From Verif Require Import Base OrdFacts Pos PFinite Ints MBound MRaw MNormalize MTine MBTree MTineTree MInterval MSelection
  Spec Spec_Tree Spec_Sel PRaw PRaw2 PNorm PIter PInterval PBTree PTree PTreeOps PTreeIsect PTree2 PTree3 PTree4 PTree5 PTree6 PTree7
  PSel PSel2 PSel3 PSel4 PSel5 Instances
  Properties_Interval Properties_Tree Properties_Tree2 Properties_Selection Properties_Selection4 PBoth Properties_Both Properties_Fused
  Properties_Complement.
Import ListNotations.
Local Open Scope list_scope.
Local Arguments cmp : simpl never.

(** A run and the state it leads to. *)
Section Walk.
  Context {S A : Type} (next next_back : S -> res (option A * S)).
  Inductive walk : S -> list side -> list (option A) -> S -> Prop :=
  | walk_nil it : walk it [] [] it
  | walk_cons c it it' it'' o sched out : call next next_back c it = Ok (o, it') -> walk it' sched out it'' ->
      walk it (c :: sched) (o :: out) it''.
  Lemma walk_app it s1 o1 it1 s2 o2 it2 : walk it s1 o1 it1 -> walk it1 s2 o2 it2 -> walk it (s1 ++ s2) (o1 ++ o2) it2.
  Proof. induction 1; intros W; simpl; [auto|]. eapply walk_cons; eauto. Qed.
  Lemma walk_runs it s1 o1 it1 s2 o2 : walk it s1 o1 it1 -> runs next next_back it1 s2 o2 -> runs next next_back it (s1 ++ s2) (o1 ++ o2).
  Proof. induction 1; intros W; simpl; [auto|]. eapply runs_cons; eauto. Qed.
  Lemma runs_walk it s1 o1 it1 s2 o : walk it s1 o1 it1 -> runs next next_back it (s1 ++ s2) o ->
    exists o2, o = o1 ++ o2 /\ runs next next_back it1 s2 o2.
  Proof.
    intros W. revert o. induction W as [it|c it it' it'' o0 sched out E W IH]; intros o R; simpl in R; [exists o; split; [reflexivity|exact R]|].
    destruct (runs_uncons _ _ _ _ _ _ R) as (o' & j & out' & -> & E' & R'). rewrite E in E'. injection E' as <- <-.
    destruct (IH _ R') as (o2 & -> & K). exists o2. now split.
  Qed.
  (** A walk to a state where [next_back] returns [None] and [next] panics. *)
  Lemma not_for_good start sched out it it' : walk start sched out it -> next_back it = Ok (None, it') -> next it' = Panic ->
    ~ ends_for_good next next_back start Back (fun _ => True).
  Proof.
    intros W E P H. assert (R : runs next next_back start (sched ++ [Back]) (out ++ [None])).
    { apply (walk_runs _ _ _ _ _ _ W). eapply runs_back; [exact E|constructor]. }
    specialize (H sched out R [Front] I). destruct (runs_walk _ _ _ _ _ _ W H) as (o2 & Eo & R2).
    apply app_inv_head in Eo. subst o2. inversion R2 as [| |? j ? ? ? E2 R3]; subst. rewrite E in E2. injection E2 as <-.
    inversion R3 as [|? ? ? ? ? E4 _|]; subst. rewrite P in E4. discriminate.
  Qed.
End Walk.

Section Tree.
  Context {T : Type} {O : Ord T}.
  Implicit Types (s A B X : list (Tine T)) (x y : T) (t w : Tine T).
  Notation hole_at x := (TPoint (Exclude x)).

  (** From the front up to a pinhole. *)
  Lemma front_to dbg x X n : forall s o, length s <= n -> chain (has o) (s ++ [hole_at x]) true = true -> pend_ok o ->
    walk (iter_next dbg) (iter_next_back dbg) (st (s ++ hole_at x :: X) o)
      (repeat Front (length (pieces o (s ++ [hole_at x])))) (map Some (pieces o (s ++ [hole_at x]))) (st X (Some (hole_at x))) /\
    pieces o (s ++ hole_at x :: X) = pieces o (s ++ [hole_at x]) ++ pieces (Some (hole_at x)) X.
  Proof.
    induction n as [|n IH]; intros s o L H P.
    - destruct s; [|simpl in L; lia]. destruct o as [l|]; [|discriminate]. destruct (P l eq_refl) as [Kl Ll]. simpl. split; [|reflexivity].
      eapply walk_cons; [|apply walk_nil]. simpl. unfold iter_next, st. simpl.
      destruct l as [b|[b|b|]|b]; try discriminate; destruct dbg; reflexivity.
    - destruct s as [|t s]; [apply (IH []); auto; simpl; lia|]. simpl in L.
      simpl app in H. apply chain_cons in H as (K & U & H).
      destruct o as [l|]; cbn [has] in U.
      + destruct (P l eq_refl) as [Kl Ll]. cbn [app pieces].
        assert (H' : chain (has (if is_point_exclude t then Some t else None)) (s ++ [hole_at x]) true = true).
        { destruct t as [b|[b|b|]|b]; simpl in *; try discriminate; auto. }
        assert (P' : pend_ok (if is_point_exclude t then Some t else None)).
        { destruct t as [b|[b|b|]|b]; simpl in *; intros z Ez; try discriminate; injection Ez as <-; auto. }
        destruct (IH s _ ltac:(lia) H' P') as [W E]. split; [|now rewrite E].
        cbn [length repeat map]. eapply walk_cons; [|exact W]. simpl. unfold iter_next, st. cbn [saved_lower tine_iter saved_upper btree_first btree_rest_front].
        destruct l as [b|[b|b|]|b]; try discriminate; simpl in Ll; rewrite ?Ll, U; destruct dbg; cbn; reflexivity.
      + destruct (is_lower_bound t) eqn:Lt.
        * (* a lower bound *)
          assert (P' : pend_ok (Some t)) by (intros z Ez; injection Ez as <-; auto).
          destruct (IH s (Some t) ltac:(lia) H P') as [W E].
          assert (Q : forall Y, pieces None (t :: Y) = pieces (Some t) Y) by (intros Y; destruct t as [b|[b|b|]|b]; try discriminate; reflexivity).
          change ((t :: s) ++ hole_at x :: X) with (t :: (s ++ hole_at x :: X)). change ((t :: s) ++ [hole_at x]) with (t :: (s ++ [hole_at x])).
          rewrite !Q. split; [|exact E].
          destruct (pieces (Some t) (s ++ [hole_at x])) as [|i l] eqn:Ei; [destruct s; discriminate|].
          cbn [length repeat map] in *. inversion W as [|? ? it1 ? ? ? ? C W']; subst. eapply walk_cons; [|exact W'].
          simpl in *. rewrite <- C. unfold iter_next, st. cbn [saved_lower tine_iter saved_upper btree_first btree_rest_front]. reflexivity.
        * assert (Et : exists y, t = TPoint (Include y)) by (destruct t as [[]|[]|[]]; simpl in *; try discriminate; eauto).
          destruct Et as [y ->]. destruct (IH s None ltac:(lia) H ltac:(discriminate)) as [W E].
          cbn [app pieces]. split; [|now rewrite E]. cbn [length repeat map]. eapply walk_cons; [|exact W]. reflexivity.
  Qed.

  (** From the back, with a lower bound saved at the front. *)
  Lemma back_saved dbg s h a s' : iter_next_back dbg (st s None) = Ok (Some a, st s' None) ->
    iter_next_back dbg (st s (Some h)) = Ok (Some a, st s' (Some h)).
  Proof.
    unfold iter_next_back, st. cbn [saved_upper tine_iter saved_lower].
    destruct (btree_last s) as [u|]; [|discriminate].
    destruct u as [b|[b|b|]|b]; try (intros [= <- <-]; reflexivity).
    all: destruct (debug_assert _ _); try discriminate; cbn [bind]; destruct (btree_last _) as [l|]; try discriminate.
    all: destruct (debug_assert _ (is_lower_bound l)); try discriminate; cbn [bind]; destruct (is_point_exclude l); intros [= <- <-]; reflexivity.
  Qed.
  Lemma back_over dbg h X n : forall s, length (pieces None s) = n -> chain false s false = true -> holeless s ->
    walk (iter_next dbg) (iter_next_back dbg) (st (X ++ s) (Some h)) (repeat Back n) (map Some (rev (pieces None s))) (st X (Some h)).
  Proof.
    induction n as [|n IH]; intros s L H N.
    - destruct (pieces None s) eqn:E; [|discriminate]. rewrite (pieces_nil_chain s H E), app_nil_r. simpl. constructor.
    - destruct (ends (pieces None s)) as [E|(l & a & E)]; [rewrite E in L; discriminate|].
      destruct (back_prefix dbg s H N a l E) as (s' & H' & N' & El & Eq).
      rewrite E, rev_app_distr. simpl. eapply walk_cons; [simpl; apply back_saved; apply Eq|].
      rewrite El. apply IH; auto. rewrite <- El. rewrite E, app_length in L. simpl in L. lia.
  Qed.

  (** On a tree with a pinhole there are calls that return all its intervals and
      leave a lower bound behind. *)
  Lemma stuck dbg s : wf s -> ~ holeless s -> exists sched rs h, incl rs (pieces None s) /\
    walk (iter_next dbg) (iter_next_back dbg) (tree_interval_iter s) sched (map Some rs) (st [] (Some (hole_at h))).
  Proof.
    intros W N. destruct (around_hole s W N) as (A & w & x & d & B & k & Es & HB & NB & Lw & Kw & Bw & Ep).
    assert (Hc : chain (has (None : option (Tine T))) ((A ++ [w]) ++ [hole_at x]) true = true).
    { destruct W as [_ H]. rewrite Es in H. replace ((A ++ [w; hole_at x; TUpper d]) ++ B) with (((A ++ [w]) ++ [hole_at x]) ++ TUpper d :: B) in H
        by now rewrite <- !app_assoc.
      apply chain_app in H as (c & H & H'). apply chain_cons in H' as (_ & U & _). simpl in U. now subst c. }
    destruct (front_to dbg x (TUpper d :: B) _ (A ++ [w]) None (le_n _) Hc ltac:(discriminate)) as [Wf Ef].
    assert (Es' : s = (A ++ [w]) ++ hole_at x :: TUpper d :: B) by (rewrite Es, <- !app_assoc; reflexivity).
    rewrite <- Es' in Wf, Ef.
    pose proof (back_over dbg (hole_at x) [TUpper d] _ B eq_refl HB NB) as Wb. change ([TUpper d] ++ B) with (TUpper d :: B) in Wb.
    assert (Wl : walk (iter_next dbg) (iter_next_back dbg) (st [TUpper d] (Some (hole_at x))) [Back] [Some (raw_new (Exclude x) d)] (st [] (Some (hole_at x)))).
    { eapply walk_cons; [|apply walk_nil]. destruct dbg; reflexivity. }
    pose proof (walk_app _ _ _ _ _ _ _ _ _ Wf (walk_app _ _ _ _ _ _ _ _ _ Wb Wl)) as K.
    change [Some (raw_new (Exclude x) d)] with (map Some [raw_new (Exclude x) d]) in K. rewrite <- !map_app in K.
    eexists _, _, x. split; [|exact K].
    intros i Hi. rewrite Ef. cbn [pieces]. rewrite !in_app_iff in *. simpl in *. rewrite <- in_rev in Hi. tauto.
  Qed.
  Lemma stuck_calls dbg h : iter_next_back dbg (st [] (Some (TPoint (Exclude h)))) = Ok (None, st [] (Some (TPoint (Exclude h)))) /\
    iter_next dbg (st [] (Some (TPoint (Exclude h : Bound T)))) = Panic.
  Proof. destruct dbg; split; reflexivity. Qed.

  Lemma holeless_ends dbg s c : wf s -> holeless s ->
    ends_for_good (iter_next dbg) (iter_next_back dbg) (tree_interval_iter s) c (Forall (fun _ => True)).
  Proof.
    intros [_ W] N. apply (ends_by _ _ (fun it => exists l, brep it l) (fun it => brep it [])).
    - exists (pieces None s), s. auto.
    - intros d it o it' (l & B) C. destruct d; simpl in C.
      + destruct l as [|a l]; [destruct (brep_front_nil dbg it B) as (j & E & B')|destruct (brep_front dbg it a l B) as (j & E & B')];
        rewrite E in C; injection C as _ <-; eauto.
      + destruct (ends l) as [->|(l' & a & ->)]; [destruct (brep_back_nil dbg it B) as (j & E & B')|destruct (brep_back dbg it a l' B) as (j & E & B')];
        rewrite E in C; injection C as _ <-; eauto.
    - intros it it' (l & B) C. destruct c; simpl in C.
      + destruct l as [|a l]; [destruct (brep_front_nil dbg it B) as (j & E & B')|destruct (brep_front dbg it a l B) as (j & E & B')];
        rewrite E in C; try discriminate; injection C as <-; auto.
      + destruct (ends l) as [->|(l' & a & ->)]; [destruct (brep_back_nil dbg it B) as (j & E & B')|destruct (brep_back dbg it a l' B) as (j & E & B')];
        rewrite E in C; try discriminate; injection C as <-; auto.
    - intros [|] it _ B; [apply brep_front_nil; auto|apply brep_back_nil; auto].
  Qed.
  Lemma ends_all {S E : Type} (nx nb : S -> res (option E * S)) start c : ends_for_good nx nb start c (Forall (fun _ => True)) ->
    ends_for_good nx nb start c (fun _ => True).
  Proof. intros K sched out R more _. apply K; auto. now apply Forall_forall. Qed.

  (** A [None] from [next_back] finishes both ends exactly when no interval ends
      and the next begins at one excluded point. *)
  Theorem C87_tree_iter_back_iff dbg (s : TineTree T) l : tree_wf s -> intervals_are dbg s l ->
    (ends_for_good (iter_next dbg) (iter_next_back dbg) (tree_interval_iter s) Back (fun _ => True) <-> forall x, ~ pinhole l x).
  Proof.
    intros Wt Hl. pose proof Wt as W. apply wf_tree_wf in W. rewrite (intervals_pieces dbg s l W Hl) in *. split.
    - intros H x Hx. destruct (holeless_dec s) as [N|N].
      + apply (hole_pieces s x W) in Hx. apply hole_tine in Hx; auto. unfold holeless in N. rewrite Forall_forall in N. now specialize (N _ Hx).
      + destruct (stuck dbg s W N) as (sched & rs & h & _ & K). destruct (stuck_calls dbg h) as [E P].
        now apply (not_for_good _ _ _ _ _ _ _ K E P).
    - intros N. apply ends_all, holeless_ends; auto. apply Forall_forall. intros t Ht. destruct (is_point_exclude t) eqn:E; auto. exfalso.
      destruct t as [|[|x|]|]; try discriminate. apply (N x). apply hole_pieces; auto. now apply hole_tine.
  Qed.

  Context {F : Finite T}.
  Lemma walk_sel dbg it sched out it' : walk (iter_next dbg) (iter_next_back dbg) it sched out it' ->
    walk (sel_interval_next dbg) (sel_interval_next_back dbg) it sched (map (option_map nrm) out) it'.
  Proof.
    induction 1 as [it|c it it' it'' o sched out E W IH]; [constructor|]. simpl. eapply walk_cons; [|exact IH].
    destruct c; simpl in *; unfold sel_interval_next, sel_interval_next_back; rewrite E; reflexivity.
  Qed.
  Lemma sel_ends dbg it c : ends_for_good (iter_next dbg) (iter_next_back dbg) it c (fun _ => True) ->
    ends_for_good (sel_interval_next dbg) (sel_interval_next_back dbg) it c (fun _ => True).
  Proof.
    intros H sched out R more _.
    assert (K : forall it sched out, runs (sel_interval_next dbg) (sel_interval_next_back dbg) it sched out ->
      exists out', runs (iter_next dbg) (iter_next_back dbg) it sched out' /\ out = map (option_map nrm) out').
    { clear. intros it sched. revert it. induction sched as [|d sched IH]; intros it out R.
      - inversion R; subst. exists []. split; [constructor|reflexivity].
      - destruct (runs_uncons _ _ _ _ _ _ R) as (o & it' & out' & -> & E & R').
        destruct (IH _ _ R') as (out1 & R1 & ->).
        assert (Q : exists z, call (iter_next dbg) (iter_next_back dbg) d it = Ok (z, it') /\ o = option_map nrm z).
        { destruct d; simpl in *; unfold sel_interval_next, sel_interval_next_back in E;
          [destruct (iter_next dbg it) as [[z j]|]|destruct (iter_next_back dbg it) as [[z j]|]]; try discriminate; cbn [bind] in E;
          injection E as <- <-; eauto. }
        destruct Q as (z & Ez & ->). exists (z :: out1). split; [|reflexivity]. eapply runs_cons; eauto. }
    destruct (K _ _ _ R) as (out' & R' & E).
    destruct (ends out') as [->|(out1 & z & ->)]; [destruct out; discriminate|].
    rewrite map_app in E. simpl in E. apply app_inj_tail in E as [-> Ez]. destruct z; [discriminate|].
    specialize (H sched out1 R' more I). apply interval_runs in H. rewrite map_app in H. cbn [map option_map] in H.
    assert (Q : map (option_map nrm) (repeat None (length more)) = repeat (@None (Interval T)) (length more)) by (clear; induction more; simpl; congruence).
    now rewrite Q in H.
  Qed.
End Tree.
Print Assumptions C87_tree_iter_back_iff.

Section Values.
  Context {T : Type} {O : Ord T} {F : Finite T}.

  (** The values of the current interval, by calls at one end. *)
  Lemma current_walk dbg c its n : forall cur lc, length lc = n -> irep cur lc -> exists cur' sched out, irep cur' [] /\
    walk (sel_next dbg) (sel_next_back dbg) {| si_intervals := its; si_current := cur |} sched out {| si_intervals := its; si_current := cur' |} /\
    Forall (eq c) sched.
  Proof.
    induction n as [|n IH]; intros cur lc L R.
    - destruct lc; [|discriminate]. exists cur, [], []. split; auto. split; constructor.
    - destruct c.
      + destruct lc as [|x lc]; [discriminate|]. destruct (irep_front _ _ _ R) as (i' & Ei & Ri).
        destruct (IH i' lc ltac:(simpl in L; lia) Ri) as (cur' & sched & out & R' & W & K).
        exists cur', (Front :: sched), (Some x :: out). split; auto. split; [|now constructor].
        eapply walk_cons; [|exact W]. simpl. unfold sel_next. simpl. rewrite Ei. reflexivity.
      + destruct (ends lc) as [->|(lc' & x & ->)]; [discriminate|]. destruct (irep_back _ _ _ R) as (i' & Ei & Ri).
        destruct (IH i' lc' ltac:(rewrite app_length in L; simpl in L; lia) Ri) as (cur' & sched & out & R' & W & K).
        exists cur', (Back :: sched), (Some x :: out). split; auto. split; [|now constructor].
        eapply walk_cons; [|exact W]. simpl. unfold sel_next_back. simpl. rewrite Ei. reflexivity.
  Qed.
  Lemma values_walk dbg its sched os its' : walk (iter_next dbg) (iter_next_back dbg) its sched os its' ->
    forall rs ls cur, os = map Some rs -> chunks rs ls -> irep cur [] ->
    exists cur' sched' out', irep cur' [] /\
      walk (sel_next dbg) (sel_next_back dbg) {| si_intervals := its; si_current := cur |} sched' out' {| si_intervals := its'; si_current := cur' |}.
  Proof.
    induction 1 as [its|c its its1 its2 o sched out E W IH]; intros rs ls cur Eo C Rc.
    - exists cur, [], []. split; auto. constructor.
    - destruct rs as [|r rs]; [discriminate|]. injection Eo as -> ->. inversion C as [|? l ? ls' [Rr Nr] C']; subst.
      assert (Q : exists x l' i', irep i' l' /\ call (sel_next dbg) (sel_next_back dbg) c {| si_intervals := its; si_current := cur |} =
        Ok (Some x, {| si_intervals := its1; si_current := i' |})).
      { destruct c; simpl in *.
        - destruct l as [|x l']; [now destruct Nr|]. destruct (irep_front _ _ _ Rr) as (i' & Ei & Ri). exists x, l', i'. split; auto.
          unfold sel_next. simpl. rewrite (irep_nil_next _ Rc). simpl. rewrite E. simpl. fold (nrm r). rewrite Ei. reflexivity.
        - destruct (ends l) as [->|(l' & x & ->)]; [now destruct Nr|]. destruct (irep_back _ _ _ Rr) as (i' & Ei & Ri). exists x, l', i'. split; auto.
          unfold sel_next_back. simpl. rewrite (irep_nil_back _ Rc). simpl. rewrite E. simpl. fold (nrm r). rewrite Ei. reflexivity. }
      destruct Q as (x & l' & i' & Ri & Ec).
      destruct (current_walk dbg c its1 _ i' l' eq_refl Ri) as (cur1 & s1 & o1 & R1 & W1 & _).
      destruct (IH rs ls' cur1 eq_refl C' R1) as (cur2 & s2 & o2 & R2 & W2).
      exists cur2, (c :: s1 ++ s2), (Some x :: o1 ++ o2). split; auto. eapply walk_cons; [exact Ec|]. now apply (walk_app _ _ _ _ _ _ _ _ _ W1).
  Qed.

  Lemma values_holeless_ends dbg s c : wf s -> gapless (den false s) -> holeless s ->
    ends_for_good (sel_next dbg) (sel_next_back dbg) (sel_iter s) c (fun _ => True).
  Proof.
    intros W G N. apply ends_all.
    destruct (chunks_of s W G _ (incl_refl _)) as (ls0 & C0).
    apply (ends_by _ _ (fun it => exists rs ls lc, both it rs lc /\ chunks rs ls) (fun it => both it [] [])).
    - exists (pieces None s), ls0, []. split; auto. split; [exists s; split; [reflexivity|]; split; [apply W|auto]|apply irep_empty].
    - intros d it o it' (rs & ls & lc & B & C) E. destruct d; simpl in E.
      + destruct lc as [|x lc].
        * destruct C as [|r l rs ls [Rr Nr] C].
          -- destruct (both_front_nil dbg it B) as (j & Ej & B'). rewrite Ej in E. injection E as _ <-. exists [], [], []. split; auto. constructor.
          -- destruct l as [|x l]; [now destruct Nr|]. destruct (both_front_new dbg it r rs x l B Rr) as (j & Ej & B'). rewrite Ej in E.
             injection E as _ <-. eauto 6.
        * destruct (both_front_cur dbg it rs x lc B) as (j & Ej & B'). rewrite Ej in E. injection E as _ <-. eauto 6.
      + destruct (ends lc) as [->|(lc' & x & ->)].
        * destruct (ends rs) as [->|(rs' & r & ->)].
          -- destruct (both_back_nil dbg it B) as (j & Ej & B'). rewrite Ej in E. injection E as _ <-. exists [], [], []. split; auto. constructor.
          -- destruct (chunks_snoc _ _ C _ _ eq_refl) as (ls' & la & -> & C' & Ra & Na).
             destruct (ends la) as [->|(la' & x & ->)]; [now destruct Na|].
             destruct (both_back_new dbg it r rs' x la' B Ra) as (j & Ej & B'). rewrite Ej in E. injection E as _ <-. eauto 6.
        * destruct (both_back_cur dbg it rs x lc' B) as (j & Ej & B'). rewrite Ej in E. injection E as _ <-. eauto 6.
    - intros it it' (rs & ls & lc & B & C) E. destruct c; simpl in E.
      + destruct lc as [|x lc].
        * destruct C as [|r l rs ls [Rr Nr] C].
          -- destruct (both_front_nil dbg it B) as (j & Ej & B'). rewrite Ej in E. now injection E as <-.
          -- destruct l as [|x l]; [now destruct Nr|]. destruct (both_front_new dbg it r rs x l B Rr) as (j & Ej & B'). rewrite Ej in E. discriminate.
        * destruct (both_front_cur dbg it rs x lc B) as (j & Ej & B'). rewrite Ej in E. discriminate.
      + destruct (ends lc) as [->|(lc' & x & ->)].
        * destruct (ends rs) as [->|(rs' & r & ->)].
          -- destruct (both_back_nil dbg it B) as (j & Ej & B'). rewrite Ej in E. now injection E as <-.
          -- destruct (chunks_snoc _ _ C _ _ eq_refl) as (ls' & la & -> & C' & Ra & Na).
             destruct (ends la) as [->|(la' & x & ->)]; [now destruct Na|].
             destruct (both_back_new dbg it r rs' x la' B Ra) as (j & Ej & B'). rewrite Ej in E. discriminate.
        * destruct (both_back_cur dbg it rs x lc' B) as (j & Ej & B'). rewrite Ej in E. discriminate.
    - intros [|] it _ B; [apply both_front_nil; auto|apply both_back_nil; auto].
  Qed.

  (** The iterators of a Selection built by unions: a [None] from [next_back]
      finishes both ends exactly when no single value is missing between two
      that are present. *)
  Theorem C87_selection_back_iff_partial dbg (p : prog T) s : inputs true p -> unions_only p -> run dbg p = Ok s ->
    (ends_for_good (sel_interval_next dbg) (sel_interval_next_back dbg) (sel_interval_iter s) Back (fun _ => True) <->
       forall x, ~ lone_gap (member dbg s) x) /\
    (ends_for_good (sel_next dbg) (sel_next_back dbg) (sel_iter s) Back (fun _ => True) <-> forall x, ~ lone_gap (member dbg s) x).
  Proof.
    intros H U E. destruct (run_open dbg p s H U E) as [W Op].
    assert (A : holeless s -> forall x, ~ lone_gap (member dbg s) x).
    { intros N x Hx. apply lone_member in Hx; auto. apply hole_open in Hx; auto. apply hole_tine in Hx; auto.
      unfold holeless in N. rewrite Forall_forall in N. now specialize (N _ Hx). }
    assert (B : (forall x, ~ lone_gap (member dbg s) x) -> holeless s).
    { intros N. apply no_hole_holeless; auto. intros x. destruct (hole s x) eqn:Hx; auto. exfalso. apply (N x).
      apply lone_member; auto. now apply hole_open. }
    split; split; intros K.
    - destruct (holeless_dec s) as [N|N]; [now apply A|]. exfalso.
      destruct (stuck dbg s W N) as (sched & rs & h & _ & Wk). destruct (stuck_calls dbg h) as [E1 E2]. apply walk_sel in Wk.
      refine (not_for_good _ _ _ _ _ _ (st [] (Some (TPoint (Exclude h)))) Wk _ _ K);
        unfold sel_interval_next, sel_interval_next_back; [now rewrite E1|now rewrite E2].
    - apply sel_ends, ends_all, holeless_ends; auto.
    - destruct (holeless_dec s) as [N|N]; [now apply A|]. exfalso.
      destruct (stuck dbg s W N) as (sched & rs & h & I & Wk). destruct (stuck_calls dbg h) as [E1 E2].
      destruct (chunks_of s W (open_gapless _ Op) _ I) as (ls & C).
      destruct (values_walk _ _ _ _ _ Wk rs ls interval_empty eq_refl C irep_empty) as (cur & sv & ov & Rc & Wv).
      refine (not_for_good _ _ _ _ _ _ {| si_intervals := st [] (Some (TPoint (Exclude h))); si_current := cur |} Wv _ _ K).
      + unfold sel_next_back. simpl. rewrite (irep_nil_back _ Rc). simpl. unfold iter_next_back. simpl. reflexivity.
      + unfold sel_next. simpl. rewrite (irep_nil_next _ Rc). simpl. fold (st [] (Some (TPoint (Exclude h : Bound T)))). now rewrite E2.
    - apply values_holeless_ends; auto. now apply open_gapless.
  Qed.

  (** Complements of Selections built by unions: whichever end the [None] came
      from, both are finished for good. *)
  Theorem C87_complement_partial dbg p s c d : inputs true p -> unions_only p -> run dbg p = Ok s -> sel_complement dbg s = Ok c ->
    ends_for_good (sel_interval_next dbg) (sel_interval_next_back dbg) (sel_interval_iter c) d (fun _ => True) /\
    ends_for_good (sel_next dbg) (sel_next_back dbg) (sel_iter c) d (fun _ => True).
  Proof.
    intros H U E Ec. destruct (complement_no_hole dbg p s c H U E Ec) as [W N].
    destruct (run_gapless dbg (P_complement p) c H U) as [_ G]; [simpl; now rewrite E|].
    pose proof (no_hole_holeless c W N) as Hc. split.
    - apply sel_ends, ends_all, holeless_ends; auto.
    - now apply values_holeless_ends.
  Qed.
End Values.
Print Assumptions C87_selection_back_iff_partial.
Print Assumptions C87_complement_partial.

(** {1,3,5,6} has the lone gap 4 and is not finished by [next_back]; the values of
    {1,2,5,6} and the intervals of the complement of {1,3,5,6} are. *)
Local Open Scope Z_scope.
Example C87_back_ex : let p : prog i8 := P_points [v 1; v 3; v 5; v 6] in let q : prog i8 := P_points [v 1; v 2; v 5; v 6] in
  exists s c o, run true p = Ok s /\ sel_complement true s = Ok c /\ run true q = Ok o /\
    lone_gap (member true s) (v 4) /\ ~ ends_for_good (sel_next true) (sel_next_back true) (sel_iter s) Back (fun _ => True) /\
    ends_for_good (sel_next true) (sel_next_back true) (sel_iter o) Back (fun _ => True) /\
    ends_for_good (sel_interval_next true) (sel_interval_next_back true) (sel_interval_iter c) Back (fun _ => True).
Proof.
  intros p q. destruct C51_meet_ex as (_ & _ & o & Eo & _ & _ & _ & No).
  assert (Es : exists s, run true p = Ok s) by (eexists; vm_compute; reflexivity). destruct Es as (s & Es).
  assert (Ec : exists c, sel_complement true s = Ok c) by (injection Es as <-; eexists; vm_compute; reflexivity). destruct Ec as (c & Ec).
  assert (G : lone_gap (member true s) (v 4)) by (injection Es as <-; split; [discriminate|]; split; eexists; (split; reflexivity)).
  exists s, c, o. do 4 (split; [assumption|]). split; [|split].
  - intros K. destruct (C87_selection_back_iff_partial true p s I I Es) as [_ [K' _]]. exact (K' K (v 4) G).
  - destruct (C87_selection_back_iff_partial true q o I I Eo) as [_ [_ K]]. exact (K No).
  - now apply (C87_complement_partial true p s c Back I I Es Ec).
Qed.

(** * Iteration from both ends: exactly when it is right (C34, C51) *)
From Coq Require Import List Bool ZArith Lia Sorted Permutation.
From Verif Require Import Base OrdFacts Pos PFinite Ints MBound MRaw MNormalize MTine MBTree MTineTree MInterval MSelection
  Spec Spec_Tree Spec_Sel PRaw PRaw2 PNorm PIter PInterval PBTree PTree PTreeOps PTreeIsect PTree2 PTree3 PTree4 PTree5 PTree6 PTree7
  PSel PSel2 PSel3 PSel4 Instances Properties_Interval Properties_Tree Properties_Selection PBoth.
Import ListNotations.
Local Arguments cmp : simpl never.

(** ** Schedules *)
Section Sched.
  Context {S A : Type} (next back : S -> res (option A * S)).

  (** Every schedule does what it does on the list [l]. *)
  Definition deque (it : S) (l : list A) : Prop := forall sched, runs next back it sched (deque_run l sched).

  Lemma runs_back_drains l : forall it, runs next back it (repeat Back (Datatypes.S (length l))) (deque_run (rev l) (repeat Back (Datatypes.S (length l)))) ->
    drains back it l.
  Proof.
    induction l as [|a l IH]; intros it H; simpl in H.
    - inversion H as [| |? it' ? ? ? E R]; subst. econstructor; eauto.
    - rewrite rev_app_distr in H. simpl in H. rewrite rev_involutive in H.
      inversion H as [| |? it' ? ? ? E R]; subst. econstructor; eauto.
  Qed.
  Lemma deque_drains_back it l : deque it l -> drains back it (rev l).
  Proof. intros H. apply runs_back_drains. rewrite rev_involutive. apply H. Qed.
  Lemma deque_front it x l : deque it (x :: l) -> exists it', next it = Ok (Some x, it') /\ deque it' l.
  Proof.
    intros H. pose proof (H [Front]) as H1. inversion H1 as [|? it' ? ? ? E R|]; subst. exists it'. split; auto.
    intros sched. specialize (H (Front :: sched)). inversion H as [|? it2 ? ? ? E2 R2|]; subst. congruence.
  Qed.
  Lemma deque_back it x l : deque it (l ++ [x]) -> exists it', back it = Ok (Some x, it') /\ deque it' l.
  Proof.
    intros H. pose proof (H [Back]) as H1. simpl in H1. rewrite rev_app_distr in H1. simpl in H1.
    inversion H1 as [| |? it' ? ? ? E R]; subst. exists it'. split; auto.
    intros sched. specialize (H (Back :: sched)). simpl in H. rewrite rev_app_distr in H. simpl in H. rewrite rev_involutive in H.
    inversion H as [| |? it2 ? ? ? E2 R2]; subst. congruence.
  Qed.
End Sched.

(** ** C34 *)

(** Reverse iteration, and with it every schedule, is right exactly when no two
    intervals touch in one excluded point. *)
Theorem C34_both_ends_iff_partial {T} {O : Ord T} dbg (s : TineTree T) l : tree_wf s -> intervals_are dbg s l ->
  ((forall sched, runs (iter_next dbg) (iter_next_back dbg) (tree_interval_iter s) sched (deque_run l sched)) <-> forall x, ~ pinhole l x) /\
  (drains (iter_next_back dbg) (tree_interval_iter s) (rev l) <-> forall x, ~ pinhole l x).
Proof.
  intros W Hl.
  assert (K1 : (forall x, ~ pinhole l x) -> forall sched, runs (iter_next dbg) (iter_next_back dbg) (tree_interval_iter s) sched (deque_run l sched))
    by (intros; now apply C34_both_ends_partial).
  assert (K2 : drains (iter_next_back dbg) (tree_interval_iter s) (rev l) -> forall x, ~ pinhole l x).
  { intros D x Hx. apply wf_tree_wf in W. rewrite (intervals_pieces dbg s l W Hl) in *.
    apply (hole_pieces s x W) in Hx. apply hole_tine in Hx; auto. pose proof (back_holeless dbg s W D) as N.
    unfold holeless in N. rewrite Forall_forall in N. now specialize (N _ Hx). }
  split; split; auto.
  - intros H. apply K2. now apply (deque_drains_back _ _ _ _ H).
  - intros H. exact (deque_drains_back (iter_next dbg) _ _ _ (K1 H)).
Qed.
Print Assumptions C34_both_ends_iff_partial.

Example C34_iff_ex : let s := [TLower (Exclude 0); TPoint (Exclude 2); TUpper (Exclude 4)]%Z in let l := [Open 0 2; Open 2 4]%Z in
  tree_wf s /\ intervals_are true s l /\ pinhole l 2%Z /\ ~ drains (iter_next_back true) (tree_interval_iter s) (rev l).
Proof.
  assert (W : tree_wf [TLower (Exclude 0); TPoint (Exclude 2); TUpper (Exclude 4)]%Z) by (split; [repeat constructor|reflexivity]).
  assert (D : intervals_are true [TLower (Exclude 0); TPoint (Exclude 2); TUpper (Exclude 4)]%Z [Open 0 2; Open 2 4]%Z) by (repeat econstructor).
  assert (P : pinhole [Open 0 2; Open 2 4]%Z 2%Z) by (exists (Open 0 2)%Z, (Open 2 4)%Z; simpl; auto).
  split; [exact W|]. split; [exact D|]. split; [exact P|].
  intros H. now apply (proj1 (proj2 (C34_both_ends_iff_partial true _ _ W D)) H 2%Z).
Qed.

(** ** C51 *)
Section Sel.
  Context {T : Type} {O : Ord T} {F : Finite T}.

  (** Reverse iteration yields the members in descending order exactly when no
      value is missing between two neighbouring members. *)
  Theorem C51_reverse_iff_partial dbg (p : prog T) s l : inputs true p -> unions_only p -> run dbg p = Ok s -> lists l (member dbg s) ->
    (drains (sel_next_back dbg) (sel_iter s) (rev l) <-> forall x, ~ lone_gap (member dbg s) x).
  Proof.
    intros H U E L. destruct (run_open dbg p s H U E) as [W Op].
    split.
    - intros D x Hx. apply lone_member in Hx; auto. apply hole_open in Hx; auto. apply hole_tine in Hx; auto.
      assert (L' : lists l (inS s)) by (destruct L as [L1 L2]; split; auto; intros y; rewrite L2; now apply member_in).
      pose proof (sel_back_holeless dbg s l W Op L' D) as N. unfold holeless in N. rewrite Forall_forall in N. now specialize (N _ Hx).
    - intros N. destruct (C51_reverse_partial dbg p s H U E N) as (l' & L' & D). now rewrite (lists_unique l l' (member dbg s)).
  Qed.

  (** *** Any schedule *)
  Definition somes {A} (out : list (option A)) : list A := concat (map (fun o => match o with Some a => [a] | None => [] end) out).

  (** The iterator holds the untouched intervals [rs] and the values [lc] of the
      current one. *)
  Definition both (it : SelIter T) (rs : list (RawInterval T)) (lc : list T) : Prop :=
    brep (si_intervals it) rs /\ irep (si_current it) lc.

  Lemma both_front_cur dbg it rs x lc : both it rs (x :: lc) -> exists it', sel_next dbg it = Ok (Some x, it') /\ both it' rs lc.
  Proof. intros [B R]. unfold sel_next. destruct (irep_front _ _ _ R) as (i' & -> & R'). simpl. eexists. split; [reflexivity|]. now split. Qed.
  Lemma both_front_new dbg it r rs x l : both it (r :: rs) [] -> irep (nrm r) (x :: l) ->
    exists it', sel_next dbg it = Ok (Some x, it') /\ both it' rs l.
  Proof.
    intros [B R] Rr. unfold sel_next. rewrite (irep_nil_next _ R). simpl. destruct (brep_front dbg _ _ _ B) as (its & -> & B'). simpl.
    fold (nrm r). destruct (irep_front _ _ _ Rr) as (i' & -> & R'). simpl. eexists. split; [reflexivity|]. now split.
  Qed.
  Lemma both_front_nil dbg it : both it [] [] -> exists it', sel_next dbg it = Ok (None, it') /\ both it' [] [].
  Proof.
    intros [B R]. unfold sel_next. rewrite (irep_nil_next _ R). simpl. destruct (brep_front_nil dbg _ B) as (its & -> & B'). simpl.
    eexists. split; [reflexivity|]. now split.
  Qed.
  Lemma both_back_cur dbg it rs x lc : both it rs (lc ++ [x]) -> exists it', sel_next_back dbg it = Ok (Some x, it') /\ both it' rs lc.
  Proof. intros [B R]. unfold sel_next_back. destruct (irep_back _ _ _ R) as (i' & -> & R'). simpl. eexists. split; [reflexivity|]. now split. Qed.
  Lemma both_back_new dbg it r rs x l : both it (rs ++ [r]) [] -> irep (nrm r) (l ++ [x]) ->
    exists it', sel_next_back dbg it = Ok (Some x, it') /\ both it' rs l.
  Proof.
    intros [B R] Rr. unfold sel_next_back. rewrite (irep_nil_back _ R). simpl. destruct (brep_back dbg _ _ _ B) as (its & -> & B'). simpl.
    fold (nrm r). destruct (irep_back _ _ _ Rr) as (i' & -> & R'). simpl. eexists. split; [reflexivity|]. now split.
  Qed.
  Lemma both_back_nil dbg it : both it [] [] -> exists it', sel_next_back dbg it = Ok (None, it') /\ both it' [] [].
  Proof.
    intros [B R]. unfold sel_next_back. rewrite (irep_nil_back _ R). simpl. destruct (brep_back_nil dbg _ B) as (its & -> & B'). simpl.
    eexists. split; [reflexivity|]. now split.
  Qed.

  Lemma both_sched dbg sched : forall it rs ls lc, both it rs lc -> chunks rs ls ->
    exists out rest, runs (sel_next dbg) (sel_next_back dbg) it sched out /\
      Permutation (somes out ++ rest) (concat ls ++ lc) /\ (In None out -> rest = []).
  Proof.
    assert (Step : forall (x : T) out rest m, Permutation (somes out ++ rest) m -> Permutation (somes (Some x :: out) ++ rest) (x :: m)).
    { intros x out rest m P. unfold somes in *. simpl. now constructor. }
    induction sched as [|[|] sched IH]; intros it rs ls lc B C.
    - exists [], (concat ls ++ lc). split; [constructor|]. split; [reflexivity|intros []].
    - destruct lc as [|x lc].
      + destruct C as [|r l rs ls [Rr Nr] C].
        * destruct (both_front_nil dbg it B) as (it' & E & B'). destruct (IH it' [] [] [] B' (Forall2_nil _)) as (out & rest & R & P & N).
          simpl in *. apply Permutation_sym, Permutation_nil, app_eq_nil in P as [P1 P2].
          exists (None :: out), []. subst rest. split; [econstructor; eauto|]. split; auto. unfold somes in *. simpl. now rewrite P1.
        * destruct l as [|x l]; [now destruct Nr|]. destruct (both_front_new dbg it r rs x l B Rr) as (it' & E & B').
          destruct (IH it' rs ls l B' C) as (out & rest & R & P & N). exists (Some x :: out), rest.
          split; [econstructor; eauto|]. split; [|intros [K|K]; [discriminate|auto]].
          rewrite (Step _ _ _ _ P). simpl. rewrite app_nil_r. constructor. apply Permutation_app_comm.
      + destruct (both_front_cur dbg it rs x lc B) as (it' & E & B').
        destruct (IH it' rs ls lc B' C) as (out & rest & R & P & N). exists (Some x :: out), rest.
        split; [econstructor; eauto|]. split; [|intros [K|K]; [discriminate|auto]].
        rewrite (Step _ _ _ _ P). apply Permutation_middle.
    - destruct (ends lc) as [->|(lc' & x & ->)].
      + destruct (ends rs) as [->|(rs' & r & ->)].
        * inversion C; subst. destruct (both_back_nil dbg it B) as (it' & E & B'). destruct (IH it' [] [] [] B' (Forall2_nil _)) as (out & rest & R & P & N).
          simpl in *. apply Permutation_sym, Permutation_nil, app_eq_nil in P as [P1 P2].
          exists (None :: out), []. subst rest. split; [econstructor; eauto|]. split; auto. unfold somes in *. simpl. now rewrite P1.
        * destruct (chunks_snoc _ _ C rs' r eq_refl) as (ls' & l & -> & C' & Rr & Nr).
          destruct (ends l) as [->|(l' & x & ->)]; [now destruct Nr|]. destruct (both_back_new dbg it r rs' x l' B Rr) as (it' & E & B').
          destruct (IH it' rs' ls' l' B' C') as (out & rest & R & P & N). exists (Some x :: out), rest.
          split; [econstructor; eauto|]. split; [|intros [K|K]; [discriminate|auto]].
          rewrite (Step _ _ _ _ P). rewrite concat_app. simpl. rewrite !app_nil_r, app_assoc. apply Permutation_cons_append.
      + destruct (both_back_cur dbg it rs x lc' B) as (it' & E & B').
        destruct (IH it' rs ls lc' B' C) as (out & rest & R & P & N). exists (Some x :: out), rest.
        split; [econstructor; eauto|]. split; [|intros [K|K]; [discriminate|auto]].
        rewrite (Step _ _ _ _ P). rewrite app_assoc. apply Permutation_cons_append.
  Qed.

  Lemma both_start s ls : wf s -> holeless s -> chunks (pieces None s) ls -> both (sel_iter s) (pieces None s) [].
  Proof. intros [_ H] N C. split; [exists s; repeat split; auto|apply irep_empty]. Qed.

  (** Without such a missing value every schedule, in whatever order it calls
      [next] and [next_back], yields members only, none twice, and says [None]
      only when all of them have come out. *)
  Theorem C51_any_schedule_partial dbg (p : prog T) s sched : inputs true p -> unions_only p -> run dbg p = Ok s ->
    (forall x, ~ lone_gap (member dbg s) x) ->
    exists l out rest, lists l (member dbg s) /\ runs (sel_next dbg) (sel_next_back dbg) (sel_iter s) sched out /\
      Permutation (somes out ++ rest) l /\ (In None out -> rest = []).
  Proof.
    intros H U E N. destruct (run_open dbg p s H U E) as [W Op]. pose proof (no_lone_holeless dbg p s H U E N) as Hl.
    destruct (chunks_of s W (open_gapless _ Op) _ (incl_refl _)) as (ls & C).
    destruct (both_sched dbg sched _ _ ls [] (both_start s ls W Hl C) C) as (out & rest & R & P & Q).
    exists (concat ls), out, rest. rewrite app_nil_r in P. split; auto.
    destruct (chunks_lists s ls W C) as [L1 L2]. split; auto. intros x. rewrite member_in by auto. apply L2.
  Qed.

  (** *** The two ends meet *)
  Lemma first_long (ls : list (list T)) : Forall (fun l => l <> []) ls ->
    Forall (fun l => exists a, l = [a]) ls \/
    exists A a b l B, ls = A ++ (a :: b :: l) :: B /\ Forall (fun l => exists a, l = [a]) A.
  Proof.
    induction 1 as [|l ls N _ IH]; [left; constructor|]. destruct l as [|a [|b l]]; [now destruct N| |].
    - destruct IH as [IH|(A & a' & b & l & B & -> & S)]; [left; constructor; eauto|].
      right. exists ([a] :: A), a', b, l, B. split; auto. constructor; eauto.
    - right. exists [], a, b, l, ls. split; auto.
  Qed.

  Lemma singles_deque dbg it rs ls : both it rs [] -> chunks rs ls -> Forall (fun l => exists a, l = [a]) ls ->
    deque (sel_next dbg) (sel_next_back dbg) it (concat ls).
  Proof.
    intros B C S sched.
    apply (runs_of_rep _ _ (fun it l => exists rs ls, both it rs [] /\ chunks rs ls /\ Forall (fun l => exists a, l = [a]) ls /\ l = concat ls)); [| | | |eauto 7].
    - intros j (rs' & ls' & B' & C' & S' & E'). destruct C' as [|r l rs' ls' [Rr Nr] C']; [|destruct l; [now destruct Nr|discriminate]].
      destruct (both_front_nil dbg j B') as (j' & En & B2). exists j'. split; auto. exists [], []. repeat split; auto; try constructor; apply B2.
    - intros j a l (rs' & ls' & B' & C' & S' & E'). destruct C' as [|r l' rs' ls' [Rr Nr] C']; [discriminate|].
      inversion S' as [|? ? [a' ->] S2]; subst. simpl in E'. injection E' as <- ->.
      destruct (both_front_new dbg j r rs' a [] B' Rr) as (j' & En & B2). exists j'. split; auto. exists rs', ls'. auto.
    - intros j (rs' & ls' & B' & C' & S' & E'). destruct C' as [|r l rs' ls' [Rr Nr] C']; [|destruct l; [now destruct Nr|discriminate]].
      destruct (both_back_nil dbg j B') as (j' & En & B2). exists j'. split; auto. exists [], []. repeat split; auto; try constructor; apply B2.
    - intros j a l (rs' & ls' & B' & C' & S' & E'). destruct (ends rs') as [->|(rs2 & r & ->)]; [inversion C'; subst; now destruct l|].
      destruct (chunks_snoc _ _ C' rs2 r eq_refl) as (ls2 & l2 & -> & C2 & Rr & Nr).
      apply Forall_app in S' as [S1 S2]. inversion S2 as [|? ? [a' ->] _]; subst. rewrite concat_app in E'. simpl in E'.
      apply app_inj_tail in E' as [-> <-]. destruct (both_back_new dbg j r rs2 a [] B' Rr) as (j' & En & B2). exists j'. split; auto. exists rs2, ls2. auto.
  Qed.

  Lemma last_in (l : list T) a : exists l' b, a :: l = l' ++ [b] /\ In b (a :: l).
  Proof. destruct (ends (a :: l)) as [E|(k & b & E)]; [discriminate|]. exists k, b. split; auto. rewrite E. apply in_app_iff. right. left. auto. Qed.

  Lemma long_front dbg A : forall it rs a b l B, both it rs [] -> chunks rs (A ++ (a :: b :: l) :: B) -> Forall (fun l => exists a, l = [a]) A ->
    NoDup (concat (A ++ (a :: b :: l) :: B)) -> B <> [] -> ~ deque (sel_next dbg) (sel_next_back dbg) it (concat (A ++ (a :: b :: l) :: B)).
  Proof.
    induction A as [|k A IH]; intros it rs a b l B Bo C S ND NB D.
    - simpl in *. inversion C as [|r ? rs' ? [Rr _] C']; subst.
      destruct (both_front_new dbg it r rs' a (b :: l) Bo Rr) as (it' & E & Bo').
      destruct (deque_front _ _ _ _ _ D) as (it2 & E2 & D2). rewrite E in E2. injection E2 as <-.
      destruct (ends B) as [->|(B' & k & ->)]; [now destruct NB|].
      destruct (Forall2_app_inv_r _ _ C') as (r1 & r2 & _ & C2 & ->). inversion C2 as [|r' ? ? ? [_ Nk] _]; subst.
      destruct (ends k) as [->|(k' & m & ->)]; [now destruct Nk|].
      destruct (last_in l b) as (l' & z & El & Iz). rewrite El in Bo'.
      destruct (both_back_cur dbg it' _ _ _ Bo') as (it3 & E3 & _).
      assert (Em : b :: l ++ concat (B' ++ [k' ++ [m]]) = (b :: l ++ concat B' ++ k') ++ [m])
        by (rewrite concat_app; simpl; rewrite app_nil_r, <- !app_assoc; reflexivity).
      rewrite Em in D2. destruct (deque_back _ _ _ _ _ D2) as (it4 & E4 & _). rewrite E3 in E4. injection E4 as -> _.
      inversion ND as [|? ? _ ND']; subst. rewrite Em in ND'.
      apply NoDup_remove_2 in ND'. rewrite app_nil_r in ND'. apply ND'. destruct Iz as [->|Iz]; [left; auto|right; apply in_app_iff; auto].
    - inversion S as [|? ? [x ->] S']; subst. simpl in *. inversion C as [|r ? rs' ? [Rr _] C']; subst.
      destruct (both_front_new dbg it r rs' x [] Bo Rr) as (it' & E & Bo').
      destruct (deque_front _ _ _ _ _ D) as (it2 & E2 & D2). rewrite E in E2. injection E2 as <-.
      inversion ND; subst. now apply (IH it' rs' a b l B).
  Qed.
  Lemma long_back dbg it rs A a b l : both it rs [] -> chunks rs (A ++ [a :: b :: l]) ->
    NoDup (concat (A ++ [a :: b :: l])) -> A <> [] -> ~ deque (sel_next dbg) (sel_next_back dbg) it (concat (A ++ [a :: b :: l])).
  Proof.
    intros Bo C ND NA D. destruct (Forall2_app_inv_r _ _ C) as (r1 & r2 & C1 & C2 & ->).
    inversion C2 as [|r ? ? ? [Rr _] C3]; subst. inversion C3; subst.
    destruct (last_in l b) as (l' & z & El & _). rewrite El in *. rewrite concat_app in *. simpl in *. rewrite app_nil_r in *.
    destruct (both_back_new dbg it r r1 z (a :: l') Bo Rr) as (it' & E & Bo').
    replace (concat A ++ a :: l' ++ [z]) with ((concat A ++ a :: l') ++ [z]) in * by now rewrite <- app_assoc.
    destruct (deque_back _ _ _ _ _ D) as (it2 & E2 & D2). rewrite E in E2. injection E2 as <-.
    destruct (both_front_cur dbg it' r1 a l' Bo') as (it3 & E3 & _).
    destruct A as [|k A]; [now destruct NA|]. inversion C1 as [|? ? ? ? [_ Nk] _]; subst. destruct k as [|w k]; [now destruct Nk|].
    simpl in *. destruct (deque_front _ _ _ _ _ D2) as (it4 & E4 & _). rewrite E3 in E4. injection E4 as -> _.
    inversion ND as [|? ? Nx _]; subst. apply Nx. rewrite !in_app_iff. simpl. auto.
  Qed.

  Lemma chunk_long s r a b l : In r (pieces None s) -> wf s -> irep (nrm r) (a :: b :: l) -> exists y, succ a = Some y /\ inS s a /\ inS s y.
  Proof.
    intros Hin W [_ [Ss H]]. inversion Ss as [|? ? _ Fa]; subst. inversion Fa as [|? ? Lab _]; subst.
    assert (Ha : raw_contains r a = true) by (apply nrm_points, H; simpl; auto).
    assert (Hb : raw_contains r b = true) by (apply nrm_points, H; simpl; auto).
    destruct (succ a) as [y|] eqn:Ey; [|exfalso; clear - Ey Lab; forder].
    exists y. split; auto. rewrite <- covers_At in Ha, Hb. split; [now apply (piece_den s r)|].
    apply (piece_den s r); auto. apply (covers_convex r (At a) (At y) (At b)); auto; clear - Ey Lab; apply succ_some in Ey as [Ey1 Ey2].
    - po.
    - specialize (Ey2 b Lab). po.
  Qed.

  Lemma chunks_lookup rs ls r : chunks rs ls -> In r rs -> exists l, In l ls /\ irep (nrm r) l.
  Proof.
    induction 1 as [|k l rs ls [R _] _ IH]; intros []; [subst; exists l; simpl; auto|].
    destruct IH as (m & I1 & I2); auto. exists m. simpl. auto.
  Qed.
  Lemma pieces_order s r r' : wf s -> In r (pieces None s) -> In r' (pieces None s) -> r = r' \/ separated r r' \/ separated r' r.
  Proof.
    intros W. generalize (pieces_sorted s W). induction 1 as [|k l SS IH Fk]; [intros []|]. rewrite Forall_forall in Fk.
    intros [<-|H] [<-|H']; auto.
  Qed.
  Lemma neighbours_together s x y : wf s -> open_cov (den false s) -> succ x = Some y -> inS s x -> inS s y ->
    exists r, In r (pieces None s) /\ raw_contains r x = true /\ raw_contains r y = true.
  Proof.
    intros W Op E Hx Hy. destruct (den_piece s _ W Hx) as (r & Ir & Cr), (den_piece s _ W Hy) as (r' & Ir' & Cr').
    rewrite covers_At in Cr, Cr'. apply succ_some in E as [E1 E2].
    destruct (pieces_order s r r' W Ir Ir') as [<-|[K|K]]; [eauto| |].
    - destruct (open_apart s r r' W Op Ir Ir' K) as (a & _ & A1 & A2).
      specialize (A1 x (proj2 (nrm_points r x) Cr)). specialize (A2 y (proj2 (nrm_points r' y) Cr')). specialize (E2 a A1).
      clear - A2 E2. order.
    - pose proof (separated_points r' r y x (piece_wf s r' Ir') (piece_wf s r Ir) K Cr' Cr) as L. clear - L E1. order.
  Qed.

  Lemma sorted_nodup (l : list T) : StronglySorted lt l -> NoDup l.
  Proof.
    induction 1 as [|a l S IH Fa]; constructor; auto. intros Ha. rewrite Forall_forall in Fa. specialize (Fa a Ha). clear - Fa. order.
  Qed.

  (** Every schedule gives the members from the two ends inwards exactly when
      reverse iteration works and the members are consecutive, or no two of
      them are. *)
  Theorem C51_meet_iff_partial dbg (p : prog T) s l : inputs true p -> unions_only p -> run dbg p = Ok s -> lists l (member dbg s) ->
    ((forall sched, runs (sel_next dbg) (sel_next_back dbg) (sel_iter s) sched (deque_run l sched)) <->
     (forall x, ~ lone_gap (member dbg s) x) /\
     ((forall x y z, member dbg s x -> member dbg s z -> lt x y -> lt y z -> member dbg s y) \/
      (forall x y, succ x = Some y -> member dbg s x -> ~ member dbg s y))).
  Proof.
    intros H U E L. destruct (run_open dbg p s H U E) as [W Op].
    destruct (chunks_of s W (open_gapless _ Op) _ (incl_refl _)) as (ls & C).
    pose proof (chunks_lists s ls W C) as L0.
    assert (l = concat ls) as ->.
    { apply (lists_unique l (concat ls) (inS s)); auto. destruct L as [L1 L2]. split; auto. intros x. rewrite L2. now apply member_in. }
    assert (ND : NoDup (concat ls)) by now apply sorted_nodup, L0.
    assert (NE : Forall (fun l => l <> []) ls).
    { clear - C. induction C as [|? ? ? ? [_ N] _ IH]; constructor; auto. }
    split.
    - intros D.
      assert (N : forall x, ~ lone_gap (member dbg s) x).
      { apply (C51_reverse_iff_partial dbg p s _ H U E L). exact (deque_drains_back (sel_next dbg) _ _ _ D). }
      split; auto. pose proof (no_lone_holeless dbg p s H U E N) as Hl. pose proof (both_start s ls W Hl C) as Bo.
      destruct (first_long ls NE) as [S|(A & a & b & k & B & Els & S)].
      + right. intros x y Ey Hx Hy. apply member_in in Hx; auto. apply member_in in Hy; auto.
        destruct (neighbours_together s x y W Op Ey Hx Hy) as (r & Ir & Cx & Cy).
        destruct (chunks_lookup _ _ r C Ir) as (k & Ik & [_ [_ Hk]]). rewrite Forall_forall in S. destruct (S k Ik) as (a & ->).
        apply (proj2 (nrm_points r x)) in Cx. apply (proj2 (nrm_points r y)) in Cy. apply Hk in Cx as [<-|[]]. apply Hk in Cy as [<-|[]].
        apply succ_some in Ey as [Ey _]. clear - Ey. order.
      + left. destruct (ends B) as [->|(B' & w & ->)].
        * destruct (ends A) as [->|(A' & w & ->)].
          -- simpl in Els. subst ls. inversion C as [|r ? ? ? [Rr _] C' Ep]; subst. inversion C'; subst.
             intros x y z Hx Hz L1 L2. apply member_in in Hx; auto. apply member_in in Hz; auto. apply member_in; auto. unfold inS in *.
             rewrite <- (pieces_den s) in * by auto. rewrite <- Ep in *. simpl in *. rewrite orb_false_r in *.
             apply (covers_convex r (At x) (At y) (At z)); auto; clear - L1 L2; po.
          -- exfalso. subst ls. apply (long_back dbg (sel_iter s) _ (A' ++ [w]) a b k Bo C ND); [now destruct A'|exact D].
        * exfalso. subst ls. apply (long_front dbg A (sel_iter s) _ a b k (B' ++ [w]) Bo C S ND); [now destruct B'|exact D].
    - intros [N K]. pose proof (no_lone_holeless dbg p s H U E N) as Hl. pose proof (both_start s ls W Hl C) as Bo. destruct K as [K|K].
      + remember (pieces None s) as ps eqn:Ep. destruct ps as [|r [|r' ps]].
        * inversion C; subst. now apply (singles_deque dbg (sel_iter s) [] []).
        * symmetry in Ep. destruct (sel_iter_single dbg s r W (open_gapless _ Op) Hl Ep) as (l & Ll & R).
          now rewrite (lists_unique (concat ls) l (inS s)).
        * exfalso. assert (I1 : In r (pieces None s)) by (rewrite <- Ep; simpl; auto).
          assert (I2 : In r' (pieces None s)) by (rewrite <- Ep; simpl; auto).
          pose proof (pieces_sorted s W) as SS. rewrite <- Ep in SS. inversion SS as [|? ? _ Fr]; subst. inversion Fr as [|? ? Sep _]; subst.
          destruct (piece_point s r W (open_gapless _ Op) I1) as (x & Hx), (piece_point s r' W (open_gapless _ Op) I2) as (z & Hz).
          destruct (open_apart s r r' W Op I1 I2 Sep) as (a & Na & A1 & A2).
          apply Na. apply (member_in dbg); auto. apply (K x a z).
          -- apply member_in; auto. apply (piece_den s r); auto. now rewrite covers_At.
          -- apply member_in; auto. apply (piece_den s r'); auto. now rewrite covers_At.
          -- now apply A1, nrm_points.
          -- now apply A2, nrm_points.
      + destruct (first_long ls NE) as [S|(A & a & b & k & B & Els & S)]; [now apply (singles_deque dbg _ (pieces None s))|].
        exfalso. subst ls. destruct (Forall2_app_inv_r _ _ C) as (r1 & r2 & C1 & C2 & Ep). inversion C2 as [|r ? ? ? [Rr _] _]; subst.
        assert (Ir : In r (pieces None s)) by (rewrite Ep; apply in_app_iff; right; left; auto).
        destruct (chunk_long s r a b k Ir W Rr) as (y & Ey & Ha & Hy). apply (K a y Ey); now apply member_in.
  Qed.
End Sel.
Print Assumptions C51_reverse_iff_partial.
Print Assumptions C51_any_schedule_partial.
Print Assumptions C51_meet_iff_partial.

(** {1,2,5,6}: reverse iteration is right and all values come out on every
    schedule, but not from the two ends inwards. *)
Local Open Scope Z_scope.
Example C51_meet_ex : let p : prog i8 := P_points [v 1; v 2; v 5; v 6] in
  inputs true p /\ unions_only p /\ exists s, run true p = Ok s /\ lists [v 1; v 2; v 5; v 6] (member true s) /\
  drains (sel_next_back true) (sel_iter s) [v 6; v 5; v 2; v 1] /\
  runs (sel_next true) (sel_next_back true) (sel_iter s) [Front; Back; Front; Back; Back] [Some (v 1); Some (v 2); Some (v 5); Some (v 6); None] /\
  (forall x, ~ lone_gap (member true s) x).
Proof.
  intros p. split; [exact I|]. split; [exact I|]. destruct (C43_set_semantics true p I I) as (s & E & M). exists s. split; [exact E|].
  assert (L : lists [v 1; v 2; v 5; v 6] (member true s)).
  { split; [repeat constructor|]. intros w. destruct (M w) as (b & Eb & K). unfold member. rewrite Eb. simpl in K.
    split; [intros Hw; f_equal; now apply K|intros [= ->]; now apply K]. }
  assert (D : drains (sel_next_back true) (sel_iter s) [v 6; v 5; v 2; v 1]) by (injection E as <-; drain).
  split; [exact L|]. split; [exact D|]. split.
  - injection E as <-. repeat (econstructor; [reflexivity|]). constructor.
  - now apply (C51_reverse_iff_partial true p s [v 1; v 2; v 5; v 6] I I E L).
Qed.

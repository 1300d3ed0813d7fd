(** * Proofs about Selections: iterators and bounds *)
From Coq Require Import List Bool ZArith Lia Sorted.
From Verif Require Import Base OrdFacts Pos PFinite MBound MRaw MNormalize MTine MBTree MTineTree MInterval MSelection
  Spec Spec_Tree Spec_Sel PRaw PRaw2 PNorm PIter PInterval PBTree PTree PTreeOps PTreeIsect PTree2 PTree3 PTree4 PTree5 PTree6 PTree7 PSel PSel2.
Import ListNotations.
Local Arguments cmp : simpl never.

Section PSel3.
  Context {T : Type} {O : Ord T} {F : Finite T}.
  Implicit Types (s : Selection T) (r : RawInterval T) (x y : T).

  (** ** The last interval *)
  Lemma pieces_snoc (A : list (Tine T)) : forall o t d, chain (has o) (A ++ [t; TUpper d]) false = true ->
    exists l, pieces o (A ++ [t; TUpper d]) = l ++ [raw_new (tine_into_inner t) d].
  Proof.
    induction A as [|w A IH]; intros o t d H.
    - simpl app in *. apply chain_cons in H as (K & U & H). apply chain_cons in H as (_ & U2 & _).
      destruct o as [l|], t as [e|[e|e|]|e]; simpl in *; try discriminate.
      + exists [raw_new (tine_into_inner l) (Exclude e)]. reflexivity.
      + exists []. reflexivity.
    - simpl app in *. apply chain_cons in H as (K & U & H). cbn [pieces]. destruct o as [l|].
      + destruct (IH (if is_point_exclude w then Some w else None) t d) as (k & E).
        { destruct w as [e|[e|e|]|e]; simpl in *; try discriminate; auto. }
        rewrite E. now exists (raw_new (tine_into_inner l) (tine_into_inner w) :: k).
      + destruct w as [e|[e|e|]|e]; simpl in *; try discriminate.
        * destruct (IH (Some (TLower e)) t d H) as (k & E). rewrite E. now exists k.
        * destruct (IH None t d H) as (k & E). rewrite E. now exists (Point e :: k).
  Qed.

  Lemma ends {A} (l : list A) : l = [] \/ exists k a, l = k ++ [a].
  Proof. destruct (rev l) as [|a k] eqn:E; apply (f_equal (@rev A)) in E; rewrite rev_involutive in E; simpl in E; eauto. Qed.
  Lemma last_of {A} (l : list A) a : hd_error (rev (l ++ [a])) = Some a.
  Proof. now rewrite rev_app_distr. Qed.

  Lemma next_back_last dbg s : wf s ->
    exists it, iter_next_back dbg (tree_interval_iter s) = Ok (hd_error (rev (pieces None s)), it).
  Proof.
    intros [Ss H]. unfold iter_next_back, tree_interval_iter. cbn [saved_upper tine_iter saved_lower].
    destruct (snoc_cases s) as [->|(s1 & u & ->)]; [eexists; reflexivity|].
    rewrite last_app_one, rest_back_app_one.
    pose proof H as H'. apply chain_app in H as (c & H1 & H2). apply chain_cons in H2 as (K & U & H2). simpl in H2. apply eqb_prop in H2.
    destruct (is_upper_bound u) eqn:EU; subst c.
    - assert (Eu : exists d, u = TUpper d) by (destruct u as [[]|[]|[]]; simpl in *; try discriminate; eauto). destruct Eu as [d ->].
      destruct (snoc_cases s1) as [->|(s2 & t & ->)]; [discriminate|].
      rewrite <- app_assoc in *. simpl app in *. destruct (pieces_snoc s2 None t d H') as (l & ->). rewrite last_of.
      rewrite last_app_one, rest_back_app_one.
      apply chain_app in H1 as (c & H1 & H3). apply chain_cons in H3 as (Kt & Ut & H3). simpl in H3. apply eqb_prop in H3.
      rewrite H3. eexists. destruct dbg; reflexivity.
    - assert (Eu : exists x, u = TPoint (Include x)) by (destruct u as [[]|[]|[]]; simpl in *; try discriminate; eauto).
      destruct Eu as [x ->].
      assert (Ep : pieces None (s1 ++ [TPoint (Include x)]) = pieces None s1 ++ [Point x]).
      { rewrite pieces_app; auto. intros w Hw; discriminate. }
      rewrite Ep, last_of. eexists. reflexivity.
  Qed.

  (** ** lower_bound and upper_bound *)
  Lemma sorted_snoc {A} (R : A -> A -> Prop) l a b : StronglySorted R (l ++ [a]) -> In b l -> R b a.
  Proof.
    induction l as [|c l IH]; intros S []; simpl in S; inversion S as [|? ? S1 S2]; subst; auto.
    rewrite Forall_forall in S2. apply S2, in_app_iff. right. left. auto.
  Qed.

  Lemma sel_lower_ok dbg s : wf s -> gapless (den false s) ->
    exists o, sel_lower_bound dbg s = Ok o /\
      match o with
      | Some (Include m) => least (inS s) m
      | None => forall x, ~ inS s x
      | _ => False
      end.
  Proof.
    intros W G. unfold sel_lower_bound, sel_interval_next, sel_interval_iter.
    destruct (next_head dbg s W) as (it & ->). simpl.
    destruct (pieces None s) as [|r l] eqn:E; simpl; eexists; (split; [reflexivity|]).
    - intros x Hx. destruct (den_piece s (At x) W Hx) as (k & Hk & _). rewrite E in Hk. destruct Hk.
    - assert (Hin : In r (pieces None s)) by (rewrite E; left; auto).
      pose proof (piece_solid s r W G Hin) as Sr. destruct (piece_point s r W G Hin) as (x0 & Hx0).
      destruct (solid_cases _ Sr) as [Er|(a & b & La & Ub & Hab)].
      { exfalso. rewrite nrm_raw in Er. rewrite <- normalized_contains, Er in Hx0. discriminate. }
      fold (nrm r). unfold interval_lower_bound. rewrite La.
      destruct (bounds_extremes (nrm r) a b La Ub Hab) as [[La1 La2] _].
      assert (Hm : raw_contains r a = true) by now apply nrm_points.
      split.
      + apply (piece_den s r); auto. now rewrite covers_At.
      + intros x Hx. destruct (den_piece s (At x) W Hx) as (k & Hk & Hc). rewrite covers_At in Hc. pose proof Hk as Hk'.
        rewrite E in Hk. destruct Hk as [<-|Hk]; [apply La2; now apply nrm_points|].
        pose proof (pieces_sorted s W) as SS. rewrite E in SS. inversion SS as [|? ? S1 S2]; subst. rewrite Forall_forall in S2.
        assert (lt a x) by (apply (separated_points r k); auto; now apply (piece_wf s)). clear - H. order.
  Qed.
  Lemma sel_upper_ok dbg s : wf s -> gapless (den false s) ->
    exists o, sel_upper_bound dbg s = Ok o /\
      match o with
      | Some (Include m) => greatest (inS s) m
      | None => forall x, ~ inS s x
      | _ => False
      end.
  Proof.
    intros W G. unfold sel_upper_bound, sel_interval_next_back, sel_interval_iter.
    destruct (next_back_last dbg s W) as (it & ->). simpl.
    destruct (ends (pieces None s)) as [E|(l & r & E)]; rewrite E, ?last_of; simpl; eexists; (split; [reflexivity|]).
    - intros x Hx. destruct (den_piece s (At x) W Hx) as (k & Hk & _). rewrite E in Hk. destruct Hk.
    - assert (Hin : In r (pieces None s)) by (rewrite E; apply in_app_iff; right; left; auto).
      pose proof (piece_solid s r W G Hin) as Sr. destruct (piece_point s r W G Hin) as (x0 & Hx0).
      destruct (solid_cases _ Sr) as [Er|(a & b & La & Ub & Hab)].
      { exfalso. rewrite nrm_raw in Er. rewrite <- normalized_contains, Er in Hx0. discriminate. }
      fold (nrm r). unfold interval_upper_bound. rewrite Ub.
      destruct (bounds_extremes (nrm r) a b La Ub Hab) as [_ [La1 La2]].
      assert (Hm : raw_contains r b = true) by now apply nrm_points.
      split.
      + apply (piece_den s r); auto. now rewrite covers_At.
      + intros x Hx. destruct (den_piece s (At x) W Hx) as (k & Hk & Hc). rewrite covers_At in Hc. pose proof Hk as Hk'.
        rewrite E in Hk. apply in_app_iff in Hk as [Hk|[<-|[]]]; [|apply La2; now apply nrm_points].
        pose proof (pieces_sorted s W) as SS. rewrite E in SS. pose proof (sorted_snoc _ _ _ _ SS Hk) as Sep.
        assert (lt x b) by (apply (separated_points k r); auto; now apply (piece_wf s)). clear - H. order.
  Qed.

  (** ** Iteration over the values *)
  Definition chunks (rs : list (RawInterval T)) (ls : list (list T)) : Prop :=
    Forall2 (fun r l => irep (nrm r) l /\ l <> []) rs ls.

  Lemma chunks_of s : wf s -> gapless (den false s) -> forall rs, incl rs (pieces None s) -> exists ls, chunks rs ls.
  Proof.
    intros W G. induction rs as [|r rs IH]; intros I; [exists []; constructor|].
    destruct IH as (ls & H); [intros k Hk; apply I; right; auto|].
    assert (Hin : In r (pieces None s)) by (apply I; left; auto).
    pose proof (piece_solid s r W G Hin) as Sr. destruct (solid_lists _ Sr) as (l & Hl).
    exists (l :: ls). constructor; auto. split; [split; auto|].
    intros ->. destruct (piece_point s r W G Hin) as (x & Hx). destruct Hl as [_ Hl]. apply (proj2 (Hl x)). now apply nrm_points.
  Qed.

  Lemma sorted_app {A} (R : A -> A -> Prop) l m : StronglySorted R l -> StronglySorted R m ->
    (forall a b, In a l -> In b m -> R a b) -> StronglySorted R (l ++ m).
  Proof.
    induction 1 as [|a l S IH H]; intros Sm K; simpl; auto. constructor.
    - apply IH; auto. intros; apply K; simpl; auto.
    - apply Forall_app. split; auto. apply Forall_forall. intros; apply K; simpl; auto.
  Qed.

  Lemma chunks_in rs ls x : chunks rs ls -> (In x (concat ls) <-> exists r, In r rs /\ raw_contains r x = true).
  Proof.
    induction 1 as [|r l rs ls [[_ [_ H]] _] _ IH]; simpl; [split; [tauto|intros (r & [] & _)]|].
    rewrite in_app_iff, IH, H, nrm_points. split.
    - intros [K|(k & K1 & K2)]; eauto.
    - intros (k & [<-|K1] & K2); eauto.
  Qed.
  Lemma chunks_sorted rs ls : chunks rs ls -> Forall raw_wf rs -> StronglySorted separated rs -> StronglySorted lt (concat ls).
  Proof.
    induction 1 as [|r l rs ls [[_ [Sl H]] _] C IH]; intros Wf SS; simpl; [constructor|].
    inversion SS as [|? ? S1 S2]; subst. inversion Wf as [|? ? W1 W2]; subst. rewrite Forall_forall in S2.
    apply sorted_app; auto. intros a b Ha Hb. apply H in Ha. rewrite nrm_points in Ha.
    apply (chunks_in _ _ b C) in Hb as (k & Hk & Hb). rewrite Forall_forall in W2.
    apply (separated_points r k); auto.
  Qed.
  Lemma chunks_lists s ls : wf s -> chunks (pieces None s) ls -> lists (concat ls) (inS s).
  Proof.
    intros W C. split.
    - apply (chunks_sorted _ _ C); [apply pieces_wf|now apply pieces_sorted].
    - intros x. rewrite (chunks_in _ _ x C). unfold inS. split.
      + intros (r & Hr & Hx). apply (piece_den s r); auto. now rewrite covers_At.
      + intros Hx. destruct (den_piece s (At x) W Hx) as (k & Hk & Hc). rewrite covers_At in Hc. eauto.
  Qed.

  Lemma irep_empty : irep (@interval_empty T) [].
  Proof. split; [exact I|]. split; [constructor|]. intros x. simpl. split; [tauto|discriminate]. Qed.
  Lemma irep_nil_next i : irep i [] -> interval_next i = Ok (None, i).
  Proof. intros H. apply irep_nil in H. unfold interval_next, interval_lower_bound. now rewrite H. Qed.
  Lemma irep_nil_back i : irep i [] -> interval_next_back i = Ok (None, i).
  Proof. intros H. apply irep_nil in H. unfold interval_next_back, interval_upper_bound. now rewrite H. Qed.

  Definition frep (it : SelIter T) (l : list T) : Prop :=
    exists s o lc ls, si_intervals it = st s o /\ stok s o /\ irep (si_current it) lc /\ chunks (pieces o s) ls /\ l = lc ++ concat ls.

  Lemma frep_next_nil dbg it : frep it [] -> exists it', sel_next dbg it = Ok (None, it') /\ frep it' [].
  Proof.
    intros (s & o & lc & ls & E & [H P] & Hc & C & El). symmetry in El. apply app_eq_nil in El as [-> El].
    unfold sel_next. rewrite (irep_nil_next _ Hc). simpl. rewrite E.
    generalize (iter_next_pieces dbg s o H P). destruct C as [|r l rs ls' [_ N] C'].
    - intros [-> ->]. rewrite (iter_next_none dbg : iter_next dbg (st [] None) = _). eexists. split; [reflexivity|].
      exists [], None, [], []. split; [reflexivity|]. split; [split; [reflexivity|discriminate]|]. split; [exact Hc|]. split; [constructor|auto].
    - simpl in El. apply app_eq_nil in El as [-> _]. now destruct N.
  Qed.
  Lemma frep_next dbg it x l : frep it (x :: l) -> exists it', sel_next dbg it = Ok (Some x, it') /\ frep it' l.
  Proof.
    intros (s & o & lc & ls & E & [H P] & Hc & C & El). unfold sel_next. destruct lc as [|y lc].
    - rewrite (irep_nil_next _ Hc). simpl. rewrite E. simpl in El.
      generalize (iter_next_pieces dbg s o H P).
      remember (pieces o s) as ps eqn:Eps. destruct C as [|r l1 rs ls' [R N] C']; [discriminate|].
      destruct l1 as [|y l1]; [now destruct N|]. simpl in El. injection El as <- ->.
      intros (s' & o' & H' & P' & El' & _ & _ & En). unfold st. rewrite En. simpl.
      destruct (irep_front _ _ _ R) as (i' & Ei & Ri). fold (nrm r). rewrite Ei. simpl. eexists. split; [reflexivity|].
      exists s', o', l1, ls'. split; [reflexivity|]. split; [split; auto|]. split; [exact Ri|]. split; [now rewrite <- El'|auto].
    - simpl in El. injection El as <- ->. destruct (irep_front _ _ _ Hc) as (i' & Ei & Ri). rewrite Ei. simpl.
      eexists. split; [reflexivity|]. exists s, o, lc, ls. split; [exact E|]. split; [split; auto|]. auto.
  Qed.

  Lemma sel_iter_front dbg s : wf s -> gapless (den false s) ->
    exists l, lists l (inS s) /\ drains (sel_next dbg) (sel_iter s) l /\
      forall back n, runs (sel_next dbg) back (sel_iter s) (repeat Front n) (deque_run l (repeat Front n)).
  Proof.
    intros W G. destruct (chunks_of s W G _ (incl_refl _)) as (ls & C). exists (concat ls).
    assert (R : frep (sel_iter s) (concat ls)).
    { exists s, None, [], ls. split; [reflexivity|]. split; [split; [apply W|discriminate]|]. split; [apply irep_empty|auto]. }
    split; [now apply chunks_lists|]. split.
    - apply (drains_of_rep _ frep); auto.
      + intros it H. destruct (frep_next_nil dbg it H) as (it' & E & _). eauto.
      + intros. now apply frep_next.
    - intros back n. rewrite deque_front. generalize (sel_iter s) (concat ls) R. clear. induction n as [|n IH]; intros it l R; simpl; [constructor|].
      destruct l as [|x l].
      + destruct (frep_next_nil dbg it R) as (it' & E & R'). econstructor; eauto.
      + destruct (frep_next dbg it x l R) as (it' & E & R'). econstructor; eauto.
  Qed.

  (** From the back, without holes. *)
  Definition bkrep (it : SelIter T) (l : list T) : Prop :=
    exists rs lc ls, brep (si_intervals it) rs /\ irep (si_current it) lc /\ chunks rs ls /\ l = concat ls ++ lc.

  Lemma chunks_snoc rs ls : chunks rs ls -> forall rs' r, rs = rs' ++ [r] ->
    exists ls' l, ls = ls' ++ [l] /\ chunks rs' ls' /\ irep (nrm r) l /\ l <> [].
  Proof.
    intros C rs' r ->. apply Forall2_app_inv_l in C as (l1 & l2 & C1 & C2 & ->).
    inversion C2 as [|? l ? ? [R N] C3]; subst. inversion C3; subst. exists l1, l. auto.
  Qed.

  Lemma bkrep_nil dbg it : bkrep it [] -> exists it', sel_next_back dbg it = Ok (None, it') /\ bkrep it' [].
  Proof.
    intros (rs & lc & ls & B & Hc & C & El). symmetry in El. apply app_eq_nil in El as [El ->].
    unfold sel_next_back. rewrite (irep_nil_back _ Hc). simpl.
    destruct C as [|r l rs ls' [_ N] C']; [|simpl in El; apply app_eq_nil in El as [-> _]; now destruct N].
    destruct (brep_back_nil dbg _ B) as (it' & E & B'). rewrite E. simpl. eexists. split; [reflexivity|].
    exists [], [], []. split; [exact B'|]. split; [exact Hc|]. split; [constructor|auto].
  Qed.
  Lemma bkrep_back dbg it x l : bkrep it (l ++ [x]) -> exists it', sel_next_back dbg it = Ok (Some x, it') /\ bkrep it' l.
  Proof.
    intros (rs & lc & ls & B & Hc & C & El). unfold sel_next_back. destruct (ends lc) as [->|(lc' & y & ->)].
    - rewrite (irep_nil_back _ Hc). simpl. rewrite app_nil_r in El.
      destruct (ends rs) as [->|(rs' & r & ->)].
      { inversion C; subst. simpl in El. now destruct l. }
      destruct (chunks_snoc _ _ C rs' r eq_refl) as (ls' & l1 & -> & C' & R & N).
      rewrite concat_app in El. simpl in El. rewrite app_nil_r in El.
      destruct (ends l1) as [->|(l1' & y & ->)]; [now destruct N|].
      rewrite app_assoc in El. apply app_inj_tail in El as [-> ->].
      destruct (brep_back dbg _ _ _ B) as (it' & E & B'). rewrite E. simpl.
      destruct (irep_back _ _ _ R) as (i' & Ei & Ri). fold (nrm r). rewrite Ei. simpl. eexists. split; [reflexivity|].
      exists rs', l1', ls'. auto.
    - rewrite app_assoc in El. apply app_inj_tail in El as [-> ->].
      destruct (irep_back _ _ _ Hc) as (i' & Ei & Ri). rewrite Ei. simpl. eexists. split; [reflexivity|].
      exists rs, lc', ls. auto.
  Qed.

  Lemma sel_iter_back dbg s : wf s -> gapless (den false s) -> holeless s ->
    exists l, lists l (inS s) /\ drains (sel_next_back dbg) (sel_iter s) (rev l).
  Proof.
    intros W G N. destruct (chunks_of s W G _ (incl_refl _)) as (ls & C). exists (concat ls).
    split; [now apply chunks_lists|].
    apply (drains_of_rep _ (fun it l => bkrep it (rev l))); [| |].
    - intros it H. destruct (bkrep_nil dbg it H) as (it' & E & _). eauto.
    - intros it a l H. simpl in H. now apply bkrep_back.
    - rewrite rev_involutive. exists (pieces None s), [], ls. split; [exists s; repeat split; auto; apply W|]. split; [apply irep_empty|].
      split; auto. now rewrite app_nil_r.
  Qed.

  (** One interval: any schedule. *)
  Definition onerep (r : RawInterval T) (it : SelIter T) (l : list T) : Prop :=
    (brep (si_intervals it) [r] /\ irep (si_current it) [] /\ irep (nrm r) l /\ l <> []) \/
    (brep (si_intervals it) [] /\ irep (si_current it) l).

  Lemma sel_iter_single dbg s r : wf s -> gapless (den false s) -> holeless s -> pieces None s = [r] ->
    exists l, lists l (inS s) /\ forall sched, runs (sel_next dbg) (sel_next_back dbg) (sel_iter s) sched (deque_run l sched).
  Proof.
    intros W G N E. destruct (chunks_of s W G _ (incl_refl _)) as (ls & C). exists (concat ls).
    split; [now apply chunks_lists|]. rewrite E in C. inversion C as [|? l ? ? [R Nl] C1]; subst. inversion C1; subst. simpl. rewrite app_nil_r.
    intros sched. apply (runs_of_rep _ _ (onerep r)).
    - intros it [(_ & _ & _ & K)|(B & Hc)]; [now destruct K|]. unfold sel_next. rewrite (irep_nil_next _ Hc). simpl.
      destruct (brep_front_nil dbg _ B) as (it' & Ei & B'). rewrite Ei. simpl. eexists. split; [reflexivity|]. right. auto.
    - intros it a k [(B & Hc & Rl & K)|(B & Hc)]; unfold sel_next.
      + rewrite (irep_nil_next _ Hc). simpl. destruct (brep_front dbg _ _ _ B) as (it' & Ei & B'). rewrite Ei. simpl.
        fold (nrm r). destruct (irep_front _ _ _ Rl) as (i' & En & Ri). rewrite En. simpl. eexists. split; [reflexivity|]. right. auto.
      + destruct (irep_front _ _ _ Hc) as (i' & En & Ri). rewrite En. simpl. eexists. split; [reflexivity|]. right. auto.
    - intros it [(_ & _ & _ & K)|(B & Hc)]; [now destruct K|]. unfold sel_next_back. rewrite (irep_nil_back _ Hc). simpl.
      destruct (brep_back_nil dbg _ B) as (it' & Ei & B'). rewrite Ei. simpl. eexists. split; [reflexivity|]. right. auto.
    - intros it a k [(B & Hc & Rl & K)|(B & Hc)]; unfold sel_next_back.
      + rewrite (irep_nil_back _ Hc). simpl. destruct (brep_back dbg _ r [] B) as (it' & Ei & B'). rewrite Ei. simpl.
        fold (nrm r). destruct (irep_back _ _ _ Rl) as (i' & En & Ri). rewrite En. simpl. eexists. split; [reflexivity|]. right. auto.
      + destruct (irep_back _ _ _ Hc) as (i' & En & Ri). rewrite En. simpl. eexists. split; [reflexivity|]. right. auto.
    - left. split; [exists s; repeat split; auto; apply W|]. split; [apply irep_empty|]. auto.
  Qed.
End PSel3.

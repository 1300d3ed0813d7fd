(** * Proofs about all Selections programs can build: the two ends, and iteration *)
From Coq Require Import List Bool ZArith Lia Sorted.
From Verif Require Import Base OrdFacts Pos PFinite MBound MRaw MNormalize MTine MBTree MTineTree MInterval MSelection
  Spec Spec_Tree Spec_Sel Spec_More PRaw PRaw2 PNorm PIter PInterval PBTree PTree PTreeOps PTreeIsect PTree2 PTree3 PTree4 PTree5 PTree6 PTree7
  PSel PSel2 PSel3 PSel4 Properties_Tree2.
Import ListNotations.
Local Arguments cmp : simpl never.

Section PSel5.
  Context {T : Type} {O : Ord T} {F : Finite T}.
  Implicit Types (s : Selection T) (r : RawInterval T) (x y : T).

  Lemma in_sorted_cases {A} (R : A -> A -> Prop) (l : list A) : StronglySorted R l ->
    forall a b, In a l -> In b l -> a = b \/ R a b \/ R b a.
  Proof.
    induction 1 as [|c l S IH H]; intros a b [] []; subst; auto; rewrite Forall_forall in H; auto.
  Qed.

  (** Nothing distinguishes the least value from minus infinity, nor the
      greatest from plus infinity. *)
  Definition edge (c : pos T -> bool) : Prop :=
    c (Lo MINIMUM) = c NInf /\ c (At MINIMUM) = c NInf /\ c (Hi MAXIMUM) = c PInf /\ c (At MAXIMUM) = c PInf.

  Lemma edge_ext (c c' : pos T -> bool) : (forall p, c p = c' p) -> edge c' -> edge c.
  Proof. intros H (A & B & C & D). unfold edge. rewrite !H. auto. Qed.
  Lemma edge_or (c c' : pos T -> bool) : edge c -> edge c' -> edge (fun p => c p || c' p).
  Proof. intros (A & B & C & D) (A' & B' & C' & D'). unfold edge. rewrite A, B, C, D, A', B', C', D'. auto. Qed.
  Lemma edge_and (c c' : pos T -> bool) : edge c -> edge c' -> edge (fun p => c p && c' p).
  Proof. intros (A & B & C & D) (A' & B' & C' & D'). unfold edge. rewrite A, B, C, D, A', B', C', D'. auto. Qed.
  Lemma edge_not (c : pos T -> bool) : edge c -> edge (fun p => negb (c p)).
  Proof. intros (A & B & C & D). unfold edge. rewrite A, B, C, D. auto. Qed.
  Lemma edge_const (b : bool) : edge (fun _ => b).
  Proof. repeat split. Qed.

  Lemma le_neq x y : le x y -> x <> y -> lt x y.
  Proof.
    intros H N. destruct (leb y x) eqn:E; [|clear - E; order]. destruct N. clear - H E. order.
  Qed.

  Lemma edge_shape r : raw_wf r ->
    raw_lower_bound r <> Some (Include MINIMUM) -> raw_lower_bound r <> Some (Exclude MAXIMUM) ->
    raw_upper_bound r <> Some (Include MAXIMUM) -> raw_upper_bound r <> Some (Exclude MINIMUM) ->
    edge (covers r).
  Proof.
    intros W L1 L2 U1 U2. pose proof (@min_le T O F) as Hm. pose proof (@max_ge T O F) as HM.
    destruct (raw_bounds_cases r) as [(-> & _)|(lo & up & L & U)]; [apply (edge_ext _ (fun _ => false)); [apply covers_empty|apply edge_const]|].
    pose proof (raw_wf_pos r lo up W L U) as Hle. rewrite L, U in *.
    assert (Q : forall p q, (covers r p = true <-> covers r q = true) -> covers r p = covers r q).
    { intros p q H. destruct (covers r p), (covers r q); intuition congruence. }
    assert (HL : match lo with Include a => lt MINIMUM a | Exclude a => lt a MAXIMUM | Infinite => True end).
    { destruct lo as [a|a|]; auto; [specialize (Hm a)|specialize (HM a)].
      - apply le_neq; [auto|congruence].
      - apply le_neq; [auto|congruence]. }
    assert (HU : match up with Include a => lt a MAXIMUM | Exclude a => lt MINIMUM a | Infinite => True end).
    { destruct up as [a|a|]; auto; [specialize (HM a)|specialize (Hm a)].
      - apply le_neq; [auto|congruence].
      - apply le_neq; [auto|congruence]. }
    assert (Ha : match lo with Include a | Exclude a => le MINIMUM a /\ le a MAXIMUM | Infinite => True end) by (destruct lo; auto).
    assert (Hb : match up with Include a | Exclude a => le MINIMUM a /\ le a MAXIMUM | Infinite => True end) by (destruct up; auto).
    specialize (Hm MAXIMUM). clear HM.
    repeat split; apply Q; rewrite !(covers_bounds r _ lo up) by auto; clear - Hle HL HU Ha Hb Hm;
      destruct lo as [a|a|], up as [b|b|]; cbn [lpos upos] in *;
      repeat match goal with H : _ /\ _ |- _ => destruct H | H : True |- _ => clear H end; split; intros [K1 K2]; split; po.
  Qed.

  Lemma denorm_edge r : tight r -> edge (covers (denormalized r)).
  Proof.
    intros Ht. apply edge_shape; [now apply denormalized_tight_wf|..];
      destruct r as [|p| | | |l u| | | | |]; simpl in Ht; try contradiction; simpl; try discriminate.
    all: destruct (pred _) eqn:E1, (succ _) eqn:E2; simpl; try discriminate.
    all: intros K; injection K as ->; clear - E1 E2; forder.
  Qed.

  (** A piece of an edge-insensitive tree is edge-insensitive. *)
  Lemma piece_edge s r : wf s -> edge (den false s) -> In r (pieces None s) -> edge (covers r).
  Proof.
    intros W (A & B & C & D) Hin. pose proof (piece_wf s r Hin) as Wr.
    destruct (piece_bounds s r W Hin) as (lo & up & L & U & Hle).
    assert (Cv : forall p, covers r p = true <-> le (lpos lo) p /\ le p (upos up)) by (intros p; now apply covers_bounds).
    assert (Sep : forall r', In r' (pieces None s) -> r' = r \/ separated r r' \/ separated r' r).
    { intros r' Hr'. pose proof (pieces_sorted s W) as S. revert Hin Hr' S. clear. induction (pieces None s) as [|k l IH]; intros [] [] S; subst; auto;
        inversion S as [|? ? S1 S2]; subst; rewrite Forall_forall in S2; auto. }
    assert (Nb : forall p q, covers r p = true -> covers r q = false -> den false s q = den false s p -> 
       exists r', In r' (pieces None s) /\ covers r' q = true /\ covers r q = false /\ (separated r r' \/ separated r' r)).
    { intros p q Hp Hq E. rewrite (piece_den s r p W Hin Hp) in E. destruct (den_piece s q W E) as (r' & Hr' & K).
      exists r'. split; auto. split; auto. split; auto. destruct (Sep r' Hr') as [->|K']; auto. congruence. }
    assert (Pos : forall r' p q, In r' (pieces None s) -> covers r p = true -> covers r' q = true ->
       (separated r r' -> lt p q) /\ (separated r' r -> lt q p)).
    { intros r' p q Hr' Hp Hq. pose proof (piece_wf s r' Hr') as Wr'. split; intros Sp.
      - exact (separated_pos r r' Sp Wr Wr' p q Hp Hq).
      - exact (separated_pos r' r Sp Wr' Wr q p Hq Hp). }
    apply edge_shape; auto; intros K; rewrite L in K || rewrite U in K; injection K as ->; cbn [lpos upos] in *.
    - assert (Hp : covers r (At MINIMUM) = true) by (apply Cv; split; [po|auto]).
      assert (Hq : covers r (Lo MINIMUM) = false) by (destruct (covers r (Lo MINIMUM)) eqn:X; auto; apply Cv in X as [X _]; exfalso; po).
      destruct (Nb (At MINIMUM) (Lo MINIMUM) Hp Hq) as (r' & Hr' & K1 & _ & K2); [congruence|].
      destruct (Pos r' _ _ Hr' Hp K1) as [P1 P2]. destruct K2 as [K2|K2]; [specialize (P1 K2); po|]. clear P1 P2.
      destruct (piece_bounds s r' W Hr') as (lo' & up' & L' & U' & _). unfold separated in K2. rewrite U', L in K2.
      apply (covers_bounds r' _ lo' up') in K1; auto. destruct K1 as [_ K1].
      destruct up' as [b|b|]; try contradiction; simpl in K2, K1; clear - K1 K2; po.
    - assert (Hp : covers r (Hi MAXIMUM) = true) by (apply Cv; split; [po|auto]).
      assert (Hq : covers r (At MAXIMUM) = false) by (destruct (covers r (At MAXIMUM)) eqn:X; auto; apply Cv in X as [X _]; exfalso; po).
      destruct (Nb (Hi MAXIMUM) (At MAXIMUM) Hp Hq) as (r' & Hr' & K1 & _ & K2); [congruence|].
      destruct (Pos r' _ _ Hr' Hp K1) as [P1 P2]. destruct K2 as [K2|K2]; [specialize (P1 K2); po|]. clear P1 P2.
      destruct (piece_bounds s r' W Hr') as (lo' & up' & L' & U' & _). unfold separated in K2. rewrite U', L in K2.
      apply (covers_bounds r' _ lo' up') in K1; auto. destruct K1 as [_ K1].
      destruct up' as [b|b|]; try contradiction; simpl in K2, K1; clear - K1 K2; po.
    - assert (Hp : covers r (At MAXIMUM) = true) by (apply Cv; split; [auto|po]).
      assert (Hq : covers r (Hi MAXIMUM) = false) by (destruct (covers r (Hi MAXIMUM)) eqn:X; auto; apply Cv in X as [_ X]; exfalso; po).
      destruct (Nb (At MAXIMUM) (Hi MAXIMUM) Hp Hq) as (r' & Hr' & K1 & _ & K2); [congruence|].
      destruct (Pos r' _ _ Hr' Hp K1) as [P1 P2]. destruct K2 as [K2|K2]; [|specialize (P2 K2); po]. clear P1 P2.
      destruct (piece_bounds s r' W Hr') as (lo' & up' & L' & U' & _). unfold separated in K2. rewrite U, L' in K2.
      apply (covers_bounds r' _ lo' up') in K1; auto. destruct K1 as [K1 _].
      destruct lo' as [b|b|]; try contradiction; simpl in K2, K1; clear - K1 K2; po.
    - assert (Hp : covers r (Lo MINIMUM) = true) by (apply Cv; split; [auto|po]).
      assert (Hq : covers r (At MINIMUM) = false) by (destruct (covers r (At MINIMUM)) eqn:X; auto; apply Cv in X as [_ X]; exfalso; po).
      destruct (Nb (Lo MINIMUM) (At MINIMUM) Hp Hq) as (r' & Hr' & K1 & _ & K2); [congruence|].
      destruct (Pos r' _ _ Hr' Hp K1) as [P1 P2]. destruct K2 as [K2|K2]; [|specialize (P2 K2); po]. clear P1 P2.
      destruct (piece_bounds s r' W Hr') as (lo' & up' & L' & U' & _). unfold separated in K2. rewrite U, L' in K2.
      apply (covers_bounds r' _ lo' up') in K1; auto. destruct K1 as [K1 _].
      destruct lo' as [b|b|]; try contradiction; simpl in K2, K1; clear - K1 K2; po.
  Qed.

  Lemma lcovers_edge (l : list (RawInterval T)) : Forall (fun r => edge (covers r)) l -> edge (lcovers l).
  Proof.
    induction 1 as [|r l H _ IH]; [apply edge_const|]. apply (edge_or (covers r) (lcovers l)); auto.
  Qed.
  Lemma walked_edge (A B : list (RawInterval T)) : Forall (fun r => edge (covers r)) A -> Forall (fun r => edge (covers r)) B ->
    Forall (fun r => edge (covers r)) (walked A B).
  Proof.
    revert A. induction B as [|j B IH]; intros [|i A] HA HB; simpl; auto.
    inversion HA; subst. inversion HB; subst. destruct (raw_is_empty _); auto. constructor; auto.
    apply (edge_ext _ (fun p => covers i p && covers j p)); [intros; apply raw_intersect_covers|]. now apply edge_and.
  Qed.
  Lemma inputs_edge l : Forall (reach false) l -> edge (lcovers (map (fun i => denormalized (interval_raw i)) l)).
  Proof.
    intros H. apply lcovers_edge, Forall_map. eapply Forall_impl; [|exact H]. intros i R. apply denorm_edge. now apply (reach_tight false).
  Qed.

  Lemma run_edge dbg p : inputs false p -> exists s, run dbg p = Ok s /\ wf s /\ edge (den false s).
  Proof.
    induction p as [| |i|l|l|p IH l|p IH i|p IH1 q IH2|p IH|p IH1 q IH2|p IH i]; simpl; intros H.
    - exists []. split; auto. split; [apply new_wf|]. apply edge_const.
    - exists sel_full. split; auto. split; [apply (full_den NInf)|]. apply (edge_ext _ (fun _ => true)); [intros; apply full_den|apply edge_const].
    - destruct (denorm_in i H) as (W & _ & C). destruct (from_raw_wf _ W) as (W' & E & Dn). unfold sel_from.
      exists (tree_from_raw_interval (denormalized (interval_raw i))). rewrite E. split; auto. split; auto.
      apply (edge_ext _ _ Dn), denorm_edge. now apply (reach_tight false).
    - unfold sel_from_intervals. rewrite sel_extend_tree.
      destruct (extend_ok dbg _ [] new_wf (inputs_wf l H)) as (s & E & W & Dn). exists s. split; auto. split; auto.
      apply (edge_ext _ _ Dn). now apply (inputs_edge l).
    - unfold sel_from_points. rewrite sel_extend_tree.
      destruct (extend_ok dbg _ [] new_wf (inputs_wf _ (points_reach l false))) as (s & E & W & Dn). exists s. split; auto. split; auto.
      apply (edge_ext _ _ Dn). apply (inputs_edge _ (points_reach l false)).
    - destruct H as [H1 H2]. destruct (IH H1) as (s & -> & W & Ed). simpl. rewrite sel_extend_tree.
      destruct (extend_ok dbg _ s W (inputs_wf l H2)) as (s' & E & W' & Dn). exists s'. split; auto. split; auto.
      apply (edge_ext _ _ Dn). apply edge_or; auto. now apply inputs_edge.
    - destruct H as [H1 H2]. destruct (IH H1) as (s & -> & W & Ed). simpl. unfold sel_union_in_place.
      destruct (denorm_in i H2) as (Wi & _ & C).
      destruct (union_in_place_ok dbg s _ W Wi) as (s' & E & W' & Dn). exists s'. split; auto. split; auto.
      apply (edge_ext _ _ Dn). apply edge_or; auto. apply denorm_edge. now apply (reach_tight false).
    - destruct H as [H1 H2]. destruct (IH1 H1) as (s & -> & W & Ed), (IH2 H2) as (s2 & -> & W2 & Ed2). simpl. unfold sel_union.
      destruct (tree_union_ok dbg s s2 W W2) as (s' & E & W' & Dn). exists s'. split; auto. split; auto.
      apply (edge_ext _ _ Dn). now apply edge_or.
    - destruct (IH H) as (s & -> & W & Ed). simpl. unfold sel_complement.
      destruct (complement_ok dbg s W) as (s' & E & W' & Dn). exists s'. split; auto. split; auto.
      apply (edge_ext _ _ Dn). now apply edge_not.
    - destruct H as [H1 H2]. destruct (IH1 H1) as (s & -> & W & Ed), (IH2 H2) as (s2 & -> & W2 & Ed2). simpl. unfold sel_intersect.
      destruct (tree_intersect_walk dbg s s2 W W2) as (s' & E & W' & Dn). exists s'. split; auto. split; auto.
      apply (edge_ext _ _ Dn), lcovers_edge, walked_edge; apply Forall_forall; intros r Hr; [now apply (piece_edge s)|now apply (piece_edge s2)].
    - destruct H as [H1 H2]. destruct (IH H1) as (s & -> & W & Ed). simpl. unfold sel_minus_in_place.
      destruct (denorm_in i H2) as (Wi & NP & _).
      destruct (minus_one dbg s _ W Wi NP) as (s' & E & W' & Dn). exists s'. split; auto. split; auto.
      pose proof (denorm_edge _ (reach_tight false i H2)) as Ei. set (k := denormalized (interval_raw i)) in *.
      assert (Nx : forall x, x = MINIMUM \/ x = MAXIMUM -> hole s x = false).
      { intros x Hx. destruct (hole s x) eqn:Eh; auto. apply hole_iff in Eh as (K1 & K2 & K3).
        destruct Ed as (A & B & C & D). destruct Hx as [->|Hx]; [congruence|rewrite Hx in *; congruence]. }
      assert (Q : forall w, (forall x, w = At x -> x = MINIMUM \/ x = MAXIMUM) -> den false s' w = den false s w && negb (covers k w)).
      { intros w Hw. assert (X : den false s' w = true <-> den false s w = true /\ covers k w = false).
        { rewrite Dn. split; [|auto]. intros [K|(x & -> & K & _)]; auto. rewrite Nx in K; auto. discriminate. }
        destruct (den false s' w), (den false s w), (covers k w); simpl; intuition congruence. }
      pose proof (edge_and _ _ Ed (edge_not _ Ei)) as (A & B & C & D). cbn beta in *.
      unfold edge. rewrite !Q; auto; intros x Hx; try discriminate; injection Hx as <-; auto.
  Qed.

  (** ** Iteration over the values of any tree whose ends are sound *)
  Definition pointless r y : Prop := exists a, r = Open a y /\ succ a = Some y.

  Lemma piece_kinds s r : wf s -> edge (den false s) -> In r (pieces None s) ->
    (exists x, raw_contains r x = true) \/ exists y, pointless r y.
  Proof.
    intros W Ed Hin. pose proof (piece_edge s r W Ed Hin) as (A & B & C & D). pose proof (piece_wf s r Hin) as Wr.
    pose proof (piece_nonempty s r W Hin) as NE. rewrite !covers_At in *.
    destruct r as [|z|l u|l u|l u|l u|u|l|u|l|]; simpl in Wr.
    - discriminate.
    - left. exists z. simpl. order.
    - destruct (succ l) as [y|] eqn:E; [|exfalso; clear - Wr E; forder].
      destruct (ltb y u) eqn:Lt; [left; exists y; simpl; clear - E Lt; forder|].
      right. exists y. exists l. split; auto. f_equal. clear - E Lt Wr. forder.
    - left. exists u. simpl. clear - Wr. order.
    - left. exists l. simpl. clear - Wr. order.
    - left. exists l. simpl. clear - Wr. order.
    - left. exists MINIMUM. rewrite B. reflexivity.
    - left. exists MAXIMUM. rewrite D. reflexivity.
    - left. exists u. simpl. order.
    - left. exists l. simpl. order.
    - left. exists MINIMUM. reflexivity.
  Qed.

  Lemma pointless_norm r y : pointless r y -> exists a, pred y = Some a /\ normalized r = Closed y a.
  Proof.
    intros (a & -> & E). exists a. assert (E' : pred y = Some a) by (clear - E; forder). split; auto. simpl. now rewrite E, E'.
  Qed.
  Lemma pointless_empty r y x : pointless r y -> raw_contains r x = false.
  Proof. intros (a & -> & E). simpl. clear - E. forder. Qed.
  Lemma minus_nothing (i j : RawInterval T) : (forall p, covers i p = false) -> raw_minus i j = [].
  Proof.
    intros H. unfold raw_minus. induction (raw_complement j) as [|k l IH]; simpl; auto.
    replace (raw_intersect i k) with (@Empty T); auto. symmetry.
    apply raw_ext; [apply raw_intersect_wf|exact I|]. intros p. now rewrite raw_intersect_covers, H, covers_empty.
  Qed.
  Lemma inverted (a b : T) : lt a b -> forall p, covers (Closed b a) p = false.
  Proof.
    intros L p. destruct (covers (Closed b a) p) eqn:E; auto. apply (covers_bounds _ p (Include b) (Include a)) in E; auto.
    destruct E as [E1 E2]. exfalso. po.
  Qed.
  Lemma pointless_next r y : pointless r y -> interval_next (nrm r) = Ok (Some y, interval_empty).
  Proof.
    intros H. destruct (pointless_norm r y H) as (a & E & N). unfold interval_next, interval_lower_bound. rewrite nrm_raw, N.
    cbn [raw_lower_bound]. unfold interval_minus. rewrite nrm_raw, N, minus_nothing; [reflexivity|]. apply inverted. clear - E. forder.
  Qed.
  Lemma pointless_back r y : pointless r y ->
    exists a, pred y = Some a /\ interval_next_back (nrm r) = Ok (Some a, interval_empty).
  Proof.
    intros H. destruct (pointless_norm r y H) as (a & E & N). exists a. split; auto. unfold interval_next_back, interval_upper_bound. rewrite nrm_raw, N.
    cbn [raw_upper_bound]. unfold interval_minus. rewrite nrm_raw, N, minus_nothing; [reflexivity|]. apply inverted. clear - E. forder.
  Qed.

  (** What iteration yields for one piece, going forwards. *)
  Definition gchunk r (l : list T) : Prop := (irep (nrm r) l /\ l <> []) \/ exists y, pointless r y /\ l = [y].
  Definition gchunks := Forall2 gchunk.

  Lemma gchunk_of s r : wf s -> edge (den false s) -> In r (pieces None s) -> exists l, gchunk r l.
  Proof.
    intros W Ed Hin. destruct (piece_kinds s r W Ed Hin) as [(x & Hx)|(y & Hy)]; [|exists [y]; right; eauto].
    assert (Sr : solid (interval_raw (nrm r))) by (rewrite nrm_raw; apply (point_solid r x); auto; now apply (piece_wf s)).
    destruct (solid_lists _ Sr) as (l & Hl). exists l. left. split; [split; auto|].
    intros ->. destruct Hl as [_ Hl]. apply (proj2 (Hl x)). now apply nrm_points.
  Qed.
  Lemma gchunks_of s : wf s -> edge (den false s) -> forall rs, incl rs (pieces None s) -> exists ls, gchunks rs ls.
  Proof.
    intros W Ed. induction rs as [|r rs IH]; intros I; [exists []; constructor|].
    destruct IH as (ls & H); [intros k Hk; apply I; right; auto|].
    destruct (gchunk_of s r W Ed) as (l & Hl); [apply I; left; auto|]. exists (l :: ls). now constructor.
  Qed.
  Definition yields r x : Prop := raw_contains r x = true \/ pointless r x.
  Lemma gchunk_in r l x : gchunk r l -> (In x l <-> yields r x).
  Proof.
    intros [[[_ [_ H]] N]|(y & Hy & ->)]; unfold yields.
    - rewrite H, nrm_points. split; auto. intros [K|K]; auto. exfalso.
      destruct l as [|z l]; [now destruct N|]. specialize (proj1 (H z) (or_introl eq_refl)). rewrite nrm_points.
      rewrite (pointless_empty r x z K). discriminate.
    - split.
      + intros [<-|[]]. auto.
      + intros [K|K]; [rewrite (pointless_empty r y x Hy) in K; discriminate|]. left.
        destruct Hy as (a & -> & Ea), K as (b & Eb & Eb'). congruence.
  Qed.
  Lemma gchunks_in rs ls x : gchunks rs ls -> (In x (concat ls) <-> exists r, In r rs /\ yields r x).
  Proof.
    induction 1 as [|r l rs ls H _ IH]; simpl; [split; [tauto|intros (r & [] & _)]|].
    rewrite in_app_iff, IH, (gchunk_in r l x H). split.
    - intros [K|(k & K1 & K2)]; eauto.
    - intros (k & [<-|K1] & K2); eauto.
  Qed.
  Lemma yields_lt r r' x y : separated r r' -> yields r x -> yields r' y -> lt x y.
  Proof.
    intros Sep Hx Hy.
    assert (A : match raw_upper_bound r with Some (Include b) | Some (Exclude b) => le x b | _ => True end).
    { destruct Hx as [Hx|(a & -> & Ea)]; [|simpl; order]. destruct r; simpl in *; auto; clear - Hx; order. }
    assert (B : match raw_lower_bound r' with Some (Include b) => le b y | Some (Exclude b) => lt b y | _ => True end).
    { destruct Hy as [Hy|(a & -> & Ea)]; [|simpl; clear - Ea; forder]. destruct r'; simpl in *; auto; clear - Hy; order. }
    unfold separated in Sep.
    destruct (raw_upper_bound r) as [[a|a|]|], (raw_lower_bound r') as [[b|b|]|]; try contradiction; clear - Sep A B; order.
  Qed.
  Lemma gchunk_sorted r l : gchunk r l -> StronglySorted lt l.
  Proof. intros [[[_ [H _]] _]|(y & _ & ->)]; auto. repeat constructor. Qed.
  Lemma gchunks_sorted rs ls : gchunks rs ls -> StronglySorted separated rs -> StronglySorted lt (concat ls).
  Proof.
    induction 1 as [|r l rs ls H C IH]; intros SS; simpl; [constructor|].
    inversion SS as [|? ? S1 S2]; subst. rewrite Forall_forall in S2.
    apply sorted_app; auto; [now apply (gchunk_sorted r)|]. intros a b Ha Hb.
    apply (gchunk_in r l a H) in Ha. apply (gchunks_in _ _ b C) in Hb as (k & Hk & Hb). apply (yields_lt r k); auto.
  Qed.

  Definition gfrep (it : SelIter T) (l : list T) : Prop :=
    exists s o lc ls, si_intervals it = st s o /\ stok s o /\ irep (si_current it) lc /\ gchunks (pieces o s) ls /\ l = lc ++ concat ls.

  Lemma gfrep_next_nil dbg it : gfrep it [] -> exists it', sel_next dbg it = Ok (None, it') /\ gfrep it' [].
  Proof.
    intros (s & o & lc & ls & E & [H P] & Hc & C & El). symmetry in El. apply app_eq_nil in El as [-> El].
    unfold sel_next. rewrite (irep_nil_next _ Hc). simpl. rewrite E.
    generalize (iter_next_pieces dbg s o H P). destruct C as [|r l rs ls' N C'].
    - intros [-> ->]. rewrite (iter_next_none dbg : iter_next dbg (st [] None) = _). eexists. split; [reflexivity|].
      exists [], None, [], []. split; [reflexivity|]. split; [split; [reflexivity|discriminate]|]. split; [exact Hc|]. split; [constructor|auto].
    - simpl in El. apply app_eq_nil in El as [-> _]. destruct N as [[_ N]|(y & _ & N)]; [now destruct N|discriminate].
  Qed.
  Lemma gfrep_next dbg it x l : gfrep it (x :: l) -> exists it', sel_next dbg it = Ok (Some x, it') /\ gfrep it' l.
  Proof.
    intros (s & o & lc & ls & E & [H P] & Hc & C & El). unfold sel_next. destruct lc as [|y lc].
    - rewrite (irep_nil_next _ Hc). simpl. rewrite E. simpl in El.
      generalize (iter_next_pieces dbg s o H P).
      remember (pieces o s) as ps eqn:Eps. destruct C as [|r l1 rs ls' R C']; [discriminate|].
      intros (s' & o' & H' & P' & El' & _ & _ & En). unfold st. rewrite En. simpl. fold (nrm r).
      destruct R as [[R N]|(y & Hy & ->)].
      + destruct l1 as [|y l1]; [now destruct N|]. simpl in El. injection El as <- ->.
        destruct (irep_front _ _ _ R) as (i' & Ei & Ri). rewrite Ei. simpl. eexists. split; [reflexivity|].
        exists s', o', l1, ls'. split; [reflexivity|]. split; [split; auto|]. split; [exact Ri|]. split; [now rewrite <- El'|auto].
      + simpl in El. injection El as <- ->. rewrite (pointless_next r x Hy). simpl. eexists. split; [reflexivity|].
        exists s', o', [], ls'. split; [reflexivity|]. split; [split; auto|]. split; [apply irep_empty|]. split; [now rewrite <- El'|auto].
    - simpl in El. injection El as <- ->. destruct (irep_front _ _ _ Hc) as (i' & Ei & Ri). rewrite Ei. simpl.
      eexists. split; [reflexivity|]. exists s, o, lc, ls. split; [exact E|]. split; [split; auto|]. auto.
  Qed.

  Lemma sel_iter_any dbg s : wf s -> edge (den false s) ->
    exists l, drains (sel_next dbg) (sel_iter s) l /\ StronglySorted lt l /\
      forall x, In x l <-> inS s x \/ exists r, In r (pieces None s) /\ pointless r x.
  Proof.
    intros W G. destruct (gchunks_of s W G _ (incl_refl _)) as (ls & C). exists (concat ls).
    assert (R : gfrep (sel_iter s) (concat ls)).
    { exists s, None, [], ls. split; [reflexivity|]. split; [split; [apply W|discriminate]|]. split; [apply irep_empty|auto]. }
    split; [|split].
    - apply (drains_of_rep _ gfrep); auto.
      + intros it H. destruct (gfrep_next_nil dbg it H) as (it' & E & _). eauto.
      + intros. now apply gfrep_next.
    - apply (gchunks_sorted _ _ C). now apply pieces_sorted.
    - intros x. rewrite (gchunks_in _ _ x C). unfold yields, inS. split.
      + intros (r & Hr & [Hx|Hx]); [left|right; eauto]. apply (piece_den s r); auto. now rewrite covers_At.
      + intros [Hx|(r & Hr & Hx)]; [|eauto]. destruct (den_piece s (At x) W Hx) as (k & Hk & Hc). rewrite covers_At in Hc. eauto.
  Qed.
End PSel5.

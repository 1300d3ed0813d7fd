(** * C107: panics of the value type's [pred] and [succ] *)
From Coq Require Import List Bool ZArith Lia Sorted.
From Verif Require Import Base OrdFacts Pos PFinite Ints MBound MRaw MNormalize MTine MBTree MTineTree MInterval MSelection MCrash MFault
  Spec Spec_Tree Spec_Sel Spec_More Spec_Domain Spec_Fault PRaw PRaw2 PNorm PIter PInterval PBTree PTree PTreeOps PTreeIsect PTree2 PTree3 PTree4 PTree5 PTree6 PTree7
  PSel PSel2 PSel3 PSel4 PSel5 Instances Properties_Raw Properties_Parse Properties_Interval Properties_Tree Properties_Selection Properties_Tree2
  Properties_Selection2 Properties_Selection4 Properties_Crash.
Import ListNotations.
Local Open Scope Z_scope.
Local Arguments cmp : simpl never.

Section FaultFacts.
  Context {T : Type} {O : Cmp T} {F : FiniteOps T}.
  Implicit Types (g : stepper T) (i : Interval T) (r : RawInterval T).

  Lemma normalized_fault_or g r : faithful g -> normalized_fault g r = Panic \/ normalized_fault g r = Ok (normalized r).
  Proof.
    intros H. destruct r as [|p|l u|l u|l u|l u|u|l|p|p|]; simpl; auto;
      try (destruct (proj2 (H l)) as [-> | ->]; simpl; auto); try (destruct (proj1 (H u)) as [-> | ->]; simpl; auto).
  Qed.
  Lemma denormalized_fault_or g r : faithful g -> denormalized_fault g r = Panic \/ denormalized_fault g r = Ok (denormalized r).
  Proof.
    intros H. destruct r as [|p|l u|l u|l u|l u|u|l|p|p|]; simpl; auto.
    - destruct (proj1 (H p)) as [-> | ->]; simpl; auto. destruct (proj2 (H p)) as [-> | ->]; simpl; auto.
    - destruct (proj2 (H u)) as [-> | ->]; simpl; auto.
    - destruct (proj1 (H l)) as [-> | ->]; simpl; auto.
    - destruct (proj1 (H l)) as [-> | ->]; simpl; auto. destruct (proj2 (H u)) as [-> | ->]; simpl; auto.
    - destruct (proj1 (H p)) as [-> | ->]; simpl; auto.
    - destruct (proj2 (H p)) as [-> | ->]; simpl; auto.
  Qed.
  Lemma sound_faithful g : sound g -> faithful g.
  Proof. intros H x. destruct (H x). auto. Qed.
  Lemma normalized_sound g r : sound g -> normalized_fault g r = Ok (normalized r).
  Proof.
    intros H. destruct r as [|p|l u|l u|l u|l u|u|l|p|p|]; simpl; auto; try rewrite (proj2 (H l)); try rewrite (proj1 (H u)); reflexivity.
  Qed.
  Lemma denormalized_sound g r : sound g -> denormalized_fault g r = Ok (denormalized r).
  Proof.
    intros H. destruct r as [|p|l u|l u|l u|l u|u|l|p|p|]; simpl; auto; try rewrite (proj1 (H l)); try rewrite (proj2 (H u));
      try rewrite (proj1 (H p)); try rewrite (proj2 (H p)); reflexivity.
  Qed.
  Lemma read_fault_or g r : faithful g -> read_fault g r = Panic \/ read_fault g r = Ok (interval_from_raw (normalized r)).
  Proof.
    intros H. unfold read_fault, interval_from_raw. destruct (normalized_fault_or g r H) as [-> | ->]; simpl; auto.
    destruct (normalized_fault_or g (normalized r) H) as [-> | ->]; simpl; auto.
  Qed.
  Lemma interval_next_fault_or g i : faithful g ->
    interval_next_fault g i = Ok (Failed i) \/ exists o i', interval_next i = Ok (o, i') /\ interval_next_fault g i = Ok (Gave o i').
  Proof.
    intros H. unfold interval_next_fault, interval_next, first_or_empty_fault, interval_minus.
    destruct (interval_lower_bound i) as [[lb|lb|]|]; eauto.
    destruct (raw_minus _ _) as [|r l]; simpl; eauto. destruct (normalized_fault_or g r H) as [-> | ->]; simpl; eauto.
  Qed.
  Lemma interval_next_back_fault_or g i : faithful g ->
    interval_next_back_fault g i = Ok (Failed i) \/ exists o i', interval_next_back i = Ok (o, i') /\ interval_next_back_fault g i = Ok (Gave o i').
  Proof.
    intros H. unfold interval_next_back_fault, interval_next_back, first_or_empty_fault, interval_minus.
    destruct (interval_upper_bound i) as [[lb|lb|]|]; eauto.
    destruct (raw_minus _ _) as [|r l]; simpl; eauto. destruct (normalized_fault_or g r H) as [-> | ->]; simpl; eauto.
  Qed.

  (** ** Without panics the calls are those of the model *)
  Theorem C107_no_panic dbg g (s : Selection T) r i (it : Iter T) (si : SelIter T) : sound g ->
    normalize_fault g r = Returned (normalized r) /\ denormalize_fault g r = Returned (denormalized r) /\
    sel_union_in_place_fault dbg g s i = sel_union_in_place_crash dbg s i /\
    sel_minus_in_place_fault dbg g s i = sel_minus_in_place_crash dbg s i /\
    sel_intersect_in_place_fault dbg g s i = sel_intersect_in_place_crash dbg s i /\
    (forall o i', interval_next i = Ok (o, i') -> interval_next_fault g i = Ok (Gave o i')) /\
    (forall o i', interval_next_back i = Ok (o, i') -> interval_next_back_fault g i = Ok (Gave o i')) /\
    (forall o it', sel_interval_next dbg it = Ok (o, it') -> sel_interval_next_fault dbg g it = Ok (Gave o it')) /\
    (forall o it', sel_interval_next_back dbg it = Ok (o, it') -> sel_interval_next_back_fault dbg g it = Ok (Gave o it')) /\
    (forall o si', sel_next dbg si = Ok (o, si') -> sel_next_fault dbg g si = Ok (Gave o si')).
  Proof.
    intros H.
    assert (N : forall i o i', interval_next i = Ok (o, i') -> interval_next_fault g i = Ok (Gave o i')).
    { clear i. intros i o i'. unfold interval_next_fault, interval_next, first_or_empty_fault, interval_minus.
      destruct (interval_lower_bound i) as [[lb|lb|]|]; try discriminate; [|now injection 1 as <- <-].
      destruct (raw_minus _ _) as [|r0 l]; simpl; [|rewrite normalized_sound by auto]; now injection 1 as <- <-. }
    assert (Rd : forall r, read_fault g r = Ok (interval_from_raw (normalized r))).
    { intros r0. unfold read_fault. rewrite normalized_sound by auto. simpl. now rewrite normalized_sound by auto. }
    unfold normalize_fault, denormalize_fault, sel_union_in_place_fault, sel_minus_in_place_fault, sel_intersect_in_place_fault.
    rewrite normalized_sound, !denormalized_sound by auto. repeat (split; [reflexivity|]). split; [apply N|]. split; [|split; [|split]].
    - intros o i'. unfold interval_next_back_fault, interval_next_back, first_or_empty_fault, interval_minus.
      destruct (interval_upper_bound i) as [[lb|lb|]|]; try discriminate; [|now injection 1 as <- <-].
      destruct (raw_minus _ _) as [|r0 l]; simpl; [|rewrite normalized_sound by auto]; now injection 1 as <- <-.
    - intros o it'. unfold sel_interval_next, sel_interval_next_fault. destruct (iter_next dbg it) as [[[r0|] it0]|]; simpl; try discriminate;
        [rewrite Rd|]; now injection 1 as <- <-.
    - intros o it'. unfold sel_interval_next_back, sel_interval_next_back_fault. destruct (iter_next_back dbg it) as [[[r0|] it0]|]; simpl; try discriminate;
        [rewrite Rd|]; now injection 1 as <- <-.
    - intros o si'. unfold sel_next, sel_next_fault. destruct (interval_next (si_current si)) as [[x cur]|] eqn:E; [|discriminate].
      rewrite (N _ _ _ E). cbn [bind]. destruct x as [x|]; [now injection 1 as <- <-|].
      destruct (iter_next dbg (si_intervals si)) as [[[r0|] its]|]; cbn [bind]; try discriminate; [|now injection 1 as <- <-].
      rewrite Rd. destruct (interval_next (interval_from_raw (normalized r0))) as [[x' cur']|] eqn:E'; [|discriminate]. rewrite (N _ _ _ E'). cbn [bind]. now injection 1 as <- <-.
  Qed.

  (** ** The in-place calls *)
  (** [normalize] and [denormalize] of a raw interval leave [Empty] behind. *)
  Theorem C107_normalize_partial g r : faithful g ->
    (normalize_fault g r = Returned (normalized r) \/ normalize_fault g r = Unwound Empty) /\
    (denormalize_fault g r = Returned (denormalized r) \/ denormalize_fault g r = Unwound Empty).
  Proof.
    intros H. unfold normalize_fault, denormalize_fault.
    destruct (normalized_fault_or g r H) as [-> | ->], (denormalized_fault_or g r H) as [-> | ->]; simpl; auto.
  Qed.

  (** A Selection is untouched, so the call can be repeated. *)
  Theorem C107_selection dbg g (s : Selection T) i : faithful g ->
    (sel_union_in_place_fault dbg g s i = Unwound s \/ sel_union_in_place_fault dbg g s i = sel_union_in_place_crash dbg s i) /\
    (sel_minus_in_place_fault dbg g s i = Unwound s \/ sel_minus_in_place_fault dbg g s i = sel_minus_in_place_crash dbg s i) /\
    (sel_intersect_in_place_fault dbg g s i = Unwound s \/ sel_intersect_in_place_fault dbg g s i = sel_intersect_in_place_crash dbg s i).
  Proof.
    intros H. unfold sel_union_in_place_fault, sel_minus_in_place_fault, sel_intersect_in_place_fault.
    destruct (denormalized_fault_or g (interval_raw i) H) as [-> | ->]; simpl; auto.
  Qed.

  (** ** The values of an interval: a panic loses nothing *)
  (** For every schedule of calls from both ends, the calls that return give what
      they would give had the panicking calls not been made. *)
  Theorem C107_interval_iter i sched : Forall (fun c => faithful (snd c)) sched ->
    exists out, attempts interval_next_fault interval_next_back_fault i sched out /\ length out = length sched /\
      runs interval_next interval_next_back i (calls_made sched out) (answers out).
  Proof.
    revert i. induction sched as [|[d g] sched IH]; intros i H.
    - exists []. split; [constructor|]. split; [reflexivity|constructor].
    - inversion H as [|? ? Hg Hs]; subst. simpl in Hg. destruct d.
      + destruct (interval_next_fault_or g i Hg) as [E|(o & i' & E & E')].
        * destruct (IH i Hs) as (out & A & L & R). exists (None :: out). split; [eapply attempts_failed; [exact E|exact A]|]. simpl. auto.
        * destruct (IH i' Hs) as (out & A & L & R). exists (Some o :: out). split; [eapply attempts_gave; [exact E'|exact A]|]. simpl. split; [auto|].
          eapply runs_front; eauto.
      + destruct (interval_next_back_fault_or g i Hg) as [E|(o & i' & E & E')].
        * destruct (IH i Hs) as (out & A & L & R). exists (None :: out). split; [eapply attempts_failed; [exact E|exact A]|]. simpl. auto.
        * destruct (IH i' Hs) as (out & A & L & R). exists (Some o :: out). split; [eapply attempts_gave; [exact E'|exact A]|]. simpl. split; [auto|].
          eapply runs_back; eauto.
  Qed.

  (** ** The intervals of a Selection: a panicking call loses its interval *)
  (** Each call returns what it would return without any panic, or panics: the
      interval of a panicking call is not seen again. *)
  Theorem C107_interval_calls_partial dbg (it : Iter T) sched out0 : Forall (fun c => faithful (snd c)) sched ->
    runs (sel_interval_next dbg) (sel_interval_next_back dbg) it (map fst sched) out0 ->
    exists out, attempts (sel_interval_next_fault dbg) (sel_interval_next_back_fault dbg) it sched out /\
      Forall2 (fun o o0 => o = None \/ o = Some o0) out out0.
  Proof.
    revert it out0. induction sched as [|[d g] sched IH]; intros it out0 H R; simpl in R.
    - inversion R; subst. exists []. split; constructor.
    - inversion H as [|? ? Hg Hs]; subst. simpl in Hg. inversion R as [|? it' o sc out1 E R' E1|? it' o sc out1 E R' E1]; subst.
      + destruct (IH it' out1 Hs R') as (out & A & P).
        assert (Q : sel_interval_next_fault dbg g it = Ok (Gave o it') \/ sel_interval_next_fault dbg g it = Ok (Failed it')).
        { revert E. unfold sel_interval_next, sel_interval_next_fault. destruct (iter_next dbg it) as [[[r|] it0]|]; simpl; try discriminate.
          - injection 1 as <- <-. destruct (read_fault_or g r Hg) as [-> | ->]; auto.
          - injection 1 as <- <-. auto. }
        destruct Q as [Q|Q]; [exists (Some o :: out)|exists (None :: out)]; (split; [|constructor; auto]).
        * eapply attempts_gave; [exact Q|exact A].
        * eapply attempts_failed; [exact Q|exact A].
      + destruct (IH it' out1 Hs R') as (out & A & P).
        assert (Q : sel_interval_next_back_fault dbg g it = Ok (Gave o it') \/ sel_interval_next_back_fault dbg g it = Ok (Failed it')).
        { revert E. unfold sel_interval_next_back, sel_interval_next_back_fault. destruct (iter_next_back dbg it) as [[[r|] it0]|]; simpl; try discriminate.
          - injection 1 as <- <-. destruct (read_fault_or g r Hg) as [-> | ->]; auto.
          - injection 1 as <- <-. auto. }
        destruct Q as [Q|Q]; [exists (Some o :: out)|exists (None :: out)]; (split; [|constructor; auto]).
        * eapply attempts_gave; [exact Q|exact A].
        * eapply attempts_failed; [exact Q|exact A].
  Qed.
End FaultFacts.
Print Assumptions C107_no_panic.
Print Assumptions C107_normalize_partial.
Print Assumptions C107_selection.
Print Assumptions C107_interval_iter.
Print Assumptions C107_interval_calls_partial.

Section Loses.
  Context {A B : Type}.
  Lemma loses_refl (l : list A) : loses 0 l l.
  Proof. induction l; constructor; auto. Qed.
  Lemma loses_le n m (l k : list A) : (n <= m)%nat -> loses n l k -> loses m l k.
  Proof.
    intros Le H. revert m Le. induction H; intros m Le; try (constructor; auto).
    destruct m; [lia|]. constructor. apply IHloses. lia.
  Qed.
  Lemma loses_map (f : A -> B) n (l k : list A) : loses n l k -> loses n (map f l) (map f k).
  Proof. induction 1; simpl; constructor; auto. Qed.
  Lemma loses_in n (l k : list A) a : loses n l k -> In a k -> In a l.
  Proof. induction 1; simpl; intros; intuition. Qed.
  Lemma loses_sorted (R : A -> A -> Prop) n (l k : list A) : loses n l k -> StronglySorted R l -> StronglySorted R k.
  Proof.
    induction 1 as [n|n a l k H IH|n a l k H IH]; intros S; auto; inversion S as [|? ? S1 S2]; subst; auto.
    constructor; auto. rewrite Forall_forall in *. intros b Hb. apply S2. now apply (loses_in n l k).
  Qed.
End Loses.

Section Values.
  Context {T : Type} {O : Ord T} {F : Finite T}.
  Implicit Types (g : stepper T) (it : SelIter T).

  Definition crep (cur : Interval T) (lc : list T) : Prop :=
    irep cur lc \/ exists r y, pointless r y /\ cur = nrm r /\ lc = [y].
  Lemma crep_nil cur : crep cur [] -> irep cur [].
  Proof. intros [H|(r & y & _ & _ & E)]; [auto|discriminate]. Qed.
  Lemma crep_cons cur x lc : crep cur (x :: lc) -> exists cur', interval_next cur = Ok (Some x, cur') /\ crep cur' lc.
  Proof.
    intros [H|(r & y & P & -> & E)].
    - destruct (irep_front _ _ _ H) as (i' & Ei & Ri). exists i'. split; [auto|now left].
    - injection E as -> ->. exists interval_empty. split; [now apply pointless_next|left; apply irep_empty].
  Qed.
  Lemma chunk_crep r l : gchunk r l -> crep (nrm r) l /\ l <> [].
  Proof. intros [[H N]|(y & P & ->)]; (split; [|congruence]); [now left|right; eauto]. Qed.

  Definition vrep it (lc : list T) (rs : list (RawInterval T)) (ls : list (list T)) : Prop :=
    exists s o, si_intervals it = st s o /\ stok s o /\ crep (si_current it) lc /\ pieces o s = rs /\ gchunks rs ls.

  Lemma vrep_step dbg g it lc rs ls : faithful g -> vrep it lc rs ls ->
    exists a, sel_next_fault dbg g it = Ok a /\
      match a with
      | Gave (Some x) it' => (exists lc', lc = x :: lc' /\ vrep it' lc' rs ls) \/
          (lc = [] /\ exists r l rs' ls', rs = r :: rs' /\ ls = (x :: l) :: ls' /\ gchunk r (x :: l) /\ vrep it' l rs' ls')
      | Gave None it' => lc = [] /\ rs = [] /\ vrep it' [] [] []
      | Failed it' => vrep it' lc rs ls \/
          (lc = [] /\ exists r l rs' ls', rs = r :: rs' /\ ls = l :: ls' /\ gchunk r l /\ (vrep it' l rs' ls' \/ vrep it' [] rs' ls'))
      end.
  Proof.
    intros Hg (s & o & E & [H P] & Hc & Ep & C). unfold sel_next_fault.
    destruct (interval_next_fault_or g (si_current it) Hg) as [En|(x & cur' & En & En')].
    - rewrite En. simpl. eexists. split; [reflexivity|]. cbn iota. left. exists s, o. split; [exact E|]. split; [split; auto|]. split; [exact Hc|]. now split.
    - rewrite En'. cbn [bind]. destruct lc as [|y lc].
      + rewrite (irep_nil_next _ (crep_nil _ Hc)) in En. injection En as <- <-. rewrite E.
        generalize (iter_next_pieces dbg s o H P). rewrite Ep. destruct C as [|r l rs ls N C'].
        * intros [-> ->]. rewrite (iter_next_none dbg : iter_next dbg (st [] None) = _). cbn [bind]. eexists. split; [reflexivity|]. cbn iota.
          split; [auto|]. split; [auto|]. exists [], None. split; [reflexivity|]. split; [split; [reflexivity|discriminate]|]. split; [auto|]. split; [reflexivity|constructor].
        * intros (s' & o' & H' & P' & El' & _ & _ & Ex). unfold st. rewrite Ex. cbn [bind].
          destruct (read_fault_or g r Hg) as [Rd|Rd]; rewrite Rd.
          -- eexists. split; [reflexivity|]. cbn iota. right. split; [auto|]. exists r, l, rs, ls. split; [auto|]. split; [auto|]. split; [exact N|]. right.
             exists s', o'. split; [reflexivity|]. split; [split; auto|]. split; [exact Hc|]. now split.
          -- fold (nrm r). destruct (chunk_crep r l N) as [Cr Nl]. destruct (interval_next_fault_or g (nrm r) Hg) as [Fn|(x & cur & Fn & Fn')].
             ++ rewrite Fn. cbn [bind]. eexists. split; [reflexivity|]. cbn iota. right. split; [auto|]. exists r, l, rs, ls. split; [auto|]. split; [auto|]. split; [exact N|]. left.
                exists s', o'. split; [reflexivity|]. split; [split; auto|]. split; [exact Cr|]. now split.
             ++ rewrite Fn'. cbn [bind]. destruct l as [|y l]; [now destruct Nl|]. destruct (crep_cons _ _ _ Cr) as (cur2 & Q & Cr2).
                rewrite Q in Fn. injection Fn as <- <-. eexists. split; [reflexivity|]. cbn iota. right. split; [auto|].
                exists r, l, rs, ls. split; [auto|]. split; [auto|]. split; [exact N|].
                exists s', o'. split; [reflexivity|]. split; [split; auto|]. split; [exact Cr2|]. now split.
      + destruct (crep_cons _ _ _ Hc) as (cur2 & Q & Cr2). rewrite Q in En. injection En as <- <-.
        eexists. split; [reflexivity|]. cbn iota. left. exists lc. split; [auto|]. exists s, o. split; [exact E|]. split; [split; auto|]. split; [exact Cr2|]. now split.
  Qed.

  Lemma vrep_run dbg gs : forall it lc rs ls, Forall faithful gs -> vrep it lc rs ls ->
    exists out, attempts (sel_next_fault dbg) (sel_next_fault dbg) it (map (pair Front) gs) out /\ length out = length gs /\
      exists kept kls rest, gchunks kept kls /\ loses (panics out) rs kept /\ lc ++ concat kls = items (answers out) ++ rest /\
        (In (Some None) out -> rest = []).
  Proof.
    induction gs as [|g gs IH]; intros it lc rs ls Hg V.
    - exists []. split; [constructor|]. split; [reflexivity|]. exists rs, ls, (lc ++ concat ls).
      destruct V as (s & o & _ & _ & _ & _ & C). split; [exact C|]. split; [apply loses_refl|]. split; [reflexivity|intros []].
    - inversion Hg as [|? ? Hg1 Hgs]; subst. destruct (vrep_step dbg g it lc rs ls Hg1 V) as ([[x|] it'|it'] & E & K); cbn iota in K.
      + destruct K as [(lc' & -> & V')|(-> & r & l & rs' & ls' & -> & -> & N & V')].
        * destruct (IH it' lc' rs ls Hgs V') as (out & A & L & kept & kls & rest & C & Lo & Eq & Fin).
          exists (Some (Some x) :: out). split; [eapply attempts_gave; [exact E|exact A]|]. simpl. split; [auto|].
          exists kept, kls, rest. split; [exact C|]. split; [exact Lo|]. split; [now rewrite Eq|]. intros [Q|Q]; [discriminate|auto].
        * destruct (IH it' l rs' ls' Hgs V') as (out & A & L & kept & kls & rest & C & Lo & Eq & Fin).
          exists (Some (Some x) :: out). split; [eapply attempts_gave; [exact E|exact A]|]. simpl. split; [auto|].
          exists (r :: kept), ((x :: l) :: kls), rest. split; [constructor; auto|]. split; [now constructor|]. simpl. split; [now rewrite Eq|].
          intros [Q|Q]; [discriminate|auto].
      + destruct K as (-> & -> & V'). destruct (IH it' [] [] [] Hgs V') as (out & A & L & kept & kls & rest & C & Lo & Eq & Fin).
        exists (Some None :: out). split; [eapply attempts_gave; [exact E|exact A]|]. simpl. split; [auto|].
        exists kept, kls, rest. split; [exact C|]. split; [exact Lo|]. split; [exact Eq|]. intros _.
        inversion Lo; subst. inversion C; subst. simpl in Eq. symmetry in Eq. now apply app_eq_nil in Eq.
      + destruct K as [V'|(-> & r & l & rs' & ls' & -> & -> & N & [V'|V'])].
        * destruct (IH it' lc rs ls Hgs V') as (out & A & L & kept & kls & rest & C & Lo & Eq & Fin).
          exists (None :: out). split; [eapply attempts_failed; [exact E|exact A]|]. simpl. split; [auto|].
          exists kept, kls, rest. split; [exact C|]. split; [revert Lo; apply loses_le; lia|]. split; [exact Eq|]. intros [Q|Q]; [discriminate|auto].
        * destruct (IH it' l rs' ls' Hgs V') as (out & A & L & kept & kls & rest & C & Lo & Eq & Fin).
          exists (None :: out). split; [eapply attempts_failed; [exact E|exact A]|]. simpl. split; [auto|].
          exists (r :: kept), (l :: kls), rest. split; [constructor; auto|]. split; [constructor; revert Lo; apply loses_le; lia|]. simpl. split; [exact Eq|].
          intros [Q|Q]; [discriminate|auto].
        * destruct (IH it' [] rs' ls' Hgs V') as (out & A & L & kept & kls & rest & C & Lo & Eq & Fin).
          exists (None :: out). split; [eapply attempts_failed; [exact E|exact A]|]. simpl. split; [auto|].
          exists kept, kls, rest. split; [exact C|]. split; [now constructor|]. split; [exact Eq|]. intros [Q|Q]; [discriminate|auto].
  Qed.

  Lemma yields_value r x : (exists z, raw_contains r z = true) \/ (exists y, pointless r y) -> value_of (nrm r) x <-> yields r x.
  Proof.
    intros K. unfold value_of, yields. rewrite nrm_points. split.
    - intros [H|[N L]]; auto. destruct K as [(z & Hz)|(y & Hy)]; [exfalso; apply (N z); now apply nrm_points|].
      destruct (pointless_norm r y Hy) as (a & _ & Er). unfold interval_lower_bound in L. rewrite nrm_raw, Er in L.
      cbn [raw_lower_bound] in L. injection L as ->. auto.
    - intros [H|H]; auto. right. split.
      + intros y Hy. apply (proj1 (nrm_points r y)) in Hy. rewrite (pointless_empty r x y H) in Hy. discriminate.
      + destruct (pointless_norm r x H) as (a & _ & N). unfold interval_lower_bound. now rewrite nrm_raw, N.
  Qed.

  (** ** The values of a Selection: a panic loses at most one interval *)
  (** [next] is called repeatedly and panics are caught.  The values returned are,
      ascending and without a gap, those of the intervals [kept]: all but at most
      as many as there were panics.  When [next] returns [None] they are all the
      values of [kept]. *)
  Theorem C107_values_partial dbg (p : prog T) s li gs : inputs false p -> run dbg p = Ok s -> sel_intervals_are dbg s li ->
    Forall faithful gs ->
    exists out, attempts (sel_next_fault dbg) (sel_next_fault dbg) (sel_iter s) (map (pair Front) gs) out /\ length out = length gs /\
      StronglySorted lt (items (answers out)) /\
      exists kept, loses (panics out) li kept /\
        (forall x, In x (items (answers out)) -> exists j, In j kept /\ value_of j x) /\
        (forall j x y, In j kept -> value_of j x -> In y (items (answers out)) -> lt x y -> In x (items (answers out))) /\
        (In (Some None) out -> forall j x, In j kept -> value_of j x -> In x (items (answers out))).
  Proof.
    intros H E D Hg. destruct (run_edged dbg p s H E) as [W Ed]. apply sel_intervals_pieces in D; auto. subst li.
    destruct (gchunks_of s W Ed _ (incl_refl _)) as (ls & C).
    assert (V : vrep (sel_iter s) [] (pieces None s) ls).
    { exists s, None. split; [reflexivity|]. split; [split; [apply W|discriminate]|]. split; [left; apply irep_empty|now split]. }
    destruct (vrep_run dbg gs (sel_iter s) [] (pieces None s) ls Hg V) as (out & A & L & kept & kls & rest & Ck & Lo & Eq & Fin).
    simpl in Eq. exists out. split; [exact A|]. split; [exact L|].
    assert (Ss : StronglySorted lt (items (answers out) ++ rest)).
    { rewrite <- Eq. apply (gchunks_sorted kept kls Ck). apply (loses_sorted _ _ _ _ Lo). now apply pieces_sorted. }
    assert (Yv : forall r x, In r kept -> value_of (nrm r) x <-> yields r x).
    { intros r x Hr. apply yields_value. apply (piece_kinds s r W Ed). now apply (loses_in _ _ _ _ Lo). }
    assert (M : forall x, In x (items (answers out) ++ rest) <-> exists j, In j (map nrm kept) /\ value_of j x).
    { intros x. rewrite <- Eq, (gchunks_in kept kls x Ck). split.
      - intros (r & Hr & Hx). exists (nrm r). split; [now apply in_map|]. now apply Yv.
      - intros (j & Hj & Hx). apply in_map_iff in Hj as (r & <- & Hr). exists r. split; auto. now apply Yv in Hx. }
    assert (Sp : forall a b : list T, StronglySorted lt (a ++ b) -> StronglySorted lt a /\ forall x y, In x a -> In y b -> lt x y).
    { clear. intros a b. induction a as [|z a IHa]; simpl; intros S; [split; [constructor|intros ? ? []]|].
      inversion S as [|? ? S1 S2]; subst. destruct (IHa S1) as [I1 I2]. rewrite Forall_forall in S2. split.
      - constructor; auto. rewrite Forall_forall. intros w Hw. apply S2, in_app_iff. now left.
      - intros x y [<-|Hx] Hy; [apply S2, in_app_iff; now right|now apply I2]. }
    destruct (Sp _ _ Ss) as [S1 S2]. split; [exact S1|]. exists (map nrm kept). split; [now apply loses_map|]. split; [|split].
    - intros x Hx. apply M, in_app_iff. now left.
    - intros j x y Hj Hx Hy Lt. assert (I : In x (items (answers out) ++ rest)) by (apply M; eauto).
      apply in_app_iff in I as [I|I]; auto. exfalso. specialize (S2 y x Hy I). clear - S2 Lt. order.
    - intros Q j x Hj Hx. rewrite (Fin Q), app_nil_r in M. apply M. eauto.
  Qed.

  (** An [extend] stopped by a panic of [pred] or [succ] has added the intervals
      before the one it was reading. *)
  Theorem C107_extend dbg (p : prog T) s (l : list (stepper T * Interval T)) : inputs false p -> run dbg p = Ok s ->
    Forall (fun gi => faithful (fst gi) /\ reach false (snd gi)) l ->
    exists s', run dbg (P_extend p (map snd l)) = Ok s' /\ sel_extend_fault dbg s l = Returned s' \/
      exists l1 gi l2, l = l1 ++ gi :: l2 /\ sel_extend_fault dbg s l = Unwound s' /\
        run dbg (P_extend p (map snd l1)) = Ok s' /\ sel_is dbg s' (fun x => member dbg s x \/ some_icontains (map snd l1) x).
  Proof.
    intros H E Hl.
    assert (Q : forall l s, wf s -> Forall (fun gi => faithful (fst gi) /\ reach false (snd gi)) l ->
      exists s', sel_extend dbg s (map snd l) = Ok s' /\ sel_extend_fault dbg s l = Returned s' \/
        exists l1 gi l2, l = l1 ++ gi :: l2 /\ sel_extend_fault dbg s l = Unwound s' /\ sel_extend dbg s (map snd l1) = Ok s').
    { clear - F. intros l. induction l as [|[g i] l IH]; intros s W Hl.
      - exists s. left. split; reflexivity.
      - inversion Hl as [|? ? [Hg Hi] Hl']; subst. cbn [fst snd] in *. destruct (denorm_in i Hi) as (Wi & _ & _).
        destruct (union_in_place_ok dbg s _ W Wi) as (s1 & E1 & W1 & _).
        assert (E1' : sel_union_in_place_crash dbg s i = Returned s1) by (apply (proj1 (proj1 (C104_same_result dbg s _))); exact E1).
        destruct (proj1 (C107_selection dbg g s i Hg)) as [U|U].
        + exists s. right. exists [], (g, i), l. split; [reflexivity|]. simpl. rewrite U. now split.
        + rewrite E1' in U. destruct (IH s1 W1 Hl') as (s' & [[A B]|(l1 & gi & l2 & -> & A & B)]); exists s'.
          * left. simpl. rewrite U, E1. now split.
          * right. exists ((g, i) :: l1), gi, l2. split; [reflexivity|]. simpl. rewrite U, E1. now split. }
    pose proof (run_wf dbg p s H E) as W. destruct (Q l s W Hl) as (s' & [[A B]|(l1 & gi & l2 & -> & A & B)]); exists s'.
    - left. split; [|exact B]. simpl. rewrite E. exact A.
    - right. exists l1, gi, l2. split; [reflexivity|]. split; [exact A|].
      assert (R : run dbg (P_extend p (map snd l1)) = Ok s') by (simpl; rewrite E; exact B). split; [exact R|].
      assert (Rl : Forall (reach false) (map snd l1)).
      { apply Forall_app in Hl as [Hl _]. rewrite Forall_map. revert Hl. apply Forall_impl. now intros a [_ K]. }
      destruct (C104_extend dbg p s (map snd l1) [] H E Rl) as (_ & s2 & _ & R2 & S2). assert (s2 = s') as <- by congruence. exact S2.
  Qed.

  (** With the panics retried, an interval's iterator yields its values in order
      from both ends. *)
  Theorem C107_interval_values (i : Interval T) sched : reach false i ->
    (interval_is_empty i = true \/ exists x, interval_contains i x = true) -> Forall (fun c => faithful (snd c)) sched ->
    exists l out, lists l (ipoints i) /\ attempts interval_next_fault interval_next_back_fault (interval_iter i) sched out /\
      answers out = deque_run l (calls_made sched out).
  Proof.
    intros R N Hs. destruct (C23_iteration_exact_partial i R N) as (l & L & _ & _ & D).
    destruct (C107_interval_iter (interval_iter i) sched Hs) as (out & A & _ & Ru). exists l, out. split; [exact L|]. split; [exact A|].
    specialize (D (calls_made sched out)). revert Ru D. generalize (interval_iter i) (calls_made sched out) (answers out) (deque_run l (calls_made sched out)). clear.
    intros it sc a b Ha. revert b. induction Ha as [|it it' o sc out E Ha IH|it it' o sc out E Ha IH]; intros b Hb; inversion Hb as [|? it2 o2 ? out2 E2 R2|? it2 o2 ? out2 E2 R2]; subst; auto.
    - rewrite E in E2. injection E2 as <- <-. f_equal. now apply IH.
    - rewrite E in E2. injection E2 as <- <-. f_equal. now apply IH.
  Qed.
End Values.
Print Assumptions C107_values_partial.
Print Assumptions C107_extend.
Print Assumptions C107_interval_values.

(** Steppers over i8: one that works, one whose [succ] panics, one whose [succ]
    panics at a single value. *)
Definition g_ok : stepper i8 := {| fpred x := Ok (pred x); fsucc x := Ok (succ x) |}.
Definition g_bad : stepper i8 := {| fpred x := Ok (pred x); fsucc _ := Panic |}.
Definition g_at (y : i8) : stepper i8 :=
  {| fpred x := Ok (pred x); fsucc x := match cmp x y with Eq => Panic | _ => Ok (succ x) end |}.
Lemma g_ok_faithful : faithful g_ok.
Proof. intros x. simpl. auto. Qed.
Lemma g_ok_sound : sound g_ok.
Proof. intros x. simpl. auto. Qed.
Lemma g_bad_faithful : faithful g_bad.
Proof. intros x. simpl. auto. Qed.
Lemma g_at_faithful y : faithful (g_at y).
Proof. intros x. simpl. destruct (cmp x y); auto. Qed.

Definition p13 : prog i8 := P_union_in_place (P_from (cl 1 3)) (cl 7 8).
Lemma I13 : inputs true p13.
Proof. simpl. split; apply R_closed. Qed.

(** A panic does lose data: [normalize] loses the interval it is called on, a
    panicking call of an interval iterator the interval it was reading, and
    iteration over the values all values of that interval. *)
Theorem C107_lost_refuted :
  ~ (forall g (r r' : RawInterval i8), faithful g -> normalize_fault g r = Unwound r' -> r' = r) /\
  ~ (forall dbg (p : prog i8) s li sched out j, inputs true p -> run dbg p = Ok s -> sel_intervals_are dbg s li -> Forall (fun c => faithful (snd c)) sched ->
       attempts (sel_interval_next_fault dbg) (sel_interval_next_back_fault dbg) (sel_interval_iter s) sched out ->
       In (Some None) out -> In j li -> In j (items (answers out))) /\
  ~ (forall dbg (p : prog i8) s gs out x, inputs true p -> run dbg p = Ok s -> Forall faithful gs ->
       attempts (sel_next_fault dbg) (sel_next_fault dbg) (sel_iter s) (map (pair Front) gs) out ->
       In (Some None) out -> member dbg s x -> In x (items (answers out))).
Proof.
  split; [|split]; intros H.
  - discriminate (H g_bad (LeftOpen (v 1) (v 5)) Empty g_bad_faithful eq_refl).
  - specialize (H true (p13) _ [cl 1 3; cl 7 8] [(Front, g_bad); (Front, g_ok); (Front, g_ok)] [None; Some (Some (cl 7 8)); Some None] (cl 1 3)
      I13 eq_refl).
    assert (K : In (cl 1 3) (items (answers [None; Some (Some (cl 7 8)); Some None]))).
    { apply H.
      - eapply drains_cons; [reflexivity|]. eapply drains_cons; [reflexivity|]. eapply drains_nil. reflexivity.
      - repeat apply Forall_cons; auto using Forall_nil, g_bad_faithful, g_ok_faithful; first [exact g_bad_faithful|exact g_ok_faithful].
      - eapply attempts_failed; [reflexivity|]. eapply attempts_gave; [reflexivity|]. eapply attempts_gave; [reflexivity|]. constructor.
      - simpl. auto.
      - simpl. auto. }
    simpl in K. destruct K as [K|[]]. discriminate K.
  - specialize (H true (P_points [v 1; v 3]) _ [g_bad; g_ok; g_ok] [None; Some (Some (v 3)); Some None] (v 1) ltac:(simpl; auto) eq_refl).
    assert (K : In (v 1) (items (answers [None; Some (Some (v 3)); Some None]))).
    { apply H.
      - repeat apply Forall_cons; auto using Forall_nil, g_bad_faithful, g_ok_faithful; first [exact g_bad_faithful|exact g_ok_faithful].
      - eapply attempts_failed; [reflexivity|]. eapply attempts_gave; [reflexivity|]. eapply attempts_gave; [reflexivity|]. constructor.
      - simpl. auto.
      - reflexivity. }
    simpl in K. destruct K as [K|[]]. discriminate K.
Qed.
Print Assumptions C107_lost_refuted.

Example C107_ex_values : exists s li out, inputs false p13 /\ run true p13 = Ok s /\ sel_intervals_are true s li /\ li = [cl 1 3; cl 7 8] /\
  out = [Some (Some (v 1)); None; Some (Some (v 2)); Some (Some (v 3)); None; Some None] /\
  attempts (sel_next_fault true) (sel_next_fault true) (sel_iter s) (map (pair Front) [g_ok; g_bad; g_ok; g_ok; g_bad; g_ok]) out /\
  loses (panics out) li [cl 1 3] /\ items (answers out) = [v 1; v 2; v 3].
Proof.
  eexists _, _, _. split; [simpl; split; apply R_closed|]. split; [reflexivity|].
  split; [eapply drains_cons; [reflexivity|]; eapply drains_cons; [reflexivity|]; eapply drains_nil; reflexivity|].
  split; [reflexivity|]. split; [reflexivity|].
  split; [|split; [repeat constructor|reflexivity]].
  eapply attempts_gave; [reflexivity|]. eapply attempts_failed; [reflexivity|]. eapply attempts_gave; [reflexivity|].
  eapply attempts_gave; [reflexivity|]. eapply attempts_failed; [reflexivity|]. eapply attempts_gave; [reflexivity|]. constructor.
Qed.
Example C107_ex_interval : attempts interval_next_fault interval_next_back_fault (interval_iter (cl 1 3))
    [(Front, g_bad); (Front, g_ok); (Back, g_bad); (Front, g_bad); (Front, g_at (v 1)); (Front, g_ok)]
    [None; Some (Some (v 1)); Some (Some (v 3)); Some (Some (v 2)); Some None; Some None] /\
  deque_run [v 1; v 2; v 3] [Front; Back; Front; Front; Front] = [Some (v 1); Some (v 3); Some (v 2); None; None] /\
  reach false (cl 1 3) /\ interval_contains (cl 1 3) (v 2) = true.
Proof.
  split; [|split; [reflexivity|split; [apply R_closed|reflexivity]]].
  eapply attempts_failed; [reflexivity|]. do 5 (eapply attempts_gave; [reflexivity|]). constructor.
Qed.
Example C107_ex_extend : exists s s', run true (P_from (cl 1 3)) = Ok s /\
  sel_extend_fault true s [(g_ok, cl 7 8); (g_at (v 12), cl 11 12); (g_ok, cl 20 21)] = Unwound s' /\
  run true (P_extend (P_from (cl 1 3)) [cl 7 8]) = Ok s' /\ sel_contains true s' (v 7) = Ok true /\ sel_contains true s' (v 20) = Ok false.
Proof. eexists _, _. split; [reflexivity|]. split; [reflexivity|]. split; [reflexivity|]. now split. Qed.
Example C107_ex_selection : exists s s', run true (P_from (cl 1 3)) = Ok s /\
  sel_union_in_place_fault true (g_at (v 5)) s (cl 4 5) = Unwound s /\ sel_minus_in_place_fault true (g_at (v 5)) s (cl 4 5) = Unwound s /\
  sel_intersect_in_place_fault true (g_at (v 5)) s (cl 4 5) = Unwound s /\
  sel_union_in_place_fault true g_ok s (cl 4 5) = Returned s' /\ sel_contains true s' (v 5) = Ok true.
Proof. eexists _, _. repeat (split; [reflexivity|]). reflexivity. Qed.
Example C107_ex_normalize : normalize_fault g_bad (Open (v 1) (v 5)) = Unwound Empty /\ normalize_fault g_bad (RightOpen (v 1) (v 5)) = Returned (Closed (v 1) (v 4)) /\
  denormalize_fault g_bad (Closed (v 1) (v 5)) = Unwound Empty /\ denormalize_fault g_ok (Closed (v 1) (v 5)) = Returned (Open (v 0) (v 6)) /\ sound g_ok.
Proof. do 4 (split; [reflexivity|]). exact g_ok_sound. Qed.
Example C107_ex_intervals : exists s out, run true p13 = Ok s /\
  runs (sel_interval_next true) (sel_interval_next_back true) (sel_interval_iter s) [Front; Back; Front] [Some (cl 1 3); Some (cl 7 8); None] /\
  out = [None; Some (Some (cl 7 8)); Some None] /\
  attempts (sel_interval_next_fault true) (sel_interval_next_back_fault true) (sel_interval_iter s) [(Front, g_bad); (Back, g_ok); (Front, g_ok)] out.
Proof.
  eexists _, _. split; [reflexivity|]. split; [eapply runs_front; [reflexivity|]; eapply runs_back; [reflexivity|]; eapply runs_front; [reflexivity|]; constructor|].
  split; [reflexivity|]. eapply attempts_failed; [reflexivity|]. do 2 (eapply attempts_gave; [reflexivity|]). constructor.
Qed.

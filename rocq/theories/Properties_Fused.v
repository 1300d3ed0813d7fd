(** * The end of iteration (C87)

    src/interval.rs 1901 and src/selection.rs 999, 1042, 1107 and 1169 declare
    every iterator of the crate a [FusedIterator]: once [next] has returned
    [None] it goes on returning [None]. *)
From Coq Require Import List Bool ZArith Lia Sorted Permutation.
From Verif Require Import Base OrdFacts Pos PFinite Ints MBound MRaw MNormalize MTine MBTree MTineTree MInterval MSelection
  Spec Spec_Sel PRaw PRaw2 PNorm PIter PInterval PBTree PTree PSel PSel2 PSel3 PSel4 PSel5 Instances
  Properties_Interval Properties_Tree Properties_Selection Properties_Selection4 Properties_Both.
Import ListNotations.
Local Open Scope list_scope.
Local Arguments cmp : simpl never.

(** What the end of iteration promises: after the calls [sched], a call [c]
    that returns [None] is followed by nothing but [None]s, without a panic,
    whatever calls ([more], allowed by [ok]) are made next. *)
Definition ends_for_good {S A} (next next_back : S -> res (option A * S)) (start : S) (c : side) (ok : list side -> Prop) : Prop :=
  forall sched out, runs next next_back start (sched ++ [c]) (out ++ [None]) ->
  forall more, ok more -> runs next next_back start (sched ++ c :: more) (out ++ None :: repeat None (length more)).

Section Generic.
  Context {S A : Type} (next next_back : S -> res (option A * S)).
  (** [call c it]: one call. *)
  Definition call (c : side) := match c with Front => next | Back => next_back end.

  Lemma runs_cons c it it' o sched out : call c it = Ok (o, it') -> runs next next_back it' sched out ->
    runs next next_back it (c :: sched) (o :: out).
  Proof. destruct c; simpl; intros; econstructor; eauto. Qed.
  Lemma runs_uncons c it sched out : runs next next_back it (c :: sched) out ->
    exists o it' out', out = o :: out' /\ call c it = Ok (o, it') /\ runs next next_back it' sched out'.
  Proof. intros H. inversion H; subst; simpl; eauto 10. Qed.
  Lemma runs_len it sched out : runs next next_back it sched out -> length sched = length out.
  Proof. induction 1; simpl; congruence. Qed.

  (** An invariant [I] of all calls, a set [D] of finished states. *)
  Lemma ends_by (I D : S -> Prop) c (ok : side -> Prop) start : I start ->
    (forall d it o it', I it -> call d it = Ok (o, it') -> I it') ->
    (forall it it', I it -> call c it = Ok (None, it') -> D it') ->
    (forall d it, ok d -> D it -> exists it', call d it = Ok (None, it') /\ D it') ->
    ends_for_good next next_back start c (Forall ok).
  Proof.
    intros I0 St Fin Stay. unfold ends_for_good. intros sched. revert start I0. induction sched as [|d sched IH]; intros start I0 out R more M.
    - destruct (runs_uncons _ _ _ _ R) as (o & it' & out' & E & C & R'). inversion R'; subst.
      destruct out as [|o' out]; [|destruct out; discriminate]. injection E as <-. simpl. eapply runs_cons; [exact C|].
      pose proof (Fin _ _ I0 C) as Dit. clear - M Dit Stay. revert it' Dit. induction M as [|d more Md M IH]; intros it Dit; simpl; [constructor|].
      destruct (Stay d it Md Dit) as (it' & E & D'). eapply runs_cons; eauto.
    - simpl in R. destruct (runs_uncons _ _ _ _ R) as (o & it' & out' & E & C & R').
      destruct out as [|o' out]; simpl in E.
      { apply runs_len in R. rewrite app_length in R. simpl in R. rewrite ?app_length in R. simpl in R. lia. }
      injection E as <- <-. simpl. eapply runs_cons; [exact C|]. apply IH; eauto.
  Qed.
End Generic.

(** ** Iterating an interval *)
Section IntervalIter.
  Context {T : Type} {O : Ord T} {F : Finite T}.
  Lemma bound_none (i : Interval T) : interval_lower_bound i = None <-> interval_upper_bound i = None.
  Proof. unfold interval_lower_bound, interval_upper_bound. destruct (interval_raw i); simpl; split; intros; try discriminate; auto. Qed.

  (** For every [Interval] value: whichever end the [None] came from, both ends
      are finished for good. *)
  Theorem C87_interval_iter_fused (i : Interval T) c :
    ends_for_good interval_next interval_next_back i c (fun _ => True).
  Proof.
    assert (K : ends_for_good interval_next interval_next_back i c (Forall (fun _ => True))).
    { apply (ends_by _ _ (fun _ => True) (fun j => interval_lower_bound j = None)); auto.
      - intros it it' _ C. destruct c; simpl in C; unfold interval_next, interval_next_back in C.
        + destruct (interval_lower_bound it) as [[]|] eqn:E; try discriminate. now injection C as <-.
        + destruct (interval_upper_bound it) as [[]|] eqn:E; try discriminate. injection C as <-. now apply bound_none.
      - intros d it _ D. exists it. split; auto. destruct d; simpl; unfold interval_next, interval_next_back.
        + now rewrite D.
        + apply bound_none in D. now rewrite D. }
    intros sched out R more _. apply K; auto. now apply Forall_forall.
  Qed.
End IntervalIter.
Print Assumptions C87_interval_iter_fused.

(** ** Iterating the intervals of a tree or Selection *)
Section Tree.
  Context {T : Type} {O : Ord T}.
  Definition no_upper (it : Iter T) := saved_upper it = None.
  Lemma no_upper_next dbg it o it' : no_upper it -> iter_next dbg it = Ok (o, it') -> no_upper it'.
  Proof.
    unfold no_upper, iter_next. intros N. rewrite N.
    destruct (saved_lower it) as [l|] eqn:L.
    2: destruct (btree_first (tine_iter it)) as [l|]; [|now intros [= <- <-]].
    all: destruct l as [b|[b|b|]|b]; try (intros [= <- <-]; reflexivity).
    all: unfold debug_assert; destruct (_ && _); try discriminate; cbn [bind].
    all: destruct (btree_first _); try discriminate; destruct (_ && _); try discriminate; cbn [bind]; intros [= <- <-]; reflexivity.
  Qed.
  Lemma no_upper_back dbg it o it' : no_upper it -> iter_next_back dbg it = Ok (o, it') -> no_upper it'.
  Proof.
    unfold no_upper, iter_next_back. intros N. rewrite N.
    destruct (btree_last (tine_iter it)) as [l|]; [|now intros [= <- <-]].
    destruct l as [b|[b|b|]|b]; try (intros [= <- <-]; reflexivity).
    all: unfold debug_assert; destruct (_ && _); try discriminate; cbn [bind].
    all: destruct (btree_last _); [|destruct (saved_lower it); try discriminate]; destruct (_ && _); try discriminate; cbn [bind]; intros [= <- <-]; reflexivity.
  Qed.

  Definition spent (it : Iter T) := tine_iter it = [] /\ saved_lower it = None /\ saved_upper it = None.
  Definition spent_back (it : Iter T) := tine_iter it = [] /\ saved_upper it = None.
  Lemma first_none (s : TineTree T) : btree_first s = None -> s = [].
  Proof. destruct s; [auto|discriminate]. Qed.
  Lemma last_none (s : TineTree T) : btree_last s = None -> s = [].
  Proof. induction s as [|a [|b s] IH]; auto; [discriminate|]. intros E. now apply IH in E. Qed.

  Lemma next_none dbg it it' : no_upper it -> iter_next dbg it = Ok (None, it') -> spent it'.
  Proof.
    intros N E. pose proof (no_upper_next _ _ _ _ N E) as N'. unfold no_upper in N. revert E. unfold iter_next. rewrite N.
    destruct (saved_lower it) as [l|] eqn:L.
    2: destruct (btree_first (tine_iter it)) as [l|] eqn:B; [|apply first_none in B; rewrite B; intros [= <-]; split; auto].
    all: destruct l as [b|[b|b|]|b]; try discriminate.
    all: unfold debug_assert; repeat (cbn [bind]; match goal with |- context [if ?b then Panic else _] => destruct b end; try discriminate); cbn [bind].
    all: repeat (match goal with |- context [match btree_first ?t with _ => _ end] => destruct (btree_first t) end; try discriminate).
    all: repeat (match goal with |- context [if ?b then Panic else _] => destruct b end; try discriminate).
  Qed.
  Lemma back_none dbg it it' : no_upper it -> iter_next_back dbg it = Ok (None, it') -> spent_back it'.
  Proof.
    intros N E. pose proof (no_upper_back _ _ _ _ N E) as N'. unfold no_upper in N. revert E. unfold iter_next_back. rewrite N.
    destruct (btree_last (tine_iter it)) as [l|] eqn:B; [|apply last_none in B; rewrite B; intros [= <-]; split; auto].
    destruct l as [b|[b|b|]|b]; try discriminate.
    all: unfold debug_assert; repeat (cbn [bind]; match goal with |- context [if ?b then Panic else _] => destruct b end; try discriminate); cbn [bind].
    all: match goal with |- context [match btree_last ?t with _ => _ end] => destruct (btree_last t) end; [|destruct (saved_lower it); try discriminate].
    all: repeat (match goal with |- context [if ?b then Panic else _] => destruct b end; try discriminate).
  Qed.
  Lemma spent_next dbg it : spent it -> iter_next dbg it = Ok (None, it).
  Proof. destruct it as [t l u]. intros (E1 & E2 & E3). simpl in *. subst. reflexivity. Qed.
  Lemma spent_next_back dbg it : spent_back it -> iter_next_back dbg it = Ok (None, it).
  Proof. destruct it as [t l u]. intros (E1 & E2). simpl in *. subst. reflexivity. Qed.
  Lemma spent_both it : spent it -> spent_back it.
  Proof. intros (? & ? & ?). now split. Qed.

  Lemma tree_fused dbg (s : TineTree T) : ends_for_good (iter_next dbg) (iter_next_back dbg) (tree_interval_iter s) Front (Forall (fun _ => True)).
  Proof.
    apply (ends_by _ _ no_upper spent).
    - reflexivity.
    - intros [|] it o it' N C; [now apply (no_upper_next dbg it o)|now apply (no_upper_back dbg it o)].
    - intros it it' N C. now apply (next_none dbg it).
    - intros [|] it _ D; exists it; split; auto; simpl; [now apply spent_next|apply spent_next_back; now apply spent_both].
  Qed.
  Lemma tree_fused_back dbg (s : TineTree T) : ends_for_good (iter_next dbg) (iter_next_back dbg) (tree_interval_iter s) Back (Forall (eq Back)).
  Proof.
    apply (ends_by _ _ no_upper spent_back).
    - reflexivity.
    - intros [|] it o it' N C; [now apply (no_upper_next dbg it o)|now apply (no_upper_back dbg it o)].
    - intros it it' N C. now apply (back_none dbg it).
    - intros d it <- D. exists it. split; auto. now apply spent_next_back.
  Qed.

  (** For every tree, well-formed or not, and whatever calls came before: after a
      [None] from [next] both ends are finished for good. *)
  Theorem C87_tree_iter_fused dbg (s : TineTree T) :
    ends_for_good (iter_next dbg) (iter_next_back dbg) (tree_interval_iter s) Front (fun _ => True).
  Proof. intros sched out R more _. apply tree_fused; auto. now apply Forall_forall. Qed.
  (** After a [None] from [next_back], [next_back] is finished for good. *)
  Theorem C87_tree_iter_fused_back dbg (s : TineTree T) :
    ends_for_good (iter_next dbg) (iter_next_back dbg) (tree_interval_iter s) Back (Forall (eq Back)).
  Proof. apply tree_fused_back. Qed.

  (** The same for the intervals of a Selection. *)
  Context {F : Finite T}.
  Lemma sel_call dbg d (it : Iter T) o it' : call (sel_interval_next dbg) (sel_interval_next_back dbg) d it = Ok (o, it') ->
    exists x, call (iter_next dbg) (iter_next_back dbg) d it = Ok (x, it') /\ (o = None -> x = None).
  Proof.
    destruct d; simpl; unfold sel_interval_next, sel_interval_next_back;
    [destruct (iter_next dbg it) as [[x j]|]|destruct (iter_next_back dbg it) as [[x j]|]]; try discriminate;
    cbn [bind]; intros [= <- <-]; exists x; split; auto; destruct x; auto; discriminate.
  Qed.
  Theorem C87_sel_interval_iter_fused dbg (s : Selection T) :
    ends_for_good (sel_interval_next dbg) (sel_interval_next_back dbg) (sel_interval_iter s) Front (fun _ => True).
  Proof.
    assert (K : ends_for_good (sel_interval_next dbg) (sel_interval_next_back dbg) (sel_interval_iter s) Front (Forall (fun _ => True))).
    { apply (ends_by _ _ no_upper spent).
      - reflexivity.
      - intros d it o it' N C. apply sel_call in C as (x & C & _). destruct d; [now apply (no_upper_next dbg it x)|now apply (no_upper_back dbg it x)].
      - intros it it' N C. apply sel_call in C as (x & C & E). rewrite (E eq_refl) in C. now apply (next_none dbg it).
      - intros [|] it _ D; exists it; split; auto; simpl; unfold sel_interval_next, sel_interval_next_back;
        [now rewrite spent_next|rewrite spent_next_back; auto; now apply spent_both]. }
    intros sched out R more _. apply K; auto. now apply Forall_forall.
  Qed.
  Theorem C87_sel_interval_iter_fused_back dbg (s : Selection T) :
    ends_for_good (sel_interval_next dbg) (sel_interval_next_back dbg) (sel_interval_iter s) Back (Forall (eq Back)).
  Proof.
    apply (ends_by _ _ no_upper spent_back).
    - reflexivity.
    - intros d it o it' N C. apply sel_call in C as (x & C & _). destruct d; [now apply (no_upper_next dbg it x)|now apply (no_upper_back dbg it x)].
    - intros it it' N C. apply sel_call in C as (x & C & E). rewrite (E eq_refl) in C. now apply (back_none dbg it).
    - intros d it <- D. exists it. split; auto. simpl. unfold sel_interval_next_back. now rewrite spent_next_back.
  Qed.
End Tree.
Print Assumptions C87_tree_iter_fused.
Print Assumptions C87_tree_iter_fused_back.
Print Assumptions C87_sel_interval_iter_fused.
Print Assumptions C87_sel_interval_iter_fused_back.

(** A [None] from [next_back] does not finish [next]: it may then panic. *)
Theorem C87_tree_iter_other_end_refuted :
  exists p : prog i8, inputs true p /\ unions_only p /\ exists s, run false p = Ok s /\
    exists a b, runs (sel_interval_next false) (sel_interval_next_back false) (sel_interval_iter s) [Back; Back; Back] [Some a; Some b; None] /\
    forall o, ~ runs (sel_interval_next false) (sel_interval_next_back false) (sel_interval_iter s) [Back; Back; Back; Front] [Some a; Some b; None; o].
Proof.
  exists (P_points [v 1; v 3; v 5]). split; [exact I|]. split; [exact I|]. eexists. split; [vm_compute; reflexivity|].
  do 2 eexists. split.
  - do 3 (eapply runs_back; [vm_compute; reflexivity|]). constructor.
  - intros o R.
    do 3 (inversion R as [| |? ? ? ? ? E R']; subst; clear R; vm_compute in E; injection E; clear E; intros; subst; rename R' into R).
    inversion R as [|? ? ? ? ? E R'|]; subst. vm_compute in E. discriminate.
Qed.
Print Assumptions C87_tree_iter_other_end_refuted.

(** ** Iterating the values of a Selection *)
Section Values.
  Context {T : Type} {O : Ord T} {F : Finite T}.

  (** Every Selection, used from the front only. *)
  Theorem C87_sel_iter_front_partial dbg (p : prog T) s : inputs false p -> run dbg p = Ok s ->
    exists l, forall back n, runs (sel_next dbg) back (sel_iter s) (repeat Front n) (deque_run l (repeat Front n)).
  Proof.
    intros H E. destruct (run_edged dbg p s H E) as [W G].
    destruct (gchunks_of s W G _ (incl_refl _)) as (ls & C). exists (concat ls).
    assert (R : gfrep (sel_iter s) (concat ls)).
    { exists s, None, [], ls. split; [reflexivity|]. split; [split; [apply W|discriminate]|]. split; [apply irep_empty|auto]. }
    intros back n. revert R. generalize (sel_iter s) (concat ls). induction n as [|n IH]; intros it l R; simpl; [constructor|].
    destruct l as [|x l].
    - destruct (gfrep_next_nil dbg it R) as (it' & En & R'). econstructor; eauto.
    - destruct (gfrep_next dbg it x l R) as (it' & En & R'). econstructor; eauto.
  Qed.

  Lemma runs_prefix {S A} (nx nb : S -> res (option A * S)) it a : forall b out o1, runs nx nb it (a ++ b) out -> runs nx nb it a o1 ->
    exists o2, out = o1 ++ o2 /\ length o2 = length b.
  Proof.
    revert it. induction a as [|d a IH]; intros it b out o1 R R1.
    - inversion R1; subst. exists out. split; auto. simpl in R. now apply runs_len in R.
    - simpl in R. destruct (runs_uncons _ _ _ _ _ _ R) as (o & it1 & out' & -> & C & R'), (runs_uncons _ _ _ _ _ _ R1) as (o' & it2 & out2 & -> & C' & R2).
      rewrite C in C'. injection C' as <- <-. destruct (IH _ _ _ _ R' R2) as (o2 & -> & L). exists o2. auto.
  Qed.
  Lemma somes_app {A} (a b : list (option A)) : somes (a ++ b) = somes a ++ somes b.
  Proof. unfold somes. now rewrite map_app, concat_app. Qed.
  Lemma all_none {A} (l : list (option A)) : somes l = [] -> l = repeat None (length l).
  Proof. unfold somes. induction l as [|[a|] l IH]; simpl; intros E; auto; [discriminate|]. now rewrite <- IH. Qed.

  (** A Selection built by unions in which no single value is missing between
      two neighbours that are present: whatever calls are made, from both ends. *)
  Theorem C87_sel_iter_fused_partial dbg (p : prog T) s c : inputs true p -> unions_only p -> run dbg p = Ok s ->
    (forall x, ~ lone_gap (member dbg s) x) ->
    ends_for_good (sel_next dbg) (sel_next_back dbg) (sel_iter s) c (fun _ => True).
  Proof.
    intros H U E N sched out R more _.
    destruct (C51_any_schedule_partial dbg p s (sched ++ [c]) H U E N) as (l1 & out1 & rest1 & L1 & R1 & P1 & Q1).
    destruct (C51_any_schedule_partial dbg p s (sched ++ c :: more) H U E N) as (l2 & out2 & rest2 & L2 & R2 & P2 & Q2).
    rewrite <- (app_nil_r (sched ++ [c])) in R1. destruct (runs_prefix _ _ _ _ _ _ _ R1 R) as (o & -> & Lo). destruct o; [|discriminate].
    change (sched ++ c :: more) with (sched ++ [c] ++ more) in R2. rewrite app_assoc in R2.
    destruct (runs_prefix _ _ _ _ _ _ _ R2 R) as (o2 & -> & L).
    assert (l2 = l1) as -> by (apply (lists_unique l2 l1 (member dbg s)); auto).
    rewrite Q1 in P1 by (apply in_or_app; left; apply in_or_app; right; now left).
    rewrite Q2 in P2 by (apply in_or_app; left; apply in_or_app; right; now left).
    rewrite !app_nil_r in P1, P2. 
    assert (somes o2 = []) as Z.
    { apply Permutation_length in P1, P2. rewrite <- P1, (somes_app (out ++ [None]) o2), app_length in P2. destruct (somes o2); [auto|]. rewrite app_nil_r in P2. simpl in P2. lia. }
    apply all_none in Z. rewrite L in Z. rewrite Z in R2. rewrite <- !app_assoc in R2. exact R2.
  Qed.
End Values.
Print Assumptions C87_sel_iter_front_partial.
Print Assumptions C87_sel_iter_fused_partial.

(** With missing single values [next] can return [None] and then yield further
    values, in either build: {1, 3, 5, 7, 9}, one call at each end. *)
Theorem C87_sel_iter_refuted dbg :
  exists p : prog i8, inputs true p /\ unions_only p /\ exists s, run dbg p = Ok s /\
    runs (sel_next dbg) (sel_next_back dbg) (sel_iter s) [Front; Back; Front; Front] [Some (v 1); Some (v 9); None; Some (v 5)].
Proof.
  exists (P_points [v 1; v 3; v 5; v 7; v 9]). split; [exact I|]. split; [exact I|].
  destruct dbg; (eexists; split; [vm_compute; reflexivity|]).
  all: eapply runs_front; [vm_compute; reflexivity|]; eapply runs_back; [vm_compute; reflexivity|];
       do 2 (eapply runs_front; [vm_compute; reflexivity|]); constructor.
Qed.
Print Assumptions C87_sel_iter_refuted.

(** Runs that reach the end: [2, 4] from both ends, {1, 2, 5, 6}, and the
    intervals of {1, 3} from the front. *)
Example C87_ex :
  runs interval_next interval_next_back (cl 2 4 : Interval i8) ([Front; Back; Back] ++ [Front]) ([Some (v 2); Some (v 4); Some (v 3)] ++ [None]) /\
  (exists s, run true (P_points [v 1; v 2; v 5; v 6] : prog i8) = Ok s /\
     runs (sel_next true) (sel_next_back true) (sel_iter s) ([Front; Back; Front; Back] ++ [Back]) ([Some (v 1); Some (v 2); Some (v 5); Some (v 6)] ++ [None])) /\
  (exists s a b, run true (P_points [v 1; v 3] : prog i8) = Ok s /\
     runs (sel_interval_next true) (sel_interval_next_back true) (sel_interval_iter s) ([Front; Front] ++ [Front]) ([Some a; Some b] ++ [None])).
Proof.
  split; [|split; [eexists; split; [vm_compute; reflexivity|]|do 3 eexists; split; [vm_compute; reflexivity|]]].
  all: simpl; repeat first [eapply runs_front; [vm_compute; reflexivity|]|eapply runs_back; [vm_compute; reflexivity|]]; apply runs_nil.
Qed.

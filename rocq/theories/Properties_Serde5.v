(** * The values [iter] makes of any list of tines: C115 *)
From Coq Require Import List Bool ZArith Lia Sorted.
From Verif Require Import Base MBound MRaw MNormalize MTine MBTree MTineTree MInterval MSelection
  Spec Spec_Tree Spec_Sel Spec_Take Spec_Take2 Spec_Take3 OrdFacts PFinite PRaw PNorm PInterval PSel2 PSel3 Instances Ints Properties_Public4 Properties_Serde3 Properties_Serde4.
Import ListNotations.
Local Open Scope list_scope.

Section Take3.
  Context {T : Type} {O : Ord T} {F : Finite T}.
  Implicit Types (r : RawInterval T) (k : stock (T := T)) (i : Interval T).

  Definition inext (c : side) : Interval T -> res (option T * Interval T) := match c with Front => interval_next | Back => interval_next_back end.
  Definition snext dbg (c : side) : SelIter T -> res (option T * SelIter T) := match c with Front => sel_next dbg | Back => sel_next_back dbg end.
  (** [i] is left to be read as [l] from side [c]. *)
  Definition still (c : side) i (l : list T) : Prop := irep i match c with Front => l | Back => rev l end.

  Lemma still_nil c i : still c i [] -> inext c i = Ok (None, i).
  Proof. destruct c; intros H; apply irep_nil in H; cbn; unfold interval_next, interval_next_back, interval_lower_bound, interval_upper_bound; now rewrite H. Qed.
  Lemma still_cons c i v l : still c i (v :: l) -> exists i', inext c i = Ok (Some v, i') /\ still c i' l.
  Proof. destruct c; intros H; [now apply irep_front|now apply irep_back]. Qed.
  Lemma still_empty c : still c interval_empty [].
  Proof. destruct c; apply irep_empty. Qed.

  Lemma gap_or r : gap r \/ ~ gap r.
  Proof.
    destruct r as [|p|a b|a b|a b|a b|b|a|b|a|]; cbn; auto. destruct (succ a) as [y|]; [|right; discriminate].
    destruct (cmp y b) eqn:E; [apply cmp_eq in E; subst; auto| |]; right; intros [= ->]; now rewrite cmp_refl in E.
  Qed.

  Lemma side_takes_wf dbg c k r k' : side_takes dbg c k r k' -> raw_wf r.
  Proof. destruct 1; try exact I; apply raw_new_wf. Qed.

  (** One interval, from one side. *)
  Lemma read_step c r l : raw_wf r -> read_as c r l ->
    match l with
    | [] => inext c (nrm r) = Ok (None, nrm r) /\ still c (nrm r) []
    | v :: l' => exists i', inext c (nrm r) = Ok (Some v, i') /\ still c i' l'
    end.
  Proof.
    intros W H. assert (V : forall l, still c (nrm r) l -> match l with
      | [] => inext c (nrm r) = Ok (None, nrm r) /\ still c (nrm r) []
      | v :: l' => exists i', inext c (nrm r) = Ok (Some v, i') /\ still c i' l'
      end) by (intros [|v l'] S; [split; auto; now apply still_nil|now apply still_cons]).
    assert (P : ~ gap r -> forall l, lists l (fun x => raw_contains r x = true) -> irep (nrm r) l).
    { intros G m [Sm Hm]. split; [rewrite nrm_raw; now apply normalized_solid|]. split; auto. intros x. rewrite Hm.
      unfold ipoints, interval_contains. now rewrite nrm_raw, normalized_contains. }
    destruct H as [r l G L|r l G L|x y G|x y G].
    - apply V. now apply P.
    - apply V. now apply P.
    - cbn in G, W. exists interval_empty. split; [|apply still_empty]. cbn [inext]. rewrite nrm_mk. cbn [normalized].
      rewrite G. destruct (pred y) as [w|] eqn:Ew; [|exfalso; clear - G Ew; forder].
      rewrite (next_eq _ y) by reflexivity. rewrite minus_front by reflexivity.
      replace (ltb y w) with false by (clear - G Ew; symmetry; forder). reflexivity.
    - cbn in G, W. exists interval_empty. split; [|apply still_empty]. cbn [inext]. rewrite nrm_mk. cbn [normalized].
      rewrite G. destruct (pred y) as [w|] eqn:Ew; [|exfalso; clear - G Ew; forder].
      assert (w = x) by (clear - G Ew; forder). subst w.
      rewrite (next_back_eq _ x) by reflexivity. rewrite minus_back by reflexivity.
      replace (ltb y x) with false by (clear - W; symmetry; order). reflexivity.
  Qed.
  Lemma read_some c r : raw_wf r -> exists l, read_as c r l.
  Proof.
    intros W. destruct (gap_or r) as [G|G].
    - destruct r as [|p|a b|a b|a b|a b|b|a|b|a|]; cbn in G; try contradiction. destruct c; eexists; now constructor.
    - destruct (solid_lists (nrm r)) as [l L]; [rewrite nrm_raw; now apply normalized_solid|].
      assert (L' : lists l (fun x => raw_contains r x = true)).
      { destruct L as [Sl Hl]. split; auto. intros x. rewrite Hl. unfold ipoints, interval_contains. now rewrite nrm_raw, normalized_contains. }
      destruct c; [exists l; now constructor|exists (rev l); constructor; auto; now rewrite rev_involutive].
  Qed.

  (** A call of the value iterator. *)
  Lemma snext_eq dbg c its i : snext dbg c {| si_intervals := its; si_current := i |} =
    do (x, cur) <- inext c i;
    match x with
    | Some _ => Ok (x, {| si_intervals := its; si_current := cur |})
    | None =>
        do (y, its') <- call dbg c its;
        match y with
        | None => Ok (None, {| si_intervals := its'; si_current := cur |})
        | Some r =>
            do (x', cur') <- inext c (nrm r);
            Ok (x', {| si_intervals := its'; si_current := cur' |})
        end
    end.
  Proof. destruct c; reflexivity. Qed.

  Lemma yields_drains dbg c k l : yields dbg c k l -> forall i vs, still c i vs ->
    drains (snext dbg c) {| si_intervals := iter_of k; si_current := i |} (vs ++ l).
  Proof.
    assert (Go : forall k l, (forall i, still c i [] -> drains (snext dbg c) {| si_intervals := iter_of k; si_current := i |} l) ->
      forall vs i, still c i vs -> drains (snext dbg c) {| si_intervals := iter_of k; si_current := i |} (vs ++ l)).
    { clear. intros k l H vs. induction vs as [|v vs IH]; intros i S; [now apply H|]. cbn [app].
      destruct (still_cons c i v vs S) as (i' & E & S'). econstructor; [|now apply (IH i')]. rewrite snext_eq, E. reflexivity. }
    intros Y. induction Y as [k N|k r k' Tk R|k r k' v vs l Tk R Y IH]; intros i us S; apply Go with (vs := us); auto; clear i us S; intros i S.
    - enough (E : exists it', snext dbg c {| si_intervals := iter_of k; si_current := i |} = Ok (None, it')) by (destruct E as [it' E]; econstructor; exact E).
      rewrite snext_eq, (still_nil c i S). cbn [bind].
      destruct (call_gives dbg c k) as [N'|r k' Tk|N' P]; [|now apply side_takes_some in Tk|contradiction]. eexists. reflexivity.
    - enough (E : exists it', snext dbg c {| si_intervals := iter_of k; si_current := i |} = Ok (None, it')) by (destruct E as [it' E]; econstructor; exact E).
      rewrite snext_eq, (still_nil c i S). cbn [bind].
      destruct (call_gives dbg c k) as [N'|r' k2 Tk'|N' P]; [now apply side_takes_some in Tk| |now apply P in Tk].
      destruct (side_takes_det _ _ _ _ _ _ _ Tk Tk') as [<- <-]. cbn [bind].
      destruct (read_step c r [] (side_takes_wf _ _ _ _ _ Tk) R) as [-> _]. eexists. reflexivity.
    - destruct (read_step c r (v :: vs) (side_takes_wf _ _ _ _ _ Tk) R) as (i' & E & S').
      econstructor; [|exact (IH i' vs S')]. rewrite snext_eq, (still_nil c i S). cbn [bind].
      destruct (call_gives dbg c k) as [N'|r' k2 Tk'|N' P]; [now apply side_takes_some in Tk| |now apply P in Tk].
      destruct (side_takes_det _ _ _ _ _ _ _ Tk Tk') as [<- <-]. cbn [bind]. now rewrite E.
  Qed.

  Lemma drains_yields dbg c l : forall k i vs, still c i vs ->
    drains (snext dbg c) {| si_intervals := iter_of k; si_current := i |} l -> exists l', l = vs ++ l' /\ yields dbg c k l'.
  Proof.
    induction l as [|x l IH]; intros k i vs S D.
    - inversion D as [? it' E|]; subst. rewrite snext_eq in E. destruct vs as [|v vs].
      + exists []. split; auto. rewrite (still_nil c i S) in E. cbn [bind] in E.
        destruct (call_gives dbg c k) as [N|r k' Tk|N P]; cbn [bind] in E; [now constructor| |discriminate].
        destruct (read_some c r (side_takes_wf _ _ _ _ _ Tk)) as [[|w ws] R]; [now apply (yields_stop _ _ _ r k')|].
        destruct (read_step c r _ (side_takes_wf _ _ _ _ _ Tk) R) as (i' & E' & _). rewrite E' in E. discriminate.
      + destruct (still_cons c i v vs S) as (i' & E' & _). rewrite E' in E. discriminate.
    - inversion D as [|? it' ? ? E D']; subst. rewrite snext_eq in E. destruct vs as [|v vs].
      + rewrite (still_nil c i S) in E. cbn [bind] in E. exists (x :: l). split; auto.
        destruct (call_gives dbg c k) as [N|r k' Tk|N P]; cbn [bind] in E; try discriminate.
        destruct (read_some c r (side_takes_wf _ _ _ _ _ Tk)) as [[|w ws] R].
        { destruct (read_step c r _ (side_takes_wf _ _ _ _ _ Tk) R) as [E' _]. rewrite E' in E. discriminate. }
        destruct (read_step c r _ (side_takes_wf _ _ _ _ _ Tk) R) as (i' & E' & S'). rewrite E' in E. cbn [bind] in E. injection E as -> <-.
        destruct (IH k' i' ws S' D') as (l' & -> & Y). econstructor; eauto.
      + destruct (still_cons c i v vs S) as (i' & E' & S'). rewrite E' in E. cbn [bind] in E. injection E as -> <-.
        destruct (IH k i' vs S' D') as (l' & -> & Y). exists l'. auto.
  Qed.

  (** For every sequence of tines, from either end and in both kinds of build: the values [iter()] gives until it first gives none are
      those [yields] says. *)
  Theorem C115_values_exact dbg (s : Selection T) l :
    (drains (sel_next dbg) (sel_iter s) l <-> yields dbg Front (None, s) l) /\
    (drains (sel_next_back dbg) (sel_iter s) l <-> yields dbg Back (None, s) l).
  Proof.
    assert (G : forall c, drains (snext dbg c) (sel_iter s) l <-> yields dbg c (None, s) l).
    { intros c. change (sel_iter s) with {| si_intervals := iter_of (None, s); si_current := @interval_empty T |}. split; intros H.
      - destruct (drains_yields dbg c l (None, s) _ [] (still_empty c) H) as (l' & -> & Y). exact Y.
      - exact (yields_drains dbg c _ l H _ [] (still_empty c)). }
    split; [apply (G Front)|apply (G Back)].
  Qed.

  Lemma breaks_panics dbg c k l : breaks dbg c k l -> forall i vs, still c i vs ->
    panics_after (snext dbg c) {| si_intervals := iter_of k; si_current := i |} (vs ++ l).
  Proof.
    assert (Go : forall k l, (forall i, still c i [] -> panics_after (snext dbg c) {| si_intervals := iter_of k; si_current := i |} l) ->
      forall vs i, still c i vs -> panics_after (snext dbg c) {| si_intervals := iter_of k; si_current := i |} (vs ++ l)).
    { clear. intros k l H vs. induction vs as [|v vs IH]; intros i S; [now apply H|]. cbn [app].
      destruct (still_cons c i v vs S) as (i' & E & S'). econstructor; [|now apply (IH i')]. rewrite snext_eq, E. reflexivity. }
    intros Y. induction Y as [k N P|k r k' v vs l Tk R Y IH]; intros i us S; apply Go with (vs := us); auto; clear i us S; intros i S.
    - constructor. rewrite snext_eq, (still_nil c i S). cbn [bind].
      destruct (call_gives dbg c k) as [N'|r k' Tk|N' P']; [contradiction|now apply P in Tk|]. reflexivity.
    - destruct (read_step c r (v :: vs) (side_takes_wf _ _ _ _ _ Tk) R) as (i' & E & S').
      econstructor; [|exact (IH i' vs S')]. rewrite snext_eq, (still_nil c i S). cbn [bind].
      destruct (call_gives dbg c k) as [N'|r' k2 Tk'|N' P]; [now apply side_takes_some in Tk| |now apply P in Tk].
      destruct (side_takes_det _ _ _ _ _ _ _ Tk Tk') as [<- <-]. cbn [bind]. now rewrite E.
  Qed.
  Lemma panics_breaks dbg c l : forall k i vs, still c i vs ->
    panics_after (snext dbg c) {| si_intervals := iter_of k; si_current := i |} l -> exists l', l = vs ++ l' /\ breaks dbg c k l'.
  Proof.
    induction l as [|x l IH]; intros k i vs S D.
    - inversion D as [? E|]; subst. rewrite snext_eq in E. destruct vs as [|v vs].
      + exists []. split; auto. rewrite (still_nil c i S) in E. cbn [bind] in E.
        destruct (call_gives dbg c k) as [N|r k' Tk|N P]; cbn [bind] in E; [discriminate| |now constructor].
        destruct (read_some c r (side_takes_wf _ _ _ _ _ Tk)) as [[|w ws] R].
        * destruct (read_step c r _ (side_takes_wf _ _ _ _ _ Tk) R) as [E' _]. rewrite E' in E. discriminate.
        * destruct (read_step c r _ (side_takes_wf _ _ _ _ _ Tk) R) as (i' & E' & _). rewrite E' in E. discriminate.
      + destruct (still_cons c i v vs S) as (i' & E' & _). rewrite E' in E. discriminate.
    - inversion D as [|? it' ? ? E D']; subst. rewrite snext_eq in E. destruct vs as [|v vs].
      + rewrite (still_nil c i S) in E. cbn [bind] in E. exists (x :: l). split; auto.
        destruct (call_gives dbg c k) as [N|r k' Tk|N P]; cbn [bind] in E; try discriminate.
        destruct (read_some c r (side_takes_wf _ _ _ _ _ Tk)) as [[|w ws] R].
        { destruct (read_step c r _ (side_takes_wf _ _ _ _ _ Tk) R) as [E' _]. rewrite E' in E. discriminate. }
        destruct (read_step c r _ (side_takes_wf _ _ _ _ _ Tk) R) as (i' & E' & S'). rewrite E' in E. cbn [bind] in E. injection E as -> <-.
        destruct (IH k' i' ws S' D') as (l' & -> & Y). econstructor; eauto.
      + destruct (still_cons c i v vs S) as (i' & E' & S'). rewrite E' in E. cbn [bind] in E. injection E as -> <-.
        destruct (IH k i' vs S' D') as (l' & -> & Y). exists l'. auto.
  Qed.

  Lemma side_takes_less dbg c k r k' : side_takes dbg c k r k' -> length (from_front k') < length (from_front k).
  Proof.
    destruct 1 as [p s|k o t s E|k o x s E|h p s|h s t u|h s x u|x u]; try rewrite E; unfold from_front; cbn [fst snd length]; try lia;
      destruct h as [y|]; cbn [length]; rewrite ?app_length; cbn [length]; lia.
  Qed.
  Lemma yields_or_breaks dbg c k : (exists l, yields dbg c k l) \/ exists l, breaks dbg c k l.
  Proof.
    remember (length (from_front k)) as n eqn:En. assert (Hn : length (from_front k) <= n) by lia. clear En. revert k Hn.
    induction n as [|n IH]; intros k Hn; destruct (call_gives dbg c k) as [N|r k' Tk|N P];
      try (left; exists []; now constructor); try (right; exists []; now constructor); pose proof (side_takes_less _ _ _ _ _ Tk); [lia|].
    destruct (read_some c r (side_takes_wf _ _ _ _ _ Tk)) as [[|v vs] R]; [left; exists []; now apply (yields_stop _ _ _ r k')|].
    destruct (IH k') as [[l Y]|[l Y]]; [lia| |]; [left|right]; exists (v :: vs ++ l); econstructor; eauto.
  Qed.

  (** It panics exactly where [breaks] says, after exactly those values; and if it does not panic, it ends. *)
  Theorem C115_values_panic dbg (s : Selection T) :
    (forall l, panics_after (sel_next dbg) (sel_iter s) l <-> breaks dbg Front (None, s) l) /\
    (forall l, panics_after (sel_next_back dbg) (sel_iter s) l <-> breaks dbg Back (None, s) l) /\
    ((exists l, drains (sel_next dbg) (sel_iter s) l) \/ exists l, panics_after (sel_next dbg) (sel_iter s) l) /\
    ((exists l, drains (sel_next_back dbg) (sel_iter s) l) \/ exists l, panics_after (sel_next_back dbg) (sel_iter s) l).
  Proof.
    assert (G : forall c l, panics_after (snext dbg c) (sel_iter s) l <-> breaks dbg c (None, s) l).
    { intros c l. change (sel_iter s) with {| si_intervals := iter_of (None, s); si_current := @interval_empty T |}. split; intros H.
      - destruct (panics_breaks dbg c l (None, s) _ [] (still_empty c) H) as (l' & -> & Y). exact Y.
      - exact (breaks_panics dbg c _ l H _ [] (still_empty c)). }
    split; [apply (G Front)|]. split; [apply (G Back)|]. split.
    - destruct (yields_or_breaks dbg Front (None, s)) as [[l Y]|[l Y]]; [left|right]; exists l; [now apply C115_values_exact|now apply (G Front)].
    - destruct (yields_or_breaks dbg Back (None, s)) as [[l Y]|[l Y]]; [left|right]; exists l; [now apply C115_values_exact|now apply (G Back)].
  Qed.

  (** [lower_bound()] is the first value [iter()] gives, [upper_bound()] the first from the back, and each panics exactly if that call does. *)
  Theorem C115_bounds_exact dbg (s : Selection T) :
    (forall b, sel_lower_bound dbg s = Ok (Some b) <->
       exists v l, b = Include v /\ (drains (sel_next dbg) (sel_iter s) (v :: l) \/ panics_after (sel_next dbg) (sel_iter s) (v :: l))) /\
    (sel_lower_bound dbg s = Ok None <-> drains (sel_next dbg) (sel_iter s) []) /\
    (sel_lower_bound dbg s = Panic <-> panics_after (sel_next dbg) (sel_iter s) []) /\
    (forall b, sel_upper_bound dbg s = Ok (Some b) <->
       exists v l, b = Include v /\ (drains (sel_next_back dbg) (sel_iter s) (v :: l) \/ panics_after (sel_next_back dbg) (sel_iter s) (v :: l))) /\
    (sel_upper_bound dbg s = Ok None <-> drains (sel_next_back dbg) (sel_iter s) []) /\
    (sel_upper_bound dbg s = Panic <-> panics_after (sel_next_back dbg) (sel_iter s) []).
  Proof.
    assert (Shape : forall r, raw_lower_bound (normalized r) = None /\ raw_upper_bound (normalized r) = None \/
      exists l u, raw_lower_bound (normalized r) = Some (Include l) /\ raw_upper_bound (normalized r) = Some (Include u)).
    { intros r. destruct r as [|p|a b|a b|a b|a b|b|a|b|a|]; cbn;
        repeat match goal with |- context [succ ?x] => destruct (succ x) | |- context [pred ?x] => destruct (pred x) end; cbn; eauto 6. }
    assert (G : forall (S : Type) (next : S -> res (option T * S)) it (q : res (option (Bound T))),
      (exists it' v, next it = Ok (Some v, it') /\ q = Ok (Some (Include v)) /\ ((exists l, drains next it (v :: l)) \/ exists l, panics_after next it (v :: l))) \/
      (exists it', next it = Ok (None, it') /\ q = Ok None) \/ next it = Panic /\ q = Panic ->
      (forall b, q = Ok (Some b) <-> exists v l, b = Include v /\ (drains next it (v :: l) \/ panics_after next it (v :: l))) /\
      (q = Ok None <-> drains next it []) /\ (q = Panic <-> panics_after next it [])).
    { clear. intros S next it q [(it' & v & E & -> & Ex)|[(it' & E & ->)|[E ->]]].
      - split; [|split; (split; [discriminate|intros H; inversion H; congruence])]. intros b. split.
        + intros [= <-]. destruct Ex as [[l D]|[l D]]; exists v, l; auto.
        + intros (w & l & -> & [D|D]); inversion D; congruence.
      - split; [|split; (split; [try discriminate|try reflexivity])].
        + intros b. split; [discriminate|]. intros (w & l & _ & [D|D]); inversion D; congruence.
        + intros _. econstructor. eassumption.
        + intros H; inversion H; congruence.
      - split; [|split; (split; [try discriminate|try reflexivity])].
        + intros b. split; [discriminate|]. intros (w & l & _ & [D|D]); inversion D; congruence.
        + intros H; inversion H; congruence.
        + intros _. now constructor. }
    assert (K : forall (S : Type) (next : S -> res (option T * S)) it it' v, next it = Ok (Some v, it') ->
      ((exists l, drains next it l) \/ exists l, panics_after next it l) ->
      (exists l, drains next it (v :: l)) \/ exists l, panics_after next it (v :: l)).
    { clear. intros S next it it' v E [[l D]|[l D]]; [left|right]; inversion D; subst; try congruence; rewrite E in *;
        match goal with H : Ok _ = Ok _ |- _ => injection H as -> ->; eauto end. }
    destruct (C115_values_panic dbg s) as (_ & _ & Df & Db).
    match goal with |- ?a /\ ?b /\ ?c /\ ?d /\ ?e /\ ?f => enough ((a /\ b /\ c) /\ (d /\ e /\ f)) by tauto end.
    split; apply G.
    - unfold sel_lower_bound, sel_interval_next, sel_interval_iter.
      assert (E : sel_next dbg (sel_iter s) = do (y, its) <- iter_next dbg (tree_interval_iter s);
        match y with
        | None => Ok (None, {| si_intervals := its; si_current := interval_empty |})
        | Some r => do (x', cur') <- interval_next (nrm r); Ok (x', {| si_intervals := its; si_current := cur' |})
        end) by reflexivity.
      destruct (iter_next dbg (tree_interval_iter s)) as [[[r|] its]|]; cbn [bind option_map] in *; [|right; left; eauto|auto].
      fold (nrm r). unfold interval_next, interval_lower_bound in *. rewrite nrm_raw in *.
      destruct (Shape r) as [[L _]|(a & b & L & _)]; rewrite L in *; [right; left; eauto|].
      left. do 2 eexists. split; [exact E|]. split; [reflexivity|]. now apply (K _ _ _ _ _ E).
    - unfold sel_upper_bound, sel_interval_next_back, sel_interval_iter.
      assert (E : sel_next_back dbg (sel_iter s) = do (y, its) <- iter_next_back dbg (tree_interval_iter s);
        match y with
        | None => Ok (None, {| si_intervals := its; si_current := interval_empty |})
        | Some r => do (x', cur') <- interval_next_back (nrm r); Ok (x', {| si_intervals := its; si_current := cur' |})
        end) by reflexivity.
      destruct (iter_next_back dbg (tree_interval_iter s)) as [[[r|] its]|]; cbn [bind option_map] in *; [|right; left; eauto|auto].
      fold (nrm r). unfold interval_next_back, interval_upper_bound in *. rewrite nrm_raw in *.
      destruct (Shape r) as [[_ L]|(a & b & _ & L)]; rewrite L in *; [right; left; eauto|].
      left. do 2 eexists. split; [exact E|]. split; [reflexivity|]. now apply (K _ _ _ _ _ E).
  Qed.
End Take3.
Print Assumptions C115_values_exact.
Print Assumptions C115_values_panic.
Print Assumptions C115_bounds_exact.

(** The neighbours (4, 5) hold nothing, but from the front 5 is given for them and from the back 4.
    Two lower ends out of order are read, without debug assertions, as an empty interval, where reading ends although 9 is still to come. *)
Local Open Scope Z_scope.
Local Notation v z := (int_of_Z z : i8).
Example C115_values_ex :
  let s : Selection i8 := [TLower (Exclude (v 4)); TUpper (Exclude (v 5)); TLower (Include (v 7)); TUpper (Include (v 8))] in
  let q : Selection i8 := [TPoint (Include (v 1)); TLower (Include (v 7)); TLower (Include (v 3)); TPoint (Include (v 9))] in
  yields true Front (None, s) [v 5; v 7; v 8] /\ yields true Back (None, s) [v 8; v 7; v 4] /\
  sel_contains true s (v 5) = Ok false /\
  yields false Front (None, q) [v 1] /\ breaks true Front (None, q) [v 1] /\ sel_contains false q (v 9) = Ok true /\
  sel_lower_bound true s = Ok (Some (Include (v 5))) /\ sel_upper_bound true s = Ok (Some (Include (v 8))) /\
  sel_lower_bound true (tl q) = Panic /\ sel_lower_bound false (tl q) = Ok None.
Proof.
  cbv zeta. split; [|split; [|split; [reflexivity|split; [|split; [|repeat split; reflexivity]]]]].
  - apply C115_values_exact. repeat (econstructor; [reflexivity|]). econstructor. reflexivity.
  - apply C115_values_exact. repeat (econstructor; [reflexivity|]). econstructor. reflexivity.
  - apply C115_values_exact. repeat (econstructor; [reflexivity|]). econstructor. reflexivity.
  - apply C115_values_panic. econstructor; [reflexivity|]. econstructor. reflexivity.
Qed.

(** * Iteration from both ends for every program (C107, C108)

    Intersections can leave intervals without values in a Selection, such as
    (1, 2) over the integers.  Read from the front such an interval yields its
    lower bound, read from the back its upper bound (C23, C79).  This file
    says what comes out of a Selection when there may be such intervals. *)
From Coq Require Import List Bool ZArith Lia Sorted Permutation.
From Verif Require Import Base OrdFacts Pos PFinite Ints MBound MRaw MNormalize MTine MBTree MTineTree MInterval MSelection MFault
  Spec Spec_Tree Spec_Sel Spec_Fault PRaw PRaw2 PNorm PIter PInterval PBTree PTree PTreeOps PTreeIsect PTree2 PTree3 PTree4 PTree5 PTree6 PTree7
  PSel PSel2 PSel3 PSel4 PSel5 Instances Properties_Interval Properties_Tree Properties_Tree2 Properties_Selection Properties_Selection4 PBoth Properties_Both
  Properties_Fused Properties_Exact Properties_Ends Properties_Ends2 Properties_Fault Properties_Fault2.
Import ListNotations.
Local Arguments cmp : simpl never.

(** [x] is a bound of an interval of [li] that has no values. *)
Definition hollow_bound {T} {O : Cmp T} {F : FiniteOps T} (li : list (Interval T)) (x : T) : Prop :=
  exists j, In j li /\ (forall y, ~ ipoints j y) /\
    (interval_lower_bound j = Some (Include x) \/ interval_upper_bound j = Some (Include x)).

Section Ends.
  Context {T : Type} {O : Ord T} {F : Finite T}.
  Implicit Types (g : stepper T) (s : Selection T).

  (** A bound of a pointless piece. *)
  Definition bound_of s (x : T) : Prop := exists r y, In r (pieces None s) /\ pointless r y /\ (x = y \/ pred y = Some x).

  Lemma bound_of_hollow s x : bound_of s x -> hollow_bound (map nrm (pieces None s)) x.
  Proof.
    intros (r & y & Hr & Py & K). exists (nrm r). split; [now apply in_map|]. split.
    - intros z Hz. apply (proj1 (nrm_points r z)) in Hz. rewrite (pointless_empty r y z Py) in Hz. discriminate.
    - destruct (pointless_norm r y Py) as (a & Ea & N). unfold interval_lower_bound, interval_upper_bound. rewrite nrm_raw, N. simpl.
      destruct K as [->|K]; [now left|right]. rewrite Ea in K. now injection K as ->.
  Qed.

  (** Such a bound is not a member. *)
  Lemma bound_no_member s x : wf s -> bound_of s x -> ~ inS s x.
  Proof.
    intros W (r & y & Hr & (a & -> & Ea) & K) Hx. unfold inS in Hx. rewrite <- pieces_den, lcovers_ex in Hx by auto. destruct Hx as (r' & Hr' & Hx).
    rewrite covers_At in Hx.
    assert (X : x = a \/ x = y) by (destruct K as [->|K]; [now right|left; clear - K Ea F; forder]).
    pose proof (piece_wf s r' Hr') as W'.
    assert (P : separated (Open a y) r' \/ separated r' (Open a y) \/ r' = Open a y).
    { pose proof (pieces_sorted s W) as S. clear - S Hr Hr'. induction S as [|k l S IH Fk]; [destruct Hr|]. rewrite Forall_forall in Fk.
      destruct Hr as [->|Hr], Hr' as [<-|Hr']; auto. }
    destruct P as [P|[P|P]]; [| |rewrite P in Hx; simpl in Hx; clear - Hx Ea F; forder].
    - rewrite <- covers_At in Hx. unfold separated in P. simpl in P. destruct (raw_lower_bound r') as [lb|] eqn:EL; [|destruct r'; discriminate].
      destruct (raw_upper_bound r') as [ub|] eqn:EU; [|destruct r'; discriminate].
      apply (covers_bounds _ _ lb ub EL EU) in Hx as [H1 _]. destruct lb as [b|b|]; simpl in *; try contradiction; destruct X as [->| ->]; revert H1 P Ea; clear - F; intros; try (assert (lt a y) by forder); po.
    - rewrite <- covers_At in Hx. unfold separated in P. simpl in P. destruct (raw_lower_bound r') as [lb|] eqn:EL; [|destruct r'; discriminate].
      destruct (raw_upper_bound r') as [ub|] eqn:EU; [|destruct r'; discriminate].
      apply (covers_bounds _ _ lb ub EL EU) in Hx as [_ H1]. destruct ub as [b|b|]; simpl in *; try contradiction; destruct X as [->| ->]; revert H1 P Ea; clear - F; intros; try (assert (lt a y) by forder); po.
  Qed.

  (** The current interval is what is left of one that has come out, or one
      without values. *)
  Definition rests_at s (it : SelIter T) : Prop :=
    stands s (si_intervals it) /\
    ((exists lc, irep (si_current it) lc /\
      (lc = [] \/ exists r u, In r (pieces None s) /\ In u s /\ ~ In u (tine_iter (si_intervals it)) /\ ends_at r u /\
        forall x, In x lc -> raw_contains r x = true)) \/
     exists r y, In r (pieces None s) /\ pointless r y /\ si_current it = nrm r).

  Lemma inext_hollow c r y : pointless r y -> exists x, inext c (nrm r) = Ok (Some x, interval_empty) /\ (x = y \/ pred y = Some x).
  Proof.
    intros P. destruct c; simpl; [exists y; split; auto; now apply pointless_next|]. destruct (pointless_back r y P) as (a & E & K). eauto.
  Qed.
  Lemma hollow_points r y x : pointless r y -> ~ ipoints (nrm r) x.
  Proof. intros P H. apply (proj1 (nrm_points r x)) in H. rewrite (pointless_empty r y x P) in H. discriminate. Qed.

  (** Every piece can be read, or has no values. *)
  Lemma piece_read s r : wf s -> edge (den false s) -> In r (pieces None s) ->
    (exists l, irep (nrm r) l /\ forall y, In y l -> raw_contains r y = true) \/ exists y, pointless r y.
  Proof.
    intros W Ed Hr. destruct (gchunk_of s r W Ed Hr) as (l & [[R _]|(y & P & _)]); [left|eauto].
    exists l. split; auto. intros y Hy. destruct R as [_ [_ L]]. apply L in Hy. now apply (proj1 (nrm_points _ _)).
  Qed.

  Lemma put_ends c x (m l : list T) : l = put c x m -> l = x :: m \/ l = m ++ [x].
  Proof. destruct c; auto. Qed.

  Lemma rests_fault s it c g a : wf s -> edge (den false s) -> rests_at s it -> faithful g -> fault_of true c g it = Ok a ->
    match a with
    | Gave o it' => rests_at s it' /\ (forall y, to_come s it' y -> to_come s it y) /\
        match o with Some x => (to_come s it x /\ ~ to_come s it' x) \/ bound_of s x | None => True end
    | Failed it' => rests_at s it' /\ forall y, to_come s it' y -> to_come s it y
    end.
  Proof.
    intros W Ed (St & Cl) Hg Ef. destruct it as [its cur]. cbn [si_intervals si_current] in *.
    assert (St0 : rests_at s {| si_intervals := its; si_current := cur |}) by (split; auto).
    destruct Cl as [(lc & Rc & Cl)|(r0 & y0 & Ir0 & P0 & ->)].
    - destruct (inext_rep c cur lc Rc) as [[-> E]|(x & m & cur1 & El & E & R1)]; destruct (fault_cases true c g its cur _ _ Hg E) as [K|K].
      + rewrite K in Ef. injection Ef as <-. auto.
      + destruct (tnext true c its) as [[[r|] its1]|] eqn:Et; [| |rewrite K in Ef; discriminate].
        * assert (Y : stands s its1 /\ proper_yield s its (Some r) its1) by (destruct c; [now apply stands_next|now apply stands_back]).
          destruct Y as [St1 [Inc Y]].
          assert (RE : rests_at s {| si_intervals := its1; si_current := interval_empty |}).
          { split; [exact St1|left]. exists []. split; [apply irep_empty|auto]. }
          destruct Y as [->|(Ir & u & Iu & Nu & Eu)].
          -- assert (TC : forall y, to_come s {| si_intervals := its1; si_current := interval_empty |} y -> to_come s {| si_intervals := its; si_current := cur |} y).
             { apply still_to_come; [exact Inc|]. intros y Hy. discriminate. }
             destruct K as [K|[K|(x & cur2 & E2 & K)]]; rewrite K in Ef; injection Ef as <-.
             ++ split; [split; [exact St1|left; exists []; auto]|]. now apply still_to_come.
             ++ split; [exact RE|exact TC].
             ++ assert (E3 : inext c (nrm Empty) = Ok (None, nrm Empty)) by (destruct c; reflexivity). unfold nrm in E3. rewrite E2 in E3. injection E3 as -> ->.
                split; [exact RE|]. split; [exact TC|exact I].
          -- assert (Nr : forall y, raw_contains r y = true -> to_come s {| si_intervals := its; si_current := cur |} y) by (intros y Hy; right; exists r, u; auto).
             destruct (piece_read s r W Ed Ir) as [(l & Rl & Hl)|(y & Py)].
             ++ assert (Fr : rests_at s {| si_intervals := its1; si_current := nrm r |}).
                { split; [exact St1|left]. exists l. split; [exact Rl|]. right. exists r, u. pose proof (stands_in s its St u Iu). auto 8. }
                assert (TC : forall y, to_come s {| si_intervals := its1; si_current := nrm r |} y -> to_come s {| si_intervals := its; si_current := cur |} y).
                { intros y [Ky|(r' & u' & Ir' & Iu' & Ky)]; [apply Nr; now apply (proj1 (nrm_points _ _))|]. right. exists r', u'. simpl in *. auto. }
                destruct K as [K|[K|(x & cur2 & E2 & K)]]; rewrite K in Ef; injection Ef as <-.
                ** split; [split; [exact St1|left; exists []; auto]|]. now apply still_to_come.
                ** split; [exact Fr|exact TC].
                ** destruct (inext_rep c (nrm r) l Rl) as [[-> E3]|(x3 & m & cur3 & El & E3 & R3)]; unfold nrm in E3; rewrite E2 in E3; injection E3 as -> ->.
                   --- split; [exact Fr|]. split; [exact TC|exact I].
                   --- destruct (take_one s its its1 (nrm r) cur3 r u x3 l m) as (K1 & K2 & K3 & K4); auto; [exact (put_ends c _ _ _ El)|now apply (stands_in s its)|].
                       split; [|split].
                       +++ destruct K1 as (Sa & lc' & Rc' & Cl'). split; [exact Sa|left; eauto].
                       +++ intros y [Ky|(r' & u' & Ir' & Iu' & Ky)]; [apply Nr; apply (proj1 (nrm_points _ _)); now apply K3|right; exists r', u'; simpl in *; auto].
                       +++ left. split; [|exact K2]. apply Nr. now apply (proj1 (nrm_points _ _)).
             ++ assert (TC : forall y, to_come s {| si_intervals := its1; si_current := interval_empty |} y -> to_come s {| si_intervals := its; si_current := cur |} y).
                { apply still_to_come; [exact Inc|]. intros z Hz. discriminate. }
                destruct K as [K|[K|(x & cur2 & E2 & K)]]; rewrite K in Ef; injection Ef as <-.
                ** split; [split; [exact St1|left; exists []; auto]|]. now apply still_to_come.
                ** split; [split; [exact St1|right; exists r, y; auto]|].
                   intros z [Kz|Kz]; [now apply (hollow_points r y z Py) in Kz|]. apply TC. right. exact Kz.
                ** destruct (inext_hollow c r y Py) as (x3 & E3 & Bx). unfold nrm in E3. rewrite E2 in E3. injection E3 as -> ->.
                   split; [exact RE|]. split; [exact TC|]. right. exists r, y. auto.
        * assert (Y : stands s its1 /\ proper_yield s its None its1) by (destruct c; [now apply stands_next|now apply stands_back]).
          destruct Y as [St1 [Inc _]]. rewrite K in Ef. injection Ef as <-.
          split; [split; [exact St1|left; exists []; auto]|]. split; [|exact I]. now apply still_to_come.
      + rewrite K in Ef. injection Ef as <-. auto.
      + rewrite K in Ef. injection Ef as <-. destruct Cl as [->|(r & u & Ir & Iu & Nu & Eu & Hr)]; [destruct c; [discriminate|destruct m; discriminate]|].
        destruct (take_one s its its cur cur1 r u x lc m) as (K1 & K2 & K3 & K4); auto; [exact (put_ends c _ _ _ El)|].
        split; [|split; [|left; split; [now left|exact K2]]].
        * destruct K1 as (Sa & lc' & Rc' & Cl'). split; [exact Sa|left; eauto].
        * apply still_to_come; [apply incl_refl|exact K3].
    - destruct (inext_hollow c r0 y0 P0) as (x & E & Bx). destruct (fault_cases true c g its _ _ _ Hg E) as [K|K]; rewrite K in Ef; injection Ef as <-; [auto|].
      split; [split; [exact St|left; exists []; split; [apply irep_empty|auto]]|]. split; [|right; exists r0, y0; auto].
      apply still_to_come; [apply incl_refl|]. intros z Hz. discriminate.
  Qed.

  Lemma rests_member s it x : wf s -> rests_at s it -> to_come s it x -> inS s x.
  Proof.
    intros W (St & Cl) K.
    assert (Q : exists r, In r (pieces None s) /\ raw_contains r x = true).
    { destruct K as [K|(r & u & Ir & _ & _ & K)]; [|eauto]. destruct Cl as [(lc & [_ [_ Lc]] & Cl)|(r & y & Ir & P & Ec)].
      - apply Lc in K. destruct Cl as [->|(r & u & Ir & _ & _ & _ & Hr)]; [destruct K|eauto].
      - rewrite Ec in K. now apply (hollow_points r y x P) in K. }
    destruct Q as (r & Ir & Hx). unfold inS. rewrite <- pieces_den, lcovers_ex by auto. exists r. split; auto. now rewrite covers_At.
  Qed.

  Lemma rests_attempts s sched : wf s -> edge (den false s) -> forall it out, rests_at s it -> Forall (fun c => faithful (snd c)) sched ->
    attempts (sel_next_fault true) (sel_next_back_fault true) it sched out ->
    (forall x, In x (items (answers out)) -> to_come s it x \/ bound_of s x) /\
    (forall l1 x l2, items (answers out) = l1 ++ x :: l2 -> inS s x -> ~ In x l2).
  Proof.
    intros W Ed it out St Hs R. revert St Hs. induction R as [it|it it' d g o sched out En R IH|it it' d g sched out En R IH]; intros St Hs.
    - split; [intros x []|]. intros [|? l1] x l2 Q; discriminate Q.
    - inversion Hs as [|? ? Hg Hs']; subst. cbn [snd] in Hg.
      destruct (rests_fault s it d g (Gave o it') W Ed St Hg ltac:(destruct d; exact En)) as (St' & Inc & Y). destruct (IH St' Hs') as [H1 H2].
      destruct o as [x|]; cbn [answers items].
      + split.
        * intros y [<-|Hy]; [destruct Y as [[Y _]|Y]; auto|]. destruct (H1 y Hy); auto.
        * intros l1 y l2 Q Hy Iy. destruct l1 as [|z l1]; simpl in Q; injection Q as -> Q; [|now apply (H2 l1 y l2)].
          subst l2. destruct Y as [[_ Y]|Y]; [|now apply (bound_no_member s y W Y)]. destruct (H1 y Iy) as [K|K]; [contradiction|now apply (bound_no_member s y W K)].
      + split; [|exact H2]. intros y Hy. destruct (H1 y Hy); auto.
    - inversion Hs as [|? ? Hg Hs']; subst. cbn [snd] in Hg.
      destruct (rests_fault s it d g (Failed it') W Ed St Hg ltac:(destruct d; exact En)) as [St' Inc]. destruct (IH St' Hs') as [H1 H2].
      cbn [answers]. split; [|exact H2]. intros y Hy. destruct (H1 y Hy); auto.
  Qed.

  (** ** Every program, with panics of [pred] and [succ] *)
  (** With debug assertions, whatever calls are made at the two ends and
      whichever of them panic: a value that comes out is a member, or a bound of
      an interval without values; and no member comes out twice. *)
  Theorem C107_ends_all_partial dbg (p : prog T) s li sched out : inputs false p -> run dbg p = Ok s -> sel_intervals_are true s li ->
    Forall (fun c => faithful (snd c)) sched ->
    attempts (sel_next_fault true) (sel_next_back_fault true) (sel_iter s) sched out ->
    (forall x, In x (items (answers out)) -> member dbg s x \/ hollow_bound li x) /\
    (forall l1 x l2, items (answers out) = l1 ++ x :: l2 -> member dbg s x -> ~ In x l2).
  Proof.
    intros H E D Hs R. destruct (run_edged dbg p s H E) as [W Ed]. apply sel_intervals_pieces in D; auto. subst li.
    assert (St : rests_at s (sel_iter s)) by (split; [apply stands_start|left; exists []; split; [apply irep_empty|auto]]).
    destruct (rests_attempts s sched W Ed _ out St Hs R) as [H1 H2]. split.
    - intros x Hx. destruct (H1 x Hx) as [K|K]; [left; apply member_in; auto; now apply (rests_member s (sel_iter s))|right; now apply bound_of_hollow].
    - intros l1 x l2 Q Hx. apply (H2 l1 x l2 Q). now apply member_in in Hx.
  Qed.

  (** ** Every program *)
  Definition works : stepper T := {| fpred x := Ok (pred x); fsucc x := Ok (succ x) |}.
  Lemma works_sound : sound works.
  Proof. intros x. split; reflexivity. Qed.
  Lemma runs_attempts dbg it sched (out : list (option T)) : runs (sel_next dbg) (sel_next_back dbg) it sched out ->
    attempts (sel_next_fault dbg) (sel_next_back_fault dbg) it (map (fun c => (c, works)) sched) (map Some out).
  Proof.
    induction 1 as [|it it' o sched out E R IH|it it' o sched out E R IH]; simpl; [constructor| |].
    - eapply attempts_gave; [|exact IH].
      apply (C107_no_panic dbg works [] Empty interval_empty (si_intervals it) it works_sound). exact E.
    - eapply attempts_gave; [|exact IH]. apply (C107_no_panic_back dbg works it); [apply works_sound|exact E].
  Qed.
  Lemma answers_some (out : list (option T)) : items (answers (map Some out)) = somes out.
  Proof. induction out as [|[x|] out IH]; unfold somes in *; simpl; [reflexivity| |exact IH]. now rewrite IH. Qed.

  Theorem C108_values_all_partial dbg (p : prog T) s li sched out : inputs false p -> run dbg p = Ok s -> sel_intervals_are true s li ->
    runs (sel_next true) (sel_next_back true) (sel_iter s) sched out ->
    (forall x, In (Some x) out -> member dbg s x \/ hollow_bound li x) /\
    (forall l1 x l2, somes out = l1 ++ x :: l2 -> member dbg s x -> ~ In x l2).
  Proof.
    intros H E D R. apply runs_attempts in R.
    assert (Hf : Forall (fun c : side * stepper T => faithful (snd c)) (map (fun c => (c, works)) sched)).
    { apply Forall_forall. intros c Hc. apply in_map_iff in Hc. destruct Hc as (d & <- & _). intros x. simpl. auto. }
    destruct (C107_ends_all_partial dbg p s li _ _ H E D Hf R) as [H1 H2].
    rewrite answers_some in *. split; [|exact H2]. intros x Hx. apply H1. now apply in_somes.
  Qed.
End Ends.
Print Assumptions C107_ends_all_partial.
Print Assumptions C108_values_all_partial.

(** (1,2) and (2,3) without values, next to [5,6]: the value 2, no member, is
    the lower bound of the one and the upper bound of the other. *)
Definition ex_hollows : prog i8 :=
  P_union (P_union (P_intersect (P_points [v 1]) (P_points [v 2])) (P_intersect (P_points [v 2]) (P_points [v 3]))) (P_from (cl 5 6)).
Definition ends_hollows : list (side * stepper i8) := [(Front, g_ok); (Back, g_bad); (Back, g_ok); (Back, g_ok)].
Example C107_ex_all : exists s li out, inputs false ex_hollows /\ run true ex_hollows = Ok s /\ sel_intervals_are true s li /\
  li = [mkInterval (Closed (v 2) (v 1)); mkInterval (Closed (v 3) (v 2)); cl 5 6] /\
  Forall (fun c => faithful (snd c)) ends_hollows /\
  attempts (sel_next_fault true) (sel_next_back_fault true) (sel_iter s) ends_hollows out /\
  out = [Some (Some (v 2)); None; Some (Some (v 2)); Some None].
Proof.
  eexists _, _, _. split; [repeat split; constructor|]. split; [reflexivity|]. split; [drain|]. split; [reflexivity|].
  split; [repeat apply Forall_cons; try apply Forall_nil; first [exact g_bad_faithful|exact g_ok_faithful]|].
  split; [|reflexivity]. eapply attempts_gave; [reflexivity|]. eapply attempts_failed; [reflexivity|].
  do 2 (eapply attempts_gave; [reflexivity|]). constructor.
Qed.
Example C108_all_ex : exists s li out, inputs false ex_hollows /\ run true ex_hollows = Ok s /\ sel_intervals_are true s li /\
  runs (sel_next true) (sel_next_back true) (sel_iter s) [Back; Front; Front; Back; Back] out /\
  out = [Some (v 6); Some (v 5); Some (v 2); Some (v 2); None].
Proof.
  eexists _, _, _. split; [repeat split; constructor|]. split; [reflexivity|]. split; [drain|]. split; [|reflexivity].
  repeat (first [eapply runs_front|eapply runs_back]; [vm_compute; reflexivity|]). constructor.
Qed.

(** ** No more can be said: a value that is no member comes out twice *)
Theorem C108_hollow_twice_refuted : exists p : prog i8, inputs false p /\ exists s, run true p = Ok s /\
  exists sched out x, runs (sel_next true) (sel_next_back true) (sel_iter s) sched out /\
    out = [Some x; Some x] /\ sel_contains true s x = Ok false.
Proof.
  exists (P_union (P_intersect (P_points [v 1]) (P_points [v 2])) (P_intersect (P_points [v 2]) (P_points [v 3]))).
  split; [simpl; auto|]. eexists. split; [reflexivity|]. exists [Front; Back]. eexists _, (v 2).
  split; [|split; reflexivity]. repeat (first [eapply runs_front|eapply runs_back]; [vm_compute; reflexivity|]). constructor.
Qed.
Print Assumptions C108_hollow_twice_refuted.

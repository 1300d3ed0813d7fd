(** * What [interval_iter] and [contains] make of any list of tines: C115 *)
From Coq Require Import List Bool ZArith Lia.
From Verif Require Import Base MBound MRaw MNormalize MTine MBTree MTineTree MInterval MSelection
  Spec Spec_Tree Spec_Sel Spec_Take Instances.
Import ListNotations.
Local Open Scope list_scope.

Section Take.
  Context {T : Type} {O : Ord T}.
  Implicit Types (t : Tine T) (s q : list (Tine T)) (it : Iter T) (r : RawInterval T).

  (** The tines an iterator that has only moved forward has left. *)
  Inductive left_of : Iter T -> list (Tine T) -> Prop :=
  | left_fresh s : left_of {| tine_iter := s; saved_lower := None; saved_upper := None |} s
  | left_hole x s : left_of {| tine_iter := s; saved_lower := Some (TPoint (Exclude x)); saved_upper := None |} (TPoint (Exclude x) :: s).

  Lemma opens_bool t : opens t <-> is_lower_bound t = true.
  Proof.
    unfold opens, hole. destruct t as [b|[]|b]; cbn; split; try discriminate; eauto; intros [[? H]|[? H]]; discriminate.
  Qed.
  Lemma closes_bool t : closes t <-> is_upper_bound t = true.
  Proof.
    unfold closes, hole. destruct t as [b|[]|b]; cbn; split; try discriminate; eauto; intros [[? H]|[? H]]; discriminate.
  Qed.

  (** One call: what is taken and what is left, nothing, or a panic. *)
  Inductive answers (dbg : bool) q : res (option (RawInterval T) * Iter T) -> Prop :=
  | ans_none it' : q = [] -> left_of it' [] -> answers dbg q (Ok (None, it'))
  | ans_some r it' q' : takes dbg q r q' -> left_of it' q' -> length q' < length q -> answers dbg q (Ok (Some r, it'))
  | ans_panic : q <> [] -> (forall r q', ~ takes dbg q r q') -> answers dbg q Panic.

  Lemma two_answers dbg (o : Tine T) (ts : list (Tine T)) : ~ lone o ->
    answers dbg (o :: ts)
      (do _ <- debug_assert dbg (is_lower_bound o);
       let '(second, ts', su') :=
         match btree_first ts with
         | Some t => (Some t, btree_rest_front ts, None)
         | None => (None, ts, None)
         end in
       match second with
       | None => Panic
       | Some upper =>
           let sl' := if is_point_exclude upper then Some upper else None in
           do _ <- debug_assert dbg (is_upper_bound upper);
           Ok (Some (raw_new (tine_into_inner o) (tine_into_inner upper)), {| tine_iter := ts'; saved_lower := sl'; saved_upper := su' |})
       end).
  Proof.
    intros No.
    assert (Bo : debug_assert dbg (is_lower_bound o) = Ok tt /\ (dbg = true -> opens o) \/
      debug_assert dbg (is_lower_bound o) = Panic /\ dbg = true /\ ~ opens o).
    { rewrite opens_bool. destruct dbg, (is_lower_bound o); cbn; try (left; split; [reflexivity|intros; first [reflexivity|discriminate]]); right; repeat split; discriminate. }
    destruct Bo as [[-> Bo]|(-> & -> & Bo)]; cbn [bind].
    2: { apply ans_panic; [discriminate|]. intros r q' H. inversion H; subst; [apply No; eexists; reflexivity| |]; intuition. }
    destruct ts as [|t ts]; cbn [btree_first btree_rest_front].
    { apply ans_panic; [discriminate|]. intros r q' H. inversion H; subst. apply No. eexists; reflexivity. }
    assert (Bt : debug_assert dbg (is_upper_bound t) = Ok tt /\ (dbg = true -> closes t) \/
      debug_assert dbg (is_upper_bound t) = Panic /\ dbg = true /\ ~ closes t).
    { rewrite closes_bool. destruct dbg, (is_upper_bound t); cbn; try (left; split; [reflexivity|intros; first [reflexivity|discriminate]]); right; repeat split; discriminate. }
    destruct Bt as [[-> Bt]|(-> & -> & Bt)]; cbn [bind].
    2: { apply ans_panic; [discriminate|]. intros r q' H. inversion H; subst; [apply No; eexists; reflexivity|intuition|].
         apply Bt. right. eexists; reflexivity. }
    change tine_into_inner with (@bound_of T).
    destruct (is_point_exclude t) eqn:E.
    - destruct t as [|[x|x|]|]; try discriminate. apply (ans_some dbg _ _ _ (TPoint (Exclude x) :: ts)); [now constructor|constructor|cbn; lia].
    - apply (ans_some dbg _ _ _ ts); [|constructor|cbn; lia]. constructor; auto. intros [x ->]. discriminate.
  Qed.
  Lemma next_answers dbg it q : left_of it q -> answers dbg q (iter_next dbg it).
  Proof.
    intros H. inversion H; subst; clear H; unfold iter_next; cbn [saved_lower saved_upper tine_iter].
    - destruct q as [|t q]; [apply ans_none; [reflexivity|constructor]|]. cbn [btree_first btree_rest_front].
      assert (P : ~ lone t \/ exists p, t = TPoint (Include p)).
      { destruct t as [b|[p|p|]|b]; eauto; left; intros [? ?]; discriminate. }
      destruct P as [P|[p ->]]; [|apply (ans_some dbg _ _ _ q); [constructor|constructor|cbn; lia]].
      pose proof (two_answers dbg t q P) as A. destruct t as [b|[p|p|]|b]; try exact A. exfalso. apply P. eexists; reflexivity.
    - exact (two_answers dbg (TPoint (Exclude x)) s (fun H => match H with ex_intro _ p E => ltac:(discriminate E) end)).
  Qed.

  Lemma takes_det dbg q r q' r' q'' : takes dbg q r q' -> takes dbg q r' q'' -> r = r' /\ q' = q''.
  Proof.
    unfold lone, hole. intros H K. inversion H; subst; inversion K; subst; auto; exfalso; unfold lone, hole in *;
    match goal with N : ~ _ |- _ => apply N; eauto; fail end.
  Qed.
  Lemma left_size it q : left_of it q -> iter_size it = length q.
  Proof. intros H. inversion H; subst; unfold iter_size; cbn; lia. Qed.

  Lemma drains_took dbg q l : forall it, left_of it q -> (drains (iter_next dbg) it l <-> took dbg q l []).
  Proof.
    revert q. induction l as [|r l IH]; intros q it H; pose proof (next_answers dbg it q H) as A; split; intros K.
    - inversion K as [? it' E|]; subst. rewrite E in A. inversion A; subst. constructor.
    - inversion K; subst. inversion A as [it' ? ?| |]; subst; [econstructor; eauto| |congruence].
      match goal with X : takes _ [] _ _ |- _ => inversion X end.
    - inversion K as [|? it' ? ? E D]; subst. rewrite E in A. inversion A; subst. econstructor; [eassumption|]. now apply (IH q' it').
    - inversion K as [|? ? q' ? ? Tk Tl]; subst. inversion A as [it' E ?|r' it' q'' Tk' Lf _|N P]; subst.
      + inversion Tk.
      + destruct (takes_det _ _ _ _ _ _ Tk Tk') as [-> ->]. econstructor; [eauto|]. now apply (IH q'' it').
      + now apply P in Tk.
  Qed.

  (** Running the loop of [collect]: all, or a panic. *)
  Lemma collect_took dbg n : forall it q acc, left_of it q -> length q < n ->
    (exists l, took dbg q l [] /\ iter_fold_fuel n dbg (fun acc i => Ok (i :: acc)) it acc = Ok (rev l ++ acc)) \/
    ((forall l, ~ took dbg q l []) /\ iter_fold_fuel n dbg (fun acc i => Ok (i :: acc)) it acc = Panic).
  Proof.
    induction n as [|n IH]; intros it q acc H N; [lia|]. cbn [iter_fold_fuel].
    destruct (next_answers dbg it q H) as [it' -> Lf|r it' q' Tk Lf Sz|Ne P]; cbn [bind].
    - left. exists []. split; [constructor|reflexivity].
    - destruct (IH it' q' (r :: acc) Lf) as [(l & Tl & E)|[Nl E]]; [lia| |].
      + left. exists (r :: l). split; [econstructor; eauto|]. rewrite E. cbn. now rewrite <- app_assoc.
      + right. split; auto. intros l Tl. inversion Tl as [|? ? q'' ? ? Tk' Tl']; subst; [inversion Tk|].
        destruct (takes_det _ _ _ _ _ _ Tk Tk') as [-> ->]. now apply Nl in Tl'.
    - right. split; [|reflexivity]. intros l Tl. inversion Tl; subst; [congruence|]. now apply P in H0.
  Qed.

  (** The loop of [contains]. *)
  Lemma contains_took dbg x n : forall it q, left_of it q -> length q < n ->
    (exists l r q', took dbg q (l ++ [r]) q' /\ raw_contains r x = true /\ contains_fuel n dbg it x = Ok true) \/
    (exists l, took dbg q l [] /\ Forall (fun r => raw_contains r x = false) l /\ contains_fuel n dbg it x = Ok false) \/
    ((forall l, ~ took dbg q l []) /\ (forall l q', took dbg q l q' -> Forall (fun r => raw_contains r x = false) l) /\ contains_fuel n dbg it x = Panic).
  Proof.
    induction n as [|n IH]; intros it q H N; [lia|]. cbn [contains_fuel].
    destruct (next_answers dbg it q H) as [it' -> Lf|r it' q' Tk Lf Sz|Ne P]; cbn [bind].
    - right. left. exists []. repeat constructor.
    - destruct (raw_contains r x) eqn:E.
      { left. exists [], r, q'. split; [econstructor; [eauto|constructor]|auto]. }
      destruct (IH it' q' Lf) as [(l & r' & q'' & Tl & E' & Q)|[(l & Tl & F & Q)|(Nl & F & Q)]]; [lia| | |].
      + left. exists (r :: l), r', q''. split; [econstructor; eauto|auto].
      + right. left. exists (r :: l). split; [econstructor; eauto|auto].
      + right. right. split; [|split; [|exact Q]].
        * intros l Tl. inversion Tl as [|? ? q'' ? ? Tk' Tl']; subst; [inversion Tk|].
          destruct (takes_det _ _ _ _ _ _ Tk Tk') as [-> ->]. now apply Nl in Tl'.
        * intros l q3 Tl. inversion Tl as [|? ? q'' ? ? Tk' Tl']; subst; [constructor|].
          destruct (takes_det _ _ _ _ _ _ Tk Tk') as [-> ->]. constructor; eauto.
    - right. right. split; [|split; [|reflexivity]].
      + intros l Tl. inversion Tl; subst; [congruence|]. now apply P in H0.
      + intros l q3 Tl. inversion Tl; subst; [constructor|]. now apply P in H0.
  Qed.

  Lemma took_det dbg q l l' : took dbg q l [] -> took dbg q l' [] -> l = l'.
  Proof.
    intros H. revert l'. remember [] as e. induction H as [|q r q' l e Tk Tl IH]; intros l' K; subst.
    - inversion K as [|? ? ? ? ? X]; subst; [reflexivity|inversion X].
    - inversion K as [|? ? ? ? ? X]; subst; [inversion Tk|]. destruct (takes_det _ _ _ _ _ _ Tk X) as [<- <-]. f_equal. auto.
  Qed.
  Lemma took_meets dbg q l r l' : forall q', took dbg q (l ++ [r]) q' -> took dbg q l' [] -> In r l'.
  Proof.
    revert q l'. induction l as [|a l IH]; intros q l' q' H K; inversion H as [|? ? ? ? ? Tk Tl]; subst;
      (inversion K as [|? ? ? ? ? X Y]; subst; [inversion Tk|]); destruct (takes_det _ _ _ _ _ _ Tk X) as [<- <-]; [now left|right; eauto].
  Qed.
  Lemma took_last dbg q l q' r : took dbg q l q' -> In r l -> exists l1 q1, took dbg q (l1 ++ [r]) q1.
  Proof.
    induction 1 as [|q a q1 l q' Tk Tl IH]; [contradiction|]. intros [->|H].
    - exists [], q1. econstructor; [eauto|constructor].
    - destruct (IH H) as (l1 & q2 & K). exists (a :: l1), q2. econstructor; eauto.
  Qed.

  (** For every sequence of tines, in both kinds of build: reading it interval by interval gives what [took] says
      and panics exactly if tines are left from which nothing can be taken.  [contains(x)] is true exactly if some interval that can be
      taken contains [x], false exactly if all can be taken and none does, and panics otherwise. *)
  Theorem C115_iter_exact dbg s :
    (forall l, intervals_are dbg s l <-> took dbg s l []) /\
    (forall l, iter_collect dbg (tree_interval_iter s) = Ok l <-> took dbg s l []) /\
    (iter_collect dbg (tree_interval_iter s) = Panic <-> forall l, ~ took dbg s l []) /\
    (forall x, sel_contains dbg s x = Ok true <-> exists l s' r, took dbg s l s' /\ In r l /\ raw_contains r x = true) /\
    (forall x, sel_contains dbg s x = Ok false <-> exists l, took dbg s l [] /\ forall r, In r l -> raw_contains r x = false).
  Proof.
    assert (Lf : left_of (tree_interval_iter s) s) by constructor.
    split; [intros l; now apply drains_took|]. split; [|split; [|split]].
    - intros l. unfold iter_collect, iter_fold. rewrite (left_size _ _ Lf).
      destruct (collect_took dbg (S (length s)) (tree_interval_iter s) s [] Lf) as [(l' & Tl & ->)|[N ->]]; [lia| |]; cbn [bind].
      + rewrite app_nil_r, rev_involutive. split; [intros [= <-]; auto|]. intros K. f_equal. eapply took_det; eauto.
      + split; [discriminate|]. intros K. now apply N in K.
    - unfold iter_collect, iter_fold. rewrite (left_size _ _ Lf).
      destruct (collect_took dbg (S (length s)) (tree_interval_iter s) s [] Lf) as [(l' & Tl & ->)|[N ->]]; [lia| |]; cbn [bind].
      + split; [discriminate|]. intros K. now apply K in Tl.
      + split; auto.
    - intros x. unfold sel_contains, tree_contains. rewrite (left_size _ _ Lf).
      destruct (contains_took dbg x (S (length s)) (tree_interval_iter s) s Lf) as [(l & r & q' & Tl & E & ->)|[(l & Tl & F & ->)|(N & F & ->)]]; [lia| | |].
      + split; auto. intros _. exists (l ++ [r]), q', r. split; auto. split; auto. apply in_or_app. right. now left.
      + split; [discriminate|]. intros (l' & s' & r & Tl' & Hr & E). destruct (took_last _ _ _ _ _ Tl' Hr) as (l1 & q1 & K).
        rewrite Forall_forall in F. rewrite (F r) in E; [discriminate|]. eapply took_meets; eauto.
      + split; [discriminate|]. intros (l' & s' & r & Tl' & Hr & E). apply F in Tl'. rewrite Forall_forall in Tl'. rewrite (Tl' r Hr) in E. discriminate.
    - intros x. unfold sel_contains, tree_contains. rewrite (left_size _ _ Lf).
      destruct (contains_took dbg x (S (length s)) (tree_interval_iter s) s Lf) as [(l & r & q' & Tl & E & ->)|[(l & Tl & F & ->)|(N & F & ->)]]; [lia| | |].
      + split; [discriminate|]. intros (l' & Tl' & F). rewrite (F r) in E; [discriminate|]. eapply took_meets; eauto.
      + split; auto. intros _. exists l. split; auto. now apply Forall_forall.
      + split; [discriminate|]. intros (l' & Tl' & _). now apply N in Tl'.
  Qed.
End Take.
Print Assumptions C115_iter_exact.

(** The intervals of a Selection are these, normalized. *)
Section Selection.
  Context {T : Type} {O : Ord T} {F : Finite T}.
  Lemma sel_drains dbg (it : Iter T) l : drains (sel_interval_next dbg) it l <->
    exists l', drains (iter_next dbg) it l' /\ l = map (fun r => interval_from_raw (normalized r)) l'.
  Proof.
    split.
    - induction 1 as [it it' E|it it' a l E D (l' & D' & ->)]; unfold sel_interval_next in E; destruct (iter_next dbg it) as [[[r|] it2]|] eqn:Q;
        cbn in E; try discriminate; inversion E; subst.
      + exists []. split; [econstructor; eauto|reflexivity].
      + exists (r :: l'). split; [econstructor; eauto|reflexivity].
    - intros (l' & D & ->). induction D as [it it' E|it it' a l' E D IH]; cbn [map].
      + econstructor. unfold sel_interval_next. rewrite E. reflexivity.
      + econstructor; [|exact IH]. unfold sel_interval_next. rewrite E. reflexivity.
  Qed.
  Theorem C115_selection_iter dbg (s : Selection T) (l : list (Interval T)) :
    sel_intervals_are dbg s l <-> exists l', took dbg s l' [] /\ l = map (fun r => interval_from_raw (normalized r)) l'.
  Proof.
    unfold sel_intervals_are. rewrite sel_drains. setoid_rewrite (fun l => proj1 (C115_iter_exact dbg s) l). reflexivity.
  Qed.
End Selection.
Print Assumptions C115_selection_iter.

(** Two lower ends in sequence: without debug assertions they are the ends of one interval, and the
    lone upper end after them is one too many.  With the hole at 7 after them they read as two intervals. *)
Example C115_iter_ex :
  let s := [TLower (Include 2); TLower (Include 5); TUpper (Include 9)]%Z in
  let q := [TLower (Include 2); TLower (Include 5); TUpper (Include 6); TPoint (Exclude 7); TUpper (Include 9)]%Z in
  took false s [Closed 2 5]%Z [TUpper (Include 9)]%Z /\ (forall l, ~ took false s l []) /\ sel_contains false s 4%Z = Ok true /\ sel_contains false s 8%Z = Panic /\
  (forall l, ~ took true s l []) /\ sel_contains true s 4%Z = Panic /\
  took false q [Closed 2 5; RightOpen 6 7; LeftOpen 7 9]%Z [] /\
  iter_collect false (tree_interval_iter q) = Ok [Closed 2 5; RightOpen 6 7; LeftOpen 7 9]%Z.
Proof.
  cbv zeta.
  split.
  { apply (took_more false _ _ [TUpper (Include 9)]%Z); [|constructor].
    refine (takes_interval false (TLower (Include 2%Z)) (TLower (Include 5%Z)) [TUpper (Include 9%Z)] _ _ _);
      [intros [? ?]; discriminate|intros [? ?]; discriminate|discriminate]. }
  split. { apply (C115_iter_exact false). reflexivity. }
  split; [reflexivity|]. split; [reflexivity|]. split; [apply (C115_iter_exact true); reflexivity|]. split; [reflexivity|].
  split; [apply (C115_iter_exact false); reflexivity|reflexivity].
Qed.

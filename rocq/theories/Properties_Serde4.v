(** * What the interval iterator makes of any list of tines, called from both ends: C115 *)
From Coq Require Import List Bool ZArith Lia Sorted.
From Verif Require Import Base MBound MRaw MNormalize MTine MBTree MTineTree MInterval MSelection
  Spec Spec_Tree Spec_Sel Spec_Take Spec_Take2 OrdFacts PBTree Instances Properties_Serde3.
Import ListNotations.
Local Open Scope list_scope.

Section Take2.
  Context {T : Type} {O : Ord T}.
  Implicit Types (t o u : Tine T) (s q : list (Tine T)) (it : Iter T) (r : RawInterval T) (k : stock (T := T)).

  (** The iterator between calls. *)
  Definition iter_of k : Iter T :=
    {| tine_iter := snd k; saved_lower := option_map (fun x => TPoint (Exclude x)) (fst k); saved_upper := None |}.

  Definition call dbg (c : side) := match c with Front => iter_next (T := T) dbg | Back => iter_next_back dbg end.

  (** One call. *)
  Inductive gives dbg c k : res (option (RawInterval T) * Iter T) -> Prop :=
  | gives_none : nothing_for c k -> gives dbg c k (Ok (None, iter_of k))
  | gives_some r k' : side_takes dbg c k r k' -> gives dbg c k (Ok (Some r, iter_of k'))
  | gives_panic : ~ nothing_for c k -> (forall r k', ~ side_takes dbg c k r k') -> gives dbg c k Panic.

  Lemma no_lone t : ~ lone t \/ exists p, t = TPoint (Include p).
  Proof. destruct t as [b|[p|p|]|b]; eauto; left; intros [? ?]; discriminate. Qed.
  Lemma hole_or t : ~ hole t \/ exists p, t = TPoint (Exclude p).
  Proof. destruct t as [b|[p|p|]|b]; eauto; left; intros [? ?]; discriminate. Qed.
  Lemma assert_opens dbg t : debug_assert dbg (is_lower_bound t) = Ok tt /\ (dbg = true -> opens t) \/
      debug_assert dbg (is_lower_bound t) = Panic /\ dbg = true /\ ~ opens t.
  Proof. rewrite opens_bool. destruct dbg, (is_lower_bound t); cbn; try (left; split; [reflexivity|intros; first [reflexivity|discriminate]]); right; repeat split; discriminate. Qed.
  Lemma assert_closes dbg t : debug_assert dbg (is_upper_bound t) = Ok tt /\ (dbg = true -> closes t) \/
      debug_assert dbg (is_upper_bound t) = Panic /\ dbg = true /\ ~ closes t.
  Proof. rewrite closes_bool. destruct dbg, (is_upper_bound t); cbn; try (left; split; [reflexivity|intros; first [reflexivity|discriminate]]); right; repeat split; discriminate. Qed.
  Lemma not_hole t : ~ hole t -> is_point_exclude t = false.
  Proof. intros H. destruct t as [|[]|]; auto. exfalso. apply H. eexists; reflexivity. Qed.
  Lemma hole_closes x : @closes T (TPoint (Exclude x)).
  Proof. right. eexists; reflexivity. Qed.
  Lemma hole_opens x : @opens T (TPoint (Exclude x)).
  Proof. right. eexists; reflexivity. Qed.
  Lemma hole_not_lone x : ~ @lone T (TPoint (Exclude x)).
  Proof. intros [? ?]; discriminate. Qed.

  (** The second half of [next]. *)
  Lemma pair_front dbg k o ts : from_front k = o :: ts -> ~ lone o ->
    gives dbg Front k
      (do _ <- debug_assert dbg (is_lower_bound o);
       let '(second, ts', su') :=
         match btree_first ts with
         | Some t => (Some t, btree_rest_front ts, None)
         | None => (None, ts, None)
         end in
       match second with
       | None => Panic
       | Some upper =>
           let sl' := if is_point_exclude upper then Some upper else None in
           do _ <- debug_assert dbg (is_upper_bound upper);
           Ok (Some (raw_new (tine_into_inner o) (tine_into_inner upper)), {| tine_iter := ts'; saved_lower := sl'; saved_upper := su' |})
       end).
  Proof.
    intros Ek No.
    assert (NN : ~ nothing_for Front k) by (cbn; rewrite Ek; discriminate).
    assert (Nv : forall p s, k <> (None, TPoint (Include p) :: s)).
    { intros p s ->. cbn in Ek. injection Ek as <- _. apply No. eexists; reflexivity. }
    destruct (assert_opens dbg o) as [[-> Bo]|(-> & -> & Bo)]; cbn [bind].
    2: { apply gives_panic; auto. intros r k' H. inversion H as [? ?|? ? ? ? Ek' _ _ St|? ? ? ? Ek' _ St| | | |]; subst.
         - eapply Nv; reflexivity.
         - rewrite Ek in Ek'. injection Ek' as -> _. now destruct (St eq_refl).
         - rewrite Ek in Ek'. injection Ek' as -> _. auto. }
    destruct ts as [|t ts]; cbn [btree_first btree_rest_front].
    { apply gives_panic; auto. intros r k' H. inversion H as [? ?|? ? ? ? Ek' _ _ St|? ? ? ? Ek' _ St| | | |]; subst.
      - eapply Nv; reflexivity.
      - rewrite Ek in Ek'. discriminate.
      - rewrite Ek in Ek'. discriminate. }
    destruct (assert_closes dbg t) as [[-> Bt]|(-> & -> & Bt)]; cbn [bind].
    2: { apply gives_panic; auto. intros r k' H. inversion H as [? ?|? ? ? ? Ek' _ _ St|? ? ? ? Ek' _ St| | | |]; subst.
         - eapply Nv; reflexivity.
         - rewrite Ek in Ek'. injection Ek' as -> -> _. now destruct (St eq_refl).
         - rewrite Ek in Ek'. injection Ek' as -> -> _. apply Bt, hole_closes. }
    change tine_into_inner with (@bound_of T).
    destruct (hole_or t) as [Ht|[x ->]].
    - rewrite (not_hole t Ht). apply (gives_some dbg Front k _ (None, ts)). apply (front_interval dbg k o t ts); auto.
    - apply (gives_some dbg Front k _ (Some x, ts)). apply (front_hole dbg k o x ts); auto.
  Qed.

  Lemma front_gives dbg k : gives dbg Front k (iter_next dbg (iter_of k)).
  Proof.
    destruct k as [[x|] s]; unfold iter_next, iter_of; cbn [saved_lower saved_upper tine_iter fst snd option_map].
    - exact (pair_front dbg (Some x, s) (TPoint (Exclude x)) s eq_refl (hole_not_lone x)).
    - destruct s as [|t s]; [exact (gives_none dbg Front (None, []) eq_refl)|]. cbn [btree_first btree_rest_front].
      destruct (no_lone t) as [P|[p ->]]; [|apply (gives_some dbg Front _ _ (None, s)); constructor].
      pose proof (pair_front dbg (None, t :: s) t s eq_refl P) as A.
      destruct t as [b|[p|p|]|b]; try exact A. exfalso. apply P. eexists; reflexivity.
  Qed.

  Lemma snoc_inj (A : Type) (l l' : list A) a a' : l ++ [a] = l' ++ [a'] -> l = l' /\ a = a'.
  Proof. apply app_inj_tail. Qed.
  Lemma snoc2 (A : Type) (l : list A) a b : l ++ [a; b] = (l ++ [a]) ++ [b].
  Proof. now rewrite <- app_assoc. Qed.

  (** What a call from the back takes, by its last tine. *)
  Lemma back_cases dbg h s u r k' : ~ lone u -> side_takes dbg Back (h, s ++ [u]) r k' ->
    (dbg = true -> closes u) /\
    ((exists s1 t, s = s1 ++ [t] /\ ~ hole t /\ (dbg = true -> opens t) /\ r = raw_new (bound_of t) (bound_of u) /\ k' = (h, s1)) \/
     (exists s1 x, s = s1 ++ [TPoint (Exclude x)] /\ r = raw_new (Exclude x) (bound_of u) /\ k' = (Some x, s1)) \/
     (exists x, s = [] /\ h = Some x /\ r = raw_new (Exclude x) (bound_of u) /\ k' = (Some x, []))).
  Proof.
    intros Nu H. remember (h, s ++ [u]) as k eqn:Ek. remember Back as c eqn:Ec.
    destruct H as [|? ? ? ? ? ? ? ?|? ? ? ? ? ? ?|h' p s'|h' s' t u' Lu Ht St|h' s' x u' Lu St|x u' Lu St]; try discriminate; injection Ek as <- Es.
    - apply snoc_inj in Es as [_ <-]. exfalso. apply Nu. eexists; reflexivity.
    - rewrite snoc2 in Es. apply snoc_inj in Es as [<- <-]. split; [intros; now apply St|]. left. exists s', t. intuition.
    - rewrite snoc2 in Es. apply snoc_inj in Es as [<- <-]. split; auto. right. left. eauto.
    - apply (snoc_inj _ [] s u' u) in Es as [<- <-]. split; auto. right. right. eauto 6.
  Qed.

  Lemma pair_back dbg h s u : ~ lone u ->
    gives dbg Back (h, s ++ [u])
      (do _ <- debug_assert dbg (is_upper_bound u);
        let '(second, ts', sl') :=
          match btree_last s with
          | Some t => (Some t, btree_rest_back s, option_map (fun x => TPoint (Exclude x)) h)
          | None => (option_map (fun x => TPoint (Exclude x)) h, s, None)
          end in
        match second with
        | None => Panic
        | Some lower =>
            let sl'' := if is_point_exclude lower then Some lower else sl' in
            do _ <- debug_assert dbg (is_lower_bound lower);
            Ok (Some (raw_new (tine_into_inner lower) (tine_into_inner u)),
                {| tine_iter := ts'; saved_lower := sl''; saved_upper := None |})
        end).
  Proof.
    intros Nu.
    assert (NN : ~ nothing_for Back (h, s ++ [u])) by (cbn; destruct s; discriminate).
    destruct (assert_closes dbg u) as [[-> Bu]|(-> & -> & Bu)]; cbn [bind].
    2: { apply gives_panic; auto. intros r k' H. apply back_cases in H as [H _]; auto. }
    destruct s as [|a s0] using rev_ind; [|clear IHs0].
    - cbn [btree_last]. destruct h as [x|]; cbn [option_map].
      + assert (E : debug_assert dbg (is_lower_bound (TPoint (Exclude x))) = Ok tt) by now destruct dbg.
        rewrite E. cbn [bind is_point_exclude]. change tine_into_inner with (@bound_of T).
        exact (gives_some dbg Back (Some x, [u]) _ (Some x, []) (back_kept dbg x u Nu Bu)).
      + apply gives_panic; auto. intros r k' H. apply back_cases in H as [_ [(s1 & t & E & _)|[(s1 & t & E & _)|(x & _ & E & _)]]]; auto;
          [destruct s1; discriminate|destruct s1; discriminate|discriminate].
    - rewrite last_app_one, rest_back_app_one.
      destruct (assert_opens dbg a) as [[-> Ba]|(-> & -> & Ba)]; cbn [bind].
      2: { apply gives_panic; auto. intros r k' H. apply back_cases in H as [_ [(s1 & t & E & _ & Ot & _)|[(s1 & x & E & _)|(x & E & _)]]]; auto.
           - apply snoc_inj in E as [_ <-]. auto.
           - apply snoc_inj in E as [_ ->]. apply Ba, hole_opens.
           - destruct s0; discriminate. }
      change tine_into_inner with (@bound_of T). rewrite <- app_assoc. cbn [app].
      destruct (hole_or a) as [Ht|[x ->]].
      + rewrite (not_hole a Ht). apply (gives_some dbg Back _ _ (h, s0)). constructor; auto.
      + apply (gives_some dbg Back _ _ (Some x, s0)). constructor; auto.
  Qed.

  Lemma back_gives dbg k : gives dbg Back k (iter_next_back dbg (iter_of k)).
  Proof.
    destruct k as [h s]; unfold iter_next_back, iter_of; cbn [saved_lower saved_upper tine_iter fst snd].
    destruct s as [|u s _] using rev_ind; [exact (gives_none dbg Back (h, []) eq_refl)|].
    rewrite last_app_one, rest_back_app_one.
    destruct (no_lone u) as [P|[p ->]]; [|apply (gives_some dbg Back _ _ (h, s)); constructor].
    pose proof (pair_back dbg h s u P) as A.
    destruct u as [b|[p|p|]|b]; try exact A. exfalso. apply P. eexists; reflexivity.
  Qed.
  Lemma call_gives dbg c k : gives dbg c k (call dbg c (iter_of k)).
  Proof. destruct c; [apply front_gives|apply back_gives]. Qed.

  Lemma side_takes_some dbg c k r k' : side_takes dbg c k r k' -> ~ nothing_for c k.
  Proof.
    destruct 1 as [|? ? ? ? E|? ? ? ? E| | | |]; cbn; try discriminate; try (rewrite E; discriminate); destruct s; discriminate.
  Qed.
  Lemma side_takes_det dbg c k r k' r' k'' : side_takes dbg c k r k' -> side_takes dbg c k r' k'' -> r = r' /\ k' = k''.
  Proof.
    destruct c.
    - intros H K. inversion H as [p s|k1 o t s E No Nt|k1 o x s E No| | | |]; subst; clear H;
      inversion K as [p' s'|k2 o' t' s' E' No' Nt'|k2 o' x' s' E' No'| | | |]; subst; clear K; auto;
      try (cbn in E'); try (cbn in E); try rewrite E in E';
      repeat match goal with H : _ :: _ = _ :: _ |- _ => injection H as ?; subst end; auto;
      exfalso; unfold lone, hole in *; match goal with N : ~ _ |- _ => apply N; eauto; fail end.
    - destruct k as [h s]. destruct s as [|u s _] using rev_ind; [intros H; apply side_takes_some in H; now destruct H|].
      destruct (no_lone u) as [Nu|[p ->]].
      + intros H K. apply back_cases in H as [_ H]; auto. apply back_cases in K as [_ K]; auto.
        destruct H as [(s1 & t & E & Nt & _ & -> & ->)|[(s1 & x & E & -> & ->)|(x & E & Eh & -> & ->)]];
        destruct K as [(s1' & t' & E' & Nt' & _ & -> & ->)|[(s1' & x' & E' & -> & ->)|(x' & E' & Eh' & -> & ->)]]; rewrite E in E';
        try (destruct s1; discriminate); try (destruct s1'; discriminate); try (apply snoc_inj in E' as [E1 E2]; subst; auto);
        try (exfalso; first [apply Nt; eexists; reflexivity|apply Nt'; eexists; reflexivity]).
        * injection E2 as ->. auto.
        * rewrite Eh in Eh'. injection Eh' as ->. auto.
      + assert (V : forall r k', side_takes dbg Back (h, s ++ [TPoint (Include p)]) r k' -> r = Point p /\ k' = (h, s)).
        { clear. intros r k' H. remember (h, s ++ [TPoint (Include p)]) as k eqn:Ek. remember Back as c eqn:Ec.
          destruct H as [|? ? ? ? ? ? ? ?|? ? ? ? ? ? ?|h' p' s'|h' s' t u' Lu Ht St|h' s' x u' Lu St|x u' Lu St]; try discriminate; injection Ek as <- Es.
          - apply snoc_inj in Es as [-> [= ->]]. auto.
          - rewrite snoc2 in Es. apply snoc_inj in Es as [_ ->]. exfalso. apply Lu. eexists; reflexivity.
          - rewrite snoc2 in Es. apply snoc_inj in Es as [_ ->]. exfalso. apply Lu. eexists; reflexivity.
          - apply (snoc_inj _ [] s) in Es as [_ ->]. exfalso. apply Lu. eexists; reflexivity. }
        intros H K. apply V in H as [-> ->]. apply V in K as [-> ->]. auto.
  Qed.

  (** For every sequence of tines and every order of calls from the two ends, in both kinds of build: the calls return what [reads]
      says, and one panics exactly if tines are left and nothing can be taken. *)
  Theorem C115_both_ends_exact dbg s cs out :
    runs (iter_next dbg) (iter_next_back dbg) (tree_interval_iter s) cs out <-> reads dbg (None, s) cs out.
  Proof.
    change (tree_interval_iter s) with (iter_of (None, s)). generalize (None : option T, s) as k. clear s.
    assert (G : forall k c cs out, runs (iter_next dbg) (iter_next_back dbg) (iter_of k) (c :: cs) out <->
      exists (v : option (RawInterval T)) it' out', out = v :: out' /\ call dbg c (iter_of k) = Ok (v, it') /\ runs (iter_next dbg) (iter_next_back dbg) it' cs out').
    { intros k c cs' out'. split.
      - intros H. inversion H; subst; eauto 8.
      - intros (o & it' & o' & -> & E & R). destruct c; econstructor; eauto. }
    revert out. induction cs as [|c cs IH]; intros out k.
    { split; intros H; inversion H; constructor. }
    rewrite G. pose proof (call_gives dbg c k) as A. split.
    - intros (o & it' & out' & -> & E & R). rewrite E in A. inversion A; subst; [apply reads_none|econstructor]; eauto; now apply IH.
    - intros R. inversion R as [|? ? r k' ? os Tk R'|? ? ? os N R']; subst.
      + inversion A as [N E|r' k2 Tk' E|N P E]; [now apply side_takes_some in Tk| |now apply P in Tk].
        destruct (side_takes_det _ _ _ _ _ _ _ Tk Tk') as [-> ->]. exists (Some r'), (iter_of k2), os. split; auto. split; auto. now apply IH.
      + inversion A as [N' E|r' k2 Tk' E|N' P E]; [|now apply side_takes_some in Tk'|contradiction].
        exists None, (iter_of k), os. split; auto. split; auto. now apply IH.
  Qed.

  (** The next call panics exactly if tines are left for it and it can take none. *)
  Theorem C115_both_ends_panic dbg k c :
    call dbg c (iter_of k) = Panic <-> ~ nothing_for c k /\ forall r k', ~ side_takes dbg c k r k'.
  Proof.
    destruct (call_gives dbg c k) as [N|r k' Tk|N P]; split; try discriminate; auto.
    - now intros [N' _].
    - intros [_ P]. now apply P in Tk.
  Qed.

  (** ** From the back against from the front *)
  Inductive piece : RawInterval T -> list (Tine T) -> Prop :=
  | piece_value p : piece (Point p) [TPoint (Include p)]
  | piece_pair o b : opens o -> piece (raw_new (bound_of o) b) [o; TUpper b].

  Lemma opens_not_lone o : opens o -> ~ lone o.
  Proof. intros [[b ->]|[x ->]] [p H]; discriminate. Qed.
  Lemma upper_not_lone (b : Bound T) : ~ lone (TUpper b).
  Proof. intros [p H]; discriminate. Qed.
  Lemma upper_not_hole (b : Bound T) : ~ hole (TUpper b).
  Proof. intros [p H]; discriminate. Qed.

  Lemma takes_frame q r q' z : takes true q r q' -> takes true (q ++ z) r (q' ++ z).
  Proof. destruct 1; cbn; constructor; auto. Qed.
  Lemma took_frame q l q' z : took true q l q' -> took true (q ++ z) l (q' ++ z).
  Proof. induction 1; econstructor; eauto. now apply takes_frame. Qed.
  Lemma took_app q l q' l' q'' : took true q l q' -> took true q' l' q'' -> took true q (l ++ l') q''.
  Proof. induction 1; cbn; auto. intros H'. econstructor; eauto. Qed.
  Lemma piece_took r pc : piece r pc -> took true pc [r] [].
  Proof.
    destruct 1; econstructor; try apply took_none; [constructor|].
    apply (takes_interval true o (TUpper b) []); [now apply opens_not_lone|apply upper_not_hole|]. intros _. split; auto. left; eauto.
  Qed.
  Lemma joined_cons a s : joined s -> joined (a :: s).
  Proof. intros (A & o & x & B & -> & H). exists (a :: A), o, x, B. auto. Qed.

  Lemma took_pieces s l : ~ joined s -> took true s l [] -> exists ps, Forall2 piece l ps /\ s = concat ps.
  Proof.
    intros NJ H. remember [] as e eqn:Ee. revert NJ Ee. induction H as [s|s r s' l s'' Tk Tl IH]; intros NJ Ee; subst.
    - exists []. split; [constructor|reflexivity].
    - inversion Tk as [p s1|o t s1 Lo Ht St|o x s1 Lo St]; subst.
      + destruct IH as (ps & F & ->); auto. { intros J. apply NJ. now apply joined_cons. }
        exists ([TPoint (Include p)] :: ps). split; auto. constructor; auto. constructor.
      + destruct IH as (ps & F & ->); auto. { intros J. apply NJ. now apply joined_cons, joined_cons. }
        destruct (St eq_refl) as [Oo [[b ->]|Hh]]; [|contradiction].
        exists ([o; TUpper b] :: ps). split; auto. constructor; auto. now constructor.
      + exfalso. apply NJ. exists [], o, x, s1. split; auto.
  Qed.
  Lemma pieces_took l ps : Forall2 piece l ps -> took true (concat ps) l [].
  Proof.
    induction 1 as [|r pc l ps P F IH]; [constructor|]. cbn. apply (took_app _ [r] (concat ps)); auto.
    exact (took_frame _ _ _ (concat ps) (piece_took _ _ P)).
  Qed.

  (** Taking a piece from the back. *)
  Definition keeps (h : option T) (pc : list (Tine T)) : option T :=
    match pc with TPoint (Exclude x) :: _ => Some x | _ => h end.
  Lemma piece_back h s r pc : piece r pc -> side_takes true Back (h, s ++ pc) r (keeps h pc, s).
  Proof.
    destruct 1 as [p|o b Oo]; [constructor|]. destruct (hole_or o) as [Ho|[x ->]].
    - assert (E : keeps h [o; TUpper b] = h). { destruct o as [|[]|]; auto. exfalso. apply Ho. eexists; reflexivity. }
      rewrite E. apply (back_interval true h s o (TUpper b)); auto; [apply upper_not_lone|]. intros _. split; auto. left; eauto.
    - apply (back_hole true h s x (TUpper b)); [apply upper_not_lone|]. intros _. left; eauto.
  Qed.

  Lemma drains_some dbg k r k' l : side_takes dbg Back k r k' -> drains (iter_next_back dbg) (iter_of k) (r :: l) <-> drains (iter_next_back dbg) (iter_of k') l.
  Proof.
    intros Tk. assert (E : iter_next_back dbg (iter_of k) = Ok (Some r, iter_of k')).
    { destruct (back_gives dbg k) as [N|r' k2 Tk'|N P]; [now apply side_takes_some in Tk| |now apply P in Tk].
      now destruct (side_takes_det _ _ _ _ _ _ _ Tk Tk') as [-> ->]. }
    split; intros H; [|econstructor; eauto]. inversion H; subst. congruence.
  Qed.
  Lemma drains_inv dbg k r l : drains (iter_next_back dbg) (iter_of k) (r :: l) -> exists k', side_takes dbg Back k r k'.
  Proof.
    intros H. inversion H as [|? it' ? ? E _]; subst. destruct (back_gives dbg k) as [N|r' k' Tk|N P]; try discriminate. injection E as <- _. eauto.
  Qed.
  Lemma drains_none dbg h : drains (iter_next_back dbg) (iter_of (h, [])) [].
  Proof. econstructor. reflexivity. Qed.

  Lemma pieces_back l ps : Forall2 piece l ps -> forall h s l',
    drains (iter_next_back true) (iter_of (h, s ++ concat ps)) (rev l ++ l') <->
    drains (iter_next_back true) (iter_of (fold_right (fun pc h => keeps h pc) h ps, s)) l'.
  Proof.
    induction 1 as [|r pc l ps P F IH]; intros h s l'; cbn [concat rev fold_right app].
    - now rewrite app_nil_r.
    - rewrite app_assoc, <- app_assoc with (l := rev l). rewrite IH. cbn [app]. apply drains_some. now apply piece_back.
  Qed.

  (** The last joining value, if there is one. *)
  Lemma joined_last s : joined s -> exists A o x B, s = A ++ o :: TPoint (Exclude x) :: B /\ opens o /\ ~ joined (TPoint (Exclude x) :: B).
  Proof.
    induction s as [|a s IH]; intros J; [destruct J as ([|] & ? & ? & ? & ? & _); discriminate|].
    assert (D : joined s \/ ~ joined s).
    { clear. induction s as [|a s IH]; [right; intros ([|] & ? & ? & ? & ? & _); discriminate|].
      destruct IH as [J|NJ]; [left; now apply joined_cons|].
      destruct s as [|t s]; [right; intros ([|? [|]] & ? & ? & ? & ? & _); discriminate|].
      destruct (hole_or t) as [Ht|[x ->]].
      { right. intros (A & o & x & B & E & Oo). destruct A as [|a' A]; cbn in E.
        - injection E as -> -> ->. apply Ht. eexists; reflexivity.
        - injection E as -> E. apply NJ. exists A, o, x, B. auto. }
      destruct (is_lower_bound a) eqn:E; [left|right].
      - exists [], a, x, s. split; auto. now apply opens_bool.
      - intros (A & o & y & B & E' & Oo). destruct A as [|a' A]; cbn in E'.
        + injection E' as -> -> ->. apply opens_bool in Oo. congruence.
        + injection E' as -> E'. apply NJ. exists A, o, y, B. auto. }
    destruct D as [J'|NJ].
    - destruct (IH J') as (A & o & x & B & -> & Oo & N). exists (a :: A), o, x, B. auto.
    - destruct J as (A & o & x & B & E & Oo). destruct A as [|a' A]; cbn in E.
      + injection E as -> ->. exists [], o, x, B. auto.
      + injection E as -> E. exfalso. apply NJ. exists A, o, x, B. auto.
  Qed.

  (** A joining value ends an interval from the front. *)
  Lemma took_joined o x B A : opens o -> forall l, took true (A ++ o :: TPoint (Exclude x) :: B) l [] ->
    exists l1 l2, l = l1 ++ raw_new (bound_of o) (Exclude x) :: l2 /\ took true (TPoint (Exclude x) :: B) l2 [].
  Proof.
    intros Oo. remember (length A) as n eqn:En. assert (Hn : length A <= n) by lia. clear En. revert A Hn.
    induction n as [|n IH]; intros A Hn l H.
    - destruct A; [|cbn in Hn; lia]. cbn in H. inversion H as [|? r q ? ? Tk Tl]; subst. exists []. 
      inversion Tk as [p s1|o' t s1 Lo Ht St|o' y s1 Lo St]; subst.
      + exfalso. eapply opens_not_lone; eauto. eexists; reflexivity.
      + exfalso. apply Ht. eexists; reflexivity.
      + eexists. split; [reflexivity|exact Tl].
    - destruct A as [|a A]; [apply (IH []); auto; cbn; lia|]. cbn in H, Hn. inversion H as [|? r q ? ? Tk Tl]; subst.
      assert (Go : forall A', length A' <= n -> q = A' ++ o :: TPoint (Exclude x) :: B ->
        exists l1 l2, r :: l0 = l1 ++ raw_new (bound_of o) (Exclude x) :: l2 /\ took true (TPoint (Exclude x) :: B) l2 []).
      { intros A' HA ->. destruct (IH A' HA l0 Tl) as (l1 & l2 & -> & K). exists (r :: l1), l2. auto. }
      assert (Q : exists A', length A' <= n /\ q = A' ++ o :: TPoint (Exclude x) :: B); [|destruct Q as (A' & L & Q); exact (Go A' L Q)].
      clear Go IH H Tl. remember (A ++ o :: TPoint (Exclude x) :: B) as z eqn:Ez.
      inversion Tk as [p s1|o' t s1 Lo Ht St|o' y s1 Lo St]; subst a.
      + exists A; split; [lia|congruence].
      + assert (Ez' : t :: s1 = A ++ o :: TPoint (Exclude x) :: B) by congruence. destruct A as [|a' A]; cbn in Ez'.
        * injection Ez' as -> _. exfalso. destruct (St eq_refl) as [_ Cl]. destruct Oo as [[b ->]|Hh]; [|contradiction].
          destruct Cl as [[b' Q]|[y Q]]; discriminate.
        * injection Ez' as _ E'. exists A; split; [cbn in Hn; lia|congruence].
      + exists A; split; [lia|congruence].
  Qed.

  Lemma open_lt x h : lt x h -> raw_new (Exclude x) (Exclude h) = Open x h.
  Proof. intros H. cbn. unfold raw_open. unfold lt in H. rewrite H. reflexivity. Qed.
  Lemma open_above (b : Bound T) x h : lt x h -> raw_new b (Exclude x) <> Open x h.
  Proof.
    intros H. destruct b as [l|l|]; cbn; try discriminate.
    - unfold raw_right_open. destruct (cmp l x); discriminate.
    - unfold raw_open. destruct (cmp l x); try discriminate. intros [= -> E]. subst. now apply lt_irrefl in H.
  Qed.
  Lemma open_back x h : lt x h -> raw_new (Exclude h) (Exclude x) <> Open x h.
  Proof.
    intros H. cbn. unfold raw_open. destruct (cmp h x) eqn:E; try discriminate. exfalso. apply (lt_irrefl x). exact (cmp_lt_trans _ _ _ H E).
  Qed.
  Lemma sorted_adjacent A (x h : T) B : StronglySorted (fun a b => tine_cmp a b = Lt) (A ++ TPoint (Exclude x) :: TPoint (Exclude h) :: B) -> lt x h.
  Proof.
    induction A as [|a A IH]; cbn; intros H; inversion H as [|? ? S F]; subst; auto. inversion F as [|? ? C _]; subst. cbn in C. 
    unfold lt. exact C.
  Qed.

  (** Tines in order, as a set holds them, that a build with debug assertions reads from the front as the intervals [l]: from the
      back it reads the same intervals in reverse exactly if no missing value joins two of them. *)
  Theorem C115_back_exact s l : StronglySorted (fun a b => tine_cmp a b = Lt) s -> took true s l [] ->
    (drains (iter_next_back true) (tree_interval_iter s) (rev l) <-> ~ joined s).
  Proof.
    intros Ss H. change (tree_interval_iter s) with (iter_of (None, s)). split.
    - intros D J. destruct (joined_last s J) as (A & o & h & B & -> & Oo & NJ). clear J.
      destruct (took_joined o h B A Oo l H) as (l1 & l2 & -> & K). clear H.
      destruct (took_pieces _ _ NJ K) as (ps & F & E). destruct F as [|r pc l2 ps P F]; [discriminate|].
      assert (Ep : exists b, pc = [TPoint (Exclude h); TUpper b]).
      { destruct P as [p|o' b Oo']; cbn in E; [discriminate|]. injection E as <- E. eauto. }
      destruct Ep as [b ->].
      rewrite rev_app_distr in D. cbn [rev] in D. rewrite <- !app_assoc in D.
      replace (A ++ o :: TPoint (Exclude h) :: B) with ((A ++ [o]) ++ concat ([TPoint (Exclude h); TUpper b] :: ps)) in D by (rewrite <- E, <- app_assoc; reflexivity).
      assert (D' := proj1 (pieces_back (r :: l2) _ (Forall2_cons _ _ P F) None (A ++ [o]) (raw_new (bound_of o) (Exclude h) :: rev l1))).
      cbn [rev] in D'. rewrite <- (app_assoc (rev l2)) in D'. specialize (D' D). clear D.
      cbn [fold_right keeps] in D'. destruct (drains_inv _ _ _ _ D') as [k' Tk].
      apply back_cases in Tk as [Cl Tk]; [|now apply opens_not_lone]. specialize (Cl eq_refl).
      destruct Oo as [[c ->]|[x ->]]; [destruct Cl as [[? ?]|[? ?]]; discriminate|].
      apply sorted_adjacent in Ss. cbn [bound_of] in Tk. rewrite (open_lt x h Ss) in Tk.
      destruct Tk as [(s1 & t & _ & _ & _ & R & _)|[(s1 & y & _ & R & _)|(y & _ & Ey & R & _)]]; symmetry in R.
      + now apply open_above in R.
      + now apply open_above in R.
      + injection Ey as <-. now apply open_back in R.
    - intros NJ. destruct (took_pieces s l NJ H) as (ps & F & ->).
      pose proof (proj2 (pieces_back l ps F None [] [])) as D. cbn [app] in D. rewrite app_nil_r in D. apply D. apply drains_none.
  Qed.

  (** Tines without a missing value, in any sequence: the two directions agree, and where one panics so does the other. *)
  Theorem C115_back_plain s l : (forall t, In t s -> ~ hole t) ->
    (drains (iter_next_back true) (tree_interval_iter s) (rev l) <-> took true s l []).
  Proof.
    intros NH. change (tree_interval_iter s) with (iter_of (None, s)). split.
    - remember (rev l) as l' eqn:E. assert (El : l = rev l') by (subst; now rewrite rev_involutive). subst l. clear E.
      revert s NH. induction l' as [|r l' IH]; intros s NH D.
      + inversion D as [? it' E|]; subst. destruct (back_gives true (None, s)) as [N|? ? ?|]; try discriminate. cbn in N. subst. constructor.
      + destruct (drains_inv _ _ _ _ D) as [k' Tk]. apply (drains_some _ _ _ _ l' Tk) in D. destruct s as [|u s _] using rev_ind.
        { exfalso. apply side_takes_some in Tk. now apply Tk. }
        assert (P : exists pc s1, s ++ [u] = s1 ++ pc /\ piece r pc /\ k' = (None, s1)).
        { destruct (no_lone u) as [Nu|[p ->]].
          - apply back_cases in Tk as [Cl Tk]; auto. destruct Tk as [(s1 & t & -> & Nt & Ot & -> & ->)|[(s1 & x & -> & _)|(x & _ & Ex & _)]]; [| |discriminate].
            + destruct (Cl eq_refl) as [[b ->]|Hh]; [|exfalso; apply (NH u); auto; apply in_or_app; right; now left].
              exists [t; TUpper b], s1. split; [now rewrite <- app_assoc|]. split; auto. apply (piece_pair t b); auto.
            + exfalso. apply (NH (TPoint (Exclude x))); [|eexists; reflexivity]. apply in_or_app. left. apply in_or_app. right. now left.
          - destruct (side_takes_det _ _ _ _ _ _ _ Tk (back_value true None p s)) as [-> ->].
            exists [TPoint (Include p)], s. split; auto. split; auto. constructor. }
        destruct P as (pc & s1 & E & P & ->). rewrite E in *. cbn [rev].
        apply (took_app _ (rev l') pc); [|now apply piece_took]. apply (took_frame s1 (rev l') [] pc). apply IH; auto.
        intros t Ht. apply NH. apply in_or_app. now left.
    - intros H. assert (NJ : ~ joined s). { intros (A & o & x & B & -> & _). apply (NH (TPoint (Exclude x))); [apply in_or_app; right; right; now left|eexists; reflexivity]. }
      destruct (took_pieces s l NJ H) as (ps & F & ->).
      pose proof (proj2 (pieces_back l ps F None [] [])) as D. cbn [app] in D. rewrite app_nil_r in D. apply D. apply drains_none.
  Qed.
End Take2.
Print Assumptions C115_both_ends_exact.
Print Assumptions C115_both_ends_panic.
Print Assumptions C115_back_exact.
Print Assumptions C115_back_plain.

(** A missing value at 5 that opens an interval after a single value, and one at 7 that joins two. *)
Example C115_back_ex :
  let s := [TPoint (Include 3); TPoint (Exclude 5); TUpper (Include 9)]%Z in
  let q := [TLower (Include 3); TPoint (Exclude 7); TUpper (Include 9)]%Z in
  took true s [Point 3; LeftOpen 5 9]%Z [] /\ ~ joined s /\
  drains (iter_next_back true) (tree_interval_iter s) [LeftOpen 5 9; Point 3]%Z /\
  took true q [RightOpen 3 7; LeftOpen 7 9]%Z [] /\ joined q /\
  ~ drains (iter_next_back true) (tree_interval_iter q) [LeftOpen 7 9; RightOpen 3 7]%Z /\
  reads false (None, q) [Back; Front; Back] [Some (LeftOpen 7 9); Some Empty; None]%Z /\
  (forall o o', ~ reads true (None, q) [Back; Front] [o; o']).
Proof.
  cbv zeta.
  assert (S : took true [TPoint (Include 3); TPoint (Exclude 5); TUpper (Include 9)]%Z [Point 3; LeftOpen 5 9]%Z []) by (apply (C115_iter_exact true); reflexivity).
  assert (Q : took true [TLower (Include 3); TPoint (Exclude 7); TUpper (Include 9)]%Z [RightOpen 3 7; LeftOpen 7 9]%Z []) by (apply (C115_iter_exact true); reflexivity).
  assert (J : joined [TLower (Include 3); TPoint (Exclude 7); TUpper (Include 9)]%Z).
  { exists [], (TLower (Include 3%Z)), 7%Z, [TUpper (Include 9%Z)]. split; [reflexivity|left; eauto]. }
  assert (D : drains (iter_next_back true) (tree_interval_iter [TPoint (Include 3); TPoint (Exclude 5); TUpper (Include 9)]%Z) [LeftOpen 5 9; Point 3]%Z).
  { econstructor; [reflexivity|]. econstructor; [reflexivity|]. econstructor. reflexivity. }
  split; [exact S|]. split; [|split; [exact D|]].
  { refine (proj1 (C115_back_exact _ _ _ S) D). repeat constructor. }
  split; [exact Q|]. split; [exact J|]. split; [|split].
  - intros D'. refine (proj1 (C115_back_exact _ _ _ Q) D' J). repeat constructor.
  - apply (C115_both_ends_exact false). econstructor; [reflexivity|]. econstructor; [reflexivity|]. econstructor; [reflexivity|]. constructor.
  - intros o o' R. apply (C115_both_ends_exact true) in R. inversion R as [| |? ? ? ? ? E R']; subst. cbv in E. injection E as <- <-.
    inversion R' as [|? ? ? ? ? E' _|]; subst. discriminate.
Qed.

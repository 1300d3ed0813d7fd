(** * C107: panics of [pred] and [succ] while iterating from both ends *)
From Coq Require Import List Bool ZArith Lia Sorted Permutation.
From Verif Require Import Base OrdFacts Pos PFinite Ints MBound MRaw MNormalize MTine MBTree MTineTree MInterval MSelection MFault
  Spec Spec_Tree Spec_Sel Spec_Fault PRaw PRaw2 PNorm PIter PInterval PBTree PTree PTreeOps PTreeIsect PTree2 PTree3 PTree4 PTree5 PTree6 PTree7
  PSel PSel2 PSel3 PSel4 PSel5 Instances Properties_Interval Properties_Tree Properties_Tree2 Properties_Selection Properties_Selection4 PBoth Properties_Both
  Properties_Fused Properties_Exact Properties_Ends Properties_Ends2 Properties_Fault.
Import ListNotations.
Local Arguments cmp : simpl never.

Section Back.
  Context {T : Type} {O : Cmp T} {F : FiniteOps T}.
  Implicit Types (g : stepper T) (i : Interval T).

  (** [next] and [next_back] over the values, in one definition. *)
  Definition fault_of dbg (c : side) g (it : SelIter T) := match c with Front => sel_next_fault dbg g it | Back => sel_next_back_fault dbg g it end.
  Definition inext (c : side) : Interval T -> res (option T * Interval T) := match c with Front => interval_next | Back => interval_next_back end.
  Definition tnext dbg (c : side) : Iter T -> res (option (RawInterval T) * Iter T) := match c with Front => iter_next dbg | Back => iter_next_back dbg end.

  (** Every way a call can go. *)
  Lemma fault_cases dbg c g its cur o cur1 : faithful g -> inext c cur = Ok (o, cur1) ->
    fault_of dbg c g {| si_intervals := its; si_current := cur |} = Ok (Failed {| si_intervals := its; si_current := cur |}) \/
    match o with
    | Some x => fault_of dbg c g {| si_intervals := its; si_current := cur |} = Ok (Gave (Some x) {| si_intervals := its; si_current := cur1 |})
    | None =>
        match tnext dbg c its with
        | Panic => fault_of dbg c g {| si_intervals := its; si_current := cur |} = Panic
        | Ok (None, its1) => fault_of dbg c g {| si_intervals := its; si_current := cur |} = Ok (Gave None {| si_intervals := its1; si_current := cur1 |})
        | Ok (Some r, its1) =>
            fault_of dbg c g {| si_intervals := its; si_current := cur |} = Ok (Failed {| si_intervals := its1; si_current := cur1 |}) \/
            fault_of dbg c g {| si_intervals := its; si_current := cur |} = Ok (Failed {| si_intervals := its1; si_current := interval_from_raw (normalized r) |}) \/
            exists x cur2, inext c (interval_from_raw (normalized r)) = Ok (x, cur2) /\
              fault_of dbg c g {| si_intervals := its; si_current := cur |} = Ok (Gave x {| si_intervals := its1; si_current := cur2 |})
        end
    end.
  Proof.
    intros Hg E. destruct c; simpl in *; unfold sel_next_fault, sel_next_back_fault; cbn [si_current si_intervals].
    - destruct (interval_next_fault_or g cur Hg) as [-> |(x & i' & E1 & ->)]; [left; reflexivity|]. rewrite E in E1. injection E1 as <- <-. right. cbn [bind].
      destruct o as [x|]; [reflexivity|]. destruct (iter_next dbg its) as [[[r|] its1]|]; cbn [bind]; auto.
      destruct (read_fault_or g r Hg) as [-> | ->]; [now left|]. right.
      destruct (interval_next_fault_or g (interval_from_raw (normalized r)) Hg) as [-> |(x & i' & E1 & ->)]; cbn [bind]; eauto.
    - destruct (interval_next_back_fault_or g cur Hg) as [-> |(x & i' & E1 & ->)]; [left; reflexivity|]. rewrite E in E1. injection E1 as <- <-. right. cbn [bind].
      destruct o as [x|]; [reflexivity|]. destruct (iter_next_back dbg its) as [[[r|] its1]|]; cbn [bind]; auto.
      destruct (read_fault_or g r Hg) as [-> | ->]; [now left|]. right.
      destruct (interval_next_back_fault_or g (interval_from_raw (normalized r)) Hg) as [-> |(x & i' & E1 & ->)]; cbn [bind]; eauto.
  Qed.

  (** Without panics [next_back] is that of the model. *)
  Theorem C107_no_panic_back dbg g (si : SelIter T) o si' : sound g -> sel_next_back dbg si = Ok (o, si') -> sel_next_back_fault dbg g si = Ok (Gave o si').
  Proof.
    intros H.
    assert (N : forall i o i', interval_next_back i = Ok (o, i') -> interval_next_back_fault g i = Ok (Gave o i')).
    { intros i o0 i'. unfold interval_next_back_fault, interval_next_back, first_or_empty_fault, interval_minus.
      destruct (interval_upper_bound i) as [[lb|lb|]|]; try discriminate; [|now injection 1 as <- <-].
      destruct (raw_minus _ _) as [|r0 l]; simpl; [|rewrite normalized_sound by auto]; now injection 1 as <- <-. }
    unfold sel_next_back, sel_next_back_fault. destruct (interval_next_back (si_current si)) as [[x cur]|] eqn:E; [|discriminate].
    rewrite (N _ _ _ E). cbn [bind]. destruct x as [x|]; [now injection 1 as <- <-|].
    destruct (iter_next_back dbg (si_intervals si)) as [[[r0|] its]|]; cbn [bind]; try discriminate; [|now injection 1 as <- <-].
    unfold read_fault. rewrite normalized_sound by auto. cbn [bind]. rewrite normalized_sound by auto. cbn [bind]. fold (interval_from_raw (normalized r0)).
    change {| interval_raw := normalized (normalized r0) |} with (interval_from_raw (normalized r0)).
    destruct (interval_next_back (interval_from_raw (normalized r0))) as [[x' cur']|] eqn:E'; [|discriminate]. rewrite (N _ _ _ E'). cbn [bind]. now injection 1 as <- <-.
  Qed.
End Back.
Print Assumptions C107_no_panic_back.

Section LosesBack.
  Context {A : Type}.
  Lemma loses_app n m (l l' k k' : list A) : loses n l k -> loses m l' k' -> loses (n + m) (l ++ l') (k ++ k').
  Proof.
    intros H H'. induction H as [n|n a l k H IH|n a l k H IH]; simpl; [|constructor; auto|constructor; auto].
    revert H'. apply loses_le. lia.
  Qed.
  Lemma loses_keep_last n (l k : list A) a : loses n l k -> loses n (l ++ [a]) (k ++ [a]).
  Proof. intros H. replace n with (n + 0)%nat by lia. apply loses_app; auto. repeat constructor. Qed.
  Lemma loses_drop_last n (l k : list A) a : loses n l k -> loses (S n) (l ++ [a]) k.
  Proof. intros H. rewrite <- (app_nil_r k). replace (S n) with (n + 1)%nat by lia. apply loses_app; auto. repeat constructor. Qed.
End LosesBack.

Section Values.
  Context {T : Type} {O : Ord T} {F : Finite T}.
  Implicit Types (g : stepper T) (it : SelIter T).

  (** Reading the interval [i] with values [l] at one end. *)
  Definition put (c : side) {A} (x : A) (m : list A) : list A := match c with Front => x :: m | Back => m ++ [x] end.
  Lemma inext_rep c i (l : list T) : irep i l -> (l = [] /\ inext c i = Ok (None, i)) \/
    exists x m i', l = put c x m /\ inext c i = Ok (Some x, i') /\ irep i' m.
  Proof.
    intros R. destruct c; simpl.
    - destruct l as [|x m]; [left; split; auto; now apply irep_nil_next|right]. destruct (irep_front _ _ _ R) as (i' & E & R'). eauto 7.
    - destruct (ends l) as [->|(m & x & ->)]; [left; split; auto; now apply irep_nil_back|right].
      destruct (irep_back _ _ _ R) as (i' & E & R'). eauto 7.
  Qed.
  Lemma tnext_rep dbg c (its : Iter T) rs : brep its rs ->
    (rs = [] /\ exists its', tnext dbg c its = Ok (None, its') /\ brep its' []) \/
    exists r rs' its', rs = put c r rs' /\ tnext dbg c its = Ok (Some r, its') /\ brep its' rs'.
  Proof.
    intros B. destruct c; simpl.
    - destruct rs as [|r rs]; [left; split; auto; now apply brep_front_nil|right]. destruct (brep_front dbg _ _ _ B) as (its' & E & B'). eauto 7.
    - destruct (ends rs) as [->|(rs' & r & ->)]; [left; split; auto; now apply brep_back_nil|right].
      destruct (brep_back dbg _ _ _ B) as (its' & E & B'). eauto 7.
  Qed.
  Lemma chunks_put c r rs ls : chunks (put c r rs) ls -> exists l ls', ls = put c l ls' /\ chunks rs ls' /\ irep (nrm r) l /\ l <> [].
  Proof.
    destruct c; simpl; intros C.
    - inversion C as [|? l ? ls' [R N] C']; subst. eauto 7.
    - destruct (chunks_snoc _ _ C rs r eq_refl) as (ls' & l & -> & C' & R & N). eauto 7.
  Qed.
  Lemma put_chunks c r rs l ls : chunks rs ls -> irep (nrm r) l -> l <> [] -> chunks (put c r rs) (put c l ls).
  Proof.
    intros C R N. destruct c; simpl; [constructor; auto|]. apply Forall2_app; auto.
  Qed.
  Lemma put_perm c (x : T) m : Permutation (put c x m) (x :: m).
  Proof. destruct c; simpl; auto. symmetry. apply Permutation_cons_append. Qed.
  Lemma put_concat c (l : list T) ls : Permutation (concat (put c l ls)) (l ++ concat ls).
  Proof. destruct c; simpl; auto. rewrite concat_app. simpl. rewrite app_nil_r. apply Permutation_app_comm. Qed.
  Lemma loses_put n c (r : RawInterval T) rs k : loses n rs k -> loses n (put c r rs) (put c r k).
  Proof. destruct c; simpl; [now constructor|apply loses_keep_last]. Qed.
  Lemma loses_put_drop n c (r : RawInterval T) rs k : loses n rs k -> loses (S n) (put c r rs) k.
  Proof. destruct c; simpl; [now constructor|apply loses_drop_last]. Qed.

  Definition backward (sched : list (side * stepper T)) : Prop := Forall (fun c => fst c = Back) sched.

  Lemma both_fault dbg sched : forall it rs ls lc, Forall (fun c => faithful (snd c)) sched -> both it rs lc -> chunks rs ls ->
    exists out, attempts (sel_next_fault dbg) (sel_next_back_fault dbg) it sched out /\ length out = length sched /\
      exists kept kls rest, chunks kept kls /\ loses (panics out) rs kept /\ Permutation (items (answers out) ++ rest) (lc ++ concat kls) /\
        (In (Some None) out -> rest = []) /\ (backward sched -> items (answers out) ++ rest = rev (concat kls ++ lc)).
  Proof.
    induction sched as [|[c g] sched IH]; intros it rs ls lc Hs B C.
    { exists []. split; [constructor|]. split; [reflexivity|]. exists rs, ls, (rev (concat ls ++ lc)). split; [exact C|]. split; [apply loses_refl|].
      simpl. split; [rewrite <- Permutation_rev; apply Permutation_app_comm|]. split; [intros []|reflexivity]. }
    inversion Hs as [|? ? Hg Hs']; subst. cbn [snd] in Hg. destruct it as [its cur], B as [Bi Bc]; cbn [si_intervals si_current] in Bi, Bc.
    assert (Failed_ok : forall it' rs' ls' lc', fault_of dbg c g {| si_intervals := its; si_current := cur |} = Ok (Failed it') -> both it' rs' lc' -> chunks rs' ls' ->
      (forall n kept kls, loses n rs' kept -> chunks kept kls -> exists kept' kls', chunks kept' kls' /\ loses (S n) rs kept' /\ Permutation (lc' ++ concat kls) (lc ++ concat kls') /\
         (backward ((c, g) :: sched) -> concat kls ++ lc' = concat kls' ++ lc)) ->
      exists out, attempts (sel_next_fault dbg) (sel_next_back_fault dbg) {| si_intervals := its; si_current := cur |} ((c, g) :: sched) out /\ length out = length ((c, g) :: sched) /\
        exists kept kls rest, chunks kept kls /\ loses (panics out) rs kept /\ Permutation (items (answers out) ++ rest) (lc ++ concat kls) /\
          (In (Some None) out -> rest = []) /\ (backward ((c, g) :: sched) -> items (answers out) ++ rest = rev (concat kls ++ lc))).
    { intros it' rs' ls' lc' E B' C' K. destruct (IH it' rs' ls' lc' Hs' B' C') as (out & A & L & kept & kls & rest & Ck & Lo & P & Fin & Bw).
      exists (None :: out). split; [eapply attempts_failed; [destruct c; exact E|exact A]|]. split; [simpl; now rewrite L|].
      destruct (K _ _ _ Lo Ck) as (kept' & kls' & Ck' & Lo' & P' & Eq). exists kept', kls', rest. split; [exact Ck'|]. split; [exact Lo'|].
      cbn [answers]. split; [now rewrite P|]. split; [intros [Q|Q]; [discriminate|auto]|]. intros Bk. rewrite <- (Eq Bk). apply Bw. now inversion Bk. }
    assert (Gave_ok : forall it' x rs' ls' lc', fault_of dbg c g {| si_intervals := its; si_current := cur |} = Ok (Gave (Some x) it') -> both it' rs' lc' -> chunks rs' ls' ->
      (forall n kept kls, loses n rs' kept -> chunks kept kls -> exists kept' kls', chunks kept' kls' /\ loses n rs kept' /\ Permutation (x :: lc' ++ concat kls) (lc ++ concat kls') /\
         (c = Back -> (concat kls ++ lc') ++ [x] = concat kls' ++ lc)) ->
      exists out, attempts (sel_next_fault dbg) (sel_next_back_fault dbg) {| si_intervals := its; si_current := cur |} ((c, g) :: sched) out /\ length out = length ((c, g) :: sched) /\
        exists kept kls rest, chunks kept kls /\ loses (panics out) rs kept /\ Permutation (items (answers out) ++ rest) (lc ++ concat kls) /\
          (In (Some None) out -> rest = []) /\ (backward ((c, g) :: sched) -> items (answers out) ++ rest = rev (concat kls ++ lc))).
    { intros it' x rs' ls' lc' E B' C' K. destruct (IH it' rs' ls' lc' Hs' B' C') as (out & A & L & kept & kls & rest & Ck & Lo & P & Fin & Bw).
      exists (Some (Some x) :: out). split; [eapply attempts_gave; [destruct c; exact E|exact A]|]. split; [simpl; now rewrite L|].
      destruct (K _ _ _ Lo Ck) as (kept' & kls' & Ck' & Lo' & P' & Eq). exists kept', kls', rest. split; [exact Ck'|]. split; [exact Lo'|].
      cbn [answers items]. split; [rewrite <- P', <- P; reflexivity|]. split; [intros [Q|Q]; [discriminate|auto]|]. intros Bk. inversion Bk as [|? ? Ec Bk']; subst.
      cbn [fst] in Ec. rewrite <- (Eq Ec), (rev_app_distr _ [x]). simpl. f_equal. now apply Bw. }
    destruct (inext_rep c cur lc Bc) as [[-> E]|(x & m & cur1 & -> & E & R1)]; destruct (fault_cases dbg c g its cur _ _ Hg E) as [K|K].
    - eapply Failed_ok; [exact K|split; [exact Bi|exact Bc]|exact C|]. intros n kept kls Lo Ck. exists kept, kls. split; [exact Ck|]. split; [revert Lo; apply loses_le; lia|]. split; auto.
    - cbv beta iota in K. destruct (tnext_rep dbg c its rs Bi) as [[-> (its' & Et & B')]|(r & rs' & its' & -> & Et & B')]; rewrite Et in K.
      + inversion C; subst. destruct (IH {| si_intervals := its'; si_current := cur |} [] [] [] Hs' (conj B' Bc) (Forall2_nil _)) as (out & A & L & kept & kls & rest & Ck & Lo & P & Fin & Bw).
        exists (Some None :: out). split; [eapply attempts_gave; [destruct c; exact K|exact A]|]. split; [simpl; now rewrite L|].
        inversion Lo; subst. inversion Ck; subst. exists [], [], rest. split; [constructor|]. split; [constructor|]. cbn [answers items]. split; [exact P|].
        split; [|intros Bk; apply Bw; now inversion Bk].
        intros _. simpl in P. apply Permutation_sym, Permutation_nil, app_eq_nil in P. tauto.
      + destruct (chunks_put c r rs' ls C) as (l & ls' & -> & C' & Rl & Nl). destruct K as [K|[K|(x & cur2 & E2 & K)]].
        * eapply Failed_ok; [exact K|split; [exact B'|exact Bc]|exact C'|]. intros n kept kls Lo Ck. exists kept, kls. split; [exact Ck|]. split; [now apply loses_put_drop|]. split; auto.
        * eapply Failed_ok; [exact K|split; [exact B'|exact Rl]|exact C'|]. intros n kept kls Lo Ck. exists (put c r kept), (put c l kls). split; [now apply put_chunks|].
          split; [apply loses_put; revert Lo; apply loses_le; lia|]. split; [now rewrite put_concat|]. intros Bk. inversion Bk as [|? ? Ec _]; subst. cbn [fst] in Ec. subst c. simpl.
          rewrite concat_app. simpl. now rewrite !app_nil_r.
        * destruct (inext_rep c (nrm r) l Rl) as [[-> _]|(y & m & cur3 & -> & E3 & R3)]; [now destruct Nl|]. unfold nrm in E3. rewrite E2 in E3. injection E3 as -> ->.
          eapply Gave_ok; [exact K|split; [exact B'|exact R3]|exact C'|]. intros n kept kls Lo Ck. exists (put c r kept), (put c (put c y m) kls). split; [now apply put_chunks|].
          split; [now apply loses_put|]. split; [rewrite put_concat, put_perm; reflexivity|]. intros ->. simpl. rewrite concat_app. simpl. now rewrite !app_nil_r, app_assoc.
    - eapply Failed_ok; [exact K|split; [exact Bi|exact Bc]|exact C|]. intros n kept kls Lo Ck. exists kept, kls. split; [exact Ck|]. split; [revert Lo; apply loses_le; lia|]. split; auto.
    - cbv beta iota in K. eapply Gave_ok; [exact K|split; [exact Bi|exact R1]|exact C|]. intros n kept kls Lo Ck. exists kept, kls. split; [exact Ck|]. split; [exact Lo|].
      split; [rewrite put_perm; reflexivity|]. intros ->. simpl. now rewrite app_assoc.
  Qed.

  Lemma descending (l : list T) : StronglySorted lt l -> StronglySorted (fun a b => lt b a) (rev l).
  Proof.
    induction 1 as [|x l S IH Fx]; simpl; [constructor|]. rewrite Forall_forall in Fx.
    assert (K : forall k : list T, StronglySorted (fun a b => lt b a) k -> (forall y, In y k -> lt x y) -> StronglySorted (fun a b => lt b a) (k ++ [x])).
    { clear. induction 1 as [|y k S IH Fy]; intros H; simpl; [repeat constructor|]. constructor; [apply IH; intros z Hz; apply H; now right|].
      rewrite Forall_forall in *. intros z Hz. apply in_app_iff in Hz as [Hz|[<-|[]]]; [auto|apply H; now left]. }
    apply K; auto. intros y Hy. apply Fx. now apply in_rev.
  Qed.

  (** ** Every schedule of calls at both ends *)
  (** A Selection built by unions of proper intervals in which no single value
      is missing between two members (with one missing, [next_back] is wrong
      without any panic: C51, C109).  The values that come out are those of the
      intervals [kept]: all but at most as many as there were panics.  None comes
      out twice.  [None] is returned only after all of them have come out.  With
      calls at the back only they come out in descending order without a gap. *)
  Theorem C107_both_ends_partial dbg (p : prog T) s li sched : inputs true p -> unions_only p -> run dbg p = Ok s -> sel_intervals_are dbg s li ->
    (forall x, ~ lone_gap (member dbg s) x) -> Forall (fun c => faithful (snd c)) sched ->
    exists out, attempts (sel_next_fault dbg) (sel_next_back_fault dbg) (sel_iter s) sched out /\ length out = length sched /\
      exists kept, loses (panics out) li kept /\ NoDup (items (answers out)) /\
        (forall x, In x (items (answers out)) -> exists j, In j kept /\ ipoints j x) /\
        (In (Some None) out -> forall j x, In j kept -> ipoints j x -> In x (items (answers out))) /\
        (backward sched -> StronglySorted (fun a b => lt b a) (items (answers out)) /\
           forall j x y, In j kept -> ipoints j x -> In y (items (answers out)) -> lt y x -> In x (items (answers out))).
  Proof.
    intros H U E Hl N Hs. destruct (run_open dbg p s H U E) as [W Op]. apply sel_intervals_pieces in Hl; auto. subst li.
    pose proof (no_lone_holeless dbg p s H U E N) as Ho. destruct (chunks_of s W (open_gapless _ Op) _ (incl_refl _)) as (ls & C).
    destruct (both_fault dbg sched _ _ ls [] Hs (both_start s ls W Ho C) C) as (out & A & L & kept & kls & rest & Ck & Lo & P & Fin & Bw).
    exists out. split; [exact A|]. split; [exact L|]. exists (map nrm kept). split; [now apply loses_map|]. simpl in P.
    assert (Ss : StronglySorted lt (concat kls)).
    { apply (chunks_sorted kept kls Ck); [|apply (loses_sorted _ _ _ _ Lo); now apply pieces_sorted].
      apply Forall_forall. intros r Hr. apply (piece_wf s r). now apply (loses_in _ _ _ _ Lo). }
    assert (M : forall x, In x (items (answers out) ++ rest) <-> exists j, In j (map nrm kept) /\ ipoints j x).
    { intros x. rewrite (Permutation_in' eq_refl P). rewrite (chunks_in kept kls x Ck). split.
      - intros (r & Hr & Hx). exists (nrm r). split; [now apply in_map|]. now apply nrm_points.
      - intros (j & Hj & Hx). apply in_map_iff in Hj as (r & <- & Hr). exists r. split; auto. now apply (proj1 (nrm_points _ _)) in Hx. }
    assert (ND : NoDup (items (answers out) ++ rest)).
    { apply (Permutation_NoDup (Permutation_sym P)). clear - Ss. induction Ss as [|x l S IH Fx]; constructor; auto. intros Hx. rewrite Forall_forall in Fx. specialize (Fx x Hx). order. }
    split; [|split; [|split]].
    - clear - ND. induction (items (answers out)) as [|x l IH]; [constructor|]. simpl in ND. inversion ND as [|? ? Nx ND']; subst.
      constructor; [|auto]. intros Hx. apply Nx, in_app_iff. now left.
    - intros x Hx. apply M, in_app_iff. now left.
    - intros Q j x Hj Hx. rewrite (Fin Q), app_nil_r in M. apply M. eauto.
    - intros Bk. specialize (Bw Bk). rewrite app_nil_r in Bw. pose proof (descending _ Ss) as D. rewrite <- Bw in D.
      assert (Sp : forall a b : list T, StronglySorted (fun a b => lt b a) (a ++ b) -> StronglySorted (fun a b => lt b a) a /\ forall x y, In x a -> In y b -> lt y x).
      { clear. intros a b. induction a as [|z a IHa]; simpl; intros S; [split; [constructor|intros ? ? []]|].
        inversion S as [|? ? S1 S2]; subst. destruct (IHa S1) as [I1 I2]. rewrite Forall_forall in S2. split.
        - constructor; auto. rewrite Forall_forall. intros w Hw. apply S2, in_app_iff. now left.
        - intros x y [<-|Hx] Hy; [apply S2, in_app_iff; now right|now apply I2]. }
      destruct (Sp _ _ D) as [S1 S2]. split; [exact S1|]. intros j x y Hj Hx Hy Lt. assert (I : In x (items (answers out) ++ rest)) by (apply M; eauto).
      apply in_app_iff in I as [I|I]; auto. exfalso. specialize (S2 y x Hy I). clear - S2 Lt. order.
  Qed.

  (** ** With debug assertions, any shape *)
  Lemma stands_at_fault s it c g a : wf s -> gapless (den false s) -> stands_at s it -> faithful g -> fault_of true c g it = Ok a ->
    match a with
    | Gave o it' => call (sel_next true) (sel_next_back true) c it = Ok (o, it')
    | Failed it' => stands_at s it' /\ forall y, to_come s it' y -> to_come s it y
    end.
  Proof.
    intros W G (St & lc & Rc & Cl) Hg Ef. destruct it as [its cur]. cbn [si_intervals si_current] in *.
    assert (St0 : stands_at s {| si_intervals := its; si_current := cur |}) by (split; auto; exists lc; auto).
    assert (CS : call (sel_next true) (sel_next_back true) c {| si_intervals := its; si_current := cur |} =
      (do (x, cur1) <- inext c cur;
       match x with
       | Some _ => Ok (x, {| si_intervals := its; si_current := cur1 |})
       | None => do (y, its1) <- tnext true c its;
                 match y with
                 | None => Ok (None, {| si_intervals := its1; si_current := cur1 |})
                 | Some r => do (x', cur') <- inext c (nrm r); Ok (x', {| si_intervals := its1; si_current := cur' |})
                 end
       end)) by (destruct c; reflexivity).
    destruct (inext_rep c cur lc Rc) as [[-> E]|(x & m & cur1 & -> & E & R1)]; rewrite E in CS; cbn [bind] in CS;
      destruct (fault_cases true c g its cur _ _ Hg E) as [K|K].
    - rewrite K in Ef. injection Ef as <-. auto.
    - destruct (tnext true c its) as [[[r|] its1]|] eqn:Et; [|rewrite K in Ef; injection Ef as <-; exact CS|rewrite K in Ef; discriminate].
      cbn [bind] in CS.
      assert (Y : stands s its1 /\ proper_yield s its (Some r) its1) by (destruct c; [now apply stands_next|now apply stands_back]).
      destruct Y as [St1 [Inc Y]]. destruct K as [K|[K|(x & cur2 & E2 & K)]]; rewrite K in Ef; injection Ef as <-.
      + split; [split; [exact St1|exists []; auto]|]. now apply still_to_come.
      + destruct Y as [->|(Ir & u & Iu & Nu & Eu)].
        * split; [split; [exact St1|exists []; split; [apply irep_empty|auto]]|]. apply still_to_come; [exact Inc|]. intros y Hy. discriminate.
        * destruct (nrm_rep s r W G Ir) as (l & Rl & Hy). split.
          -- split; [exact St1|]. exists l. split; [exact Rl|]. right. exists r, u. pose proof (stands_in s its St u Iu). auto 8.
          -- intros y [Ky|(r' & u' & Ir' & Iu' & Ky)]; right; simpl in *; [|exists r', u'; auto].
             exists r, u. split; [exact Ir|]. split; [exact Iu|]. split; [exact Eu|]. now apply (proj1 (nrm_points _ _)).
      + unfold nrm in CS. rewrite E2 in CS. exact CS.
    - rewrite K in Ef. injection Ef as <-. auto.
    - rewrite K in Ef. injection Ef as <-. exact CS.
  Qed.

  (** Whatever panics and whatever calls are made at the two ends: every value
      that comes out is a member, and none comes out twice. *)
  Theorem C107_ends_sound dbg (p : prog T) s sched out : inputs true p -> shallow p -> run dbg p = Ok s ->
    Forall (fun c => faithful (snd c)) sched ->
    attempts (sel_next_fault true) (sel_next_back_fault true) (sel_iter s) sched out ->
    (forall x, In x (items (answers out)) -> member dbg s x) /\ NoDup (items (answers out)).
  Proof.
    intros H U E Hs R. destruct (run_gapless dbg p s H U E) as [W G].
    assert (St : stands_at s (sel_iter s)) by (split; [apply stands_start|exists []; split; [apply irep_empty|auto]]).
    assert (K : (forall x, In x (items (answers out)) -> to_come s (sel_iter s) x) /\ NoDup (items (answers out))).
    { revert Hs R St. generalize (sel_iter s). clear - W G. intros it Hs R. induction R as [it|it it' d g o sched out En R IH|it it' d g sched out En R IH]; intros St.
      - split; [intros x []|constructor].
      - inversion Hs as [|? ? Hg Hs']; subst. cbn [snd] in Hg. pose proof (stands_at_fault s it d g (Gave o it') W G St Hg ltac:(destruct d; exact En)) as C. cbv beta iota in C.
        destruct (stands_at_call s it d o it' W G St C) as (St' & Inc & Y). destruct (IH Hs' St') as [H1 H2].
        destruct o as [x|]; cbn [answers items]; [|split; auto]. destruct Y as [Y1 Y2]. split; [intros y [<-|Hy]; auto|]. constructor; auto.
      - inversion Hs as [|? ? Hg Hs']; subst. cbn [snd] in Hg. destruct (stands_at_fault s it d g (Failed it') W G St Hg ltac:(destruct d; exact En)) as [St' Inc].
        destruct (IH Hs' St') as [H1 H2]. cbn [answers]. split; auto. }
    destruct K as [K1 K2]. split; auto. intros x Hx. apply member_in; auto. apply (to_come_member s (sel_iter s)); auto.
  Qed.
End Values.
Print Assumptions C107_both_ends_partial.
Print Assumptions C107_ends_sound.

(** The first call at the back panics and loses 7 .. 8. *)
Example C107_ex_both : exists s li out, inputs true p13 /\ unions_only p13 /\ run true p13 = Ok s /\ sel_intervals_are true s li /\ li = [cl 1 3; cl 7 8] /\
  (forall x, ~ lone_gap (member true s) x) /\
  Forall (fun c => faithful (snd c)) [(Back, g_bad); (Back, g_at (v 3)); (Back, g_ok); (Front, g_bad); (Front, g_ok); (Back, g_ok); (Front, g_ok)] /\
  out = [None; Some (Some (v 3)); Some (Some (v 2)); Some (Some (v 1)); Some None; Some None; Some None] /\
  attempts (sel_next_fault true) (sel_next_back_fault true) (sel_iter s)
    [(Back, g_bad); (Back, g_at (v 3)); (Back, g_ok); (Front, g_bad); (Front, g_ok); (Back, g_ok); (Front, g_ok)] out /\
  loses (panics out) li [cl 1 3] /\ items (answers out) = [v 3; v 2; v 1].
Proof.
  destruct (run true p13) as [s|] eqn:E; [|discriminate E]. exists s.
  destruct (run_open true p13 s ltac:(exact I13) I E) as [W Op].
  assert (N : forall x, ~ lone_gap (member true s) x).
  { intros x Hx. apply lone_member in Hx; auto. apply hole_open in Hx; auto. apply hole_tine in Hx; auto. injection E as <-.
    simpl in Hx. repeat (destruct Hx as [Hx|Hx]; [discriminate Hx|]). destruct Hx. }
  clear W Op. injection E as <-. eexists _, _. split; [exact I13|]. split; [exact I|]. split; [reflexivity|].
  split; [eapply drains_cons; [reflexivity|]; eapply drains_cons; [reflexivity|]; eapply drains_nil; reflexivity|].
  split; [reflexivity|]. split; [exact N|].
  split; [repeat apply Forall_cons; try apply Forall_nil; first [exact g_bad_faithful|exact g_ok_faithful|exact (g_at_faithful (v 3))]|].
  split; [reflexivity|]. split; [|split; [repeat constructor|reflexivity]].
  eapply attempts_failed; [reflexivity|]. do 6 (eapply attempts_gave; [reflexivity|]). constructor.
Qed.

(** {1, 3, 5} has a single value missing; the calls made stay sound. *)
Example C107_ex_ends : exists s out, inputs true (P_points [v 1; v 3; v 5]) /\ shallow (P_points [v 1; v 3; v 5]) /\ run true (P_points [v 1; v 3; v 5]) = Ok s /\
  out = [None; Some (Some (v 1))] /\ Forall (fun c => faithful (snd c)) [(Back, g_bad); (Back, g_ok)] /\
  attempts (sel_next_fault true) (sel_next_back_fault true) (sel_iter s) [(Back, g_bad); (Back, g_ok)] out.
Proof.
  eexists _, _. split; [simpl; auto|]. split; [simpl; auto|]. split; [reflexivity|]. split; [reflexivity|].
  split; [repeat apply Forall_cons; try apply Forall_nil; first [exact g_bad_faithful|exact g_ok_faithful]|].
  eapply attempts_failed; [reflexivity|]. eapply attempts_gave; [reflexivity|]. constructor.
Qed.

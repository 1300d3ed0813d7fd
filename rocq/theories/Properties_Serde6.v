(** * Adding any list of tines to a tree: C115 *)
From Coq Require Import List Bool ZArith Lia.
From Verif Require Import Base MBound MRaw MNormalize MTine MBTree MTineTree MInterval MSelection
  Spec Spec_Tree Spec_Sel Spec_Take OrdFacts PRaw PTree PTree3 PTree7 Properties_Tree Properties_Serde3 Instances.
Import ListNotations.
Local Open Scope list_scope.

Section Union.
  Context {T : Type} {O : Ord T}.
  Implicit Types (s q : list (Tine T)) (it : Iter T) (r : RawInterval T).

  Lemma takes_wf dbg q r q' : takes dbg q r q' -> raw_wf r.
  Proof. destruct 1; try exact I; apply raw_new_wf. Qed.

  Lemma tree_total dbg s x : tree_wf s -> exists b, tree_contains dbg s x = Ok b.
  Proof. intros W. rewrite tree_contains_den by now apply wf_tree_wf. eauto. Qed.
  Lemma is_holds dbg s (P : T -> Prop) : tree_wf s -> (tree_is dbg s P <-> forall x, holds dbg s x <-> P x).
  Proof.
    intros W. unfold tree_is, holds. split; intros H x.
    - destruct (H x) as (b & -> & K). rewrite <- K. split; [now intros [= ->]|now intros ->].
    - destruct (tree_total dbg s x W) as [b E]. exists b. split; auto. rewrite <- H, E. split; [now intros ->|now intros [= ->]].
  Qed.

  Lemma union_took dbg n : forall it q s, left_of it q -> length q < n -> tree_wf s ->
    (exists l, took dbg q l [] /\
       exact dbg (iter_fold_fuel n dbg (fun acc i => tree_union_in_place dbg acc i) it s) (fun x => holds dbg s x \/ some_contains l x)) \/
    ((forall l, ~ took dbg q l []) /\ iter_fold_fuel n dbg (fun acc i => tree_union_in_place dbg acc i) it s = Panic).
  Proof.
    induction n as [|n IH]; intros it q s H N W; [lia|]. cbn [iter_fold_fuel].
    destruct (next_answers dbg it q H) as [it' -> Lf|r it' q' Tk Lf Sz|Ne P]; cbn [bind].
    - left. exists []. split; [constructor|]. exists s. split; auto. split; auto. apply is_holds; auto. intros x. split; [auto|intros [K|(r & [] & _)]; auto].
    - destruct (C29_union_in_place dbg s r W (takes_wf _ _ _ _ Tk)) as (s1 & E & W1 & H1). rewrite E. cbn [bind].
      destruct (IH it' q' s1 Lf) as [(l & Tl & s' & E' & W' & H')|[Nl E']]; [lia|auto| |].
      + left. exists (r :: l). split; [econstructor; eauto|]. exists s'. split; auto. split; auto. apply is_holds; auto. intros x. rewrite (proj1 (is_holds _ _ _ W') H' x), (proj1 (is_holds _ _ _ W1) H1 x). unfold some_contains. cbn [In]. split.
        * intros [[K|K]|(r' & I' & K)]; eauto 6.
        * intros [K|(r' & [<-|I'] & K)]; eauto 6.
      + right. split; auto. intros l Tl. inversion Tl as [|? ? q'' ? ? Tk' Tl']; subst; [inversion Tk|].
        destruct (takes_det _ _ _ _ _ _ Tk Tk') as [-> ->]. now apply Nl in Tl'.
    - right. split; [|reflexivity]. intros l Tl. inversion Tl; subst; [congruence|]. now apply P in H0.
  Qed.

  (** A well-formed tree and any sequence of tines: [union] adds the values of all the intervals read from
      it, whatever their order, and leaves a well-formed tree; it panics exactly if they cannot all be read. *)
  Theorem C115_union_any dbg s q : tree_wf s ->
    (forall l, took dbg q l [] -> exact dbg (tree_union dbg s q) (fun x => holds dbg s x \/ some_contains l x)) /\
    (tree_union dbg s q = Panic <-> forall l, ~ took dbg q l []).
  Proof.
    intros W. unfold tree_union, iter_fold. assert (Lf : left_of (tree_interval_iter q) q) by constructor. rewrite (left_size _ _ Lf).
    destruct (union_took dbg (S (length q)) _ q s Lf) as [(l & Tl & X)|[Nl E]]; [lia|auto| |].
    - split.
      + intros l' Tl'. now rewrite (took_det _ _ _ _ Tl' Tl).
      + destruct X as (s' & -> & _). split; [discriminate|]. intros K. now apply K in Tl.
    - split; [intros l Tl; now apply Nl in Tl|]. split; auto.
  Qed.

  (** So adding it to an empty Selection makes a well-formed one that contains the same values. *)
  Theorem C115_repair dbg q : ((exists l, took dbg q l []) ->
      exists s, tree_union dbg tree_new q = Ok s /\ tree_wf s /\ forall x, tree_contains dbg s x = tree_contains dbg q x) /\
    (tree_union dbg tree_new q = Panic <-> iter_collect dbg (tree_interval_iter q) = Panic).
  Proof.
    assert (W0 : tree_wf (@tree_new T)) by (split; [constructor|reflexivity]).
    destruct (C115_union_any dbg tree_new q W0) as [A B]. destruct (C115_iter_exact dbg q) as (_ & _ & Cp & Ct & Cf). split; [|now rewrite B, Cp].
    intros [l Tl]. destruct (A l Tl) as (s & E & W & H). exists s. split; auto. split; auto. intros x.
    assert (Hx : holds dbg s x <-> some_contains l x).
    { rewrite (proj1 (is_holds _ _ _ W) H x). unfold holds. cbn. split; [intros [K|K]; [discriminate K|auto]|auto]. }
    unfold sel_contains in *. destruct (tree_contains dbg q x) as [[|]|] eqn:Eq.
    - apply Hx. apply Ct in Eq as (l' & s' & r & Tl' & Ir & K). exists r. split; auto.
      destruct (took_last _ _ _ _ _ Tl' Ir) as (l1 & q1 & Tl1). eapply took_meets; eauto.
    - assert (Nh : ~ holds dbg s x).
      { rewrite Hx. intros (r & Ir & K). apply Cf in Eq as (l' & Tl' & Fa). rewrite (took_det _ _ _ _ Tl Tl') in Ir. rewrite (Fa r Ir) in K. discriminate. }
      destruct (tree_total dbg s x W) as [[|] Eb]; auto. now destruct Nh.
    - exfalso. destruct (existsb (fun r => raw_contains r x) l) eqn:Ex.
      + apply existsb_exists in Ex as (r & Ir & K). assert (X : Panic = Ok true) by (rewrite <- Eq; apply Ct; eauto 6). discriminate X.
      + assert (X : Panic = Ok false); [|discriminate X]. rewrite <- Eq. apply Cf. exists l. split; auto. intros r Ir.
        destruct (raw_contains r x) eqn:K; auto. rewrite <- Ex. symmetry. apply existsb_exists. eauto.
  Qed.
End Union.
Print Assumptions C115_union_any.
Print Assumptions C115_repair.

(** Two intervals read in the wrong order, which overlap: they become one. *)
Example C115_repair_ex :
  let q := [TLower (Include 5); TUpper (Include 9); TLower (Include 2); TUpper (Include 6)]%Z in
  took true q [Closed 5 9; Closed 2 6]%Z [] /\ ~ tree_wf q /\
  tree_union true tree_new q = Ok [TLower (Include 2); TUpper (Include 9)]%Z /\ tree_contains true q 3%Z = Ok true.
Proof.
  cbv zeta. split; [apply (C115_iter_exact true); reflexivity|]. split; [|split; reflexivity].
  intros [S _]. inversion S as [|? ? _ Fa]; subst. inversion Fa as [|? ? _ Fb]; subst. inversion Fb as [|? ? X _]; subst. discriminate X.
Qed.

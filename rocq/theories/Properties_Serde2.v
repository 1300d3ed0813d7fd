(** * What the deserialiser of a Selection makes of any input: C89 *)
From Coq Require Import List Bool ZArith Lia Sorted Permutation String.
From Verif Require Import Base OrdFacts Ints MBound MTine MBTree MTineTree MSelection MSerde Instances Properties_Interval Properties_Serde.
Import ListNotations.
Local Open Scope list_scope.
Local Arguments cmp : simpl never.

(** The specification.  The bound of a tine, and when two tines sit at the same place: at one finite value, whatever
    their kinds, or the same infinite tine. *)
Definition bound_in {T} (t : Tine T) : Bound T := match t with TLower b | TPoint b | TUpper b => b end.
Definition at_same {T} (t u : Tine T) : Prop :=
  match bound_in t, bound_in u with
  | (Include x | Exclude x), (Include y | Exclude y) => x = y
  | Infinite, Infinite => t = u
  | _, _ => False
  end.
(** The first tine in the list at its place. *)
Definition first_at {T} (l : list (Tine T)) (t : Tine T) : Prop :=
  exists a b, l = a ++ t :: b /\ forall u, In u a -> ~ at_same u t.
(** A point at infinity comes with a tine that is neither the lower nor the upper end at infinity. *)
Definition clash {T} (l : list (Tine T)) : Prop :=
  exists a b u, l = a ++ TPoint Infinite :: b /\ In u (a ++ b) /\ u <> TLower Infinite /\ u <> TUpper Infinite.

Section Read.
  Context {T : Type} {O : Ord T} {D : Serde T}.
  Implicit Types t u w x : Tine T.

  Ltac kinds := repeat match goal with
    | t : Tine T |- _ => destruct t as [[]|[]|[]]
    end; cbn in *; try discriminate; try congruence; try contradiction; auto.

  Lemma same_refl t : at_same t t.
  Proof. now destruct t as [[]|[]|[]]. Qed.
  Lemma same_sym t u : at_same t u -> at_same u t.
  Proof. kinds. Qed.
  Lemma same_trans t u w : at_same t u -> at_same u w -> at_same t w.
  Proof. unfold at_same. destruct (bound_in t), (bound_in u), (bound_in w); try contradiction; try congruence. Qed.
  Lemma same_pinf t : at_same t (TPoint Infinite) -> t = TPoint Infinite.
  Proof. destruct t as [[]|[]|[]]; cbn; try contradiction; congruence. Qed.
  Definition ends t : Prop := t = TLower Infinite \/ t = TUpper Infinite.
  Lemma same_ends t u : at_same t u -> ends t -> ends u.
  Proof. unfold ends. destruct t as [[]|[]|[]], u as [[]|[]|[]]; cbn; intros H [K|K]; try discriminate; try contradiction; auto; discriminate. Qed.

  Definition clear_of t u : Prop := tine_partial_cmp t u <> Panic.
  Lemma clear_cmp t u : clear_of t u -> tine_partial_cmp t u = Ok (tine_cmp t u).
  Proof. unfold clear_of, tine_cmp. now destruct (tine_partial_cmp t u). Qed.
  Lemma cmp_same t u : clear_of t u -> (tine_cmp t u = Eq <-> at_same t u).
  Proof.
    intros H. apply clear_cmp in H. unfold tine_cmp in *.
    destruct t as [[x|x|]|[x|x|]|[x|x|]], u as [[y|y|]|[y|y|]|[y|y|]]; cbn in *; split; intros K; try discriminate; try contradiction; auto;
      try (now apply cmp_eq); try (subst; now apply cmp_eq).
  Qed.
  Lemma cmp_lt_trans t u w : tine_cmp t u = Lt -> tine_cmp u w = Lt -> tine_cmp t w = Lt.
  Proof.
    unfold tine_cmp.
    destruct t as [[x|x|]|[x|x|]|[x|x|]], u as [[y|y|]|[y|y|]|[y|y|]]; cbn; try discriminate;
    destruct w as [[z|z|]|[z|z|]|[z|z|]]; cbn; try discriminate; auto; order.
  Qed.
  Lemma cmp_gt_flip t u : tine_cmp t u = Gt -> tine_cmp u t = Lt.
  Proof.
    unfold tine_cmp. destruct t as [[x|x|]|[x|x|]|[x|x|]], u as [[y|y|]|[y|y|]|[y|y|]]; cbn; try discriminate; auto; order.
  Qed.
  Lemma cmp_lt_irrefl t : tine_cmp t t <> Lt.
  Proof. unfold tine_cmp. destruct t as [[x|x|]|[x|x|]|[x|x|]]; cbn; try discriminate; order. Qed.
  Lemma cmp_lt_same t u : tine_cmp t u = Lt -> ~ at_same t u.
  Proof.
    intros H K. assert (C : clear_of t u) by (intros P; unfold tine_cmp in H; rewrite P in H; discriminate).
    apply (cmp_same _ _ C) in K. congruence.
  Qed.

  Definition sorted (s : list (Tine T)) := StronglySorted (fun a b => tine_cmp a b = Lt) s.
  Lemma sorted_unique s : forall s', sorted s -> sorted s' -> (forall t, In t s <-> In t s') -> s = s'.
  Proof.
    induction s as [|x s IH]; intros [|y s'] A B H; auto.
    - now destruct (proj2 (H y) (or_introl eq_refl)).
    - now destruct (proj1 (H x) (or_introl eq_refl)).
    - inversion A as [|? ? A1 A2]; subst. inversion B as [|? ? B1 B2]; subst. rewrite Forall_forall in A2, B2.
      assert (x = y) as ->.
      { destruct (proj1 (H x) (or_introl eq_refl)) as [E|E]; auto. destruct (proj2 (H y) (or_introl eq_refl)) as [E'|E']; auto.
        specialize (A2 _ E'). specialize (B2 _ E). destruct (cmp_lt_irrefl x). eapply cmp_lt_trans; eauto. }
      f_equal. apply IH; auto. intros t. split; intros K.
      + destruct (proj1 (H t) (or_intror K)) as [<-|]; auto. specialize (A2 _ K). now destruct (cmp_lt_irrefl y).
      + destruct (proj2 (H t) (or_intror K)) as [<-|]; auto. specialize (B2 _ K). now destruct (cmp_lt_irrefl y).
  Qed.

  (** Inserting a tine that can be compared with all. *)
  Lemma insert_clear t s : sorted s -> (forall u, In u s -> clear_of t u) ->
    exists r, try_insert t s = Ok r /\ sorted r /\ forall w, In w r <-> In w s \/ (w = t /\ forall u, In u s -> ~ at_same t u).
  Proof.
    intros A C. induction A as [|x s A IH B].
    - exists [t]. split; [reflexivity|]. split; [repeat constructor|]. intros w. cbn. intuition.
    - cbn [try_insert]. rewrite (clear_cmp t x) by (apply C; now left). cbn [bind]. pose proof (cmp_same t x (C x (or_introl eq_refl))) as Q.
      rewrite Forall_forall in B. destruct (tine_cmp t x) eqn:E.
      + exists (x :: s). split; auto. split; [constructor; [auto|now apply Forall_forall]|]. intros w. split; [now left|].
        intros [H|[_ H]]; auto. exfalso. apply (H x); [now left|]. now apply Q.
      + exists (t :: x :: s). split; auto. split.
        * constructor; [constructor; [auto|now apply Forall_forall]|]. apply Forall_forall. intros w [<-|H]; auto. eapply cmp_lt_trans; eauto.
        * intros w. split.
          -- intros [<-|H]; [right|now left]. split; auto. intros u [<-|H]; [now apply cmp_lt_same|]. apply cmp_lt_same. eapply cmp_lt_trans; eauto.
          -- intros [H|[-> _]]; [now right|now left].
      + destruct IH as (r & Er & Ar & Hr); [intros u H; apply C; now right|].
        exists (x :: r). rewrite Er. split; auto. split.
        * constructor; auto. apply Forall_forall. intros w H. apply Hr in H as [H|[-> _]]; auto. now apply cmp_gt_flip.
        * intros w. cbn [In]. rewrite Hr. split.
          -- intros [H|[H|[-> H]]]; auto. right. split; auto. intros u [<-|K]; auto. intros K. apply Q in K. congruence.
          -- intros [[H|H]|[-> H]]; auto. right. right. split; auto.
  Qed.

  (** Inserting next to a point at infinity. *)
  Lemma insert_pinf_panics s f : sorted s -> In f s -> ~ ends f -> try_insert (TPoint Infinite) s = Panic.
  Proof.
    intros A. induction A as [|x s A IH B]; [contradiction|]. intros H N. rewrite Forall_forall in B. cbn [try_insert].
    destruct x as [[x|x|]|[x|x|]|[x|x|]]; try reflexivity; cbn -[try_insert].
    - rewrite IH; auto. destruct H as [<-|H]; auto. destruct N. now left.
    - destruct H as [<-|H]; [destruct N; now right|]. specialize (B _ H). destruct f as [[]|[]|[]]; discriminate.
  Qed.
  Lemma insert_panics_pinf s t : sorted s -> In (TPoint Infinite) s -> ~ ends t -> try_insert t s = Panic.
  Proof.
    intros A. induction A as [|x s A IH B]; [contradiction|]. intros H N. rewrite Forall_forall in B. cbn [try_insert].
    assert (E : x = TPoint Infinite \/ x = TLower Infinite).
    { destruct H as [H|H]; auto. specialize (B _ H). destruct x as [[]|[]|[]]; try discriminate. now right. }
    destruct E as [-> | ->].
    - destruct t as [[]|[]|[]]; try reflexivity; destruct N; unfold ends; auto.
    - destruct H as [H|H]; [discriminate|]. rewrite (IH H N). destruct t as [[]|[]|[]]; try reflexivity; destruct N; unfold ends; auto.
  Qed.

  (** Reading tines one after another. *)
  Fixpoint insert_all (l : list (Tine T)) (s : TineTree T) : res (TineTree T) :=
    match l with [] => Ok s | t :: l => do s' <- try_insert t s; insert_all l s' end.
  Lemma insert_all_app l : forall m s, insert_all (l ++ m) s = (do s' <- insert_all l s; insert_all m s').
  Proof. induction l as [|t l IH]; intros m s; cbn; auto. destruct (try_insert t s); cbn; auto. Qed.
  Lemma de_insert_all l : forall r s, tree_de_seq (map tine_ser l ++ r) s = (do s' <- insert_all l s; tree_de_seq r s').
  Proof.
    induction l as [|t l IH]; intros r s; cbn; auto. rewrite (proj2 (tine_exact _ t) eq_refl). destruct (try_insert t s); cbn; auto.
  Qed.

  Lemma first_in l t : first_at l t -> In t l.
  Proof. intros (a & b & -> & _). apply in_or_app. right. now left. Qed.
  Lemma same_dec t u : {at_same t u} + {~ at_same t u}.
  Proof.
    unfold at_same.
    assert (V : forall x y : T, {x = y} + {x <> y})
      by (intros x y; destruct (eqb x y) eqn:E; [left; now apply eqb_iff|right; intros Q; apply eqb_iff in Q; congruence]).
    destruct t as [[x|x|]|[x|x|]|[x|x|]], u as [[y|y|]|[y|y|]|[y|y|]]; cbn; auto; right; discriminate.
  Qed.
  Lemma first_snoc l t w : first_at (l ++ [t]) w <-> first_at l w \/ (w = t /\ forall u, In u l -> ~ at_same u t).
  Proof.
    split.
    - intros (a & b & E & H). destruct b as [|y b] using rev_ind.
      + apply app_inj_tail in E as [-> ->]. right. auto.
      + rewrite app_comm_cons, app_assoc in E. apply app_inj_tail in E as [-> ->]. left. now exists a, b.
    - intros [(a & b & -> & H)|[-> H]].
      + exists a, (b ++ [t]). split; auto. now rewrite <- app_assoc.
      + exists l, []. auto.
  Qed.
  Lemma first_rep l : forall u, In u l -> exists f, first_at l f /\ at_same f u.
  Proof.
    induction l as [|t l IH] using rev_ind; intros u H; [contradiction|]. apply in_app_or in H as [H|[<-|[]]].
    - destruct (IH _ H) as (f & K & S). exists f. split; auto. apply first_snoc. auto.
    - destruct (Exists_dec (fun u => at_same u t) l (fun u => same_dec u t)) as [E|E].
      + apply Exists_exists in E as (u & K & S). destruct (IH _ K) as (f & K' & S'). exists f. split; [apply first_snoc; auto|].
        eapply same_trans; eauto.
      + exists t. split; [|apply same_refl]. apply first_snoc. right. split; auto. intros u K S. apply E, Exists_exists. eauto.
  Qed.

  Lemma clash_app l t : clash l -> clash (l ++ [t]).
  Proof.
    intros (a & b & u & -> & H & K). exists a, (b ++ [t]), u. rewrite <- app_assoc. split; auto. split; auto.
    rewrite app_assoc. apply in_or_app. now left.
  Qed.
  (** The newcomer brings the clash. *)
  Lemma clash_snoc l t : clash (l ++ [t]) -> clash l \/
    (t = TPoint Infinite /\ exists u, In u l /\ ~ ends u) \/ (In (TPoint Infinite) l /\ ~ ends t).
  Proof.
    intros (a & b & u & E & H & K1 & K2). assert (Nu : ~ ends u) by (intros [|]; contradiction).
    destruct b as [|y b _] using rev_ind.
    - apply app_inj_tail in E as [-> ->]. right. left. split; auto. exists u. rewrite app_nil_r in H. auto.
    - rewrite app_comm_cons, app_assoc in E. apply app_inj_tail in E as [-> ->].
      rewrite app_assoc in H. apply in_app_or in H as [H|[<-|[]]].
      + left. exists a, b, u. auto.
      + right. right. split; auto. apply in_or_app. right. now left.
  Qed.
  Lemma snoc_clash l t u : In u l -> tine_partial_cmp t u = Panic -> clash (l ++ [t]).
  Proof.
    intros H P.
    assert (E : (t = TPoint Infinite /\ ~ ends u) \/ (u = TPoint Infinite /\ ~ ends t)).
    { unfold ends. destruct t as [[]|[]|[]], u as [[]|[]|[]]; cbn in P; try discriminate P;
        try (left; split; [reflexivity|intros [|]; discriminate]); right; (split; [reflexivity|intros [|]; discriminate]). }
    destruct E as [[-> N]|[-> N]].
    - exists l, [], u. split; auto. split; [now rewrite app_nil_r|]. split; intros ->; apply N; [now left|now right].
    - apply in_split in H as (a & b & ->). exists a, (b ++ [t]), t. rewrite <- app_assoc. split; auto.
      split; [rewrite app_assoc; apply in_or_app; right; now left|]. split; intros ->; apply N; [now left|now right].
  Qed.

  Lemma insert_all_spec l :
    (clash l /\ insert_all l [] = Panic) \/
    (~ clash l /\ exists s, insert_all l [] = Ok s /\ sorted s /\ forall t, In t s <-> first_at l t).
  Proof.
    induction l as [|t l IH] using rev_ind.
    - right. split; [intros ([|] & b & u & E & _); discriminate|]. exists []. split; auto. split; [constructor|].
      intros t. split; [contradiction|]. intros ([|] & b & E & _); discriminate.
    - rewrite insert_all_app. destruct IH as [[C ->]|[C (s & -> & A & H)]]; [left; split; [now apply clash_app|reflexivity]|]. cbn [bind insert_all].
      destruct (Exists_dec (fun u => tine_partial_cmp t u = Panic) l) as [E|E];
        [intros u; destruct (tine_partial_cmp t u); [right; discriminate|now left]| |].
      + left. apply Exists_exists in E as (u & Hu & P). pose proof (snoc_clash l t u Hu P) as K. split; auto.
        apply clash_snoc in K as [K|[[-> (w & Hw & N)]|[K N]]]; [contradiction| |].
        * destruct (first_rep _ _ Hw) as (f & Hf & S). rewrite (insert_pinf_panics s f); auto; [now apply H|].
          intros Q. apply N. eapply same_ends; eauto.
        * destruct (first_rep _ _ K) as (f & Hf & S). apply same_pinf in S. subst f.
          rewrite (insert_panics_pinf s t); auto. now apply H.
      + right. split.
        * intros K. apply clash_snoc in K as [K|[[-> (w & Hw & N)]|[K N]]]; auto; apply E, Exists_exists.
          -- exists w. split; auto. unfold ends in N. destruct w as [[]|[]|[]]; auto; destruct N; auto.
          -- exists (TPoint Infinite). split; auto. unfold ends in N. destruct t as [[]|[]|[]]; auto; destruct N; auto.
        * destruct (insert_clear t s A) as (r & Er & Ar & Hr).
          { intros u Hu P. apply E, Exists_exists. exists u. split; auto. now apply first_in, H. }
          exists r. rewrite Er. split; auto. split; auto. intros w. rewrite Hr, H, first_snoc. apply or_iff_compat_l.
          split; intros [-> K]; split; auto; intros u Hu S.
          -- destruct (first_rep _ _ Hu) as (f & Hf & S'). apply (K f); [now apply H|]. apply same_sym. eapply same_trans; eauto.
          -- apply (K u); [now apply first_in, H|now apply same_sym].
  Qed.

  (** Every list of items starts with tines up to its end or an item that is none. *)
  Lemma items (l : list content) : (exists m, l = map tine_ser m) \/
    (exists m d r, l = map tine_ser m ++ d :: r /\ forall t, d <> tine_ser t).
  Proof.
    induction l as [|c l IH]; [left; now exists []|].
    destruct (tine_de c) as [t|] eqn:E.
    - apply tine_exact in E as ->. destruct IH as [[m ->]|(m & d & r & -> & N)]; [left; now exists (t :: m)|].
      right. now exists (t :: m), d, r.
    - right. exists [], c, l. split; auto. intros t Q. apply tine_exact in Q. congruence.
  Qed.
  Lemma ser_inj (m m' : list (Tine T)) : map tine_ser m = map tine_ser m' -> m = m'.
  Proof. intros E. apply C88_selection_injective. unfold sel_ser, tree_ser. now rewrite E. Qed.
  Lemma split_unique (m m' : list (Tine T)) d d' r r' : (forall t, d <> tine_ser t) -> (forall t, d' <> tine_ser t) ->
    map tine_ser m ++ d :: r = map tine_ser m' ++ d' :: r' -> m = m'.
  Proof.
    intros N N'. revert m'. induction m as [|t m IH]; intros [|u m'] E; cbn in E; auto.
    - injection E as E _. now apply N in E.
    - injection E as E _. symmetry in E. now apply N' in E.
    - injection E as E E'. f_equal; [|now apply IH]. assert (K : tine_de (tine_ser t) = Some t) by now apply tine_exact.
      rewrite E, (proj2 (tine_exact _ u) eq_refl) in K. congruence.
  Qed.
  Lemma split_all (m m' : list (Tine T)) d r : (forall t, d <> tine_ser t) -> map tine_ser m = map tine_ser m' ++ d :: r -> False.
  Proof.
    intros N. revert m. induction m' as [|u m' IH]; intros [|t m] E; cbn in E; try discriminate.
    - injection E as E _. symmetry in E. now apply N in E.
    - injection E as _ E. now apply IH in E.
  Qed.
  Lemma clash_grows (m n : list (Tine T)) : clash m -> clash (m ++ n).
  Proof.
    intros K. induction n as [|t n IH] using rev_ind; [now rewrite app_nil_r|]. rewrite app_assoc. now apply clash_app.
  Qed.
  (** A clash among the first items is one among the tines up to the first item that is none. *)
  Lemma clash_prefix (m m' : list (Tine T)) d r r' : (forall t, d <> tine_ser t) -> map tine_ser m ++ d :: r = map tine_ser m' ++ r' ->
    clash m' -> clash m.
  Proof.
    intros N E K. assert (H : exists n, m = m' ++ n).
    { clear K. revert m E. induction m' as [|u m' IH]; intros [|t m] E; cbn in E; try (eexists; reflexivity).
      - injection E as E _. now apply N in E.
      - injection E as E1 E2. apply IH in E2 as (n & ->). exists n. cbn. f_equal.
        assert (Q : tine_de (tine_ser t) = Some t) by now apply tine_exact.
        rewrite E1, (proj2 (tine_exact _ u) eq_refl) in Q. congruence. }
    destruct H as (n & ->). now apply clash_grows.
  Qed.
  Lemma clash_prefix_all (m m' : list (Tine T)) r' : map tine_ser m = map tine_ser m' ++ r' -> clash m' -> clash m.
  Proof.
    intros E K. destruct (items r') as [[n ->]|(n & d & r & -> & N)].
    - rewrite <- map_app in E. apply ser_inj in E as ->. now apply clash_grows.
    - rewrite app_assoc, <- map_app in E. now apply split_all in E.
  Qed.

  (** Reading is decided for every input.  It panics exactly if among the tines before the first item that is no tine
      a point at infinity comes with a tine other than the two infinite ends.  Otherwise it is an error exactly if the
      input is no sequence or has an item that is no tine; and otherwise it gives, in order, the first tine at each
      place. *)
  Theorem C89_read_exact (c : content) :
    (sel_de (T := T) c = Panic <-> exists (l : list (Tine T)) r, c = CSeq (map tine_ser l ++ r) /\ clash l) /\
    (sel_de (T := T) c = Ok None <-> (forall l, c <> CSeq l) \/
      exists (l : list (Tine T)) d r, c = CSeq (map tine_ser l ++ d :: r) /\ (forall t : Tine T, d <> tine_ser t) /\ ~ clash l) /\
    (forall s : Selection T, sel_de c = Ok (Some s) <->
      exists l, c = CSeq (map tine_ser l) /\ ~ clash l /\ StronglySorted (fun a b => tine_cmp a b = Lt) s /\ forall t, In t s <-> first_at l t).
  Proof.
    unfold sel_de, tree_de. destruct c as [z|n|n c|n l|items0].
    1-4: split; [split; [discriminate|intros (? & ? & ? & _); discriminate]|]; split; [split; [left; discriminate|auto]|];
         intros s; split; [discriminate|intros (? & ? & _); discriminate].
    destruct (items items0) as [[m ->]|(m & d & r & -> & N)].
    - pose proof (de_insert_all m [] []) as E. rewrite app_nil_r in E. rewrite E. clear E.
      destruct (insert_all_spec m) as [[C ->]|[C (s & -> & A & H)]]; cbn [bind tree_de_seq].
      + split; [split; auto; intros _; exists m, []; rewrite app_nil_r; auto|]. split; [split; [discriminate|]|intros s; split; [discriminate|]].
        * intros [K|(l & d & r & K & N & _)]; [now destruct (K (map tine_ser m))|]. injection K as K. now apply split_all in K.
        * intros (l & K & C' & _). injection K as K. apply ser_inj in K as ->. contradiction.
      + split; [split; [discriminate|]|split; [split; [discriminate|]|]].
        * intros (l & r & K & C'). injection K as K. apply clash_prefix_all in K; auto. contradiction.
        * intros [K|(l & d & r & K & N & _)]; [now destruct (K (map tine_ser m))|]. injection K as K. now apply split_all in K.
        * intros s'. split.
          -- intros [= <-]. exists m. auto.
          -- intros (l & K & _ & A' & H'). injection K as K. apply ser_inj in K as <-. do 2 f_equal. apply sorted_unique; auto.
             intros t. now rewrite H, H'.
    - rewrite de_insert_all. assert (Ed : tine_de d = None).
      { destruct (tine_de d) as [t|] eqn:E; auto. apply tine_exact in E. now apply N in E. }
      destruct (insert_all_spec m) as [[C ->]|[C (s & -> & A & H)]]; cbn [bind tree_de_seq]; rewrite ?Ed.
      + split; [split; auto; intros _; now exists m, (d :: r)|]. split; [split; [discriminate|]|intros s; split; [discriminate|]].
        * intros [K|(l & d' & r' & K & N' & C')]; [now destruct (K (map tine_ser m ++ d :: r))|]. injection K as K.
          apply split_unique in K; auto. congruence.
        * intros (l & K & _). injection K as K. symmetry in K. now apply split_all in K.
      + split; [split; [discriminate|]|split; [split; auto|]].
        * intros (l & r' & K & C'). injection K as K. apply (clash_prefix m l d r r' N) in K; auto. contradiction.
        * intros _. right. exists m, d, r. auto.
        * intros s'. split; [discriminate|]. intros (l & K & _). injection K as K. symmetry in K. now apply split_all in K.
  Qed.
End Read.
Print Assumptions C89_read_exact.

(** Beside it: two tines at 4, of which the first stays; a panic; an error after the tines; a point at infinity between
    the two ends, which is taken. *)
Example C89_read_ex :
  let three : list (Tine i8) := [TUpper (Include (v 9)); TLower (Include (v 4)); TPoint (Include (v 4))] in
  sel_de (CSeq (map tine_ser three)) = Ok (Some [TLower (Include (v 4)); TUpper (Include (v 9))]) /\
  first_at three (TLower (Include (v 4))) /\ ~ first_at three (TPoint (Include (v 4))) /\ ~ clash three /\
  clash [TPoint Infinite; TLower (Include (v 4))] /\ sel_de (T := i8) (CSeq (map tine_ser three ++ [CInt 3])) = Ok None /\
  sel_de (CSeq (map tine_ser [TUpper (T := i8) Infinite; TPoint Infinite; TLower Infinite])) =
    Ok (Some [TLower (T := i8) Infinite; TPoint Infinite; TUpper Infinite]).
Proof.
  cbv zeta. split; [vm_compute; reflexivity|]. split.
  { exists [TUpper (Include (v 9))], [TPoint (Include (v 4))]. split; auto. intros u [<-|[]]. cbn. discriminate. }
  split.
  { intros (a & b & E & H). destruct a as [|? [|? [|? [|? ?]]]]; try discriminate. injection E as <- <- _.
    apply (H (TLower (Include (v 4)))); cbn; auto. }
  split; [intros (a & b & u & E & _); destruct a as [|? [|? [|? [|? ?]]]]; discriminate|].
  split; [exists [], [TLower (Include (v 4))], (TLower (Include (v 4))); cbn; repeat split; auto; discriminate|].
  split; vm_compute; reflexivity.
Qed.

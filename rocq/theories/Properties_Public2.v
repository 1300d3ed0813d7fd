(** * Raw intervals written with the public variants: exactly when union adds a value (C91) *)
From Coq Require Import List Bool ZArith Lia.
From Verif Require Import Base OrdFacts Pos PFinite Ints MBound MRaw
  Spec PRaw PRaw2 Instances Properties_Raw Properties_Public.
Import ListNotations.
Local Open Scope list_scope.
Local Arguments cmp : simpl never.

Section Union.
  Context {T : Type} {O : Ord T}.
  Implicit Types (a b : RawInterval T).

  (** Written with the lower end above the upper one, or with both ends at one
      value that is excluded at one of them. *)
  Definition out_of_order a : Prop :=
    match a with
    | Closed l u => lt u l
    | Open l u | LeftOpen l u | RightOpen l u => le u l
    | _ => False
    end.
  (** The lower end of [a] and the upper end of [b] are at [x], and one of them
      includes it. *)
  Definition joined_at a b x : Prop :=
    match raw_lower_bound a, raw_upper_bound b with
    | Some (Include l), Some (Include u) | Some (Include l), Some (Exclude u) | Some (Exclude l), Some (Include u) => l = x /\ u = x
    | _, _ => False
    end.

  Lemma ordered_sound a : ~ out_of_order a -> sound a.
  Proof.
    unfold sound. destruct a; simpl; intros H; try exact I; try porder.
  Qed.
  Lemma out_nothing a x : out_of_order a -> raw_contains a x = false.
  Proof.
    intros H. destruct (raw_contains a x) eqn:E; auto. exfalso. apply raw_contains_points in E. destruct a; simpl in *; try easy; order.
  Qed.
  Lemma out_joined a b x : out_of_order a -> out_of_order b -> joined_at a b x -> raw_union a b = [Point x].
  Proof.
    intros Ha Hb J.
    assert (A : raw_is_adjacent_to a b = true).
    { unfold raw_is_adjacent_to. unfold joined_at in J. destruct (raw_lower_bound a) as [[]|], (raw_upper_bound b) as [[]|]; try easy;
      destruct J as [-> ->]; simpl; rewrite (proj2 (eqb_iff x x) eq_refl); reflexivity. }
    unfold raw_union. rewrite A, orb_true_r.
    destruct a, b; simpl in Ha, Hb; try easy; simpl in J; try easy; destruct J as [-> ->]; unfold raw_enclose; simpl; f_equal; clear A;
      split_cmp; unfold raw_closed, raw_left_open, raw_right_open; split_cmp; try reflexivity; try order; f_equal; order.
  Qed.
  Lemma adjacent_comm a b : raw_is_adjacent_to a b = raw_is_adjacent_to b a.
  Proof. unfold raw_is_adjacent_to. destruct (raw_lower_bound a), (raw_lower_bound b), (raw_upper_bound a), (raw_upper_bound b); auto; apply orb_comm. Qed.
  Lemma out_joined_r a b x : out_of_order a -> out_of_order b -> joined_at b a x -> raw_union a b = [Point x].
  Proof.
    intros Ha Hb J. rewrite <- (out_joined b a x) by auto.
    assert (A : raw_is_adjacent_to a b = true).
    { rewrite adjacent_comm. unfold raw_is_adjacent_to. unfold joined_at in J. destruct (raw_lower_bound b) as [[]|], (raw_upper_bound a) as [[]|]; try easy;
      destruct J as [-> ->]; simpl; rewrite (proj2 (eqb_iff x x) eq_refl); reflexivity. }
    unfold raw_union. rewrite (adjacent_comm b a), A, !orb_true_r, (raw_enclose_comm b a). destruct a, b; simpl in *; easy.
  Qed.
  Lemma out_dec a : out_of_order a \/ ~ out_of_order a.
  Proof. destruct a as [|l|l u|l u|l u|l u| | | | |]; simpl; try tauto; destruct (cmp u l) eqn:E; first [left; order|right; order]. Qed.
  Lemma union_sound a b x : sound a \/ sound b -> some_contains (raw_union a b) x -> raw_contains a x = true \/ raw_contains b x = true.
  Proof.
    intros S. unfold raw_union, some_contains. destruct (raw_is_empty a) eqn:Ea, (raw_is_empty b) eqn:Eb.
    - now intros (i & [] & _).
    - intros (i & [<-|[]] & K); auto.
    - intros (i & [<-|[]] & K); auto.
    - fold (meets a b). destruct (meets a b) eqn:M.
      + intros (i & [<-|[]] & K). destruct S as [S|S]; [now apply meets_any|]. rewrite raw_enclose_comm in K. rewrite meets_comm in M.
        destruct (meets_any b a x S Eb Ea M K); auto.
      + intros (i & [<-|[<-|[]]] & K); auto.
  Qed.

  (** [union] contains the values of both and, if both are out of order and one
      begins where the other ends, that one value more. *)
  Theorem C91_union_iff_partial a b x :
    some_contains (raw_union a b) x <->
    raw_contains a x = true \/ raw_contains b x = true \/
    (out_of_order a /\ out_of_order b /\ (joined_at a b x \/ joined_at b a x)).
  Proof.
    split.
    - intros H. destruct (out_dec a) as [Ha|Ha], (out_dec b) as [Hb|Hb].
      + assert (K : raw_is_adjacent_to a b = true -> exists y, joined_at a b y \/ joined_at b a y).
        { unfold raw_is_adjacent_to, joined_at. rewrite orb_true_iff.
          destruct (raw_lower_bound a) as [[]|], (raw_upper_bound b) as [[]|], (raw_lower_bound b) as [[]|], (raw_upper_bound a) as [[]|]; simpl;
          intros [E|E]; try discriminate; apply (proj1 (eqb_iff _ _)) in E; subst;
          first [eexists; left; split; reflexivity|eexists; right; split; reflexivity]. }
        destruct (raw_is_adjacent_to a b) eqn:A.
        * destruct (K eq_refl) as (y & J). assert (E : raw_union a b = [Point y]).
          { destruct J as [J|J]; [now apply out_joined|now apply out_joined_r]. }
          rewrite E in H. destruct H as (i & [<-|[]] & H). simpl in H. apply (proj1 (eqb_iff _ _)) in H. subst x. auto.
        * exfalso. revert H. unfold raw_union. rewrite A, orb_false_r.
          destruct (raw_intersects a b) eqn:M.
          { apply raw_intersects_covers in M as (q & Q & _). revert Q. destruct a; simpl in *; try easy; unfold covers; simpl; porder. }
          intros (i & H & C). assert (i = a \/ i = b) as [-> | ->].
          { destruct (raw_is_empty a), (raw_is_empty b); simpl in H; intuition. }
          -- now rewrite (out_nothing a x Ha) in C.
          -- now rewrite (out_nothing b x Hb) in C.
      + destruct (union_sound a b x) as [K|K]; auto. right. now apply ordered_sound.
      + destruct (union_sound a b x) as [K|K]; auto. left. now apply ordered_sound.
      + destruct (union_sound a b x) as [K|K]; auto. left. now apply ordered_sound.
    - intros [H|[H|(Ha & Hb & [J|J])]].
      + apply C91_operations_any; auto.
      + apply C91_operations_any; auto.
      + rewrite (out_joined a b x) by auto. exists (Point x). split; [now left|]. now apply (proj2 (eqb_iff x x)).
      + rewrite (out_joined_r a b x) by auto. exists (Point x). split; [now left|]. now apply (proj2 (eqb_iff x x)).
  Qed.
End Union.
Print Assumptions C91_union_iff_partial.
(** [5, 2] begins where (7, 5) ends: 5 is added; beside (7, 6) nothing is. *)
Example C91_union_iff_ex :
  out_of_order (Closed 5 2)%Z /\ out_of_order (Open 7 5)%Z /\ joined_at (Closed 5 2)%Z (Open 7 5)%Z 5%Z /\
  raw_union (Closed 5 2)%Z (Open 7 5)%Z = [Point 5%Z] /\ raw_union (Closed 5 2)%Z (Open 7 6)%Z = [Closed 5 2; Open 7 6]%Z.
Proof. repeat split; vm_compute; congruence. Qed.

(** * Double-ended iteration: a representation invariant is enough *)
From Coq Require Import List Bool.
From Verif Require Import Base Spec.
Import ListNotations.

Section PIter.
  Context {S A : Type} (next next_back : S -> res (option A * S)) (Rep : S -> list A -> Prop).

  Lemma drains_of_rep :
    (forall it, Rep it [] -> exists it', next it = Ok (None, it')) ->
    (forall it a l, Rep it (a :: l) -> exists it', next it = Ok (Some a, it') /\ Rep it' l) ->
    forall l it, Rep it l -> drains next it l.
  Proof.
    intros H0 H1. induction l as [|a l IH]; intros it R.
    - destruct (H0 it R) as (it' & E). econstructor; eauto.
    - destruct (H1 it a l R) as (it' & E & R'). econstructor; eauto.
  Qed.

  Lemma runs_of_rep :
    (forall it, Rep it [] -> exists it', next it = Ok (None, it') /\ Rep it' []) ->
    (forall it a l, Rep it (a :: l) -> exists it', next it = Ok (Some a, it') /\ Rep it' l) ->
    (forall it, Rep it [] -> exists it', next_back it = Ok (None, it') /\ Rep it' []) ->
    (forall it a l, Rep it (l ++ [a]) -> exists it', next_back it = Ok (Some a, it') /\ Rep it' l) ->
    forall sched l it, Rep it l -> runs next next_back it sched (deque_run l sched).
  Proof.
    intros F0 F1 B0 B1. induction sched as [|[|] sched IH]; intros l it R; simpl.
    - constructor.
    - destruct l as [|a l].
      + destruct (F0 it R) as (it' & E & R'). econstructor; eauto.
      + destruct (F1 it a l R) as (it' & E & R'). econstructor; eauto.
    - destruct (rev l) as [|a l'] eqn:E.
      + apply (f_equal (@rev A)) in E. rewrite rev_involutive in E. simpl in E. subst.
        destruct (B0 it R) as (it' & E & R'). econstructor; eauto.
      + apply (f_equal (@rev A)) in E. rewrite rev_involutive in E. simpl in E. subst.
        destruct (B1 it a (rev l') R) as (it' & E & R'). econstructor; eauto.
  Qed.
End PIter.

(** The same for forward iteration with trailing [None]s. *)
Fixpoint front_run {A} (l : list A) (n : nat) : list (option A) :=
  match n with
  | 0 => []
  | S n => match l with [] => None :: front_run [] n | a :: l' => Some a :: front_run l' n end
  end.
Lemma deque_front {A} n : forall l : list A, deque_run l (repeat Front n) = front_run l n.
Proof. induction n as [|n IH]; intros l; simpl; auto. destruct l; f_equal; auto. Qed.

(** * Specification vocabulary for histories of calls on one tree *)
From Coq Require Import List Bool.
From Verif Require Import Base MBound MRaw MTine MTineTree Spec Spec_Tree Spec_Sel Spec_Domain.
Import ListNotations.

Section SpecTreeHistory.
  Context {T : Type} {O : Ord T}.
  Implicit Types (i : RawInterval T) (s o : TineTree T) (P : T -> Prop).

  (** A call that changes a tree; [o] is another tree. *)
  Inductive tcall : Type :=
  | T_union_in_place i
  | T_union o
  | T_complement
  | T_minus_in_place i
  | T_minus o
  | T_intersect_in_place i
  | T_intersect o.

  Definition do_tcall (dbg : bool) (c : tcall) s : res (TineTree T) :=
    match c with
    | T_union_in_place i => tree_union_in_place dbg s i
    | T_union o => tree_union dbg s o
    | T_complement => tree_complement dbg s
    | T_minus_in_place i => tree_minus_in_place dbg s i
    | T_minus o => tree_minus dbg s o
    | T_intersect_in_place i => tree_intersect_in_place dbg s i
    | T_intersect o => tree_intersect dbg s o
    end.
  (** A history, first call first. *)
  Fixpoint do_tcalls (dbg : bool) (l : list tcall) s : res (TineTree T) :=
    match l with
    | [] => Ok s
    | c :: l' => do s' <- do_tcall dbg c s; do_tcalls dbg l' s'
    end.

  (** The set it should leave. *)
  Definition teffect (c : tcall) P (x : T) : Prop :=
    match c with
    | T_union_in_place i => P x \/ raw_contains i x = true
    | T_union o => P x \/ holds false o x
    | T_complement => ~ P x
    | T_minus_in_place i => P x /\ raw_contains i x = false
    | T_minus o => P x /\ ~ holds false o x
    | T_intersect_in_place i => P x /\ raw_contains i x = true
    | T_intersect o => P x /\ holds false o x
    end.
  Fixpoint teffects (l : list tcall) P : T -> Prop :=
    match l with [] => P | c :: l' => teffects l' (teffect c P) end.

  (** Arguments a caller can have: intervals in order, trees made by the crate. *)
  Definition tcall_inputs (c : tcall) : Prop :=
    match c with
    | T_union_in_place i | T_minus_in_place i | T_intersect_in_place i => raw_wf i
    | T_union o | T_minus o | T_intersect o => tree_wf o
    | T_complement => True
    end.

  (** The caller's duty before a call on a tree of the intervals [l]: the
      conditions of C37, C41 and C73. *)
  Definition tcareful (dbg : bool) (c : tcall) (l : list (RawInterval T)) : Prop :=
    match c with
    | T_minus_in_place i => ~ minus_obstacle l i
    | T_minus o => forall l' i, intervals_are dbg o l' -> In i l' -> ~ minus_obstacle l i
    | T_intersect_in_place i => intersect_domain dbg l i
    | T_intersect o => forall l', intervals_are dbg o l' -> in_step l l'
    | _ => True
    end.
  Fixpoint all_tcareful (dbg : bool) (l : list tcall) s : Prop :=
    match l with
    | [] => True
    | c :: l' => (forall li, intervals_are dbg s li -> tcareful dbg c li) /\
                 forall s', do_tcall dbg c s = Ok s' -> all_tcareful dbg l' s'
    end.

  (** Every step leaves what it should. *)
  Fixpoint all_exact (dbg : bool) (l : list tcall) s : Prop :=
    match l with
    | [] => True
    | c :: l' => exact dbg (do_tcall dbg c s) (teffect c (holds dbg s)) /\
                 forall s', do_tcall dbg c s = Ok s' -> all_exact dbg l' s'
    end.
End SpecTreeHistory.
Arguments tcall T : clear implicits.

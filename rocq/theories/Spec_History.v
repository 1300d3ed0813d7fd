(** * Specification vocabulary for histories of calls on one Selection *)
From Coq Require Import List.
From Verif Require Import Base MBound MRaw MNormalize MInterval MTine MTineTree MSelection Spec Spec_Sel.
Import ListNotations.

Section SpecHistory.
  Context {T : Type} {O : Ord T} {F : Finite T}.
  Implicit Types (i : Interval T) (q : prog T) (P : T -> Prop) (x y : T).

  (** A call that changes a Selection; [q] computes the other operand. *)
  Inductive call : Type :=
  | C_union_in_place i
  | C_extend (l : list (Interval T))
  | C_union q
  | C_complement
  | C_minus_in_place i
  | C_minus q
  | C_intersect_in_place i.

  Definition do_call (dbg : bool) (c : call) (s : Selection T) : res (Selection T) :=
    match c with
    | C_union_in_place i => sel_union_in_place dbg s i
    | C_extend l => sel_extend dbg s l
    | C_union q => do o <- run dbg q; sel_union dbg s o
    | C_complement => sel_complement dbg s
    | C_minus_in_place i => sel_minus_in_place dbg s i
    | C_minus q => do o <- run dbg q; sel_minus dbg s o
    | C_intersect_in_place i => sel_intersect_in_place dbg s i
    end.
  (** A history, first call first. *)
  Fixpoint do_calls (dbg : bool) (l : list call) (s : Selection T) : res (Selection T) :=
    match l with
    | [] => Ok s
    | c :: l' => do s' <- do_call dbg c s; do_calls dbg l' s'
    end.

  (** The set it should leave. *)
  Definition effect (c : call) P x : Prop :=
    match c with
    | C_union_in_place i => P x \/ ipoints i x
    | C_extend l => P x \/ some_icontains l x
    | C_union q => P x \/ means q x
    | C_complement => ~ P x
    | C_minus_in_place i => P x /\ ~ ipoints i x
    | C_minus q => P x /\ ~ means q x
    | C_intersect_in_place i => P x /\ ipoints i x
    end.
  Fixpoint effects (l : list call) P : T -> Prop :=
    match l with [] => P | c :: l' => effects l' (effect c P) end.

  (** The intervals come from the Interval API without open pairs of neighbours;
      other Selections are built by unions. *)
  Definition call_inputs (c : call) : Prop :=
    match c with
    | C_union_in_place i | C_minus_in_place i | C_intersect_in_place i => reach true i
    | C_extend l => Forall (reach true) l
    | C_union q | C_minus q => inputs true q /\ unions_only q
    | C_complement => True
    end.

  (** Both ends of [i] are in [P], as are the values just outside them. *)
  Definition well_inside P i : Prop :=
    (forall m, least (ipoints i) m -> P m /\ forall x, pred m = Some x -> P x) /\
    (forall m, greatest (ipoints i) m -> P m /\ forall x, succ m = Some x -> P x).

  (** The caller's duty before a call on a Selection of the values [P]: no
      value just outside what is removed is a lone gap; an intersection in place
      is with everything, on nothing, or with an interval well inside. *)
  Definition careful (c : call) P : Prop :=
    match c with
    | C_minus_in_place i => forall x, just_below i x \/ just_above i x -> ~ lone_gap P x
    | C_minus q => forall x y, lone_gap P x -> pred x = Some y \/ succ x = Some y -> means q y -> means q x
    | C_intersect_in_place i => (forall x, ~ P x) \/ (forall x, ipoints i x) \/ well_inside P i
    | _ => True
    end.
  Fixpoint all_careful (l : list call) P : Prop :=
    match l with [] => True | c :: l' => careful c P /\ all_careful l' (effect c P) end.
End SpecHistory.
Arguments call T : clear implicits.

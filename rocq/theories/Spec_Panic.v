(** * Specification vocabulary: when [intersect_in_place] panics *)
From Coq Require Import List Bool.
From Verif Require Import Base MBound MRaw MNormalize MInterval Spec Spec_Tree Spec_Domain.
Import ListNotations.

Section SpecPanic.
  Context {T : Type} {O : Ord T}.

  (** The inputs on which [intersect_in_place] panics: [l] lists the intervals
      of the tree, [i] is the argument.  The conditions speak about the tree
      just outside, at and just inside the two ends of [i]. *)
  Definition intersect_panics (dbg : bool) (l : list (RawInterval T)) (i : RawInterval T) : Prop :=
    match i with
    | Empty | Full | Point _ => False
    | _ =>
        exists lo up, raw_lower_bound i = Some lo /\ raw_upper_bound i = Some up /\
          let outL := out_lower l lo in let inL := in_lower l lo in
          let outU := out_upper l up in let inU := in_upper l up in
          let keptL := at_lower l lo /\ inclusive lo in
          let keptU := at_upper l up /\ inclusive up in
          (* the tree is present just inside the lower end only, and it starts
             there or goes on beyond the upper end *)
          (inL /\ ~ inU /\ (~ outL \/ outU)) \/
          (* the same at the upper end *)
          (~ inL /\ inU /\ (outL \/ ~ outU)) \/
          (* present just outside an end, inside neither, and one of the ends
             touches the tree without sharing its point *)
          (~ inL /\ ~ inU /\ (outL \/ outU) /\
            (~ keptL /\ (outL \/ at_lower l lo) \/ ~ keptU /\ (outU \/ at_upper l up))) \/
          (* in debug builds: an end leaves a single point behind *)
          (dbg = true /\ (~ inL /\ keptL \/ ~ inU /\ keptU))
    end.

  Context {F : Finite T}.
  Implicit Types (P : T -> Prop) (i : Interval T).

  (** The same for a Selection of the values [P]. *)
  Definition sel_intersect_panics P i : Prop :=
    exists l u, least (ipoints i) l /\ greatest (ipoints i) u /\ (exists x, ~ ipoints i x) /\
      ((at_or_before P l /\ ~ at_or_after P u /\ (~ two_before P l \/ two_after P u)) \/
       (~ at_or_before P l /\ at_or_after P u /\ (two_before P l \/ ~ two_after P u)) \/
       (~ at_or_before P l /\ ~ at_or_after P u /\ (two_before P l \/ two_after P u))).

  (** The Selection keeps clear of the interval's ends, on both sides. *)
  Definition clear_of_ends P i : Prop :=
    exists l u, least (ipoints i) l /\ greatest (ipoints i) u /\ (exists x, ~ ipoints i x) /\
      ~ at_or_before P l /\ ~ two_before P l /\ ~ at_or_after P u /\ ~ two_after P u.
End SpecPanic.

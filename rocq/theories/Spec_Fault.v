(** * Specification vocabulary for panics of [pred] and [succ] *)
From Coq Require Import List Bool.
From Verif Require Import Base MBound MRaw MNormalize MInterval MTineTree MSelection Spec MFault.
Import ListNotations.

Section SpecFault.
  Context {T : Type} {O : Cmp T} {F : FiniteOps T}.

  (** Whenever [pred] and [succ] return, they return the right value. *)
  Definition faithful (g : stepper T) : Prop :=
    forall x, (fpred g x = Panic \/ fpred g x = Ok (pred x)) /\ (fsucc g x = Panic \/ fsucc g x = Ok (succ x)).

  (** They always return. *)
  Definition sound (g : stepper T) : Prop := forall x, fpred g x = Ok (pred x) /\ fsucc g x = Ok (succ x).
End SpecFault.

(** [attempts next back it sched out]: the caller makes the calls of [sched],
    catching panics; [pred] and [succ] behave during each call as the schedule
    says.  [out] has [None] for a call that panicked. *)
Inductive attempts {T S A} (next back : stepper T -> S -> res (attempt (option A) S))
  : S -> list (side * stepper T) -> list (option (option A)) -> Prop :=
| attempts_nil it : attempts next back it [] []
| attempts_gave it it' d g o sched out :
    (match d with Front => next g it | Back => back g it end) = Ok (Gave o it') ->
    attempts next back it' sched out -> attempts next back it ((d, g) :: sched) (Some o :: out)
| attempts_failed it it' d g sched out :
    (match d with Front => next g it | Back => back g it end) = Ok (Failed it') ->
    attempts next back it' sched out -> attempts next back it ((d, g) :: sched) (None :: out).

(** The calls that did not panic, and what they returned. *)
Fixpoint calls_made {T A} (sched : list (side * stepper T)) (out : list (option (option A))) : list side :=
  match sched, out with
  | (d, _) :: sched', Some _ :: out' => d :: calls_made sched' out'
  | _ :: sched', None :: out' => calls_made sched' out'
  | _, _ => []
  end.
Fixpoint answers {A} (out : list (option (option A))) : list (option A) :=
  match out with
  | [] => []
  | Some o :: out' => o :: answers out'
  | None :: out' => answers out'
  end.
(** The items among the answers; the number of panics. *)
Fixpoint items {A} (l : list (option A)) : list A :=
  match l with [] => [] | Some a :: l' => a :: items l' | None :: l' => items l' end.
Fixpoint panics {A} (out : list (option (option A))) : nat :=
  match out with [] => 0 | Some _ :: out' => panics out' | None :: out' => S (panics out') end.

(** [loses n l k]: [k] is [l] without at most [n] of its items. *)
Inductive loses {A} : nat -> list A -> list A -> Prop :=
| loses_nil n : loses n [] []
| loses_keep n a l k : loses n l k -> loses n (a :: l) (a :: k)
| loses_drop n a l k : loses n l k -> loses (S n) (a :: l) k.

(** The values iteration of a Selection yields for one of its intervals: those
    in it, or the lower bound of an interval without values (C79). *)
Definition value_of {T} {O : Cmp T} {F : FiniteOps T} (j : Interval T) (x : T) : Prop :=
  ipoints j x \/ (forall y, ~ ipoints j y) /\ interval_lower_bound j = Some (Include x).

(** * The crate's own unit tests, run on the model

    Generated by tools/gen_conformance.py from /repo/src/test: 2397 assertions.
    These are tests of the model (they compute on literals), not proofs of
    properties. *)
From Coq Require Import List Bool ZArith.
From Verif Require Import Base Ints MBound MRaw MTine MBTree MTineTree.
Import ListNotations.
Local Open Scope Z_scope.

Definition raw_eqb (a b : RawInterval Z) : bool :=
  match a, b with
  | Empty, Empty | Full, Full => true
  | Point p, Point q | UpTo p, UpTo q | UpFrom p, UpFrom q | To p, To q | From p, From q => p =? q
  | Open p q, Open r s | LeftOpen p q, LeftOpen r s
  | RightOpen p q, RightOpen r s | Closed p q, Closed r s => (p =? r) && (q =? s)
  | _, _ => false
  end.
Definition mem (a : RawInterval Z) (l : list (RawInterval Z)) : bool := existsb (raw_eqb a) l.
Definition same_set (a b : list (RawInterval Z)) : bool :=
  forallb (fun x => mem x b) a && forallb (fun x => mem x a) b.
Definition same_set_r (a : res (list (RawInterval Z))) (b : list (RawInterval Z)) : bool :=
  match a with Ok a => same_set a b | Panic => false end.
Fixpoint same_list (a b : list (RawInterval Z)) : bool :=
  match a, b with
  | [], [] => true
  | x :: a, y :: b => raw_eqb x y && same_list a b
  | _, _ => false
  end.
Definition same_list_r (a : res (list (RawInterval Z))) (b : list (RawInterval Z)) : bool :=
  match a with Ok a => same_list a b | Panic => false end.
Definition oz_eqb (a b : option Z) : bool :=
  match a, b with Some x, Some y => x =? y | None, None => true | _, _ => false end.
Definition obound_eqb (a b : option (Bound Z)) : bool :=
  match a, b with Some x, Some y => bound_eqb x y | None, None => true | _, _ => false end.

(** src/test/raw_interval/enclose.rs: [empty] *)
Example test_raw_enclose_empty : forallb (fun b : bool => b)
  [ raw_eqb (raw_enclose (@Empty Z) (@Empty Z)) (@Empty Z);
    raw_eqb (raw_enclose (@Empty Z) (Point (3))) (Point (3));
    raw_eqb (raw_enclose (@Empty Z) (Open (0) (3))) (Open (0) (3));
    raw_eqb (raw_enclose (@Empty Z) (LeftOpen (0) (3))) (LeftOpen (0) (3));
    raw_eqb (raw_enclose (@Empty Z) (RightOpen (0) (3))) (RightOpen (0) (3));
    raw_eqb (raw_enclose (@Empty Z) (Closed (0) (3))) (Closed (0) (3));
    raw_eqb (raw_enclose (@Empty Z) (UpTo (3))) (UpTo (3));
    raw_eqb (raw_enclose (@Empty Z) (UpFrom (3))) (UpFrom (3));
    raw_eqb (raw_enclose (@Empty Z) (To (3))) (To (3));
    raw_eqb (raw_enclose (@Empty Z) (From (3))) (From (3));
    raw_eqb (raw_enclose (@Empty Z) (@Full Z)) (@Full Z) ] = true.
Proof. vm_compute. reflexivity. Qed.

(** src/test/raw_interval/enclose.rs: [point_center] *)
Example test_raw_enclose_point_center : forallb (fun b : bool => b)
  [ raw_eqb (raw_enclose (Point (3)) (@Empty Z)) (Point (3));
    raw_eqb (raw_enclose (Point (3)) (Point (3))) (Point (3));
    raw_eqb (raw_enclose (Point (3)) (Open (0) (3))) (LeftOpen (0) (3));
    raw_eqb (raw_enclose (Point (3)) (LeftOpen (0) (3))) (LeftOpen (0) (3));
    raw_eqb (raw_enclose (Point (3)) (RightOpen (0) (3))) (Closed (0) (3));
    raw_eqb (raw_enclose (Point (3)) (Closed (0) (3))) (Closed (0) (3));
    raw_eqb (raw_enclose (Point (3)) (UpTo (3))) (To (3));
    raw_eqb (raw_enclose (Point (3)) (UpFrom (3))) (From (3));
    raw_eqb (raw_enclose (Point (3)) (To (3))) (To (3));
    raw_eqb (raw_enclose (Point (3)) (From (3))) (From (3));
    raw_eqb (raw_enclose (Point (3)) (@Full Z)) (@Full Z) ] = true.
Proof. vm_compute. reflexivity. Qed.

(** src/test/raw_interval/enclose.rs: [point_left] *)
Example test_raw_enclose_point_left : forallb (fun b : bool => b)
  [ raw_eqb (raw_enclose (Point (3)) (@Empty Z)) (Point (3));
    raw_eqb (raw_enclose (Point (3)) (Point (-1))) (Closed (-1) (3));
    raw_eqb (raw_enclose (Point (3)) (Open (-3) (-1))) (LeftOpen (-3) (3));
    raw_eqb (raw_enclose (Point (3)) (LeftOpen (-3) (-1))) (LeftOpen (-3) (3));
    raw_eqb (raw_enclose (Point (3)) (RightOpen (-3) (-1))) (Closed (-3) (3));
    raw_eqb (raw_enclose (Point (3)) (Closed (-3) (-1))) (Closed (-3) (3));
    raw_eqb (raw_enclose (Point (3)) (UpTo (-3))) (To (3));
    raw_eqb (raw_enclose (Point (3)) (UpFrom (-3))) (UpFrom (-3));
    raw_eqb (raw_enclose (Point (3)) (To (-3))) (To (3));
    raw_eqb (raw_enclose (Point (3)) (From (-3))) (From (-3));
    raw_eqb (raw_enclose (Point (3)) (@Full Z)) (@Full Z) ] = true.
Proof. vm_compute. reflexivity. Qed.

(** src/test/raw_interval/enclose.rs: [point_right] *)
Example test_raw_enclose_point_right : forallb (fun b : bool => b)
  [ raw_eqb (raw_enclose (Point (3)) (@Empty Z)) (Point (3));
    raw_eqb (raw_enclose (Point (3)) (Point (10))) (Closed (3) (10));
    raw_eqb (raw_enclose (Point (3)) (Open (10) (13))) (RightOpen (3) (13));
    raw_eqb (raw_enclose (Point (3)) (LeftOpen (10) (13))) (Closed (3) (13));
    raw_eqb (raw_enclose (Point (3)) (RightOpen (10) (13))) (RightOpen (3) (13));
    raw_eqb (raw_enclose (Point (3)) (Closed (10) (13))) (Closed (3) (13));
    raw_eqb (raw_enclose (Point (3)) (UpTo (13))) (UpTo (13));
    raw_eqb (raw_enclose (Point (3)) (UpFrom (13))) (From (3));
    raw_eqb (raw_enclose (Point (3)) (To (13))) (To (13));
    raw_eqb (raw_enclose (Point (3)) (From (13))) (From (3));
    raw_eqb (raw_enclose (Point (3)) (@Full Z)) (@Full Z) ] = true.
Proof. vm_compute. reflexivity. Qed.

(** src/test/raw_interval/enclose.rs: [open_center] *)
Example test_raw_enclose_open_center : forallb (fun b : bool => b)
  [ raw_eqb (raw_enclose (Open (0) (3)) (@Empty Z)) (Open (0) (3));
    raw_eqb (raw_enclose (Open (0) (3)) (Point (3))) (LeftOpen (0) (3));
    raw_eqb (raw_enclose (Open (0) (3)) (Open (0) (3))) (Open (0) (3));
    raw_eqb (raw_enclose (Open (0) (3)) (LeftOpen (0) (3))) (LeftOpen (0) (3));
    raw_eqb (raw_enclose (Open (0) (3)) (RightOpen (0) (3))) (RightOpen (0) (3));
    raw_eqb (raw_enclose (Open (0) (3)) (Closed (0) (3))) (Closed (0) (3));
    raw_eqb (raw_enclose (Open (0) (3)) (UpTo (3))) (UpTo (3));
    raw_eqb (raw_enclose (Open (0) (3)) (UpFrom (3))) (UpFrom (0));
    raw_eqb (raw_enclose (Open (0) (3)) (To (3))) (To (3));
    raw_eqb (raw_enclose (Open (0) (3)) (From (3))) (UpFrom (0));
    raw_eqb (raw_enclose (Open (0) (3)) (@Full Z)) (@Full Z) ] = true.
Proof. vm_compute. reflexivity. Qed.

(** src/test/raw_interval/enclose.rs: [open_left] *)
Example test_raw_enclose_open_left : forallb (fun b : bool => b)
  [ raw_eqb (raw_enclose (Open (0) (3)) (@Empty Z)) (Open (0) (3));
    raw_eqb (raw_enclose (Open (0) (3)) (Point (-3))) (RightOpen (-3) (3));
    raw_eqb (raw_enclose (Open (0) (3)) (Open (-3) (-1))) (Open (-3) (3));
    raw_eqb (raw_enclose (Open (0) (3)) (LeftOpen (-3) (-1))) (Open (-3) (3));
    raw_eqb (raw_enclose (Open (0) (3)) (RightOpen (-3) (-1))) (RightOpen (-3) (3));
    raw_eqb (raw_enclose (Open (0) (3)) (Closed (-3) (-1))) (RightOpen (-3) (3));
    raw_eqb (raw_enclose (Open (0) (3)) (UpTo (-3))) (UpTo (3));
    raw_eqb (raw_enclose (Open (0) (3)) (UpFrom (-3))) (UpFrom (-3));
    raw_eqb (raw_enclose (Open (0) (3)) (To (-3))) (UpTo (3));
    raw_eqb (raw_enclose (Open (0) (3)) (From (-3))) (From (-3));
    raw_eqb (raw_enclose (Open (0) (3)) (@Full Z)) (@Full Z) ] = true.
Proof. vm_compute. reflexivity. Qed.

(** src/test/raw_interval/enclose.rs: [open_right] *)
Example test_raw_enclose_open_right : forallb (fun b : bool => b)
  [ raw_eqb (raw_enclose (Open (0) (3)) (@Empty Z)) (Open (0) (3));
    raw_eqb (raw_enclose (Open (0) (3)) (Point (13))) (LeftOpen (0) (13));
    raw_eqb (raw_enclose (Open (0) (3)) (Open (10) (13))) (Open (0) (13));
    raw_eqb (raw_enclose (Open (0) (3)) (LeftOpen (10) (13))) (LeftOpen (0) (13));
    raw_eqb (raw_enclose (Open (0) (3)) (RightOpen (10) (13))) (Open (0) (13));
    raw_eqb (raw_enclose (Open (0) (3)) (Closed (10) (13))) (LeftOpen (0) (13));
    raw_eqb (raw_enclose (Open (0) (3)) (UpTo (13))) (UpTo (13));
    raw_eqb (raw_enclose (Open (0) (3)) (UpFrom (13))) (UpFrom (0));
    raw_eqb (raw_enclose (Open (0) (3)) (To (13))) (To (13));
    raw_eqb (raw_enclose (Open (0) (3)) (From (13))) (UpFrom (0));
    raw_eqb (raw_enclose (Open (0) (3)) (@Full Z)) (@Full Z) ] = true.
Proof. vm_compute. reflexivity. Qed.

(** src/test/raw_interval/enclose.rs: [left_open_center] *)
Example test_raw_enclose_left_open_center : forallb (fun b : bool => b)
  [ raw_eqb (raw_enclose (LeftOpen (0) (3)) (@Empty Z)) (LeftOpen (0) (3));
    raw_eqb (raw_enclose (LeftOpen (0) (3)) (Point (3))) (LeftOpen (0) (3));
    raw_eqb (raw_enclose (LeftOpen (0) (3)) (Open (0) (3))) (LeftOpen (0) (3));
    raw_eqb (raw_enclose (LeftOpen (0) (3)) (LeftOpen (0) (3))) (LeftOpen (0) (3));
    raw_eqb (raw_enclose (LeftOpen (0) (3)) (RightOpen (0) (3))) (Closed (0) (3));
    raw_eqb (raw_enclose (LeftOpen (0) (3)) (Closed (0) (3))) (Closed (0) (3));
    raw_eqb (raw_enclose (LeftOpen (0) (3)) (UpTo (3))) (To (3));
    raw_eqb (raw_enclose (LeftOpen (0) (3)) (UpFrom (3))) (UpFrom (0));
    raw_eqb (raw_enclose (LeftOpen (0) (3)) (To (3))) (To (3));
    raw_eqb (raw_enclose (LeftOpen (0) (3)) (From (3))) (UpFrom (0));
    raw_eqb (raw_enclose (LeftOpen (0) (3)) (@Full Z)) (@Full Z) ] = true.
Proof. vm_compute. reflexivity. Qed.

(** src/test/raw_interval/enclose.rs: [left_open_left] *)
Example test_raw_enclose_left_open_left : forallb (fun b : bool => b)
  [ raw_eqb (raw_enclose (LeftOpen (0) (3)) (@Empty Z)) (LeftOpen (0) (3));
    raw_eqb (raw_enclose (LeftOpen (0) (3)) (Point (-3))) (Closed (-3) (3));
    raw_eqb (raw_enclose (LeftOpen (0) (3)) (Open (-3) (-1))) (LeftOpen (-3) (3));
    raw_eqb (raw_enclose (LeftOpen (0) (3)) (LeftOpen (-3) (-1))) (LeftOpen (-3) (3));
    raw_eqb (raw_enclose (LeftOpen (0) (3)) (RightOpen (-3) (-1))) (Closed (-3) (3));
    raw_eqb (raw_enclose (LeftOpen (0) (3)) (Closed (-3) (-1))) (Closed (-3) (3));
    raw_eqb (raw_enclose (LeftOpen (0) (3)) (UpTo (-3))) (To (3));
    raw_eqb (raw_enclose (LeftOpen (0) (3)) (UpFrom (-3))) (UpFrom (-3));
    raw_eqb (raw_enclose (LeftOpen (0) (3)) (To (-3))) (To (3));
    raw_eqb (raw_enclose (LeftOpen (0) (3)) (From (-3))) (From (-3));
    raw_eqb (raw_enclose (LeftOpen (0) (3)) (@Full Z)) (@Full Z) ] = true.
Proof. vm_compute. reflexivity. Qed.

(** src/test/raw_interval/enclose.rs: [left_open_right] *)
Example test_raw_enclose_left_open_right : forallb (fun b : bool => b)
  [ raw_eqb (raw_enclose (LeftOpen (0) (3)) (@Empty Z)) (LeftOpen (0) (3));
    raw_eqb (raw_enclose (LeftOpen (0) (3)) (Point (13))) (LeftOpen (0) (13));
    raw_eqb (raw_enclose (LeftOpen (0) (3)) (Open (10) (13))) (Open (0) (13));
    raw_eqb (raw_enclose (LeftOpen (0) (3)) (LeftOpen (10) (13))) (LeftOpen (0) (13));
    raw_eqb (raw_enclose (LeftOpen (0) (3)) (RightOpen (10) (13))) (Open (0) (13));
    raw_eqb (raw_enclose (LeftOpen (0) (3)) (Closed (10) (13))) (LeftOpen (0) (13));
    raw_eqb (raw_enclose (LeftOpen (0) (3)) (UpTo (13))) (UpTo (13));
    raw_eqb (raw_enclose (LeftOpen (0) (3)) (UpFrom (13))) (UpFrom (0));
    raw_eqb (raw_enclose (LeftOpen (0) (3)) (To (13))) (To (13));
    raw_eqb (raw_enclose (LeftOpen (0) (3)) (From (13))) (UpFrom (0));
    raw_eqb (raw_enclose (LeftOpen (0) (3)) (@Full Z)) (@Full Z) ] = true.
Proof. vm_compute. reflexivity. Qed.

(** src/test/raw_interval/enclose.rs: [right_open_center] *)
Example test_raw_enclose_right_open_center : forallb (fun b : bool => b)
  [ raw_eqb (raw_enclose (RightOpen (0) (3)) (@Empty Z)) (RightOpen (0) (3));
    raw_eqb (raw_enclose (RightOpen (0) (3)) (Point (3))) (Closed (0) (3));
    raw_eqb (raw_enclose (RightOpen (0) (3)) (Open (0) (3))) (RightOpen (0) (3));
    raw_eqb (raw_enclose (RightOpen (0) (3)) (LeftOpen (0) (3))) (Closed (0) (3));
    raw_eqb (raw_enclose (RightOpen (0) (3)) (RightOpen (0) (3))) (RightOpen (0) (3));
    raw_eqb (raw_enclose (RightOpen (0) (3)) (Closed (0) (3))) (Closed (0) (3));
    raw_eqb (raw_enclose (RightOpen (0) (3)) (UpTo (3))) (UpTo (3));
    raw_eqb (raw_enclose (RightOpen (0) (3)) (UpFrom (3))) (From (0));
    raw_eqb (raw_enclose (RightOpen (0) (3)) (To (3))) (To (3));
    raw_eqb (raw_enclose (RightOpen (0) (3)) (From (3))) (From (0));
    raw_eqb (raw_enclose (RightOpen (0) (3)) (@Full Z)) (@Full Z) ] = true.
Proof. vm_compute. reflexivity. Qed.

(** src/test/raw_interval/enclose.rs: [right_open_left] *)
Example test_raw_enclose_right_open_left : forallb (fun b : bool => b)
  [ raw_eqb (raw_enclose (RightOpen (0) (3)) (@Empty Z)) (RightOpen (0) (3));
    raw_eqb (raw_enclose (RightOpen (0) (3)) (Point (-3))) (RightOpen (-3) (3));
    raw_eqb (raw_enclose (RightOpen (0) (3)) (Open (-3) (-1))) (Open (-3) (3));
    raw_eqb (raw_enclose (RightOpen (0) (3)) (LeftOpen (-3) (-1))) (Open (-3) (3));
    raw_eqb (raw_enclose (RightOpen (0) (3)) (RightOpen (-3) (-1))) (RightOpen (-3) (3));
    raw_eqb (raw_enclose (RightOpen (0) (3)) (Closed (-3) (-1))) (RightOpen (-3) (3));
    raw_eqb (raw_enclose (RightOpen (0) (3)) (UpTo (-3))) (UpTo (3));
    raw_eqb (raw_enclose (RightOpen (0) (3)) (UpFrom (-3))) (UpFrom (-3));
    raw_eqb (raw_enclose (RightOpen (0) (3)) (To (-3))) (UpTo (3));
    raw_eqb (raw_enclose (RightOpen (0) (3)) (From (-3))) (From (-3));
    raw_eqb (raw_enclose (RightOpen (0) (3)) (@Full Z)) (@Full Z) ] = true.
Proof. vm_compute. reflexivity. Qed.

(** src/test/raw_interval/enclose.rs: [right_open_right] *)
Example test_raw_enclose_right_open_right : forallb (fun b : bool => b)
  [ raw_eqb (raw_enclose (RightOpen (0) (3)) (@Empty Z)) (RightOpen (0) (3));
    raw_eqb (raw_enclose (RightOpen (0) (3)) (Point (13))) (Closed (0) (13));
    raw_eqb (raw_enclose (RightOpen (0) (3)) (Open (10) (13))) (RightOpen (0) (13));
    raw_eqb (raw_enclose (RightOpen (0) (3)) (LeftOpen (10) (13))) (Closed (0) (13));
    raw_eqb (raw_enclose (RightOpen (0) (3)) (RightOpen (10) (13))) (RightOpen (0) (13));
    raw_eqb (raw_enclose (RightOpen (0) (3)) (Closed (10) (13))) (Closed (0) (13));
    raw_eqb (raw_enclose (RightOpen (0) (3)) (UpTo (13))) (UpTo (13));
    raw_eqb (raw_enclose (RightOpen (0) (3)) (UpFrom (13))) (From (0));
    raw_eqb (raw_enclose (RightOpen (0) (3)) (To (13))) (To (13));
    raw_eqb (raw_enclose (RightOpen (0) (3)) (From (13))) (From (0));
    raw_eqb (raw_enclose (RightOpen (0) (3)) (@Full Z)) (@Full Z) ] = true.
Proof. vm_compute. reflexivity. Qed.

(** src/test/raw_interval/enclose.rs: [closed_center] *)
Example test_raw_enclose_closed_center : forallb (fun b : bool => b)
  [ raw_eqb (raw_enclose (Closed (0) (3)) (@Empty Z)) (Closed (0) (3));
    raw_eqb (raw_enclose (Closed (0) (3)) (Point (3))) (Closed (0) (3));
    raw_eqb (raw_enclose (Closed (0) (3)) (Open (0) (3))) (Closed (0) (3));
    raw_eqb (raw_enclose (Closed (0) (3)) (LeftOpen (0) (3))) (Closed (0) (3));
    raw_eqb (raw_enclose (Closed (0) (3)) (RightOpen (0) (3))) (Closed (0) (3));
    raw_eqb (raw_enclose (Closed (0) (3)) (Closed (0) (3))) (Closed (0) (3));
    raw_eqb (raw_enclose (Closed (0) (3)) (UpTo (3))) (To (3));
    raw_eqb (raw_enclose (Closed (0) (3)) (UpFrom (3))) (From (0));
    raw_eqb (raw_enclose (Closed (0) (3)) (To (3))) (To (3));
    raw_eqb (raw_enclose (Closed (0) (3)) (From (3))) (From (0));
    raw_eqb (raw_enclose (Closed (0) (3)) (@Full Z)) (@Full Z) ] = true.
Proof. vm_compute. reflexivity. Qed.

(** src/test/raw_interval/enclose.rs: [closed_left] *)
Example test_raw_enclose_closed_left : forallb (fun b : bool => b)
  [ raw_eqb (raw_enclose (Closed (0) (3)) (@Empty Z)) (Closed (0) (3));
    raw_eqb (raw_enclose (Closed (0) (3)) (Point (-3))) (Closed (-3) (3));
    raw_eqb (raw_enclose (Closed (0) (3)) (Open (-3) (-1))) (LeftOpen (-3) (3));
    raw_eqb (raw_enclose (Closed (0) (3)) (LeftOpen (-3) (-1))) (LeftOpen (-3) (3));
    raw_eqb (raw_enclose (Closed (0) (3)) (RightOpen (-3) (-1))) (Closed (-3) (3));
    raw_eqb (raw_enclose (Closed (0) (3)) (Closed (-3) (-1))) (Closed (-3) (3));
    raw_eqb (raw_enclose (Closed (0) (3)) (UpTo (-3))) (To (3));
    raw_eqb (raw_enclose (Closed (0) (3)) (UpFrom (-3))) (UpFrom (-3));
    raw_eqb (raw_enclose (Closed (0) (3)) (To (-3))) (To (3));
    raw_eqb (raw_enclose (Closed (0) (3)) (From (-3))) (From (-3));
    raw_eqb (raw_enclose (Closed (0) (3)) (@Full Z)) (@Full Z) ] = true.
Proof. vm_compute. reflexivity. Qed.

(** src/test/raw_interval/enclose.rs: [closed_right] *)
Example test_raw_enclose_closed_right : forallb (fun b : bool => b)
  [ raw_eqb (raw_enclose (Closed (0) (3)) (@Empty Z)) (Closed (0) (3));
    raw_eqb (raw_enclose (Closed (0) (3)) (Point (13))) (Closed (0) (13));
    raw_eqb (raw_enclose (Closed (0) (3)) (Open (10) (13))) (RightOpen (0) (13));
    raw_eqb (raw_enclose (Closed (0) (3)) (LeftOpen (10) (13))) (Closed (0) (13));
    raw_eqb (raw_enclose (Closed (0) (3)) (RightOpen (10) (13))) (RightOpen (0) (13));
    raw_eqb (raw_enclose (Closed (0) (3)) (Closed (10) (13))) (Closed (0) (13));
    raw_eqb (raw_enclose (Closed (0) (3)) (UpTo (13))) (UpTo (13));
    raw_eqb (raw_enclose (Closed (0) (3)) (UpFrom (13))) (From (0));
    raw_eqb (raw_enclose (Closed (0) (3)) (To (13))) (To (13));
    raw_eqb (raw_enclose (Closed (0) (3)) (From (13))) (From (0));
    raw_eqb (raw_enclose (Closed (0) (3)) (@Full Z)) (@Full Z) ] = true.
Proof. vm_compute. reflexivity. Qed.

(** src/test/raw_interval/enclose.rs: [up_to_center] *)
Example test_raw_enclose_up_to_center : forallb (fun b : bool => b)
  [ raw_eqb (raw_enclose (UpTo (3)) (@Empty Z)) (UpTo (3));
    raw_eqb (raw_enclose (UpTo (3)) (Point (3))) (To (3));
    raw_eqb (raw_enclose (UpTo (3)) (Open (0) (3))) (UpTo (3));
    raw_eqb (raw_enclose (UpTo (3)) (LeftOpen (0) (3))) (To (3));
    raw_eqb (raw_enclose (UpTo (3)) (RightOpen (0) (3))) (UpTo (3));
    raw_eqb (raw_enclose (UpTo (3)) (Closed (0) (3))) (To (3));
    raw_eqb (raw_enclose (UpTo (3)) (UpTo (3))) (UpTo (3));
    raw_eqb (raw_enclose (UpTo (3)) (UpFrom (3))) (@Full Z);
    raw_eqb (raw_enclose (UpTo (3)) (To (3))) (To (3));
    raw_eqb (raw_enclose (UpTo (3)) (From (3))) (@Full Z);
    raw_eqb (raw_enclose (UpTo (3)) (@Full Z)) (@Full Z) ] = true.
Proof. vm_compute. reflexivity. Qed.

(** src/test/raw_interval/enclose.rs: [up_to_left] *)
Example test_raw_enclose_up_to_left : forallb (fun b : bool => b)
  [ raw_eqb (raw_enclose (UpTo (3)) (@Empty Z)) (UpTo (3));
    raw_eqb (raw_enclose (UpTo (3)) (Point (-3))) (UpTo (3));
    raw_eqb (raw_enclose (UpTo (3)) (Open (-3) (-1))) (UpTo (3));
    raw_eqb (raw_enclose (UpTo (3)) (LeftOpen (-3) (-1))) (UpTo (3));
    raw_eqb (raw_enclose (UpTo (3)) (RightOpen (-3) (-1))) (UpTo (3));
    raw_eqb (raw_enclose (UpTo (3)) (Closed (-3) (-1))) (UpTo (3));
    raw_eqb (raw_enclose (UpTo (3)) (UpTo (-3))) (UpTo (3));
    raw_eqb (raw_enclose (UpTo (3)) (UpFrom (-3))) (@Full Z);
    raw_eqb (raw_enclose (UpTo (3)) (To (-3))) (UpTo (3));
    raw_eqb (raw_enclose (UpTo (3)) (From (-3))) (@Full Z);
    raw_eqb (raw_enclose (UpTo (3)) (@Full Z)) (@Full Z) ] = true.
Proof. vm_compute. reflexivity. Qed.

(** src/test/raw_interval/enclose.rs: [up_to_right] *)
Example test_raw_enclose_up_to_right : forallb (fun b : bool => b)
  [ raw_eqb (raw_enclose (UpTo (3)) (@Empty Z)) (UpTo (3));
    raw_eqb (raw_enclose (UpTo (3)) (Point (13))) (To (13));
    raw_eqb (raw_enclose (UpTo (3)) (Open (10) (13))) (UpTo (13));
    raw_eqb (raw_enclose (UpTo (3)) (LeftOpen (10) (13))) (To (13));
    raw_eqb (raw_enclose (UpTo (3)) (RightOpen (10) (13))) (UpTo (13));
    raw_eqb (raw_enclose (UpTo (3)) (Closed (10) (13))) (To (13));
    raw_eqb (raw_enclose (UpTo (3)) (UpTo (13))) (UpTo (13));
    raw_eqb (raw_enclose (UpTo (3)) (UpFrom (13))) (@Full Z);
    raw_eqb (raw_enclose (UpTo (3)) (To (13))) (To (13));
    raw_eqb (raw_enclose (UpTo (3)) (From (13))) (@Full Z);
    raw_eqb (raw_enclose (UpTo (3)) (@Full Z)) (@Full Z) ] = true.
Proof. vm_compute. reflexivity. Qed.

(** src/test/raw_interval/enclose.rs: [up_from_center] *)
Example test_raw_enclose_up_from_center : forallb (fun b : bool => b)
  [ raw_eqb (raw_enclose (UpFrom (0)) (@Empty Z)) (UpFrom (0));
    raw_eqb (raw_enclose (UpFrom (0)) (Point (0))) (From (0));
    raw_eqb (raw_enclose (UpFrom (0)) (Open (0) (3))) (UpFrom (0));
    raw_eqb (raw_enclose (UpFrom (0)) (LeftOpen (0) (3))) (UpFrom (0));
    raw_eqb (raw_enclose (UpFrom (0)) (RightOpen (0) (3))) (From (0));
    raw_eqb (raw_enclose (UpFrom (0)) (Closed (0) (3))) (From (0));
    raw_eqb (raw_enclose (UpFrom (0)) (UpTo (0))) (@Full Z);
    raw_eqb (raw_enclose (UpFrom (0)) (UpFrom (0))) (UpFrom (0));
    raw_eqb (raw_enclose (UpFrom (0)) (To (0))) (@Full Z);
    raw_eqb (raw_enclose (UpFrom (0)) (From (0))) (From (0));
    raw_eqb (raw_enclose (UpFrom (0)) (@Full Z)) (@Full Z) ] = true.
Proof. vm_compute. reflexivity. Qed.

(** src/test/raw_interval/enclose.rs: [up_from_left] *)
Example test_raw_enclose_up_from_left : forallb (fun b : bool => b)
  [ raw_eqb (raw_enclose (UpFrom (0)) (@Empty Z)) (UpFrom (0));
    raw_eqb (raw_enclose (UpFrom (0)) (Point (-3))) (From (-3));
    raw_eqb (raw_enclose (UpFrom (0)) (Open (-3) (-1))) (UpFrom (-3));
    raw_eqb (raw_enclose (UpFrom (0)) (LeftOpen (-3) (-1))) (UpFrom (-3));
    raw_eqb (raw_enclose (UpFrom (0)) (RightOpen (-3) (-1))) (From (-3));
    raw_eqb (raw_enclose (UpFrom (0)) (Closed (-3) (-1))) (From (-3));
    raw_eqb (raw_enclose (UpFrom (0)) (UpTo (-3))) (@Full Z);
    raw_eqb (raw_enclose (UpFrom (0)) (UpFrom (-3))) (UpFrom (-3));
    raw_eqb (raw_enclose (UpFrom (0)) (To (-3))) (@Full Z);
    raw_eqb (raw_enclose (UpFrom (0)) (From (-3))) (From (-3));
    raw_eqb (raw_enclose (UpFrom (0)) (@Full Z)) (@Full Z) ] = true.
Proof. vm_compute. reflexivity. Qed.

(** src/test/raw_interval/enclose.rs: [up_from_right] *)
Example test_raw_enclose_up_from_right : forallb (fun b : bool => b)
  [ raw_eqb (raw_enclose (UpFrom (0)) (@Empty Z)) (UpFrom (0));
    raw_eqb (raw_enclose (UpFrom (0)) (Point (13))) (UpFrom (0));
    raw_eqb (raw_enclose (UpFrom (0)) (Open (10) (13))) (UpFrom (0));
    raw_eqb (raw_enclose (UpFrom (0)) (LeftOpen (10) (13))) (UpFrom (0));
    raw_eqb (raw_enclose (UpFrom (0)) (RightOpen (10) (13))) (UpFrom (0));
    raw_eqb (raw_enclose (UpFrom (0)) (Closed (10) (13))) (UpFrom (0));
    raw_eqb (raw_enclose (UpFrom (0)) (UpTo (13))) (@Full Z);
    raw_eqb (raw_enclose (UpFrom (0)) (UpFrom (13))) (UpFrom (0));
    raw_eqb (raw_enclose (UpFrom (0)) (To (13))) (@Full Z);
    raw_eqb (raw_enclose (UpFrom (0)) (From (13))) (UpFrom (0));
    raw_eqb (raw_enclose (UpFrom (0)) (@Full Z)) (@Full Z) ] = true.
Proof. vm_compute. reflexivity. Qed.

(** src/test/raw_interval/enclose.rs: [to_center] *)
Example test_raw_enclose_to_center : forallb (fun b : bool => b)
  [ raw_eqb (raw_enclose (To (3)) (@Empty Z)) (To (3));
    raw_eqb (raw_enclose (To (3)) (Point (3))) (To (3));
    raw_eqb (raw_enclose (To (3)) (Open (0) (3))) (To (3));
    raw_eqb (raw_enclose (To (3)) (LeftOpen (0) (3))) (To (3));
    raw_eqb (raw_enclose (To (3)) (RightOpen (0) (3))) (To (3));
    raw_eqb (raw_enclose (To (3)) (Closed (0) (3))) (To (3));
    raw_eqb (raw_enclose (To (3)) (UpTo (3))) (To (3));
    raw_eqb (raw_enclose (To (3)) (UpFrom (3))) (@Full Z);
    raw_eqb (raw_enclose (To (3)) (To (3))) (To (3));
    raw_eqb (raw_enclose (To (3)) (From (3))) (@Full Z);
    raw_eqb (raw_enclose (To (3)) (@Full Z)) (@Full Z) ] = true.
Proof. vm_compute. reflexivity. Qed.

(** src/test/raw_interval/enclose.rs: [to_left] *)
Example test_raw_enclose_to_left : forallb (fun b : bool => b)
  [ raw_eqb (raw_enclose (To (3)) (@Empty Z)) (To (3));
    raw_eqb (raw_enclose (To (3)) (Point (-3))) (To (3));
    raw_eqb (raw_enclose (To (3)) (Open (-3) (-1))) (To (3));
    raw_eqb (raw_enclose (To (3)) (LeftOpen (-3) (-1))) (To (3));
    raw_eqb (raw_enclose (To (3)) (RightOpen (-3) (-1))) (To (3));
    raw_eqb (raw_enclose (To (3)) (Closed (-3) (-1))) (To (3));
    raw_eqb (raw_enclose (To (3)) (UpTo (-3))) (To (3));
    raw_eqb (raw_enclose (To (3)) (UpFrom (-3))) (@Full Z);
    raw_eqb (raw_enclose (To (3)) (To (-3))) (To (3));
    raw_eqb (raw_enclose (To (3)) (From (-3))) (@Full Z);
    raw_eqb (raw_enclose (To (3)) (@Full Z)) (@Full Z) ] = true.
Proof. vm_compute. reflexivity. Qed.

(** src/test/raw_interval/enclose.rs: [to_right] *)
Example test_raw_enclose_to_right : forallb (fun b : bool => b)
  [ raw_eqb (raw_enclose (To (3)) (@Empty Z)) (To (3));
    raw_eqb (raw_enclose (To (3)) (Point (13))) (To (13));
    raw_eqb (raw_enclose (To (3)) (Open (10) (13))) (UpTo (13));
    raw_eqb (raw_enclose (To (3)) (LeftOpen (10) (13))) (To (13));
    raw_eqb (raw_enclose (To (3)) (RightOpen (10) (13))) (UpTo (13));
    raw_eqb (raw_enclose (To (3)) (Closed (10) (13))) (To (13));
    raw_eqb (raw_enclose (To (3)) (UpTo (13))) (UpTo (13));
    raw_eqb (raw_enclose (To (3)) (UpFrom (13))) (@Full Z);
    raw_eqb (raw_enclose (To (3)) (To (13))) (To (13));
    raw_eqb (raw_enclose (To (3)) (From (13))) (@Full Z);
    raw_eqb (raw_enclose (To (3)) (@Full Z)) (@Full Z) ] = true.
Proof. vm_compute. reflexivity. Qed.

(** src/test/raw_interval/enclose.rs: [from_center] *)
Example test_raw_enclose_from_center : forallb (fun b : bool => b)
  [ raw_eqb (raw_enclose (From (0)) (@Empty Z)) (From (0));
    raw_eqb (raw_enclose (From (0)) (Point (0))) (From (0));
    raw_eqb (raw_enclose (From (0)) (Open (0) (3))) (From (0));
    raw_eqb (raw_enclose (From (0)) (LeftOpen (0) (3))) (From (0));
    raw_eqb (raw_enclose (From (0)) (RightOpen (0) (3))) (From (0));
    raw_eqb (raw_enclose (From (0)) (Closed (0) (3))) (From (0));
    raw_eqb (raw_enclose (From (0)) (UpTo (0))) (@Full Z);
    raw_eqb (raw_enclose (From (0)) (UpFrom (0))) (From (0));
    raw_eqb (raw_enclose (From (0)) (To (0))) (@Full Z);
    raw_eqb (raw_enclose (From (0)) (From (0))) (From (0));
    raw_eqb (raw_enclose (From (0)) (@Full Z)) (@Full Z) ] = true.
Proof. vm_compute. reflexivity. Qed.

(** src/test/raw_interval/enclose.rs: [from_left] *)
Example test_raw_enclose_from_left : forallb (fun b : bool => b)
  [ raw_eqb (raw_enclose (From (0)) (@Empty Z)) (From (0));
    raw_eqb (raw_enclose (From (0)) (Point (-3))) (From (-3));
    raw_eqb (raw_enclose (From (0)) (Open (-3) (-1))) (UpFrom (-3));
    raw_eqb (raw_enclose (From (0)) (LeftOpen (-3) (-1))) (UpFrom (-3));
    raw_eqb (raw_enclose (From (0)) (RightOpen (-3) (-1))) (From (-3));
    raw_eqb (raw_enclose (From (0)) (Closed (-3) (-1))) (From (-3));
    raw_eqb (raw_enclose (From (0)) (UpTo (-3))) (@Full Z);
    raw_eqb (raw_enclose (From (0)) (UpFrom (-3))) (UpFrom (-3));
    raw_eqb (raw_enclose (From (0)) (To (-3))) (@Full Z);
    raw_eqb (raw_enclose (From (0)) (From (-3))) (From (-3));
    raw_eqb (raw_enclose (From (0)) (@Full Z)) (@Full Z) ] = true.
Proof. vm_compute. reflexivity. Qed.

(** src/test/raw_interval/enclose.rs: [from_right] *)
Example test_raw_enclose_from_right : forallb (fun b : bool => b)
  [ raw_eqb (raw_enclose (From (0)) (@Empty Z)) (From (0));
    raw_eqb (raw_enclose (From (0)) (Point (13))) (From (0));
    raw_eqb (raw_enclose (From (0)) (Open (10) (13))) (From (0));
    raw_eqb (raw_enclose (From (0)) (LeftOpen (10) (13))) (From (0));
    raw_eqb (raw_enclose (From (0)) (RightOpen (10) (13))) (From (0));
    raw_eqb (raw_enclose (From (0)) (Closed (10) (13))) (From (0));
    raw_eqb (raw_enclose (From (0)) (UpTo (13))) (@Full Z);
    raw_eqb (raw_enclose (From (0)) (UpFrom (13))) (From (0));
    raw_eqb (raw_enclose (From (0)) (To (13))) (@Full Z);
    raw_eqb (raw_enclose (From (0)) (From (13))) (From (0));
    raw_eqb (raw_enclose (From (0)) (@Full Z)) (@Full Z) ] = true.
Proof. vm_compute. reflexivity. Qed.

(** src/test/raw_interval/enclose.rs: [full] *)
Example test_raw_enclose_full : forallb (fun b : bool => b)
  [ raw_eqb (raw_enclose (@Full Z) (@Empty Z)) (@Full Z);
    raw_eqb (raw_enclose (@Full Z) (Point (0))) (@Full Z);
    raw_eqb (raw_enclose (@Full Z) (Open (0) (3))) (@Full Z);
    raw_eqb (raw_enclose (@Full Z) (LeftOpen (0) (3))) (@Full Z);
    raw_eqb (raw_enclose (@Full Z) (RightOpen (0) (3))) (@Full Z);
    raw_eqb (raw_enclose (@Full Z) (Closed (0) (3))) (@Full Z);
    raw_eqb (raw_enclose (@Full Z) (UpTo (0))) (@Full Z);
    raw_eqb (raw_enclose (@Full Z) (UpFrom (0))) (@Full Z);
    raw_eqb (raw_enclose (@Full Z) (To (0))) (@Full Z);
    raw_eqb (raw_enclose (@Full Z) (From (0))) (@Full Z);
    raw_eqb (raw_enclose (@Full Z) (@Full Z)) (@Full Z) ] = true.
Proof. vm_compute. reflexivity. Qed.

(** src/test/raw_interval/intersect.rs: [empty] *)
Example test_raw_intersect_empty : forallb (fun b : bool => b)
  [ raw_eqb (raw_intersect (@Empty Z) (@Empty Z)) (@Empty Z);
    raw_eqb (raw_intersect (@Empty Z) (Point (3))) (@Empty Z);
    raw_eqb (raw_intersect (@Empty Z) (Open (0) (3))) (@Empty Z);
    raw_eqb (raw_intersect (@Empty Z) (LeftOpen (0) (3))) (@Empty Z);
    raw_eqb (raw_intersect (@Empty Z) (RightOpen (0) (3))) (@Empty Z);
    raw_eqb (raw_intersect (@Empty Z) (Closed (0) (3))) (@Empty Z);
    raw_eqb (raw_intersect (@Empty Z) (UpTo (3))) (@Empty Z);
    raw_eqb (raw_intersect (@Empty Z) (UpFrom (3))) (@Empty Z);
    raw_eqb (raw_intersect (@Empty Z) (To (3))) (@Empty Z);
    raw_eqb (raw_intersect (@Empty Z) (From (3))) (@Empty Z);
    raw_eqb (raw_intersect (@Empty Z) (@Full Z)) (@Empty Z) ] = true.
Proof. vm_compute. reflexivity. Qed.

(** src/test/raw_interval/intersect.rs: [point_center] *)
Example test_raw_intersect_point_center : forallb (fun b : bool => b)
  [ raw_eqb (raw_intersect (Point (2)) (@Empty Z)) (@Empty Z);
    raw_eqb (raw_intersect (Point (2)) (Point (2))) (Point (2));
    raw_eqb (raw_intersect (Point (2)) (Open (0) (3))) (Point (2));
    raw_eqb (raw_intersect (Point (2)) (LeftOpen (0) (3))) (Point (2));
    raw_eqb (raw_intersect (Point (2)) (RightOpen (0) (3))) (Point (2));
    raw_eqb (raw_intersect (Point (2)) (Closed (0) (3))) (Point (2));
    raw_eqb (raw_intersect (Point (2)) (UpTo (2))) (@Empty Z);
    raw_eqb (raw_intersect (Point (2)) (UpFrom (2))) (@Empty Z);
    raw_eqb (raw_intersect (Point (2)) (To (2))) (Point (2));
    raw_eqb (raw_intersect (Point (2)) (From (2))) (Point (2));
    raw_eqb (raw_intersect (Point (2)) (@Full Z)) (Point (2)) ] = true.
Proof. vm_compute. reflexivity. Qed.

(** src/test/raw_interval/intersect.rs: [point_left] *)
Example test_raw_intersect_point_left : forallb (fun b : bool => b)
  [ raw_eqb (raw_intersect (Point (2)) (@Empty Z)) (@Empty Z);
    raw_eqb (raw_intersect (Point (2)) (Point (-1))) (@Empty Z);
    raw_eqb (raw_intersect (Point (2)) (Open (-3) (-1))) (@Empty Z);
    raw_eqb (raw_intersect (Point (2)) (LeftOpen (-3) (-1))) (@Empty Z);
    raw_eqb (raw_intersect (Point (2)) (RightOpen (-3) (-1))) (@Empty Z);
    raw_eqb (raw_intersect (Point (2)) (Closed (-3) (-1))) (@Empty Z);
    raw_eqb (raw_intersect (Point (2)) (UpTo (-3))) (@Empty Z);
    raw_eqb (raw_intersect (Point (2)) (UpFrom (-3))) (Point (2));
    raw_eqb (raw_intersect (Point (2)) (To (-3))) (@Empty Z);
    raw_eqb (raw_intersect (Point (2)) (From (-3))) (Point (2));
    raw_eqb (raw_intersect (Point (2)) (@Full Z)) (Point (2)) ] = true.
Proof. vm_compute. reflexivity. Qed.

(** src/test/raw_interval/intersect.rs: [point_right] *)
Example test_raw_intersect_point_right : forallb (fun b : bool => b)
  [ raw_eqb (raw_intersect (Point (2)) (@Empty Z)) (@Empty Z);
    raw_eqb (raw_intersect (Point (2)) (Point (10))) (@Empty Z);
    raw_eqb (raw_intersect (Point (2)) (Open (10) (13))) (@Empty Z);
    raw_eqb (raw_intersect (Point (2)) (LeftOpen (10) (13))) (@Empty Z);
    raw_eqb (raw_intersect (Point (2)) (RightOpen (10) (13))) (@Empty Z);
    raw_eqb (raw_intersect (Point (2)) (Closed (10) (13))) (@Empty Z);
    raw_eqb (raw_intersect (Point (2)) (UpTo (13))) (Point (2));
    raw_eqb (raw_intersect (Point (2)) (UpFrom (13))) (@Empty Z);
    raw_eqb (raw_intersect (Point (2)) (To (13))) (Point (2));
    raw_eqb (raw_intersect (Point (2)) (From (13))) (@Empty Z);
    raw_eqb (raw_intersect (Point (2)) (@Full Z)) (Point (2)) ] = true.
Proof. vm_compute. reflexivity. Qed.

(** src/test/raw_interval/intersect.rs: [open_center] *)
Example test_raw_intersect_open_center : forallb (fun b : bool => b)
  [ raw_eqb (raw_intersect (Open (0) (3)) (@Empty Z)) (@Empty Z);
    raw_eqb (raw_intersect (Open (0) (3)) (Point (2))) (Point (2));
    raw_eqb (raw_intersect (Open (0) (3)) (Open (0) (3))) (Open (0) (3));
    raw_eqb (raw_intersect (Open (0) (3)) (LeftOpen (0) (3))) (Open (0) (3));
    raw_eqb (raw_intersect (Open (0) (3)) (RightOpen (0) (3))) (Open (0) (3));
    raw_eqb (raw_intersect (Open (0) (3)) (Closed (0) (3))) (Open (0) (3));
    raw_eqb (raw_intersect (Open (0) (3)) (UpTo (2))) (Open (0) (2));
    raw_eqb (raw_intersect (Open (0) (3)) (UpFrom (2))) (Open (2) (3));
    raw_eqb (raw_intersect (Open (0) (3)) (To (2))) (LeftOpen (0) (2));
    raw_eqb (raw_intersect (Open (0) (3)) (From (2))) (RightOpen (2) (3));
    raw_eqb (raw_intersect (Open (0) (3)) (@Full Z)) (Open (0) (3)) ] = true.
Proof. vm_compute. reflexivity. Qed.

(** src/test/raw_interval/intersect.rs: [open_left] *)
Example test_raw_intersect_open_left : forallb (fun b : bool => b)
  [ raw_eqb (raw_intersect (Open (0) (3)) (@Empty Z)) (@Empty Z);
    raw_eqb (raw_intersect (Open (0) (3)) (Point (-3))) (@Empty Z);
    raw_eqb (raw_intersect (Open (0) (3)) (Open (-3) (-1))) (@Empty Z);
    raw_eqb (raw_intersect (Open (0) (3)) (LeftOpen (-3) (-1))) (@Empty Z);
    raw_eqb (raw_intersect (Open (0) (3)) (RightOpen (-3) (-1))) (@Empty Z);
    raw_eqb (raw_intersect (Open (0) (3)) (Closed (-3) (-1))) (@Empty Z);
    raw_eqb (raw_intersect (Open (0) (3)) (UpTo (-3))) (@Empty Z);
    raw_eqb (raw_intersect (Open (0) (3)) (UpFrom (-3))) (Open (0) (3));
    raw_eqb (raw_intersect (Open (0) (3)) (To (-3))) (@Empty Z);
    raw_eqb (raw_intersect (Open (0) (3)) (From (-3))) (Open (0) (3));
    raw_eqb (raw_intersect (Open (0) (3)) (@Full Z)) (Open (0) (3)) ] = true.
Proof. vm_compute. reflexivity. Qed.

(** src/test/raw_interval/intersect.rs: [open_right] *)
Example test_raw_intersect_open_right : forallb (fun b : bool => b)
  [ raw_eqb (raw_intersect (Open (0) (3)) (@Empty Z)) (@Empty Z);
    raw_eqb (raw_intersect (Open (0) (3)) (Point (13))) (@Empty Z);
    raw_eqb (raw_intersect (Open (0) (3)) (Open (10) (13))) (@Empty Z);
    raw_eqb (raw_intersect (Open (0) (3)) (LeftOpen (10) (13))) (@Empty Z);
    raw_eqb (raw_intersect (Open (0) (3)) (RightOpen (10) (13))) (@Empty Z);
    raw_eqb (raw_intersect (Open (0) (3)) (Closed (10) (13))) (@Empty Z);
    raw_eqb (raw_intersect (Open (0) (3)) (UpTo (13))) (Open (0) (3));
    raw_eqb (raw_intersect (Open (0) (3)) (UpFrom (13))) (@Empty Z);
    raw_eqb (raw_intersect (Open (0) (3)) (To (13))) (Open (0) (3));
    raw_eqb (raw_intersect (Open (0) (3)) (From (13))) (@Empty Z);
    raw_eqb (raw_intersect (Open (0) (3)) (@Full Z)) (Open (0) (3)) ] = true.
Proof. vm_compute. reflexivity. Qed.

(** src/test/raw_interval/intersect.rs: [left_open_center] *)
Example test_raw_intersect_left_open_center : forallb (fun b : bool => b)
  [ raw_eqb (raw_intersect (LeftOpen (0) (3)) (@Empty Z)) (@Empty Z);
    raw_eqb (raw_intersect (LeftOpen (0) (3)) (Point (2))) (Point (2));
    raw_eqb (raw_intersect (LeftOpen (0) (3)) (Open (0) (3))) (Open (0) (3));
    raw_eqb (raw_intersect (LeftOpen (0) (3)) (LeftOpen (0) (3))) (LeftOpen (0) (3));
    raw_eqb (raw_intersect (LeftOpen (0) (3)) (RightOpen (0) (3))) (Open (0) (3));
    raw_eqb (raw_intersect (LeftOpen (0) (3)) (Closed (0) (3))) (LeftOpen (0) (3));
    raw_eqb (raw_intersect (LeftOpen (0) (3)) (UpTo (2))) (Open (0) (2));
    raw_eqb (raw_intersect (LeftOpen (0) (3)) (UpFrom (2))) (LeftOpen (2) (3));
    raw_eqb (raw_intersect (LeftOpen (0) (3)) (To (2))) (LeftOpen (0) (2));
    raw_eqb (raw_intersect (LeftOpen (0) (3)) (From (2))) (Closed (2) (3));
    raw_eqb (raw_intersect (LeftOpen (0) (3)) (@Full Z)) (LeftOpen (0) (3)) ] = true.
Proof. vm_compute. reflexivity. Qed.

(** src/test/raw_interval/intersect.rs: [left_open_left] *)
Example test_raw_intersect_left_open_left : forallb (fun b : bool => b)
  [ raw_eqb (raw_intersect (LeftOpen (0) (3)) (@Empty Z)) (@Empty Z);
    raw_eqb (raw_intersect (LeftOpen (0) (3)) (Point (-3))) (@Empty Z);
    raw_eqb (raw_intersect (LeftOpen (0) (3)) (Open (-3) (-1))) (@Empty Z);
    raw_eqb (raw_intersect (LeftOpen (0) (3)) (LeftOpen (-3) (-1))) (@Empty Z);
    raw_eqb (raw_intersect (LeftOpen (0) (3)) (RightOpen (-3) (-1))) (@Empty Z);
    raw_eqb (raw_intersect (LeftOpen (0) (3)) (Closed (-3) (-1))) (@Empty Z);
    raw_eqb (raw_intersect (LeftOpen (0) (3)) (UpTo (-3))) (@Empty Z);
    raw_eqb (raw_intersect (LeftOpen (0) (3)) (UpFrom (-3))) (LeftOpen (0) (3));
    raw_eqb (raw_intersect (LeftOpen (0) (3)) (To (-3))) (@Empty Z);
    raw_eqb (raw_intersect (LeftOpen (0) (3)) (From (-3))) (LeftOpen (0) (3));
    raw_eqb (raw_intersect (LeftOpen (0) (3)) (@Full Z)) (LeftOpen (0) (3)) ] = true.
Proof. vm_compute. reflexivity. Qed.

(** src/test/raw_interval/intersect.rs: [left_open_right] *)
Example test_raw_intersect_left_open_right : forallb (fun b : bool => b)
  [ raw_eqb (raw_intersect (LeftOpen (0) (3)) (@Empty Z)) (@Empty Z);
    raw_eqb (raw_intersect (LeftOpen (0) (3)) (Point (13))) (@Empty Z);
    raw_eqb (raw_intersect (LeftOpen (0) (3)) (Open (10) (13))) (@Empty Z);
    raw_eqb (raw_intersect (LeftOpen (0) (3)) (LeftOpen (10) (13))) (@Empty Z);
    raw_eqb (raw_intersect (LeftOpen (0) (3)) (RightOpen (10) (13))) (@Empty Z);
    raw_eqb (raw_intersect (LeftOpen (0) (3)) (Closed (10) (13))) (@Empty Z);
    raw_eqb (raw_intersect (LeftOpen (0) (3)) (UpTo (13))) (LeftOpen (0) (3));
    raw_eqb (raw_intersect (LeftOpen (0) (3)) (UpFrom (13))) (@Empty Z);
    raw_eqb (raw_intersect (LeftOpen (0) (3)) (To (13))) (LeftOpen (0) (3));
    raw_eqb (raw_intersect (LeftOpen (0) (3)) (From (13))) (@Empty Z);
    raw_eqb (raw_intersect (LeftOpen (0) (3)) (@Full Z)) (LeftOpen (0) (3)) ] = true.
Proof. vm_compute. reflexivity. Qed.

(** src/test/raw_interval/intersect.rs: [right_open_center] *)
Example test_raw_intersect_right_open_center : forallb (fun b : bool => b)
  [ raw_eqb (raw_intersect (RightOpen (0) (3)) (@Empty Z)) (@Empty Z);
    raw_eqb (raw_intersect (RightOpen (0) (3)) (Point (2))) (Point (2));
    raw_eqb (raw_intersect (RightOpen (0) (3)) (Open (0) (3))) (Open (0) (3));
    raw_eqb (raw_intersect (RightOpen (0) (3)) (LeftOpen (0) (3))) (Open (0) (3));
    raw_eqb (raw_intersect (RightOpen (0) (3)) (RightOpen (0) (3))) (RightOpen (0) (3));
    raw_eqb (raw_intersect (RightOpen (0) (3)) (Closed (0) (3))) (RightOpen (0) (3));
    raw_eqb (raw_intersect (RightOpen (0) (3)) (UpTo (2))) (RightOpen (0) (2));
    raw_eqb (raw_intersect (RightOpen (0) (3)) (UpFrom (2))) (Open (2) (3));
    raw_eqb (raw_intersect (RightOpen (0) (3)) (To (2))) (Closed (0) (2));
    raw_eqb (raw_intersect (RightOpen (0) (3)) (From (2))) (RightOpen (2) (3));
    raw_eqb (raw_intersect (RightOpen (0) (3)) (@Full Z)) (RightOpen (0) (3)) ] = true.
Proof. vm_compute. reflexivity. Qed.

(** src/test/raw_interval/intersect.rs: [right_open_left] *)
Example test_raw_intersect_right_open_left : forallb (fun b : bool => b)
  [ raw_eqb (raw_intersect (RightOpen (0) (3)) (@Empty Z)) (@Empty Z);
    raw_eqb (raw_intersect (RightOpen (0) (3)) (Point (-3))) (@Empty Z);
    raw_eqb (raw_intersect (RightOpen (0) (3)) (Open (-3) (-1))) (@Empty Z);
    raw_eqb (raw_intersect (RightOpen (0) (3)) (LeftOpen (-3) (-1))) (@Empty Z);
    raw_eqb (raw_intersect (RightOpen (0) (3)) (RightOpen (-3) (-1))) (@Empty Z);
    raw_eqb (raw_intersect (RightOpen (0) (3)) (Closed (-3) (-1))) (@Empty Z);
    raw_eqb (raw_intersect (RightOpen (0) (3)) (UpTo (-3))) (@Empty Z);
    raw_eqb (raw_intersect (RightOpen (0) (3)) (UpFrom (-3))) (RightOpen (0) (3));
    raw_eqb (raw_intersect (RightOpen (0) (3)) (To (-3))) (@Empty Z);
    raw_eqb (raw_intersect (RightOpen (0) (3)) (From (-3))) (RightOpen (0) (3));
    raw_eqb (raw_intersect (RightOpen (0) (3)) (@Full Z)) (RightOpen (0) (3)) ] = true.
Proof. vm_compute. reflexivity. Qed.

(** src/test/raw_interval/intersect.rs: [right_open_right] *)
Example test_raw_intersect_right_open_right : forallb (fun b : bool => b)
  [ raw_eqb (raw_intersect (RightOpen (0) (3)) (@Empty Z)) (@Empty Z);
    raw_eqb (raw_intersect (RightOpen (0) (3)) (Point (13))) (@Empty Z);
    raw_eqb (raw_intersect (RightOpen (0) (3)) (Open (10) (13))) (@Empty Z);
    raw_eqb (raw_intersect (RightOpen (0) (3)) (LeftOpen (10) (13))) (@Empty Z);
    raw_eqb (raw_intersect (RightOpen (0) (3)) (RightOpen (10) (13))) (@Empty Z);
    raw_eqb (raw_intersect (RightOpen (0) (3)) (Closed (10) (13))) (@Empty Z);
    raw_eqb (raw_intersect (RightOpen (0) (3)) (UpTo (13))) (RightOpen (0) (3));
    raw_eqb (raw_intersect (RightOpen (0) (3)) (UpFrom (13))) (@Empty Z);
    raw_eqb (raw_intersect (RightOpen (0) (3)) (To (13))) (RightOpen (0) (3));
    raw_eqb (raw_intersect (RightOpen (0) (3)) (From (13))) (@Empty Z);
    raw_eqb (raw_intersect (RightOpen (0) (3)) (@Full Z)) (RightOpen (0) (3)) ] = true.
Proof. vm_compute. reflexivity. Qed.

(** src/test/raw_interval/intersect.rs: [closed_center] *)
Example test_raw_intersect_closed_center : forallb (fun b : bool => b)
  [ raw_eqb (raw_intersect (Closed (0) (3)) (@Empty Z)) (@Empty Z);
    raw_eqb (raw_intersect (Closed (0) (3)) (Point (2))) (Point (2));
    raw_eqb (raw_intersect (Closed (0) (3)) (Open (0) (3))) (Open (0) (3));
    raw_eqb (raw_intersect (Closed (0) (3)) (LeftOpen (0) (3))) (LeftOpen (0) (3));
    raw_eqb (raw_intersect (Closed (0) (3)) (RightOpen (0) (3))) (RightOpen (0) (3));
    raw_eqb (raw_intersect (Closed (0) (3)) (Closed (0) (3))) (Closed (0) (3));
    raw_eqb (raw_intersect (Closed (0) (3)) (UpTo (2))) (RightOpen (0) (2));
    raw_eqb (raw_intersect (Closed (0) (3)) (UpFrom (2))) (LeftOpen (2) (3));
    raw_eqb (raw_intersect (Closed (0) (3)) (To (2))) (Closed (0) (2));
    raw_eqb (raw_intersect (Closed (0) (3)) (From (2))) (Closed (2) (3));
    raw_eqb (raw_intersect (Closed (0) (3)) (@Full Z)) (Closed (0) (3)) ] = true.
Proof. vm_compute. reflexivity. Qed.

(** src/test/raw_interval/intersect.rs: [closed_left] *)
Example test_raw_intersect_closed_left : forallb (fun b : bool => b)
  [ raw_eqb (raw_intersect (Closed (0) (3)) (@Empty Z)) (@Empty Z);
    raw_eqb (raw_intersect (Closed (0) (3)) (Point (-3))) (@Empty Z);
    raw_eqb (raw_intersect (Closed (0) (3)) (Open (-3) (-1))) (@Empty Z);
    raw_eqb (raw_intersect (Closed (0) (3)) (LeftOpen (-3) (-1))) (@Empty Z);
    raw_eqb (raw_intersect (Closed (0) (3)) (RightOpen (-3) (-1))) (@Empty Z);
    raw_eqb (raw_intersect (Closed (0) (3)) (Closed (-3) (-1))) (@Empty Z);
    raw_eqb (raw_intersect (Closed (0) (3)) (UpTo (-3))) (@Empty Z);
    raw_eqb (raw_intersect (Closed (0) (3)) (UpFrom (-3))) (Closed (0) (3));
    raw_eqb (raw_intersect (Closed (0) (3)) (To (-3))) (@Empty Z);
    raw_eqb (raw_intersect (Closed (0) (3)) (From (-3))) (Closed (0) (3));
    raw_eqb (raw_intersect (Closed (0) (3)) (@Full Z)) (Closed (0) (3)) ] = true.
Proof. vm_compute. reflexivity. Qed.

(** src/test/raw_interval/intersect.rs: [closed_right] *)
Example test_raw_intersect_closed_right : forallb (fun b : bool => b)
  [ raw_eqb (raw_intersect (Closed (0) (3)) (@Empty Z)) (@Empty Z);
    raw_eqb (raw_intersect (Closed (0) (3)) (Point (13))) (@Empty Z);
    raw_eqb (raw_intersect (Closed (0) (3)) (Open (10) (13))) (@Empty Z);
    raw_eqb (raw_intersect (Closed (0) (3)) (LeftOpen (10) (13))) (@Empty Z);
    raw_eqb (raw_intersect (Closed (0) (3)) (RightOpen (10) (13))) (@Empty Z);
    raw_eqb (raw_intersect (Closed (0) (3)) (Closed (10) (13))) (@Empty Z);
    raw_eqb (raw_intersect (Closed (0) (3)) (UpTo (13))) (Closed (0) (3));
    raw_eqb (raw_intersect (Closed (0) (3)) (UpFrom (13))) (@Empty Z);
    raw_eqb (raw_intersect (Closed (0) (3)) (To (13))) (Closed (0) (3));
    raw_eqb (raw_intersect (Closed (0) (3)) (From (13))) (@Empty Z);
    raw_eqb (raw_intersect (Closed (0) (3)) (@Full Z)) (Closed (0) (3)) ] = true.
Proof. vm_compute. reflexivity. Qed.

(** src/test/raw_interval/intersect.rs: [up_to_center] *)
Example test_raw_intersect_up_to_center : forallb (fun b : bool => b)
  [ raw_eqb (raw_intersect (UpTo (3)) (@Empty Z)) (@Empty Z);
    raw_eqb (raw_intersect (UpTo (3)) (Point (2))) (Point (2));
    raw_eqb (raw_intersect (UpTo (3)) (Open (0) (3))) (Open (0) (3));
    raw_eqb (raw_intersect (UpTo (3)) (LeftOpen (0) (3))) (Open (0) (3));
    raw_eqb (raw_intersect (UpTo (3)) (RightOpen (0) (3))) (RightOpen (0) (3));
    raw_eqb (raw_intersect (UpTo (3)) (Closed (0) (3))) (RightOpen (0) (3));
    raw_eqb (raw_intersect (UpTo (3)) (UpTo (2))) (UpTo (2));
    raw_eqb (raw_intersect (UpTo (3)) (UpFrom (2))) (Open (2) (3));
    raw_eqb (raw_intersect (UpTo (3)) (To (2))) (To (2));
    raw_eqb (raw_intersect (UpTo (3)) (From (2))) (RightOpen (2) (3));
    raw_eqb (raw_intersect (UpTo (3)) (@Full Z)) (UpTo (3)) ] = true.
Proof. vm_compute. reflexivity. Qed.

(** src/test/raw_interval/intersect.rs: [up_to_left] *)
Example test_raw_intersect_up_to_left : forallb (fun b : bool => b)
  [ raw_eqb (raw_intersect (UpTo (3)) (@Empty Z)) (@Empty Z);
    raw_eqb (raw_intersect (UpTo (3)) (Point (-3))) (Point (-3));
    raw_eqb (raw_intersect (UpTo (3)) (Open (-3) (-1))) (Open (-3) (-1));
    raw_eqb (raw_intersect (UpTo (3)) (LeftOpen (-3) (-1))) (LeftOpen (-3) (-1));
    raw_eqb (raw_intersect (UpTo (3)) (RightOpen (-3) (-1))) (RightOpen (-3) (-1));
    raw_eqb (raw_intersect (UpTo (3)) (Closed (-3) (-1))) (Closed (-3) (-1));
    raw_eqb (raw_intersect (UpTo (3)) (UpTo (-3))) (UpTo (-3));
    raw_eqb (raw_intersect (UpTo (3)) (UpFrom (-3))) (Open (-3) (3));
    raw_eqb (raw_intersect (UpTo (3)) (To (-3))) (To (-3));
    raw_eqb (raw_intersect (UpTo (3)) (From (-3))) (RightOpen (-3) (3));
    raw_eqb (raw_intersect (UpTo (3)) (@Full Z)) (UpTo (3)) ] = true.
Proof. vm_compute. reflexivity. Qed.

(** src/test/raw_interval/intersect.rs: [up_to_right] *)
Example test_raw_intersect_up_to_right : forallb (fun b : bool => b)
  [ raw_eqb (raw_intersect (UpTo (3)) (@Empty Z)) (@Empty Z);
    raw_eqb (raw_intersect (UpTo (3)) (Point (13))) (@Empty Z);
    raw_eqb (raw_intersect (UpTo (3)) (Open (10) (13))) (@Empty Z);
    raw_eqb (raw_intersect (UpTo (3)) (LeftOpen (10) (13))) (@Empty Z);
    raw_eqb (raw_intersect (UpTo (3)) (RightOpen (10) (13))) (@Empty Z);
    raw_eqb (raw_intersect (UpTo (3)) (Closed (10) (13))) (@Empty Z);
    raw_eqb (raw_intersect (UpTo (3)) (UpTo (13))) (UpTo (3));
    raw_eqb (raw_intersect (UpTo (3)) (UpFrom (13))) (@Empty Z);
    raw_eqb (raw_intersect (UpTo (3)) (To (13))) (UpTo (3));
    raw_eqb (raw_intersect (UpTo (3)) (From (13))) (@Empty Z);
    raw_eqb (raw_intersect (UpTo (3)) (@Full Z)) (UpTo (3)) ] = true.
Proof. vm_compute. reflexivity. Qed.

(** src/test/raw_interval/intersect.rs: [up_from_center] *)
Example test_raw_intersect_up_from_center : forallb (fun b : bool => b)
  [ raw_eqb (raw_intersect (UpFrom (0)) (@Empty Z)) (@Empty Z);
    raw_eqb (raw_intersect (UpFrom (0)) (Point (2))) (Point (2));
    raw_eqb (raw_intersect (UpFrom (0)) (Open (0) (3))) (Open (0) (3));
    raw_eqb (raw_intersect (UpFrom (0)) (LeftOpen (0) (3))) (LeftOpen (0) (3));
    raw_eqb (raw_intersect (UpFrom (0)) (RightOpen (0) (3))) (Open (0) (3));
    raw_eqb (raw_intersect (UpFrom (0)) (Closed (0) (3))) (LeftOpen (0) (3));
    raw_eqb (raw_intersect (UpFrom (0)) (UpTo (2))) (Open (0) (2));
    raw_eqb (raw_intersect (UpFrom (0)) (UpFrom (2))) (UpFrom (2));
    raw_eqb (raw_intersect (UpFrom (0)) (To (2))) (LeftOpen (0) (2));
    raw_eqb (raw_intersect (UpFrom (0)) (From (2))) (From (2));
    raw_eqb (raw_intersect (UpFrom (0)) (@Full Z)) (UpFrom (0)) ] = true.
Proof. vm_compute. reflexivity. Qed.

(** src/test/raw_interval/intersect.rs: [up_from_left] *)
Example test_raw_intersect_up_from_left : forallb (fun b : bool => b)
  [ raw_eqb (raw_intersect (UpFrom (0)) (@Empty Z)) (@Empty Z);
    raw_eqb (raw_intersect (UpFrom (0)) (Point (-3))) (@Empty Z);
    raw_eqb (raw_intersect (UpFrom (0)) (Open (-3) (-1))) (@Empty Z);
    raw_eqb (raw_intersect (UpFrom (0)) (LeftOpen (-3) (-1))) (@Empty Z);
    raw_eqb (raw_intersect (UpFrom (0)) (RightOpen (-3) (-1))) (@Empty Z);
    raw_eqb (raw_intersect (UpFrom (0)) (Closed (-3) (-1))) (@Empty Z);
    raw_eqb (raw_intersect (UpFrom (0)) (UpTo (-3))) (@Empty Z);
    raw_eqb (raw_intersect (UpFrom (0)) (UpFrom (-3))) (UpFrom (0));
    raw_eqb (raw_intersect (UpFrom (0)) (To (-3))) (@Empty Z);
    raw_eqb (raw_intersect (UpFrom (0)) (From (-3))) (UpFrom (0));
    raw_eqb (raw_intersect (UpFrom (0)) (@Full Z)) (UpFrom (0)) ] = true.
Proof. vm_compute. reflexivity. Qed.

(** src/test/raw_interval/intersect.rs: [up_from_right] *)
Example test_raw_intersect_up_from_right : forallb (fun b : bool => b)
  [ raw_eqb (raw_intersect (UpFrom (0)) (@Empty Z)) (@Empty Z);
    raw_eqb (raw_intersect (UpFrom (0)) (Point (13))) (Point (13));
    raw_eqb (raw_intersect (UpFrom (0)) (Open (10) (13))) (Open (10) (13));
    raw_eqb (raw_intersect (UpFrom (0)) (LeftOpen (10) (13))) (LeftOpen (10) (13));
    raw_eqb (raw_intersect (UpFrom (0)) (RightOpen (10) (13))) (RightOpen (10) (13));
    raw_eqb (raw_intersect (UpFrom (0)) (Closed (10) (13))) (Closed (10) (13));
    raw_eqb (raw_intersect (UpFrom (0)) (UpTo (13))) (Open (0) (13));
    raw_eqb (raw_intersect (UpFrom (0)) (UpFrom (13))) (UpFrom (13));
    raw_eqb (raw_intersect (UpFrom (0)) (To (13))) (LeftOpen (0) (13));
    raw_eqb (raw_intersect (UpFrom (0)) (From (13))) (From (13));
    raw_eqb (raw_intersect (UpFrom (0)) (@Full Z)) (UpFrom (0)) ] = true.
Proof. vm_compute. reflexivity. Qed.

(** src/test/raw_interval/intersect.rs: [to_center] *)
Example test_raw_intersect_to_center : forallb (fun b : bool => b)
  [ raw_eqb (raw_intersect (To (3)) (@Empty Z)) (@Empty Z);
    raw_eqb (raw_intersect (To (3)) (Point (2))) (Point (2));
    raw_eqb (raw_intersect (To (3)) (Open (0) (3))) (Open (0) (3));
    raw_eqb (raw_intersect (To (3)) (LeftOpen (0) (3))) (LeftOpen (0) (3));
    raw_eqb (raw_intersect (To (3)) (RightOpen (0) (3))) (RightOpen (0) (3));
    raw_eqb (raw_intersect (To (3)) (Closed (0) (3))) (Closed (0) (3));
    raw_eqb (raw_intersect (To (3)) (UpTo (2))) (UpTo (2));
    raw_eqb (raw_intersect (To (3)) (UpFrom (2))) (LeftOpen (2) (3));
    raw_eqb (raw_intersect (To (3)) (To (2))) (To (2));
    raw_eqb (raw_intersect (To (3)) (From (2))) (Closed (2) (3));
    raw_eqb (raw_intersect (To (3)) (@Full Z)) (To (3)) ] = true.
Proof. vm_compute. reflexivity. Qed.

(** src/test/raw_interval/intersect.rs: [to_left] *)
Example test_raw_intersect_to_left : forallb (fun b : bool => b)
  [ raw_eqb (raw_intersect (To (3)) (@Empty Z)) (@Empty Z);
    raw_eqb (raw_intersect (To (3)) (Point (-3))) (Point (-3));
    raw_eqb (raw_intersect (To (3)) (Open (-3) (-1))) (Open (-3) (-1));
    raw_eqb (raw_intersect (To (3)) (LeftOpen (-3) (-1))) (LeftOpen (-3) (-1));
    raw_eqb (raw_intersect (To (3)) (RightOpen (-3) (-1))) (RightOpen (-3) (-1));
    raw_eqb (raw_intersect (To (3)) (Closed (-3) (-1))) (Closed (-3) (-1));
    raw_eqb (raw_intersect (To (3)) (UpTo (-3))) (UpTo (-3));
    raw_eqb (raw_intersect (To (3)) (UpFrom (-3))) (LeftOpen (-3) (3));
    raw_eqb (raw_intersect (To (3)) (To (-3))) (To (-3));
    raw_eqb (raw_intersect (To (3)) (From (-3))) (Closed (-3) (3));
    raw_eqb (raw_intersect (To (3)) (@Full Z)) (To (3)) ] = true.
Proof. vm_compute. reflexivity. Qed.

(** src/test/raw_interval/intersect.rs: [to_right] *)
Example test_raw_intersect_to_right : forallb (fun b : bool => b)
  [ raw_eqb (raw_intersect (To (3)) (@Empty Z)) (@Empty Z);
    raw_eqb (raw_intersect (To (3)) (Point (13))) (@Empty Z);
    raw_eqb (raw_intersect (To (3)) (Open (10) (13))) (@Empty Z);
    raw_eqb (raw_intersect (To (3)) (LeftOpen (10) (13))) (@Empty Z);
    raw_eqb (raw_intersect (To (3)) (RightOpen (10) (13))) (@Empty Z);
    raw_eqb (raw_intersect (To (3)) (Closed (10) (13))) (@Empty Z);
    raw_eqb (raw_intersect (To (3)) (UpTo (13))) (To (3));
    raw_eqb (raw_intersect (To (3)) (UpFrom (13))) (@Empty Z);
    raw_eqb (raw_intersect (To (3)) (To (13))) (To (3));
    raw_eqb (raw_intersect (To (3)) (From (13))) (@Empty Z);
    raw_eqb (raw_intersect (To (3)) (@Full Z)) (To (3)) ] = true.
Proof. vm_compute. reflexivity. Qed.

(** src/test/raw_interval/intersect.rs: [from_center] *)
Example test_raw_intersect_from_center : forallb (fun b : bool => b)
  [ raw_eqb (raw_intersect (From (0)) (@Empty Z)) (@Empty Z);
    raw_eqb (raw_intersect (From (0)) (Point (2))) (Point (2));
    raw_eqb (raw_intersect (From (0)) (Open (0) (3))) (Open (0) (3));
    raw_eqb (raw_intersect (From (0)) (LeftOpen (0) (3))) (LeftOpen (0) (3));
    raw_eqb (raw_intersect (From (0)) (RightOpen (0) (3))) (RightOpen (0) (3));
    raw_eqb (raw_intersect (From (0)) (Closed (0) (3))) (Closed (0) (3));
    raw_eqb (raw_intersect (From (0)) (UpTo (2))) (RightOpen (0) (2));
    raw_eqb (raw_intersect (From (0)) (UpFrom (2))) (UpFrom (2));
    raw_eqb (raw_intersect (From (0)) (To (2))) (Closed (0) (2));
    raw_eqb (raw_intersect (From (0)) (From (2))) (From (2));
    raw_eqb (raw_intersect (From (0)) (@Full Z)) (From (0)) ] = true.
Proof. vm_compute. reflexivity. Qed.

(** src/test/raw_interval/intersect.rs: [from_left] *)
Example test_raw_intersect_from_left : forallb (fun b : bool => b)
  [ raw_eqb (raw_intersect (From (0)) (@Empty Z)) (@Empty Z);
    raw_eqb (raw_intersect (From (0)) (Point (-3))) (@Empty Z);
    raw_eqb (raw_intersect (From (0)) (Open (-3) (-1))) (@Empty Z);
    raw_eqb (raw_intersect (From (0)) (LeftOpen (-3) (-1))) (@Empty Z);
    raw_eqb (raw_intersect (From (0)) (RightOpen (-3) (-1))) (@Empty Z);
    raw_eqb (raw_intersect (From (0)) (Closed (-3) (-1))) (@Empty Z);
    raw_eqb (raw_intersect (From (0)) (UpTo (-3))) (@Empty Z);
    raw_eqb (raw_intersect (From (0)) (UpFrom (-3))) (From (0));
    raw_eqb (raw_intersect (From (0)) (To (-3))) (@Empty Z);
    raw_eqb (raw_intersect (From (0)) (From (-3))) (From (0));
    raw_eqb (raw_intersect (From (0)) (@Full Z)) (From (0)) ] = true.
Proof. vm_compute. reflexivity. Qed.

(** src/test/raw_interval/intersect.rs: [from_right] *)
Example test_raw_intersect_from_right : forallb (fun b : bool => b)
  [ raw_eqb (raw_intersect (From (0)) (@Empty Z)) (@Empty Z);
    raw_eqb (raw_intersect (From (0)) (Point (13))) (Point (13));
    raw_eqb (raw_intersect (From (0)) (Open (10) (13))) (Open (10) (13));
    raw_eqb (raw_intersect (From (0)) (LeftOpen (10) (13))) (LeftOpen (10) (13));
    raw_eqb (raw_intersect (From (0)) (RightOpen (10) (13))) (RightOpen (10) (13));
    raw_eqb (raw_intersect (From (0)) (Closed (10) (13))) (Closed (10) (13));
    raw_eqb (raw_intersect (From (0)) (UpTo (13))) (RightOpen (0) (13));
    raw_eqb (raw_intersect (From (0)) (UpFrom (13))) (UpFrom (13));
    raw_eqb (raw_intersect (From (0)) (To (13))) (Closed (0) (13));
    raw_eqb (raw_intersect (From (0)) (From (13))) (From (13));
    raw_eqb (raw_intersect (From (0)) (@Full Z)) (From (0)) ] = true.
Proof. vm_compute. reflexivity. Qed.

(** src/test/raw_interval/intersect.rs: [full] *)
Example test_raw_intersect_full : forallb (fun b : bool => b)
  [ raw_eqb (raw_intersect (@Full Z) (@Empty Z)) (@Empty Z);
    raw_eqb (raw_intersect (@Full Z) (Point (0))) (Point (0));
    raw_eqb (raw_intersect (@Full Z) (Open (0) (3))) (Open (0) (3));
    raw_eqb (raw_intersect (@Full Z) (LeftOpen (0) (3))) (LeftOpen (0) (3));
    raw_eqb (raw_intersect (@Full Z) (RightOpen (0) (3))) (RightOpen (0) (3));
    raw_eqb (raw_intersect (@Full Z) (Closed (0) (3))) (Closed (0) (3));
    raw_eqb (raw_intersect (@Full Z) (UpTo (0))) (UpTo (0));
    raw_eqb (raw_intersect (@Full Z) (UpFrom (0))) (UpFrom (0));
    raw_eqb (raw_intersect (@Full Z) (To (0))) (To (0));
    raw_eqb (raw_intersect (@Full Z) (From (0))) (From (0));
    raw_eqb (raw_intersect (@Full Z) (@Full Z)) (@Full Z) ] = true.
Proof. vm_compute. reflexivity. Qed.

(** src/test/raw_interval/minus.rs: [empty] *)
Example test_raw_minus_empty : forallb (fun b : bool => b)
  [ same_set (raw_minus (@Empty Z) (@Empty Z)) [];
    same_set (raw_minus (@Empty Z) (Point (3))) [];
    same_set (raw_minus (@Empty Z) (Open (0) (3))) [];
    same_set (raw_minus (@Empty Z) (LeftOpen (0) (3))) [];
    same_set (raw_minus (@Empty Z) (RightOpen (0) (3))) [];
    same_set (raw_minus (@Empty Z) (Closed (0) (3))) [];
    same_set (raw_minus (@Empty Z) (UpTo (3))) [];
    same_set (raw_minus (@Empty Z) (UpFrom (3))) [];
    same_set (raw_minus (@Empty Z) (To (3))) [];
    same_set (raw_minus (@Empty Z) (From (3))) [];
    same_set (raw_minus (@Empty Z) (@Full Z)) [] ] = true.
Proof. vm_compute. reflexivity. Qed.

(** src/test/raw_interval/minus.rs: [point_center] *)
Example test_raw_minus_point_center : forallb (fun b : bool => b)
  [ same_set (raw_minus (Point (3)) (@Empty Z)) [(Point (3))];
    same_set (raw_minus (Point (3)) (Point (3))) [];
    same_set (raw_minus (Point (3)) (Open (0) (3))) [(Point (3))];
    same_set (raw_minus (Point (3)) (LeftOpen (0) (3))) [];
    same_set (raw_minus (Point (3)) (RightOpen (0) (3))) [(Point (3))];
    same_set (raw_minus (Point (3)) (Closed (0) (3))) [];
    same_set (raw_minus (Point (3)) (UpTo (3))) [(Point (3))];
    same_set (raw_minus (Point (3)) (UpFrom (3))) [(Point (3))];
    same_set (raw_minus (Point (3)) (To (3))) [];
    same_set (raw_minus (Point (3)) (From (3))) [];
    same_set (raw_minus (Point (3)) (@Full Z)) [] ] = true.
Proof. vm_compute. reflexivity. Qed.

(** src/test/raw_interval/minus.rs: [point_left] *)
Example test_raw_minus_point_left : forallb (fun b : bool => b)
  [ same_set (raw_minus (Point (3)) (@Empty Z)) [(Point (3))];
    same_set (raw_minus (Point (3)) (Point (-1))) [(Point (3))];
    same_set (raw_minus (Point (3)) (Open (-3) (-1))) [(Point (3))];
    same_set (raw_minus (Point (3)) (LeftOpen (-3) (-1))) [(Point (3))];
    same_set (raw_minus (Point (3)) (RightOpen (-3) (-1))) [(Point (3))];
    same_set (raw_minus (Point (3)) (Closed (-3) (-1))) [(Point (3))];
    same_set (raw_minus (Point (3)) (UpTo (-3))) [(Point (3))];
    same_set (raw_minus (Point (3)) (UpFrom (-3))) [];
    same_set (raw_minus (Point (3)) (To (-3))) [(Point (3))];
    same_set (raw_minus (Point (3)) (From (-3))) [];
    same_set (raw_minus (Point (3)) (@Full Z)) [] ] = true.
Proof. vm_compute. reflexivity. Qed.

(** src/test/raw_interval/minus.rs: [point_right] *)
Example test_raw_minus_point_right : forallb (fun b : bool => b)
  [ same_set (raw_minus (Point (3)) (@Empty Z)) [(Point (3))];
    same_set (raw_minus (Point (3)) (Point (10))) [(Point (3))];
    same_set (raw_minus (Point (3)) (Open (10) (13))) [(Point (3))];
    same_set (raw_minus (Point (3)) (LeftOpen (10) (13))) [(Point (3))];
    same_set (raw_minus (Point (3)) (RightOpen (10) (13))) [(Point (3))];
    same_set (raw_minus (Point (3)) (Closed (10) (13))) [(Point (3))];
    same_set (raw_minus (Point (3)) (UpTo (13))) [];
    same_set (raw_minus (Point (3)) (UpFrom (13))) [(Point (3))];
    same_set (raw_minus (Point (3)) (To (13))) [];
    same_set (raw_minus (Point (3)) (From (13))) [(Point (3))];
    same_set (raw_minus (Point (3)) (@Full Z)) [] ] = true.
Proof. vm_compute. reflexivity. Qed.

(** src/test/raw_interval/minus.rs: [open_center] *)
Example test_raw_minus_open_center : forallb (fun b : bool => b)
  [ same_set (raw_minus (Open (0) (3)) (@Empty Z)) [(Open (0) (3))];
    same_set (raw_minus (Open (0) (3)) (Point (2))) [(Open (0) (2)); (Open (2) (3))];
    same_set (raw_minus (Open (0) (3)) (Open (0) (3))) [];
    same_set (raw_minus (Open (0) (3)) (LeftOpen (0) (3))) [];
    same_set (raw_minus (Open (0) (3)) (RightOpen (0) (3))) [];
    same_set (raw_minus (Open (0) (3)) (Closed (0) (3))) [];
    same_set (raw_minus (Open (0) (3)) (UpTo (2))) [(RightOpen (2) (3))];
    same_set (raw_minus (Open (0) (3)) (UpFrom (2))) [(LeftOpen (0) (2))];
    same_set (raw_minus (Open (0) (3)) (To (2))) [(Open (2) (3))];
    same_set (raw_minus (Open (0) (3)) (From (2))) [(Open (0) (2))];
    same_set (raw_minus (Open (0) (3)) (@Full Z)) [] ] = true.
Proof. vm_compute. reflexivity. Qed.

(** src/test/raw_interval/minus.rs: [open_left] *)
Example test_raw_minus_open_left : forallb (fun b : bool => b)
  [ same_set (raw_minus (Open (0) (3)) (@Empty Z)) [(Open (0) (3))];
    same_set (raw_minus (Open (0) (3)) (Point (-3))) [(Open (0) (3))];
    same_set (raw_minus (Open (0) (3)) (Open (-3) (-1))) [(Open (0) (3))];
    same_set (raw_minus (Open (0) (3)) (LeftOpen (-3) (-1))) [(Open (0) (3))];
    same_set (raw_minus (Open (0) (3)) (RightOpen (-3) (-1))) [(Open (0) (3))];
    same_set (raw_minus (Open (0) (3)) (Closed (-3) (-1))) [(Open (0) (3))];
    same_set (raw_minus (Open (0) (3)) (UpTo (-3))) [(Open (0) (3))];
    same_set (raw_minus (Open (0) (3)) (UpFrom (-3))) [];
    same_set (raw_minus (Open (0) (3)) (To (-3))) [(Open (0) (3))];
    same_set (raw_minus (Open (0) (3)) (From (-3))) [];
    same_set (raw_minus (Open (0) (3)) (@Full Z)) [] ] = true.
Proof. vm_compute. reflexivity. Qed.

(** src/test/raw_interval/minus.rs: [open_right] *)
Example test_raw_minus_open_right : forallb (fun b : bool => b)
  [ same_set (raw_minus (Open (0) (3)) (@Empty Z)) [(Open (0) (3))];
    same_set (raw_minus (Open (0) (3)) (Point (13))) [(Open (0) (3))];
    same_set (raw_minus (Open (0) (3)) (Open (10) (13))) [(Open (0) (3))];
    same_set (raw_minus (Open (0) (3)) (LeftOpen (10) (13))) [(Open (0) (3))];
    same_set (raw_minus (Open (0) (3)) (RightOpen (10) (13))) [(Open (0) (3))];
    same_set (raw_minus (Open (0) (3)) (Closed (10) (13))) [(Open (0) (3))];
    same_set (raw_minus (Open (0) (3)) (UpTo (13))) [];
    same_set (raw_minus (Open (0) (3)) (UpFrom (13))) [(Open (0) (3))];
    same_set (raw_minus (Open (0) (3)) (To (13))) [];
    same_set (raw_minus (Open (0) (3)) (From (13))) [(Open (0) (3))];
    same_set (raw_minus (Open (0) (3)) (@Full Z)) [] ] = true.
Proof. vm_compute. reflexivity. Qed.

(** src/test/raw_interval/minus.rs: [left_open_center] *)
Example test_raw_minus_left_open_center : forallb (fun b : bool => b)
  [ same_set (raw_minus (LeftOpen (0) (3)) (@Empty Z)) [(LeftOpen (0) (3))];
    same_set (raw_minus (LeftOpen (0) (3)) (Point (2))) [(Open (0) (2)); (LeftOpen (2) (3))];
    same_set (raw_minus (LeftOpen (0) (3)) (Open (0) (3))) [(Point (3))];
    same_set (raw_minus (LeftOpen (0) (3)) (LeftOpen (0) (3))) [];
    same_set (raw_minus (LeftOpen (0) (3)) (RightOpen (0) (3))) [(Point (3))];
    same_set (raw_minus (LeftOpen (0) (3)) (Closed (0) (3))) [];
    same_set (raw_minus (LeftOpen (0) (3)) (UpTo (2))) [(Closed (2) (3))];
    same_set (raw_minus (LeftOpen (0) (3)) (UpFrom (2))) [(LeftOpen (0) (2))];
    same_set (raw_minus (LeftOpen (0) (3)) (To (2))) [(LeftOpen (2) (3))];
    same_set (raw_minus (LeftOpen (0) (3)) (From (2))) [(Open (0) (2))];
    same_set (raw_minus (LeftOpen (0) (3)) (@Full Z)) [] ] = true.
Proof. vm_compute. reflexivity. Qed.

(** src/test/raw_interval/minus.rs: [left_open_left] *)
Example test_raw_minus_left_open_left : forallb (fun b : bool => b)
  [ same_set (raw_minus (LeftOpen (0) (3)) (@Empty Z)) [(LeftOpen (0) (3))];
    same_set (raw_minus (LeftOpen (0) (3)) (Point (-3))) [(LeftOpen (0) (3))];
    same_set (raw_minus (LeftOpen (0) (3)) (Open (-3) (-1))) [(LeftOpen (0) (3))];
    same_set (raw_minus (LeftOpen (0) (3)) (LeftOpen (-3) (-1))) [(LeftOpen (0) (3))];
    same_set (raw_minus (LeftOpen (0) (3)) (RightOpen (-3) (-1))) [(LeftOpen (0) (3))];
    same_set (raw_minus (LeftOpen (0) (3)) (Closed (-3) (-1))) [(LeftOpen (0) (3))];
    same_set (raw_minus (LeftOpen (0) (3)) (UpTo (-3))) [(LeftOpen (0) (3))];
    same_set (raw_minus (LeftOpen (0) (3)) (UpFrom (-3))) [];
    same_set (raw_minus (LeftOpen (0) (3)) (To (-3))) [(LeftOpen (0) (3))];
    same_set (raw_minus (LeftOpen (0) (3)) (From (-3))) [];
    same_set (raw_minus (LeftOpen (0) (3)) (@Full Z)) [] ] = true.
Proof. vm_compute. reflexivity. Qed.

(** src/test/raw_interval/minus.rs: [left_open_right] *)
Example test_raw_minus_left_open_right : forallb (fun b : bool => b)
  [ same_set (raw_minus (LeftOpen (0) (3)) (@Empty Z)) [(LeftOpen (0) (3))];
    same_set (raw_minus (LeftOpen (0) (3)) (Point (13))) [(LeftOpen (0) (3))];
    same_set (raw_minus (LeftOpen (0) (3)) (Open (10) (13))) [(LeftOpen (0) (3))];
    same_set (raw_minus (LeftOpen (0) (3)) (LeftOpen (10) (13))) [(LeftOpen (0) (3))];
    same_set (raw_minus (LeftOpen (0) (3)) (RightOpen (10) (13))) [(LeftOpen (0) (3))];
    same_set (raw_minus (LeftOpen (0) (3)) (Closed (10) (13))) [(LeftOpen (0) (3))];
    same_set (raw_minus (LeftOpen (0) (3)) (UpTo (13))) [];
    same_set (raw_minus (LeftOpen (0) (3)) (UpFrom (13))) [(LeftOpen (0) (3))];
    same_set (raw_minus (LeftOpen (0) (3)) (To (13))) [];
    same_set (raw_minus (LeftOpen (0) (3)) (From (13))) [(LeftOpen (0) (3))];
    same_set (raw_minus (LeftOpen (0) (3)) (@Full Z)) [] ] = true.
Proof. vm_compute. reflexivity. Qed.

(** src/test/raw_interval/minus.rs: [right_open_center] *)
Example test_raw_minus_right_open_center : forallb (fun b : bool => b)
  [ same_set (raw_minus (RightOpen (0) (3)) (@Empty Z)) [(RightOpen (0) (3))];
    same_set (raw_minus (RightOpen (0) (3)) (Point (2))) [(RightOpen (0) (2)); (Open (2) (3))];
    same_set (raw_minus (RightOpen (0) (3)) (Open (0) (3))) [(Point (0))];
    same_set (raw_minus (RightOpen (0) (3)) (LeftOpen (0) (3))) [(Point (0))];
    same_set (raw_minus (RightOpen (0) (3)) (RightOpen (0) (3))) [];
    same_set (raw_minus (RightOpen (0) (3)) (Closed (0) (3))) [];
    same_set (raw_minus (RightOpen (0) (3)) (UpTo (2))) [(RightOpen (2) (3))];
    same_set (raw_minus (RightOpen (0) (3)) (UpFrom (2))) [(Closed (0) (2))];
    same_set (raw_minus (RightOpen (0) (3)) (To (2))) [(Open (2) (3))];
    same_set (raw_minus (RightOpen (0) (3)) (From (2))) [(RightOpen (0) (2))];
    same_set (raw_minus (RightOpen (0) (3)) (@Full Z)) [] ] = true.
Proof. vm_compute. reflexivity. Qed.

(** src/test/raw_interval/minus.rs: [right_open_left] *)
Example test_raw_minus_right_open_left : forallb (fun b : bool => b)
  [ same_set (raw_minus (RightOpen (0) (3)) (@Empty Z)) [(RightOpen (0) (3))];
    same_set (raw_minus (RightOpen (0) (3)) (Point (-3))) [(RightOpen (0) (3))];
    same_set (raw_minus (RightOpen (0) (3)) (Open (-3) (-1))) [(RightOpen (0) (3))];
    same_set (raw_minus (RightOpen (0) (3)) (LeftOpen (-3) (-1))) [(RightOpen (0) (3))];
    same_set (raw_minus (RightOpen (0) (3)) (RightOpen (-3) (-1))) [(RightOpen (0) (3))];
    same_set (raw_minus (RightOpen (0) (3)) (Closed (-3) (-1))) [(RightOpen (0) (3))];
    same_set (raw_minus (RightOpen (0) (3)) (UpTo (-3))) [(RightOpen (0) (3))];
    same_set (raw_minus (RightOpen (0) (3)) (UpFrom (-3))) [];
    same_set (raw_minus (RightOpen (0) (3)) (To (-3))) [(RightOpen (0) (3))];
    same_set (raw_minus (RightOpen (0) (3)) (From (-3))) [];
    same_set (raw_minus (RightOpen (0) (3)) (@Full Z)) [] ] = true.
Proof. vm_compute. reflexivity. Qed.

(** src/test/raw_interval/minus.rs: [right_open_right] *)
Example test_raw_minus_right_open_right : forallb (fun b : bool => b)
  [ same_set (raw_minus (RightOpen (0) (3)) (@Empty Z)) [(RightOpen (0) (3))];
    same_set (raw_minus (RightOpen (0) (3)) (Point (13))) [(RightOpen (0) (3))];
    same_set (raw_minus (RightOpen (0) (3)) (Open (10) (13))) [(RightOpen (0) (3))];
    same_set (raw_minus (RightOpen (0) (3)) (LeftOpen (10) (13))) [(RightOpen (0) (3))];
    same_set (raw_minus (RightOpen (0) (3)) (RightOpen (10) (13))) [(RightOpen (0) (3))];
    same_set (raw_minus (RightOpen (0) (3)) (Closed (10) (13))) [(RightOpen (0) (3))];
    same_set (raw_minus (RightOpen (0) (3)) (UpTo (13))) [];
    same_set (raw_minus (RightOpen (0) (3)) (UpFrom (13))) [(RightOpen (0) (3))];
    same_set (raw_minus (RightOpen (0) (3)) (To (13))) [];
    same_set (raw_minus (RightOpen (0) (3)) (From (13))) [(RightOpen (0) (3))];
    same_set (raw_minus (RightOpen (0) (3)) (@Full Z)) [] ] = true.
Proof. vm_compute. reflexivity. Qed.

(** src/test/raw_interval/minus.rs: [closed_center] *)
Example test_raw_minus_closed_center : forallb (fun b : bool => b)
  [ same_set (raw_minus (Closed (0) (3)) (@Empty Z)) [(Closed (0) (3))];
    same_set (raw_minus (Closed (0) (3)) (Point (2))) [(RightOpen (0) (2)); (LeftOpen (2) (3))];
    same_set (raw_minus (Closed (0) (3)) (Open (0) (3))) [(Point (0)); (Point (3))];
    same_set (raw_minus (Closed (0) (3)) (LeftOpen (0) (3))) [(Point (0))];
    same_set (raw_minus (Closed (0) (3)) (RightOpen (0) (3))) [(Point (3))];
    same_set (raw_minus (Closed (0) (3)) (Closed (0) (3))) [];
    same_set (raw_minus (Closed (0) (3)) (UpTo (2))) [(Closed (2) (3))];
    same_set (raw_minus (Closed (0) (3)) (UpFrom (2))) [(Closed (0) (2))];
    same_set (raw_minus (Closed (0) (3)) (To (2))) [(LeftOpen (2) (3))];
    same_set (raw_minus (Closed (0) (3)) (From (2))) [(RightOpen (0) (2))];
    same_set (raw_minus (Closed (0) (3)) (@Full Z)) [] ] = true.
Proof. vm_compute. reflexivity. Qed.

(** src/test/raw_interval/minus.rs: [closed_left] *)
Example test_raw_minus_closed_left : forallb (fun b : bool => b)
  [ same_set (raw_minus (Closed (0) (3)) (@Empty Z)) [(Closed (0) (3))];
    same_set (raw_minus (Closed (0) (3)) (Point (-3))) [(Closed (0) (3))];
    same_set (raw_minus (Closed (0) (3)) (Open (-3) (-1))) [(Closed (0) (3))];
    same_set (raw_minus (Closed (0) (3)) (LeftOpen (-3) (-1))) [(Closed (0) (3))];
    same_set (raw_minus (Closed (0) (3)) (RightOpen (-3) (-1))) [(Closed (0) (3))];
    same_set (raw_minus (Closed (0) (3)) (Closed (-3) (-1))) [(Closed (0) (3))];
    same_set (raw_minus (Closed (0) (3)) (UpTo (-3))) [(Closed (0) (3))];
    same_set (raw_minus (Closed (0) (3)) (UpFrom (-3))) [];
    same_set (raw_minus (Closed (0) (3)) (To (-3))) [(Closed (0) (3))];
    same_set (raw_minus (Closed (0) (3)) (From (-3))) [];
    same_set (raw_minus (Closed (0) (3)) (@Full Z)) [] ] = true.
Proof. vm_compute. reflexivity. Qed.

(** src/test/raw_interval/minus.rs: [closed_right] *)
Example test_raw_minus_closed_right : forallb (fun b : bool => b)
  [ same_set (raw_minus (Closed (0) (3)) (@Empty Z)) [(Closed (0) (3))];
    same_set (raw_minus (Closed (0) (3)) (Point (13))) [(Closed (0) (3))];
    same_set (raw_minus (Closed (0) (3)) (Open (10) (13))) [(Closed (0) (3))];
    same_set (raw_minus (Closed (0) (3)) (LeftOpen (10) (13))) [(Closed (0) (3))];
    same_set (raw_minus (Closed (0) (3)) (RightOpen (10) (13))) [(Closed (0) (3))];
    same_set (raw_minus (Closed (0) (3)) (Closed (10) (13))) [(Closed (0) (3))];
    same_set (raw_minus (Closed (0) (3)) (UpTo (13))) [];
    same_set (raw_minus (Closed (0) (3)) (UpFrom (13))) [(Closed (0) (3))];
    same_set (raw_minus (Closed (0) (3)) (To (13))) [];
    same_set (raw_minus (Closed (0) (3)) (From (13))) [(Closed (0) (3))];
    same_set (raw_minus (Closed (0) (3)) (@Full Z)) [] ] = true.
Proof. vm_compute. reflexivity. Qed.

(** src/test/raw_interval/minus.rs: [up_to_center] *)
Example test_raw_minus_up_to_center : forallb (fun b : bool => b)
  [ same_set (raw_minus (UpTo (3)) (@Empty Z)) [(UpTo (3))];
    same_set (raw_minus (UpTo (3)) (Point (2))) [(UpTo (2)); (Open (2) (3))];
    same_set (raw_minus (UpTo (3)) (Open (0) (3))) [(To (0))];
    same_set (raw_minus (UpTo (3)) (LeftOpen (0) (3))) [(To (0))];
    same_set (raw_minus (UpTo (3)) (RightOpen (0) (3))) [(UpTo (0))];
    same_set (raw_minus (UpTo (3)) (Closed (0) (3))) [(UpTo (0))];
    same_set (raw_minus (UpTo (3)) (UpTo (2))) [(RightOpen (2) (3))];
    same_set (raw_minus (UpTo (3)) (UpFrom (2))) [(To (2))];
    same_set (raw_minus (UpTo (3)) (To (2))) [(Open (2) (3))];
    same_set (raw_minus (UpTo (3)) (From (2))) [(UpTo (2))];
    same_set (raw_minus (UpTo (3)) (@Full Z)) [] ] = true.
Proof. vm_compute. reflexivity. Qed.

(** src/test/raw_interval/minus.rs: [up_to_left] *)
Example test_raw_minus_up_to_left : forallb (fun b : bool => b)
  [ same_set (raw_minus (UpTo (3)) (@Empty Z)) [(UpTo (3))];
    same_set (raw_minus (UpTo (3)) (Point (-3))) [(UpTo (-3)); (Open (-3) (3))];
    same_set (raw_minus (UpTo (3)) (Open (-3) (-1))) [(To (-3)); (RightOpen (-1) (3))];
    same_set (raw_minus (UpTo (3)) (LeftOpen (-3) (-1))) [(To (-3)); (Open (-1) (3))];
    same_set (raw_minus (UpTo (3)) (RightOpen (-3) (-1))) [(UpTo (-3)); (RightOpen (-1) (3))];
    same_set (raw_minus (UpTo (3)) (Closed (-3) (-1))) [(UpTo (-3)); (Open (-1) (3))];
    same_set (raw_minus (UpTo (3)) (UpTo (-3))) [(RightOpen (-3) (3))];
    same_set (raw_minus (UpTo (3)) (UpFrom (-3))) [(To (-3))];
    same_set (raw_minus (UpTo (3)) (To (-3))) [(Open (-3) (3))];
    same_set (raw_minus (UpTo (3)) (From (-3))) [(UpTo (-3))];
    same_set (raw_minus (UpTo (3)) (@Full Z)) [] ] = true.
Proof. vm_compute. reflexivity. Qed.

(** src/test/raw_interval/minus.rs: [up_to_right] *)
Example test_raw_minus_up_to_right : forallb (fun b : bool => b)
  [ same_set (raw_minus (UpTo (3)) (@Empty Z)) [(UpTo (3))];
    same_set (raw_minus (UpTo (3)) (Point (13))) [(UpTo (3))];
    same_set (raw_minus (UpTo (3)) (Open (10) (13))) [(UpTo (3))];
    same_set (raw_minus (UpTo (3)) (LeftOpen (10) (13))) [(UpTo (3))];
    same_set (raw_minus (UpTo (3)) (RightOpen (10) (13))) [(UpTo (3))];
    same_set (raw_minus (UpTo (3)) (Closed (10) (13))) [(UpTo (3))];
    same_set (raw_minus (UpTo (3)) (UpTo (13))) [];
    same_set (raw_minus (UpTo (3)) (UpFrom (13))) [(UpTo (3))];
    same_set (raw_minus (UpTo (3)) (To (13))) [];
    same_set (raw_minus (UpTo (3)) (From (13))) [(UpTo (3))];
    same_set (raw_minus (UpTo (3)) (@Full Z)) [] ] = true.
Proof. vm_compute. reflexivity. Qed.

(** src/test/raw_interval/minus.rs: [up_from_center] *)
Example test_raw_minus_up_from_center : forallb (fun b : bool => b)
  [ same_set (raw_minus (UpFrom (0)) (@Empty Z)) [(UpFrom (0))];
    same_set (raw_minus (UpFrom (0)) (Point (2))) [(Open (0) (2)); (UpFrom (2))];
    same_set (raw_minus (UpFrom (0)) (Open (0) (3))) [(From (3))];
    same_set (raw_minus (UpFrom (0)) (LeftOpen (0) (3))) [(UpFrom (3))];
    same_set (raw_minus (UpFrom (0)) (RightOpen (0) (3))) [(From (3))];
    same_set (raw_minus (UpFrom (0)) (Closed (0) (3))) [(UpFrom (3))];
    same_set (raw_minus (UpFrom (0)) (UpTo (2))) [(From (2))];
    same_set (raw_minus (UpFrom (0)) (UpFrom (2))) [(LeftOpen (0) (2))];
    same_set (raw_minus (UpFrom (0)) (To (2))) [(UpFrom (2))];
    same_set (raw_minus (UpFrom (0)) (From (2))) [(Open (0) (2))];
    same_set (raw_minus (UpFrom (0)) (@Full Z)) [] ] = true.
Proof. vm_compute. reflexivity. Qed.

(** src/test/raw_interval/minus.rs: [up_from_left] *)
Example test_raw_minus_up_from_left : forallb (fun b : bool => b)
  [ same_set (raw_minus (UpFrom (0)) (@Empty Z)) [(UpFrom (0))];
    same_set (raw_minus (UpFrom (0)) (Point (-3))) [(UpFrom (0))];
    same_set (raw_minus (UpFrom (0)) (Open (-3) (-1))) [(UpFrom (0))];
    same_set (raw_minus (UpFrom (0)) (LeftOpen (-3) (-1))) [(UpFrom (0))];
    same_set (raw_minus (UpFrom (0)) (RightOpen (-3) (-1))) [(UpFrom (0))];
    same_set (raw_minus (UpFrom (0)) (Closed (-3) (-1))) [(UpFrom (0))];
    same_set (raw_minus (UpFrom (0)) (UpTo (-3))) [(UpFrom (0))];
    same_set (raw_minus (UpFrom (0)) (UpFrom (-3))) [];
    same_set (raw_minus (UpFrom (0)) (To (-3))) [(UpFrom (0))];
    same_set (raw_minus (UpFrom (0)) (From (-3))) [];
    same_set (raw_minus (UpFrom (0)) (@Full Z)) [] ] = true.
Proof. vm_compute. reflexivity. Qed.

(** src/test/raw_interval/minus.rs: [up_from_right] *)
Example test_raw_minus_up_from_right : forallb (fun b : bool => b)
  [ same_set (raw_minus (UpFrom (0)) (@Empty Z)) [(UpFrom (0))];
    same_set (raw_minus (UpFrom (0)) (Point (13))) [(Open (0) (13)); (UpFrom (13))];
    same_set (raw_minus (UpFrom (0)) (Open (10) (13))) [(LeftOpen (0) (10)); (From (13))];
    same_set (raw_minus (UpFrom (0)) (LeftOpen (10) (13))) [(LeftOpen (0) (10)); (UpFrom (13))];
    same_set (raw_minus (UpFrom (0)) (RightOpen (10) (13))) [(Open (0) (10)); (From (13))];
    same_set (raw_minus (UpFrom (0)) (Closed (10) (13))) [(Open (0) (10)); (UpFrom (13))];
    same_set (raw_minus (UpFrom (0)) (UpTo (13))) [(From (13))];
    same_set (raw_minus (UpFrom (0)) (UpFrom (13))) [(LeftOpen (0) (13))];
    same_set (raw_minus (UpFrom (0)) (To (13))) [(UpFrom (13))];
    same_set (raw_minus (UpFrom (0)) (From (13))) [(Open (0) (13))];
    same_set (raw_minus (UpFrom (0)) (@Full Z)) [] ] = true.
Proof. vm_compute. reflexivity. Qed.

(** src/test/raw_interval/minus.rs: [to_center] *)
Example test_raw_minus_to_center : forallb (fun b : bool => b)
  [ same_set (raw_minus (To (3)) (@Empty Z)) [(To (3))];
    same_set (raw_minus (To (3)) (Point (2))) [(UpTo (2)); (LeftOpen (2) (3))];
    same_set (raw_minus (To (3)) (Open (0) (3))) [(To (0)); (Point (3))];
    same_set (raw_minus (To (3)) (LeftOpen (0) (3))) [(To (0))];
    same_set (raw_minus (To (3)) (RightOpen (0) (3))) [(UpTo (0)); (Point (3))];
    same_set (raw_minus (To (3)) (Closed (0) (3))) [(UpTo (0))];
    same_set (raw_minus (To (3)) (UpTo (2))) [(Closed (2) (3))];
    same_set (raw_minus (To (3)) (UpFrom (2))) [(To (2))];
    same_set (raw_minus (To (3)) (To (2))) [(LeftOpen (2) (3))];
    same_set (raw_minus (To (3)) (From (2))) [(UpTo (2))];
    same_set (raw_minus (To (3)) (@Full Z)) [] ] = true.
Proof. vm_compute. reflexivity. Qed.

(** src/test/raw_interval/minus.rs: [to_left] *)
Example test_raw_minus_to_left : forallb (fun b : bool => b)
  [ same_set (raw_minus (To (3)) (@Empty Z)) [(To (3))];
    same_set (raw_minus (To (3)) (Point (-3))) [(UpTo (-3)); (LeftOpen (-3) (3))];
    same_set (raw_minus (To (3)) (Open (-3) (-1))) [(To (-3)); (Closed (-1) (3))];
    same_set (raw_minus (To (3)) (LeftOpen (-3) (-1))) [(To (-3)); (LeftOpen (-1) (3))];
    same_set (raw_minus (To (3)) (RightOpen (-3) (-1))) [(UpTo (-3)); (Closed (-1) (3))];
    same_set (raw_minus (To (3)) (Closed (-3) (-1))) [(UpTo (-3)); (LeftOpen (-1) (3))];
    same_set (raw_minus (To (3)) (UpTo (-3))) [(Closed (-3) (3))];
    same_set (raw_minus (To (3)) (UpFrom (-3))) [(To (-3))];
    same_set (raw_minus (To (3)) (To (-3))) [(LeftOpen (-3) (3))];
    same_set (raw_minus (To (3)) (From (-3))) [(UpTo (-3))];
    same_set (raw_minus (To (3)) (@Full Z)) [] ] = true.
Proof. vm_compute. reflexivity. Qed.

(** src/test/raw_interval/minus.rs: [to_right] *)
Example test_raw_minus_to_right : forallb (fun b : bool => b)
  [ same_set (raw_minus (To (3)) (@Empty Z)) [(To (3))];
    same_set (raw_minus (To (3)) (Point (13))) [(To (3))];
    same_set (raw_minus (To (3)) (Open (10) (13))) [(To (3))];
    same_set (raw_minus (To (3)) (LeftOpen (10) (13))) [(To (3))];
    same_set (raw_minus (To (3)) (RightOpen (10) (13))) [(To (3))];
    same_set (raw_minus (To (3)) (Closed (10) (13))) [(To (3))];
    same_set (raw_minus (To (3)) (UpTo (13))) [];
    same_set (raw_minus (To (3)) (UpFrom (13))) [(To (3))];
    same_set (raw_minus (To (3)) (To (13))) [];
    same_set (raw_minus (To (3)) (From (13))) [(To (3))];
    same_set (raw_minus (To (3)) (@Full Z)) [] ] = true.
Proof. vm_compute. reflexivity. Qed.

(** src/test/raw_interval/minus.rs: [from_center] *)
Example test_raw_minus_from_center : forallb (fun b : bool => b)
  [ same_set (raw_minus (From (0)) (@Empty Z)) [(From (0))];
    same_set (raw_minus (From (0)) (Point (2))) [(RightOpen (0) (2)); (UpFrom (2))];
    same_set (raw_minus (From (0)) (Open (0) (3))) [(Point (0)); (From (3))];
    same_set (raw_minus (From (0)) (LeftOpen (0) (3))) [(Point (0)); (UpFrom (3))];
    same_set (raw_minus (From (0)) (RightOpen (0) (3))) [(From (3))];
    same_set (raw_minus (From (0)) (Closed (0) (3))) [(UpFrom (3))];
    same_set (raw_minus (From (0)) (UpTo (2))) [(From (2))];
    same_set (raw_minus (From (0)) (UpFrom (2))) [(Closed (0) (2))];
    same_set (raw_minus (From (0)) (To (2))) [(UpFrom (2))];
    same_set (raw_minus (From (0)) (From (2))) [(RightOpen (0) (2))];
    same_set (raw_minus (From (0)) (@Full Z)) [] ] = true.
Proof. vm_compute. reflexivity. Qed.

(** src/test/raw_interval/minus.rs: [from_left] *)
Example test_raw_minus_from_left : forallb (fun b : bool => b)
  [ same_set (raw_minus (From (0)) (@Empty Z)) [(From (0))];
    same_set (raw_minus (From (0)) (Point (-3))) [(From (0))];
    same_set (raw_minus (From (0)) (Open (-3) (-1))) [(From (0))];
    same_set (raw_minus (From (0)) (LeftOpen (-3) (-1))) [(From (0))];
    same_set (raw_minus (From (0)) (RightOpen (-3) (-1))) [(From (0))];
    same_set (raw_minus (From (0)) (Closed (-3) (-1))) [(From (0))];
    same_set (raw_minus (From (0)) (UpTo (-3))) [(From (0))];
    same_set (raw_minus (From (0)) (UpFrom (-3))) [];
    same_set (raw_minus (From (0)) (To (-3))) [(From (0))];
    same_set (raw_minus (From (0)) (From (-3))) [];
    same_set (raw_minus (From (0)) (@Full Z)) [] ] = true.
Proof. vm_compute. reflexivity. Qed.

(** src/test/raw_interval/minus.rs: [from_right] *)
Example test_raw_minus_from_right : forallb (fun b : bool => b)
  [ same_set (raw_minus (From (0)) (@Empty Z)) [(From (0))];
    same_set (raw_minus (From (0)) (Point (13))) [(RightOpen (0) (13)); (UpFrom (13))];
    same_set (raw_minus (From (0)) (Open (10) (13))) [(Closed (0) (10)); (From (13))];
    same_set (raw_minus (From (0)) (LeftOpen (10) (13))) [(Closed (0) (10)); (UpFrom (13))];
    same_set (raw_minus (From (0)) (RightOpen (10) (13))) [(RightOpen (0) (10)); (From (13))];
    same_set (raw_minus (From (0)) (Closed (10) (13))) [(RightOpen (0) (10)); (UpFrom (13))];
    same_set (raw_minus (From (0)) (UpTo (13))) [(From (13))];
    same_set (raw_minus (From (0)) (UpFrom (13))) [(Closed (0) (13))];
    same_set (raw_minus (From (0)) (To (13))) [(UpFrom (13))];
    same_set (raw_minus (From (0)) (From (13))) [(RightOpen (0) (13))];
    same_set (raw_minus (From (0)) (@Full Z)) [] ] = true.
Proof. vm_compute. reflexivity. Qed.

(** src/test/raw_interval/minus.rs: [full] *)
Example test_raw_minus_full : forallb (fun b : bool => b)
  [ same_set (raw_minus (@Full Z) (@Empty Z)) [(@Full Z)];
    same_set (raw_minus (@Full Z) (Point (0))) [(UpTo (0)); (UpFrom (0))];
    same_set (raw_minus (@Full Z) (Open (0) (3))) [(To (0)); (From (3))];
    same_set (raw_minus (@Full Z) (LeftOpen (0) (3))) [(To (0)); (UpFrom (3))];
    same_set (raw_minus (@Full Z) (RightOpen (0) (3))) [(UpTo (0)); (From (3))];
    same_set (raw_minus (@Full Z) (Closed (0) (3))) [(UpTo (0)); (UpFrom (3))];
    same_set (raw_minus (@Full Z) (UpTo (0))) [(From (0))];
    same_set (raw_minus (@Full Z) (UpFrom (0))) [(To (0))];
    same_set (raw_minus (@Full Z) (To (0))) [(UpFrom (0))];
    same_set (raw_minus (@Full Z) (From (0))) [(UpTo (0))];
    same_set (raw_minus (@Full Z) (@Full Z)) [] ] = true.
Proof. vm_compute. reflexivity. Qed.

(** src/test/raw_interval/mod.rs: [new_reordering] *)
Example test_raw_mod_new_reordering : forallb (fun b : bool => b)
  [ raw_eqb (raw_new (Include (2)) (Include (4))) (Closed (2) (4));
    raw_eqb (raw_new (Include (2)) (Exclude (4))) (RightOpen (2) (4));
    raw_eqb (raw_new (Exclude (2)) (Include (4))) (LeftOpen (2) (4));
    raw_eqb (raw_new (Exclude (2)) (Exclude (4))) (Open (2) (4));
    raw_eqb (raw_new (Include (3)) (Include (3))) (Point (3));
    raw_eqb (raw_new (Include (3)) (Exclude (3))) (Point (3));
    raw_eqb (raw_new (Exclude (3)) (Include (3))) (Point (3));
    raw_eqb (raw_new (Exclude (3)) (Exclude (3))) (@Empty Z);
    raw_eqb (raw_new (Include (4)) (Include (2))) (@Empty Z);
    raw_eqb (raw_new (Exclude (4)) (Include (2))) (@Empty Z);
    raw_eqb (raw_new (Include (4)) (Exclude (2))) (@Empty Z);
    raw_eqb (raw_new (Exclude (4)) (Exclude (2))) (@Empty Z) ] = true.
Proof. vm_compute. reflexivity. Qed.

(** src/test/raw_interval/mod.rs: [open_reordering] *)
Example test_raw_mod_open_reordering : forallb (fun b : bool => b)
  [ raw_eqb (raw_open 2 4) (Open (2) (4));
    raw_eqb (raw_open 3 3) (@Empty Z);
    raw_eqb (raw_open 4 2) (@Empty Z) ] = true.
Proof. vm_compute. reflexivity. Qed.

(** src/test/raw_interval/mod.rs: [left_open_reordering] *)
Example test_raw_mod_left_open_reordering : forallb (fun b : bool => b)
  [ raw_eqb (raw_left_open 2 4) (LeftOpen (2) (4));
    raw_eqb (raw_left_open 3 3) (Point (3));
    raw_eqb (raw_left_open 4 2) (@Empty Z) ] = true.
Proof. vm_compute. reflexivity. Qed.

(** src/test/raw_interval/mod.rs: [right_open_reordering] *)
Example test_raw_mod_right_open_reordering : forallb (fun b : bool => b)
  [ raw_eqb (raw_right_open 2 4) (RightOpen (2) (4));
    raw_eqb (raw_right_open 3 3) (Point (3));
    raw_eqb (raw_right_open 4 2) (@Empty Z) ] = true.
Proof. vm_compute. reflexivity. Qed.

(** src/test/raw_interval/mod.rs: [closed_reordering] *)
Example test_raw_mod_closed_reordering : forallb (fun b : bool => b)
  [ raw_eqb (raw_closed 2 4) (Closed (2) (4));
    raw_eqb (raw_closed 3 3) (Point (3));
    raw_eqb (raw_closed 4 2) (@Empty Z) ] = true.
Proof. vm_compute. reflexivity. Qed.

(** src/test/raw_interval/mod.rs: [lower_bound] *)
Example test_raw_mod_lower_bound : forallb (fun b : bool => b)
  [ obound_eqb (raw_lower_bound (@Empty Z)) None;
    obound_eqb (raw_lower_bound (Point (3))) (Some (Include (3)));
    obound_eqb (raw_lower_bound (Open (0) (3))) (Some (Exclude (0)));
    obound_eqb (raw_lower_bound (LeftOpen (0) (3))) (Some (Exclude (0)));
    obound_eqb (raw_lower_bound (RightOpen (0) (3))) (Some (Include (0)));
    obound_eqb (raw_lower_bound (Closed (0) (3))) (Some (Include (0)));
    obound_eqb (raw_lower_bound (UpTo (3))) (Some Infinite);
    obound_eqb (raw_lower_bound (UpFrom (3))) (Some (Exclude (3)));
    obound_eqb (raw_lower_bound (To (3))) (Some Infinite);
    obound_eqb (raw_lower_bound (From (3))) (Some (Include (3)));
    obound_eqb (raw_lower_bound (@Full Z)) (Some Infinite) ] = true.
Proof. vm_compute. reflexivity. Qed.

(** src/test/raw_interval/mod.rs: [upper_bound] *)
Example test_raw_mod_upper_bound : forallb (fun b : bool => b)
  [ obound_eqb (raw_upper_bound (@Empty Z)) None;
    obound_eqb (raw_upper_bound (Point (3))) (Some (Include (3)));
    obound_eqb (raw_upper_bound (Open (0) (3))) (Some (Exclude (3)));
    obound_eqb (raw_upper_bound (LeftOpen (0) (3))) (Some (Include (3)));
    obound_eqb (raw_upper_bound (RightOpen (0) (3))) (Some (Exclude (3)));
    obound_eqb (raw_upper_bound (Closed (0) (3))) (Some (Include (3)));
    obound_eqb (raw_upper_bound (UpTo (3))) (Some (Exclude (3)));
    obound_eqb (raw_upper_bound (UpFrom (3))) (Some Infinite);
    obound_eqb (raw_upper_bound (To (3))) (Some (Include (3)));
    obound_eqb (raw_upper_bound (From (3))) (Some Infinite);
    obound_eqb (raw_upper_bound (@Full Z)) (Some Infinite) ] = true.
Proof. vm_compute. reflexivity. Qed.

(** src/test/raw_interval/mod.rs: [infimum] *)
Example test_raw_mod_infimum : forallb (fun b : bool => b)
  [ oz_eqb (raw_infimum (@Empty Z)) None;
    oz_eqb (raw_infimum (Point (3))) (Some (3));
    oz_eqb (raw_infimum (Open (0) (3))) (Some (0));
    oz_eqb (raw_infimum (LeftOpen (0) (3))) (Some (0));
    oz_eqb (raw_infimum (RightOpen (0) (3))) (Some (0));
    oz_eqb (raw_infimum (Closed (0) (3))) (Some (0));
    oz_eqb (raw_infimum (UpTo (3))) None;
    oz_eqb (raw_infimum (UpFrom (3))) (Some (3));
    oz_eqb (raw_infimum (To (3))) None;
    oz_eqb (raw_infimum (From (3))) (Some (3));
    oz_eqb (raw_infimum (@Full Z)) None ] = true.
Proof. vm_compute. reflexivity. Qed.

(** src/test/raw_interval/mod.rs: [supremum] *)
Example test_raw_mod_supremum : forallb (fun b : bool => b)
  [ oz_eqb (raw_supremum (@Empty Z)) None;
    oz_eqb (raw_supremum (Point (3))) (Some (3));
    oz_eqb (raw_supremum (Open (0) (3))) (Some (3));
    oz_eqb (raw_supremum (LeftOpen (0) (3))) (Some (3));
    oz_eqb (raw_supremum (RightOpen (0) (3))) (Some (3));
    oz_eqb (raw_supremum (Closed (0) (3))) (Some (3));
    oz_eqb (raw_supremum (UpTo (3))) (Some (3));
    oz_eqb (raw_supremum (UpFrom (3))) None;
    oz_eqb (raw_supremum (To (3))) (Some (3));
    oz_eqb (raw_supremum (From (3))) None;
    oz_eqb (raw_supremum (@Full Z)) None ] = true.
Proof. vm_compute. reflexivity. Qed.

(** src/test/raw_interval/mod.rs: [is_empty] *)
Example test_raw_mod_is_empty : forallb (fun b : bool => b)
  [ Bool.eqb (raw_is_empty (@Empty Z)) true;
    Bool.eqb (raw_is_empty (Point (3))) false;
    Bool.eqb (raw_is_empty (Open (0) (3))) false;
    Bool.eqb (raw_is_empty (LeftOpen (0) (3))) false;
    Bool.eqb (raw_is_empty (RightOpen (0) (3))) false;
    Bool.eqb (raw_is_empty (Closed (0) (3))) false;
    Bool.eqb (raw_is_empty (UpTo (3))) false;
    Bool.eqb (raw_is_empty (UpFrom (3))) false;
    Bool.eqb (raw_is_empty (To (3))) false;
    Bool.eqb (raw_is_empty (From (3))) false;
    Bool.eqb (raw_is_empty (@Full Z)) false ] = true.
Proof. vm_compute. reflexivity. Qed.

(** src/test/raw_interval/mod.rs: [contains] *)
Example test_raw_mod_contains : forallb (fun b : bool => b)
  [ Bool.eqb (raw_contains (@Empty Z) (-1)) false;
    Bool.eqb (raw_contains (@Empty Z) (0)) false;
    Bool.eqb (raw_contains (@Empty Z) (2)) false;
    Bool.eqb (raw_contains (@Empty Z) (3)) false;
    Bool.eqb (raw_contains (@Empty Z) (4)) false;
    Bool.eqb (raw_contains (Point (3)) (-1)) false;
    Bool.eqb (raw_contains (Point (3)) (0)) false;
    Bool.eqb (raw_contains (Point (3)) (2)) false;
    Bool.eqb (raw_contains (Point (3)) (3)) true;
    Bool.eqb (raw_contains (Point (3)) (4)) false;
    Bool.eqb (raw_contains (Open (0) (3)) (-1)) false;
    Bool.eqb (raw_contains (Open (0) (3)) (0)) false;
    Bool.eqb (raw_contains (Open (0) (3)) (2)) true;
    Bool.eqb (raw_contains (Open (0) (3)) (3)) false;
    Bool.eqb (raw_contains (Open (0) (3)) (4)) false;
    Bool.eqb (raw_contains (LeftOpen (0) (3)) (-1)) false;
    Bool.eqb (raw_contains (LeftOpen (0) (3)) (0)) false;
    Bool.eqb (raw_contains (LeftOpen (0) (3)) (2)) true;
    Bool.eqb (raw_contains (LeftOpen (0) (3)) (3)) true;
    Bool.eqb (raw_contains (LeftOpen (0) (3)) (4)) false;
    Bool.eqb (raw_contains (RightOpen (0) (3)) (-1)) false;
    Bool.eqb (raw_contains (RightOpen (0) (3)) (0)) true;
    Bool.eqb (raw_contains (RightOpen (0) (3)) (2)) true;
    Bool.eqb (raw_contains (RightOpen (0) (3)) (3)) false;
    Bool.eqb (raw_contains (RightOpen (0) (3)) (4)) false;
    Bool.eqb (raw_contains (Closed (0) (3)) (-1)) false;
    Bool.eqb (raw_contains (Closed (0) (3)) (0)) true;
    Bool.eqb (raw_contains (Closed (0) (3)) (2)) true;
    Bool.eqb (raw_contains (Closed (0) (3)) (3)) true;
    Bool.eqb (raw_contains (Closed (0) (3)) (4)) false;
    Bool.eqb (raw_contains (UpTo (3)) (-1)) true;
    Bool.eqb (raw_contains (UpTo (3)) (0)) true;
    Bool.eqb (raw_contains (UpTo (3)) (2)) true;
    Bool.eqb (raw_contains (UpTo (3)) (3)) false;
    Bool.eqb (raw_contains (UpTo (3)) (4)) false;
    Bool.eqb (raw_contains (UpFrom (3)) (-1)) false;
    Bool.eqb (raw_contains (UpFrom (3)) (0)) false;
    Bool.eqb (raw_contains (UpFrom (3)) (2)) false;
    Bool.eqb (raw_contains (UpFrom (3)) (3)) false;
    Bool.eqb (raw_contains (UpFrom (3)) (4)) true;
    Bool.eqb (raw_contains (To (3)) (-1)) true;
    Bool.eqb (raw_contains (To (3)) (0)) true;
    Bool.eqb (raw_contains (To (3)) (2)) true;
    Bool.eqb (raw_contains (To (3)) (3)) true;
    Bool.eqb (raw_contains (To (3)) (4)) false;
    Bool.eqb (raw_contains (From (3)) (-1)) false;
    Bool.eqb (raw_contains (From (3)) (0)) false;
    Bool.eqb (raw_contains (From (3)) (2)) false;
    Bool.eqb (raw_contains (From (3)) (3)) true;
    Bool.eqb (raw_contains (From (3)) (4)) true;
    Bool.eqb (raw_contains (@Full Z) (-1)) true;
    Bool.eqb (raw_contains (@Full Z) (0)) true;
    Bool.eqb (raw_contains (@Full Z) (2)) true;
    Bool.eqb (raw_contains (@Full Z) (3)) true;
    Bool.eqb (raw_contains (@Full Z) (4)) true ] = true.
Proof. vm_compute. reflexivity. Qed.

(** src/test/raw_interval/mod.rs: [complement_as_full_minus] *)
Example test_raw_mod_complement_as_full_minus : forallb (fun b : bool => b)
  [ same_set (raw_minus (@Full Z) (@Empty Z)) (raw_complement (@Empty Z));
    same_set (raw_minus (@Full Z) (Point (0))) (raw_complement (Point (0)));
    same_set (raw_minus (@Full Z) (Open (0) (3))) (raw_complement (Open (0) (3)));
    same_set (raw_minus (@Full Z) (LeftOpen (0) (3))) (raw_complement (LeftOpen (0) (3)));
    same_set (raw_minus (@Full Z) (RightOpen (0) (3))) (raw_complement (RightOpen (0) (3)));
    same_set (raw_minus (@Full Z) (Closed (0) (3))) (raw_complement (Closed (0) (3)));
    same_set (raw_minus (@Full Z) (UpTo (0))) (raw_complement (UpTo (0)));
    same_set (raw_minus (@Full Z) (UpFrom (0))) (raw_complement (UpFrom (0)));
    same_set (raw_minus (@Full Z) (To (0))) (raw_complement (To (0)));
    same_set (raw_minus (@Full Z) (From (0))) (raw_complement (From (0)));
    same_set (raw_minus (@Full Z) (@Full Z)) (raw_complement (@Full Z)) ] = true.
Proof. vm_compute. reflexivity. Qed.

(** src/test/raw_interval/union.rs: [empty] *)
Example test_raw_union_empty : forallb (fun b : bool => b)
  [ same_set (raw_union (@Empty Z) (@Empty Z)) [];
    same_set (raw_union (@Empty Z) (Point (3))) [(Point (3))];
    same_set (raw_union (@Empty Z) (Open (0) (3))) [(Open (0) (3))];
    same_set (raw_union (@Empty Z) (LeftOpen (0) (3))) [(LeftOpen (0) (3))];
    same_set (raw_union (@Empty Z) (RightOpen (0) (3))) [(RightOpen (0) (3))];
    same_set (raw_union (@Empty Z) (Closed (0) (3))) [(Closed (0) (3))];
    same_set (raw_union (@Empty Z) (UpTo (3))) [(UpTo (3))];
    same_set (raw_union (@Empty Z) (UpFrom (3))) [(UpFrom (3))];
    same_set (raw_union (@Empty Z) (To (3))) [(To (3))];
    same_set (raw_union (@Empty Z) (From (3))) [(From (3))];
    same_set (raw_union (@Empty Z) (@Full Z)) [(@Full Z)] ] = true.
Proof. vm_compute. reflexivity. Qed.

(** src/test/raw_interval/union.rs: [point_center] *)
Example test_raw_union_point_center : forallb (fun b : bool => b)
  [ same_set (raw_union (Point (3)) (@Empty Z)) [(Point (3))];
    same_set (raw_union (Point (3)) (Point (3))) [(Point (3))];
    same_set (raw_union (Point (3)) (Open (0) (3))) [(LeftOpen (0) (3))];
    same_set (raw_union (Point (3)) (LeftOpen (0) (3))) [(LeftOpen (0) (3))];
    same_set (raw_union (Point (3)) (RightOpen (0) (3))) [(Closed (0) (3))];
    same_set (raw_union (Point (3)) (Closed (0) (3))) [(Closed (0) (3))];
    same_set (raw_union (Point (3)) (UpTo (3))) [(To (3))];
    same_set (raw_union (Point (3)) (UpFrom (3))) [(From (3))];
    same_set (raw_union (Point (3)) (To (3))) [(To (3))];
    same_set (raw_union (Point (3)) (From (3))) [(From (3))];
    same_set (raw_union (Point (3)) (@Full Z)) [(@Full Z)] ] = true.
Proof. vm_compute. reflexivity. Qed.

(** src/test/raw_interval/union.rs: [point_left] *)
Example test_raw_union_point_left : forallb (fun b : bool => b)
  [ same_set (raw_union (Point (3)) (@Empty Z)) [(Point (3))];
    same_set (raw_union (Point (3)) (Point (-1))) [(Point (3)); (Point (-1))];
    same_set (raw_union (Point (3)) (Open (-3) (-1))) [(Point (3)); (Open (-3) (-1))];
    same_set (raw_union (Point (3)) (LeftOpen (-3) (-1))) [(Point (3)); (LeftOpen (-3) (-1))];
    same_set (raw_union (Point (3)) (RightOpen (-3) (-1))) [(Point (3)); (RightOpen (-3) (-1))];
    same_set (raw_union (Point (3)) (Closed (-3) (-1))) [(Point (3)); (Closed (-3) (-1))];
    same_set (raw_union (Point (3)) (UpTo (-3))) [(Point (3)); (UpTo (-3))];
    same_set (raw_union (Point (3)) (UpFrom (-3))) [(UpFrom (-3))];
    same_set (raw_union (Point (3)) (To (-3))) [(Point (3)); (To (-3))];
    same_set (raw_union (Point (3)) (From (-3))) [(From (-3))];
    same_set (raw_union (Point (3)) (@Full Z)) [(@Full Z)] ] = true.
Proof. vm_compute. reflexivity. Qed.

(** src/test/raw_interval/union.rs: [point_right] *)
Example test_raw_union_point_right : forallb (fun b : bool => b)
  [ same_set (raw_union (Point (3)) (@Empty Z)) [(Point (3))];
    same_set (raw_union (Point (3)) (Point (10))) [(Point (3)); (Point (10))];
    same_set (raw_union (Point (3)) (Open (10) (13))) [(Point (3)); (Open (10) (13))];
    same_set (raw_union (Point (3)) (LeftOpen (10) (13))) [(Point (3)); (LeftOpen (10) (13))];
    same_set (raw_union (Point (3)) (RightOpen (10) (13))) [(Point (3)); (RightOpen (10) (13))];
    same_set (raw_union (Point (3)) (Closed (10) (13))) [(Point (3)); (Closed (10) (13))];
    same_set (raw_union (Point (3)) (UpTo (13))) [(UpTo (13))];
    same_set (raw_union (Point (3)) (UpFrom (13))) [(Point (3)); (UpFrom (13))];
    same_set (raw_union (Point (3)) (To (13))) [(To (13))];
    same_set (raw_union (Point (3)) (From (13))) [(Point (3)); (From (13))];
    same_set (raw_union (Point (3)) (@Full Z)) [(@Full Z)] ] = true.
Proof. vm_compute. reflexivity. Qed.

(** src/test/raw_interval/union.rs: [open_center] *)
Example test_raw_union_open_center : forallb (fun b : bool => b)
  [ same_set (raw_union (Open (0) (3)) (@Empty Z)) [(Open (0) (3))];
    same_set (raw_union (Open (0) (3)) (Point (3))) [(LeftOpen (0) (3))];
    same_set (raw_union (Open (0) (3)) (Open (0) (3))) [(Open (0) (3))];
    same_set (raw_union (Open (0) (3)) (LeftOpen (0) (3))) [(LeftOpen (0) (3))];
    same_set (raw_union (Open (0) (3)) (RightOpen (0) (3))) [(RightOpen (0) (3))];
    same_set (raw_union (Open (0) (3)) (Closed (0) (3))) [(Closed (0) (3))];
    same_set (raw_union (Open (0) (3)) (UpTo (3))) [(UpTo (3))];
    same_set (raw_union (Open (0) (3)) (UpFrom (3))) [(Open (0) (3)); (UpFrom (3))];
    same_set (raw_union (Open (0) (3)) (To (3))) [(To (3))];
    same_set (raw_union (Open (0) (3)) (From (3))) [(UpFrom (0))];
    same_set (raw_union (Open (0) (3)) (@Full Z)) [(@Full Z)] ] = true.
Proof. vm_compute. reflexivity. Qed.

(** src/test/raw_interval/union.rs: [open_left] *)
Example test_raw_union_open_left : forallb (fun b : bool => b)
  [ same_set (raw_union (Open (0) (3)) (@Empty Z)) [(Open (0) (3))];
    same_set (raw_union (Open (0) (3)) (Point (-3))) [(Open (0) (3)); (Point (-3))];
    same_set (raw_union (Open (0) (3)) (Open (-3) (-1))) [(Open (0) (3)); (Open (-3) (-1))];
    same_set (raw_union (Open (0) (3)) (LeftOpen (-3) (-1))) [(Open (0) (3)); (LeftOpen (-3) (-1))];
    same_set (raw_union (Open (0) (3)) (RightOpen (-3) (-1))) [(Open (0) (3)); (RightOpen (-3) (-1))];
    same_set (raw_union (Open (0) (3)) (Closed (-3) (-1))) [(Open (0) (3)); (Closed (-3) (-1))];
    same_set (raw_union (Open (0) (3)) (UpTo (-3))) [(Open (0) (3)); (UpTo (-3))];
    same_set (raw_union (Open (0) (3)) (UpFrom (-3))) [(UpFrom (-3))];
    same_set (raw_union (Open (0) (3)) (To (-3))) [(Open (0) (3)); (To (-3))];
    same_set (raw_union (Open (0) (3)) (From (-3))) [(From (-3))];
    same_set (raw_union (Open (0) (3)) (@Full Z)) [(@Full Z)] ] = true.
Proof. vm_compute. reflexivity. Qed.

(** src/test/raw_interval/union.rs: [open_right] *)
Example test_raw_union_open_right : forallb (fun b : bool => b)
  [ same_set (raw_union (Open (0) (3)) (@Empty Z)) [(Open (0) (3))];
    same_set (raw_union (Open (0) (3)) (Point (13))) [(Open (0) (3)); (Point (13))];
    same_set (raw_union (Open (0) (3)) (Open (10) (13))) [(Open (0) (3)); (Open (10) (13))];
    same_set (raw_union (Open (0) (3)) (LeftOpen (10) (13))) [(Open (0) (3)); (LeftOpen (10) (13))];
    same_set (raw_union (Open (0) (3)) (RightOpen (10) (13))) [(Open (0) (3)); (RightOpen (10) (13))];
    same_set (raw_union (Open (0) (3)) (Closed (10) (13))) [(Open (0) (3)); (Closed (10) (13))];
    same_set (raw_union (Open (0) (3)) (UpTo (13))) [(UpTo (13))];
    same_set (raw_union (Open (0) (3)) (UpFrom (13))) [(Open (0) (3)); (UpFrom (13))];
    same_set (raw_union (Open (0) (3)) (To (13))) [(To (13))];
    same_set (raw_union (Open (0) (3)) (From (13))) [(Open (0) (3)); (From (13))];
    same_set (raw_union (Open (0) (3)) (@Full Z)) [(@Full Z)] ] = true.
Proof. vm_compute. reflexivity. Qed.

(** src/test/raw_interval/union.rs: [left_open_center] *)
Example test_raw_union_left_open_center : forallb (fun b : bool => b)
  [ same_set (raw_union (LeftOpen (0) (3)) (@Empty Z)) [(LeftOpen (0) (3))];
    same_set (raw_union (LeftOpen (0) (3)) (Point (3))) [(LeftOpen (0) (3))];
    same_set (raw_union (LeftOpen (0) (3)) (Open (0) (3))) [(LeftOpen (0) (3))];
    same_set (raw_union (LeftOpen (0) (3)) (LeftOpen (0) (3))) [(LeftOpen (0) (3))];
    same_set (raw_union (LeftOpen (0) (3)) (RightOpen (0) (3))) [(Closed (0) (3))];
    same_set (raw_union (LeftOpen (0) (3)) (Closed (0) (3))) [(Closed (0) (3))];
    same_set (raw_union (LeftOpen (0) (3)) (UpTo (3))) [(To (3))];
    same_set (raw_union (LeftOpen (0) (3)) (UpFrom (3))) [(UpFrom (0))];
    same_set (raw_union (LeftOpen (0) (3)) (To (3))) [(To (3))];
    same_set (raw_union (LeftOpen (0) (3)) (From (3))) [(UpFrom (0))];
    same_set (raw_union (LeftOpen (0) (3)) (@Full Z)) [(@Full Z)] ] = true.
Proof. vm_compute. reflexivity. Qed.

(** src/test/raw_interval/union.rs: [left_open_left] *)
Example test_raw_union_left_open_left : forallb (fun b : bool => b)
  [ same_set (raw_union (LeftOpen (0) (3)) (@Empty Z)) [(LeftOpen (0) (3))];
    same_set (raw_union (LeftOpen (0) (3)) (Point (-3))) [(LeftOpen (0) (3)); (Point (-3))];
    same_set (raw_union (LeftOpen (0) (3)) (Open (-3) (-1))) [(LeftOpen (0) (3)); (Open (-3) (-1))];
    same_set (raw_union (LeftOpen (0) (3)) (LeftOpen (-3) (-1))) [(LeftOpen (0) (3)); (LeftOpen (-3) (-1))];
    same_set (raw_union (LeftOpen (0) (3)) (RightOpen (-3) (-1))) [(LeftOpen (0) (3)); (RightOpen (-3) (-1))];
    same_set (raw_union (LeftOpen (0) (3)) (Closed (-3) (-1))) [(LeftOpen (0) (3)); (Closed (-3) (-1))];
    same_set (raw_union (LeftOpen (0) (3)) (UpTo (-3))) [(LeftOpen (0) (3)); (UpTo (-3))];
    same_set (raw_union (LeftOpen (0) (3)) (UpFrom (-3))) [(UpFrom (-3))];
    same_set (raw_union (LeftOpen (0) (3)) (To (-3))) [(LeftOpen (0) (3)); (To (-3))];
    same_set (raw_union (LeftOpen (0) (3)) (From (-3))) [(From (-3))];
    same_set (raw_union (LeftOpen (0) (3)) (@Full Z)) [(@Full Z)] ] = true.
Proof. vm_compute. reflexivity. Qed.

(** src/test/raw_interval/union.rs: [left_open_right] *)
Example test_raw_union_left_open_right : forallb (fun b : bool => b)
  [ same_set (raw_union (LeftOpen (0) (3)) (@Empty Z)) [(LeftOpen (0) (3))];
    same_set (raw_union (LeftOpen (0) (3)) (Point (13))) [(LeftOpen (0) (3)); (Point (13))];
    same_set (raw_union (LeftOpen (0) (3)) (Open (10) (13))) [(LeftOpen (0) (3)); (Open (10) (13))];
    same_set (raw_union (LeftOpen (0) (3)) (LeftOpen (10) (13))) [(LeftOpen (0) (3)); (LeftOpen (10) (13))];
    same_set (raw_union (LeftOpen (0) (3)) (RightOpen (10) (13))) [(LeftOpen (0) (3)); (RightOpen (10) (13))];
    same_set (raw_union (LeftOpen (0) (3)) (Closed (10) (13))) [(LeftOpen (0) (3)); (Closed (10) (13))];
    same_set (raw_union (LeftOpen (0) (3)) (UpTo (13))) [(UpTo (13))];
    same_set (raw_union (LeftOpen (0) (3)) (UpFrom (13))) [(LeftOpen (0) (3)); (UpFrom (13))];
    same_set (raw_union (LeftOpen (0) (3)) (To (13))) [(To (13))];
    same_set (raw_union (LeftOpen (0) (3)) (From (13))) [(LeftOpen (0) (3)); (From (13))];
    same_set (raw_union (LeftOpen (0) (3)) (@Full Z)) [(@Full Z)] ] = true.
Proof. vm_compute. reflexivity. Qed.

(** src/test/raw_interval/union.rs: [right_open_center] *)
Example test_raw_union_right_open_center : forallb (fun b : bool => b)
  [ same_set (raw_union (RightOpen (0) (3)) (@Empty Z)) [(RightOpen (0) (3))];
    same_set (raw_union (RightOpen (0) (3)) (Point (3))) [(Closed (0) (3))];
    same_set (raw_union (RightOpen (0) (3)) (Open (0) (3))) [(RightOpen (0) (3))];
    same_set (raw_union (RightOpen (0) (3)) (LeftOpen (0) (3))) [(Closed (0) (3))];
    same_set (raw_union (RightOpen (0) (3)) (RightOpen (0) (3))) [(RightOpen (0) (3))];
    same_set (raw_union (RightOpen (0) (3)) (Closed (0) (3))) [(Closed (0) (3))];
    same_set (raw_union (RightOpen (0) (3)) (UpTo (3))) [(UpTo (3))];
    same_set (raw_union (RightOpen (0) (3)) (UpFrom (3))) [(RightOpen (0) (3)); (UpFrom (3))];
    same_set (raw_union (RightOpen (0) (3)) (To (3))) [(To (3))];
    same_set (raw_union (RightOpen (0) (3)) (From (3))) [(From (0))];
    same_set (raw_union (RightOpen (0) (3)) (@Full Z)) [(@Full Z)] ] = true.
Proof. vm_compute. reflexivity. Qed.

(** src/test/raw_interval/union.rs: [right_open_left] *)
Example test_raw_union_right_open_left : forallb (fun b : bool => b)
  [ same_set (raw_union (RightOpen (0) (3)) (@Empty Z)) [(RightOpen (0) (3))];
    same_set (raw_union (RightOpen (0) (3)) (Point (-3))) [(RightOpen (0) (3)); (Point (-3))];
    same_set (raw_union (RightOpen (0) (3)) (Open (-3) (-1))) [(RightOpen (0) (3)); (Open (-3) (-1))];
    same_set (raw_union (RightOpen (0) (3)) (LeftOpen (-3) (-1))) [(RightOpen (0) (3)); (LeftOpen (-3) (-1))];
    same_set (raw_union (RightOpen (0) (3)) (RightOpen (-3) (-1))) [(RightOpen (0) (3)); (RightOpen (-3) (-1))];
    same_set (raw_union (RightOpen (0) (3)) (Closed (-3) (-1))) [(RightOpen (0) (3)); (Closed (-3) (-1))];
    same_set (raw_union (RightOpen (0) (3)) (UpTo (-3))) [(RightOpen (0) (3)); (UpTo (-3))];
    same_set (raw_union (RightOpen (0) (3)) (UpFrom (-3))) [(UpFrom (-3))];
    same_set (raw_union (RightOpen (0) (3)) (To (-3))) [(RightOpen (0) (3)); (To (-3))];
    same_set (raw_union (RightOpen (0) (3)) (From (-3))) [(From (-3))];
    same_set (raw_union (RightOpen (0) (3)) (@Full Z)) [(@Full Z)] ] = true.
Proof. vm_compute. reflexivity. Qed.

(** src/test/raw_interval/union.rs: [right_open_right] *)
Example test_raw_union_right_open_right : forallb (fun b : bool => b)
  [ same_set (raw_union (RightOpen (0) (3)) (@Empty Z)) [(RightOpen (0) (3))];
    same_set (raw_union (RightOpen (0) (3)) (Point (13))) [(RightOpen (0) (3)); (Point (13))];
    same_set (raw_union (RightOpen (0) (3)) (Open (10) (13))) [(RightOpen (0) (3)); (Open (10) (13))];
    same_set (raw_union (RightOpen (0) (3)) (LeftOpen (10) (13))) [(RightOpen (0) (3)); (LeftOpen (10) (13))];
    same_set (raw_union (RightOpen (0) (3)) (RightOpen (10) (13))) [(RightOpen (0) (3)); (RightOpen (10) (13))];
    same_set (raw_union (RightOpen (0) (3)) (Closed (10) (13))) [(RightOpen (0) (3)); (Closed (10) (13))];
    same_set (raw_union (RightOpen (0) (3)) (UpTo (13))) [(UpTo (13))];
    same_set (raw_union (RightOpen (0) (3)) (UpFrom (13))) [(RightOpen (0) (3)); (UpFrom (13))];
    same_set (raw_union (RightOpen (0) (3)) (To (13))) [(To (13))];
    same_set (raw_union (RightOpen (0) (3)) (From (13))) [(RightOpen (0) (3)); (From (13))];
    same_set (raw_union (RightOpen (0) (3)) (@Full Z)) [(@Full Z)] ] = true.
Proof. vm_compute. reflexivity. Qed.

(** src/test/raw_interval/union.rs: [closed_center] *)
Example test_raw_union_closed_center : forallb (fun b : bool => b)
  [ same_set (raw_union (Closed (0) (3)) (@Empty Z)) [(Closed (0) (3))];
    same_set (raw_union (Closed (0) (3)) (Point (3))) [(Closed (0) (3))];
    same_set (raw_union (Closed (0) (3)) (Open (0) (3))) [(Closed (0) (3))];
    same_set (raw_union (Closed (0) (3)) (LeftOpen (0) (3))) [(Closed (0) (3))];
    same_set (raw_union (Closed (0) (3)) (RightOpen (0) (3))) [(Closed (0) (3))];
    same_set (raw_union (Closed (0) (3)) (Closed (0) (3))) [(Closed (0) (3))];
    same_set (raw_union (Closed (0) (3)) (UpTo (3))) [(To (3))];
    same_set (raw_union (Closed (0) (3)) (UpFrom (3))) [(From (0))];
    same_set (raw_union (Closed (0) (3)) (To (3))) [(To (3))];
    same_set (raw_union (Closed (0) (3)) (From (3))) [(From (0))];
    same_set (raw_union (Closed (0) (3)) (@Full Z)) [(@Full Z)] ] = true.
Proof. vm_compute. reflexivity. Qed.

(** src/test/raw_interval/union.rs: [closed_left] *)
Example test_raw_union_closed_left : forallb (fun b : bool => b)
  [ same_set (raw_union (Closed (0) (3)) (@Empty Z)) [(Closed (0) (3))];
    same_set (raw_union (Closed (0) (3)) (Point (-3))) [(Closed (0) (3)); (Point (-3))];
    same_set (raw_union (Closed (0) (3)) (Open (-3) (-1))) [(Closed (0) (3)); (Open (-3) (-1))];
    same_set (raw_union (Closed (0) (3)) (LeftOpen (-3) (-1))) [(Closed (0) (3)); (LeftOpen (-3) (-1))];
    same_set (raw_union (Closed (0) (3)) (RightOpen (-3) (-1))) [(Closed (0) (3)); (RightOpen (-3) (-1))];
    same_set (raw_union (Closed (0) (3)) (Closed (-3) (-1))) [(Closed (0) (3)); (Closed (-3) (-1))];
    same_set (raw_union (Closed (0) (3)) (UpTo (-3))) [(Closed (0) (3)); (UpTo (-3))];
    same_set (raw_union (Closed (0) (3)) (UpFrom (-3))) [(UpFrom (-3))];
    same_set (raw_union (Closed (0) (3)) (To (-3))) [(Closed (0) (3)); (To (-3))];
    same_set (raw_union (Closed (0) (3)) (From (-3))) [(From (-3))];
    same_set (raw_union (Closed (0) (3)) (@Full Z)) [(@Full Z)] ] = true.
Proof. vm_compute. reflexivity. Qed.

(** src/test/raw_interval/union.rs: [closed_right] *)
Example test_raw_union_closed_right : forallb (fun b : bool => b)
  [ same_set (raw_union (Closed (0) (3)) (@Empty Z)) [(Closed (0) (3))];
    same_set (raw_union (Closed (0) (3)) (Point (13))) [(Closed (0) (3)); (Point (13))];
    same_set (raw_union (Closed (0) (3)) (Open (10) (13))) [(Closed (0) (3)); (Open (10) (13))];
    same_set (raw_union (Closed (0) (3)) (LeftOpen (10) (13))) [(Closed (0) (3)); (LeftOpen (10) (13))];
    same_set (raw_union (Closed (0) (3)) (RightOpen (10) (13))) [(Closed (0) (3)); (RightOpen (10) (13))];
    same_set (raw_union (Closed (0) (3)) (Closed (10) (13))) [(Closed (0) (3)); (Closed (10) (13))];
    same_set (raw_union (Closed (0) (3)) (UpTo (13))) [(UpTo (13))];
    same_set (raw_union (Closed (0) (3)) (UpFrom (13))) [(Closed (0) (3)); (UpFrom (13))];
    same_set (raw_union (Closed (0) (3)) (To (13))) [(To (13))];
    same_set (raw_union (Closed (0) (3)) (From (13))) [(Closed (0) (3)); (From (13))];
    same_set (raw_union (Closed (0) (3)) (@Full Z)) [(@Full Z)] ] = true.
Proof. vm_compute. reflexivity. Qed.

(** src/test/raw_interval/union.rs: [up_to_center] *)
Example test_raw_union_up_to_center : forallb (fun b : bool => b)
  [ same_set (raw_union (UpTo (3)) (@Empty Z)) [(UpTo (3))];
    same_set (raw_union (UpTo (3)) (Point (3))) [(To (3))];
    same_set (raw_union (UpTo (3)) (Open (0) (3))) [(UpTo (3))];
    same_set (raw_union (UpTo (3)) (LeftOpen (0) (3))) [(To (3))];
    same_set (raw_union (UpTo (3)) (RightOpen (0) (3))) [(UpTo (3))];
    same_set (raw_union (UpTo (3)) (Closed (0) (3))) [(To (3))];
    same_set (raw_union (UpTo (3)) (UpTo (3))) [(UpTo (3))];
    same_set (raw_union (UpTo (3)) (UpFrom (3))) [(UpTo (3)); (UpFrom (3))];
    same_set (raw_union (UpTo (3)) (To (3))) [(To (3))];
    same_set (raw_union (UpTo (3)) (From (3))) [(@Full Z)];
    same_set (raw_union (UpTo (3)) (@Full Z)) [(@Full Z)] ] = true.
Proof. vm_compute. reflexivity. Qed.

(** src/test/raw_interval/union.rs: [up_to_left] *)
Example test_raw_union_up_to_left : forallb (fun b : bool => b)
  [ same_set (raw_union (UpTo (3)) (@Empty Z)) [(UpTo (3))];
    same_set (raw_union (UpTo (3)) (Point (-3))) [(UpTo (3))];
    same_set (raw_union (UpTo (3)) (Open (-3) (-1))) [(UpTo (3))];
    same_set (raw_union (UpTo (3)) (LeftOpen (-3) (-1))) [(UpTo (3))];
    same_set (raw_union (UpTo (3)) (RightOpen (-3) (-1))) [(UpTo (3))];
    same_set (raw_union (UpTo (3)) (Closed (-3) (-1))) [(UpTo (3))];
    same_set (raw_union (UpTo (3)) (UpTo (-3))) [(UpTo (3))];
    same_set (raw_union (UpTo (3)) (UpFrom (-3))) [(@Full Z)];
    same_set (raw_union (UpTo (3)) (To (-3))) [(UpTo (3))];
    same_set (raw_union (UpTo (3)) (From (-3))) [(@Full Z)];
    same_set (raw_union (UpTo (3)) (@Full Z)) [(@Full Z)] ] = true.
Proof. vm_compute. reflexivity. Qed.

(** src/test/raw_interval/union.rs: [up_to_right] *)
Example test_raw_union_up_to_right : forallb (fun b : bool => b)
  [ same_set (raw_union (UpTo (3)) (@Empty Z)) [(UpTo (3))];
    same_set (raw_union (UpTo (3)) (Point (13))) [(UpTo (3)); (Point (13))];
    same_set (raw_union (UpTo (3)) (Open (10) (13))) [(UpTo (3)); (Open (10) (13))];
    same_set (raw_union (UpTo (3)) (LeftOpen (10) (13))) [(UpTo (3)); (LeftOpen (10) (13))];
    same_set (raw_union (UpTo (3)) (RightOpen (10) (13))) [(UpTo (3)); (RightOpen (10) (13))];
    same_set (raw_union (UpTo (3)) (Closed (10) (13))) [(UpTo (3)); (Closed (10) (13))];
    same_set (raw_union (UpTo (3)) (UpTo (13))) [(UpTo (13))];
    same_set (raw_union (UpTo (3)) (UpFrom (13))) [(UpTo (3)); (UpFrom (13))];
    same_set (raw_union (UpTo (3)) (To (13))) [(To (13))];
    same_set (raw_union (UpTo (3)) (From (13))) [(UpTo (3)); (From (13))];
    same_set (raw_union (UpTo (3)) (@Full Z)) [(@Full Z)] ] = true.
Proof. vm_compute. reflexivity. Qed.

(** src/test/raw_interval/union.rs: [up_from_center] *)
Example test_raw_union_up_from_center : forallb (fun b : bool => b)
  [ same_set (raw_union (UpFrom (0)) (@Empty Z)) [(UpFrom (0))];
    same_set (raw_union (UpFrom (0)) (Point (0))) [(From (0))];
    same_set (raw_union (UpFrom (0)) (Open (0) (3))) [(UpFrom (0))];
    same_set (raw_union (UpFrom (0)) (LeftOpen (0) (3))) [(UpFrom (0))];
    same_set (raw_union (UpFrom (0)) (RightOpen (0) (3))) [(From (0))];
    same_set (raw_union (UpFrom (0)) (Closed (0) (3))) [(From (0))];
    same_set (raw_union (UpFrom (0)) (UpTo (0))) [(UpTo (0)); (UpFrom (0))];
    same_set (raw_union (UpFrom (0)) (UpFrom (0))) [(UpFrom (0))];
    same_set (raw_union (UpFrom (0)) (To (0))) [(@Full Z)];
    same_set (raw_union (UpFrom (0)) (From (0))) [(From (0))];
    same_set (raw_union (UpFrom (0)) (@Full Z)) [(@Full Z)] ] = true.
Proof. vm_compute. reflexivity. Qed.

(** src/test/raw_interval/union.rs: [up_from_left] *)
Example test_raw_union_up_from_left : forallb (fun b : bool => b)
  [ same_set (raw_union (UpFrom (0)) (@Empty Z)) [(UpFrom (0))];
    same_set (raw_union (UpFrom (0)) (Point (-3))) [(UpFrom (0)); (Point (-3))];
    same_set (raw_union (UpFrom (0)) (Open (-3) (-1))) [(UpFrom (0)); (Open (-3) (-1))];
    same_set (raw_union (UpFrom (0)) (LeftOpen (-3) (-1))) [(UpFrom (0)); (LeftOpen (-3) (-1))];
    same_set (raw_union (UpFrom (0)) (RightOpen (-3) (-1))) [(UpFrom (0)); (RightOpen (-3) (-1))];
    same_set (raw_union (UpFrom (0)) (Closed (-3) (-1))) [(UpFrom (0)); (Closed (-3) (-1))];
    same_set (raw_union (UpFrom (0)) (UpTo (-3))) [(UpFrom (0)); (UpTo (-3))];
    same_set (raw_union (UpFrom (0)) (UpFrom (-3))) [(UpFrom (-3))];
    same_set (raw_union (UpFrom (0)) (To (-3))) [(UpFrom (0)); (To (-3))];
    same_set (raw_union (UpFrom (0)) (From (-3))) [(From (-3))];
    same_set (raw_union (UpFrom (0)) (@Full Z)) [(@Full Z)] ] = true.
Proof. vm_compute. reflexivity. Qed.

(** src/test/raw_interval/union.rs: [up_from_right] *)
Example test_raw_union_up_from_right : forallb (fun b : bool => b)
  [ same_set (raw_union (UpFrom (0)) (@Empty Z)) [(UpFrom (0))];
    same_set (raw_union (UpFrom (0)) (Point (13))) [(UpFrom (0))];
    same_set (raw_union (UpFrom (0)) (Open (10) (13))) [(UpFrom (0))];
    same_set (raw_union (UpFrom (0)) (LeftOpen (10) (13))) [(UpFrom (0))];
    same_set (raw_union (UpFrom (0)) (RightOpen (10) (13))) [(UpFrom (0))];
    same_set (raw_union (UpFrom (0)) (Closed (10) (13))) [(UpFrom (0))];
    same_set (raw_union (UpFrom (0)) (UpTo (13))) [(@Full Z)];
    same_set (raw_union (UpFrom (0)) (UpFrom (13))) [(UpFrom (0))];
    same_set (raw_union (UpFrom (0)) (To (13))) [(@Full Z)];
    same_set (raw_union (UpFrom (0)) (From (13))) [(UpFrom (0))];
    same_set (raw_union (UpFrom (0)) (@Full Z)) [(@Full Z)] ] = true.
Proof. vm_compute. reflexivity. Qed.

(** src/test/raw_interval/union.rs: [to_center] *)
Example test_raw_union_to_center : forallb (fun b : bool => b)
  [ same_set (raw_union (To (3)) (@Empty Z)) [(To (3))];
    same_set (raw_union (To (3)) (Point (3))) [(To (3))];
    same_set (raw_union (To (3)) (Open (0) (3))) [(To (3))];
    same_set (raw_union (To (3)) (LeftOpen (0) (3))) [(To (3))];
    same_set (raw_union (To (3)) (RightOpen (0) (3))) [(To (3))];
    same_set (raw_union (To (3)) (Closed (0) (3))) [(To (3))];
    same_set (raw_union (To (3)) (UpTo (3))) [(To (3))];
    same_set (raw_union (To (3)) (UpFrom (3))) [(@Full Z)];
    same_set (raw_union (To (3)) (To (3))) [(To (3))];
    same_set (raw_union (To (3)) (From (3))) [(@Full Z)];
    same_set (raw_union (To (3)) (@Full Z)) [(@Full Z)] ] = true.
Proof. vm_compute. reflexivity. Qed.

(** src/test/raw_interval/union.rs: [to_left] *)
Example test_raw_union_to_left : forallb (fun b : bool => b)
  [ same_set (raw_union (To (3)) (@Empty Z)) [(To (3))];
    same_set (raw_union (To (3)) (Point (-3))) [(To (3))];
    same_set (raw_union (To (3)) (Open (-3) (-1))) [(To (3))];
    same_set (raw_union (To (3)) (LeftOpen (-3) (-1))) [(To (3))];
    same_set (raw_union (To (3)) (RightOpen (-3) (-1))) [(To (3))];
    same_set (raw_union (To (3)) (Closed (-3) (-1))) [(To (3))];
    same_set (raw_union (To (3)) (UpTo (-3))) [(To (3))];
    same_set (raw_union (To (3)) (UpFrom (-3))) [(@Full Z)];
    same_set (raw_union (To (3)) (To (-3))) [(To (3))];
    same_set (raw_union (To (3)) (From (-3))) [(@Full Z)];
    same_set (raw_union (To (3)) (@Full Z)) [(@Full Z)] ] = true.
Proof. vm_compute. reflexivity. Qed.

(** src/test/raw_interval/union.rs: [to_right] *)
Example test_raw_union_to_right : forallb (fun b : bool => b)
  [ same_set (raw_union (To (3)) (@Empty Z)) [(To (3))];
    same_set (raw_union (To (3)) (Point (13))) [(To (3)); (Point (13))];
    same_set (raw_union (To (3)) (Open (10) (13))) [(To (3)); (Open (10) (13))];
    same_set (raw_union (To (3)) (LeftOpen (10) (13))) [(To (3)); (LeftOpen (10) (13))];
    same_set (raw_union (To (3)) (RightOpen (10) (13))) [(To (3)); (RightOpen (10) (13))];
    same_set (raw_union (To (3)) (Closed (10) (13))) [(To (3)); (Closed (10) (13))];
    same_set (raw_union (To (3)) (UpTo (13))) [(UpTo (13))];
    same_set (raw_union (To (3)) (UpFrom (13))) [(To (3)); (UpFrom (13))];
    same_set (raw_union (To (3)) (To (13))) [(To (13))];
    same_set (raw_union (To (3)) (From (13))) [(To (3)); (From (13))];
    same_set (raw_union (To (3)) (@Full Z)) [(@Full Z)] ] = true.
Proof. vm_compute. reflexivity. Qed.

(** src/test/raw_interval/union.rs: [from_center] *)
Example test_raw_union_from_center : forallb (fun b : bool => b)
  [ same_set (raw_union (From (0)) (@Empty Z)) [(From (0))];
    same_set (raw_union (From (0)) (Point (0))) [(From (0))];
    same_set (raw_union (From (0)) (Open (0) (3))) [(From (0))];
    same_set (raw_union (From (0)) (LeftOpen (0) (3))) [(From (0))];
    same_set (raw_union (From (0)) (RightOpen (0) (3))) [(From (0))];
    same_set (raw_union (From (0)) (Closed (0) (3))) [(From (0))];
    same_set (raw_union (From (0)) (UpTo (0))) [(@Full Z)];
    same_set (raw_union (From (0)) (UpFrom (0))) [(From (0))];
    same_set (raw_union (From (0)) (To (0))) [(@Full Z)];
    same_set (raw_union (From (0)) (From (0))) [(From (0))];
    same_set (raw_union (From (0)) (@Full Z)) [(@Full Z)] ] = true.
Proof. vm_compute. reflexivity. Qed.

(** src/test/raw_interval/union.rs: [from_left] *)
Example test_raw_union_from_left : forallb (fun b : bool => b)
  [ same_set (raw_union (From (0)) (@Empty Z)) [(From (0))];
    same_set (raw_union (From (0)) (Point (-3))) [(From (0)); (Point (-3))];
    same_set (raw_union (From (0)) (Open (-3) (-1))) [(From (0)); (Open (-3) (-1))];
    same_set (raw_union (From (0)) (LeftOpen (-3) (-1))) [(From (0)); (LeftOpen (-3) (-1))];
    same_set (raw_union (From (0)) (RightOpen (-3) (-1))) [(From (0)); (RightOpen (-3) (-1))];
    same_set (raw_union (From (0)) (Closed (-3) (-1))) [(From (0)); (Closed (-3) (-1))];
    same_set (raw_union (From (0)) (UpTo (-3))) [(From (0)); (UpTo (-3))];
    same_set (raw_union (From (0)) (UpFrom (-3))) [(UpFrom (-3))];
    same_set (raw_union (From (0)) (To (-3))) [(From (0)); (To (-3))];
    same_set (raw_union (From (0)) (From (-3))) [(From (-3))];
    same_set (raw_union (From (0)) (@Full Z)) [(@Full Z)] ] = true.
Proof. vm_compute. reflexivity. Qed.

(** src/test/raw_interval/union.rs: [from_right] *)
Example test_raw_union_from_right : forallb (fun b : bool => b)
  [ same_set (raw_union (From (0)) (@Empty Z)) [(From (0))];
    same_set (raw_union (From (0)) (Point (13))) [(From (0))];
    same_set (raw_union (From (0)) (Open (10) (13))) [(From (0))];
    same_set (raw_union (From (0)) (LeftOpen (10) (13))) [(From (0))];
    same_set (raw_union (From (0)) (RightOpen (10) (13))) [(From (0))];
    same_set (raw_union (From (0)) (Closed (10) (13))) [(From (0))];
    same_set (raw_union (From (0)) (UpTo (13))) [(@Full Z)];
    same_set (raw_union (From (0)) (UpFrom (13))) [(From (0))];
    same_set (raw_union (From (0)) (To (13))) [(@Full Z)];
    same_set (raw_union (From (0)) (From (13))) [(From (0))];
    same_set (raw_union (From (0)) (@Full Z)) [(@Full Z)] ] = true.
Proof. vm_compute. reflexivity. Qed.

(** src/test/raw_interval/union.rs: [full] *)
Example test_raw_union_full : forallb (fun b : bool => b)
  [ same_set (raw_union (@Full Z) (@Empty Z)) [(@Full Z)];
    same_set (raw_union (@Full Z) (Point (0))) [(@Full Z)];
    same_set (raw_union (@Full Z) (Open (0) (3))) [(@Full Z)];
    same_set (raw_union (@Full Z) (LeftOpen (0) (3))) [(@Full Z)];
    same_set (raw_union (@Full Z) (RightOpen (0) (3))) [(@Full Z)];
    same_set (raw_union (@Full Z) (Closed (0) (3))) [(@Full Z)];
    same_set (raw_union (@Full Z) (UpTo (0))) [(@Full Z)];
    same_set (raw_union (@Full Z) (UpFrom (0))) [(@Full Z)];
    same_set (raw_union (@Full Z) (To (0))) [(@Full Z)];
    same_set (raw_union (@Full Z) (From (0))) [(@Full Z)];
    same_set (raw_union (@Full Z) (@Full Z)) [(@Full Z)] ] = true.
Proof. vm_compute. reflexivity. Qed.

(** src/test/tine_tree/intersect.rs: [disjoint_aggregation] *)
Example test_tree_intersect_disjoint_aggregation : forallb (fun b : bool => b)
  [ same_list_r (do s <- (do s <- (do s <- (do s <- (do s <- (do s <- (do s <- (do s <- (do s <- (do s <- (do s <- (Ok (tree_from_raw_interval (@Full Z))); tree_intersect_in_place true s (UpTo (0))); tree_intersect_in_place true s (Point (5))); tree_intersect_in_place true s (@Empty Z)); tree_intersect_in_place true s (Open (10) (15))); tree_intersect_in_place true s (LeftOpen (20) (25))); tree_intersect_in_place true s (RightOpen (30) (35))); tree_intersect_in_place true s (@Empty Z)); tree_intersect_in_place true s (Closed (40) (45))); tree_intersect_in_place true s (UpFrom (50))); tree_intersect_in_place true s (@Empty Z)); iter_collect true (tree_interval_iter s)) [] ] = true.
Proof. vm_compute. reflexivity. Qed.

(** src/test/tine_tree/intersect.rs: [nested_aggregation] *)
Example test_tree_intersect_nested_aggregation : forallb (fun b : bool => b)
  [ same_list_r (do s <- (do s <- (do s <- (do s <- (do s <- (do s <- (do s <- (do s <- (do s <- (do s <- (Ok (tree_from_raw_interval (@Full Z))); tree_intersect_in_place true s (UpTo (100))); tree_intersect_in_place true s (Open (0) (50))); tree_intersect_in_place true s (@Full Z)); tree_intersect_in_place true s (LeftOpen (5) (45))); tree_intersect_in_place true s (RightOpen (10) (40))); tree_intersect_in_place true s (@Full Z)); tree_intersect_in_place true s (Closed (15) (35))); tree_intersect_in_place true s (UpFrom (20))); tree_intersect_in_place true s (Point (25))); iter_collect true (tree_interval_iter s)) [(Point (25))] ] = true.
Proof. vm_compute. reflexivity. Qed.

(** src/test/tine_tree/intersect.rs: [empty] *)
Example test_tree_intersect_empty : forallb (fun b : bool => b)
  [ same_set_r (do s <- (Ok (tree_from_raw_interval (@Empty Z))); do r <- tree_intersect true s (tree_from_raw_interval (@Empty Z)); iter_collect true (tree_interval_iter r)) [];
    same_set_r (do s <- (Ok (tree_from_raw_interval (@Empty Z))); do r <- tree_intersect true s (tree_from_raw_interval (Point (3))); iter_collect true (tree_interval_iter r)) [];
    same_set_r (do s <- (Ok (tree_from_raw_interval (@Empty Z))); do r <- tree_intersect true s (tree_from_raw_interval (Open (0) (3))); iter_collect true (tree_interval_iter r)) [];
    same_set_r (do s <- (Ok (tree_from_raw_interval (@Empty Z))); do r <- tree_intersect true s (tree_from_raw_interval (LeftOpen (0) (3))); iter_collect true (tree_interval_iter r)) [];
    same_set_r (do s <- (Ok (tree_from_raw_interval (@Empty Z))); do r <- tree_intersect true s (tree_from_raw_interval (RightOpen (0) (3))); iter_collect true (tree_interval_iter r)) [];
    same_set_r (do s <- (Ok (tree_from_raw_interval (@Empty Z))); do r <- tree_intersect true s (tree_from_raw_interval (Closed (0) (3))); iter_collect true (tree_interval_iter r)) [];
    same_set_r (do s <- (Ok (tree_from_raw_interval (@Empty Z))); do r <- tree_intersect true s (tree_from_raw_interval (UpTo (3))); iter_collect true (tree_interval_iter r)) [];
    same_set_r (do s <- (Ok (tree_from_raw_interval (@Empty Z))); do r <- tree_intersect true s (tree_from_raw_interval (UpFrom (3))); iter_collect true (tree_interval_iter r)) [];
    same_set_r (do s <- (Ok (tree_from_raw_interval (@Empty Z))); do r <- tree_intersect true s (tree_from_raw_interval (To (3))); iter_collect true (tree_interval_iter r)) [];
    same_set_r (do s <- (Ok (tree_from_raw_interval (@Empty Z))); do r <- tree_intersect true s (tree_from_raw_interval (From (3))); iter_collect true (tree_interval_iter r)) [];
    same_set_r (do s <- (Ok (tree_from_raw_interval (@Empty Z))); do r <- tree_intersect true s (tree_from_raw_interval (@Full Z)); iter_collect true (tree_interval_iter r)) [] ] = true.
Proof. vm_compute. reflexivity. Qed.

(** src/test/tine_tree/intersect.rs: [point_center] *)
Example test_tree_intersect_point_center : forallb (fun b : bool => b)
  [ same_set_r (do s <- (Ok (tree_from_raw_interval (Point (2)))); do r <- tree_intersect true s (tree_from_raw_interval (@Empty Z)); iter_collect true (tree_interval_iter r)) [];
    same_set_r (do s <- (Ok (tree_from_raw_interval (Point (2)))); do r <- tree_intersect true s (tree_from_raw_interval (Point (2))); iter_collect true (tree_interval_iter r)) [(Point (2))];
    same_set_r (do s <- (Ok (tree_from_raw_interval (Point (2)))); do r <- tree_intersect true s (tree_from_raw_interval (Open (0) (3))); iter_collect true (tree_interval_iter r)) [(Point (2))];
    same_set_r (do s <- (Ok (tree_from_raw_interval (Point (2)))); do r <- tree_intersect true s (tree_from_raw_interval (LeftOpen (0) (3))); iter_collect true (tree_interval_iter r)) [(Point (2))];
    same_set_r (do s <- (Ok (tree_from_raw_interval (Point (2)))); do r <- tree_intersect true s (tree_from_raw_interval (RightOpen (0) (3))); iter_collect true (tree_interval_iter r)) [(Point (2))];
    same_set_r (do s <- (Ok (tree_from_raw_interval (Point (2)))); do r <- tree_intersect true s (tree_from_raw_interval (Closed (0) (3))); iter_collect true (tree_interval_iter r)) [(Point (2))];
    same_set_r (do s <- (Ok (tree_from_raw_interval (Point (2)))); do r <- tree_intersect true s (tree_from_raw_interval (UpTo (2))); iter_collect true (tree_interval_iter r)) [];
    same_set_r (do s <- (Ok (tree_from_raw_interval (Point (2)))); do r <- tree_intersect true s (tree_from_raw_interval (UpFrom (2))); iter_collect true (tree_interval_iter r)) [];
    same_set_r (do s <- (Ok (tree_from_raw_interval (Point (2)))); do r <- tree_intersect true s (tree_from_raw_interval (To (2))); iter_collect true (tree_interval_iter r)) [(Point (2))];
    same_set_r (do s <- (Ok (tree_from_raw_interval (Point (2)))); do r <- tree_intersect true s (tree_from_raw_interval (From (2))); iter_collect true (tree_interval_iter r)) [(Point (2))];
    same_set_r (do s <- (Ok (tree_from_raw_interval (Point (2)))); do r <- tree_intersect true s (tree_from_raw_interval (@Full Z)); iter_collect true (tree_interval_iter r)) [(Point (2))] ] = true.
Proof. vm_compute. reflexivity. Qed.

(** src/test/tine_tree/intersect.rs: [point_left] *)
Example test_tree_intersect_point_left : forallb (fun b : bool => b)
  [ same_set_r (do s <- (Ok (tree_from_raw_interval (Point (2)))); do r <- tree_intersect true s (tree_from_raw_interval (@Empty Z)); iter_collect true (tree_interval_iter r)) [];
    same_set_r (do s <- (Ok (tree_from_raw_interval (Point (2)))); do r <- tree_intersect true s (tree_from_raw_interval (Point (-1))); iter_collect true (tree_interval_iter r)) [];
    same_set_r (do s <- (Ok (tree_from_raw_interval (Point (2)))); do r <- tree_intersect true s (tree_from_raw_interval (Open (-3) (-1))); iter_collect true (tree_interval_iter r)) [];
    same_set_r (do s <- (Ok (tree_from_raw_interval (Point (2)))); do r <- tree_intersect true s (tree_from_raw_interval (LeftOpen (-3) (-1))); iter_collect true (tree_interval_iter r)) [];
    same_set_r (do s <- (Ok (tree_from_raw_interval (Point (2)))); do r <- tree_intersect true s (tree_from_raw_interval (RightOpen (-3) (-1))); iter_collect true (tree_interval_iter r)) [];
    same_set_r (do s <- (Ok (tree_from_raw_interval (Point (2)))); do r <- tree_intersect true s (tree_from_raw_interval (Closed (-3) (-1))); iter_collect true (tree_interval_iter r)) [];
    same_set_r (do s <- (Ok (tree_from_raw_interval (Point (2)))); do r <- tree_intersect true s (tree_from_raw_interval (UpTo (-3))); iter_collect true (tree_interval_iter r)) [];
    same_set_r (do s <- (Ok (tree_from_raw_interval (Point (2)))); do r <- tree_intersect true s (tree_from_raw_interval (UpFrom (-3))); iter_collect true (tree_interval_iter r)) [(Point (2))];
    same_set_r (do s <- (Ok (tree_from_raw_interval (Point (2)))); do r <- tree_intersect true s (tree_from_raw_interval (To (-3))); iter_collect true (tree_interval_iter r)) [];
    same_set_r (do s <- (Ok (tree_from_raw_interval (Point (2)))); do r <- tree_intersect true s (tree_from_raw_interval (From (-3))); iter_collect true (tree_interval_iter r)) [(Point (2))];
    same_set_r (do s <- (Ok (tree_from_raw_interval (Point (2)))); do r <- tree_intersect true s (tree_from_raw_interval (@Full Z)); iter_collect true (tree_interval_iter r)) [(Point (2))] ] = true.
Proof. vm_compute. reflexivity. Qed.

(** src/test/tine_tree/intersect.rs: [point_right] *)
Example test_tree_intersect_point_right : forallb (fun b : bool => b)
  [ same_set_r (do s <- (Ok (tree_from_raw_interval (Point (2)))); do r <- tree_intersect true s (tree_from_raw_interval (@Empty Z)); iter_collect true (tree_interval_iter r)) [];
    same_set_r (do s <- (Ok (tree_from_raw_interval (Point (2)))); do r <- tree_intersect true s (tree_from_raw_interval (Point (10))); iter_collect true (tree_interval_iter r)) [];
    same_set_r (do s <- (Ok (tree_from_raw_interval (Point (2)))); do r <- tree_intersect true s (tree_from_raw_interval (Open (10) (13))); iter_collect true (tree_interval_iter r)) [];
    same_set_r (do s <- (Ok (tree_from_raw_interval (Point (2)))); do r <- tree_intersect true s (tree_from_raw_interval (LeftOpen (10) (13))); iter_collect true (tree_interval_iter r)) [];
    same_set_r (do s <- (Ok (tree_from_raw_interval (Point (2)))); do r <- tree_intersect true s (tree_from_raw_interval (RightOpen (10) (13))); iter_collect true (tree_interval_iter r)) [];
    same_set_r (do s <- (Ok (tree_from_raw_interval (Point (2)))); do r <- tree_intersect true s (tree_from_raw_interval (Closed (10) (13))); iter_collect true (tree_interval_iter r)) [];
    same_set_r (do s <- (Ok (tree_from_raw_interval (Point (2)))); do r <- tree_intersect true s (tree_from_raw_interval (UpTo (13))); iter_collect true (tree_interval_iter r)) [(Point (2))];
    same_set_r (do s <- (Ok (tree_from_raw_interval (Point (2)))); do r <- tree_intersect true s (tree_from_raw_interval (UpFrom (13))); iter_collect true (tree_interval_iter r)) [];
    same_set_r (do s <- (Ok (tree_from_raw_interval (Point (2)))); do r <- tree_intersect true s (tree_from_raw_interval (To (13))); iter_collect true (tree_interval_iter r)) [(Point (2))];
    same_set_r (do s <- (Ok (tree_from_raw_interval (Point (2)))); do r <- tree_intersect true s (tree_from_raw_interval (From (13))); iter_collect true (tree_interval_iter r)) [];
    same_set_r (do s <- (Ok (tree_from_raw_interval (Point (2)))); do r <- tree_intersect true s (tree_from_raw_interval (@Full Z)); iter_collect true (tree_interval_iter r)) [(Point (2))] ] = true.
Proof. vm_compute. reflexivity. Qed.

(** src/test/tine_tree/intersect.rs: [open_center] *)
Example test_tree_intersect_open_center : forallb (fun b : bool => b)
  [ same_set_r (do s <- (Ok (tree_from_raw_interval (Open (0) (3)))); do r <- tree_intersect true s (tree_from_raw_interval (@Empty Z)); iter_collect true (tree_interval_iter r)) [];
    same_set_r (do s <- (Ok (tree_from_raw_interval (Open (0) (3)))); do r <- tree_intersect true s (tree_from_raw_interval (Point (2))); iter_collect true (tree_interval_iter r)) [(Point (2))];
    same_set_r (do s <- (Ok (tree_from_raw_interval (Open (0) (3)))); do r <- tree_intersect true s (tree_from_raw_interval (Open (0) (3))); iter_collect true (tree_interval_iter r)) [(Open (0) (3))];
    same_set_r (do s <- (Ok (tree_from_raw_interval (Open (0) (3)))); do r <- tree_intersect true s (tree_from_raw_interval (LeftOpen (0) (3))); iter_collect true (tree_interval_iter r)) [(Open (0) (3))];
    same_set_r (do s <- (Ok (tree_from_raw_interval (Open (0) (3)))); do r <- tree_intersect true s (tree_from_raw_interval (RightOpen (0) (3))); iter_collect true (tree_interval_iter r)) [(Open (0) (3))];
    same_set_r (do s <- (Ok (tree_from_raw_interval (Open (0) (3)))); do r <- tree_intersect true s (tree_from_raw_interval (Closed (0) (3))); iter_collect true (tree_interval_iter r)) [(Open (0) (3))];
    same_set_r (do s <- (Ok (tree_from_raw_interval (Open (0) (3)))); do r <- tree_intersect true s (tree_from_raw_interval (UpTo (2))); iter_collect true (tree_interval_iter r)) [(Open (0) (2))];
    same_set_r (do s <- (Ok (tree_from_raw_interval (Open (0) (3)))); do r <- tree_intersect true s (tree_from_raw_interval (UpFrom (2))); iter_collect true (tree_interval_iter r)) [(Open (2) (3))];
    same_set_r (do s <- (Ok (tree_from_raw_interval (Open (0) (3)))); do r <- tree_intersect true s (tree_from_raw_interval (To (2))); iter_collect true (tree_interval_iter r)) [(LeftOpen (0) (2))];
    same_set_r (do s <- (Ok (tree_from_raw_interval (Open (0) (3)))); do r <- tree_intersect true s (tree_from_raw_interval (From (2))); iter_collect true (tree_interval_iter r)) [(RightOpen (2) (3))];
    same_set_r (do s <- (Ok (tree_from_raw_interval (Open (0) (3)))); do r <- tree_intersect true s (tree_from_raw_interval (@Full Z)); iter_collect true (tree_interval_iter r)) [(Open (0) (3))] ] = true.
Proof. vm_compute. reflexivity. Qed.

(** src/test/tine_tree/intersect.rs: [open_left] *)
Example test_tree_intersect_open_left : forallb (fun b : bool => b)
  [ same_set_r (do s <- (Ok (tree_from_raw_interval (Open (0) (3)))); do r <- tree_intersect true s (tree_from_raw_interval (@Empty Z)); iter_collect true (tree_interval_iter r)) [];
    same_set_r (do s <- (Ok (tree_from_raw_interval (Open (0) (3)))); do r <- tree_intersect true s (tree_from_raw_interval (Point (-3))); iter_collect true (tree_interval_iter r)) [];
    same_set_r (do s <- (Ok (tree_from_raw_interval (Open (0) (3)))); do r <- tree_intersect true s (tree_from_raw_interval (Open (-3) (-1))); iter_collect true (tree_interval_iter r)) [];
    same_set_r (do s <- (Ok (tree_from_raw_interval (Open (0) (3)))); do r <- tree_intersect true s (tree_from_raw_interval (LeftOpen (-3) (-1))); iter_collect true (tree_interval_iter r)) [];
    same_set_r (do s <- (Ok (tree_from_raw_interval (Open (0) (3)))); do r <- tree_intersect true s (tree_from_raw_interval (RightOpen (-3) (-1))); iter_collect true (tree_interval_iter r)) [];
    same_set_r (do s <- (Ok (tree_from_raw_interval (Open (0) (3)))); do r <- tree_intersect true s (tree_from_raw_interval (Closed (-3) (-1))); iter_collect true (tree_interval_iter r)) [];
    same_set_r (do s <- (Ok (tree_from_raw_interval (Open (0) (3)))); do r <- tree_intersect true s (tree_from_raw_interval (UpTo (-3))); iter_collect true (tree_interval_iter r)) [];
    same_set_r (do s <- (Ok (tree_from_raw_interval (Open (0) (3)))); do r <- tree_intersect true s (tree_from_raw_interval (UpFrom (-3))); iter_collect true (tree_interval_iter r)) [(Open (0) (3))];
    same_set_r (do s <- (Ok (tree_from_raw_interval (Open (0) (3)))); do r <- tree_intersect true s (tree_from_raw_interval (To (-3))); iter_collect true (tree_interval_iter r)) [];
    same_set_r (do s <- (Ok (tree_from_raw_interval (Open (0) (3)))); do r <- tree_intersect true s (tree_from_raw_interval (From (-3))); iter_collect true (tree_interval_iter r)) [(Open (0) (3))];
    same_set_r (do s <- (Ok (tree_from_raw_interval (Open (0) (3)))); do r <- tree_intersect true s (tree_from_raw_interval (@Full Z)); iter_collect true (tree_interval_iter r)) [(Open (0) (3))] ] = true.
Proof. vm_compute. reflexivity. Qed.

(** src/test/tine_tree/intersect.rs: [open_right] *)
Example test_tree_intersect_open_right : forallb (fun b : bool => b)
  [ same_set_r (do s <- (Ok (tree_from_raw_interval (Open (0) (3)))); do r <- tree_intersect true s (tree_from_raw_interval (@Empty Z)); iter_collect true (tree_interval_iter r)) [];
    same_set_r (do s <- (Ok (tree_from_raw_interval (Open (0) (3)))); do r <- tree_intersect true s (tree_from_raw_interval (Point (13))); iter_collect true (tree_interval_iter r)) [];
    same_set_r (do s <- (Ok (tree_from_raw_interval (Open (0) (3)))); do r <- tree_intersect true s (tree_from_raw_interval (Open (10) (13))); iter_collect true (tree_interval_iter r)) [];
    same_set_r (do s <- (Ok (tree_from_raw_interval (Open (0) (3)))); do r <- tree_intersect true s (tree_from_raw_interval (LeftOpen (10) (13))); iter_collect true (tree_interval_iter r)) [];
    same_set_r (do s <- (Ok (tree_from_raw_interval (Open (0) (3)))); do r <- tree_intersect true s (tree_from_raw_interval (RightOpen (10) (13))); iter_collect true (tree_interval_iter r)) [];
    same_set_r (do s <- (Ok (tree_from_raw_interval (Open (0) (3)))); do r <- tree_intersect true s (tree_from_raw_interval (Closed (10) (13))); iter_collect true (tree_interval_iter r)) [];
    same_set_r (do s <- (Ok (tree_from_raw_interval (Open (0) (3)))); do r <- tree_intersect true s (tree_from_raw_interval (UpTo (13))); iter_collect true (tree_interval_iter r)) [(Open (0) (3))];
    same_set_r (do s <- (Ok (tree_from_raw_interval (Open (0) (3)))); do r <- tree_intersect true s (tree_from_raw_interval (UpFrom (13))); iter_collect true (tree_interval_iter r)) [];
    same_set_r (do s <- (Ok (tree_from_raw_interval (Open (0) (3)))); do r <- tree_intersect true s (tree_from_raw_interval (To (13))); iter_collect true (tree_interval_iter r)) [(Open (0) (3))];
    same_set_r (do s <- (Ok (tree_from_raw_interval (Open (0) (3)))); do r <- tree_intersect true s (tree_from_raw_interval (From (13))); iter_collect true (tree_interval_iter r)) [];
    same_set_r (do s <- (Ok (tree_from_raw_interval (Open (0) (3)))); do r <- tree_intersect true s (tree_from_raw_interval (@Full Z)); iter_collect true (tree_interval_iter r)) [(Open (0) (3))] ] = true.
Proof. vm_compute. reflexivity. Qed.

(** src/test/tine_tree/intersect.rs: [left_open_center] *)
Example test_tree_intersect_left_open_center : forallb (fun b : bool => b)
  [ same_set_r (do s <- (Ok (tree_from_raw_interval (LeftOpen (0) (3)))); do r <- tree_intersect true s (tree_from_raw_interval (@Empty Z)); iter_collect true (tree_interval_iter r)) [];
    same_set_r (do s <- (Ok (tree_from_raw_interval (LeftOpen (0) (3)))); do r <- tree_intersect true s (tree_from_raw_interval (Point (2))); iter_collect true (tree_interval_iter r)) [(Point (2))];
    same_set_r (do s <- (Ok (tree_from_raw_interval (LeftOpen (0) (3)))); do r <- tree_intersect true s (tree_from_raw_interval (Open (0) (3))); iter_collect true (tree_interval_iter r)) [(Open (0) (3))];
    same_set_r (do s <- (Ok (tree_from_raw_interval (LeftOpen (0) (3)))); do r <- tree_intersect true s (tree_from_raw_interval (LeftOpen (0) (3))); iter_collect true (tree_interval_iter r)) [(LeftOpen (0) (3))];
    same_set_r (do s <- (Ok (tree_from_raw_interval (LeftOpen (0) (3)))); do r <- tree_intersect true s (tree_from_raw_interval (RightOpen (0) (3))); iter_collect true (tree_interval_iter r)) [(Open (0) (3))];
    same_set_r (do s <- (Ok (tree_from_raw_interval (LeftOpen (0) (3)))); do r <- tree_intersect true s (tree_from_raw_interval (Closed (0) (3))); iter_collect true (tree_interval_iter r)) [(LeftOpen (0) (3))];
    same_set_r (do s <- (Ok (tree_from_raw_interval (LeftOpen (0) (3)))); do r <- tree_intersect true s (tree_from_raw_interval (UpTo (2))); iter_collect true (tree_interval_iter r)) [(Open (0) (2))];
    same_set_r (do s <- (Ok (tree_from_raw_interval (LeftOpen (0) (3)))); do r <- tree_intersect true s (tree_from_raw_interval (UpFrom (2))); iter_collect true (tree_interval_iter r)) [(LeftOpen (2) (3))];
    same_set_r (do s <- (Ok (tree_from_raw_interval (LeftOpen (0) (3)))); do r <- tree_intersect true s (tree_from_raw_interval (To (2))); iter_collect true (tree_interval_iter r)) [(LeftOpen (0) (2))];
    same_set_r (do s <- (Ok (tree_from_raw_interval (LeftOpen (0) (3)))); do r <- tree_intersect true s (tree_from_raw_interval (From (2))); iter_collect true (tree_interval_iter r)) [(Closed (2) (3))];
    same_set_r (do s <- (Ok (tree_from_raw_interval (LeftOpen (0) (3)))); do r <- tree_intersect true s (tree_from_raw_interval (@Full Z)); iter_collect true (tree_interval_iter r)) [(LeftOpen (0) (3))] ] = true.
Proof. vm_compute. reflexivity. Qed.

(** src/test/tine_tree/intersect.rs: [left_open_left] *)
Example test_tree_intersect_left_open_left : forallb (fun b : bool => b)
  [ same_set_r (do s <- (Ok (tree_from_raw_interval (LeftOpen (0) (3)))); do r <- tree_intersect true s (tree_from_raw_interval (@Empty Z)); iter_collect true (tree_interval_iter r)) [];
    same_set_r (do s <- (Ok (tree_from_raw_interval (LeftOpen (0) (3)))); do r <- tree_intersect true s (tree_from_raw_interval (Point (-3))); iter_collect true (tree_interval_iter r)) [];
    same_set_r (do s <- (Ok (tree_from_raw_interval (LeftOpen (0) (3)))); do r <- tree_intersect true s (tree_from_raw_interval (Open (-3) (-1))); iter_collect true (tree_interval_iter r)) [];
    same_set_r (do s <- (Ok (tree_from_raw_interval (LeftOpen (0) (3)))); do r <- tree_intersect true s (tree_from_raw_interval (LeftOpen (-3) (-1))); iter_collect true (tree_interval_iter r)) [];
    same_set_r (do s <- (Ok (tree_from_raw_interval (LeftOpen (0) (3)))); do r <- tree_intersect true s (tree_from_raw_interval (RightOpen (-3) (-1))); iter_collect true (tree_interval_iter r)) [];
    same_set_r (do s <- (Ok (tree_from_raw_interval (LeftOpen (0) (3)))); do r <- tree_intersect true s (tree_from_raw_interval (Closed (-3) (-1))); iter_collect true (tree_interval_iter r)) [];
    same_set_r (do s <- (Ok (tree_from_raw_interval (LeftOpen (0) (3)))); do r <- tree_intersect true s (tree_from_raw_interval (UpTo (-3))); iter_collect true (tree_interval_iter r)) [];
    same_set_r (do s <- (Ok (tree_from_raw_interval (LeftOpen (0) (3)))); do r <- tree_intersect true s (tree_from_raw_interval (UpFrom (-3))); iter_collect true (tree_interval_iter r)) [(LeftOpen (0) (3))];
    same_set_r (do s <- (Ok (tree_from_raw_interval (LeftOpen (0) (3)))); do r <- tree_intersect true s (tree_from_raw_interval (To (-3))); iter_collect true (tree_interval_iter r)) [];
    same_set_r (do s <- (Ok (tree_from_raw_interval (LeftOpen (0) (3)))); do r <- tree_intersect true s (tree_from_raw_interval (From (-3))); iter_collect true (tree_interval_iter r)) [(LeftOpen (0) (3))];
    same_set_r (do s <- (Ok (tree_from_raw_interval (LeftOpen (0) (3)))); do r <- tree_intersect true s (tree_from_raw_interval (@Full Z)); iter_collect true (tree_interval_iter r)) [(LeftOpen (0) (3))] ] = true.
Proof. vm_compute. reflexivity. Qed.

(** src/test/tine_tree/intersect.rs: [left_open_right] *)
Example test_tree_intersect_left_open_right : forallb (fun b : bool => b)
  [ same_set_r (do s <- (Ok (tree_from_raw_interval (LeftOpen (0) (3)))); do r <- tree_intersect true s (tree_from_raw_interval (@Empty Z)); iter_collect true (tree_interval_iter r)) [];
    same_set_r (do s <- (Ok (tree_from_raw_interval (LeftOpen (0) (3)))); do r <- tree_intersect true s (tree_from_raw_interval (Point (13))); iter_collect true (tree_interval_iter r)) [];
    same_set_r (do s <- (Ok (tree_from_raw_interval (LeftOpen (0) (3)))); do r <- tree_intersect true s (tree_from_raw_interval (Open (10) (13))); iter_collect true (tree_interval_iter r)) [];
    same_set_r (do s <- (Ok (tree_from_raw_interval (LeftOpen (0) (3)))); do r <- tree_intersect true s (tree_from_raw_interval (LeftOpen (10) (13))); iter_collect true (tree_interval_iter r)) [];
    same_set_r (do s <- (Ok (tree_from_raw_interval (LeftOpen (0) (3)))); do r <- tree_intersect true s (tree_from_raw_interval (RightOpen (10) (13))); iter_collect true (tree_interval_iter r)) [];
    same_set_r (do s <- (Ok (tree_from_raw_interval (LeftOpen (0) (3)))); do r <- tree_intersect true s (tree_from_raw_interval (Closed (10) (13))); iter_collect true (tree_interval_iter r)) [];
    same_set_r (do s <- (Ok (tree_from_raw_interval (LeftOpen (0) (3)))); do r <- tree_intersect true s (tree_from_raw_interval (UpTo (13))); iter_collect true (tree_interval_iter r)) [(LeftOpen (0) (3))];
    same_set_r (do s <- (Ok (tree_from_raw_interval (LeftOpen (0) (3)))); do r <- tree_intersect true s (tree_from_raw_interval (UpFrom (13))); iter_collect true (tree_interval_iter r)) [];
    same_set_r (do s <- (Ok (tree_from_raw_interval (LeftOpen (0) (3)))); do r <- tree_intersect true s (tree_from_raw_interval (To (13))); iter_collect true (tree_interval_iter r)) [(LeftOpen (0) (3))];
    same_set_r (do s <- (Ok (tree_from_raw_interval (LeftOpen (0) (3)))); do r <- tree_intersect true s (tree_from_raw_interval (From (13))); iter_collect true (tree_interval_iter r)) [];
    same_set_r (do s <- (Ok (tree_from_raw_interval (LeftOpen (0) (3)))); do r <- tree_intersect true s (tree_from_raw_interval (@Full Z)); iter_collect true (tree_interval_iter r)) [(LeftOpen (0) (3))] ] = true.
Proof. vm_compute. reflexivity. Qed.

(** src/test/tine_tree/intersect.rs: [right_open_center] *)
Example test_tree_intersect_right_open_center : forallb (fun b : bool => b)
  [ same_set_r (do s <- (Ok (tree_from_raw_interval (RightOpen (0) (3)))); do r <- tree_intersect true s (tree_from_raw_interval (@Empty Z)); iter_collect true (tree_interval_iter r)) [];
    same_set_r (do s <- (Ok (tree_from_raw_interval (RightOpen (0) (3)))); do r <- tree_intersect true s (tree_from_raw_interval (Point (2))); iter_collect true (tree_interval_iter r)) [(Point (2))];
    same_set_r (do s <- (Ok (tree_from_raw_interval (RightOpen (0) (3)))); do r <- tree_intersect true s (tree_from_raw_interval (Open (0) (3))); iter_collect true (tree_interval_iter r)) [(Open (0) (3))];
    same_set_r (do s <- (Ok (tree_from_raw_interval (RightOpen (0) (3)))); do r <- tree_intersect true s (tree_from_raw_interval (LeftOpen (0) (3))); iter_collect true (tree_interval_iter r)) [(Open (0) (3))];
    same_set_r (do s <- (Ok (tree_from_raw_interval (RightOpen (0) (3)))); do r <- tree_intersect true s (tree_from_raw_interval (RightOpen (0) (3))); iter_collect true (tree_interval_iter r)) [(RightOpen (0) (3))];
    same_set_r (do s <- (Ok (tree_from_raw_interval (RightOpen (0) (3)))); do r <- tree_intersect true s (tree_from_raw_interval (Closed (0) (3))); iter_collect true (tree_interval_iter r)) [(RightOpen (0) (3))];
    same_set_r (do s <- (Ok (tree_from_raw_interval (RightOpen (0) (3)))); do r <- tree_intersect true s (tree_from_raw_interval (UpTo (2))); iter_collect true (tree_interval_iter r)) [(RightOpen (0) (2))];
    same_set_r (do s <- (Ok (tree_from_raw_interval (RightOpen (0) (3)))); do r <- tree_intersect true s (tree_from_raw_interval (UpFrom (2))); iter_collect true (tree_interval_iter r)) [(Open (2) (3))];
    same_set_r (do s <- (Ok (tree_from_raw_interval (RightOpen (0) (3)))); do r <- tree_intersect true s (tree_from_raw_interval (To (2))); iter_collect true (tree_interval_iter r)) [(Closed (0) (2))];
    same_set_r (do s <- (Ok (tree_from_raw_interval (RightOpen (0) (3)))); do r <- tree_intersect true s (tree_from_raw_interval (From (2))); iter_collect true (tree_interval_iter r)) [(RightOpen (2) (3))];
    same_set_r (do s <- (Ok (tree_from_raw_interval (RightOpen (0) (3)))); do r <- tree_intersect true s (tree_from_raw_interval (@Full Z)); iter_collect true (tree_interval_iter r)) [(RightOpen (0) (3))] ] = true.
Proof. vm_compute. reflexivity. Qed.

(** src/test/tine_tree/intersect.rs: [right_open_left] *)
Example test_tree_intersect_right_open_left : forallb (fun b : bool => b)
  [ same_set_r (do s <- (Ok (tree_from_raw_interval (RightOpen (0) (3)))); do r <- tree_intersect true s (tree_from_raw_interval (@Empty Z)); iter_collect true (tree_interval_iter r)) [];
    same_set_r (do s <- (Ok (tree_from_raw_interval (RightOpen (0) (3)))); do r <- tree_intersect true s (tree_from_raw_interval (Point (-3))); iter_collect true (tree_interval_iter r)) [];
    same_set_r (do s <- (Ok (tree_from_raw_interval (RightOpen (0) (3)))); do r <- tree_intersect true s (tree_from_raw_interval (Open (-3) (-1))); iter_collect true (tree_interval_iter r)) [];
    same_set_r (do s <- (Ok (tree_from_raw_interval (RightOpen (0) (3)))); do r <- tree_intersect true s (tree_from_raw_interval (LeftOpen (-3) (-1))); iter_collect true (tree_interval_iter r)) [];
    same_set_r (do s <- (Ok (tree_from_raw_interval (RightOpen (0) (3)))); do r <- tree_intersect true s (tree_from_raw_interval (RightOpen (-3) (-1))); iter_collect true (tree_interval_iter r)) [];
    same_set_r (do s <- (Ok (tree_from_raw_interval (RightOpen (0) (3)))); do r <- tree_intersect true s (tree_from_raw_interval (Closed (-3) (-1))); iter_collect true (tree_interval_iter r)) [];
    same_set_r (do s <- (Ok (tree_from_raw_interval (RightOpen (0) (3)))); do r <- tree_intersect true s (tree_from_raw_interval (UpTo (-3))); iter_collect true (tree_interval_iter r)) [];
    same_set_r (do s <- (Ok (tree_from_raw_interval (RightOpen (0) (3)))); do r <- tree_intersect true s (tree_from_raw_interval (UpFrom (-3))); iter_collect true (tree_interval_iter r)) [(RightOpen (0) (3))];
    same_set_r (do s <- (Ok (tree_from_raw_interval (RightOpen (0) (3)))); do r <- tree_intersect true s (tree_from_raw_interval (To (-3))); iter_collect true (tree_interval_iter r)) [];
    same_set_r (do s <- (Ok (tree_from_raw_interval (RightOpen (0) (3)))); do r <- tree_intersect true s (tree_from_raw_interval (From (-3))); iter_collect true (tree_interval_iter r)) [(RightOpen (0) (3))];
    same_set_r (do s <- (Ok (tree_from_raw_interval (RightOpen (0) (3)))); do r <- tree_intersect true s (tree_from_raw_interval (@Full Z)); iter_collect true (tree_interval_iter r)) [(RightOpen (0) (3))] ] = true.
Proof. vm_compute. reflexivity. Qed.

(** src/test/tine_tree/intersect.rs: [right_open_right] *)
Example test_tree_intersect_right_open_right : forallb (fun b : bool => b)
  [ same_set_r (do s <- (Ok (tree_from_raw_interval (RightOpen (0) (3)))); do r <- tree_intersect true s (tree_from_raw_interval (@Empty Z)); iter_collect true (tree_interval_iter r)) [];
    same_set_r (do s <- (Ok (tree_from_raw_interval (RightOpen (0) (3)))); do r <- tree_intersect true s (tree_from_raw_interval (Point (13))); iter_collect true (tree_interval_iter r)) [];
    same_set_r (do s <- (Ok (tree_from_raw_interval (RightOpen (0) (3)))); do r <- tree_intersect true s (tree_from_raw_interval (Open (10) (13))); iter_collect true (tree_interval_iter r)) [];
    same_set_r (do s <- (Ok (tree_from_raw_interval (RightOpen (0) (3)))); do r <- tree_intersect true s (tree_from_raw_interval (LeftOpen (10) (13))); iter_collect true (tree_interval_iter r)) [];
    same_set_r (do s <- (Ok (tree_from_raw_interval (RightOpen (0) (3)))); do r <- tree_intersect true s (tree_from_raw_interval (RightOpen (10) (13))); iter_collect true (tree_interval_iter r)) [];
    same_set_r (do s <- (Ok (tree_from_raw_interval (RightOpen (0) (3)))); do r <- tree_intersect true s (tree_from_raw_interval (Closed (10) (13))); iter_collect true (tree_interval_iter r)) [];
    same_set_r (do s <- (Ok (tree_from_raw_interval (RightOpen (0) (3)))); do r <- tree_intersect true s (tree_from_raw_interval (UpTo (13))); iter_collect true (tree_interval_iter r)) [(RightOpen (0) (3))];
    same_set_r (do s <- (Ok (tree_from_raw_interval (RightOpen (0) (3)))); do r <- tree_intersect true s (tree_from_raw_interval (UpFrom (13))); iter_collect true (tree_interval_iter r)) [];
    same_set_r (do s <- (Ok (tree_from_raw_interval (RightOpen (0) (3)))); do r <- tree_intersect true s (tree_from_raw_interval (To (13))); iter_collect true (tree_interval_iter r)) [(RightOpen (0) (3))];
    same_set_r (do s <- (Ok (tree_from_raw_interval (RightOpen (0) (3)))); do r <- tree_intersect true s (tree_from_raw_interval (From (13))); iter_collect true (tree_interval_iter r)) [];
    same_set_r (do s <- (Ok (tree_from_raw_interval (RightOpen (0) (3)))); do r <- tree_intersect true s (tree_from_raw_interval (@Full Z)); iter_collect true (tree_interval_iter r)) [(RightOpen (0) (3))] ] = true.
Proof. vm_compute. reflexivity. Qed.

(** src/test/tine_tree/intersect.rs: [closed_center] *)
Example test_tree_intersect_closed_center : forallb (fun b : bool => b)
  [ same_set_r (do s <- (Ok (tree_from_raw_interval (Closed (0) (3)))); do r <- tree_intersect true s (tree_from_raw_interval (@Empty Z)); iter_collect true (tree_interval_iter r)) [];
    same_set_r (do s <- (Ok (tree_from_raw_interval (Closed (0) (3)))); do r <- tree_intersect true s (tree_from_raw_interval (Point (2))); iter_collect true (tree_interval_iter r)) [(Point (2))];
    same_set_r (do s <- (Ok (tree_from_raw_interval (Closed (0) (3)))); do r <- tree_intersect true s (tree_from_raw_interval (Open (0) (3))); iter_collect true (tree_interval_iter r)) [(Open (0) (3))];
    same_set_r (do s <- (Ok (tree_from_raw_interval (Closed (0) (3)))); do r <- tree_intersect true s (tree_from_raw_interval (LeftOpen (0) (3))); iter_collect true (tree_interval_iter r)) [(LeftOpen (0) (3))];
    same_set_r (do s <- (Ok (tree_from_raw_interval (Closed (0) (3)))); do r <- tree_intersect true s (tree_from_raw_interval (RightOpen (0) (3))); iter_collect true (tree_interval_iter r)) [(RightOpen (0) (3))];
    same_set_r (do s <- (Ok (tree_from_raw_interval (Closed (0) (3)))); do r <- tree_intersect true s (tree_from_raw_interval (Closed (0) (3))); iter_collect true (tree_interval_iter r)) [(Closed (0) (3))];
    same_set_r (do s <- (Ok (tree_from_raw_interval (Closed (0) (3)))); do r <- tree_intersect true s (tree_from_raw_interval (UpTo (2))); iter_collect true (tree_interval_iter r)) [(RightOpen (0) (2))];
    same_set_r (do s <- (Ok (tree_from_raw_interval (Closed (0) (3)))); do r <- tree_intersect true s (tree_from_raw_interval (UpFrom (2))); iter_collect true (tree_interval_iter r)) [(LeftOpen (2) (3))];
    same_set_r (do s <- (Ok (tree_from_raw_interval (Closed (0) (3)))); do r <- tree_intersect true s (tree_from_raw_interval (To (2))); iter_collect true (tree_interval_iter r)) [(Closed (0) (2))];
    same_set_r (do s <- (Ok (tree_from_raw_interval (Closed (0) (3)))); do r <- tree_intersect true s (tree_from_raw_interval (From (2))); iter_collect true (tree_interval_iter r)) [(Closed (2) (3))];
    same_set_r (do s <- (Ok (tree_from_raw_interval (Closed (0) (3)))); do r <- tree_intersect true s (tree_from_raw_interval (@Full Z)); iter_collect true (tree_interval_iter r)) [(Closed (0) (3))] ] = true.
Proof. vm_compute. reflexivity. Qed.

(** src/test/tine_tree/intersect.rs: [closed_left] *)
Example test_tree_intersect_closed_left : forallb (fun b : bool => b)
  [ same_set_r (do s <- (Ok (tree_from_raw_interval (Closed (0) (3)))); do r <- tree_intersect true s (tree_from_raw_interval (@Empty Z)); iter_collect true (tree_interval_iter r)) [];
    same_set_r (do s <- (Ok (tree_from_raw_interval (Closed (0) (3)))); do r <- tree_intersect true s (tree_from_raw_interval (Point (-3))); iter_collect true (tree_interval_iter r)) [];
    same_set_r (do s <- (Ok (tree_from_raw_interval (Closed (0) (3)))); do r <- tree_intersect true s (tree_from_raw_interval (Open (-3) (-1))); iter_collect true (tree_interval_iter r)) [];
    same_set_r (do s <- (Ok (tree_from_raw_interval (Closed (0) (3)))); do r <- tree_intersect true s (tree_from_raw_interval (LeftOpen (-3) (-1))); iter_collect true (tree_interval_iter r)) [];
    same_set_r (do s <- (Ok (tree_from_raw_interval (Closed (0) (3)))); do r <- tree_intersect true s (tree_from_raw_interval (RightOpen (-3) (-1))); iter_collect true (tree_interval_iter r)) [];
    same_set_r (do s <- (Ok (tree_from_raw_interval (Closed (0) (3)))); do r <- tree_intersect true s (tree_from_raw_interval (Closed (-3) (-1))); iter_collect true (tree_interval_iter r)) [];
    same_set_r (do s <- (Ok (tree_from_raw_interval (Closed (0) (3)))); do r <- tree_intersect true s (tree_from_raw_interval (UpTo (-3))); iter_collect true (tree_interval_iter r)) [];
    same_set_r (do s <- (Ok (tree_from_raw_interval (Closed (0) (3)))); do r <- tree_intersect true s (tree_from_raw_interval (UpFrom (-3))); iter_collect true (tree_interval_iter r)) [(Closed (0) (3))];
    same_set_r (do s <- (Ok (tree_from_raw_interval (Closed (0) (3)))); do r <- tree_intersect true s (tree_from_raw_interval (To (-3))); iter_collect true (tree_interval_iter r)) [];
    same_set_r (do s <- (Ok (tree_from_raw_interval (Closed (0) (3)))); do r <- tree_intersect true s (tree_from_raw_interval (From (-3))); iter_collect true (tree_interval_iter r)) [(Closed (0) (3))];
    same_set_r (do s <- (Ok (tree_from_raw_interval (Closed (0) (3)))); do r <- tree_intersect true s (tree_from_raw_interval (@Full Z)); iter_collect true (tree_interval_iter r)) [(Closed (0) (3))] ] = true.
Proof. vm_compute. reflexivity. Qed.

(** src/test/tine_tree/intersect.rs: [closed_right] *)
Example test_tree_intersect_closed_right : forallb (fun b : bool => b)
  [ same_set_r (do s <- (Ok (tree_from_raw_interval (Closed (0) (3)))); do r <- tree_intersect true s (tree_from_raw_interval (@Empty Z)); iter_collect true (tree_interval_iter r)) [];
    same_set_r (do s <- (Ok (tree_from_raw_interval (Closed (0) (3)))); do r <- tree_intersect true s (tree_from_raw_interval (Point (13))); iter_collect true (tree_interval_iter r)) [];
    same_set_r (do s <- (Ok (tree_from_raw_interval (Closed (0) (3)))); do r <- tree_intersect true s (tree_from_raw_interval (Open (10) (13))); iter_collect true (tree_interval_iter r)) [];
    same_set_r (do s <- (Ok (tree_from_raw_interval (Closed (0) (3)))); do r <- tree_intersect true s (tree_from_raw_interval (LeftOpen (10) (13))); iter_collect true (tree_interval_iter r)) [];
    same_set_r (do s <- (Ok (tree_from_raw_interval (Closed (0) (3)))); do r <- tree_intersect true s (tree_from_raw_interval (RightOpen (10) (13))); iter_collect true (tree_interval_iter r)) [];
    same_set_r (do s <- (Ok (tree_from_raw_interval (Closed (0) (3)))); do r <- tree_intersect true s (tree_from_raw_interval (Closed (10) (13))); iter_collect true (tree_interval_iter r)) [];
    same_set_r (do s <- (Ok (tree_from_raw_interval (Closed (0) (3)))); do r <- tree_intersect true s (tree_from_raw_interval (UpTo (13))); iter_collect true (tree_interval_iter r)) [(Closed (0) (3))];
    same_set_r (do s <- (Ok (tree_from_raw_interval (Closed (0) (3)))); do r <- tree_intersect true s (tree_from_raw_interval (UpFrom (13))); iter_collect true (tree_interval_iter r)) [];
    same_set_r (do s <- (Ok (tree_from_raw_interval (Closed (0) (3)))); do r <- tree_intersect true s (tree_from_raw_interval (To (13))); iter_collect true (tree_interval_iter r)) [(Closed (0) (3))];
    same_set_r (do s <- (Ok (tree_from_raw_interval (Closed (0) (3)))); do r <- tree_intersect true s (tree_from_raw_interval (From (13))); iter_collect true (tree_interval_iter r)) [];
    same_set_r (do s <- (Ok (tree_from_raw_interval (Closed (0) (3)))); do r <- tree_intersect true s (tree_from_raw_interval (@Full Z)); iter_collect true (tree_interval_iter r)) [(Closed (0) (3))] ] = true.
Proof. vm_compute. reflexivity. Qed.

(** src/test/tine_tree/intersect.rs: [up_to_center] *)
Example test_tree_intersect_up_to_center : forallb (fun b : bool => b)
  [ same_set_r (do s <- (Ok (tree_from_raw_interval (UpTo (3)))); do r <- tree_intersect true s (tree_from_raw_interval (@Empty Z)); iter_collect true (tree_interval_iter r)) [];
    same_set_r (do s <- (Ok (tree_from_raw_interval (UpTo (3)))); do r <- tree_intersect true s (tree_from_raw_interval (Point (2))); iter_collect true (tree_interval_iter r)) [(Point (2))];
    same_set_r (do s <- (Ok (tree_from_raw_interval (UpTo (3)))); do r <- tree_intersect true s (tree_from_raw_interval (Open (0) (3))); iter_collect true (tree_interval_iter r)) [(Open (0) (3))];
    same_set_r (do s <- (Ok (tree_from_raw_interval (UpTo (3)))); do r <- tree_intersect true s (tree_from_raw_interval (LeftOpen (0) (3))); iter_collect true (tree_interval_iter r)) [(Open (0) (3))];
    same_set_r (do s <- (Ok (tree_from_raw_interval (UpTo (3)))); do r <- tree_intersect true s (tree_from_raw_interval (RightOpen (0) (3))); iter_collect true (tree_interval_iter r)) [(RightOpen (0) (3))];
    same_set_r (do s <- (Ok (tree_from_raw_interval (UpTo (3)))); do r <- tree_intersect true s (tree_from_raw_interval (Closed (0) (3))); iter_collect true (tree_interval_iter r)) [(RightOpen (0) (3))];
    same_set_r (do s <- (Ok (tree_from_raw_interval (UpTo (3)))); do r <- tree_intersect true s (tree_from_raw_interval (UpTo (2))); iter_collect true (tree_interval_iter r)) [(UpTo (2))];
    same_set_r (do s <- (Ok (tree_from_raw_interval (UpTo (3)))); do r <- tree_intersect true s (tree_from_raw_interval (UpFrom (2))); iter_collect true (tree_interval_iter r)) [(Open (2) (3))];
    same_set_r (do s <- (Ok (tree_from_raw_interval (UpTo (3)))); do r <- tree_intersect true s (tree_from_raw_interval (To (2))); iter_collect true (tree_interval_iter r)) [(To (2))];
    same_set_r (do s <- (Ok (tree_from_raw_interval (UpTo (3)))); do r <- tree_intersect true s (tree_from_raw_interval (From (2))); iter_collect true (tree_interval_iter r)) [(RightOpen (2) (3))];
    same_set_r (do s <- (Ok (tree_from_raw_interval (UpTo (3)))); do r <- tree_intersect true s (tree_from_raw_interval (@Full Z)); iter_collect true (tree_interval_iter r)) [(UpTo (3))] ] = true.
Proof. vm_compute. reflexivity. Qed.

(** src/test/tine_tree/intersect.rs: [up_to_left] *)
Example test_tree_intersect_up_to_left : forallb (fun b : bool => b)
  [ same_set_r (do s <- (Ok (tree_from_raw_interval (UpTo (3)))); do r <- tree_intersect true s (tree_from_raw_interval (@Empty Z)); iter_collect true (tree_interval_iter r)) [];
    same_set_r (do s <- (Ok (tree_from_raw_interval (UpTo (3)))); do r <- tree_intersect true s (tree_from_raw_interval (Point (-3))); iter_collect true (tree_interval_iter r)) [(Point (-3))];
    same_set_r (do s <- (Ok (tree_from_raw_interval (UpTo (3)))); do r <- tree_intersect true s (tree_from_raw_interval (Open (-3) (-1))); iter_collect true (tree_interval_iter r)) [(Open (-3) (-1))];
    same_set_r (do s <- (Ok (tree_from_raw_interval (UpTo (3)))); do r <- tree_intersect true s (tree_from_raw_interval (LeftOpen (-3) (-1))); iter_collect true (tree_interval_iter r)) [(LeftOpen (-3) (-1))];
    same_set_r (do s <- (Ok (tree_from_raw_interval (UpTo (3)))); do r <- tree_intersect true s (tree_from_raw_interval (RightOpen (-3) (-1))); iter_collect true (tree_interval_iter r)) [(RightOpen (-3) (-1))];
    same_set_r (do s <- (Ok (tree_from_raw_interval (UpTo (3)))); do r <- tree_intersect true s (tree_from_raw_interval (Closed (-3) (-1))); iter_collect true (tree_interval_iter r)) [(Closed (-3) (-1))];
    same_set_r (do s <- (Ok (tree_from_raw_interval (UpTo (3)))); do r <- tree_intersect true s (tree_from_raw_interval (UpTo (-3))); iter_collect true (tree_interval_iter r)) [(UpTo (-3))];
    same_set_r (do s <- (Ok (tree_from_raw_interval (UpTo (3)))); do r <- tree_intersect true s (tree_from_raw_interval (UpFrom (-3))); iter_collect true (tree_interval_iter r)) [(Open (-3) (3))];
    same_set_r (do s <- (Ok (tree_from_raw_interval (UpTo (3)))); do r <- tree_intersect true s (tree_from_raw_interval (To (-3))); iter_collect true (tree_interval_iter r)) [(To (-3))];
    same_set_r (do s <- (Ok (tree_from_raw_interval (UpTo (3)))); do r <- tree_intersect true s (tree_from_raw_interval (From (-3))); iter_collect true (tree_interval_iter r)) [(RightOpen (-3) (3))];
    same_set_r (do s <- (Ok (tree_from_raw_interval (UpTo (3)))); do r <- tree_intersect true s (tree_from_raw_interval (@Full Z)); iter_collect true (tree_interval_iter r)) [(UpTo (3))] ] = true.
Proof. vm_compute. reflexivity. Qed.

(** src/test/tine_tree/intersect.rs: [up_to_right] *)
Example test_tree_intersect_up_to_right : forallb (fun b : bool => b)
  [ same_set_r (do s <- (Ok (tree_from_raw_interval (UpTo (3)))); do r <- tree_intersect true s (tree_from_raw_interval (@Empty Z)); iter_collect true (tree_interval_iter r)) [];
    same_set_r (do s <- (Ok (tree_from_raw_interval (UpTo (3)))); do r <- tree_intersect true s (tree_from_raw_interval (Point (13))); iter_collect true (tree_interval_iter r)) [];
    same_set_r (do s <- (Ok (tree_from_raw_interval (UpTo (3)))); do r <- tree_intersect true s (tree_from_raw_interval (Open (10) (13))); iter_collect true (tree_interval_iter r)) [];
    same_set_r (do s <- (Ok (tree_from_raw_interval (UpTo (3)))); do r <- tree_intersect true s (tree_from_raw_interval (LeftOpen (10) (13))); iter_collect true (tree_interval_iter r)) [];
    same_set_r (do s <- (Ok (tree_from_raw_interval (UpTo (3)))); do r <- tree_intersect true s (tree_from_raw_interval (RightOpen (10) (13))); iter_collect true (tree_interval_iter r)) [];
    same_set_r (do s <- (Ok (tree_from_raw_interval (UpTo (3)))); do r <- tree_intersect true s (tree_from_raw_interval (Closed (10) (13))); iter_collect true (tree_interval_iter r)) [];
    same_set_r (do s <- (Ok (tree_from_raw_interval (UpTo (3)))); do r <- tree_intersect true s (tree_from_raw_interval (UpTo (13))); iter_collect true (tree_interval_iter r)) [(UpTo (3))];
    same_set_r (do s <- (Ok (tree_from_raw_interval (UpTo (3)))); do r <- tree_intersect true s (tree_from_raw_interval (UpFrom (13))); iter_collect true (tree_interval_iter r)) [];
    same_set_r (do s <- (Ok (tree_from_raw_interval (UpTo (3)))); do r <- tree_intersect true s (tree_from_raw_interval (To (13))); iter_collect true (tree_interval_iter r)) [(UpTo (3))];
    same_set_r (do s <- (Ok (tree_from_raw_interval (UpTo (3)))); do r <- tree_intersect true s (tree_from_raw_interval (From (13))); iter_collect true (tree_interval_iter r)) [];
    same_set_r (do s <- (Ok (tree_from_raw_interval (UpTo (3)))); do r <- tree_intersect true s (tree_from_raw_interval (@Full Z)); iter_collect true (tree_interval_iter r)) [(UpTo (3))] ] = true.
Proof. vm_compute. reflexivity. Qed.

(** src/test/tine_tree/intersect.rs: [up_from_center] *)
Example test_tree_intersect_up_from_center : forallb (fun b : bool => b)
  [ same_set_r (do s <- (Ok (tree_from_raw_interval (UpFrom (0)))); do r <- tree_intersect true s (tree_from_raw_interval (@Empty Z)); iter_collect true (tree_interval_iter r)) [];
    same_set_r (do s <- (Ok (tree_from_raw_interval (UpFrom (0)))); do r <- tree_intersect true s (tree_from_raw_interval (Point (2))); iter_collect true (tree_interval_iter r)) [(Point (2))];
    same_set_r (do s <- (Ok (tree_from_raw_interval (UpFrom (0)))); do r <- tree_intersect true s (tree_from_raw_interval (Open (0) (3))); iter_collect true (tree_interval_iter r)) [(Open (0) (3))];
    same_set_r (do s <- (Ok (tree_from_raw_interval (UpFrom (0)))); do r <- tree_intersect true s (tree_from_raw_interval (LeftOpen (0) (3))); iter_collect true (tree_interval_iter r)) [(LeftOpen (0) (3))];
    same_set_r (do s <- (Ok (tree_from_raw_interval (UpFrom (0)))); do r <- tree_intersect true s (tree_from_raw_interval (RightOpen (0) (3))); iter_collect true (tree_interval_iter r)) [(Open (0) (3))];
    same_set_r (do s <- (Ok (tree_from_raw_interval (UpFrom (0)))); do r <- tree_intersect true s (tree_from_raw_interval (Closed (0) (3))); iter_collect true (tree_interval_iter r)) [(LeftOpen (0) (3))];
    same_set_r (do s <- (Ok (tree_from_raw_interval (UpFrom (0)))); do r <- tree_intersect true s (tree_from_raw_interval (UpTo (2))); iter_collect true (tree_interval_iter r)) [(Open (0) (2))];
    same_set_r (do s <- (Ok (tree_from_raw_interval (UpFrom (0)))); do r <- tree_intersect true s (tree_from_raw_interval (UpFrom (2))); iter_collect true (tree_interval_iter r)) [(UpFrom (2))];
    same_set_r (do s <- (Ok (tree_from_raw_interval (UpFrom (0)))); do r <- tree_intersect true s (tree_from_raw_interval (To (2))); iter_collect true (tree_interval_iter r)) [(LeftOpen (0) (2))];
    same_set_r (do s <- (Ok (tree_from_raw_interval (UpFrom (0)))); do r <- tree_intersect true s (tree_from_raw_interval (From (2))); iter_collect true (tree_interval_iter r)) [(From (2))];
    same_set_r (do s <- (Ok (tree_from_raw_interval (UpFrom (0)))); do r <- tree_intersect true s (tree_from_raw_interval (@Full Z)); iter_collect true (tree_interval_iter r)) [(UpFrom (0))] ] = true.
Proof. vm_compute. reflexivity. Qed.

(** src/test/tine_tree/intersect.rs: [up_from_left] *)
Example test_tree_intersect_up_from_left : forallb (fun b : bool => b)
  [ same_set_r (do s <- (Ok (tree_from_raw_interval (UpFrom (0)))); do r <- tree_intersect true s (tree_from_raw_interval (@Empty Z)); iter_collect true (tree_interval_iter r)) [];
    same_set_r (do s <- (Ok (tree_from_raw_interval (UpFrom (0)))); do r <- tree_intersect true s (tree_from_raw_interval (Point (-3))); iter_collect true (tree_interval_iter r)) [];
    same_set_r (do s <- (Ok (tree_from_raw_interval (UpFrom (0)))); do r <- tree_intersect true s (tree_from_raw_interval (Open (-3) (-1))); iter_collect true (tree_interval_iter r)) [];
    same_set_r (do s <- (Ok (tree_from_raw_interval (UpFrom (0)))); do r <- tree_intersect true s (tree_from_raw_interval (LeftOpen (-3) (-1))); iter_collect true (tree_interval_iter r)) [];
    same_set_r (do s <- (Ok (tree_from_raw_interval (UpFrom (0)))); do r <- tree_intersect true s (tree_from_raw_interval (RightOpen (-3) (-1))); iter_collect true (tree_interval_iter r)) [];
    same_set_r (do s <- (Ok (tree_from_raw_interval (UpFrom (0)))); do r <- tree_intersect true s (tree_from_raw_interval (Closed (-3) (-1))); iter_collect true (tree_interval_iter r)) [];
    same_set_r (do s <- (Ok (tree_from_raw_interval (UpFrom (0)))); do r <- tree_intersect true s (tree_from_raw_interval (UpTo (-3))); iter_collect true (tree_interval_iter r)) [];
    same_set_r (do s <- (Ok (tree_from_raw_interval (UpFrom (0)))); do r <- tree_intersect true s (tree_from_raw_interval (UpFrom (-3))); iter_collect true (tree_interval_iter r)) [(UpFrom (0))];
    same_set_r (do s <- (Ok (tree_from_raw_interval (UpFrom (0)))); do r <- tree_intersect true s (tree_from_raw_interval (To (-3))); iter_collect true (tree_interval_iter r)) [];
    same_set_r (do s <- (Ok (tree_from_raw_interval (UpFrom (0)))); do r <- tree_intersect true s (tree_from_raw_interval (From (-3))); iter_collect true (tree_interval_iter r)) [(UpFrom (0))];
    same_set_r (do s <- (Ok (tree_from_raw_interval (UpFrom (0)))); do r <- tree_intersect true s (tree_from_raw_interval (@Full Z)); iter_collect true (tree_interval_iter r)) [(UpFrom (0))] ] = true.
Proof. vm_compute. reflexivity. Qed.

(** src/test/tine_tree/intersect.rs: [up_from_right] *)
Example test_tree_intersect_up_from_right : forallb (fun b : bool => b)
  [ same_set_r (do s <- (Ok (tree_from_raw_interval (UpFrom (0)))); do r <- tree_intersect true s (tree_from_raw_interval (@Empty Z)); iter_collect true (tree_interval_iter r)) [];
    same_set_r (do s <- (Ok (tree_from_raw_interval (UpFrom (0)))); do r <- tree_intersect true s (tree_from_raw_interval (Point (13))); iter_collect true (tree_interval_iter r)) [(Point (13))];
    same_set_r (do s <- (Ok (tree_from_raw_interval (UpFrom (0)))); do r <- tree_intersect true s (tree_from_raw_interval (Open (10) (13))); iter_collect true (tree_interval_iter r)) [(Open (10) (13))];
    same_set_r (do s <- (Ok (tree_from_raw_interval (UpFrom (0)))); do r <- tree_intersect true s (tree_from_raw_interval (LeftOpen (10) (13))); iter_collect true (tree_interval_iter r)) [(LeftOpen (10) (13))];
    same_set_r (do s <- (Ok (tree_from_raw_interval (UpFrom (0)))); do r <- tree_intersect true s (tree_from_raw_interval (RightOpen (10) (13))); iter_collect true (tree_interval_iter r)) [(RightOpen (10) (13))];
    same_set_r (do s <- (Ok (tree_from_raw_interval (UpFrom (0)))); do r <- tree_intersect true s (tree_from_raw_interval (Closed (10) (13))); iter_collect true (tree_interval_iter r)) [(Closed (10) (13))];
    same_set_r (do s <- (Ok (tree_from_raw_interval (UpFrom (0)))); do r <- tree_intersect true s (tree_from_raw_interval (UpTo (13))); iter_collect true (tree_interval_iter r)) [(Open (0) (13))];
    same_set_r (do s <- (Ok (tree_from_raw_interval (UpFrom (0)))); do r <- tree_intersect true s (tree_from_raw_interval (UpFrom (13))); iter_collect true (tree_interval_iter r)) [(UpFrom (13))];
    same_set_r (do s <- (Ok (tree_from_raw_interval (UpFrom (0)))); do r <- tree_intersect true s (tree_from_raw_interval (To (13))); iter_collect true (tree_interval_iter r)) [(LeftOpen (0) (13))];
    same_set_r (do s <- (Ok (tree_from_raw_interval (UpFrom (0)))); do r <- tree_intersect true s (tree_from_raw_interval (From (13))); iter_collect true (tree_interval_iter r)) [(From (13))];
    same_set_r (do s <- (Ok (tree_from_raw_interval (UpFrom (0)))); do r <- tree_intersect true s (tree_from_raw_interval (@Full Z)); iter_collect true (tree_interval_iter r)) [(UpFrom (0))] ] = true.
Proof. vm_compute. reflexivity. Qed.

(** src/test/tine_tree/intersect.rs: [to_center] *)
Example test_tree_intersect_to_center : forallb (fun b : bool => b)
  [ same_set_r (do s <- (Ok (tree_from_raw_interval (To (3)))); do r <- tree_intersect true s (tree_from_raw_interval (@Empty Z)); iter_collect true (tree_interval_iter r)) [];
    same_set_r (do s <- (Ok (tree_from_raw_interval (To (3)))); do r <- tree_intersect true s (tree_from_raw_interval (Point (2))); iter_collect true (tree_interval_iter r)) [(Point (2))];
    same_set_r (do s <- (Ok (tree_from_raw_interval (To (3)))); do r <- tree_intersect true s (tree_from_raw_interval (Open (0) (3))); iter_collect true (tree_interval_iter r)) [(Open (0) (3))];
    same_set_r (do s <- (Ok (tree_from_raw_interval (To (3)))); do r <- tree_intersect true s (tree_from_raw_interval (LeftOpen (0) (3))); iter_collect true (tree_interval_iter r)) [(LeftOpen (0) (3))];
    same_set_r (do s <- (Ok (tree_from_raw_interval (To (3)))); do r <- tree_intersect true s (tree_from_raw_interval (RightOpen (0) (3))); iter_collect true (tree_interval_iter r)) [(RightOpen (0) (3))];
    same_set_r (do s <- (Ok (tree_from_raw_interval (To (3)))); do r <- tree_intersect true s (tree_from_raw_interval (Closed (0) (3))); iter_collect true (tree_interval_iter r)) [(Closed (0) (3))];
    same_set_r (do s <- (Ok (tree_from_raw_interval (To (3)))); do r <- tree_intersect true s (tree_from_raw_interval (UpTo (2))); iter_collect true (tree_interval_iter r)) [(UpTo (2))];
    same_set_r (do s <- (Ok (tree_from_raw_interval (To (3)))); do r <- tree_intersect true s (tree_from_raw_interval (UpFrom (2))); iter_collect true (tree_interval_iter r)) [(LeftOpen (2) (3))];
    same_set_r (do s <- (Ok (tree_from_raw_interval (To (3)))); do r <- tree_intersect true s (tree_from_raw_interval (To (2))); iter_collect true (tree_interval_iter r)) [(To (2))];
    same_set_r (do s <- (Ok (tree_from_raw_interval (To (3)))); do r <- tree_intersect true s (tree_from_raw_interval (From (2))); iter_collect true (tree_interval_iter r)) [(Closed (2) (3))];
    same_set_r (do s <- (Ok (tree_from_raw_interval (To (3)))); do r <- tree_intersect true s (tree_from_raw_interval (@Full Z)); iter_collect true (tree_interval_iter r)) [(To (3))] ] = true.
Proof. vm_compute. reflexivity. Qed.

(** src/test/tine_tree/intersect.rs: [to_left] *)
Example test_tree_intersect_to_left : forallb (fun b : bool => b)
  [ same_set_r (do s <- (Ok (tree_from_raw_interval (To (3)))); do r <- tree_intersect true s (tree_from_raw_interval (@Empty Z)); iter_collect true (tree_interval_iter r)) [];
    same_set_r (do s <- (Ok (tree_from_raw_interval (To (3)))); do r <- tree_intersect true s (tree_from_raw_interval (Point (-3))); iter_collect true (tree_interval_iter r)) [(Point (-3))];
    same_set_r (do s <- (Ok (tree_from_raw_interval (To (3)))); do r <- tree_intersect true s (tree_from_raw_interval (Open (-3) (-1))); iter_collect true (tree_interval_iter r)) [(Open (-3) (-1))];
    same_set_r (do s <- (Ok (tree_from_raw_interval (To (3)))); do r <- tree_intersect true s (tree_from_raw_interval (LeftOpen (-3) (-1))); iter_collect true (tree_interval_iter r)) [(LeftOpen (-3) (-1))];
    same_set_r (do s <- (Ok (tree_from_raw_interval (To (3)))); do r <- tree_intersect true s (tree_from_raw_interval (RightOpen (-3) (-1))); iter_collect true (tree_interval_iter r)) [(RightOpen (-3) (-1))];
    same_set_r (do s <- (Ok (tree_from_raw_interval (To (3)))); do r <- tree_intersect true s (tree_from_raw_interval (Closed (-3) (-1))); iter_collect true (tree_interval_iter r)) [(Closed (-3) (-1))];
    same_set_r (do s <- (Ok (tree_from_raw_interval (To (3)))); do r <- tree_intersect true s (tree_from_raw_interval (UpTo (-3))); iter_collect true (tree_interval_iter r)) [(UpTo (-3))];
    same_set_r (do s <- (Ok (tree_from_raw_interval (To (3)))); do r <- tree_intersect true s (tree_from_raw_interval (UpFrom (-3))); iter_collect true (tree_interval_iter r)) [(LeftOpen (-3) (3))];
    same_set_r (do s <- (Ok (tree_from_raw_interval (To (3)))); do r <- tree_intersect true s (tree_from_raw_interval (To (-3))); iter_collect true (tree_interval_iter r)) [(To (-3))];
    same_set_r (do s <- (Ok (tree_from_raw_interval (To (3)))); do r <- tree_intersect true s (tree_from_raw_interval (From (-3))); iter_collect true (tree_interval_iter r)) [(Closed (-3) (3))];
    same_set_r (do s <- (Ok (tree_from_raw_interval (To (3)))); do r <- tree_intersect true s (tree_from_raw_interval (@Full Z)); iter_collect true (tree_interval_iter r)) [(To (3))] ] = true.
Proof. vm_compute. reflexivity. Qed.

(** src/test/tine_tree/intersect.rs: [to_right] *)
Example test_tree_intersect_to_right : forallb (fun b : bool => b)
  [ same_set_r (do s <- (Ok (tree_from_raw_interval (To (3)))); do r <- tree_intersect true s (tree_from_raw_interval (@Empty Z)); iter_collect true (tree_interval_iter r)) [];
    same_set_r (do s <- (Ok (tree_from_raw_interval (To (3)))); do r <- tree_intersect true s (tree_from_raw_interval (Point (13))); iter_collect true (tree_interval_iter r)) [];
    same_set_r (do s <- (Ok (tree_from_raw_interval (To (3)))); do r <- tree_intersect true s (tree_from_raw_interval (Open (10) (13))); iter_collect true (tree_interval_iter r)) [];
    same_set_r (do s <- (Ok (tree_from_raw_interval (To (3)))); do r <- tree_intersect true s (tree_from_raw_interval (LeftOpen (10) (13))); iter_collect true (tree_interval_iter r)) [];
    same_set_r (do s <- (Ok (tree_from_raw_interval (To (3)))); do r <- tree_intersect true s (tree_from_raw_interval (RightOpen (10) (13))); iter_collect true (tree_interval_iter r)) [];
    same_set_r (do s <- (Ok (tree_from_raw_interval (To (3)))); do r <- tree_intersect true s (tree_from_raw_interval (Closed (10) (13))); iter_collect true (tree_interval_iter r)) [];
    same_set_r (do s <- (Ok (tree_from_raw_interval (To (3)))); do r <- tree_intersect true s (tree_from_raw_interval (UpTo (13))); iter_collect true (tree_interval_iter r)) [(To (3))];
    same_set_r (do s <- (Ok (tree_from_raw_interval (To (3)))); do r <- tree_intersect true s (tree_from_raw_interval (UpFrom (13))); iter_collect true (tree_interval_iter r)) [];
    same_set_r (do s <- (Ok (tree_from_raw_interval (To (3)))); do r <- tree_intersect true s (tree_from_raw_interval (To (13))); iter_collect true (tree_interval_iter r)) [(To (3))];
    same_set_r (do s <- (Ok (tree_from_raw_interval (To (3)))); do r <- tree_intersect true s (tree_from_raw_interval (From (13))); iter_collect true (tree_interval_iter r)) [];
    same_set_r (do s <- (Ok (tree_from_raw_interval (To (3)))); do r <- tree_intersect true s (tree_from_raw_interval (@Full Z)); iter_collect true (tree_interval_iter r)) [(To (3))] ] = true.
Proof. vm_compute. reflexivity. Qed.

(** src/test/tine_tree/intersect.rs: [from_center] *)
Example test_tree_intersect_from_center : forallb (fun b : bool => b)
  [ same_set_r (do s <- (Ok (tree_from_raw_interval (From (0)))); do r <- tree_intersect true s (tree_from_raw_interval (@Empty Z)); iter_collect true (tree_interval_iter r)) [];
    same_set_r (do s <- (Ok (tree_from_raw_interval (From (0)))); do r <- tree_intersect true s (tree_from_raw_interval (Point (2))); iter_collect true (tree_interval_iter r)) [(Point (2))];
    same_set_r (do s <- (Ok (tree_from_raw_interval (From (0)))); do r <- tree_intersect true s (tree_from_raw_interval (Open (0) (3))); iter_collect true (tree_interval_iter r)) [(Open (0) (3))];
    same_set_r (do s <- (Ok (tree_from_raw_interval (From (0)))); do r <- tree_intersect true s (tree_from_raw_interval (LeftOpen (0) (3))); iter_collect true (tree_interval_iter r)) [(LeftOpen (0) (3))];
    same_set_r (do s <- (Ok (tree_from_raw_interval (From (0)))); do r <- tree_intersect true s (tree_from_raw_interval (RightOpen (0) (3))); iter_collect true (tree_interval_iter r)) [(RightOpen (0) (3))];
    same_set_r (do s <- (Ok (tree_from_raw_interval (From (0)))); do r <- tree_intersect true s (tree_from_raw_interval (Closed (0) (3))); iter_collect true (tree_interval_iter r)) [(Closed (0) (3))];
    same_set_r (do s <- (Ok (tree_from_raw_interval (From (0)))); do r <- tree_intersect true s (tree_from_raw_interval (UpTo (2))); iter_collect true (tree_interval_iter r)) [(RightOpen (0) (2))];
    same_set_r (do s <- (Ok (tree_from_raw_interval (From (0)))); do r <- tree_intersect true s (tree_from_raw_interval (UpFrom (2))); iter_collect true (tree_interval_iter r)) [(UpFrom (2))];
    same_set_r (do s <- (Ok (tree_from_raw_interval (From (0)))); do r <- tree_intersect true s (tree_from_raw_interval (To (2))); iter_collect true (tree_interval_iter r)) [(Closed (0) (2))];
    same_set_r (do s <- (Ok (tree_from_raw_interval (From (0)))); do r <- tree_intersect true s (tree_from_raw_interval (From (2))); iter_collect true (tree_interval_iter r)) [(From (2))];
    same_set_r (do s <- (Ok (tree_from_raw_interval (From (0)))); do r <- tree_intersect true s (tree_from_raw_interval (@Full Z)); iter_collect true (tree_interval_iter r)) [(From (0))] ] = true.
Proof. vm_compute. reflexivity. Qed.

(** src/test/tine_tree/intersect.rs: [from_left] *)
Example test_tree_intersect_from_left : forallb (fun b : bool => b)
  [ same_set_r (do s <- (Ok (tree_from_raw_interval (From (0)))); do r <- tree_intersect true s (tree_from_raw_interval (@Empty Z)); iter_collect true (tree_interval_iter r)) [];
    same_set_r (do s <- (Ok (tree_from_raw_interval (From (0)))); do r <- tree_intersect true s (tree_from_raw_interval (Point (-3))); iter_collect true (tree_interval_iter r)) [];
    same_set_r (do s <- (Ok (tree_from_raw_interval (From (0)))); do r <- tree_intersect true s (tree_from_raw_interval (Open (-3) (-1))); iter_collect true (tree_interval_iter r)) [];
    same_set_r (do s <- (Ok (tree_from_raw_interval (From (0)))); do r <- tree_intersect true s (tree_from_raw_interval (LeftOpen (-3) (-1))); iter_collect true (tree_interval_iter r)) [];
    same_set_r (do s <- (Ok (tree_from_raw_interval (From (0)))); do r <- tree_intersect true s (tree_from_raw_interval (RightOpen (-3) (-1))); iter_collect true (tree_interval_iter r)) [];
    same_set_r (do s <- (Ok (tree_from_raw_interval (From (0)))); do r <- tree_intersect true s (tree_from_raw_interval (Closed (-3) (-1))); iter_collect true (tree_interval_iter r)) [];
    same_set_r (do s <- (Ok (tree_from_raw_interval (From (0)))); do r <- tree_intersect true s (tree_from_raw_interval (UpTo (-3))); iter_collect true (tree_interval_iter r)) [];
    same_set_r (do s <- (Ok (tree_from_raw_interval (From (0)))); do r <- tree_intersect true s (tree_from_raw_interval (UpFrom (-3))); iter_collect true (tree_interval_iter r)) [(From (0))];
    same_set_r (do s <- (Ok (tree_from_raw_interval (From (0)))); do r <- tree_intersect true s (tree_from_raw_interval (To (-3))); iter_collect true (tree_interval_iter r)) [];
    same_set_r (do s <- (Ok (tree_from_raw_interval (From (0)))); do r <- tree_intersect true s (tree_from_raw_interval (From (-3))); iter_collect true (tree_interval_iter r)) [(From (0))];
    same_set_r (do s <- (Ok (tree_from_raw_interval (From (0)))); do r <- tree_intersect true s (tree_from_raw_interval (@Full Z)); iter_collect true (tree_interval_iter r)) [(From (0))] ] = true.
Proof. vm_compute. reflexivity. Qed.

(** src/test/tine_tree/intersect.rs: [from_right] *)
Example test_tree_intersect_from_right : forallb (fun b : bool => b)
  [ same_set_r (do s <- (Ok (tree_from_raw_interval (From (0)))); do r <- tree_intersect true s (tree_from_raw_interval (@Empty Z)); iter_collect true (tree_interval_iter r)) [];
    same_set_r (do s <- (Ok (tree_from_raw_interval (From (0)))); do r <- tree_intersect true s (tree_from_raw_interval (Point (13))); iter_collect true (tree_interval_iter r)) [(Point (13))];
    same_set_r (do s <- (Ok (tree_from_raw_interval (From (0)))); do r <- tree_intersect true s (tree_from_raw_interval (Open (10) (13))); iter_collect true (tree_interval_iter r)) [(Open (10) (13))];
    same_set_r (do s <- (Ok (tree_from_raw_interval (From (0)))); do r <- tree_intersect true s (tree_from_raw_interval (LeftOpen (10) (13))); iter_collect true (tree_interval_iter r)) [(LeftOpen (10) (13))];
    same_set_r (do s <- (Ok (tree_from_raw_interval (From (0)))); do r <- tree_intersect true s (tree_from_raw_interval (RightOpen (10) (13))); iter_collect true (tree_interval_iter r)) [(RightOpen (10) (13))];
    same_set_r (do s <- (Ok (tree_from_raw_interval (From (0)))); do r <- tree_intersect true s (tree_from_raw_interval (Closed (10) (13))); iter_collect true (tree_interval_iter r)) [(Closed (10) (13))];
    same_set_r (do s <- (Ok (tree_from_raw_interval (From (0)))); do r <- tree_intersect true s (tree_from_raw_interval (UpTo (13))); iter_collect true (tree_interval_iter r)) [(RightOpen (0) (13))];
    same_set_r (do s <- (Ok (tree_from_raw_interval (From (0)))); do r <- tree_intersect true s (tree_from_raw_interval (UpFrom (13))); iter_collect true (tree_interval_iter r)) [(UpFrom (13))];
    same_set_r (do s <- (Ok (tree_from_raw_interval (From (0)))); do r <- tree_intersect true s (tree_from_raw_interval (To (13))); iter_collect true (tree_interval_iter r)) [(Closed (0) (13))];
    same_set_r (do s <- (Ok (tree_from_raw_interval (From (0)))); do r <- tree_intersect true s (tree_from_raw_interval (From (13))); iter_collect true (tree_interval_iter r)) [(From (13))];
    same_set_r (do s <- (Ok (tree_from_raw_interval (From (0)))); do r <- tree_intersect true s (tree_from_raw_interval (@Full Z)); iter_collect true (tree_interval_iter r)) [(From (0))] ] = true.
Proof. vm_compute. reflexivity. Qed.

(** src/test/tine_tree/intersect.rs: [full] *)
Example test_tree_intersect_full : forallb (fun b : bool => b)
  [ same_set_r (do s <- (Ok (tree_from_raw_interval (@Full Z))); do r <- tree_intersect true s (tree_from_raw_interval (@Empty Z)); iter_collect true (tree_interval_iter r)) [];
    same_set_r (do s <- (Ok (tree_from_raw_interval (@Full Z))); do r <- tree_intersect true s (tree_from_raw_interval (Point (0))); iter_collect true (tree_interval_iter r)) [(Point (0))];
    same_set_r (do s <- (Ok (tree_from_raw_interval (@Full Z))); do r <- tree_intersect true s (tree_from_raw_interval (Open (0) (3))); iter_collect true (tree_interval_iter r)) [(Open (0) (3))];
    same_set_r (do s <- (Ok (tree_from_raw_interval (@Full Z))); do r <- tree_intersect true s (tree_from_raw_interval (LeftOpen (0) (3))); iter_collect true (tree_interval_iter r)) [(LeftOpen (0) (3))];
    same_set_r (do s <- (Ok (tree_from_raw_interval (@Full Z))); do r <- tree_intersect true s (tree_from_raw_interval (RightOpen (0) (3))); iter_collect true (tree_interval_iter r)) [(RightOpen (0) (3))];
    same_set_r (do s <- (Ok (tree_from_raw_interval (@Full Z))); do r <- tree_intersect true s (tree_from_raw_interval (Closed (0) (3))); iter_collect true (tree_interval_iter r)) [(Closed (0) (3))];
    same_set_r (do s <- (Ok (tree_from_raw_interval (@Full Z))); do r <- tree_intersect true s (tree_from_raw_interval (UpTo (0))); iter_collect true (tree_interval_iter r)) [(UpTo (0))];
    same_set_r (do s <- (Ok (tree_from_raw_interval (@Full Z))); do r <- tree_intersect true s (tree_from_raw_interval (UpFrom (0))); iter_collect true (tree_interval_iter r)) [(UpFrom (0))];
    same_set_r (do s <- (Ok (tree_from_raw_interval (@Full Z))); do r <- tree_intersect true s (tree_from_raw_interval (To (0))); iter_collect true (tree_interval_iter r)) [(To (0))];
    same_set_r (do s <- (Ok (tree_from_raw_interval (@Full Z))); do r <- tree_intersect true s (tree_from_raw_interval (From (0))); iter_collect true (tree_interval_iter r)) [(From (0))];
    same_set_r (do s <- (Ok (tree_from_raw_interval (@Full Z))); do r <- tree_intersect true s (tree_from_raw_interval (@Full Z)); iter_collect true (tree_interval_iter r)) [(@Full Z)] ] = true.
Proof. vm_compute. reflexivity. Qed.

(** src/test/tine_tree/minus.rs: [empty] *)
Example test_tree_minus_empty : forallb (fun b : bool => b)
  [ same_set_r (do s <- (Ok (tree_from_raw_interval (@Empty Z))); do r <- tree_minus true s (tree_from_raw_interval (@Empty Z)); iter_collect true (tree_interval_iter r)) [];
    same_set_r (do s <- (Ok (tree_from_raw_interval (@Empty Z))); do r <- tree_minus true s (tree_from_raw_interval (Point (3))); iter_collect true (tree_interval_iter r)) [];
    same_set_r (do s <- (Ok (tree_from_raw_interval (@Empty Z))); do r <- tree_minus true s (tree_from_raw_interval (Open (0) (3))); iter_collect true (tree_interval_iter r)) [];
    same_set_r (do s <- (Ok (tree_from_raw_interval (@Empty Z))); do r <- tree_minus true s (tree_from_raw_interval (LeftOpen (0) (3))); iter_collect true (tree_interval_iter r)) [];
    same_set_r (do s <- (Ok (tree_from_raw_interval (@Empty Z))); do r <- tree_minus true s (tree_from_raw_interval (RightOpen (0) (3))); iter_collect true (tree_interval_iter r)) [];
    same_set_r (do s <- (Ok (tree_from_raw_interval (@Empty Z))); do r <- tree_minus true s (tree_from_raw_interval (Closed (0) (3))); iter_collect true (tree_interval_iter r)) [];
    same_set_r (do s <- (Ok (tree_from_raw_interval (@Empty Z))); do r <- tree_minus true s (tree_from_raw_interval (UpTo (3))); iter_collect true (tree_interval_iter r)) [];
    same_set_r (do s <- (Ok (tree_from_raw_interval (@Empty Z))); do r <- tree_minus true s (tree_from_raw_interval (UpFrom (3))); iter_collect true (tree_interval_iter r)) [];
    same_set_r (do s <- (Ok (tree_from_raw_interval (@Empty Z))); do r <- tree_minus true s (tree_from_raw_interval (To (3))); iter_collect true (tree_interval_iter r)) [];
    same_set_r (do s <- (Ok (tree_from_raw_interval (@Empty Z))); do r <- tree_minus true s (tree_from_raw_interval (From (3))); iter_collect true (tree_interval_iter r)) [];
    same_set_r (do s <- (Ok (tree_from_raw_interval (@Empty Z))); do r <- tree_minus true s (tree_from_raw_interval (@Full Z)); iter_collect true (tree_interval_iter r)) [] ] = true.
Proof. vm_compute. reflexivity. Qed.

(** src/test/tine_tree/minus.rs: [point_center] *)
Example test_tree_minus_point_center : forallb (fun b : bool => b)
  [ same_set_r (do s <- (Ok (tree_from_raw_interval (Point (3)))); do r <- tree_minus true s (tree_from_raw_interval (@Empty Z)); iter_collect true (tree_interval_iter r)) [(Point (3))];
    same_set_r (do s <- (Ok (tree_from_raw_interval (Point (3)))); do r <- tree_minus true s (tree_from_raw_interval (Point (3))); iter_collect true (tree_interval_iter r)) [];
    same_set_r (do s <- (Ok (tree_from_raw_interval (Point (3)))); do r <- tree_minus true s (tree_from_raw_interval (Open (0) (3))); iter_collect true (tree_interval_iter r)) [(Point (3))];
    same_set_r (do s <- (Ok (tree_from_raw_interval (Point (3)))); do r <- tree_minus true s (tree_from_raw_interval (LeftOpen (0) (3))); iter_collect true (tree_interval_iter r)) [];
    same_set_r (do s <- (Ok (tree_from_raw_interval (Point (3)))); do r <- tree_minus true s (tree_from_raw_interval (RightOpen (0) (3))); iter_collect true (tree_interval_iter r)) [(Point (3))];
    same_set_r (do s <- (Ok (tree_from_raw_interval (Point (3)))); do r <- tree_minus true s (tree_from_raw_interval (Closed (0) (3))); iter_collect true (tree_interval_iter r)) [];
    same_set_r (do s <- (Ok (tree_from_raw_interval (Point (3)))); do r <- tree_minus true s (tree_from_raw_interval (UpTo (3))); iter_collect true (tree_interval_iter r)) [(Point (3))];
    same_set_r (do s <- (Ok (tree_from_raw_interval (Point (3)))); do r <- tree_minus true s (tree_from_raw_interval (UpFrom (3))); iter_collect true (tree_interval_iter r)) [(Point (3))];
    same_set_r (do s <- (Ok (tree_from_raw_interval (Point (3)))); do r <- tree_minus true s (tree_from_raw_interval (To (3))); iter_collect true (tree_interval_iter r)) [];
    same_set_r (do s <- (Ok (tree_from_raw_interval (Point (3)))); do r <- tree_minus true s (tree_from_raw_interval (From (3))); iter_collect true (tree_interval_iter r)) [];
    same_set_r (do s <- (Ok (tree_from_raw_interval (Point (3)))); do r <- tree_minus true s (tree_from_raw_interval (@Full Z)); iter_collect true (tree_interval_iter r)) [] ] = true.
Proof. vm_compute. reflexivity. Qed.

(** src/test/tine_tree/minus.rs: [point_left] *)
Example test_tree_minus_point_left : forallb (fun b : bool => b)
  [ same_set_r (do s <- (Ok (tree_from_raw_interval (Point (3)))); do r <- tree_minus true s (tree_from_raw_interval (@Empty Z)); iter_collect true (tree_interval_iter r)) [(Point (3))];
    same_set_r (do s <- (Ok (tree_from_raw_interval (Point (3)))); do r <- tree_minus true s (tree_from_raw_interval (Point (-1))); iter_collect true (tree_interval_iter r)) [(Point (3))];
    same_set_r (do s <- (Ok (tree_from_raw_interval (Point (3)))); do r <- tree_minus true s (tree_from_raw_interval (Open (-3) (-1))); iter_collect true (tree_interval_iter r)) [(Point (3))];
    same_set_r (do s <- (Ok (tree_from_raw_interval (Point (3)))); do r <- tree_minus true s (tree_from_raw_interval (LeftOpen (-3) (-1))); iter_collect true (tree_interval_iter r)) [(Point (3))];
    same_set_r (do s <- (Ok (tree_from_raw_interval (Point (3)))); do r <- tree_minus true s (tree_from_raw_interval (RightOpen (-3) (-1))); iter_collect true (tree_interval_iter r)) [(Point (3))];
    same_set_r (do s <- (Ok (tree_from_raw_interval (Point (3)))); do r <- tree_minus true s (tree_from_raw_interval (Closed (-3) (-1))); iter_collect true (tree_interval_iter r)) [(Point (3))];
    same_set_r (do s <- (Ok (tree_from_raw_interval (Point (3)))); do r <- tree_minus true s (tree_from_raw_interval (UpTo (-3))); iter_collect true (tree_interval_iter r)) [(Point (3))];
    same_set_r (do s <- (Ok (tree_from_raw_interval (Point (3)))); do r <- tree_minus true s (tree_from_raw_interval (UpFrom (-3))); iter_collect true (tree_interval_iter r)) [];
    same_set_r (do s <- (Ok (tree_from_raw_interval (Point (3)))); do r <- tree_minus true s (tree_from_raw_interval (To (-3))); iter_collect true (tree_interval_iter r)) [(Point (3))];
    same_set_r (do s <- (Ok (tree_from_raw_interval (Point (3)))); do r <- tree_minus true s (tree_from_raw_interval (From (-3))); iter_collect true (tree_interval_iter r)) [];
    same_set_r (do s <- (Ok (tree_from_raw_interval (Point (3)))); do r <- tree_minus true s (tree_from_raw_interval (@Full Z)); iter_collect true (tree_interval_iter r)) [] ] = true.
Proof. vm_compute. reflexivity. Qed.

(** src/test/tine_tree/minus.rs: [point_right] *)
Example test_tree_minus_point_right : forallb (fun b : bool => b)
  [ same_set_r (do s <- (Ok (tree_from_raw_interval (Point (3)))); do r <- tree_minus true s (tree_from_raw_interval (@Empty Z)); iter_collect true (tree_interval_iter r)) [(Point (3))];
    same_set_r (do s <- (Ok (tree_from_raw_interval (Point (3)))); do r <- tree_minus true s (tree_from_raw_interval (Point (10))); iter_collect true (tree_interval_iter r)) [(Point (3))];
    same_set_r (do s <- (Ok (tree_from_raw_interval (Point (3)))); do r <- tree_minus true s (tree_from_raw_interval (Open (10) (13))); iter_collect true (tree_interval_iter r)) [(Point (3))];
    same_set_r (do s <- (Ok (tree_from_raw_interval (Point (3)))); do r <- tree_minus true s (tree_from_raw_interval (LeftOpen (10) (13))); iter_collect true (tree_interval_iter r)) [(Point (3))];
    same_set_r (do s <- (Ok (tree_from_raw_interval (Point (3)))); do r <- tree_minus true s (tree_from_raw_interval (RightOpen (10) (13))); iter_collect true (tree_interval_iter r)) [(Point (3))];
    same_set_r (do s <- (Ok (tree_from_raw_interval (Point (3)))); do r <- tree_minus true s (tree_from_raw_interval (Closed (10) (13))); iter_collect true (tree_interval_iter r)) [(Point (3))];
    same_set_r (do s <- (Ok (tree_from_raw_interval (Point (3)))); do r <- tree_minus true s (tree_from_raw_interval (UpTo (13))); iter_collect true (tree_interval_iter r)) [];
    same_set_r (do s <- (Ok (tree_from_raw_interval (Point (3)))); do r <- tree_minus true s (tree_from_raw_interval (UpFrom (13))); iter_collect true (tree_interval_iter r)) [(Point (3))];
    same_set_r (do s <- (Ok (tree_from_raw_interval (Point (3)))); do r <- tree_minus true s (tree_from_raw_interval (To (13))); iter_collect true (tree_interval_iter r)) [];
    same_set_r (do s <- (Ok (tree_from_raw_interval (Point (3)))); do r <- tree_minus true s (tree_from_raw_interval (From (13))); iter_collect true (tree_interval_iter r)) [(Point (3))];
    same_set_r (do s <- (Ok (tree_from_raw_interval (Point (3)))); do r <- tree_minus true s (tree_from_raw_interval (@Full Z)); iter_collect true (tree_interval_iter r)) [] ] = true.
Proof. vm_compute. reflexivity. Qed.

(** src/test/tine_tree/minus.rs: [open_center] *)
Example test_tree_minus_open_center : forallb (fun b : bool => b)
  [ same_set_r (do s <- (Ok (tree_from_raw_interval (Open (0) (3)))); do r <- tree_minus true s (tree_from_raw_interval (@Empty Z)); iter_collect true (tree_interval_iter r)) [(Open (0) (3))];
    same_set_r (do s <- (Ok (tree_from_raw_interval (Open (0) (3)))); do r <- tree_minus true s (tree_from_raw_interval (Point (2))); iter_collect true (tree_interval_iter r)) [(Open (0) (2)); (Open (2) (3))];
    same_set_r (do s <- (Ok (tree_from_raw_interval (Open (0) (3)))); do r <- tree_minus true s (tree_from_raw_interval (Open (0) (3))); iter_collect true (tree_interval_iter r)) [];
    same_set_r (do s <- (Ok (tree_from_raw_interval (Open (0) (3)))); do r <- tree_minus true s (tree_from_raw_interval (LeftOpen (0) (3))); iter_collect true (tree_interval_iter r)) [];
    same_set_r (do s <- (Ok (tree_from_raw_interval (Open (0) (3)))); do r <- tree_minus true s (tree_from_raw_interval (RightOpen (0) (3))); iter_collect true (tree_interval_iter r)) [];
    same_set_r (do s <- (Ok (tree_from_raw_interval (Open (0) (3)))); do r <- tree_minus true s (tree_from_raw_interval (Closed (0) (3))); iter_collect true (tree_interval_iter r)) [];
    same_set_r (do s <- (Ok (tree_from_raw_interval (Open (0) (3)))); do r <- tree_minus true s (tree_from_raw_interval (UpTo (2))); iter_collect true (tree_interval_iter r)) [(RightOpen (2) (3))];
    same_set_r (do s <- (Ok (tree_from_raw_interval (Open (0) (3)))); do r <- tree_minus true s (tree_from_raw_interval (UpFrom (2))); iter_collect true (tree_interval_iter r)) [(LeftOpen (0) (2))];
    same_set_r (do s <- (Ok (tree_from_raw_interval (Open (0) (3)))); do r <- tree_minus true s (tree_from_raw_interval (To (2))); iter_collect true (tree_interval_iter r)) [(Open (2) (3))];
    same_set_r (do s <- (Ok (tree_from_raw_interval (Open (0) (3)))); do r <- tree_minus true s (tree_from_raw_interval (From (2))); iter_collect true (tree_interval_iter r)) [(Open (0) (2))];
    same_set_r (do s <- (Ok (tree_from_raw_interval (Open (0) (3)))); do r <- tree_minus true s (tree_from_raw_interval (@Full Z)); iter_collect true (tree_interval_iter r)) [] ] = true.
Proof. vm_compute. reflexivity. Qed.

(** src/test/tine_tree/minus.rs: [open_left] *)
Example test_tree_minus_open_left : forallb (fun b : bool => b)
  [ same_set_r (do s <- (Ok (tree_from_raw_interval (Open (0) (3)))); do r <- tree_minus true s (tree_from_raw_interval (@Empty Z)); iter_collect true (tree_interval_iter r)) [(Open (0) (3))];
    same_set_r (do s <- (Ok (tree_from_raw_interval (Open (0) (3)))); do r <- tree_minus true s (tree_from_raw_interval (Point (-3))); iter_collect true (tree_interval_iter r)) [(Open (0) (3))];
    same_set_r (do s <- (Ok (tree_from_raw_interval (Open (0) (3)))); do r <- tree_minus true s (tree_from_raw_interval (Open (-3) (-1))); iter_collect true (tree_interval_iter r)) [(Open (0) (3))];
    same_set_r (do s <- (Ok (tree_from_raw_interval (Open (0) (3)))); do r <- tree_minus true s (tree_from_raw_interval (LeftOpen (-3) (-1))); iter_collect true (tree_interval_iter r)) [(Open (0) (3))];
    same_set_r (do s <- (Ok (tree_from_raw_interval (Open (0) (3)))); do r <- tree_minus true s (tree_from_raw_interval (RightOpen (-3) (-1))); iter_collect true (tree_interval_iter r)) [(Open (0) (3))];
    same_set_r (do s <- (Ok (tree_from_raw_interval (Open (0) (3)))); do r <- tree_minus true s (tree_from_raw_interval (Closed (-3) (-1))); iter_collect true (tree_interval_iter r)) [(Open (0) (3))];
    same_set_r (do s <- (Ok (tree_from_raw_interval (Open (0) (3)))); do r <- tree_minus true s (tree_from_raw_interval (UpTo (-3))); iter_collect true (tree_interval_iter r)) [(Open (0) (3))];
    same_set_r (do s <- (Ok (tree_from_raw_interval (Open (0) (3)))); do r <- tree_minus true s (tree_from_raw_interval (UpFrom (-3))); iter_collect true (tree_interval_iter r)) [];
    same_set_r (do s <- (Ok (tree_from_raw_interval (Open (0) (3)))); do r <- tree_minus true s (tree_from_raw_interval (To (-3))); iter_collect true (tree_interval_iter r)) [(Open (0) (3))];
    same_set_r (do s <- (Ok (tree_from_raw_interval (Open (0) (3)))); do r <- tree_minus true s (tree_from_raw_interval (From (-3))); iter_collect true (tree_interval_iter r)) [];
    same_set_r (do s <- (Ok (tree_from_raw_interval (Open (0) (3)))); do r <- tree_minus true s (tree_from_raw_interval (@Full Z)); iter_collect true (tree_interval_iter r)) [] ] = true.
Proof. vm_compute. reflexivity. Qed.

(** src/test/tine_tree/minus.rs: [open_right] *)
Example test_tree_minus_open_right : forallb (fun b : bool => b)
  [ same_set_r (do s <- (Ok (tree_from_raw_interval (Open (0) (3)))); do r <- tree_minus true s (tree_from_raw_interval (@Empty Z)); iter_collect true (tree_interval_iter r)) [(Open (0) (3))];
    same_set_r (do s <- (Ok (tree_from_raw_interval (Open (0) (3)))); do r <- tree_minus true s (tree_from_raw_interval (Point (13))); iter_collect true (tree_interval_iter r)) [(Open (0) (3))];
    same_set_r (do s <- (Ok (tree_from_raw_interval (Open (0) (3)))); do r <- tree_minus true s (tree_from_raw_interval (Open (10) (13))); iter_collect true (tree_interval_iter r)) [(Open (0) (3))];
    same_set_r (do s <- (Ok (tree_from_raw_interval (Open (0) (3)))); do r <- tree_minus true s (tree_from_raw_interval (LeftOpen (10) (13))); iter_collect true (tree_interval_iter r)) [(Open (0) (3))];
    same_set_r (do s <- (Ok (tree_from_raw_interval (Open (0) (3)))); do r <- tree_minus true s (tree_from_raw_interval (RightOpen (10) (13))); iter_collect true (tree_interval_iter r)) [(Open (0) (3))];
    same_set_r (do s <- (Ok (tree_from_raw_interval (Open (0) (3)))); do r <- tree_minus true s (tree_from_raw_interval (Closed (10) (13))); iter_collect true (tree_interval_iter r)) [(Open (0) (3))];
    same_set_r (do s <- (Ok (tree_from_raw_interval (Open (0) (3)))); do r <- tree_minus true s (tree_from_raw_interval (UpTo (13))); iter_collect true (tree_interval_iter r)) [];
    same_set_r (do s <- (Ok (tree_from_raw_interval (Open (0) (3)))); do r <- tree_minus true s (tree_from_raw_interval (UpFrom (13))); iter_collect true (tree_interval_iter r)) [(Open (0) (3))];
    same_set_r (do s <- (Ok (tree_from_raw_interval (Open (0) (3)))); do r <- tree_minus true s (tree_from_raw_interval (To (13))); iter_collect true (tree_interval_iter r)) [];
    same_set_r (do s <- (Ok (tree_from_raw_interval (Open (0) (3)))); do r <- tree_minus true s (tree_from_raw_interval (From (13))); iter_collect true (tree_interval_iter r)) [(Open (0) (3))];
    same_set_r (do s <- (Ok (tree_from_raw_interval (Open (0) (3)))); do r <- tree_minus true s (tree_from_raw_interval (@Full Z)); iter_collect true (tree_interval_iter r)) [] ] = true.
Proof. vm_compute. reflexivity. Qed.

(** src/test/tine_tree/minus.rs: [left_open_center] *)
Example test_tree_minus_left_open_center : forallb (fun b : bool => b)
  [ same_set_r (do s <- (Ok (tree_from_raw_interval (LeftOpen (0) (3)))); do r <- tree_minus true s (tree_from_raw_interval (@Empty Z)); iter_collect true (tree_interval_iter r)) [(LeftOpen (0) (3))];
    same_set_r (do s <- (Ok (tree_from_raw_interval (LeftOpen (0) (3)))); do r <- tree_minus true s (tree_from_raw_interval (Point (2))); iter_collect true (tree_interval_iter r)) [(Open (0) (2)); (LeftOpen (2) (3))];
    same_set_r (do s <- (Ok (tree_from_raw_interval (LeftOpen (0) (3)))); do r <- tree_minus true s (tree_from_raw_interval (Open (0) (3))); iter_collect true (tree_interval_iter r)) [(Point (3))];
    same_set_r (do s <- (Ok (tree_from_raw_interval (LeftOpen (0) (3)))); do r <- tree_minus true s (tree_from_raw_interval (LeftOpen (0) (3))); iter_collect true (tree_interval_iter r)) [];
    same_set_r (do s <- (Ok (tree_from_raw_interval (LeftOpen (0) (3)))); do r <- tree_minus true s (tree_from_raw_interval (RightOpen (0) (3))); iter_collect true (tree_interval_iter r)) [(Point (3))];
    same_set_r (do s <- (Ok (tree_from_raw_interval (LeftOpen (0) (3)))); do r <- tree_minus true s (tree_from_raw_interval (Closed (0) (3))); iter_collect true (tree_interval_iter r)) [];
    same_set_r (do s <- (Ok (tree_from_raw_interval (LeftOpen (0) (3)))); do r <- tree_minus true s (tree_from_raw_interval (UpTo (2))); iter_collect true (tree_interval_iter r)) [(Closed (2) (3))];
    same_set_r (do s <- (Ok (tree_from_raw_interval (LeftOpen (0) (3)))); do r <- tree_minus true s (tree_from_raw_interval (UpFrom (2))); iter_collect true (tree_interval_iter r)) [(LeftOpen (0) (2))];
    same_set_r (do s <- (Ok (tree_from_raw_interval (LeftOpen (0) (3)))); do r <- tree_minus true s (tree_from_raw_interval (To (2))); iter_collect true (tree_interval_iter r)) [(LeftOpen (2) (3))];
    same_set_r (do s <- (Ok (tree_from_raw_interval (LeftOpen (0) (3)))); do r <- tree_minus true s (tree_from_raw_interval (From (2))); iter_collect true (tree_interval_iter r)) [(Open (0) (2))];
    same_set_r (do s <- (Ok (tree_from_raw_interval (LeftOpen (0) (3)))); do r <- tree_minus true s (tree_from_raw_interval (@Full Z)); iter_collect true (tree_interval_iter r)) [] ] = true.
Proof. vm_compute. reflexivity. Qed.

(** src/test/tine_tree/minus.rs: [left_open_left] *)
Example test_tree_minus_left_open_left : forallb (fun b : bool => b)
  [ same_set_r (do s <- (Ok (tree_from_raw_interval (LeftOpen (0) (3)))); do r <- tree_minus true s (tree_from_raw_interval (@Empty Z)); iter_collect true (tree_interval_iter r)) [(LeftOpen (0) (3))];
    same_set_r (do s <- (Ok (tree_from_raw_interval (LeftOpen (0) (3)))); do r <- tree_minus true s (tree_from_raw_interval (Point (-3))); iter_collect true (tree_interval_iter r)) [(LeftOpen (0) (3))];
    same_set_r (do s <- (Ok (tree_from_raw_interval (LeftOpen (0) (3)))); do r <- tree_minus true s (tree_from_raw_interval (Open (-3) (-1))); iter_collect true (tree_interval_iter r)) [(LeftOpen (0) (3))];
    same_set_r (do s <- (Ok (tree_from_raw_interval (LeftOpen (0) (3)))); do r <- tree_minus true s (tree_from_raw_interval (LeftOpen (-3) (-1))); iter_collect true (tree_interval_iter r)) [(LeftOpen (0) (3))];
    same_set_r (do s <- (Ok (tree_from_raw_interval (LeftOpen (0) (3)))); do r <- tree_minus true s (tree_from_raw_interval (RightOpen (-3) (-1))); iter_collect true (tree_interval_iter r)) [(LeftOpen (0) (3))];
    same_set_r (do s <- (Ok (tree_from_raw_interval (LeftOpen (0) (3)))); do r <- tree_minus true s (tree_from_raw_interval (Closed (-3) (-1))); iter_collect true (tree_interval_iter r)) [(LeftOpen (0) (3))];
    same_set_r (do s <- (Ok (tree_from_raw_interval (LeftOpen (0) (3)))); do r <- tree_minus true s (tree_from_raw_interval (UpTo (-3))); iter_collect true (tree_interval_iter r)) [(LeftOpen (0) (3))];
    same_set_r (do s <- (Ok (tree_from_raw_interval (LeftOpen (0) (3)))); do r <- tree_minus true s (tree_from_raw_interval (UpFrom (-3))); iter_collect true (tree_interval_iter r)) [];
    same_set_r (do s <- (Ok (tree_from_raw_interval (LeftOpen (0) (3)))); do r <- tree_minus true s (tree_from_raw_interval (To (-3))); iter_collect true (tree_interval_iter r)) [(LeftOpen (0) (3))];
    same_set_r (do s <- (Ok (tree_from_raw_interval (LeftOpen (0) (3)))); do r <- tree_minus true s (tree_from_raw_interval (From (-3))); iter_collect true (tree_interval_iter r)) [];
    same_set_r (do s <- (Ok (tree_from_raw_interval (LeftOpen (0) (3)))); do r <- tree_minus true s (tree_from_raw_interval (@Full Z)); iter_collect true (tree_interval_iter r)) [] ] = true.
Proof. vm_compute. reflexivity. Qed.

(** src/test/tine_tree/minus.rs: [left_open_right] *)
Example test_tree_minus_left_open_right : forallb (fun b : bool => b)
  [ same_set_r (do s <- (Ok (tree_from_raw_interval (LeftOpen (0) (3)))); do r <- tree_minus true s (tree_from_raw_interval (@Empty Z)); iter_collect true (tree_interval_iter r)) [(LeftOpen (0) (3))];
    same_set_r (do s <- (Ok (tree_from_raw_interval (LeftOpen (0) (3)))); do r <- tree_minus true s (tree_from_raw_interval (Point (13))); iter_collect true (tree_interval_iter r)) [(LeftOpen (0) (3))];
    same_set_r (do s <- (Ok (tree_from_raw_interval (LeftOpen (0) (3)))); do r <- tree_minus true s (tree_from_raw_interval (Open (10) (13))); iter_collect true (tree_interval_iter r)) [(LeftOpen (0) (3))];
    same_set_r (do s <- (Ok (tree_from_raw_interval (LeftOpen (0) (3)))); do r <- tree_minus true s (tree_from_raw_interval (LeftOpen (10) (13))); iter_collect true (tree_interval_iter r)) [(LeftOpen (0) (3))];
    same_set_r (do s <- (Ok (tree_from_raw_interval (LeftOpen (0) (3)))); do r <- tree_minus true s (tree_from_raw_interval (RightOpen (10) (13))); iter_collect true (tree_interval_iter r)) [(LeftOpen (0) (3))];
    same_set_r (do s <- (Ok (tree_from_raw_interval (LeftOpen (0) (3)))); do r <- tree_minus true s (tree_from_raw_interval (Closed (10) (13))); iter_collect true (tree_interval_iter r)) [(LeftOpen (0) (3))];
    same_set_r (do s <- (Ok (tree_from_raw_interval (LeftOpen (0) (3)))); do r <- tree_minus true s (tree_from_raw_interval (UpTo (13))); iter_collect true (tree_interval_iter r)) [];
    same_set_r (do s <- (Ok (tree_from_raw_interval (LeftOpen (0) (3)))); do r <- tree_minus true s (tree_from_raw_interval (UpFrom (13))); iter_collect true (tree_interval_iter r)) [(LeftOpen (0) (3))];
    same_set_r (do s <- (Ok (tree_from_raw_interval (LeftOpen (0) (3)))); do r <- tree_minus true s (tree_from_raw_interval (To (13))); iter_collect true (tree_interval_iter r)) [];
    same_set_r (do s <- (Ok (tree_from_raw_interval (LeftOpen (0) (3)))); do r <- tree_minus true s (tree_from_raw_interval (From (13))); iter_collect true (tree_interval_iter r)) [(LeftOpen (0) (3))];
    same_set_r (do s <- (Ok (tree_from_raw_interval (LeftOpen (0) (3)))); do r <- tree_minus true s (tree_from_raw_interval (@Full Z)); iter_collect true (tree_interval_iter r)) [] ] = true.
Proof. vm_compute. reflexivity. Qed.

(** src/test/tine_tree/minus.rs: [right_open_center] *)
Example test_tree_minus_right_open_center : forallb (fun b : bool => b)
  [ same_set_r (do s <- (Ok (tree_from_raw_interval (RightOpen (0) (3)))); do r <- tree_minus true s (tree_from_raw_interval (@Empty Z)); iter_collect true (tree_interval_iter r)) [(RightOpen (0) (3))];
    same_set_r (do s <- (Ok (tree_from_raw_interval (RightOpen (0) (3)))); do r <- tree_minus true s (tree_from_raw_interval (Point (2))); iter_collect true (tree_interval_iter r)) [(RightOpen (0) (2)); (Open (2) (3))];
    same_set_r (do s <- (Ok (tree_from_raw_interval (RightOpen (0) (3)))); do r <- tree_minus true s (tree_from_raw_interval (Open (0) (3))); iter_collect true (tree_interval_iter r)) [(Point (0))];
    same_set_r (do s <- (Ok (tree_from_raw_interval (RightOpen (0) (3)))); do r <- tree_minus true s (tree_from_raw_interval (LeftOpen (0) (3))); iter_collect true (tree_interval_iter r)) [(Point (0))];
    same_set_r (do s <- (Ok (tree_from_raw_interval (RightOpen (0) (3)))); do r <- tree_minus true s (tree_from_raw_interval (RightOpen (0) (3))); iter_collect true (tree_interval_iter r)) [];
    same_set_r (do s <- (Ok (tree_from_raw_interval (RightOpen (0) (3)))); do r <- tree_minus true s (tree_from_raw_interval (Closed (0) (3))); iter_collect true (tree_interval_iter r)) [];
    same_set_r (do s <- (Ok (tree_from_raw_interval (RightOpen (0) (3)))); do r <- tree_minus true s (tree_from_raw_interval (UpTo (2))); iter_collect true (tree_interval_iter r)) [(RightOpen (2) (3))];
    same_set_r (do s <- (Ok (tree_from_raw_interval (RightOpen (0) (3)))); do r <- tree_minus true s (tree_from_raw_interval (UpFrom (2))); iter_collect true (tree_interval_iter r)) [(Closed (0) (2))];
    same_set_r (do s <- (Ok (tree_from_raw_interval (RightOpen (0) (3)))); do r <- tree_minus true s (tree_from_raw_interval (To (2))); iter_collect true (tree_interval_iter r)) [(Open (2) (3))];
    same_set_r (do s <- (Ok (tree_from_raw_interval (RightOpen (0) (3)))); do r <- tree_minus true s (tree_from_raw_interval (From (2))); iter_collect true (tree_interval_iter r)) [(RightOpen (0) (2))];
    same_set_r (do s <- (Ok (tree_from_raw_interval (RightOpen (0) (3)))); do r <- tree_minus true s (tree_from_raw_interval (@Full Z)); iter_collect true (tree_interval_iter r)) [] ] = true.
Proof. vm_compute. reflexivity. Qed.

(** src/test/tine_tree/minus.rs: [right_open_left] *)
Example test_tree_minus_right_open_left : forallb (fun b : bool => b)
  [ same_set_r (do s <- (Ok (tree_from_raw_interval (RightOpen (0) (3)))); do r <- tree_minus true s (tree_from_raw_interval (@Empty Z)); iter_collect true (tree_interval_iter r)) [(RightOpen (0) (3))];
    same_set_r (do s <- (Ok (tree_from_raw_interval (RightOpen (0) (3)))); do r <- tree_minus true s (tree_from_raw_interval (Point (-3))); iter_collect true (tree_interval_iter r)) [(RightOpen (0) (3))];
    same_set_r (do s <- (Ok (tree_from_raw_interval (RightOpen (0) (3)))); do r <- tree_minus true s (tree_from_raw_interval (Open (-3) (-1))); iter_collect true (tree_interval_iter r)) [(RightOpen (0) (3))];
    same_set_r (do s <- (Ok (tree_from_raw_interval (RightOpen (0) (3)))); do r <- tree_minus true s (tree_from_raw_interval (LeftOpen (-3) (-1))); iter_collect true (tree_interval_iter r)) [(RightOpen (0) (3))];
    same_set_r (do s <- (Ok (tree_from_raw_interval (RightOpen (0) (3)))); do r <- tree_minus true s (tree_from_raw_interval (RightOpen (-3) (-1))); iter_collect true (tree_interval_iter r)) [(RightOpen (0) (3))];
    same_set_r (do s <- (Ok (tree_from_raw_interval (RightOpen (0) (3)))); do r <- tree_minus true s (tree_from_raw_interval (Closed (-3) (-1))); iter_collect true (tree_interval_iter r)) [(RightOpen (0) (3))];
    same_set_r (do s <- (Ok (tree_from_raw_interval (RightOpen (0) (3)))); do r <- tree_minus true s (tree_from_raw_interval (UpTo (-3))); iter_collect true (tree_interval_iter r)) [(RightOpen (0) (3))];
    same_set_r (do s <- (Ok (tree_from_raw_interval (RightOpen (0) (3)))); do r <- tree_minus true s (tree_from_raw_interval (UpFrom (-3))); iter_collect true (tree_interval_iter r)) [];
    same_set_r (do s <- (Ok (tree_from_raw_interval (RightOpen (0) (3)))); do r <- tree_minus true s (tree_from_raw_interval (To (-3))); iter_collect true (tree_interval_iter r)) [(RightOpen (0) (3))];
    same_set_r (do s <- (Ok (tree_from_raw_interval (RightOpen (0) (3)))); do r <- tree_minus true s (tree_from_raw_interval (From (-3))); iter_collect true (tree_interval_iter r)) [];
    same_set_r (do s <- (Ok (tree_from_raw_interval (RightOpen (0) (3)))); do r <- tree_minus true s (tree_from_raw_interval (@Full Z)); iter_collect true (tree_interval_iter r)) [] ] = true.
Proof. vm_compute. reflexivity. Qed.

(** src/test/tine_tree/minus.rs: [right_open_right] *)
Example test_tree_minus_right_open_right : forallb (fun b : bool => b)
  [ same_set_r (do s <- (Ok (tree_from_raw_interval (RightOpen (0) (3)))); do r <- tree_minus true s (tree_from_raw_interval (@Empty Z)); iter_collect true (tree_interval_iter r)) [(RightOpen (0) (3))];
    same_set_r (do s <- (Ok (tree_from_raw_interval (RightOpen (0) (3)))); do r <- tree_minus true s (tree_from_raw_interval (Point (13))); iter_collect true (tree_interval_iter r)) [(RightOpen (0) (3))];
    same_set_r (do s <- (Ok (tree_from_raw_interval (RightOpen (0) (3)))); do r <- tree_minus true s (tree_from_raw_interval (Open (10) (13))); iter_collect true (tree_interval_iter r)) [(RightOpen (0) (3))];
    same_set_r (do s <- (Ok (tree_from_raw_interval (RightOpen (0) (3)))); do r <- tree_minus true s (tree_from_raw_interval (LeftOpen (10) (13))); iter_collect true (tree_interval_iter r)) [(RightOpen (0) (3))];
    same_set_r (do s <- (Ok (tree_from_raw_interval (RightOpen (0) (3)))); do r <- tree_minus true s (tree_from_raw_interval (RightOpen (10) (13))); iter_collect true (tree_interval_iter r)) [(RightOpen (0) (3))];
    same_set_r (do s <- (Ok (tree_from_raw_interval (RightOpen (0) (3)))); do r <- tree_minus true s (tree_from_raw_interval (Closed (10) (13))); iter_collect true (tree_interval_iter r)) [(RightOpen (0) (3))];
    same_set_r (do s <- (Ok (tree_from_raw_interval (RightOpen (0) (3)))); do r <- tree_minus true s (tree_from_raw_interval (UpTo (13))); iter_collect true (tree_interval_iter r)) [];
    same_set_r (do s <- (Ok (tree_from_raw_interval (RightOpen (0) (3)))); do r <- tree_minus true s (tree_from_raw_interval (UpFrom (13))); iter_collect true (tree_interval_iter r)) [(RightOpen (0) (3))];
    same_set_r (do s <- (Ok (tree_from_raw_interval (RightOpen (0) (3)))); do r <- tree_minus true s (tree_from_raw_interval (To (13))); iter_collect true (tree_interval_iter r)) [];
    same_set_r (do s <- (Ok (tree_from_raw_interval (RightOpen (0) (3)))); do r <- tree_minus true s (tree_from_raw_interval (From (13))); iter_collect true (tree_interval_iter r)) [(RightOpen (0) (3))];
    same_set_r (do s <- (Ok (tree_from_raw_interval (RightOpen (0) (3)))); do r <- tree_minus true s (tree_from_raw_interval (@Full Z)); iter_collect true (tree_interval_iter r)) [] ] = true.
Proof. vm_compute. reflexivity. Qed.

(** src/test/tine_tree/minus.rs: [closed_center] *)
Example test_tree_minus_closed_center : forallb (fun b : bool => b)
  [ same_set_r (do s <- (Ok (tree_from_raw_interval (Closed (0) (3)))); do r <- tree_minus true s (tree_from_raw_interval (@Empty Z)); iter_collect true (tree_interval_iter r)) [(Closed (0) (3))];
    same_set_r (do s <- (Ok (tree_from_raw_interval (Closed (0) (3)))); do r <- tree_minus true s (tree_from_raw_interval (Point (2))); iter_collect true (tree_interval_iter r)) [(RightOpen (0) (2)); (LeftOpen (2) (3))];
    same_set_r (do s <- (Ok (tree_from_raw_interval (Closed (0) (3)))); do r <- tree_minus true s (tree_from_raw_interval (Open (0) (3))); iter_collect true (tree_interval_iter r)) [(Point (0)); (Point (3))];
    same_set_r (do s <- (Ok (tree_from_raw_interval (Closed (0) (3)))); do r <- tree_minus true s (tree_from_raw_interval (LeftOpen (0) (3))); iter_collect true (tree_interval_iter r)) [(Point (0))];
    same_set_r (do s <- (Ok (tree_from_raw_interval (Closed (0) (3)))); do r <- tree_minus true s (tree_from_raw_interval (RightOpen (0) (3))); iter_collect true (tree_interval_iter r)) [(Point (3))];
    same_set_r (do s <- (Ok (tree_from_raw_interval (Closed (0) (3)))); do r <- tree_minus true s (tree_from_raw_interval (Closed (0) (3))); iter_collect true (tree_interval_iter r)) [];
    same_set_r (do s <- (Ok (tree_from_raw_interval (Closed (0) (3)))); do r <- tree_minus true s (tree_from_raw_interval (UpTo (2))); iter_collect true (tree_interval_iter r)) [(Closed (2) (3))];
    same_set_r (do s <- (Ok (tree_from_raw_interval (Closed (0) (3)))); do r <- tree_minus true s (tree_from_raw_interval (UpFrom (2))); iter_collect true (tree_interval_iter r)) [(Closed (0) (2))];
    same_set_r (do s <- (Ok (tree_from_raw_interval (Closed (0) (3)))); do r <- tree_minus true s (tree_from_raw_interval (To (2))); iter_collect true (tree_interval_iter r)) [(LeftOpen (2) (3))];
    same_set_r (do s <- (Ok (tree_from_raw_interval (Closed (0) (3)))); do r <- tree_minus true s (tree_from_raw_interval (From (2))); iter_collect true (tree_interval_iter r)) [(RightOpen (0) (2))];
    same_set_r (do s <- (Ok (tree_from_raw_interval (Closed (0) (3)))); do r <- tree_minus true s (tree_from_raw_interval (@Full Z)); iter_collect true (tree_interval_iter r)) [] ] = true.
Proof. vm_compute. reflexivity. Qed.

(** src/test/tine_tree/minus.rs: [closed_left] *)
Example test_tree_minus_closed_left : forallb (fun b : bool => b)
  [ same_set_r (do s <- (Ok (tree_from_raw_interval (Closed (0) (3)))); do r <- tree_minus true s (tree_from_raw_interval (@Empty Z)); iter_collect true (tree_interval_iter r)) [(Closed (0) (3))];
    same_set_r (do s <- (Ok (tree_from_raw_interval (Closed (0) (3)))); do r <- tree_minus true s (tree_from_raw_interval (Point (-3))); iter_collect true (tree_interval_iter r)) [(Closed (0) (3))];
    same_set_r (do s <- (Ok (tree_from_raw_interval (Closed (0) (3)))); do r <- tree_minus true s (tree_from_raw_interval (Open (-3) (-1))); iter_collect true (tree_interval_iter r)) [(Closed (0) (3))];
    same_set_r (do s <- (Ok (tree_from_raw_interval (Closed (0) (3)))); do r <- tree_minus true s (tree_from_raw_interval (LeftOpen (-3) (-1))); iter_collect true (tree_interval_iter r)) [(Closed (0) (3))];
    same_set_r (do s <- (Ok (tree_from_raw_interval (Closed (0) (3)))); do r <- tree_minus true s (tree_from_raw_interval (RightOpen (-3) (-1))); iter_collect true (tree_interval_iter r)) [(Closed (0) (3))];
    same_set_r (do s <- (Ok (tree_from_raw_interval (Closed (0) (3)))); do r <- tree_minus true s (tree_from_raw_interval (Closed (-3) (-1))); iter_collect true (tree_interval_iter r)) [(Closed (0) (3))];
    same_set_r (do s <- (Ok (tree_from_raw_interval (Closed (0) (3)))); do r <- tree_minus true s (tree_from_raw_interval (UpTo (-3))); iter_collect true (tree_interval_iter r)) [(Closed (0) (3))];
    same_set_r (do s <- (Ok (tree_from_raw_interval (Closed (0) (3)))); do r <- tree_minus true s (tree_from_raw_interval (UpFrom (-3))); iter_collect true (tree_interval_iter r)) [];
    same_set_r (do s <- (Ok (tree_from_raw_interval (Closed (0) (3)))); do r <- tree_minus true s (tree_from_raw_interval (To (-3))); iter_collect true (tree_interval_iter r)) [(Closed (0) (3))];
    same_set_r (do s <- (Ok (tree_from_raw_interval (Closed (0) (3)))); do r <- tree_minus true s (tree_from_raw_interval (From (-3))); iter_collect true (tree_interval_iter r)) [];
    same_set_r (do s <- (Ok (tree_from_raw_interval (Closed (0) (3)))); do r <- tree_minus true s (tree_from_raw_interval (@Full Z)); iter_collect true (tree_interval_iter r)) [] ] = true.
Proof. vm_compute. reflexivity. Qed.

(** src/test/tine_tree/minus.rs: [closed_right] *)
Example test_tree_minus_closed_right : forallb (fun b : bool => b)
  [ same_set_r (do s <- (Ok (tree_from_raw_interval (Closed (0) (3)))); do r <- tree_minus true s (tree_from_raw_interval (@Empty Z)); iter_collect true (tree_interval_iter r)) [(Closed (0) (3))];
    same_set_r (do s <- (Ok (tree_from_raw_interval (Closed (0) (3)))); do r <- tree_minus true s (tree_from_raw_interval (Point (13))); iter_collect true (tree_interval_iter r)) [(Closed (0) (3))];
    same_set_r (do s <- (Ok (tree_from_raw_interval (Closed (0) (3)))); do r <- tree_minus true s (tree_from_raw_interval (Open (10) (13))); iter_collect true (tree_interval_iter r)) [(Closed (0) (3))];
    same_set_r (do s <- (Ok (tree_from_raw_interval (Closed (0) (3)))); do r <- tree_minus true s (tree_from_raw_interval (LeftOpen (10) (13))); iter_collect true (tree_interval_iter r)) [(Closed (0) (3))];
    same_set_r (do s <- (Ok (tree_from_raw_interval (Closed (0) (3)))); do r <- tree_minus true s (tree_from_raw_interval (RightOpen (10) (13))); iter_collect true (tree_interval_iter r)) [(Closed (0) (3))];
    same_set_r (do s <- (Ok (tree_from_raw_interval (Closed (0) (3)))); do r <- tree_minus true s (tree_from_raw_interval (Closed (10) (13))); iter_collect true (tree_interval_iter r)) [(Closed (0) (3))];
    same_set_r (do s <- (Ok (tree_from_raw_interval (Closed (0) (3)))); do r <- tree_minus true s (tree_from_raw_interval (UpTo (13))); iter_collect true (tree_interval_iter r)) [];
    same_set_r (do s <- (Ok (tree_from_raw_interval (Closed (0) (3)))); do r <- tree_minus true s (tree_from_raw_interval (UpFrom (13))); iter_collect true (tree_interval_iter r)) [(Closed (0) (3))];
    same_set_r (do s <- (Ok (tree_from_raw_interval (Closed (0) (3)))); do r <- tree_minus true s (tree_from_raw_interval (To (13))); iter_collect true (tree_interval_iter r)) [];
    same_set_r (do s <- (Ok (tree_from_raw_interval (Closed (0) (3)))); do r <- tree_minus true s (tree_from_raw_interval (From (13))); iter_collect true (tree_interval_iter r)) [(Closed (0) (3))];
    same_set_r (do s <- (Ok (tree_from_raw_interval (Closed (0) (3)))); do r <- tree_minus true s (tree_from_raw_interval (@Full Z)); iter_collect true (tree_interval_iter r)) [] ] = true.
Proof. vm_compute. reflexivity. Qed.

(** src/test/tine_tree/minus.rs: [up_to_center] *)
Example test_tree_minus_up_to_center : forallb (fun b : bool => b)
  [ same_set_r (do s <- (Ok (tree_from_raw_interval (UpTo (3)))); do r <- tree_minus true s (tree_from_raw_interval (@Empty Z)); iter_collect true (tree_interval_iter r)) [(UpTo (3))];
    same_set_r (do s <- (Ok (tree_from_raw_interval (UpTo (3)))); do r <- tree_minus true s (tree_from_raw_interval (Point (2))); iter_collect true (tree_interval_iter r)) [(UpTo (2)); (Open (2) (3))];
    same_set_r (do s <- (Ok (tree_from_raw_interval (UpTo (3)))); do r <- tree_minus true s (tree_from_raw_interval (Open (0) (3))); iter_collect true (tree_interval_iter r)) [(To (0))];
    same_set_r (do s <- (Ok (tree_from_raw_interval (UpTo (3)))); do r <- tree_minus true s (tree_from_raw_interval (LeftOpen (0) (3))); iter_collect true (tree_interval_iter r)) [(To (0))];
    same_set_r (do s <- (Ok (tree_from_raw_interval (UpTo (3)))); do r <- tree_minus true s (tree_from_raw_interval (RightOpen (0) (3))); iter_collect true (tree_interval_iter r)) [(UpTo (0))];
    same_set_r (do s <- (Ok (tree_from_raw_interval (UpTo (3)))); do r <- tree_minus true s (tree_from_raw_interval (Closed (0) (3))); iter_collect true (tree_interval_iter r)) [(UpTo (0))];
    same_set_r (do s <- (Ok (tree_from_raw_interval (UpTo (3)))); do r <- tree_minus true s (tree_from_raw_interval (UpTo (2))); iter_collect true (tree_interval_iter r)) [(RightOpen (2) (3))];
    same_set_r (do s <- (Ok (tree_from_raw_interval (UpTo (3)))); do r <- tree_minus true s (tree_from_raw_interval (UpFrom (2))); iter_collect true (tree_interval_iter r)) [(To (2))];
    same_set_r (do s <- (Ok (tree_from_raw_interval (UpTo (3)))); do r <- tree_minus true s (tree_from_raw_interval (To (2))); iter_collect true (tree_interval_iter r)) [(Open (2) (3))];
    same_set_r (do s <- (Ok (tree_from_raw_interval (UpTo (3)))); do r <- tree_minus true s (tree_from_raw_interval (From (2))); iter_collect true (tree_interval_iter r)) [(UpTo (2))];
    same_set_r (do s <- (Ok (tree_from_raw_interval (UpTo (3)))); do r <- tree_minus true s (tree_from_raw_interval (@Full Z)); iter_collect true (tree_interval_iter r)) [] ] = true.
Proof. vm_compute. reflexivity. Qed.

(** src/test/tine_tree/minus.rs: [up_to_left] *)
Example test_tree_minus_up_to_left : forallb (fun b : bool => b)
  [ same_set_r (do s <- (Ok (tree_from_raw_interval (UpTo (3)))); do r <- tree_minus true s (tree_from_raw_interval (@Empty Z)); iter_collect true (tree_interval_iter r)) [(UpTo (3))];
    same_set_r (do s <- (Ok (tree_from_raw_interval (UpTo (3)))); do r <- tree_minus true s (tree_from_raw_interval (Point (-3))); iter_collect true (tree_interval_iter r)) [(UpTo (-3)); (Open (-3) (3))];
    same_set_r (do s <- (Ok (tree_from_raw_interval (UpTo (3)))); do r <- tree_minus true s (tree_from_raw_interval (Open (-3) (-1))); iter_collect true (tree_interval_iter r)) [(To (-3)); (RightOpen (-1) (3))];
    same_set_r (do s <- (Ok (tree_from_raw_interval (UpTo (3)))); do r <- tree_minus true s (tree_from_raw_interval (LeftOpen (-3) (-1))); iter_collect true (tree_interval_iter r)) [(To (-3)); (Open (-1) (3))];
    same_set_r (do s <- (Ok (tree_from_raw_interval (UpTo (3)))); do r <- tree_minus true s (tree_from_raw_interval (RightOpen (-3) (-1))); iter_collect true (tree_interval_iter r)) [(UpTo (-3)); (RightOpen (-1) (3))];
    same_set_r (do s <- (Ok (tree_from_raw_interval (UpTo (3)))); do r <- tree_minus true s (tree_from_raw_interval (Closed (-3) (-1))); iter_collect true (tree_interval_iter r)) [(UpTo (-3)); (Open (-1) (3))];
    same_set_r (do s <- (Ok (tree_from_raw_interval (UpTo (3)))); do r <- tree_minus true s (tree_from_raw_interval (UpTo (-3))); iter_collect true (tree_interval_iter r)) [(RightOpen (-3) (3))];
    same_set_r (do s <- (Ok (tree_from_raw_interval (UpTo (3)))); do r <- tree_minus true s (tree_from_raw_interval (UpFrom (-3))); iter_collect true (tree_interval_iter r)) [(To (-3))];
    same_set_r (do s <- (Ok (tree_from_raw_interval (UpTo (3)))); do r <- tree_minus true s (tree_from_raw_interval (To (-3))); iter_collect true (tree_interval_iter r)) [(Open (-3) (3))];
    same_set_r (do s <- (Ok (tree_from_raw_interval (UpTo (3)))); do r <- tree_minus true s (tree_from_raw_interval (From (-3))); iter_collect true (tree_interval_iter r)) [(UpTo (-3))];
    same_set_r (do s <- (Ok (tree_from_raw_interval (UpTo (3)))); do r <- tree_minus true s (tree_from_raw_interval (@Full Z)); iter_collect true (tree_interval_iter r)) [] ] = true.
Proof. vm_compute. reflexivity. Qed.

(** src/test/tine_tree/minus.rs: [up_to_right] *)
Example test_tree_minus_up_to_right : forallb (fun b : bool => b)
  [ same_set_r (do s <- (Ok (tree_from_raw_interval (UpTo (3)))); do r <- tree_minus true s (tree_from_raw_interval (@Empty Z)); iter_collect true (tree_interval_iter r)) [(UpTo (3))];
    same_set_r (do s <- (Ok (tree_from_raw_interval (UpTo (3)))); do r <- tree_minus true s (tree_from_raw_interval (Point (13))); iter_collect true (tree_interval_iter r)) [(UpTo (3))];
    same_set_r (do s <- (Ok (tree_from_raw_interval (UpTo (3)))); do r <- tree_minus true s (tree_from_raw_interval (Open (10) (13))); iter_collect true (tree_interval_iter r)) [(UpTo (3))];
    same_set_r (do s <- (Ok (tree_from_raw_interval (UpTo (3)))); do r <- tree_minus true s (tree_from_raw_interval (LeftOpen (10) (13))); iter_collect true (tree_interval_iter r)) [(UpTo (3))];
    same_set_r (do s <- (Ok (tree_from_raw_interval (UpTo (3)))); do r <- tree_minus true s (tree_from_raw_interval (RightOpen (10) (13))); iter_collect true (tree_interval_iter r)) [(UpTo (3))];
    same_set_r (do s <- (Ok (tree_from_raw_interval (UpTo (3)))); do r <- tree_minus true s (tree_from_raw_interval (Closed (10) (13))); iter_collect true (tree_interval_iter r)) [(UpTo (3))];
    same_set_r (do s <- (Ok (tree_from_raw_interval (UpTo (3)))); do r <- tree_minus true s (tree_from_raw_interval (UpTo (13))); iter_collect true (tree_interval_iter r)) [];
    same_set_r (do s <- (Ok (tree_from_raw_interval (UpTo (3)))); do r <- tree_minus true s (tree_from_raw_interval (UpFrom (13))); iter_collect true (tree_interval_iter r)) [(UpTo (3))];
    same_set_r (do s <- (Ok (tree_from_raw_interval (UpTo (3)))); do r <- tree_minus true s (tree_from_raw_interval (To (13))); iter_collect true (tree_interval_iter r)) [];
    same_set_r (do s <- (Ok (tree_from_raw_interval (UpTo (3)))); do r <- tree_minus true s (tree_from_raw_interval (From (13))); iter_collect true (tree_interval_iter r)) [(UpTo (3))];
    same_set_r (do s <- (Ok (tree_from_raw_interval (UpTo (3)))); do r <- tree_minus true s (tree_from_raw_interval (@Full Z)); iter_collect true (tree_interval_iter r)) [] ] = true.
Proof. vm_compute. reflexivity. Qed.

(** src/test/tine_tree/minus.rs: [up_from_center] *)
Example test_tree_minus_up_from_center : forallb (fun b : bool => b)
  [ same_set_r (do s <- (Ok (tree_from_raw_interval (UpFrom (0)))); do r <- tree_minus true s (tree_from_raw_interval (@Empty Z)); iter_collect true (tree_interval_iter r)) [(UpFrom (0))];
    same_set_r (do s <- (Ok (tree_from_raw_interval (UpFrom (0)))); do r <- tree_minus true s (tree_from_raw_interval (Point (2))); iter_collect true (tree_interval_iter r)) [(Open (0) (2)); (UpFrom (2))];
    same_set_r (do s <- (Ok (tree_from_raw_interval (UpFrom (0)))); do r <- tree_minus true s (tree_from_raw_interval (Open (0) (3))); iter_collect true (tree_interval_iter r)) [(From (3))];
    same_set_r (do s <- (Ok (tree_from_raw_interval (UpFrom (0)))); do r <- tree_minus true s (tree_from_raw_interval (LeftOpen (0) (3))); iter_collect true (tree_interval_iter r)) [(UpFrom (3))];
    same_set_r (do s <- (Ok (tree_from_raw_interval (UpFrom (0)))); do r <- tree_minus true s (tree_from_raw_interval (RightOpen (0) (3))); iter_collect true (tree_interval_iter r)) [(From (3))];
    same_set_r (do s <- (Ok (tree_from_raw_interval (UpFrom (0)))); do r <- tree_minus true s (tree_from_raw_interval (Closed (0) (3))); iter_collect true (tree_interval_iter r)) [(UpFrom (3))];
    same_set_r (do s <- (Ok (tree_from_raw_interval (UpFrom (0)))); do r <- tree_minus true s (tree_from_raw_interval (UpTo (2))); iter_collect true (tree_interval_iter r)) [(From (2))];
    same_set_r (do s <- (Ok (tree_from_raw_interval (UpFrom (0)))); do r <- tree_minus true s (tree_from_raw_interval (UpFrom (2))); iter_collect true (tree_interval_iter r)) [(LeftOpen (0) (2))];
    same_set_r (do s <- (Ok (tree_from_raw_interval (UpFrom (0)))); do r <- tree_minus true s (tree_from_raw_interval (To (2))); iter_collect true (tree_interval_iter r)) [(UpFrom (2))];
    same_set_r (do s <- (Ok (tree_from_raw_interval (UpFrom (0)))); do r <- tree_minus true s (tree_from_raw_interval (From (2))); iter_collect true (tree_interval_iter r)) [(Open (0) (2))];
    same_set_r (do s <- (Ok (tree_from_raw_interval (UpFrom (0)))); do r <- tree_minus true s (tree_from_raw_interval (@Full Z)); iter_collect true (tree_interval_iter r)) [] ] = true.
Proof. vm_compute. reflexivity. Qed.

(** src/test/tine_tree/minus.rs: [up_from_left] *)
Example test_tree_minus_up_from_left : forallb (fun b : bool => b)
  [ same_set_r (do s <- (Ok (tree_from_raw_interval (UpFrom (0)))); do r <- tree_minus true s (tree_from_raw_interval (@Empty Z)); iter_collect true (tree_interval_iter r)) [(UpFrom (0))];
    same_set_r (do s <- (Ok (tree_from_raw_interval (UpFrom (0)))); do r <- tree_minus true s (tree_from_raw_interval (Point (-3))); iter_collect true (tree_interval_iter r)) [(UpFrom (0))];
    same_set_r (do s <- (Ok (tree_from_raw_interval (UpFrom (0)))); do r <- tree_minus true s (tree_from_raw_interval (Open (-3) (-1))); iter_collect true (tree_interval_iter r)) [(UpFrom (0))];
    same_set_r (do s <- (Ok (tree_from_raw_interval (UpFrom (0)))); do r <- tree_minus true s (tree_from_raw_interval (LeftOpen (-3) (-1))); iter_collect true (tree_interval_iter r)) [(UpFrom (0))];
    same_set_r (do s <- (Ok (tree_from_raw_interval (UpFrom (0)))); do r <- tree_minus true s (tree_from_raw_interval (RightOpen (-3) (-1))); iter_collect true (tree_interval_iter r)) [(UpFrom (0))];
    same_set_r (do s <- (Ok (tree_from_raw_interval (UpFrom (0)))); do r <- tree_minus true s (tree_from_raw_interval (Closed (-3) (-1))); iter_collect true (tree_interval_iter r)) [(UpFrom (0))];
    same_set_r (do s <- (Ok (tree_from_raw_interval (UpFrom (0)))); do r <- tree_minus true s (tree_from_raw_interval (UpTo (-3))); iter_collect true (tree_interval_iter r)) [(UpFrom (0))];
    same_set_r (do s <- (Ok (tree_from_raw_interval (UpFrom (0)))); do r <- tree_minus true s (tree_from_raw_interval (UpFrom (-3))); iter_collect true (tree_interval_iter r)) [];
    same_set_r (do s <- (Ok (tree_from_raw_interval (UpFrom (0)))); do r <- tree_minus true s (tree_from_raw_interval (To (-3))); iter_collect true (tree_interval_iter r)) [(UpFrom (0))];
    same_set_r (do s <- (Ok (tree_from_raw_interval (UpFrom (0)))); do r <- tree_minus true s (tree_from_raw_interval (From (-3))); iter_collect true (tree_interval_iter r)) [];
    same_set_r (do s <- (Ok (tree_from_raw_interval (UpFrom (0)))); do r <- tree_minus true s (tree_from_raw_interval (@Full Z)); iter_collect true (tree_interval_iter r)) [] ] = true.
Proof. vm_compute. reflexivity. Qed.

(** src/test/tine_tree/minus.rs: [up_from_right] *)
Example test_tree_minus_up_from_right : forallb (fun b : bool => b)
  [ same_set_r (do s <- (Ok (tree_from_raw_interval (UpFrom (0)))); do r <- tree_minus true s (tree_from_raw_interval (@Empty Z)); iter_collect true (tree_interval_iter r)) [(UpFrom (0))];
    same_set_r (do s <- (Ok (tree_from_raw_interval (UpFrom (0)))); do r <- tree_minus true s (tree_from_raw_interval (Point (13))); iter_collect true (tree_interval_iter r)) [(Open (0) (13)); (UpFrom (13))];
    same_set_r (do s <- (Ok (tree_from_raw_interval (UpFrom (0)))); do r <- tree_minus true s (tree_from_raw_interval (Open (10) (13))); iter_collect true (tree_interval_iter r)) [(LeftOpen (0) (10)); (From (13))];
    same_set_r (do s <- (Ok (tree_from_raw_interval (UpFrom (0)))); do r <- tree_minus true s (tree_from_raw_interval (LeftOpen (10) (13))); iter_collect true (tree_interval_iter r)) [(LeftOpen (0) (10)); (UpFrom (13))];
    same_set_r (do s <- (Ok (tree_from_raw_interval (UpFrom (0)))); do r <- tree_minus true s (tree_from_raw_interval (RightOpen (10) (13))); iter_collect true (tree_interval_iter r)) [(Open (0) (10)); (From (13))];
    same_set_r (do s <- (Ok (tree_from_raw_interval (UpFrom (0)))); do r <- tree_minus true s (tree_from_raw_interval (Closed (10) (13))); iter_collect true (tree_interval_iter r)) [(Open (0) (10)); (UpFrom (13))];
    same_set_r (do s <- (Ok (tree_from_raw_interval (UpFrom (0)))); do r <- tree_minus true s (tree_from_raw_interval (UpTo (13))); iter_collect true (tree_interval_iter r)) [(From (13))];
    same_set_r (do s <- (Ok (tree_from_raw_interval (UpFrom (0)))); do r <- tree_minus true s (tree_from_raw_interval (UpFrom (13))); iter_collect true (tree_interval_iter r)) [(LeftOpen (0) (13))];
    same_set_r (do s <- (Ok (tree_from_raw_interval (UpFrom (0)))); do r <- tree_minus true s (tree_from_raw_interval (To (13))); iter_collect true (tree_interval_iter r)) [(UpFrom (13))];
    same_set_r (do s <- (Ok (tree_from_raw_interval (UpFrom (0)))); do r <- tree_minus true s (tree_from_raw_interval (From (13))); iter_collect true (tree_interval_iter r)) [(Open (0) (13))];
    same_set_r (do s <- (Ok (tree_from_raw_interval (UpFrom (0)))); do r <- tree_minus true s (tree_from_raw_interval (@Full Z)); iter_collect true (tree_interval_iter r)) [] ] = true.
Proof. vm_compute. reflexivity. Qed.

(** src/test/tine_tree/minus.rs: [to_center] *)
Example test_tree_minus_to_center : forallb (fun b : bool => b)
  [ same_set_r (do s <- (Ok (tree_from_raw_interval (To (3)))); do r <- tree_minus true s (tree_from_raw_interval (@Empty Z)); iter_collect true (tree_interval_iter r)) [(To (3))];
    same_set_r (do s <- (Ok (tree_from_raw_interval (To (3)))); do r <- tree_minus true s (tree_from_raw_interval (Point (2))); iter_collect true (tree_interval_iter r)) [(UpTo (2)); (LeftOpen (2) (3))];
    same_set_r (do s <- (Ok (tree_from_raw_interval (To (3)))); do r <- tree_minus true s (tree_from_raw_interval (Open (0) (3))); iter_collect true (tree_interval_iter r)) [(To (0)); (Point (3))];
    same_set_r (do s <- (Ok (tree_from_raw_interval (To (3)))); do r <- tree_minus true s (tree_from_raw_interval (LeftOpen (0) (3))); iter_collect true (tree_interval_iter r)) [(To (0))];
    same_set_r (do s <- (Ok (tree_from_raw_interval (To (3)))); do r <- tree_minus true s (tree_from_raw_interval (RightOpen (0) (3))); iter_collect true (tree_interval_iter r)) [(UpTo (0)); (Point (3))];
    same_set_r (do s <- (Ok (tree_from_raw_interval (To (3)))); do r <- tree_minus true s (tree_from_raw_interval (Closed (0) (3))); iter_collect true (tree_interval_iter r)) [(UpTo (0))];
    same_set_r (do s <- (Ok (tree_from_raw_interval (To (3)))); do r <- tree_minus true s (tree_from_raw_interval (UpTo (2))); iter_collect true (tree_interval_iter r)) [(Closed (2) (3))];
    same_set_r (do s <- (Ok (tree_from_raw_interval (To (3)))); do r <- tree_minus true s (tree_from_raw_interval (UpFrom (2))); iter_collect true (tree_interval_iter r)) [(To (2))];
    same_set_r (do s <- (Ok (tree_from_raw_interval (To (3)))); do r <- tree_minus true s (tree_from_raw_interval (To (2))); iter_collect true (tree_interval_iter r)) [(LeftOpen (2) (3))];
    same_set_r (do s <- (Ok (tree_from_raw_interval (To (3)))); do r <- tree_minus true s (tree_from_raw_interval (From (2))); iter_collect true (tree_interval_iter r)) [(UpTo (2))];
    same_set_r (do s <- (Ok (tree_from_raw_interval (To (3)))); do r <- tree_minus true s (tree_from_raw_interval (@Full Z)); iter_collect true (tree_interval_iter r)) [] ] = true.
Proof. vm_compute. reflexivity. Qed.

(** src/test/tine_tree/minus.rs: [to_left] *)
Example test_tree_minus_to_left : forallb (fun b : bool => b)
  [ same_set_r (do s <- (Ok (tree_from_raw_interval (To (3)))); do r <- tree_minus true s (tree_from_raw_interval (@Empty Z)); iter_collect true (tree_interval_iter r)) [(To (3))];
    same_set_r (do s <- (Ok (tree_from_raw_interval (To (3)))); do r <- tree_minus true s (tree_from_raw_interval (Point (-3))); iter_collect true (tree_interval_iter r)) [(UpTo (-3)); (LeftOpen (-3) (3))];
    same_set_r (do s <- (Ok (tree_from_raw_interval (To (3)))); do r <- tree_minus true s (tree_from_raw_interval (Open (-3) (-1))); iter_collect true (tree_interval_iter r)) [(To (-3)); (Closed (-1) (3))];
    same_set_r (do s <- (Ok (tree_from_raw_interval (To (3)))); do r <- tree_minus true s (tree_from_raw_interval (LeftOpen (-3) (-1))); iter_collect true (tree_interval_iter r)) [(To (-3)); (LeftOpen (-1) (3))];
    same_set_r (do s <- (Ok (tree_from_raw_interval (To (3)))); do r <- tree_minus true s (tree_from_raw_interval (RightOpen (-3) (-1))); iter_collect true (tree_interval_iter r)) [(UpTo (-3)); (Closed (-1) (3))];
    same_set_r (do s <- (Ok (tree_from_raw_interval (To (3)))); do r <- tree_minus true s (tree_from_raw_interval (Closed (-3) (-1))); iter_collect true (tree_interval_iter r)) [(UpTo (-3)); (LeftOpen (-1) (3))];
    same_set_r (do s <- (Ok (tree_from_raw_interval (To (3)))); do r <- tree_minus true s (tree_from_raw_interval (UpTo (-3))); iter_collect true (tree_interval_iter r)) [(Closed (-3) (3))];
    same_set_r (do s <- (Ok (tree_from_raw_interval (To (3)))); do r <- tree_minus true s (tree_from_raw_interval (UpFrom (-3))); iter_collect true (tree_interval_iter r)) [(To (-3))];
    same_set_r (do s <- (Ok (tree_from_raw_interval (To (3)))); do r <- tree_minus true s (tree_from_raw_interval (To (-3))); iter_collect true (tree_interval_iter r)) [(LeftOpen (-3) (3))];
    same_set_r (do s <- (Ok (tree_from_raw_interval (To (3)))); do r <- tree_minus true s (tree_from_raw_interval (From (-3))); iter_collect true (tree_interval_iter r)) [(UpTo (-3))];
    same_set_r (do s <- (Ok (tree_from_raw_interval (To (3)))); do r <- tree_minus true s (tree_from_raw_interval (@Full Z)); iter_collect true (tree_interval_iter r)) [] ] = true.
Proof. vm_compute. reflexivity. Qed.

(** src/test/tine_tree/minus.rs: [to_right] *)
Example test_tree_minus_to_right : forallb (fun b : bool => b)
  [ same_set_r (do s <- (Ok (tree_from_raw_interval (To (3)))); do r <- tree_minus true s (tree_from_raw_interval (@Empty Z)); iter_collect true (tree_interval_iter r)) [(To (3))];
    same_set_r (do s <- (Ok (tree_from_raw_interval (To (3)))); do r <- tree_minus true s (tree_from_raw_interval (Point (13))); iter_collect true (tree_interval_iter r)) [(To (3))];
    same_set_r (do s <- (Ok (tree_from_raw_interval (To (3)))); do r <- tree_minus true s (tree_from_raw_interval (Open (10) (13))); iter_collect true (tree_interval_iter r)) [(To (3))];
    same_set_r (do s <- (Ok (tree_from_raw_interval (To (3)))); do r <- tree_minus true s (tree_from_raw_interval (LeftOpen (10) (13))); iter_collect true (tree_interval_iter r)) [(To (3))];
    same_set_r (do s <- (Ok (tree_from_raw_interval (To (3)))); do r <- tree_minus true s (tree_from_raw_interval (RightOpen (10) (13))); iter_collect true (tree_interval_iter r)) [(To (3))];
    same_set_r (do s <- (Ok (tree_from_raw_interval (To (3)))); do r <- tree_minus true s (tree_from_raw_interval (Closed (10) (13))); iter_collect true (tree_interval_iter r)) [(To (3))];
    same_set_r (do s <- (Ok (tree_from_raw_interval (To (3)))); do r <- tree_minus true s (tree_from_raw_interval (UpTo (13))); iter_collect true (tree_interval_iter r)) [];
    same_set_r (do s <- (Ok (tree_from_raw_interval (To (3)))); do r <- tree_minus true s (tree_from_raw_interval (UpFrom (13))); iter_collect true (tree_interval_iter r)) [(To (3))];
    same_set_r (do s <- (Ok (tree_from_raw_interval (To (3)))); do r <- tree_minus true s (tree_from_raw_interval (To (13))); iter_collect true (tree_interval_iter r)) [];
    same_set_r (do s <- (Ok (tree_from_raw_interval (To (3)))); do r <- tree_minus true s (tree_from_raw_interval (From (13))); iter_collect true (tree_interval_iter r)) [(To (3))];
    same_set_r (do s <- (Ok (tree_from_raw_interval (To (3)))); do r <- tree_minus true s (tree_from_raw_interval (@Full Z)); iter_collect true (tree_interval_iter r)) [] ] = true.
Proof. vm_compute. reflexivity. Qed.

(** src/test/tine_tree/minus.rs: [from_center] *)
Example test_tree_minus_from_center : forallb (fun b : bool => b)
  [ same_set_r (do s <- (Ok (tree_from_raw_interval (From (0)))); do r <- tree_minus true s (tree_from_raw_interval (@Empty Z)); iter_collect true (tree_interval_iter r)) [(From (0))];
    same_set_r (do s <- (Ok (tree_from_raw_interval (From (0)))); do r <- tree_minus true s (tree_from_raw_interval (Point (2))); iter_collect true (tree_interval_iter r)) [(RightOpen (0) (2)); (UpFrom (2))];
    same_set_r (do s <- (Ok (tree_from_raw_interval (From (0)))); do r <- tree_minus true s (tree_from_raw_interval (Open (0) (3))); iter_collect true (tree_interval_iter r)) [(Point (0)); (From (3))];
    same_set_r (do s <- (Ok (tree_from_raw_interval (From (0)))); do r <- tree_minus true s (tree_from_raw_interval (LeftOpen (0) (3))); iter_collect true (tree_interval_iter r)) [(Point (0)); (UpFrom (3))];
    same_set_r (do s <- (Ok (tree_from_raw_interval (From (0)))); do r <- tree_minus true s (tree_from_raw_interval (RightOpen (0) (3))); iter_collect true (tree_interval_iter r)) [(From (3))];
    same_set_r (do s <- (Ok (tree_from_raw_interval (From (0)))); do r <- tree_minus true s (tree_from_raw_interval (Closed (0) (3))); iter_collect true (tree_interval_iter r)) [(UpFrom (3))];
    same_set_r (do s <- (Ok (tree_from_raw_interval (From (0)))); do r <- tree_minus true s (tree_from_raw_interval (UpTo (2))); iter_collect true (tree_interval_iter r)) [(From (2))];
    same_set_r (do s <- (Ok (tree_from_raw_interval (From (0)))); do r <- tree_minus true s (tree_from_raw_interval (UpFrom (2))); iter_collect true (tree_interval_iter r)) [(Closed (0) (2))];
    same_set_r (do s <- (Ok (tree_from_raw_interval (From (0)))); do r <- tree_minus true s (tree_from_raw_interval (To (2))); iter_collect true (tree_interval_iter r)) [(UpFrom (2))];
    same_set_r (do s <- (Ok (tree_from_raw_interval (From (0)))); do r <- tree_minus true s (tree_from_raw_interval (From (2))); iter_collect true (tree_interval_iter r)) [(RightOpen (0) (2))];
    same_set_r (do s <- (Ok (tree_from_raw_interval (From (0)))); do r <- tree_minus true s (tree_from_raw_interval (@Full Z)); iter_collect true (tree_interval_iter r)) [] ] = true.
Proof. vm_compute. reflexivity. Qed.

(** src/test/tine_tree/minus.rs: [from_left] *)
Example test_tree_minus_from_left : forallb (fun b : bool => b)
  [ same_set_r (do s <- (Ok (tree_from_raw_interval (From (0)))); do r <- tree_minus true s (tree_from_raw_interval (@Empty Z)); iter_collect true (tree_interval_iter r)) [(From (0))];
    same_set_r (do s <- (Ok (tree_from_raw_interval (From (0)))); do r <- tree_minus true s (tree_from_raw_interval (Point (-3))); iter_collect true (tree_interval_iter r)) [(From (0))];
    same_set_r (do s <- (Ok (tree_from_raw_interval (From (0)))); do r <- tree_minus true s (tree_from_raw_interval (Open (-3) (-1))); iter_collect true (tree_interval_iter r)) [(From (0))];
    same_set_r (do s <- (Ok (tree_from_raw_interval (From (0)))); do r <- tree_minus true s (tree_from_raw_interval (LeftOpen (-3) (-1))); iter_collect true (tree_interval_iter r)) [(From (0))];
    same_set_r (do s <- (Ok (tree_from_raw_interval (From (0)))); do r <- tree_minus true s (tree_from_raw_interval (RightOpen (-3) (-1))); iter_collect true (tree_interval_iter r)) [(From (0))];
    same_set_r (do s <- (Ok (tree_from_raw_interval (From (0)))); do r <- tree_minus true s (tree_from_raw_interval (Closed (-3) (-1))); iter_collect true (tree_interval_iter r)) [(From (0))];
    same_set_r (do s <- (Ok (tree_from_raw_interval (From (0)))); do r <- tree_minus true s (tree_from_raw_interval (UpTo (-3))); iter_collect true (tree_interval_iter r)) [(From (0))];
    same_set_r (do s <- (Ok (tree_from_raw_interval (From (0)))); do r <- tree_minus true s (tree_from_raw_interval (UpFrom (-3))); iter_collect true (tree_interval_iter r)) [];
    same_set_r (do s <- (Ok (tree_from_raw_interval (From (0)))); do r <- tree_minus true s (tree_from_raw_interval (To (-3))); iter_collect true (tree_interval_iter r)) [(From (0))];
    same_set_r (do s <- (Ok (tree_from_raw_interval (From (0)))); do r <- tree_minus true s (tree_from_raw_interval (From (-3))); iter_collect true (tree_interval_iter r)) [];
    same_set_r (do s <- (Ok (tree_from_raw_interval (From (0)))); do r <- tree_minus true s (tree_from_raw_interval (@Full Z)); iter_collect true (tree_interval_iter r)) [] ] = true.
Proof. vm_compute. reflexivity. Qed.

(** src/test/tine_tree/minus.rs: [from_right] *)
Example test_tree_minus_from_right : forallb (fun b : bool => b)
  [ same_set_r (do s <- (Ok (tree_from_raw_interval (From (0)))); do r <- tree_minus true s (tree_from_raw_interval (@Empty Z)); iter_collect true (tree_interval_iter r)) [(From (0))];
    same_set_r (do s <- (Ok (tree_from_raw_interval (From (0)))); do r <- tree_minus true s (tree_from_raw_interval (Point (13))); iter_collect true (tree_interval_iter r)) [(RightOpen (0) (13)); (UpFrom (13))];
    same_set_r (do s <- (Ok (tree_from_raw_interval (From (0)))); do r <- tree_minus true s (tree_from_raw_interval (Open (10) (13))); iter_collect true (tree_interval_iter r)) [(Closed (0) (10)); (From (13))];
    same_set_r (do s <- (Ok (tree_from_raw_interval (From (0)))); do r <- tree_minus true s (tree_from_raw_interval (LeftOpen (10) (13))); iter_collect true (tree_interval_iter r)) [(Closed (0) (10)); (UpFrom (13))];
    same_set_r (do s <- (Ok (tree_from_raw_interval (From (0)))); do r <- tree_minus true s (tree_from_raw_interval (RightOpen (10) (13))); iter_collect true (tree_interval_iter r)) [(RightOpen (0) (10)); (From (13))];
    same_set_r (do s <- (Ok (tree_from_raw_interval (From (0)))); do r <- tree_minus true s (tree_from_raw_interval (Closed (10) (13))); iter_collect true (tree_interval_iter r)) [(RightOpen (0) (10)); (UpFrom (13))];
    same_set_r (do s <- (Ok (tree_from_raw_interval (From (0)))); do r <- tree_minus true s (tree_from_raw_interval (UpTo (13))); iter_collect true (tree_interval_iter r)) [(From (13))];
    same_set_r (do s <- (Ok (tree_from_raw_interval (From (0)))); do r <- tree_minus true s (tree_from_raw_interval (UpFrom (13))); iter_collect true (tree_interval_iter r)) [(Closed (0) (13))];
    same_set_r (do s <- (Ok (tree_from_raw_interval (From (0)))); do r <- tree_minus true s (tree_from_raw_interval (To (13))); iter_collect true (tree_interval_iter r)) [(UpFrom (13))];
    same_set_r (do s <- (Ok (tree_from_raw_interval (From (0)))); do r <- tree_minus true s (tree_from_raw_interval (From (13))); iter_collect true (tree_interval_iter r)) [(RightOpen (0) (13))];
    same_set_r (do s <- (Ok (tree_from_raw_interval (From (0)))); do r <- tree_minus true s (tree_from_raw_interval (@Full Z)); iter_collect true (tree_interval_iter r)) [] ] = true.
Proof. vm_compute. reflexivity. Qed.

(** src/test/tine_tree/minus.rs: [full] *)
Example test_tree_minus_full : forallb (fun b : bool => b)
  [ same_set_r (do s <- (Ok (tree_from_raw_interval (@Full Z))); do r <- tree_minus true s (tree_from_raw_interval (@Empty Z)); iter_collect true (tree_interval_iter r)) [(@Full Z)];
    same_set_r (do s <- (Ok (tree_from_raw_interval (@Full Z))); do r <- tree_minus true s (tree_from_raw_interval (Point (0))); iter_collect true (tree_interval_iter r)) [(UpTo (0)); (UpFrom (0))];
    same_set_r (do s <- (Ok (tree_from_raw_interval (@Full Z))); do r <- tree_minus true s (tree_from_raw_interval (Open (0) (3))); iter_collect true (tree_interval_iter r)) [(To (0)); (From (3))];
    same_set_r (do s <- (Ok (tree_from_raw_interval (@Full Z))); do r <- tree_minus true s (tree_from_raw_interval (LeftOpen (0) (3))); iter_collect true (tree_interval_iter r)) [(To (0)); (UpFrom (3))];
    same_set_r (do s <- (Ok (tree_from_raw_interval (@Full Z))); do r <- tree_minus true s (tree_from_raw_interval (RightOpen (0) (3))); iter_collect true (tree_interval_iter r)) [(UpTo (0)); (From (3))];
    same_set_r (do s <- (Ok (tree_from_raw_interval (@Full Z))); do r <- tree_minus true s (tree_from_raw_interval (Closed (0) (3))); iter_collect true (tree_interval_iter r)) [(UpTo (0)); (UpFrom (3))];
    same_set_r (do s <- (Ok (tree_from_raw_interval (@Full Z))); do r <- tree_minus true s (tree_from_raw_interval (UpTo (0))); iter_collect true (tree_interval_iter r)) [(From (0))];
    same_set_r (do s <- (Ok (tree_from_raw_interval (@Full Z))); do r <- tree_minus true s (tree_from_raw_interval (UpFrom (0))); iter_collect true (tree_interval_iter r)) [(To (0))];
    same_set_r (do s <- (Ok (tree_from_raw_interval (@Full Z))); do r <- tree_minus true s (tree_from_raw_interval (To (0))); iter_collect true (tree_interval_iter r)) [(UpFrom (0))];
    same_set_r (do s <- (Ok (tree_from_raw_interval (@Full Z))); do r <- tree_minus true s (tree_from_raw_interval (From (0))); iter_collect true (tree_interval_iter r)) [(UpTo (0))];
    same_set_r (do s <- (Ok (tree_from_raw_interval (@Full Z))); do r <- tree_minus true s (tree_from_raw_interval (@Full Z)); iter_collect true (tree_interval_iter r)) [] ] = true.
Proof. vm_compute. reflexivity. Qed.

(** src/test/tine_tree/union.rs: [disjoint_aggregation] *)
Example test_tree_union_disjoint_aggregation : forallb (fun b : bool => b)
  [ same_list_r (do s <- (do s <- (do s <- (do s <- (do s <- (do s <- (do s <- (do s <- (do s <- (do s <- (do s <- (Ok tree_new); tree_union_in_place true s (UpTo (0))); tree_union_in_place true s (Point (1))); tree_union_in_place true s (@Empty Z)); tree_union_in_place true s (Open (2) (3))); tree_union_in_place true s (LeftOpen (4) (5))); tree_union_in_place true s (RightOpen (6) (7))); tree_union_in_place true s (@Empty Z)); tree_union_in_place true s (Closed (8) (9))); tree_union_in_place true s (UpFrom (10))); tree_union_in_place true s (@Empty Z)); iter_collect true (tree_interval_iter s)) [(UpTo (0)); (Point (1)); (Open (2) (3)); (LeftOpen (4) (5)); (RightOpen (6) (7)); (Closed (8) (9)); (UpFrom (10))] ] = true.
Proof. vm_compute. reflexivity. Qed.

(** src/test/tine_tree/union.rs: [left_aggregation] *)
Example test_tree_union_left_aggregation : forallb (fun b : bool => b)
  [ same_list_r (do s <- (do s <- (do s <- (do s <- (do s <- (do s <- (do s <- (do s <- (do s <- (do s <- (do s <- (Ok tree_new); tree_union_in_place true s (UpTo (1))); tree_union_in_place true s (Point (1))); tree_union_in_place true s (@Empty Z)); tree_union_in_place true s (Open (0) (3))); tree_union_in_place true s (LeftOpen (2) (5))); tree_union_in_place true s (RightOpen (4) (7))); tree_union_in_place true s (@Empty Z)); tree_union_in_place true s (Closed (6) (9))); tree_union_in_place true s (UpFrom (8))); tree_union_in_place true s (@Empty Z)); iter_collect true (tree_interval_iter s)) [(@Full Z)] ] = true.
Proof. vm_compute. reflexivity. Qed.

(** src/test/tine_tree/union.rs: [right_aggregation] *)
Example test_tree_union_right_aggregation : forallb (fun b : bool => b)
  [ same_list_r (do s <- (do s <- (do s <- (do s <- (do s <- (do s <- (do s <- (do s <- (do s <- (do s <- (do s <- (Ok tree_new); tree_union_in_place true s (UpFrom (8))); tree_union_in_place true s (Closed (6) (9))); tree_union_in_place true s (@Empty Z)); tree_union_in_place true s (RightOpen (4) (7))); tree_union_in_place true s (LeftOpen (2) (5))); tree_union_in_place true s (Open (0) (3))); tree_union_in_place true s (@Empty Z)); tree_union_in_place true s (Point (1))); tree_union_in_place true s (UpTo (1))); tree_union_in_place true s (@Empty Z)); iter_collect true (tree_interval_iter s)) [(@Full Z)] ] = true.
Proof. vm_compute. reflexivity. Qed.

(** src/test/tine_tree/union.rs: [center_aggregation] *)
Example test_tree_union_center_aggregation : forallb (fun b : bool => b)
  [ same_list_r (do s <- (do s <- (do s <- (do s <- (do s <- (do s <- (do s <- (do s <- (do s <- (do s <- (Ok tree_new); tree_union_in_place true s (UpTo (10))); tree_union_in_place true s (Point (5))); tree_union_in_place true s (@Empty Z)); tree_union_in_place true s (Open (0) (7))); tree_union_in_place true s (LeftOpen (2) (8))); tree_union_in_place true s (RightOpen (4) (6))); tree_union_in_place true s (@Empty Z)); tree_union_in_place true s (Closed (1) (9))); tree_union_in_place true s (@Empty Z)); iter_collect true (tree_interval_iter s)) [(UpTo (10))] ] = true.
Proof. vm_compute. reflexivity. Qed.

(** src/test/tine_tree/union.rs: [adjacent_aggregation] *)
Example test_tree_union_adjacent_aggregation : forallb (fun b : bool => b)
  [ same_list_r (do s <- (do s <- (do s <- (do s <- (do s <- (do s <- (do s <- (do s <- (do s <- (do s <- (do s <- (Ok tree_new); tree_union_in_place true s (UpTo (1))); tree_union_in_place true s (Point (1))); tree_union_in_place true s (@Empty Z)); tree_union_in_place true s (Open (1) (3))); tree_union_in_place true s (LeftOpen (3) (5))); tree_union_in_place true s (RightOpen (5) (7))); tree_union_in_place true s (@Empty Z)); tree_union_in_place true s (Closed (7) (9))); tree_union_in_place true s (UpFrom (9))); tree_union_in_place true s (@Empty Z)); iter_collect true (tree_interval_iter s)) [(UpTo (3)); (UpFrom (3))] ] = true.
Proof. vm_compute. reflexivity. Qed.

(** src/test/tine_tree/union.rs: [full_aggregation] *)
Example test_tree_union_full_aggregation : forallb (fun b : bool => b)
  [ same_list_r (do s <- (do s <- (do s <- (do s <- (do s <- (do s <- (do s <- (do s <- (do s <- (do s <- (do s <- (do s <- (Ok tree_new); tree_union_in_place true s (@Full Z)); tree_union_in_place true s (UpTo (1))); tree_union_in_place true s (Point (1))); tree_union_in_place true s (@Empty Z)); tree_union_in_place true s (Open (1) (3))); tree_union_in_place true s (LeftOpen (3) (5))); tree_union_in_place true s (RightOpen (5) (7))); tree_union_in_place true s (@Full Z)); tree_union_in_place true s (Closed (7) (9))); tree_union_in_place true s (UpFrom (9))); tree_union_in_place true s (@Full Z)); iter_collect true (tree_interval_iter s)) [(@Full Z)] ] = true.
Proof. vm_compute. reflexivity. Qed.

(** src/test/tine_tree/union.rs: [empty] *)
Example test_tree_union_empty : forallb (fun b : bool => b)
  [ same_set_r (do s <- (Ok (tree_from_raw_interval (@Empty Z))); do r <- tree_union true s (tree_from_raw_interval (@Empty Z)); iter_collect true (tree_interval_iter r)) [];
    same_set_r (do s <- (Ok (tree_from_raw_interval (@Empty Z))); do r <- tree_union true s (tree_from_raw_interval (Point (3))); iter_collect true (tree_interval_iter r)) [(Point (3))];
    same_set_r (do s <- (Ok (tree_from_raw_interval (@Empty Z))); do r <- tree_union true s (tree_from_raw_interval (Open (0) (3))); iter_collect true (tree_interval_iter r)) [(Open (0) (3))];
    same_set_r (do s <- (Ok (tree_from_raw_interval (@Empty Z))); do r <- tree_union true s (tree_from_raw_interval (LeftOpen (0) (3))); iter_collect true (tree_interval_iter r)) [(LeftOpen (0) (3))];
    same_set_r (do s <- (Ok (tree_from_raw_interval (@Empty Z))); do r <- tree_union true s (tree_from_raw_interval (RightOpen (0) (3))); iter_collect true (tree_interval_iter r)) [(RightOpen (0) (3))];
    same_set_r (do s <- (Ok (tree_from_raw_interval (@Empty Z))); do r <- tree_union true s (tree_from_raw_interval (Closed (0) (3))); iter_collect true (tree_interval_iter r)) [(Closed (0) (3))];
    same_set_r (do s <- (Ok (tree_from_raw_interval (@Empty Z))); do r <- tree_union true s (tree_from_raw_interval (UpTo (3))); iter_collect true (tree_interval_iter r)) [(UpTo (3))];
    same_set_r (do s <- (Ok (tree_from_raw_interval (@Empty Z))); do r <- tree_union true s (tree_from_raw_interval (UpFrom (3))); iter_collect true (tree_interval_iter r)) [(UpFrom (3))];
    same_set_r (do s <- (Ok (tree_from_raw_interval (@Empty Z))); do r <- tree_union true s (tree_from_raw_interval (To (3))); iter_collect true (tree_interval_iter r)) [(To (3))];
    same_set_r (do s <- (Ok (tree_from_raw_interval (@Empty Z))); do r <- tree_union true s (tree_from_raw_interval (From (3))); iter_collect true (tree_interval_iter r)) [(From (3))];
    same_set_r (do s <- (Ok (tree_from_raw_interval (@Empty Z))); do r <- tree_union true s (tree_from_raw_interval (@Full Z)); iter_collect true (tree_interval_iter r)) [(@Full Z)] ] = true.
Proof. vm_compute. reflexivity. Qed.

(** src/test/tine_tree/union.rs: [empty_in_place] *)
Example test_tree_union_empty_in_place : forallb (fun b : bool => b)
  [ same_set_r (do s <- (Ok (tree_from_raw_interval (@Empty Z))); do r <- tree_union true s (tree_from_raw_interval (@Empty Z)); iter_collect true (tree_interval_iter r)) [];
    same_set_r (do s <- (Ok (tree_from_raw_interval (@Empty Z))); do r <- tree_union true s (tree_from_raw_interval (Point (3))); iter_collect true (tree_interval_iter r)) [(Point (3))];
    same_set_r (do s <- (Ok (tree_from_raw_interval (@Empty Z))); do r <- tree_union true s (tree_from_raw_interval (Open (0) (3))); iter_collect true (tree_interval_iter r)) [(Open (0) (3))];
    same_set_r (do s <- (Ok (tree_from_raw_interval (@Empty Z))); do r <- tree_union true s (tree_from_raw_interval (LeftOpen (0) (3))); iter_collect true (tree_interval_iter r)) [(LeftOpen (0) (3))];
    same_set_r (do s <- (Ok (tree_from_raw_interval (@Empty Z))); do r <- tree_union true s (tree_from_raw_interval (RightOpen (0) (3))); iter_collect true (tree_interval_iter r)) [(RightOpen (0) (3))];
    same_set_r (do s <- (Ok (tree_from_raw_interval (@Empty Z))); do r <- tree_union true s (tree_from_raw_interval (Closed (0) (3))); iter_collect true (tree_interval_iter r)) [(Closed (0) (3))];
    same_set_r (do s <- (Ok (tree_from_raw_interval (@Empty Z))); do r <- tree_union true s (tree_from_raw_interval (UpTo (3))); iter_collect true (tree_interval_iter r)) [(UpTo (3))];
    same_set_r (do s <- (Ok (tree_from_raw_interval (@Empty Z))); do r <- tree_union true s (tree_from_raw_interval (UpFrom (3))); iter_collect true (tree_interval_iter r)) [(UpFrom (3))];
    same_set_r (do s <- (Ok (tree_from_raw_interval (@Empty Z))); do r <- tree_union true s (tree_from_raw_interval (To (3))); iter_collect true (tree_interval_iter r)) [(To (3))];
    same_set_r (do s <- (Ok (tree_from_raw_interval (@Empty Z))); do r <- tree_union true s (tree_from_raw_interval (From (3))); iter_collect true (tree_interval_iter r)) [(From (3))];
    same_set_r (do s <- (Ok (tree_from_raw_interval (@Empty Z))); do r <- tree_union true s (tree_from_raw_interval (@Full Z)); iter_collect true (tree_interval_iter r)) [(@Full Z)] ] = true.
Proof. vm_compute. reflexivity. Qed.

(** src/test/tine_tree/union.rs: [point_center] *)
Example test_tree_union_point_center : forallb (fun b : bool => b)
  [ same_set_r (do s <- (Ok (tree_from_raw_interval (Point (3)))); do r <- tree_union true s (tree_from_raw_interval (@Empty Z)); iter_collect true (tree_interval_iter r)) [(Point (3))];
    same_set_r (do s <- (Ok (tree_from_raw_interval (Point (3)))); do r <- tree_union true s (tree_from_raw_interval (Point (3))); iter_collect true (tree_interval_iter r)) [(Point (3))];
    same_set_r (do s <- (Ok (tree_from_raw_interval (Point (3)))); do r <- tree_union true s (tree_from_raw_interval (Open (0) (3))); iter_collect true (tree_interval_iter r)) [(LeftOpen (0) (3))];
    same_set_r (do s <- (Ok (tree_from_raw_interval (Point (3)))); do r <- tree_union true s (tree_from_raw_interval (LeftOpen (0) (3))); iter_collect true (tree_interval_iter r)) [(LeftOpen (0) (3))];
    same_set_r (do s <- (Ok (tree_from_raw_interval (Point (3)))); do r <- tree_union true s (tree_from_raw_interval (RightOpen (0) (3))); iter_collect true (tree_interval_iter r)) [(Closed (0) (3))];
    same_set_r (do s <- (Ok (tree_from_raw_interval (Point (3)))); do r <- tree_union true s (tree_from_raw_interval (Closed (0) (3))); iter_collect true (tree_interval_iter r)) [(Closed (0) (3))];
    same_set_r (do s <- (Ok (tree_from_raw_interval (Point (3)))); do r <- tree_union true s (tree_from_raw_interval (UpTo (3))); iter_collect true (tree_interval_iter r)) [(To (3))];
    same_set_r (do s <- (Ok (tree_from_raw_interval (Point (3)))); do r <- tree_union true s (tree_from_raw_interval (UpFrom (3))); iter_collect true (tree_interval_iter r)) [(From (3))];
    same_set_r (do s <- (Ok (tree_from_raw_interval (Point (3)))); do r <- tree_union true s (tree_from_raw_interval (To (3))); iter_collect true (tree_interval_iter r)) [(To (3))];
    same_set_r (do s <- (Ok (tree_from_raw_interval (Point (3)))); do r <- tree_union true s (tree_from_raw_interval (From (3))); iter_collect true (tree_interval_iter r)) [(From (3))];
    same_set_r (do s <- (Ok (tree_from_raw_interval (Point (3)))); do r <- tree_union true s (tree_from_raw_interval (@Full Z)); iter_collect true (tree_interval_iter r)) [(@Full Z)] ] = true.
Proof. vm_compute. reflexivity. Qed.

(** src/test/tine_tree/union.rs: [point_left] *)
Example test_tree_union_point_left : forallb (fun b : bool => b)
  [ same_set_r (do s <- (Ok (tree_from_raw_interval (Point (3)))); do r <- tree_union true s (tree_from_raw_interval (@Empty Z)); iter_collect true (tree_interval_iter r)) [(Point (3))];
    same_set_r (do s <- (Ok (tree_from_raw_interval (Point (3)))); do r <- tree_union true s (tree_from_raw_interval (Point (-1))); iter_collect true (tree_interval_iter r)) [(Point (3)); (Point (-1))];
    same_set_r (do s <- (Ok (tree_from_raw_interval (Point (3)))); do r <- tree_union true s (tree_from_raw_interval (Open (-3) (-1))); iter_collect true (tree_interval_iter r)) [(Point (3)); (Open (-3) (-1))];
    same_set_r (do s <- (Ok (tree_from_raw_interval (Point (3)))); do r <- tree_union true s (tree_from_raw_interval (LeftOpen (-3) (-1))); iter_collect true (tree_interval_iter r)) [(Point (3)); (LeftOpen (-3) (-1))];
    same_set_r (do s <- (Ok (tree_from_raw_interval (Point (3)))); do r <- tree_union true s (tree_from_raw_interval (RightOpen (-3) (-1))); iter_collect true (tree_interval_iter r)) [(Point (3)); (RightOpen (-3) (-1))];
    same_set_r (do s <- (Ok (tree_from_raw_interval (Point (3)))); do r <- tree_union true s (tree_from_raw_interval (Closed (-3) (-1))); iter_collect true (tree_interval_iter r)) [(Point (3)); (Closed (-3) (-1))];
    same_set_r (do s <- (Ok (tree_from_raw_interval (Point (3)))); do r <- tree_union true s (tree_from_raw_interval (UpTo (-3))); iter_collect true (tree_interval_iter r)) [(Point (3)); (UpTo (-3))];
    same_set_r (do s <- (Ok (tree_from_raw_interval (Point (3)))); do r <- tree_union true s (tree_from_raw_interval (UpFrom (-3))); iter_collect true (tree_interval_iter r)) [(UpFrom (-3))];
    same_set_r (do s <- (Ok (tree_from_raw_interval (Point (3)))); do r <- tree_union true s (tree_from_raw_interval (To (-3))); iter_collect true (tree_interval_iter r)) [(Point (3)); (To (-3))];
    same_set_r (do s <- (Ok (tree_from_raw_interval (Point (3)))); do r <- tree_union true s (tree_from_raw_interval (From (-3))); iter_collect true (tree_interval_iter r)) [(From (-3))];
    same_set_r (do s <- (Ok (tree_from_raw_interval (Point (3)))); do r <- tree_union true s (tree_from_raw_interval (@Full Z)); iter_collect true (tree_interval_iter r)) [(@Full Z)] ] = true.
Proof. vm_compute. reflexivity. Qed.

(** src/test/tine_tree/union.rs: [point_right] *)
Example test_tree_union_point_right : forallb (fun b : bool => b)
  [ same_set_r (do s <- (Ok (tree_from_raw_interval (Point (3)))); do r <- tree_union true s (tree_from_raw_interval (@Empty Z)); iter_collect true (tree_interval_iter r)) [(Point (3))];
    same_set_r (do s <- (Ok (tree_from_raw_interval (Point (3)))); do r <- tree_union true s (tree_from_raw_interval (Point (10))); iter_collect true (tree_interval_iter r)) [(Point (3)); (Point (10))];
    same_set_r (do s <- (Ok (tree_from_raw_interval (Point (3)))); do r <- tree_union true s (tree_from_raw_interval (Open (10) (13))); iter_collect true (tree_interval_iter r)) [(Point (3)); (Open (10) (13))];
    same_set_r (do s <- (Ok (tree_from_raw_interval (Point (3)))); do r <- tree_union true s (tree_from_raw_interval (LeftOpen (10) (13))); iter_collect true (tree_interval_iter r)) [(Point (3)); (LeftOpen (10) (13))];
    same_set_r (do s <- (Ok (tree_from_raw_interval (Point (3)))); do r <- tree_union true s (tree_from_raw_interval (RightOpen (10) (13))); iter_collect true (tree_interval_iter r)) [(Point (3)); (RightOpen (10) (13))];
    same_set_r (do s <- (Ok (tree_from_raw_interval (Point (3)))); do r <- tree_union true s (tree_from_raw_interval (Closed (10) (13))); iter_collect true (tree_interval_iter r)) [(Point (3)); (Closed (10) (13))];
    same_set_r (do s <- (Ok (tree_from_raw_interval (Point (3)))); do r <- tree_union true s (tree_from_raw_interval (UpTo (13))); iter_collect true (tree_interval_iter r)) [(UpTo (13))];
    same_set_r (do s <- (Ok (tree_from_raw_interval (Point (3)))); do r <- tree_union true s (tree_from_raw_interval (UpFrom (13))); iter_collect true (tree_interval_iter r)) [(Point (3)); (UpFrom (13))];
    same_set_r (do s <- (Ok (tree_from_raw_interval (Point (3)))); do r <- tree_union true s (tree_from_raw_interval (To (13))); iter_collect true (tree_interval_iter r)) [(To (13))];
    same_set_r (do s <- (Ok (tree_from_raw_interval (Point (3)))); do r <- tree_union true s (tree_from_raw_interval (From (13))); iter_collect true (tree_interval_iter r)) [(Point (3)); (From (13))];
    same_set_r (do s <- (Ok (tree_from_raw_interval (Point (3)))); do r <- tree_union true s (tree_from_raw_interval (@Full Z)); iter_collect true (tree_interval_iter r)) [(@Full Z)] ] = true.
Proof. vm_compute. reflexivity. Qed.

(** src/test/tine_tree/union.rs: [open_center] *)
Example test_tree_union_open_center : forallb (fun b : bool => b)
  [ same_set_r (do s <- (Ok (tree_from_raw_interval (Open (0) (3)))); do r <- tree_union true s (tree_from_raw_interval (@Empty Z)); iter_collect true (tree_interval_iter r)) [(Open (0) (3))];
    same_set_r (do s <- (Ok (tree_from_raw_interval (Open (0) (3)))); do r <- tree_union true s (tree_from_raw_interval (Point (3))); iter_collect true (tree_interval_iter r)) [(LeftOpen (0) (3))];
    same_set_r (do s <- (Ok (tree_from_raw_interval (Open (0) (3)))); do r <- tree_union true s (tree_from_raw_interval (Open (0) (3))); iter_collect true (tree_interval_iter r)) [(Open (0) (3))];
    same_set_r (do s <- (Ok (tree_from_raw_interval (Open (0) (3)))); do r <- tree_union true s (tree_from_raw_interval (LeftOpen (0) (3))); iter_collect true (tree_interval_iter r)) [(LeftOpen (0) (3))];
    same_set_r (do s <- (Ok (tree_from_raw_interval (Open (0) (3)))); do r <- tree_union true s (tree_from_raw_interval (RightOpen (0) (3))); iter_collect true (tree_interval_iter r)) [(RightOpen (0) (3))];
    same_set_r (do s <- (Ok (tree_from_raw_interval (Open (0) (3)))); do r <- tree_union true s (tree_from_raw_interval (Closed (0) (3))); iter_collect true (tree_interval_iter r)) [(Closed (0) (3))];
    same_set_r (do s <- (Ok (tree_from_raw_interval (Open (0) (3)))); do r <- tree_union true s (tree_from_raw_interval (UpTo (3))); iter_collect true (tree_interval_iter r)) [(UpTo (3))];
    same_set_r (do s <- (Ok (tree_from_raw_interval (Open (0) (3)))); do r <- tree_union true s (tree_from_raw_interval (UpFrom (3))); iter_collect true (tree_interval_iter r)) [(Open (0) (3)); (UpFrom (3))];
    same_set_r (do s <- (Ok (tree_from_raw_interval (Open (0) (3)))); do r <- tree_union true s (tree_from_raw_interval (To (3))); iter_collect true (tree_interval_iter r)) [(To (3))];
    same_set_r (do s <- (Ok (tree_from_raw_interval (Open (0) (3)))); do r <- tree_union true s (tree_from_raw_interval (From (3))); iter_collect true (tree_interval_iter r)) [(UpFrom (0))];
    same_set_r (do s <- (Ok (tree_from_raw_interval (Open (0) (3)))); do r <- tree_union true s (tree_from_raw_interval (@Full Z)); iter_collect true (tree_interval_iter r)) [(@Full Z)] ] = true.
Proof. vm_compute. reflexivity. Qed.

(** src/test/tine_tree/union.rs: [open_left] *)
Example test_tree_union_open_left : forallb (fun b : bool => b)
  [ same_set_r (do s <- (Ok (tree_from_raw_interval (Open (0) (3)))); do r <- tree_union true s (tree_from_raw_interval (@Empty Z)); iter_collect true (tree_interval_iter r)) [(Open (0) (3))];
    same_set_r (do s <- (Ok (tree_from_raw_interval (Open (0) (3)))); do r <- tree_union true s (tree_from_raw_interval (Point (-3))); iter_collect true (tree_interval_iter r)) [(Open (0) (3)); (Point (-3))];
    same_set_r (do s <- (Ok (tree_from_raw_interval (Open (0) (3)))); do r <- tree_union true s (tree_from_raw_interval (Open (-3) (-1))); iter_collect true (tree_interval_iter r)) [(Open (0) (3)); (Open (-3) (-1))];
    same_set_r (do s <- (Ok (tree_from_raw_interval (Open (0) (3)))); do r <- tree_union true s (tree_from_raw_interval (LeftOpen (-3) (-1))); iter_collect true (tree_interval_iter r)) [(Open (0) (3)); (LeftOpen (-3) (-1))];
    same_set_r (do s <- (Ok (tree_from_raw_interval (Open (0) (3)))); do r <- tree_union true s (tree_from_raw_interval (RightOpen (-3) (-1))); iter_collect true (tree_interval_iter r)) [(Open (0) (3)); (RightOpen (-3) (-1))];
    same_set_r (do s <- (Ok (tree_from_raw_interval (Open (0) (3)))); do r <- tree_union true s (tree_from_raw_interval (Closed (-3) (-1))); iter_collect true (tree_interval_iter r)) [(Open (0) (3)); (Closed (-3) (-1))];
    same_set_r (do s <- (Ok (tree_from_raw_interval (Open (0) (3)))); do r <- tree_union true s (tree_from_raw_interval (UpTo (-3))); iter_collect true (tree_interval_iter r)) [(Open (0) (3)); (UpTo (-3))];
    same_set_r (do s <- (Ok (tree_from_raw_interval (Open (0) (3)))); do r <- tree_union true s (tree_from_raw_interval (UpFrom (-3))); iter_collect true (tree_interval_iter r)) [(UpFrom (-3))];
    same_set_r (do s <- (Ok (tree_from_raw_interval (Open (0) (3)))); do r <- tree_union true s (tree_from_raw_interval (To (-3))); iter_collect true (tree_interval_iter r)) [(Open (0) (3)); (To (-3))];
    same_set_r (do s <- (Ok (tree_from_raw_interval (Open (0) (3)))); do r <- tree_union true s (tree_from_raw_interval (From (-3))); iter_collect true (tree_interval_iter r)) [(From (-3))];
    same_set_r (do s <- (Ok (tree_from_raw_interval (Open (0) (3)))); do r <- tree_union true s (tree_from_raw_interval (@Full Z)); iter_collect true (tree_interval_iter r)) [(@Full Z)] ] = true.
Proof. vm_compute. reflexivity. Qed.

(** src/test/tine_tree/union.rs: [open_right] *)
Example test_tree_union_open_right : forallb (fun b : bool => b)
  [ same_set_r (do s <- (Ok (tree_from_raw_interval (Open (0) (3)))); do r <- tree_union true s (tree_from_raw_interval (@Empty Z)); iter_collect true (tree_interval_iter r)) [(Open (0) (3))];
    same_set_r (do s <- (Ok (tree_from_raw_interval (Open (0) (3)))); do r <- tree_union true s (tree_from_raw_interval (Point (13))); iter_collect true (tree_interval_iter r)) [(Open (0) (3)); (Point (13))];
    same_set_r (do s <- (Ok (tree_from_raw_interval (Open (0) (3)))); do r <- tree_union true s (tree_from_raw_interval (Open (10) (13))); iter_collect true (tree_interval_iter r)) [(Open (0) (3)); (Open (10) (13))];
    same_set_r (do s <- (Ok (tree_from_raw_interval (Open (0) (3)))); do r <- tree_union true s (tree_from_raw_interval (LeftOpen (10) (13))); iter_collect true (tree_interval_iter r)) [(Open (0) (3)); (LeftOpen (10) (13))];
    same_set_r (do s <- (Ok (tree_from_raw_interval (Open (0) (3)))); do r <- tree_union true s (tree_from_raw_interval (RightOpen (10) (13))); iter_collect true (tree_interval_iter r)) [(Open (0) (3)); (RightOpen (10) (13))];
    same_set_r (do s <- (Ok (tree_from_raw_interval (Open (0) (3)))); do r <- tree_union true s (tree_from_raw_interval (Closed (10) (13))); iter_collect true (tree_interval_iter r)) [(Open (0) (3)); (Closed (10) (13))];
    same_set_r (do s <- (Ok (tree_from_raw_interval (Open (0) (3)))); do r <- tree_union true s (tree_from_raw_interval (UpTo (13))); iter_collect true (tree_interval_iter r)) [(UpTo (13))];
    same_set_r (do s <- (Ok (tree_from_raw_interval (Open (0) (3)))); do r <- tree_union true s (tree_from_raw_interval (UpFrom (13))); iter_collect true (tree_interval_iter r)) [(Open (0) (3)); (UpFrom (13))];
    same_set_r (do s <- (Ok (tree_from_raw_interval (Open (0) (3)))); do r <- tree_union true s (tree_from_raw_interval (To (13))); iter_collect true (tree_interval_iter r)) [(To (13))];
    same_set_r (do s <- (Ok (tree_from_raw_interval (Open (0) (3)))); do r <- tree_union true s (tree_from_raw_interval (From (13))); iter_collect true (tree_interval_iter r)) [(Open (0) (3)); (From (13))];
    same_set_r (do s <- (Ok (tree_from_raw_interval (Open (0) (3)))); do r <- tree_union true s (tree_from_raw_interval (@Full Z)); iter_collect true (tree_interval_iter r)) [(@Full Z)] ] = true.
Proof. vm_compute. reflexivity. Qed.

(** src/test/tine_tree/union.rs: [left_open_center] *)
Example test_tree_union_left_open_center : forallb (fun b : bool => b)
  [ same_set_r (do s <- (Ok (tree_from_raw_interval (LeftOpen (0) (3)))); do r <- tree_union true s (tree_from_raw_interval (@Empty Z)); iter_collect true (tree_interval_iter r)) [(LeftOpen (0) (3))];
    same_set_r (do s <- (Ok (tree_from_raw_interval (LeftOpen (0) (3)))); do r <- tree_union true s (tree_from_raw_interval (Point (3))); iter_collect true (tree_interval_iter r)) [(LeftOpen (0) (3))];
    same_set_r (do s <- (Ok (tree_from_raw_interval (LeftOpen (0) (3)))); do r <- tree_union true s (tree_from_raw_interval (Open (0) (3))); iter_collect true (tree_interval_iter r)) [(LeftOpen (0) (3))];
    same_set_r (do s <- (Ok (tree_from_raw_interval (LeftOpen (0) (3)))); do r <- tree_union true s (tree_from_raw_interval (LeftOpen (0) (3))); iter_collect true (tree_interval_iter r)) [(LeftOpen (0) (3))];
    same_set_r (do s <- (Ok (tree_from_raw_interval (LeftOpen (0) (3)))); do r <- tree_union true s (tree_from_raw_interval (RightOpen (0) (3))); iter_collect true (tree_interval_iter r)) [(Closed (0) (3))];
    same_set_r (do s <- (Ok (tree_from_raw_interval (LeftOpen (0) (3)))); do r <- tree_union true s (tree_from_raw_interval (Closed (0) (3))); iter_collect true (tree_interval_iter r)) [(Closed (0) (3))];
    same_set_r (do s <- (Ok (tree_from_raw_interval (LeftOpen (0) (3)))); do r <- tree_union true s (tree_from_raw_interval (UpTo (3))); iter_collect true (tree_interval_iter r)) [(To (3))];
    same_set_r (do s <- (Ok (tree_from_raw_interval (LeftOpen (0) (3)))); do r <- tree_union true s (tree_from_raw_interval (UpFrom (3))); iter_collect true (tree_interval_iter r)) [(UpFrom (0))];
    same_set_r (do s <- (Ok (tree_from_raw_interval (LeftOpen (0) (3)))); do r <- tree_union true s (tree_from_raw_interval (To (3))); iter_collect true (tree_interval_iter r)) [(To (3))];
    same_set_r (do s <- (Ok (tree_from_raw_interval (LeftOpen (0) (3)))); do r <- tree_union true s (tree_from_raw_interval (From (3))); iter_collect true (tree_interval_iter r)) [(UpFrom (0))];
    same_set_r (do s <- (Ok (tree_from_raw_interval (LeftOpen (0) (3)))); do r <- tree_union true s (tree_from_raw_interval (@Full Z)); iter_collect true (tree_interval_iter r)) [(@Full Z)] ] = true.
Proof. vm_compute. reflexivity. Qed.

(** src/test/tine_tree/union.rs: [left_open_left] *)
Example test_tree_union_left_open_left : forallb (fun b : bool => b)
  [ same_set_r (do s <- (Ok (tree_from_raw_interval (LeftOpen (0) (3)))); do r <- tree_union true s (tree_from_raw_interval (@Empty Z)); iter_collect true (tree_interval_iter r)) [(LeftOpen (0) (3))];
    same_set_r (do s <- (Ok (tree_from_raw_interval (LeftOpen (0) (3)))); do r <- tree_union true s (tree_from_raw_interval (Point (-3))); iter_collect true (tree_interval_iter r)) [(LeftOpen (0) (3)); (Point (-3))];
    same_set_r (do s <- (Ok (tree_from_raw_interval (LeftOpen (0) (3)))); do r <- tree_union true s (tree_from_raw_interval (Open (-3) (-1))); iter_collect true (tree_interval_iter r)) [(LeftOpen (0) (3)); (Open (-3) (-1))];
    same_set_r (do s <- (Ok (tree_from_raw_interval (LeftOpen (0) (3)))); do r <- tree_union true s (tree_from_raw_interval (LeftOpen (-3) (-1))); iter_collect true (tree_interval_iter r)) [(LeftOpen (0) (3)); (LeftOpen (-3) (-1))];
    same_set_r (do s <- (Ok (tree_from_raw_interval (LeftOpen (0) (3)))); do r <- tree_union true s (tree_from_raw_interval (RightOpen (-3) (-1))); iter_collect true (tree_interval_iter r)) [(LeftOpen (0) (3)); (RightOpen (-3) (-1))];
    same_set_r (do s <- (Ok (tree_from_raw_interval (LeftOpen (0) (3)))); do r <- tree_union true s (tree_from_raw_interval (Closed (-3) (-1))); iter_collect true (tree_interval_iter r)) [(LeftOpen (0) (3)); (Closed (-3) (-1))];
    same_set_r (do s <- (Ok (tree_from_raw_interval (LeftOpen (0) (3)))); do r <- tree_union true s (tree_from_raw_interval (UpTo (-3))); iter_collect true (tree_interval_iter r)) [(LeftOpen (0) (3)); (UpTo (-3))];
    same_set_r (do s <- (Ok (tree_from_raw_interval (LeftOpen (0) (3)))); do r <- tree_union true s (tree_from_raw_interval (UpFrom (-3))); iter_collect true (tree_interval_iter r)) [(UpFrom (-3))];
    same_set_r (do s <- (Ok (tree_from_raw_interval (LeftOpen (0) (3)))); do r <- tree_union true s (tree_from_raw_interval (To (-3))); iter_collect true (tree_interval_iter r)) [(LeftOpen (0) (3)); (To (-3))];
    same_set_r (do s <- (Ok (tree_from_raw_interval (LeftOpen (0) (3)))); do r <- tree_union true s (tree_from_raw_interval (From (-3))); iter_collect true (tree_interval_iter r)) [(From (-3))];
    same_set_r (do s <- (Ok (tree_from_raw_interval (LeftOpen (0) (3)))); do r <- tree_union true s (tree_from_raw_interval (@Full Z)); iter_collect true (tree_interval_iter r)) [(@Full Z)] ] = true.
Proof. vm_compute. reflexivity. Qed.

(** src/test/tine_tree/union.rs: [left_open_right] *)
Example test_tree_union_left_open_right : forallb (fun b : bool => b)
  [ same_set_r (do s <- (Ok (tree_from_raw_interval (LeftOpen (0) (3)))); do r <- tree_union true s (tree_from_raw_interval (@Empty Z)); iter_collect true (tree_interval_iter r)) [(LeftOpen (0) (3))];
    same_set_r (do s <- (Ok (tree_from_raw_interval (LeftOpen (0) (3)))); do r <- tree_union true s (tree_from_raw_interval (Point (13))); iter_collect true (tree_interval_iter r)) [(LeftOpen (0) (3)); (Point (13))];
    same_set_r (do s <- (Ok (tree_from_raw_interval (LeftOpen (0) (3)))); do r <- tree_union true s (tree_from_raw_interval (Open (10) (13))); iter_collect true (tree_interval_iter r)) [(LeftOpen (0) (3)); (Open (10) (13))];
    same_set_r (do s <- (Ok (tree_from_raw_interval (LeftOpen (0) (3)))); do r <- tree_union true s (tree_from_raw_interval (LeftOpen (10) (13))); iter_collect true (tree_interval_iter r)) [(LeftOpen (0) (3)); (LeftOpen (10) (13))];
    same_set_r (do s <- (Ok (tree_from_raw_interval (LeftOpen (0) (3)))); do r <- tree_union true s (tree_from_raw_interval (RightOpen (10) (13))); iter_collect true (tree_interval_iter r)) [(LeftOpen (0) (3)); (RightOpen (10) (13))];
    same_set_r (do s <- (Ok (tree_from_raw_interval (LeftOpen (0) (3)))); do r <- tree_union true s (tree_from_raw_interval (Closed (10) (13))); iter_collect true (tree_interval_iter r)) [(LeftOpen (0) (3)); (Closed (10) (13))];
    same_set_r (do s <- (Ok (tree_from_raw_interval (LeftOpen (0) (3)))); do r <- tree_union true s (tree_from_raw_interval (UpTo (13))); iter_collect true (tree_interval_iter r)) [(UpTo (13))];
    same_set_r (do s <- (Ok (tree_from_raw_interval (LeftOpen (0) (3)))); do r <- tree_union true s (tree_from_raw_interval (UpFrom (13))); iter_collect true (tree_interval_iter r)) [(LeftOpen (0) (3)); (UpFrom (13))];
    same_set_r (do s <- (Ok (tree_from_raw_interval (LeftOpen (0) (3)))); do r <- tree_union true s (tree_from_raw_interval (To (13))); iter_collect true (tree_interval_iter r)) [(To (13))];
    same_set_r (do s <- (Ok (tree_from_raw_interval (LeftOpen (0) (3)))); do r <- tree_union true s (tree_from_raw_interval (From (13))); iter_collect true (tree_interval_iter r)) [(LeftOpen (0) (3)); (From (13))];
    same_set_r (do s <- (Ok (tree_from_raw_interval (LeftOpen (0) (3)))); do r <- tree_union true s (tree_from_raw_interval (@Full Z)); iter_collect true (tree_interval_iter r)) [(@Full Z)] ] = true.
Proof. vm_compute. reflexivity. Qed.

(** src/test/tine_tree/union.rs: [right_open_center] *)
Example test_tree_union_right_open_center : forallb (fun b : bool => b)
  [ same_set_r (do s <- (Ok (tree_from_raw_interval (RightOpen (0) (3)))); do r <- tree_union true s (tree_from_raw_interval (@Empty Z)); iter_collect true (tree_interval_iter r)) [(RightOpen (0) (3))];
    same_set_r (do s <- (Ok (tree_from_raw_interval (RightOpen (0) (3)))); do r <- tree_union true s (tree_from_raw_interval (Point (3))); iter_collect true (tree_interval_iter r)) [(Closed (0) (3))];
    same_set_r (do s <- (Ok (tree_from_raw_interval (RightOpen (0) (3)))); do r <- tree_union true s (tree_from_raw_interval (Open (0) (3))); iter_collect true (tree_interval_iter r)) [(RightOpen (0) (3))];
    same_set_r (do s <- (Ok (tree_from_raw_interval (RightOpen (0) (3)))); do r <- tree_union true s (tree_from_raw_interval (LeftOpen (0) (3))); iter_collect true (tree_interval_iter r)) [(Closed (0) (3))];
    same_set_r (do s <- (Ok (tree_from_raw_interval (RightOpen (0) (3)))); do r <- tree_union true s (tree_from_raw_interval (RightOpen (0) (3))); iter_collect true (tree_interval_iter r)) [(RightOpen (0) (3))];
    same_set_r (do s <- (Ok (tree_from_raw_interval (RightOpen (0) (3)))); do r <- tree_union true s (tree_from_raw_interval (Closed (0) (3))); iter_collect true (tree_interval_iter r)) [(Closed (0) (3))];
    same_set_r (do s <- (Ok (tree_from_raw_interval (RightOpen (0) (3)))); do r <- tree_union true s (tree_from_raw_interval (UpTo (3))); iter_collect true (tree_interval_iter r)) [(UpTo (3))];
    same_set_r (do s <- (Ok (tree_from_raw_interval (RightOpen (0) (3)))); do r <- tree_union true s (tree_from_raw_interval (UpFrom (3))); iter_collect true (tree_interval_iter r)) [(RightOpen (0) (3)); (UpFrom (3))];
    same_set_r (do s <- (Ok (tree_from_raw_interval (RightOpen (0) (3)))); do r <- tree_union true s (tree_from_raw_interval (To (3))); iter_collect true (tree_interval_iter r)) [(To (3))];
    same_set_r (do s <- (Ok (tree_from_raw_interval (RightOpen (0) (3)))); do r <- tree_union true s (tree_from_raw_interval (From (3))); iter_collect true (tree_interval_iter r)) [(From (0))];
    same_set_r (do s <- (Ok (tree_from_raw_interval (RightOpen (0) (3)))); do r <- tree_union true s (tree_from_raw_interval (@Full Z)); iter_collect true (tree_interval_iter r)) [(@Full Z)] ] = true.
Proof. vm_compute. reflexivity. Qed.

(** src/test/tine_tree/union.rs: [right_open_left] *)
Example test_tree_union_right_open_left : forallb (fun b : bool => b)
  [ same_set_r (do s <- (Ok (tree_from_raw_interval (RightOpen (0) (3)))); do r <- tree_union true s (tree_from_raw_interval (@Empty Z)); iter_collect true (tree_interval_iter r)) [(RightOpen (0) (3))];
    same_set_r (do s <- (Ok (tree_from_raw_interval (RightOpen (0) (3)))); do r <- tree_union true s (tree_from_raw_interval (Point (-3))); iter_collect true (tree_interval_iter r)) [(RightOpen (0) (3)); (Point (-3))];
    same_set_r (do s <- (Ok (tree_from_raw_interval (RightOpen (0) (3)))); do r <- tree_union true s (tree_from_raw_interval (Open (-3) (-1))); iter_collect true (tree_interval_iter r)) [(RightOpen (0) (3)); (Open (-3) (-1))];
    same_set_r (do s <- (Ok (tree_from_raw_interval (RightOpen (0) (3)))); do r <- tree_union true s (tree_from_raw_interval (LeftOpen (-3) (-1))); iter_collect true (tree_interval_iter r)) [(RightOpen (0) (3)); (LeftOpen (-3) (-1))];
    same_set_r (do s <- (Ok (tree_from_raw_interval (RightOpen (0) (3)))); do r <- tree_union true s (tree_from_raw_interval (RightOpen (-3) (-1))); iter_collect true (tree_interval_iter r)) [(RightOpen (0) (3)); (RightOpen (-3) (-1))];
    same_set_r (do s <- (Ok (tree_from_raw_interval (RightOpen (0) (3)))); do r <- tree_union true s (tree_from_raw_interval (Closed (-3) (-1))); iter_collect true (tree_interval_iter r)) [(RightOpen (0) (3)); (Closed (-3) (-1))];
    same_set_r (do s <- (Ok (tree_from_raw_interval (RightOpen (0) (3)))); do r <- tree_union true s (tree_from_raw_interval (UpTo (-3))); iter_collect true (tree_interval_iter r)) [(RightOpen (0) (3)); (UpTo (-3))];
    same_set_r (do s <- (Ok (tree_from_raw_interval (RightOpen (0) (3)))); do r <- tree_union true s (tree_from_raw_interval (UpFrom (-3))); iter_collect true (tree_interval_iter r)) [(UpFrom (-3))];
    same_set_r (do s <- (Ok (tree_from_raw_interval (RightOpen (0) (3)))); do r <- tree_union true s (tree_from_raw_interval (To (-3))); iter_collect true (tree_interval_iter r)) [(RightOpen (0) (3)); (To (-3))];
    same_set_r (do s <- (Ok (tree_from_raw_interval (RightOpen (0) (3)))); do r <- tree_union true s (tree_from_raw_interval (From (-3))); iter_collect true (tree_interval_iter r)) [(From (-3))];
    same_set_r (do s <- (Ok (tree_from_raw_interval (RightOpen (0) (3)))); do r <- tree_union true s (tree_from_raw_interval (@Full Z)); iter_collect true (tree_interval_iter r)) [(@Full Z)] ] = true.
Proof. vm_compute. reflexivity. Qed.

(** src/test/tine_tree/union.rs: [right_open_right] *)
Example test_tree_union_right_open_right : forallb (fun b : bool => b)
  [ same_set_r (do s <- (Ok (tree_from_raw_interval (RightOpen (0) (3)))); do r <- tree_union true s (tree_from_raw_interval (@Empty Z)); iter_collect true (tree_interval_iter r)) [(RightOpen (0) (3))];
    same_set_r (do s <- (Ok (tree_from_raw_interval (RightOpen (0) (3)))); do r <- tree_union true s (tree_from_raw_interval (Point (13))); iter_collect true (tree_interval_iter r)) [(RightOpen (0) (3)); (Point (13))];
    same_set_r (do s <- (Ok (tree_from_raw_interval (RightOpen (0) (3)))); do r <- tree_union true s (tree_from_raw_interval (Open (10) (13))); iter_collect true (tree_interval_iter r)) [(RightOpen (0) (3)); (Open (10) (13))];
    same_set_r (do s <- (Ok (tree_from_raw_interval (RightOpen (0) (3)))); do r <- tree_union true s (tree_from_raw_interval (LeftOpen (10) (13))); iter_collect true (tree_interval_iter r)) [(RightOpen (0) (3)); (LeftOpen (10) (13))];
    same_set_r (do s <- (Ok (tree_from_raw_interval (RightOpen (0) (3)))); do r <- tree_union true s (tree_from_raw_interval (RightOpen (10) (13))); iter_collect true (tree_interval_iter r)) [(RightOpen (0) (3)); (RightOpen (10) (13))];
    same_set_r (do s <- (Ok (tree_from_raw_interval (RightOpen (0) (3)))); do r <- tree_union true s (tree_from_raw_interval (Closed (10) (13))); iter_collect true (tree_interval_iter r)) [(RightOpen (0) (3)); (Closed (10) (13))];
    same_set_r (do s <- (Ok (tree_from_raw_interval (RightOpen (0) (3)))); do r <- tree_union true s (tree_from_raw_interval (UpTo (13))); iter_collect true (tree_interval_iter r)) [(UpTo (13))];
    same_set_r (do s <- (Ok (tree_from_raw_interval (RightOpen (0) (3)))); do r <- tree_union true s (tree_from_raw_interval (UpFrom (13))); iter_collect true (tree_interval_iter r)) [(RightOpen (0) (3)); (UpFrom (13))];
    same_set_r (do s <- (Ok (tree_from_raw_interval (RightOpen (0) (3)))); do r <- tree_union true s (tree_from_raw_interval (To (13))); iter_collect true (tree_interval_iter r)) [(To (13))];
    same_set_r (do s <- (Ok (tree_from_raw_interval (RightOpen (0) (3)))); do r <- tree_union true s (tree_from_raw_interval (From (13))); iter_collect true (tree_interval_iter r)) [(RightOpen (0) (3)); (From (13))];
    same_set_r (do s <- (Ok (tree_from_raw_interval (RightOpen (0) (3)))); do r <- tree_union true s (tree_from_raw_interval (@Full Z)); iter_collect true (tree_interval_iter r)) [(@Full Z)] ] = true.
Proof. vm_compute. reflexivity. Qed.

(** src/test/tine_tree/union.rs: [closed_center] *)
Example test_tree_union_closed_center : forallb (fun b : bool => b)
  [ same_set_r (do s <- (Ok (tree_from_raw_interval (Closed (0) (3)))); do r <- tree_union true s (tree_from_raw_interval (@Empty Z)); iter_collect true (tree_interval_iter r)) [(Closed (0) (3))];
    same_set_r (do s <- (Ok (tree_from_raw_interval (Closed (0) (3)))); do r <- tree_union true s (tree_from_raw_interval (Point (3))); iter_collect true (tree_interval_iter r)) [(Closed (0) (3))];
    same_set_r (do s <- (Ok (tree_from_raw_interval (Closed (0) (3)))); do r <- tree_union true s (tree_from_raw_interval (Open (0) (3))); iter_collect true (tree_interval_iter r)) [(Closed (0) (3))];
    same_set_r (do s <- (Ok (tree_from_raw_interval (Closed (0) (3)))); do r <- tree_union true s (tree_from_raw_interval (LeftOpen (0) (3))); iter_collect true (tree_interval_iter r)) [(Closed (0) (3))];
    same_set_r (do s <- (Ok (tree_from_raw_interval (Closed (0) (3)))); do r <- tree_union true s (tree_from_raw_interval (RightOpen (0) (3))); iter_collect true (tree_interval_iter r)) [(Closed (0) (3))];
    same_set_r (do s <- (Ok (tree_from_raw_interval (Closed (0) (3)))); do r <- tree_union true s (tree_from_raw_interval (Closed (0) (3))); iter_collect true (tree_interval_iter r)) [(Closed (0) (3))];
    same_set_r (do s <- (Ok (tree_from_raw_interval (Closed (0) (3)))); do r <- tree_union true s (tree_from_raw_interval (UpTo (3))); iter_collect true (tree_interval_iter r)) [(To (3))];
    same_set_r (do s <- (Ok (tree_from_raw_interval (Closed (0) (3)))); do r <- tree_union true s (tree_from_raw_interval (UpFrom (3))); iter_collect true (tree_interval_iter r)) [(From (0))];
    same_set_r (do s <- (Ok (tree_from_raw_interval (Closed (0) (3)))); do r <- tree_union true s (tree_from_raw_interval (To (3))); iter_collect true (tree_interval_iter r)) [(To (3))];
    same_set_r (do s <- (Ok (tree_from_raw_interval (Closed (0) (3)))); do r <- tree_union true s (tree_from_raw_interval (From (3))); iter_collect true (tree_interval_iter r)) [(From (0))];
    same_set_r (do s <- (Ok (tree_from_raw_interval (Closed (0) (3)))); do r <- tree_union true s (tree_from_raw_interval (@Full Z)); iter_collect true (tree_interval_iter r)) [(@Full Z)] ] = true.
Proof. vm_compute. reflexivity. Qed.

(** src/test/tine_tree/union.rs: [closed_left] *)
Example test_tree_union_closed_left : forallb (fun b : bool => b)
  [ same_set_r (do s <- (Ok (tree_from_raw_interval (Closed (0) (3)))); do r <- tree_union true s (tree_from_raw_interval (@Empty Z)); iter_collect true (tree_interval_iter r)) [(Closed (0) (3))];
    same_set_r (do s <- (Ok (tree_from_raw_interval (Closed (0) (3)))); do r <- tree_union true s (tree_from_raw_interval (Point (-3))); iter_collect true (tree_interval_iter r)) [(Closed (0) (3)); (Point (-3))];
    same_set_r (do s <- (Ok (tree_from_raw_interval (Closed (0) (3)))); do r <- tree_union true s (tree_from_raw_interval (Open (-3) (-1))); iter_collect true (tree_interval_iter r)) [(Closed (0) (3)); (Open (-3) (-1))];
    same_set_r (do s <- (Ok (tree_from_raw_interval (Closed (0) (3)))); do r <- tree_union true s (tree_from_raw_interval (LeftOpen (-3) (-1))); iter_collect true (tree_interval_iter r)) [(Closed (0) (3)); (LeftOpen (-3) (-1))];
    same_set_r (do s <- (Ok (tree_from_raw_interval (Closed (0) (3)))); do r <- tree_union true s (tree_from_raw_interval (RightOpen (-3) (-1))); iter_collect true (tree_interval_iter r)) [(Closed (0) (3)); (RightOpen (-3) (-1))];
    same_set_r (do s <- (Ok (tree_from_raw_interval (Closed (0) (3)))); do r <- tree_union true s (tree_from_raw_interval (Closed (-3) (-1))); iter_collect true (tree_interval_iter r)) [(Closed (0) (3)); (Closed (-3) (-1))];
    same_set_r (do s <- (Ok (tree_from_raw_interval (Closed (0) (3)))); do r <- tree_union true s (tree_from_raw_interval (UpTo (-3))); iter_collect true (tree_interval_iter r)) [(Closed (0) (3)); (UpTo (-3))];
    same_set_r (do s <- (Ok (tree_from_raw_interval (Closed (0) (3)))); do r <- tree_union true s (tree_from_raw_interval (UpFrom (-3))); iter_collect true (tree_interval_iter r)) [(UpFrom (-3))];
    same_set_r (do s <- (Ok (tree_from_raw_interval (Closed (0) (3)))); do r <- tree_union true s (tree_from_raw_interval (To (-3))); iter_collect true (tree_interval_iter r)) [(Closed (0) (3)); (To (-3))];
    same_set_r (do s <- (Ok (tree_from_raw_interval (Closed (0) (3)))); do r <- tree_union true s (tree_from_raw_interval (From (-3))); iter_collect true (tree_interval_iter r)) [(From (-3))];
    same_set_r (do s <- (Ok (tree_from_raw_interval (Closed (0) (3)))); do r <- tree_union true s (tree_from_raw_interval (@Full Z)); iter_collect true (tree_interval_iter r)) [(@Full Z)] ] = true.
Proof. vm_compute. reflexivity. Qed.

(** src/test/tine_tree/union.rs: [closed_right] *)
Example test_tree_union_closed_right : forallb (fun b : bool => b)
  [ same_set_r (do s <- (Ok (tree_from_raw_interval (Closed (0) (3)))); do r <- tree_union true s (tree_from_raw_interval (@Empty Z)); iter_collect true (tree_interval_iter r)) [(Closed (0) (3))];
    same_set_r (do s <- (Ok (tree_from_raw_interval (Closed (0) (3)))); do r <- tree_union true s (tree_from_raw_interval (Point (13))); iter_collect true (tree_interval_iter r)) [(Closed (0) (3)); (Point (13))];
    same_set_r (do s <- (Ok (tree_from_raw_interval (Closed (0) (3)))); do r <- tree_union true s (tree_from_raw_interval (Open (10) (13))); iter_collect true (tree_interval_iter r)) [(Closed (0) (3)); (Open (10) (13))];
    same_set_r (do s <- (Ok (tree_from_raw_interval (Closed (0) (3)))); do r <- tree_union true s (tree_from_raw_interval (LeftOpen (10) (13))); iter_collect true (tree_interval_iter r)) [(Closed (0) (3)); (LeftOpen (10) (13))];
    same_set_r (do s <- (Ok (tree_from_raw_interval (Closed (0) (3)))); do r <- tree_union true s (tree_from_raw_interval (RightOpen (10) (13))); iter_collect true (tree_interval_iter r)) [(Closed (0) (3)); (RightOpen (10) (13))];
    same_set_r (do s <- (Ok (tree_from_raw_interval (Closed (0) (3)))); do r <- tree_union true s (tree_from_raw_interval (Closed (10) (13))); iter_collect true (tree_interval_iter r)) [(Closed (0) (3)); (Closed (10) (13))];
    same_set_r (do s <- (Ok (tree_from_raw_interval (Closed (0) (3)))); do r <- tree_union true s (tree_from_raw_interval (UpTo (13))); iter_collect true (tree_interval_iter r)) [(UpTo (13))];
    same_set_r (do s <- (Ok (tree_from_raw_interval (Closed (0) (3)))); do r <- tree_union true s (tree_from_raw_interval (UpFrom (13))); iter_collect true (tree_interval_iter r)) [(Closed (0) (3)); (UpFrom (13))];
    same_set_r (do s <- (Ok (tree_from_raw_interval (Closed (0) (3)))); do r <- tree_union true s (tree_from_raw_interval (To (13))); iter_collect true (tree_interval_iter r)) [(To (13))];
    same_set_r (do s <- (Ok (tree_from_raw_interval (Closed (0) (3)))); do r <- tree_union true s (tree_from_raw_interval (From (13))); iter_collect true (tree_interval_iter r)) [(Closed (0) (3)); (From (13))];
    same_set_r (do s <- (Ok (tree_from_raw_interval (Closed (0) (3)))); do r <- tree_union true s (tree_from_raw_interval (@Full Z)); iter_collect true (tree_interval_iter r)) [(@Full Z)] ] = true.
Proof. vm_compute. reflexivity. Qed.

(** src/test/tine_tree/union.rs: [up_to_center] *)
Example test_tree_union_up_to_center : forallb (fun b : bool => b)
  [ same_set_r (do s <- (Ok (tree_from_raw_interval (UpTo (3)))); do r <- tree_union true s (tree_from_raw_interval (@Empty Z)); iter_collect true (tree_interval_iter r)) [(UpTo (3))];
    same_set_r (do s <- (Ok (tree_from_raw_interval (UpTo (3)))); do r <- tree_union true s (tree_from_raw_interval (Point (3))); iter_collect true (tree_interval_iter r)) [(To (3))];
    same_set_r (do s <- (Ok (tree_from_raw_interval (UpTo (3)))); do r <- tree_union true s (tree_from_raw_interval (Open (0) (3))); iter_collect true (tree_interval_iter r)) [(UpTo (3))];
    same_set_r (do s <- (Ok (tree_from_raw_interval (UpTo (3)))); do r <- tree_union true s (tree_from_raw_interval (LeftOpen (0) (3))); iter_collect true (tree_interval_iter r)) [(To (3))];
    same_set_r (do s <- (Ok (tree_from_raw_interval (UpTo (3)))); do r <- tree_union true s (tree_from_raw_interval (RightOpen (0) (3))); iter_collect true (tree_interval_iter r)) [(UpTo (3))];
    same_set_r (do s <- (Ok (tree_from_raw_interval (UpTo (3)))); do r <- tree_union true s (tree_from_raw_interval (Closed (0) (3))); iter_collect true (tree_interval_iter r)) [(To (3))];
    same_set_r (do s <- (Ok (tree_from_raw_interval (UpTo (3)))); do r <- tree_union true s (tree_from_raw_interval (UpTo (3))); iter_collect true (tree_interval_iter r)) [(UpTo (3))];
    same_set_r (do s <- (Ok (tree_from_raw_interval (UpTo (3)))); do r <- tree_union true s (tree_from_raw_interval (UpFrom (3))); iter_collect true (tree_interval_iter r)) [(UpTo (3)); (UpFrom (3))];
    same_set_r (do s <- (Ok (tree_from_raw_interval (UpTo (3)))); do r <- tree_union true s (tree_from_raw_interval (To (3))); iter_collect true (tree_interval_iter r)) [(To (3))];
    same_set_r (do s <- (Ok (tree_from_raw_interval (UpTo (3)))); do r <- tree_union true s (tree_from_raw_interval (From (3))); iter_collect true (tree_interval_iter r)) [(@Full Z)];
    same_set_r (do s <- (Ok (tree_from_raw_interval (UpTo (3)))); do r <- tree_union true s (tree_from_raw_interval (@Full Z)); iter_collect true (tree_interval_iter r)) [(@Full Z)] ] = true.
Proof. vm_compute. reflexivity. Qed.

(** src/test/tine_tree/union.rs: [up_to_left] *)
Example test_tree_union_up_to_left : forallb (fun b : bool => b)
  [ same_set_r (do s <- (Ok (tree_from_raw_interval (UpTo (3)))); do r <- tree_union true s (tree_from_raw_interval (@Empty Z)); iter_collect true (tree_interval_iter r)) [(UpTo (3))];
    same_set_r (do s <- (Ok (tree_from_raw_interval (UpTo (3)))); do r <- tree_union true s (tree_from_raw_interval (Point (-3))); iter_collect true (tree_interval_iter r)) [(UpTo (3))];
    same_set_r (do s <- (Ok (tree_from_raw_interval (UpTo (3)))); do r <- tree_union true s (tree_from_raw_interval (Open (-3) (-1))); iter_collect true (tree_interval_iter r)) [(UpTo (3))];
    same_set_r (do s <- (Ok (tree_from_raw_interval (UpTo (3)))); do r <- tree_union true s (tree_from_raw_interval (LeftOpen (-3) (-1))); iter_collect true (tree_interval_iter r)) [(UpTo (3))];
    same_set_r (do s <- (Ok (tree_from_raw_interval (UpTo (3)))); do r <- tree_union true s (tree_from_raw_interval (RightOpen (-3) (-1))); iter_collect true (tree_interval_iter r)) [(UpTo (3))];
    same_set_r (do s <- (Ok (tree_from_raw_interval (UpTo (3)))); do r <- tree_union true s (tree_from_raw_interval (Closed (-3) (-1))); iter_collect true (tree_interval_iter r)) [(UpTo (3))];
    same_set_r (do s <- (Ok (tree_from_raw_interval (UpTo (3)))); do r <- tree_union true s (tree_from_raw_interval (UpTo (-3))); iter_collect true (tree_interval_iter r)) [(UpTo (3))];
    same_set_r (do s <- (Ok (tree_from_raw_interval (UpTo (3)))); do r <- tree_union true s (tree_from_raw_interval (UpFrom (-3))); iter_collect true (tree_interval_iter r)) [(@Full Z)];
    same_set_r (do s <- (Ok (tree_from_raw_interval (UpTo (3)))); do r <- tree_union true s (tree_from_raw_interval (To (-3))); iter_collect true (tree_interval_iter r)) [(UpTo (3))];
    same_set_r (do s <- (Ok (tree_from_raw_interval (UpTo (3)))); do r <- tree_union true s (tree_from_raw_interval (From (-3))); iter_collect true (tree_interval_iter r)) [(@Full Z)];
    same_set_r (do s <- (Ok (tree_from_raw_interval (UpTo (3)))); do r <- tree_union true s (tree_from_raw_interval (@Full Z)); iter_collect true (tree_interval_iter r)) [(@Full Z)] ] = true.
Proof. vm_compute. reflexivity. Qed.

(** src/test/tine_tree/union.rs: [up_to_right] *)
Example test_tree_union_up_to_right : forallb (fun b : bool => b)
  [ same_set_r (do s <- (Ok (tree_from_raw_interval (UpTo (3)))); do r <- tree_union true s (tree_from_raw_interval (@Empty Z)); iter_collect true (tree_interval_iter r)) [(UpTo (3))];
    same_set_r (do s <- (Ok (tree_from_raw_interval (UpTo (3)))); do r <- tree_union true s (tree_from_raw_interval (Point (13))); iter_collect true (tree_interval_iter r)) [(UpTo (3)); (Point (13))];
    same_set_r (do s <- (Ok (tree_from_raw_interval (UpTo (3)))); do r <- tree_union true s (tree_from_raw_interval (Open (10) (13))); iter_collect true (tree_interval_iter r)) [(UpTo (3)); (Open (10) (13))];
    same_set_r (do s <- (Ok (tree_from_raw_interval (UpTo (3)))); do r <- tree_union true s (tree_from_raw_interval (LeftOpen (10) (13))); iter_collect true (tree_interval_iter r)) [(UpTo (3)); (LeftOpen (10) (13))];
    same_set_r (do s <- (Ok (tree_from_raw_interval (UpTo (3)))); do r <- tree_union true s (tree_from_raw_interval (RightOpen (10) (13))); iter_collect true (tree_interval_iter r)) [(UpTo (3)); (RightOpen (10) (13))];
    same_set_r (do s <- (Ok (tree_from_raw_interval (UpTo (3)))); do r <- tree_union true s (tree_from_raw_interval (Closed (10) (13))); iter_collect true (tree_interval_iter r)) [(UpTo (3)); (Closed (10) (13))];
    same_set_r (do s <- (Ok (tree_from_raw_interval (UpTo (3)))); do r <- tree_union true s (tree_from_raw_interval (UpTo (13))); iter_collect true (tree_interval_iter r)) [(UpTo (13))];
    same_set_r (do s <- (Ok (tree_from_raw_interval (UpTo (3)))); do r <- tree_union true s (tree_from_raw_interval (UpFrom (13))); iter_collect true (tree_interval_iter r)) [(UpTo (3)); (UpFrom (13))];
    same_set_r (do s <- (Ok (tree_from_raw_interval (UpTo (3)))); do r <- tree_union true s (tree_from_raw_interval (To (13))); iter_collect true (tree_interval_iter r)) [(To (13))];
    same_set_r (do s <- (Ok (tree_from_raw_interval (UpTo (3)))); do r <- tree_union true s (tree_from_raw_interval (From (13))); iter_collect true (tree_interval_iter r)) [(UpTo (3)); (From (13))];
    same_set_r (do s <- (Ok (tree_from_raw_interval (UpTo (3)))); do r <- tree_union true s (tree_from_raw_interval (@Full Z)); iter_collect true (tree_interval_iter r)) [(@Full Z)] ] = true.
Proof. vm_compute. reflexivity. Qed.

(** src/test/tine_tree/union.rs: [up_from_center] *)
Example test_tree_union_up_from_center : forallb (fun b : bool => b)
  [ same_set_r (do s <- (Ok (tree_from_raw_interval (UpFrom (0)))); do r <- tree_union true s (tree_from_raw_interval (@Empty Z)); iter_collect true (tree_interval_iter r)) [(UpFrom (0))];
    same_set_r (do s <- (Ok (tree_from_raw_interval (UpFrom (0)))); do r <- tree_union true s (tree_from_raw_interval (Point (0))); iter_collect true (tree_interval_iter r)) [(From (0))];
    same_set_r (do s <- (Ok (tree_from_raw_interval (UpFrom (0)))); do r <- tree_union true s (tree_from_raw_interval (Open (0) (3))); iter_collect true (tree_interval_iter r)) [(UpFrom (0))];
    same_set_r (do s <- (Ok (tree_from_raw_interval (UpFrom (0)))); do r <- tree_union true s (tree_from_raw_interval (LeftOpen (0) (3))); iter_collect true (tree_interval_iter r)) [(UpFrom (0))];
    same_set_r (do s <- (Ok (tree_from_raw_interval (UpFrom (0)))); do r <- tree_union true s (tree_from_raw_interval (RightOpen (0) (3))); iter_collect true (tree_interval_iter r)) [(From (0))];
    same_set_r (do s <- (Ok (tree_from_raw_interval (UpFrom (0)))); do r <- tree_union true s (tree_from_raw_interval (Closed (0) (3))); iter_collect true (tree_interval_iter r)) [(From (0))];
    same_set_r (do s <- (Ok (tree_from_raw_interval (UpFrom (0)))); do r <- tree_union true s (tree_from_raw_interval (UpTo (0))); iter_collect true (tree_interval_iter r)) [(UpTo (0)); (UpFrom (0))];
    same_set_r (do s <- (Ok (tree_from_raw_interval (UpFrom (0)))); do r <- tree_union true s (tree_from_raw_interval (UpFrom (0))); iter_collect true (tree_interval_iter r)) [(UpFrom (0))];
    same_set_r (do s <- (Ok (tree_from_raw_interval (UpFrom (0)))); do r <- tree_union true s (tree_from_raw_interval (To (0))); iter_collect true (tree_interval_iter r)) [(@Full Z)];
    same_set_r (do s <- (Ok (tree_from_raw_interval (UpFrom (0)))); do r <- tree_union true s (tree_from_raw_interval (From (0))); iter_collect true (tree_interval_iter r)) [(From (0))];
    same_set_r (do s <- (Ok (tree_from_raw_interval (UpFrom (0)))); do r <- tree_union true s (tree_from_raw_interval (@Full Z)); iter_collect true (tree_interval_iter r)) [(@Full Z)] ] = true.
Proof. vm_compute. reflexivity. Qed.

(** src/test/tine_tree/union.rs: [up_from_left] *)
Example test_tree_union_up_from_left : forallb (fun b : bool => b)
  [ same_set_r (do s <- (Ok (tree_from_raw_interval (UpFrom (0)))); do r <- tree_union true s (tree_from_raw_interval (@Empty Z)); iter_collect true (tree_interval_iter r)) [(UpFrom (0))];
    same_set_r (do s <- (Ok (tree_from_raw_interval (UpFrom (0)))); do r <- tree_union true s (tree_from_raw_interval (Point (-3))); iter_collect true (tree_interval_iter r)) [(UpFrom (0)); (Point (-3))];
    same_set_r (do s <- (Ok (tree_from_raw_interval (UpFrom (0)))); do r <- tree_union true s (tree_from_raw_interval (Open (-3) (-1))); iter_collect true (tree_interval_iter r)) [(UpFrom (0)); (Open (-3) (-1))];
    same_set_r (do s <- (Ok (tree_from_raw_interval (UpFrom (0)))); do r <- tree_union true s (tree_from_raw_interval (LeftOpen (-3) (-1))); iter_collect true (tree_interval_iter r)) [(UpFrom (0)); (LeftOpen (-3) (-1))];
    same_set_r (do s <- (Ok (tree_from_raw_interval (UpFrom (0)))); do r <- tree_union true s (tree_from_raw_interval (RightOpen (-3) (-1))); iter_collect true (tree_interval_iter r)) [(UpFrom (0)); (RightOpen (-3) (-1))];
    same_set_r (do s <- (Ok (tree_from_raw_interval (UpFrom (0)))); do r <- tree_union true s (tree_from_raw_interval (Closed (-3) (-1))); iter_collect true (tree_interval_iter r)) [(UpFrom (0)); (Closed (-3) (-1))];
    same_set_r (do s <- (Ok (tree_from_raw_interval (UpFrom (0)))); do r <- tree_union true s (tree_from_raw_interval (UpTo (-3))); iter_collect true (tree_interval_iter r)) [(UpFrom (0)); (UpTo (-3))];
    same_set_r (do s <- (Ok (tree_from_raw_interval (UpFrom (0)))); do r <- tree_union true s (tree_from_raw_interval (UpFrom (-3))); iter_collect true (tree_interval_iter r)) [(UpFrom (-3))];
    same_set_r (do s <- (Ok (tree_from_raw_interval (UpFrom (0)))); do r <- tree_union true s (tree_from_raw_interval (To (-3))); iter_collect true (tree_interval_iter r)) [(UpFrom (0)); (To (-3))];
    same_set_r (do s <- (Ok (tree_from_raw_interval (UpFrom (0)))); do r <- tree_union true s (tree_from_raw_interval (From (-3))); iter_collect true (tree_interval_iter r)) [(From (-3))];
    same_set_r (do s <- (Ok (tree_from_raw_interval (UpFrom (0)))); do r <- tree_union true s (tree_from_raw_interval (@Full Z)); iter_collect true (tree_interval_iter r)) [(@Full Z)] ] = true.
Proof. vm_compute. reflexivity. Qed.

(** src/test/tine_tree/union.rs: [up_from_right] *)
Example test_tree_union_up_from_right : forallb (fun b : bool => b)
  [ same_set_r (do s <- (Ok (tree_from_raw_interval (UpFrom (0)))); do r <- tree_union true s (tree_from_raw_interval (@Empty Z)); iter_collect true (tree_interval_iter r)) [(UpFrom (0))];
    same_set_r (do s <- (Ok (tree_from_raw_interval (UpFrom (0)))); do r <- tree_union true s (tree_from_raw_interval (Point (13))); iter_collect true (tree_interval_iter r)) [(UpFrom (0))];
    same_set_r (do s <- (Ok (tree_from_raw_interval (UpFrom (0)))); do r <- tree_union true s (tree_from_raw_interval (Open (10) (13))); iter_collect true (tree_interval_iter r)) [(UpFrom (0))];
    same_set_r (do s <- (Ok (tree_from_raw_interval (UpFrom (0)))); do r <- tree_union true s (tree_from_raw_interval (LeftOpen (10) (13))); iter_collect true (tree_interval_iter r)) [(UpFrom (0))];
    same_set_r (do s <- (Ok (tree_from_raw_interval (UpFrom (0)))); do r <- tree_union true s (tree_from_raw_interval (RightOpen (10) (13))); iter_collect true (tree_interval_iter r)) [(UpFrom (0))];
    same_set_r (do s <- (Ok (tree_from_raw_interval (UpFrom (0)))); do r <- tree_union true s (tree_from_raw_interval (Closed (10) (13))); iter_collect true (tree_interval_iter r)) [(UpFrom (0))];
    same_set_r (do s <- (Ok (tree_from_raw_interval (UpFrom (0)))); do r <- tree_union true s (tree_from_raw_interval (UpTo (13))); iter_collect true (tree_interval_iter r)) [(@Full Z)];
    same_set_r (do s <- (Ok (tree_from_raw_interval (UpFrom (0)))); do r <- tree_union true s (tree_from_raw_interval (UpFrom (13))); iter_collect true (tree_interval_iter r)) [(UpFrom (0))];
    same_set_r (do s <- (Ok (tree_from_raw_interval (UpFrom (0)))); do r <- tree_union true s (tree_from_raw_interval (To (13))); iter_collect true (tree_interval_iter r)) [(@Full Z)];
    same_set_r (do s <- (Ok (tree_from_raw_interval (UpFrom (0)))); do r <- tree_union true s (tree_from_raw_interval (From (13))); iter_collect true (tree_interval_iter r)) [(UpFrom (0))];
    same_set_r (do s <- (Ok (tree_from_raw_interval (UpFrom (0)))); do r <- tree_union true s (tree_from_raw_interval (@Full Z)); iter_collect true (tree_interval_iter r)) [(@Full Z)] ] = true.
Proof. vm_compute. reflexivity. Qed.

(** src/test/tine_tree/union.rs: [to_center] *)
Example test_tree_union_to_center : forallb (fun b : bool => b)
  [ same_set_r (do s <- (Ok (tree_from_raw_interval (To (3)))); do r <- tree_union true s (tree_from_raw_interval (@Empty Z)); iter_collect true (tree_interval_iter r)) [(To (3))];
    same_set_r (do s <- (Ok (tree_from_raw_interval (To (3)))); do r <- tree_union true s (tree_from_raw_interval (Point (3))); iter_collect true (tree_interval_iter r)) [(To (3))];
    same_set_r (do s <- (Ok (tree_from_raw_interval (To (3)))); do r <- tree_union true s (tree_from_raw_interval (Open (0) (3))); iter_collect true (tree_interval_iter r)) [(To (3))];
    same_set_r (do s <- (Ok (tree_from_raw_interval (To (3)))); do r <- tree_union true s (tree_from_raw_interval (LeftOpen (0) (3))); iter_collect true (tree_interval_iter r)) [(To (3))];
    same_set_r (do s <- (Ok (tree_from_raw_interval (To (3)))); do r <- tree_union true s (tree_from_raw_interval (RightOpen (0) (3))); iter_collect true (tree_interval_iter r)) [(To (3))];
    same_set_r (do s <- (Ok (tree_from_raw_interval (To (3)))); do r <- tree_union true s (tree_from_raw_interval (Closed (0) (3))); iter_collect true (tree_interval_iter r)) [(To (3))];
    same_set_r (do s <- (Ok (tree_from_raw_interval (To (3)))); do r <- tree_union true s (tree_from_raw_interval (UpTo (3))); iter_collect true (tree_interval_iter r)) [(To (3))];
    same_set_r (do s <- (Ok (tree_from_raw_interval (To (3)))); do r <- tree_union true s (tree_from_raw_interval (UpFrom (3))); iter_collect true (tree_interval_iter r)) [(@Full Z)];
    same_set_r (do s <- (Ok (tree_from_raw_interval (To (3)))); do r <- tree_union true s (tree_from_raw_interval (To (3))); iter_collect true (tree_interval_iter r)) [(To (3))];
    same_set_r (do s <- (Ok (tree_from_raw_interval (To (3)))); do r <- tree_union true s (tree_from_raw_interval (From (3))); iter_collect true (tree_interval_iter r)) [(@Full Z)];
    same_set_r (do s <- (Ok (tree_from_raw_interval (To (3)))); do r <- tree_union true s (tree_from_raw_interval (@Full Z)); iter_collect true (tree_interval_iter r)) [(@Full Z)] ] = true.
Proof. vm_compute. reflexivity. Qed.

(** src/test/tine_tree/union.rs: [to_left] *)
Example test_tree_union_to_left : forallb (fun b : bool => b)
  [ same_set_r (do s <- (Ok (tree_from_raw_interval (To (3)))); do r <- tree_union true s (tree_from_raw_interval (@Empty Z)); iter_collect true (tree_interval_iter r)) [(To (3))];
    same_set_r (do s <- (Ok (tree_from_raw_interval (To (3)))); do r <- tree_union true s (tree_from_raw_interval (Point (-3))); iter_collect true (tree_interval_iter r)) [(To (3))];
    same_set_r (do s <- (Ok (tree_from_raw_interval (To (3)))); do r <- tree_union true s (tree_from_raw_interval (Open (-3) (-1))); iter_collect true (tree_interval_iter r)) [(To (3))];
    same_set_r (do s <- (Ok (tree_from_raw_interval (To (3)))); do r <- tree_union true s (tree_from_raw_interval (LeftOpen (-3) (-1))); iter_collect true (tree_interval_iter r)) [(To (3))];
    same_set_r (do s <- (Ok (tree_from_raw_interval (To (3)))); do r <- tree_union true s (tree_from_raw_interval (RightOpen (-3) (-1))); iter_collect true (tree_interval_iter r)) [(To (3))];
    same_set_r (do s <- (Ok (tree_from_raw_interval (To (3)))); do r <- tree_union true s (tree_from_raw_interval (Closed (-3) (-1))); iter_collect true (tree_interval_iter r)) [(To (3))];
    same_set_r (do s <- (Ok (tree_from_raw_interval (To (3)))); do r <- tree_union true s (tree_from_raw_interval (UpTo (-3))); iter_collect true (tree_interval_iter r)) [(To (3))];
    same_set_r (do s <- (Ok (tree_from_raw_interval (To (3)))); do r <- tree_union true s (tree_from_raw_interval (UpFrom (-3))); iter_collect true (tree_interval_iter r)) [(@Full Z)];
    same_set_r (do s <- (Ok (tree_from_raw_interval (To (3)))); do r <- tree_union true s (tree_from_raw_interval (To (-3))); iter_collect true (tree_interval_iter r)) [(To (3))];
    same_set_r (do s <- (Ok (tree_from_raw_interval (To (3)))); do r <- tree_union true s (tree_from_raw_interval (From (-3))); iter_collect true (tree_interval_iter r)) [(@Full Z)];
    same_set_r (do s <- (Ok (tree_from_raw_interval (To (3)))); do r <- tree_union true s (tree_from_raw_interval (@Full Z)); iter_collect true (tree_interval_iter r)) [(@Full Z)] ] = true.
Proof. vm_compute. reflexivity. Qed.

(** src/test/tine_tree/union.rs: [to_right] *)
Example test_tree_union_to_right : forallb (fun b : bool => b)
  [ same_set_r (do s <- (Ok (tree_from_raw_interval (To (3)))); do r <- tree_union true s (tree_from_raw_interval (@Empty Z)); iter_collect true (tree_interval_iter r)) [(To (3))];
    same_set_r (do s <- (Ok (tree_from_raw_interval (To (3)))); do r <- tree_union true s (tree_from_raw_interval (Point (13))); iter_collect true (tree_interval_iter r)) [(To (3)); (Point (13))];
    same_set_r (do s <- (Ok (tree_from_raw_interval (To (3)))); do r <- tree_union true s (tree_from_raw_interval (Open (10) (13))); iter_collect true (tree_interval_iter r)) [(To (3)); (Open (10) (13))];
    same_set_r (do s <- (Ok (tree_from_raw_interval (To (3)))); do r <- tree_union true s (tree_from_raw_interval (LeftOpen (10) (13))); iter_collect true (tree_interval_iter r)) [(To (3)); (LeftOpen (10) (13))];
    same_set_r (do s <- (Ok (tree_from_raw_interval (To (3)))); do r <- tree_union true s (tree_from_raw_interval (RightOpen (10) (13))); iter_collect true (tree_interval_iter r)) [(To (3)); (RightOpen (10) (13))];
    same_set_r (do s <- (Ok (tree_from_raw_interval (To (3)))); do r <- tree_union true s (tree_from_raw_interval (Closed (10) (13))); iter_collect true (tree_interval_iter r)) [(To (3)); (Closed (10) (13))];
    same_set_r (do s <- (Ok (tree_from_raw_interval (To (3)))); do r <- tree_union true s (tree_from_raw_interval (UpTo (13))); iter_collect true (tree_interval_iter r)) [(UpTo (13))];
    same_set_r (do s <- (Ok (tree_from_raw_interval (To (3)))); do r <- tree_union true s (tree_from_raw_interval (UpFrom (13))); iter_collect true (tree_interval_iter r)) [(To (3)); (UpFrom (13))];
    same_set_r (do s <- (Ok (tree_from_raw_interval (To (3)))); do r <- tree_union true s (tree_from_raw_interval (To (13))); iter_collect true (tree_interval_iter r)) [(To (13))];
    same_set_r (do s <- (Ok (tree_from_raw_interval (To (3)))); do r <- tree_union true s (tree_from_raw_interval (From (13))); iter_collect true (tree_interval_iter r)) [(To (3)); (From (13))];
    same_set_r (do s <- (Ok (tree_from_raw_interval (To (3)))); do r <- tree_union true s (tree_from_raw_interval (@Full Z)); iter_collect true (tree_interval_iter r)) [(@Full Z)] ] = true.
Proof. vm_compute. reflexivity. Qed.

(** src/test/tine_tree/union.rs: [from_center] *)
Example test_tree_union_from_center : forallb (fun b : bool => b)
  [ same_set_r (do s <- (Ok (tree_from_raw_interval (From (0)))); do r <- tree_union true s (tree_from_raw_interval (@Empty Z)); iter_collect true (tree_interval_iter r)) [(From (0))];
    same_set_r (do s <- (Ok (tree_from_raw_interval (From (0)))); do r <- tree_union true s (tree_from_raw_interval (Point (0))); iter_collect true (tree_interval_iter r)) [(From (0))];
    same_set_r (do s <- (Ok (tree_from_raw_interval (From (0)))); do r <- tree_union true s (tree_from_raw_interval (Open (0) (3))); iter_collect true (tree_interval_iter r)) [(From (0))];
    same_set_r (do s <- (Ok (tree_from_raw_interval (From (0)))); do r <- tree_union true s (tree_from_raw_interval (LeftOpen (0) (3))); iter_collect true (tree_interval_iter r)) [(From (0))];
    same_set_r (do s <- (Ok (tree_from_raw_interval (From (0)))); do r <- tree_union true s (tree_from_raw_interval (RightOpen (0) (3))); iter_collect true (tree_interval_iter r)) [(From (0))];
    same_set_r (do s <- (Ok (tree_from_raw_interval (From (0)))); do r <- tree_union true s (tree_from_raw_interval (Closed (0) (3))); iter_collect true (tree_interval_iter r)) [(From (0))];
    same_set_r (do s <- (Ok (tree_from_raw_interval (From (0)))); do r <- tree_union true s (tree_from_raw_interval (UpTo (0))); iter_collect true (tree_interval_iter r)) [(@Full Z)];
    same_set_r (do s <- (Ok (tree_from_raw_interval (From (0)))); do r <- tree_union true s (tree_from_raw_interval (UpFrom (0))); iter_collect true (tree_interval_iter r)) [(From (0))];
    same_set_r (do s <- (Ok (tree_from_raw_interval (From (0)))); do r <- tree_union true s (tree_from_raw_interval (To (0))); iter_collect true (tree_interval_iter r)) [(@Full Z)];
    same_set_r (do s <- (Ok (tree_from_raw_interval (From (0)))); do r <- tree_union true s (tree_from_raw_interval (From (0))); iter_collect true (tree_interval_iter r)) [(From (0))];
    same_set_r (do s <- (Ok (tree_from_raw_interval (From (0)))); do r <- tree_union true s (tree_from_raw_interval (@Full Z)); iter_collect true (tree_interval_iter r)) [(@Full Z)] ] = true.
Proof. vm_compute. reflexivity. Qed.

(** src/test/tine_tree/union.rs: [from_left] *)
Example test_tree_union_from_left : forallb (fun b : bool => b)
  [ same_set_r (do s <- (Ok (tree_from_raw_interval (From (0)))); do r <- tree_union true s (tree_from_raw_interval (@Empty Z)); iter_collect true (tree_interval_iter r)) [(From (0))];
    same_set_r (do s <- (Ok (tree_from_raw_interval (From (0)))); do r <- tree_union true s (tree_from_raw_interval (Point (-3))); iter_collect true (tree_interval_iter r)) [(From (0)); (Point (-3))];
    same_set_r (do s <- (Ok (tree_from_raw_interval (From (0)))); do r <- tree_union true s (tree_from_raw_interval (Open (-3) (-1))); iter_collect true (tree_interval_iter r)) [(From (0)); (Open (-3) (-1))];
    same_set_r (do s <- (Ok (tree_from_raw_interval (From (0)))); do r <- tree_union true s (tree_from_raw_interval (LeftOpen (-3) (-1))); iter_collect true (tree_interval_iter r)) [(From (0)); (LeftOpen (-3) (-1))];
    same_set_r (do s <- (Ok (tree_from_raw_interval (From (0)))); do r <- tree_union true s (tree_from_raw_interval (RightOpen (-3) (-1))); iter_collect true (tree_interval_iter r)) [(From (0)); (RightOpen (-3) (-1))];
    same_set_r (do s <- (Ok (tree_from_raw_interval (From (0)))); do r <- tree_union true s (tree_from_raw_interval (Closed (-3) (-1))); iter_collect true (tree_interval_iter r)) [(From (0)); (Closed (-3) (-1))];
    same_set_r (do s <- (Ok (tree_from_raw_interval (From (0)))); do r <- tree_union true s (tree_from_raw_interval (UpTo (-3))); iter_collect true (tree_interval_iter r)) [(From (0)); (UpTo (-3))];
    same_set_r (do s <- (Ok (tree_from_raw_interval (From (0)))); do r <- tree_union true s (tree_from_raw_interval (UpFrom (-3))); iter_collect true (tree_interval_iter r)) [(UpFrom (-3))];
    same_set_r (do s <- (Ok (tree_from_raw_interval (From (0)))); do r <- tree_union true s (tree_from_raw_interval (To (-3))); iter_collect true (tree_interval_iter r)) [(From (0)); (To (-3))];
    same_set_r (do s <- (Ok (tree_from_raw_interval (From (0)))); do r <- tree_union true s (tree_from_raw_interval (From (-3))); iter_collect true (tree_interval_iter r)) [(From (-3))];
    same_set_r (do s <- (Ok (tree_from_raw_interval (From (0)))); do r <- tree_union true s (tree_from_raw_interval (@Full Z)); iter_collect true (tree_interval_iter r)) [(@Full Z)] ] = true.
Proof. vm_compute. reflexivity. Qed.

(** src/test/tine_tree/union.rs: [from_right] *)
Example test_tree_union_from_right : forallb (fun b : bool => b)
  [ same_set_r (do s <- (Ok (tree_from_raw_interval (From (0)))); do r <- tree_union true s (tree_from_raw_interval (@Empty Z)); iter_collect true (tree_interval_iter r)) [(From (0))];
    same_set_r (do s <- (Ok (tree_from_raw_interval (From (0)))); do r <- tree_union true s (tree_from_raw_interval (Point (13))); iter_collect true (tree_interval_iter r)) [(From (0))];
    same_set_r (do s <- (Ok (tree_from_raw_interval (From (0)))); do r <- tree_union true s (tree_from_raw_interval (Open (10) (13))); iter_collect true (tree_interval_iter r)) [(From (0))];
    same_set_r (do s <- (Ok (tree_from_raw_interval (From (0)))); do r <- tree_union true s (tree_from_raw_interval (LeftOpen (10) (13))); iter_collect true (tree_interval_iter r)) [(From (0))];
    same_set_r (do s <- (Ok (tree_from_raw_interval (From (0)))); do r <- tree_union true s (tree_from_raw_interval (RightOpen (10) (13))); iter_collect true (tree_interval_iter r)) [(From (0))];
    same_set_r (do s <- (Ok (tree_from_raw_interval (From (0)))); do r <- tree_union true s (tree_from_raw_interval (Closed (10) (13))); iter_collect true (tree_interval_iter r)) [(From (0))];
    same_set_r (do s <- (Ok (tree_from_raw_interval (From (0)))); do r <- tree_union true s (tree_from_raw_interval (UpTo (13))); iter_collect true (tree_interval_iter r)) [(@Full Z)];
    same_set_r (do s <- (Ok (tree_from_raw_interval (From (0)))); do r <- tree_union true s (tree_from_raw_interval (UpFrom (13))); iter_collect true (tree_interval_iter r)) [(From (0))];
    same_set_r (do s <- (Ok (tree_from_raw_interval (From (0)))); do r <- tree_union true s (tree_from_raw_interval (To (13))); iter_collect true (tree_interval_iter r)) [(@Full Z)];
    same_set_r (do s <- (Ok (tree_from_raw_interval (From (0)))); do r <- tree_union true s (tree_from_raw_interval (From (13))); iter_collect true (tree_interval_iter r)) [(From (0))];
    same_set_r (do s <- (Ok (tree_from_raw_interval (From (0)))); do r <- tree_union true s (tree_from_raw_interval (@Full Z)); iter_collect true (tree_interval_iter r)) [(@Full Z)] ] = true.
Proof. vm_compute. reflexivity. Qed.

(** src/test/tine_tree/union.rs: [full] *)
Example test_tree_union_full : forallb (fun b : bool => b)
  [ same_set_r (do s <- (Ok (tree_from_raw_interval (@Full Z))); do r <- tree_union true s (tree_from_raw_interval (@Empty Z)); iter_collect true (tree_interval_iter r)) [(@Full Z)];
    same_set_r (do s <- (Ok (tree_from_raw_interval (@Full Z))); do r <- tree_union true s (tree_from_raw_interval (Point (0))); iter_collect true (tree_interval_iter r)) [(@Full Z)];
    same_set_r (do s <- (Ok (tree_from_raw_interval (@Full Z))); do r <- tree_union true s (tree_from_raw_interval (Open (0) (3))); iter_collect true (tree_interval_iter r)) [(@Full Z)];
    same_set_r (do s <- (Ok (tree_from_raw_interval (@Full Z))); do r <- tree_union true s (tree_from_raw_interval (LeftOpen (0) (3))); iter_collect true (tree_interval_iter r)) [(@Full Z)];
    same_set_r (do s <- (Ok (tree_from_raw_interval (@Full Z))); do r <- tree_union true s (tree_from_raw_interval (RightOpen (0) (3))); iter_collect true (tree_interval_iter r)) [(@Full Z)];
    same_set_r (do s <- (Ok (tree_from_raw_interval (@Full Z))); do r <- tree_union true s (tree_from_raw_interval (Closed (0) (3))); iter_collect true (tree_interval_iter r)) [(@Full Z)];
    same_set_r (do s <- (Ok (tree_from_raw_interval (@Full Z))); do r <- tree_union true s (tree_from_raw_interval (UpTo (0))); iter_collect true (tree_interval_iter r)) [(@Full Z)];
    same_set_r (do s <- (Ok (tree_from_raw_interval (@Full Z))); do r <- tree_union true s (tree_from_raw_interval (UpFrom (0))); iter_collect true (tree_interval_iter r)) [(@Full Z)];
    same_set_r (do s <- (Ok (tree_from_raw_interval (@Full Z))); do r <- tree_union true s (tree_from_raw_interval (To (0))); iter_collect true (tree_interval_iter r)) [(@Full Z)];
    same_set_r (do s <- (Ok (tree_from_raw_interval (@Full Z))); do r <- tree_union true s (tree_from_raw_interval (From (0))); iter_collect true (tree_interval_iter r)) [(@Full Z)];
    same_set_r (do s <- (Ok (tree_from_raw_interval (@Full Z))); do r <- tree_union true s (tree_from_raw_interval (@Full Z)); iter_collect true (tree_interval_iter r)) [(@Full Z)] ] = true.
Proof. vm_compute. reflexivity. Qed.


(** * The crate's doc-comment examples and parse tests, run on the model

    Generated by tools/gen_docs.py from the doc comments of
    /repo/src/interval.rs and /repo/src/selection.rs and from
    /repo/src/test/raw_interval/parse.rs; those of /repo/src/bound.rs are
    translated by hand below.  These are tests of the model (they compute on
    literals), not proofs of properties.  Examples without an assertion are
    left out. *)
From Coq Require Import List Bool ZArith String.
From Verif Require Import Base Ints MBound MRaw MNormalize MTine MBTree MTineTree MInterval MSelection MParse.
Import ListNotations.
Local Open Scope Z_scope.

Definition n (z : Z) : i32 := int_of_Z z.
(** [iter.collect()], for iterators of at most [k] items. *)
Fixpoint pull {S A} (next : S -> res (option A * S)) (k : nat) (s : S) : res (list A) :=
  match k with
  | O => Panic
  | Datatypes.S k => do r <- next s; match fst r with None => Ok [] | Some x => do l <- pull next k (snd r); Ok (x :: l) end
  end.

(** src/bound.rs 54-395 *)
Example doc_bound :
  is_finite (Include 15) = true /\ is_finite (@Infinite Z) = false /\
  is_inclusive (Include 15) = true /\ is_inclusive (Exclude 15) = false /\
  is_exclusive (Exclude 15) = true /\ is_exclusive (Include 15) = false /\
  bound_as_ref (Exclude 34) = Some 34 /\ bound_unwrap (Exclude 34) = Ok 34 /\ bound_unwrap (@Infinite Z) = Panic /\
  bound_unwrap_or (Exclude 34) 15 = 34 /\ bound_unwrap_or Infinite 15 = 15 /\
  bound_unwrap_or_else (Exclude 34) (fun _ => 2 * 10) = 34 /\ bound_unwrap_or_else Infinite (fun _ => 2 * 10) = 20 /\
  bound_map (Include 10) (fun x => x) = Include 10 /\ bound_map_or (Include 10) 6 (fun k => k * 2) = 20 /\
  bound_map_or_else (Include 10) (fun _ => 6) (fun k => k * 2) = 20 /\
  bound_map_or_else Infinite (fun _ => 6) (fun k => k * 2) = 6 /\ bound_transfer (Exclude 34) 18 = Exclude 18.
Proof. vm_compute. repeat split. Qed.

(** src/interval.rs 95 *)
Example doc_interval_95 :
  (interval_new (Exclude (n (-3))) (Exclude (n 7)) : Interval i32) = (interval_new (Include (n (-2))) (Include (n 6)) : Interval i32).
Proof. vm_compute. repeat split. Qed.

(** src/interval.rs 111 *)
Example doc_interval_111 :
  (interval_new (Exclude (n 7)) (Exclude (n (-7))) : Interval i32) = (interval_empty : Interval i32).
Proof. vm_compute. repeat split. Qed.

(** src/interval.rs 192 *)
Example doc_interval_192 :
  (interval_open (n (-3)) (n 7) : Interval i32) = (interval_new (Include (n (-2))) (Include (n 6)) : Interval i32).
Proof. vm_compute. repeat split. Qed.

(** src/interval.rs 208 *)
Example doc_interval_208 :
  (interval_open (n 7) (n (-7)) : Interval i32) = (interval_empty : Interval i32).
Proof. vm_compute. repeat split. Qed.

(** src/interval.rs 246 *)
Example doc_interval_246 :
  (interval_left_open (n (-3)) (n 7) : Interval i32) = (interval_new (Include (n (-2))) (Include (n 7)) : Interval i32).
Proof. vm_compute. repeat split. Qed.

(** src/interval.rs 262 *)
Example doc_interval_262 :
  (interval_left_open (n 7) (n (-7)) : Interval i32) = (interval_empty : Interval i32).
Proof. vm_compute. repeat split. Qed.

(** src/interval.rs 278 *)
Example doc_interval_278 :
  (interval_left_open (n 5) (n 5) : Interval i32) = (interval_point (n 5) : Interval i32).
Proof. vm_compute. repeat split. Qed.

(** src/interval.rs 316 *)
Example doc_interval_316 :
  (interval_right_open (n (-3)) (n 7) : Interval i32) = (interval_new (Include (n (-3))) (Include (n 6)) : Interval i32).
Proof. vm_compute. repeat split. Qed.

(** src/interval.rs 332 *)
Example doc_interval_332 :
  (interval_right_open (n 7) (n (-7)) : Interval i32) = (interval_empty : Interval i32).
Proof. vm_compute. repeat split. Qed.

(** src/interval.rs 348 *)
Example doc_interval_348 :
  (interval_right_open (n 5) (n 5) : Interval i32) = (interval_point (n 5) : Interval i32).
Proof. vm_compute. repeat split. Qed.

(** src/interval.rs 384 *)
Example doc_interval_384 :
  (interval_closed (n 7) (n (-7)) : Interval i32) = (interval_empty : Interval i32).
Proof. vm_compute. repeat split. Qed.

(** src/interval.rs 400 *)
Example doc_interval_400 :
  (interval_closed (n 5) (n 5) : Interval i32) = (interval_point (n 5) : Interval i32).
Proof. vm_compute. repeat split. Qed.

(** src/interval.rs 438 *)
Example doc_interval_438 :
  (interval_left_closed (n (-3)) (n 7) : Interval i32) = (interval_new (Include (n (-3))) (Include (n 6)) : Interval i32).
Proof. vm_compute. repeat split. Qed.

(** src/interval.rs 454 *)
Example doc_interval_454 :
  (interval_left_closed (n 7) (n (-7)) : Interval i32) = (interval_empty : Interval i32).
Proof. vm_compute. repeat split. Qed.

(** src/interval.rs 470 *)
Example doc_interval_470 :
  (interval_left_closed (n 5) (n 5) : Interval i32) = (interval_point (n 5) : Interval i32).
Proof. vm_compute. repeat split. Qed.

(** src/interval.rs 508 *)
Example doc_interval_508 :
  (interval_right_closed (n (-3)) (n 7) : Interval i32) = (interval_new (Include (n (-2))) (Include (n 7)) : Interval i32).
Proof. vm_compute. repeat split. Qed.

(** src/interval.rs 524 *)
Example doc_interval_524 :
  (interval_right_closed (n 7) (n (-7)) : Interval i32) = (interval_empty : Interval i32).
Proof. vm_compute. repeat split. Qed.

(** src/interval.rs 540 *)
Example doc_interval_540 :
  (interval_right_closed (n 5) (n 5) : Interval i32) = (interval_point (n 5) : Interval i32).
Proof. vm_compute. repeat split. Qed.

(** src/interval.rs 579 *)
Example doc_interval_579 :
  (interval_unbounded_from (n 7) : Interval i32) = (interval_new (Include (n 7)) (Include MAXIMUM) : Interval i32).
Proof. vm_compute. repeat split. Qed.

(** src/interval.rs 619 *)
Example doc_interval_619 :
  (interval_unbounded_to (n 7) : Interval i32) = (interval_new (Include MINIMUM) (Include (n 7)) : Interval i32).
Proof. vm_compute. repeat split. Qed.

(** src/interval.rs 659 *)
Example doc_interval_659 :
  (interval_unbounded_up_from (n 7) : Interval i32) = (interval_new (Include (n 8)) (Include MAXIMUM) : Interval i32).
Proof. vm_compute. repeat split. Qed.

(** src/interval.rs 699 *)
Example doc_interval_699 :
  (interval_unbounded_up_to (n 7) : Interval i32) = (interval_new (Include MINIMUM) (Include (n 6)) : Interval i32).
Proof. vm_compute. repeat split. Qed.

(** src/interval.rs 738 *)
Example doc_interval_738 :
  (interval_full : Interval i32) = (interval_new (Include MINIMUM) (Include MAXIMUM) : Interval i32).
Proof. vm_compute. repeat split. Qed.

(** src/interval.rs 765 *)
Example doc_interval_765 :
  (interval_into_non_empty (interval_closed (n 0) (n 4) : Interval i32)) = (Some (interval_closed (n 0) (n 4) : Interval i32)) /\
  (interval_into_non_empty (interval_empty : Interval i32)) = None.
Proof. vm_compute. repeat split. Qed.

(** src/interval.rs 802 *)
Example doc_interval_802 :
  (interval_lower_bound (interval_closed (n (-3)) (n 5) : Interval i32)) = (Some (Include (n (-3)))).
Proof. vm_compute. repeat split. Qed.

(** src/interval.rs 819 *)
Example doc_interval_819 :
  (interval_lower_bound (interval_open (n (-3)) (n 5) : Interval i32)) = (Some (Include (n (-2)))).
Proof. vm_compute. repeat split. Qed.

(** src/interval.rs 846 *)
Example doc_interval_846 :
  (interval_upper_bound (interval_closed (n (-3)) (n 5) : Interval i32)) = (Some (Include (n 5))).
Proof. vm_compute. repeat split. Qed.

(** src/interval.rs 863 *)
Example doc_interval_863 :
  (interval_upper_bound (interval_open (n (-3)) (n 5) : Interval i32)) = (Some (Include (n 4))).
Proof. vm_compute. repeat split. Qed.

(** src/interval.rs 888 *)
Example doc_interval_888 :
  (interval_infimum (interval_closed (n (-3)) (n 5) : Interval i32)) = (Some (n (-3))).
Proof. vm_compute. repeat split. Qed.

(** src/interval.rs 904 *)
Example doc_interval_904 :
  (interval_infimum (interval_open (n (-3)) (n 5) : Interval i32)) = (Some (n (-2))).
Proof. vm_compute. repeat split. Qed.

(** src/interval.rs 929 *)
Example doc_interval_929 :
  (interval_supremum (interval_closed (n (-3)) (n 5) : Interval i32)) = (Some (n 5)).
Proof. vm_compute. repeat split. Qed.

(** src/interval.rs 945 *)
Example doc_interval_945 :
  (interval_supremum (interval_open (n (-3)) (n 5) : Interval i32)) = (Some (n 4)).
Proof. vm_compute. repeat split. Qed.

(** src/interval.rs 967 *)
Example doc_interval_967 :
  (interval_size (int_sub true) (interval_closed (n (-3)) (n 7) : Interval i32)) = Ok (Some (n 10)).
Proof. vm_compute. repeat split. Qed.

(** src/interval.rs 993 *)
Example doc_interval_993 :
  (interval_is_empty (interval_closed (n (-3)) (n 5) : Interval i32)) = false /\
  (interval_is_empty (interval_empty : Interval i32)) = true.
Proof. vm_compute. repeat split. Qed.

(** src/interval.rs 1016 *)
Example doc_interval_1016 :
  (interval_is_degenerate (interval_closed (n (-3)) (n 5) : Interval i32)) = false /\
  (interval_is_degenerate (interval_point (n 4) : Interval i32)) = true.
Proof. vm_compute. repeat split. Qed.

(** src/interval.rs 1039 *)
Example doc_interval_1039 :
  (interval_is_proper (interval_closed (n (-3)) (n 5) : Interval i32)) = true /\
  (interval_is_proper (interval_point (n 4) : Interval i32)) = false /\
  (interval_is_proper (interval_empty : Interval i32)) = false.
Proof. vm_compute. repeat split. Qed.

(** src/interval.rs 1067 *)
Example doc_interval_1067 :
  (interval_is_open (interval_left_open (n (-3)) (n 5) : Interval i32)) = false /\
  (interval_is_open (interval_point (n 4) : Interval i32)) = false.
Proof. vm_compute. repeat split. Qed.

(** src/interval.rs 1084 *)
Example doc_interval_1084 :
  (interval_is_open (interval_empty : Interval i32)) = true /\
  (interval_is_open (interval_full : Interval i32)) = false.
Proof. vm_compute. repeat split. Qed.

(** src/interval.rs 1109 *)
Example doc_interval_1109 :
  (interval_is_left_open (interval_left_open (n (-3)) (n 5) : Interval i32)) = false /\
  (interval_is_left_open (interval_closed (n 2) (n 4) : Interval i32)) = false.
Proof. vm_compute. repeat split. Qed.

(** src/interval.rs 1126 *)
Example doc_interval_1126 :
  (interval_is_left_open (interval_unbounded_to (n 4) : Interval i32)) = false /\
  (interval_is_left_open (interval_full : Interval i32)) = false.
Proof. vm_compute. repeat split. Qed.

(** src/interval.rs 1153 *)
Example doc_interval_1153 :
  (interval_is_right_open (interval_right_open (n (-3)) (n 5) : Interval i32)) = false /\
  (interval_is_right_open (interval_closed (n 2) (n 4) : Interval i32)) = false.
Proof. vm_compute. repeat split. Qed.

(** src/interval.rs 1170 *)
Example doc_interval_1170 :
  (interval_is_right_open (interval_unbounded_from (n 4) : Interval i32)) = false /\
  (interval_is_right_open (interval_full : Interval i32)) = false.
Proof. vm_compute. repeat split. Qed.

(** src/interval.rs 1197 *)
Example doc_interval_1197 :
  (interval_is_half_open (interval_left_open (n (-3)) (n 5) : Interval i32)) = false /\
  (interval_is_half_open (interval_closed (n 2) (n 4) : Interval i32)) = false.
Proof. vm_compute. repeat split. Qed.

(** src/interval.rs 1214 *)
Example doc_interval_1214 :
  (interval_is_half_open (interval_unbounded_to (n 4) : Interval i32)) = false /\
  (interval_is_half_open (interval_full : Interval i32)) = false.
Proof. vm_compute. repeat split. Qed.

(** src/interval.rs 1240 *)
Example doc_interval_1240 :
  (interval_is_closed (interval_closed (n (-3)) (n 5) : Interval i32)) = true /\
  (interval_is_closed (interval_left_open (n (-2)) (n 4) : Interval i32)) = true.
Proof. vm_compute. repeat split. Qed.

(** src/interval.rs 1257 *)
Example doc_interval_1257 :
  (interval_is_closed (interval_empty : Interval i32)) = true /\
  (interval_is_closed (interval_full : Interval i32)) = true.
Proof. vm_compute. repeat split. Qed.

(** src/interval.rs 1284 *)
Example doc_interval_1284 :
  (interval_is_left_closed (interval_closed (n (-3)) (n 5) : Interval i32)) = true /\
  (interval_is_left_closed (interval_left_open (n (-2)) (n 4) : Interval i32)) = true.
Proof. vm_compute. repeat split. Qed.

(** src/interval.rs 1311 *)
Example doc_interval_1311 :
  (interval_is_right_closed (interval_closed (n (-3)) (n 5) : Interval i32)) = true /\
  (interval_is_right_closed (interval_right_open (n (-2)) (n 4) : Interval i32)) = true.
Proof. vm_compute. repeat split. Qed.

(** src/interval.rs 1338 *)
Example doc_interval_1338 :
  (interval_is_half_closed (interval_unbounded_to (n (-3)) : Interval i32)) = false /\
  (interval_is_half_closed (interval_open (n (-2)) (n 4) : Interval i32)) = false.
Proof. vm_compute. repeat split. Qed.

(** src/interval.rs 1365 *)
Example doc_interval_1365 :
  (interval_is_left_bounded (interval_open (n (-2)) (n 4) : Interval i32)) = true /\
  (interval_is_left_bounded (interval_unbounded_to (n (-3)) : Interval i32)) = true.
Proof. vm_compute. repeat split. Qed.

(** src/interval.rs 1393 *)
Example doc_interval_1393 :
  (interval_is_left_bounded (interval_open (n (-2)) (n 4) : Interval i32)) = true /\
  (interval_is_left_bounded (interval_unbounded_to (n (-3)) : Interval i32)) = true.
Proof. vm_compute. repeat split. Qed.

(** src/interval.rs 1420 *)
Example doc_interval_1420 :
  (interval_is_right_bounded (interval_open (n (-2)) (n 4) : Interval i32)) = true /\
  (interval_is_right_bounded (interval_unbounded_from (n (-3)) : Interval i32)) = true.
Proof. vm_compute. repeat split. Qed.

(** src/interval.rs 1446 *)
Example doc_interval_1446 :
  (interval_is_half_bounded (interval_unbounded_to (n (-2)) : Interval i32)) = false /\
  (interval_is_half_bounded (interval_full : Interval i32)) = false.
Proof. vm_compute. repeat split. Qed.

(** src/interval.rs 1474 *)
Example doc_interval_1474 :
  (interval_contains (interval_closed (n 0) (n 20) : Interval i32) (n 2)) = true /\
  (interval_contains (interval_closed (n 0) (n 20) : Interval i32) (n (-15))) = false.
Proof. vm_compute. repeat split. Qed.

(** src/interval.rs 1500 *)
Example doc_interval_1500 :
  (interval_intersects (interval_closed (n (-3)) (n 5) : Interval i32) (interval_closed (n 4) (n 15) : Interval i32)) = true /\
  (interval_intersects (interval_closed (n (-3)) (n 5) : Interval i32) (interval_closed (n 8) (n 12) : Interval i32)) = false.
Proof. vm_compute. repeat split. Qed.

(** src/interval.rs 1525 *)
Example doc_interval_1525 :
  (interval_is_adjacent_to (interval_closed (n (-3)) (n 5) : Interval i32) (interval_closed (n 5) (n 15) : Interval i32)) = true /\
  (interval_is_adjacent_to (interval_closed (n (-3)) (n 5) : Interval i32) (interval_closed (n 8) (n 12) : Interval i32)) = false.
Proof. vm_compute. repeat split. Qed.

(** src/interval.rs 1555 *)
Example doc_interval_1555 :
  (interval_complement (interval_open (n (-3)) (n 5) : Interval i32)) = [(interval_unbounded_to (n (-3)) : Interval i32); (interval_unbounded_from (n 5) : Interval i32)].
Proof. vm_compute. repeat split. Qed.

(** src/interval.rs 1580 *)
Example doc_interval_1580 :
  (interval_intersect (interval_closed (n (-3)) (n 7) : Interval i32) (interval_closed (n 4) (n 13) : Interval i32)) = (interval_closed (n 4) (n 7) : Interval i32).
Proof. vm_compute. repeat split. Qed.

(** src/interval.rs 1602 *)
Example doc_interval_1602 :
  (interval_union (interval_closed (n (-3)) (n 7) : Interval i32) (interval_closed (n 4) (n 13) : Interval i32)) = [(interval_closed (n (-3)) (n 13) : Interval i32)].
Proof. vm_compute. repeat split. Qed.

(** src/interval.rs 1628 *)
Example doc_interval_1628 :
  (interval_minus (interval_closed (n (-3)) (n 7) : Interval i32) (interval_closed (n 4) (n 13) : Interval i32)) = [(interval_right_open (n (-3)) (n 4) : Interval i32)].
Proof. vm_compute. repeat split. Qed.

(** src/interval.rs 1654 *)
Example doc_interval_1654 :
  (interval_enclose (interval_closed (n (-3)) (n 5) : Interval i32) (interval_closed (n 9) (n 13) : Interval i32)) = (interval_closed (n (-3)) (n 13) : Interval i32).
Proof. vm_compute. repeat split. Qed.

(** src/interval.rs 1676 *)
Example doc_interval_1676 :
  (interval_closure (interval_open (n (-3)) (n 7) : Interval i32)) = (interval_closed (n (-2)) (n 6) : Interval i32).
Proof. vm_compute. repeat split. Qed.

(** src/interval.rs 1796 *)
Example doc_interval_1796 :
  (pull interval_next 100 (interval_open (n 3) (n 7) : Interval i32)) = Ok [(n 4); (n 5); (n 6)].
Proof. vm_compute. repeat split. Qed.

(** src/interval.rs 1810 *)
Example doc_interval_1810 :
  (pull interval_next_back 100 (interval_open (n 3) (n 7) : Interval i32)) = Ok [(n 6); (n 5); (n 4)].
Proof. vm_compute. repeat split. Qed.

(** src/selection.rs 124 *)
Example doc_selection_124 :
  (do s <- (Ok (sel_from (interval_closed (n (-3)) (n 5) : Interval i32)) : res (Selection i32)); sel_lower_bound true s) = Ok (Some (Include (n (-3)))).
Proof. vm_compute. repeat split. Qed.

(** src/selection.rs 142 *)
Example doc_selection_142 :
  (do s <- (Ok (sel_from (interval_open (n (-3)) (n 5) : Interval i32)) : res (Selection i32)); sel_lower_bound true s) = Ok (Some (Include (n (-2)))).
Proof. vm_compute. repeat split. Qed.

(** src/selection.rs 170 *)
Example doc_selection_170 :
  (do s <- (Ok (sel_from (interval_closed (n (-3)) (n 5) : Interval i32)) : res (Selection i32)); sel_upper_bound true s) = Ok (Some (Include (n 5))).
Proof. vm_compute. repeat split. Qed.

(** src/selection.rs 188 *)
Example doc_selection_188 :
  (do s <- (Ok (sel_from (interval_open (n (-3)) (n 5) : Interval i32)) : res (Selection i32)); sel_upper_bound true s) = Ok (Some (Include (n 4))).
Proof. vm_compute. repeat split. Qed.

(** src/selection.rs 215 *)
Example doc_selection_215 :
  (do s <- (Ok (sel_from (interval_open (n (-3)) (n 5) : Interval i32)) : res (Selection i32)); Ok (sel_infimum s)) = Ok (Some (n (-3))).
Proof. vm_compute. repeat split. Qed.

(** src/selection.rs 232 *)
Example doc_selection_232 :
  (do s <- (Ok (sel_from (interval_open (n (-3)) (n 5) : Interval i32)) : res (Selection i32)); Ok (sel_infimum s)) = Ok (Some (n (-3))).
Proof. vm_compute. repeat split. Qed.

(** src/selection.rs 259 *)
Example doc_selection_259 :
  (do s <- (Ok (sel_from (interval_open (n (-3)) (n 5) : Interval i32)) : res (Selection i32)); Ok (sel_supremum s)) = Ok (Some (n 5)).
Proof. vm_compute. repeat split. Qed.

(** src/selection.rs 276 *)
Example doc_selection_276 :
  (do s <- (Ok (sel_from (interval_open (n (-3)) (n 5) : Interval i32)) : res (Selection i32)); Ok (sel_supremum s)) = Ok (Some (n 5)).
Proof. vm_compute. repeat split. Qed.

(** src/selection.rs 303 *)
Example doc_selection_303 :
  (do s <- (Ok (sel_from (interval_closed (n (-3)) (n 5) : Interval i32)) : res (Selection i32)); Ok (sel_is_empty s)) = Ok false /\
  (do s <- (Ok (sel_from (interval_empty : Interval i32)) : res (Selection i32)); Ok (sel_is_empty s)) = Ok true.
Proof. vm_compute. repeat split. Qed.

(** src/selection.rs 328 *)
Example doc_selection_328 :
  (do s <- (Ok (sel_from (interval_closed (n (-3)) (n 5) : Interval i32)) : res (Selection i32)); Ok (sel_is_full s)) = Ok false /\
  (do s <- (Ok (sel_from (interval_full : Interval i32)) : res (Selection i32)); Ok (sel_is_full s)) = Ok true.
Proof. vm_compute. repeat split. Qed.

(** src/selection.rs 353 *)
Example doc_selection_353 :
  (interval_is_left_bounded (interval_open (n (-2)) (n 4) : Interval i32)) = true /\
  (interval_is_left_bounded (interval_unbounded_to (n (-3)) : Interval i32)) = true.
Proof. vm_compute. repeat split. Qed.

(** src/selection.rs 378 *)
Example doc_selection_378 :
  (interval_is_left_bounded (interval_open (n (-2)) (n 4) : Interval i32)) = true /\
  (interval_is_left_bounded (interval_unbounded_to (n (-3)) : Interval i32)) = true.
Proof. vm_compute. repeat split. Qed.

(** src/selection.rs 404 *)
Example doc_selection_404 :
  (interval_is_right_bounded (interval_open (n (-2)) (n 4) : Interval i32)) = true /\
  (interval_is_right_bounded (interval_unbounded_from (n (-3)) : Interval i32)) = true.
Proof. vm_compute. repeat split. Qed.

(** src/selection.rs 429 *)
Example doc_selection_429 :
  (interval_is_half_bounded (interval_unbounded_to (n (-2)) : Interval i32)) = false /\
  (interval_is_half_bounded (interval_full : Interval i32)) = false.
Proof. vm_compute. repeat split. Qed.

(** src/selection.rs 456 *)
Example doc_selection_456 :
  (do s <- (Ok (sel_from (interval_closed (n 0) (n 20) : Interval i32)) : res (Selection i32)); sel_contains true s (n 2)) = Ok true /\
  (do s <- (Ok (sel_from (interval_closed (n 0) (n 20) : Interval i32)) : res (Selection i32)); sel_contains true s (n (-15))) = Ok false.
Proof. vm_compute. repeat split. Qed.

(** src/selection.rs 483 *)
Example doc_selection_483 :
  (do s <- (Ok (sel_from (interval_closed (n (-3)) (n 5) : Interval i32)) : res (Selection i32)); do o0 <- (Ok (sel_from (interval_closed (n 4) (n 15) : Interval i32)) : res (Selection i32)); sel_intersects true s o0) = Ok true /\
  (do s <- (Ok (sel_from (interval_closed (n (-3)) (n 5) : Interval i32)) : res (Selection i32)); do o0 <- (Ok (sel_from (interval_closed (n 8) (n 12) : Interval i32)) : res (Selection i32)); sel_intersects true s o0) = Ok false.
Proof. vm_compute. repeat split. Qed.

(** src/selection.rs 514 *)
Example doc_selection_514 :
  (do s <- (do s <- (Ok (sel_from (interval_open (n (-3)) (n 5) : Interval i32)) : res (Selection i32)); sel_complement true s); pull (sel_interval_next true) 100 (sel_interval_iter s)) = Ok [(interval_unbounded_to (n (-3)) : Interval i32); (interval_unbounded_from (n 5) : Interval i32)].
Proof. vm_compute. repeat split. Qed.

(** src/selection.rs 536 *)
Example doc_selection_536 :
  (do s <- (do s <- (Ok (sel_from (interval_closed (n (-3)) (n 5) : Interval i32)) : res (Selection i32)); sel_complement true s); pull (sel_interval_next true) 100 (sel_interval_iter s)) = Ok [(interval_closed MINIMUM (n (-4)) : Interval i32); (interval_closed (n 6) MAXIMUM : Interval i32)].
Proof. vm_compute. repeat split. Qed.

(** src/selection.rs 563 *)
Example doc_selection_563 :
  (do s <- (do s <- (Ok (sel_from (interval_closed (n (-3)) (n 7) : Interval i32)) : res (Selection i32)); do o0 <- (Ok (sel_from (interval_closed (n 4) (n 13) : Interval i32)) : res (Selection i32)); sel_intersect true s o0); pull (sel_interval_next true) 100 (sel_interval_iter s)) = Ok [(interval_closed (n 4) (n 7) : Interval i32)].
Proof. vm_compute. repeat split. Qed.

(** src/selection.rs 582 *)
Example doc_selection_582 :
  (do s <- (do s <- (Ok (sel_from (interval_open (n (-3)) (n 7) : Interval i32)) : res (Selection i32)); do o0 <- (Ok (sel_from (interval_open (n 4) (n 13) : Interval i32)) : res (Selection i32)); sel_intersect true s o0); pull (sel_interval_next true) 100 (sel_interval_iter s)) = Ok [(interval_closed (n 5) (n 6) : Interval i32)].
Proof. vm_compute. repeat split. Qed.

(** src/selection.rs 606 *)
Example doc_selection_606 :
  (do s <- (do s <- (Ok (sel_from (interval_closed (n (-3)) (n 7) : Interval i32)) : res (Selection i32)); do o0 <- (Ok (sel_from (interval_closed (n 4) (n 13) : Interval i32)) : res (Selection i32)); sel_union true s o0); pull (sel_interval_next true) 100 (sel_interval_iter s)) = Ok [(interval_closed (n (-3)) (n 13) : Interval i32)].
Proof. vm_compute. repeat split. Qed.

(** src/selection.rs 625 *)
Example doc_selection_625 :
  (do s <- (do s <- (Ok (sel_from (interval_open (n (-3)) (n 7) : Interval i32)) : res (Selection i32)); do o0 <- (Ok (sel_from (interval_open (n 4) (n 13) : Interval i32)) : res (Selection i32)); sel_union true s o0); pull (sel_interval_next true) 100 (sel_interval_iter s)) = Ok [(interval_closed (n (-2)) (n 12) : Interval i32)].
Proof. vm_compute. repeat split. Qed.

(** src/selection.rs 649 *)
Example doc_selection_649 :
  (do s <- (do s <- (Ok (sel_from (interval_closed (n (-3)) (n 7) : Interval i32)) : res (Selection i32)); do o0 <- (Ok (sel_from (interval_closed (n 4) (n 13) : Interval i32)) : res (Selection i32)); sel_minus true s o0); pull (sel_interval_next true) 100 (sel_interval_iter s)) = Ok [(interval_right_open (n (-3)) (n 4) : Interval i32)].
Proof. vm_compute. repeat split. Qed.

(** src/selection.rs 673 *)
Example doc_selection_673 :
  (do s <- (do s <- (Ok (sel_from (interval_open (n (-3)) (n 5) : Interval i32)) : res (Selection i32)); do o0 <- (Ok (sel_from (interval_closed (n 9) (n 13) : Interval i32)) : res (Selection i32)); sel_union true s o0); sel_enclose true s) = Ok (interval_left_open (n (-3)) (n 13) : Interval i32).
Proof. vm_compute. repeat split. Qed.

(** src/selection.rs 698 *)
Example doc_selection_698 :
  (do s <- (do s <- (Ok (sel_from (interval_open (n (-3)) (n 5) : Interval i32)) : res (Selection i32)); do o0 <- (Ok (sel_from (interval_closed (n 9) (n 13) : Interval i32)) : res (Selection i32)); sel_union true s o0); sel_enclose true s) = Ok (interval_closed (n (-2)) (n 13) : Interval i32).
Proof. vm_compute. repeat split. Qed.

(** src/selection.rs 726 *)
Example doc_selection_726 :
  (do s <- (do s <- (Ok (sel_from (interval_closed (n (-3)) (n 7) : Interval i32)) : res (Selection i32)); sel_intersect_in_place true s (interval_open (n 2) (n 5) : Interval i32)); pull (sel_interval_next true) 100 (sel_interval_iter s)) = Ok [(interval_open (n 2) (n 5) : Interval i32)].
Proof. vm_compute. repeat split. Qed.

(** src/selection.rs 746 *)
Example doc_selection_746 :
  (do s <- (do s <- (Ok (sel_from (interval_closed (n (-3)) (n 7) : Interval i32)) : res (Selection i32)); sel_intersect_in_place true s (interval_open (n 2) (n 5) : Interval i32)); pull (sel_interval_next true) 100 (sel_interval_iter s)) = Ok [(interval_closed (n 3) (n 4) : Interval i32)].
Proof. vm_compute. repeat split. Qed.

(** src/selection.rs 769 *)
Example doc_selection_769 :
  (do s <- (do s <- (Ok (sel_from (interval_closed (n (-3)) (n 7) : Interval i32)) : res (Selection i32)); sel_union_in_place true s (interval_open (n 12) (n 15) : Interval i32)); pull (sel_interval_next true) 100 (sel_interval_iter s)) = Ok [(interval_closed (n (-3)) (n 7) : Interval i32); (interval_open (n 12) (n 15) : Interval i32)].
Proof. vm_compute. repeat split. Qed.

(** src/selection.rs 789 *)
Example doc_selection_789 :
  (do s <- (do s <- (Ok (sel_from (interval_open (n (-3)) (n 8) : Interval i32)) : res (Selection i32)); sel_union_in_place true s (interval_open (n 7) (n 10) : Interval i32)); pull (sel_interval_next true) 100 (sel_interval_iter s)) = Ok [(interval_closed (n (-2)) (n 9) : Interval i32)].
Proof. vm_compute. repeat split. Qed.

(** src/selection.rs 812 *)
Example doc_selection_812 :
  (do s <- (do s <- (Ok (sel_from (interval_closed (n (-3)) (n 7) : Interval i32)) : res (Selection i32)); sel_minus_in_place true s (interval_open (n 2) (n 5) : Interval i32)); pull (sel_interval_next true) 100 (sel_interval_iter s)) = Ok [(interval_closed (n (-3)) (n 2) : Interval i32); (interval_closed (n 5) (n 7) : Interval i32)].
Proof. vm_compute. repeat split. Qed.

(** src/selection.rs 832 *)
Example doc_selection_832 :
  (do s <- (do s <- (Ok (sel_from (interval_closed (n (-3)) (n 7) : Interval i32)) : res (Selection i32)); sel_minus_in_place true s (interval_closed (n 2) (n 5) : Interval i32)); pull (sel_interval_next true) 100 (sel_interval_iter s)) = Ok [(interval_closed (n (-3)) (n 1) : Interval i32); (interval_closed (n 6) (n 7) : Interval i32)].
Proof. vm_compute. repeat split. Qed.

(** src/test/raw_interval/parse.rs: [round_trip_empty] *)
Example test_parse_round_trip_empty : let a := (Empty  : RawInterval i32) in
  show_raw show_int a = "Ø"%string /\ parse_raw parse_int "Ø"%string = Ok (Good a).
Proof. vm_compute. repeat split. Qed.

(** src/test/raw_interval/parse.rs: [round_trip_point] *)
Example test_parse_round_trip_point : let a := (Point (n (3)) : RawInterval i32) in
  show_raw show_int a = "3"%string /\ parse_raw parse_int "3"%string = Ok (Good a).
Proof. vm_compute. repeat split. Qed.

(** src/test/raw_interval/parse.rs: [round_trip_open] *)
Example test_parse_round_trip_open : let a := (Open (n (0)) (n (3)) : RawInterval i32) in
  show_raw show_int a = "(0,3)"%string /\ parse_raw parse_int "(0,3)"%string = Ok (Good a).
Proof. vm_compute. repeat split. Qed.

(** src/test/raw_interval/parse.rs: [round_trip_left_open] *)
Example test_parse_round_trip_left_open : let a := (LeftOpen (n (0)) (n (3)) : RawInterval i32) in
  show_raw show_int a = "(0,3]"%string /\ parse_raw parse_int "(0,3]"%string = Ok (Good a).
Proof. vm_compute. repeat split. Qed.

(** src/test/raw_interval/parse.rs: [round_trip_right_open] *)
Example test_parse_round_trip_right_open : let a := (RightOpen (n (0)) (n (3)) : RawInterval i32) in
  show_raw show_int a = "[0,3)"%string /\ parse_raw parse_int "[0,3)"%string = Ok (Good a).
Proof. vm_compute. repeat split. Qed.

(** src/test/raw_interval/parse.rs: [round_trip_closed] *)
Example test_parse_round_trip_closed : let a := (Closed (n (0)) (n (3)) : RawInterval i32) in
  show_raw show_int a = "[0,3]"%string /\ parse_raw parse_int "[0,3]"%string = Ok (Good a).
Proof. vm_compute. repeat split. Qed.

(** src/test/raw_interval/parse.rs: [round_trip_up_to] *)
Example test_parse_round_trip_up_to : let a := (UpTo (n (3)) : RawInterval i32) in
  show_raw show_int a = "(-∞,3)"%string /\ parse_raw parse_int "(-∞,3)"%string = Ok (Good a).
Proof. vm_compute. repeat split. Qed.

(** src/test/raw_interval/parse.rs: [round_trip_up_from] *)
Example test_parse_round_trip_up_from : let a := (UpFrom (n (3)) : RawInterval i32) in
  show_raw show_int a = "(3,∞)"%string /\ parse_raw parse_int "(3,∞)"%string = Ok (Good a).
Proof. vm_compute. repeat split. Qed.

(** src/test/raw_interval/parse.rs: [round_trip_to] *)
Example test_parse_round_trip_to : let a := (To (n (3)) : RawInterval i32) in
  show_raw show_int a = "(-∞,3]"%string /\ parse_raw parse_int "(-∞,3]"%string = Ok (Good a).
Proof. vm_compute. repeat split. Qed.

(** src/test/raw_interval/parse.rs: [round_trip_from] *)
Example test_parse_round_trip_from : let a := (From (n (3)) : RawInterval i32) in
  show_raw show_int a = "[3,∞)"%string /\ parse_raw parse_int "[3,∞)"%string = Ok (Good a).
Proof. vm_compute. repeat split. Qed.

(** src/test/raw_interval/parse.rs: [round_trip_full] *)
Example test_parse_round_trip_full : let a := (Full  : RawInterval i32) in
  show_raw show_int a = "(-∞,∞)"%string /\ parse_raw parse_int "(-∞,∞)"%string = Ok (Good a).
Proof. vm_compute. repeat split. Qed.


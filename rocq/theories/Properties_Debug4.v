(** * The layout of [{:?}] and [{:#?}] of the iterators: C114, continued *)
From Coq Require Import List Bool ZArith Lia String Ascii.
From Verif Require Import Base MBound MRaw MNormalize MTine MBTree MTineTree Ints MInterval MSelection MParse
  MDebug MDebugIter Spec Spec_Parse Spec_Debug Spec_Debug2 PParse PParse2 Properties_Debug Properties_Debug2 Properties_Interval Properties_Selection.
Import ListNotations.
Local Open Scope string_scope.

Section Layout.
  Context {T : Type} (show pretty : T -> string) (lines : T -> list string).
  Local Notation good s x := (s = text (in_lines lines x) /\ fine (in_lines lines x)).

  Lemma named_text f ls : ls <> [] -> text (named f ls) = f ++ ": " ++ text ls.
  Proof. destruct ls as [|l ls]; [easy|]. intros _. cbn [named]. rewrite !text_cons. destruct ls; rewrite ?app_assoc_str; reflexivity. Qed.
  Lemma named_fine f ls : lacks "010"%char f -> fine ls -> fine (named f ls).
  Proof.
    intros Lf [N H]. destruct ls as [|l ls]; [easy|]. inversion_clear H. split; [discriminate|]. constructor; auto.
    apply lacks_app. split; auto. do 2 (apply lacks_cons; split; [discriminate|]). auto.
  Qed.
  Lemma wrapped_good n s x : lacks "010"%char n -> good s x -> good (tuple n [s]) (Wrapped n x).
  Proof.
    intros Ln [-> H]. assert (K : Forall fine [in_lines lines x]) by (repeat constructor; apply H).
    pose proof (tuple_text n [in_lines lines x] K) as E. cbn [flat_map map] in E. rewrite List.app_nil_r in E.
    pose proof (app_fine n [in_lines lines x] Ln K) as G. cbn [flat_map] in G. rewrite List.app_nil_r in G. split; auto.
  Qed.
  Lemma struct_good n (fs : list (string * string)) (xs : list (string * shown T)) : lacks "010"%char n ->
    Forall2 (fun (f : string * string) (x : string * shown T) => fst f = fst x /\ lacks "010"%char (fst x) /\ good (snd f) (snd x)) fs xs ->
    good (struct n fs) (Struct n xs).
  Proof.
    intros Ln H. cbn [in_lines].
    set (lss := map (fun z : string * shown T => named (fst z) (in_lines lines (snd z))) xs).
    assert (E : flat_map (fun '(f, y) => inner (named f (in_lines lines y))) xs = flat_map inner lss).
    { subst lss. clear. induction xs as [|[f y] xs IH]; [reflexivity|]. cbn. now rewrite IH. }
    rewrite E.
    assert (K : map (fun f => field (fst f ++ ": " ++ snd f)) fs = map (fun ls => field (text ls)) lss /\ Forall fine lss).
    { subst lss. clear E. induction H as [|[f s] [g x] fs xs (Ef & Lf & Es & Fx) _ [IH1 IH2]]; [split; [reflexivity|constructor]|].
      cbn [fst snd map] in *. subst f s. split.
      - rewrite IH1. f_equal. f_equal. rewrite named_text; [reflexivity|]. apply Fx.
      - constructor; auto. now apply named_fine. }
    destruct K as [K1 K2]. split.
    - rewrite List.app_assoc, text_ended, ended_app. unfold struct. rewrite K1, fields_ended by auto.
      unfold ended at 2. cbn [map String.concat]. unfold newline. rewrite !app_assoc_str. reflexivity.
    - split; [discriminate|]. constructor; [apply lacks_app; split; [auto|plain]|]. apply Forall_app. split; [now apply flat_lacks|].
      constructor; [plain|constructor].
  Qed.

  Ltac each := repeat (apply Forall2_cons; [split; [reflexivity|split; [plain|cbn [fst snd]]]|]); try apply Forall2_nil.

  Context (L : laid_out pretty lines).
  Lemma list_good (s : list (Tine T)) : good (list_pretty pretty s) (Listed (map tine_term s)).
  Proof.
    destruct s as [|t s]; [split; [reflexivity|]; split; [discriminate|constructor; [plain|constructor]]|].
    set (r := t :: s). assert (E : in_lines lines (Listed (map tine_term r)) =
      (["["] ++ flat_map inner (map (fun t => lines_of lines (tine_term t)) r) ++ ["]"])%list).
    { change (in_lines lines (Listed (map tine_term r))) with (["["] ++ flat_map (fun t => inner (lines_of lines t)) (map tine_term r) ++ ["]"])%list.
      do 2 f_equal. clear. induction r as [|u r IH]; [reflexivity|]. cbn. now rewrite IH. }
    rewrite E.
    assert (H : Forall fine (map (fun t => lines_of lines (tine_term t)) r)).
    { apply Forall_map, Forall_forall. intros u _. apply (tine_layout pretty lines L). }
    split.
    - rewrite List.app_assoc, text_ended, ended_app, <- fields_ended by exact H. rewrite map_map.
      change (list_pretty pretty r) with ("[" ++ String "010" "" ++ String.concat "" (map (fun t => field (tine_pretty pretty t)) r) ++ "]").
      assert (E' : map (fun t => field (tine_pretty pretty t)) r = map (fun u => field (text (lines_of lines (tine_term u)))) r).
      { apply map_ext. intros u. now rewrite (proj1 (tine_layout pretty lines L u)). }
      rewrite E'. unfold ended, newline. cbn [String.concat map]. rewrite !app_assoc_str. reflexivity.
    - split; [discriminate|]. constructor; [plain|]. apply Forall_app. split; [now apply flat_lacks|constructor; [plain|constructor]].
  Qed.
  Lemma saved_good o : good (saved_pretty pretty o) (saved_shown o).
  Proof.
    destruct o as [t|]; cbn [saved_pretty saved_shown in_lines].
    - apply (app_pretty lines "Some" [tine_term t] [tine_pretty pretty t]); [plain|]. constructor; [apply (tine_layout pretty lines L)|constructor].
    - apply (name_pretty lines "None"). plain.
  Qed.
  Lemma interval_iter_good i : good (interval_iter_pretty pretty i) (interval_iter_shown i).
  Proof.
    apply struct_good; [plain|]. constructor; [|constructor]. cbn [fst snd in_lines]. split; [reflexivity|]. split; [plain|].
    apply (app_pretty lines "Interval" [raw_term (interval_raw i)] [raw_pretty pretty (interval_raw i)]); [plain|].
    constructor; [apply (raw_layout pretty lines L)|constructor].
  Qed.
  Lemma tree_iter_good it : good (tree_iter_pretty pretty it) (tree_iter_shown it).
  Proof.
    apply struct_good; [plain|]. each; try apply saved_good. apply (wrapped_good "Iter"); [plain|apply list_good].
  Qed.
  Lemma tree_into_iter_good (owned : list (Tine T) -> string) set it : (forall s, good (owned s) (set s)) ->
    good (tree_into_iter_pretty pretty owned it) (tree_into_iter_shown set it).
  Proof. intros H. apply struct_good; [plain|]. each; try apply saved_good. apply H. Qed.
  Lemma sel_good n (f : Iter T -> string) g (it : SelIter T) : lacks "010"%char n -> (forall x, good (f x) (g x)) ->
    good (struct n [("intervals", f (si_intervals it)); ("current", interval_iter_pretty pretty (si_current it))])
         (Struct n [("intervals", g (si_intervals it)); ("current", interval_iter_shown (si_current it))]).
  Proof. intros Ln H. apply struct_good; [auto|]. each; [apply H|apply interval_iter_good]. Qed.

  (** [{:?}] *)
  Lemma tine_one t : tine_debug show t = one_line show (tine_term t).
  Proof. destruct t as [[]|[]|[]]; reflexivity. Qed.
  Lemma saved_one o : saved_debug show o = on_line show (saved_shown o).
  Proof. destruct o as [t|]; [|reflexivity]. cbn. now rewrite tine_one. Qed.
  Lemma interval_iter_one i : interval_iter_debug show i = on_line show (interval_iter_shown i).
  Proof.
    assert (R : forall i : RawInterval T, raw_debug show i = one_line show (raw_term i)) by (intros []; cbn; rewrite ?app_assoc_str; reflexivity).
    unfold interval_iter_debug, interval_debug, interval_iter_shown. rewrite R.
    cbn [on_line map String.concat one_line]. rewrite !app_assoc_str. reflexivity.
  Qed.
  Lemma set_one s : set_iter_debug show s = on_line show (Wrapped "Iter" (Listed (map tine_term s))).
  Proof.
    unfold set_iter_debug. cbn [on_line]. rewrite map_map. rewrite (map_ext _ _ tine_one). rewrite !app_assoc_str. reflexivity.
  Qed.
  Lemma tree_iter_one it : tree_iter_debug show it = on_line show (tree_iter_shown it).
  Proof.
    unfold tree_iter_debug, tree_iter_shown. rewrite set_one, !saved_one. cbn [on_line map String.concat]. rewrite !app_assoc_str. reflexivity.
  Qed.
  Lemma tree_into_iter_one owned set it : (forall s, owned s = on_line show (set s)) ->
    tree_into_iter_debug show owned it = on_line show (tree_into_iter_shown set it).
  Proof.
    intros H. unfold tree_into_iter_debug, tree_into_iter_shown. rewrite H, !saved_one. cbn [on_line map String.concat]. rewrite !app_assoc_str. reflexivity.
  Qed.
End Layout.

(** [{:?}] of an iterator writes its name and fields in order on one line, and [{:#?}] the same over indented
    lines, if [T]'s own [{:#?}] is [lines] and std's set iterator is written as [line] and [rows]. *)
Theorem C114_layout {T} (show pretty : T -> string) (lines : T -> list string)
    (line : list (Tine T) -> string) (owned : list (Tine T) -> string) (rows : list (Tine T) -> list string) :
  laid_out pretty lines -> laid_out owned rows -> let set s := Given (line s) (rows s) in
  (forall i : Interval T, let x := interval_iter_shown i in
     interval_iter_debug show i = on_line show x /\ interval_iter_pretty pretty i = text (in_lines lines x)) /\
  (forall it : Iter T, let x := Wrapped "IntervalIter" (tree_iter_shown it) in
     sel_interval_iter_debug show it = on_line show x /\ sel_interval_iter_pretty pretty it = text (in_lines lines x)) /\
  (forall it : SelIter T, let x := sel_iter_shown it in
     sel_iter_debug show it = on_line show x /\ sel_iter_pretty pretty it = text (in_lines lines x)) /\
  (forall it : Iter T, let x := Wrapped "IntoIntervalIter" (tree_into_iter_shown set it) in
     sel_into_interval_iter_debug show line it = on_line show x /\ sel_into_interval_iter_pretty pretty owned it = text (in_lines lines x)) /\
  (forall it : SelIter T, let x := sel_into_iter_shown set it in
     sel_into_iter_debug show line it = on_line show x /\ sel_into_iter_pretty pretty owned it = text (in_lines lines x)).
Proof.
  intros L LO set. assert (G : forall s, owned s = text (in_lines lines (set s)) /\ fine (in_lines lines (set s))) by exact LO.
  split; [|split; [|split; [|split]]].
  - intros i. split; [apply interval_iter_one|apply interval_iter_good, L].
  - intros it. split; [cbn [on_line]; now rewrite <- tree_iter_one|].
    apply (wrapped_good lines "IntervalIter"); [plain|]. apply tree_iter_good, L.
  - intros it. split.
    + unfold sel_iter_debug, sel_iter_shown. cbn [on_line map String.concat]. rewrite <- tree_iter_one, <- interval_iter_one, !app_assoc_str. reflexivity.
    + apply (sel_good pretty lines L "Iter" (tree_iter_pretty pretty) tree_iter_shown); [plain|]. intros x. apply tree_iter_good, L.
  - intros it. split; [cbn [on_line]; now rewrite <- (tree_into_iter_one show line)|].
    apply (wrapped_good lines "IntoIntervalIter"); [plain|]. now apply tree_into_iter_good.
  - intros it. split.
    + unfold sel_into_iter_debug, sel_into_iter_shown. cbn [on_line map String.concat].
      rewrite <- (tree_into_iter_one show line set), <- interval_iter_one, !app_assoc_str by reflexivity. reflexivity.
    + apply (sel_good pretty lines L "IntoIter" (tree_into_iter_pretty pretty owned) (tree_into_iter_shown set)); [plain|].
      intros x. now apply tree_into_iter_good.
Qed.
Print Assumptions C114_layout.

(** The hypotheses hold of the integers, with a set iterator that writes how many tines are left. *)
Example C114_layout_ex :
  let n (s : list (Tine (int (-128) 127))) := match s with [] => "none" | _ => "some" end in
  laid_out (show_int (lo := -128) (hi := 127)) (fun x => [show_int x]) /\ laid_out n (fun s => [n s]) /\
  (let x := sel_into_iter_shown (fun s => Given (n s) [n s]) (sel_iter [TPoint (Include (v 4))]) in
   on_line show_int x = "IntoIter { intervals: IntoIter { inner: some, saved_lower: None, saved_upper: None }, current: Iter { inner: Interval(Empty) } }" /\
   in_lines (fun x => [show_int x]) x =
     ["IntoIter {"; "    intervals: IntoIter {"; "        inner: some,"; "        saved_lower: None,"; "        saved_upper: None,"; "    },";
      "    current: Iter {"; "        inner: Interval("; "            Empty,"; "        ),"; "    },"; "}"]).
Proof.
  cbv zeta. split; [apply C111_layout_int|]. split.
  - intros s. split; [reflexivity|]. split; [discriminate|]. constructor; [|constructor]. destruct s; plain.
  - vm_compute. auto.
Qed.

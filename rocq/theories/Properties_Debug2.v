(** * The layout of [{:?}] and [{:#?}]: C111, continued *)
From Coq Require Import List Bool ZArith Lia String Ascii.
From Verif Require Import Base MBound MRaw MNormalize MTine MBTree MTineTree Ints MInterval MSelection MParse
  MDebug Spec Spec_Parse Spec_Debug PParse PParse2 Properties_Debug Properties_Interval Properties_Selection.
Import ListNotations.
Local Open Scope string_scope.

(** [show]'s text for a value is [lines] of its lines. *)
Definition laid_out {T} (show : T -> string) (lines : T -> list string) : Prop :=
  forall x, show x = text (lines x) /\ lines x <> [] /\ Forall (lacks "010"%char) (lines x).

Lemma pad_line s r : lacks "010"%char s -> pad false (s ++ newline ++ r) = s ++ newline ++ pad true r.
Proof.
  induction s as [|c s IH]; intros L; [reflexivity|]. apply lacks_cons in L as [N L].
  cbn [append pad]. assert (E : Ascii.eqb c "010" = false) by (apply Ascii.eqb_neq; congruence). rewrite E.
  cbn [append]. now rewrite IH.
Qed.
Lemma pad_first s r : lacks "010"%char s -> pad true (s ++ newline ++ r) = "    " ++ s ++ newline ++ pad true r.
Proof.
  destruct s as [|c s]; [reflexivity|]. intros L. rewrite <- (pad_line (String c s) r) by auto. reflexivity.
Qed.
Lemma comma_lacks ls : Forall (lacks "010"%char) ls -> Forall (lacks "010"%char) (comma ls).
Proof.
  induction 1 as [|l ls H Hs IH]; [constructor|]. destruct ls as [|l' ls].
  - repeat constructor. apply lacks_app. split; auto. apply lacks_cons. split; [discriminate|apply lacks_nil].
  - constructor; auto.
Qed.
Lemma inner_lacks ls : Forall (lacks "010"%char) ls -> Forall (lacks "010"%char) (inner ls).
Proof.
  intros H. unfold inner. apply Forall_map. eapply Forall_impl; [|apply comma_lacks, H]. intros l L. apply lacks_app. split; auto.
  repeat (apply lacks_cons; split; [discriminate|]). apply lacks_nil.
Qed.
Lemma text_cons l ls : text (l :: ls) = match ls with [] => l | _ => l ++ newline ++ text ls end.
Proof. destruct ls; reflexivity. Qed.
(** A list of lines, each ended. *)
Definition ended (ls : list string) : string := String.concat "" (map (fun l => l ++ newline) ls).
Lemma concat_cons a l : String.concat "" (a :: l) = a ++ String.concat "" l.
Proof. destruct l; [|reflexivity]. cbn. induction a; cbn; congruence. Qed.
Lemma ended_app a b : ended (a ++ b) = ended a ++ ended b.
Proof. unfold ended. induction a as [|l a IH]; [reflexivity|]. cbn [app map]. rewrite !concat_cons, IH, !app_assoc_str. reflexivity. Qed.
Lemma field_ended ls : ls <> [] -> Forall (lacks "010"%char) ls -> field (text ls) = ended (inner ls).
Proof.
  intros N H. unfold field, inner, ended. induction H as [|l ls Hl Hs IH]; [easy|]. destruct ls as [|l' ls].
  - cbn [comma map]. rewrite concat_cons, text_cons. cbn [map String.concat]. rewrite app_nil.
    assert (L : lacks "010"%char (l ++ ",")) by (apply lacks_app; split; auto; apply lacks_cons; split; [discriminate|apply lacks_nil]).
    pose proof (pad_first (l ++ ",") "" L) as E. rewrite app_nil in E. cbn [pad] in E. rewrite app_nil in E.
    rewrite !app_assoc_str in *. exact E.
  - change (comma (l :: l' :: ls)) with (l :: comma (l' :: ls)). rewrite text_cons. cbn [map]. rewrite concat_cons, !app_assoc_str.
    rewrite pad_first by auto. rewrite <- IH by discriminate. reflexivity.
Qed.
Lemma text_ended ls l : text (ls ++ [l]) = ended ls ++ l.
Proof.
  induction ls as [|a ls IH]; [reflexivity|]. cbn [app]. rewrite text_cons.
  destruct (ls ++ [l])%list as [|b r] eqn:E; [destruct ls; discriminate|]. rewrite IH. unfold ended. cbn [map].
  now rewrite concat_cons, !app_assoc_str.
Qed.
Lemma fields_ended lss : Forall (fun ls => ls <> [] /\ Forall (lacks "010"%char) ls) lss ->
  String.concat "" (map (fun ls => field (text ls)) lss) = ended (flat_map inner lss).
Proof.
  induction 1 as [|ls lss [N H] Hs IH]; [reflexivity|]. cbn [map flat_map]. rewrite concat_cons, IH, ended_app, field_ended; auto.
Qed.
Lemma tuple_text n lss : Forall (fun ls => ls <> [] /\ Forall (lacks "010"%char) ls) lss ->
  tuple n (map text lss) = text ([n ++ "("] ++ flat_map inner lss ++ [")"]).
Proof.
  intros H. rewrite List.app_assoc, text_ended, ended_app. unfold tuple. rewrite map_map, fields_ended by auto.
  unfold ended at 2. cbn [map String.concat]. unfold newline. rewrite !app_assoc_str. reflexivity.
Qed.
Lemma flat_lacks lss : Forall (fun ls => ls <> [] /\ Forall (lacks "010"%char) ls) lss -> Forall (lacks "010"%char) (flat_map inner lss).
Proof. induction 1 as [|ls lss [_ H] _ IH]; [constructor|]. cbn. apply Forall_app. split; auto. now apply inner_lacks. Qed.

Ltac plain := repeat (apply lacks_cons; split; [discriminate|]); apply lacks_nil.

Section Layout.
  Context {T : Type} (show pretty : T -> string) (lines : T -> list string).
  Definition fine (ls : list string) : Prop := ls <> [] /\ Forall (lacks "010"%char) ls.

  Lemma app_fine n lss : lacks "010"%char n -> Forall fine lss -> fine ([n ++ "("] ++ flat_map inner lss ++ [")"]).
  Proof.
    intros L H. split; [discriminate|]. constructor; [apply lacks_app; split; [auto|plain]|]. apply Forall_app. split; [now apply flat_lacks|].
    constructor; [plain|constructor].
  Qed.
  Lemma app_lines n (fs : list (term T)) : lines_of lines (App n fs) = ([(n ++ "(")%string] ++ flat_map inner (map (lines_of lines) fs) ++ [")"])%list.
  Proof. cbn. do 2 f_equal. induction fs as [|f fs IH]; [reflexivity|]. cbn. now rewrite IH. Qed.
  Lemma set_lines (t : term T) fs : lines_of lines (Set_of (t :: fs)) = (["{"] ++ flat_map inner (map (lines_of lines) (t :: fs)) ++ ["}"])%list.
  Proof.
    assert (E : forall fs, flat_map (fun f => inner (lines_of lines f)) fs = flat_map inner (map (lines_of lines) fs)).
    { clear. induction fs as [|f fs IH]; [reflexivity|]. cbn. now rewrite IH. }
    rewrite <- E. reflexivity.
  Qed.

  (** [{:#?}] *)
  Context (L : laid_out pretty lines).
  Lemma val_fine x : fine (lines x). Proof. split; apply L. Qed.
  Lemma val_text x : pretty x = text (lines x). Proof. apply L. Qed.

  Lemma app_pretty n (fs : list (term T)) (ts : list string) : lacks "010"%char n ->
    Forall2 (fun t f => t = text (lines_of lines f) /\ fine (lines_of lines f)) ts fs ->
    tuple n ts = text (lines_of lines (App n fs)) /\ fine (lines_of lines (App n fs)).
  Proof.
    intros Ln H. rewrite app_lines.
    assert (K : ts = map text (map (lines_of lines) fs) /\ Forall fine (map (lines_of lines) fs)).
    { induction H as [|t f ts fs [-> Hf] _ [-> K]]; [split; [reflexivity|constructor]|]. split; [reflexivity|]. now constructor. }
    destruct K as [-> K]. split; [now apply tuple_text|now apply app_fine].
  Qed.
  Lemma val_pretty x : pretty x = text (lines_of lines (Val x)) /\ fine (lines_of lines (Val x)).
  Proof. split; [apply val_text|apply val_fine]. Qed.
  Lemma name_pretty n : lacks "010"%char n -> n = text (lines_of lines (Name n)) /\ fine (lines_of lines (Name n)).
  Proof. intros H. split; [reflexivity|]. split; [discriminate|]. constructor; [exact H|constructor]. Qed.

  Lemma bound_layout (b : Bound T) : bound_pretty pretty b = text (lines_of lines (bound_term b)) /\ fine (lines_of lines (bound_term b)).
  Proof.
    destruct b; cbn [bound_pretty bound_term]; try (apply name_pretty; plain); apply app_pretty; try plain;
    repeat (constructor; [apply val_pretty|]); constructor.
  Qed.
  Lemma tine_layout (t : Tine T) : tine_pretty pretty t = text (lines_of lines (tine_term t)) /\ fine (lines_of lines (tine_term t)).
  Proof. destruct t; cbn [tine_pretty tine_term]; apply app_pretty; try plain; (constructor; [apply bound_layout|constructor]). Qed.
  Lemma raw_layout (i : RawInterval T) : raw_pretty pretty i = text (lines_of lines (raw_term i)) /\ fine (lines_of lines (raw_term i)).
  Proof.
    destruct i; cbn [raw_pretty raw_term]; try (apply name_pretty; plain); apply app_pretty; try plain;
    repeat (constructor; [apply val_pretty|]); constructor.
  Qed.
  Lemma set_layout (s : list (Tine T)) : set_pretty pretty s = text (lines_of lines (Set_of (map tine_term s))) /\
    fine (lines_of lines (Set_of (map tine_term s))).
  Proof.
    destruct s as [|t s]; [split; [reflexivity|]; split; [discriminate|constructor; [plain|constructor]]|].
    cbn [map]. rewrite set_lines. change (tine_term t :: map tine_term s) with (map tine_term (t :: s)). rewrite map_map.
    set (r := t :: s).
    assert (H : Forall fine (map (fun t => lines_of lines (tine_term t)) r)).
    { apply Forall_map, Forall_forall. intros u _. apply tine_layout. }
    split.
    - rewrite List.app_assoc, text_ended, ended_app, <- fields_ended by exact H. unfold set_pretty, ended. subst r. cbn [String.concat map]. rewrite map_map.
      assert (E : map (fun t => field (tine_pretty pretty t)) s = map (fun x => field (text (lines_of lines (tine_term x)))) s).
      { apply map_ext. intros u. now rewrite (proj1 (tine_layout u)). }
      rewrite E, (proj1 (tine_layout t)). unfold newline. rewrite !app_assoc_str. reflexivity.
    - split; [discriminate|]. constructor; [plain|]. apply Forall_app. split; [now apply flat_lacks|constructor; [plain|constructor]].
  Qed.
End Layout.

(** [{:?}] writes the names and fields of a value in order on one line, and
    [{:#?}] the same over indented lines, if [T]'s own [{:#?}] is [lines]. *)
Theorem C111_layout {T} (show pretty : T -> string) (lines : T -> list string) : laid_out pretty lines ->
  (forall b : Bound T, bound_debug show b = one_line show (bound_term b) /\ bound_pretty pretty b = text (lines_of lines (bound_term b))) /\
  (forall i : RawInterval T, raw_debug show i = one_line show (raw_term i) /\ raw_pretty pretty i = text (lines_of lines (raw_term i))) /\
  (forall i : Interval T, let t := App "Interval" [raw_term (interval_raw i)] in
     interval_debug show i = one_line show t /\ interval_pretty pretty i = text (lines_of lines t)) /\
  (forall s : TineTree T, let t := App "TineTree" [Set_of (map tine_term s)] in
     tree_debug show s = one_line show t /\ tree_pretty pretty s = text (lines_of lines t)) /\
  (forall s : Selection T, let t := App "Selection" [App "TineTree" [Set_of (map tine_term s)]] in
     sel_debug show s = one_line show t /\ sel_pretty pretty s = text (lines_of lines t)).
Proof.
  intros L.
  assert (B : forall b : Bound T, bound_debug show b = one_line show (bound_term b)) by (intros []; reflexivity).
  assert (R : forall i : RawInterval T, raw_debug show i = one_line show (raw_term i)).
  { intros []; cbn; rewrite ?app_assoc_str; reflexivity. }
  assert (S : forall s : TineTree T, tree_debug show s = one_line show (App "TineTree" [Set_of (map tine_term s)])).
  { intros s. unfold tree_debug, set_debug. cbn [one_line map String.concat]. rewrite map_map.
    assert (E : map (tine_debug show) s = map (fun t => one_line show (tine_term t)) s).
    { apply map_ext. intros [b|b|b]; cbn; now rewrite B. }
    now rewrite E. }
  split; [|split; [|split; [|split]]].
  - intros b. split; [apply B|apply (bound_layout pretty lines L)].
  - intros i. split; [apply R|apply (raw_layout pretty lines L)].
  - intros i. split; [unfold interval_debug; now rewrite R|].
    apply (app_pretty lines "Interval" [raw_term (interval_raw i)] [raw_pretty pretty (interval_raw i)]); [plain|].
    constructor; [apply (raw_layout pretty lines L)|constructor].
  - intros s. split; [apply S|]. apply (app_pretty lines "TineTree" [_] [set_pretty pretty s]); [plain|].
    constructor; [apply (set_layout pretty lines L)|constructor].
  - intros s. split; [unfold sel_debug; now rewrite S|]. apply (app_pretty lines "Selection" [_] [tree_pretty pretty s]); [plain|].
    constructor; [|constructor]. apply (app_pretty lines "TineTree" [_] [set_pretty pretty s]); [plain|].
    constructor; [apply (set_layout pretty lines L)|constructor].
Qed.
Print Assumptions C111_layout.

(** The builtin integers print on one line. *)
Theorem C111_layout_int {lo hi} {I : IntType lo hi} : laid_out (show_int (lo := lo) (hi := hi)) (fun x => [show_int x]).
Proof.
  intros x. split; [reflexivity|]. split; [discriminate|]. constructor; [|constructor].
  apply (decimal_chars _ _ _ _ (show_int_decimal x)); first [reflexivity|discriminate].
Qed.
Print Assumptions C111_layout_int.

Example C111_layout_ex :
  laid_out (show_int (lo := -128) (hi := 127)) (fun x => [show_int x]) /\
  (let t := App "Interval" [raw_term (interval_raw (interval_right_open (v 2) (v 9)))] in
   one_line show_int t = "Interval(Closed(2, 8))" /\
   lines_of (fun x => [show_int x]) t = ["Interval("; "    Closed("; "        2,"; "        8,"; "    ),"; ")"]) /\
  lines_of (fun x => [show_int x]) (App "TineTree" [Set_of (map tine_term (sel_from (interval_unbounded_from (v 7))))]) =
    ["TineTree("; "    {"; "        Lower("; "            Exclude("; "                6,"; "            ),"; "        ),";
     "        Upper("; "            Infinite,"; "        ),"; "    },"; ")"].
Proof. split; [apply C111_layout_int|]. vm_compute. auto. Qed.

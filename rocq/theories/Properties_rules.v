(** Properties C11-C18: the rules one by one. *)
From Coq Require Import Ascii String List NArith Bool Arith.
From Verif Require Import Base Ext Types ParseModel PegSpec DataSpec ApiSpec RuleSpec IdSpec
  Examples ExtProofs OccursProofs RuleProofs LinesProofs BlockPublic DeeperProofs IndentProofs SimProofs.
Import ListNotations.
Local Open Scope string_scope.
Local Open Scope list_scope.

(** The examples: [runs] of closed rules, by evaluation. *)
Ltac run := apply (runs_eval std_ext [] 100); vm_compute; reflexivity.

(** ** C11: optional rules and negative lookahead leave no trace. *)

Theorem C11_optional : forall E refs r id ind p s v ind',
  runs E refs (ROptional r id) ind p s v ind' <->
  exists v', runs E refs r ind p s v' ind' /\
    v = match v' with Yes n out => Yes n out | No => Yes 0 [] end.
Proof. exact optional_spec. Qed.
Print Assumptions C11_optional.

Theorem C11_not : forall E refs r id ind p s v ind',
  runs E refs (RNot r id) ind p s v ind' <->
  exists v', runs E refs r ind p s v' ind' /\
    v = match v' with Yes _ _ => No | No => Yes 0 [] end.
Proof. exact not_spec. Qed.
Print Assumptions C11_not.

Theorem C11_not_not : forall E refs r id1 id2 ind p s v ind',
  runs E refs (RNot (RNot r id1) id2) ind p s v ind' <->
  exists v', runs E refs r ind p s v' ind' /\
    v = match v' with Yes _ _ => Yes 0 [] | No => No end.
Proof. exact not_not_spec. Qed.
Print Assumptions C11_not_not.

(** Running a rule has one outcome. *)
Theorem C11_runs_unique : forall E refs r ind p s v1 ind1 v2 ind2,
  runs E refs r ind p s v1 ind1 -> runs E refs r ind p s v2 ind2 -> v1 = v2 /\ ind1 = ind2.
Proof. exact runs_deterministic. Qed.
Print Assumptions C11_runs_unique.

(** The item fails only after it has produced the tokens of its name. *)
Example C11_example :
  runs std_ext [] ex_item indent_default 5 (tx "(abc:?") No indent_default /\
  runs std_ext [] (ROptional ex_item 0) indent_default 5 (tx "(abc:?") (Yes 0 []) indent_default /\
  runs std_ext [] (RNot ex_item 0) indent_default 5 (tx "(abc:?") (Yes 0 []) indent_default /\
  runs std_ext [] (RNot (RNot ex_item 0) 0) indent_default 5 (tx "(abc:yes)x") (Yes 0 [])
    indent_default /\
  runs std_ext [] (ROptional ex_item 0) indent_default 5 (tx "(abc:yes)x")
    (Yes 9 [(Rng 6 3, MString (tx "name") (tx "abc")); (Rng 10 3, MBool (tx "flag") true)])
    indent_default.
Proof. repeat split; run. Qed.

(** ** C12: repetition is maximal and counts correctly. *)

Theorem C12_repeat_yes : forall E refs r optional id ind p s n out ind',
  runs E refs (RRepeat r optional id) ind p s (Yes n out) ind' <->
  exists k ind1, (optional = true \/ 0 < k) /\
    times (runs E refs r) k ind p s n out ind1 /\
    runs E refs r ind1 (p + n) (skipn n s) No ind'.
Proof. exact repeat_yes. Qed.
Print Assumptions C12_repeat_yes.

Theorem C12_repeat_no : forall E refs r optional id ind p s ind',
  runs E refs (RRepeat r optional id) ind p s No ind' <->
  optional = false /\ runs E refs r ind p s No ind'.
Proof. exact repeat_no. Qed.
Print Assumptions C12_repeat_no.

Example C12_example :
  runs std_ext [] (RRepeat ex_item false 0) indent_default 0 (tx "(a)(b)(c:") (Yes 6
    [(Rng 1 1, MString (tx "name") (tx "a")); (Rng 4 1, MString (tx "name") (tx "b"))])
    indent_default /\
  runs std_ext [] (RRepeat ex_item true 0) indent_default 0 (tx "a") (Yes 0 []) indent_default /\
  runs std_ext [] (RRepeat ex_item false 0) indent_default 0 (tx "a") No indent_default.
Proof. repeat split; run. Qed.

(** ** C13: separated lists. *)

Theorem C13_separate_by : forall E refs r by_ optional trail id ind p s v ind',
  runs E refs (RSeparateBy r by_ optional trail id) ind p s v ind' <->
  (runs E refs r ind p s No ind' /\ v = if optional then Yes 0 [] else No) \/
  (exists n1 out1 ind1 k n2 out2 ind2 v2,
    runs E refs r ind p s (Yes n1 out1) ind1 /\
    times (then_item (runs E refs by_) (runs E refs r)) k ind1 (p + n1) (skipn n1 s)
      n2 out2 ind2 /\
    list_end (runs E refs by_) (runs E refs r) trail ind2 (p + n1 + n2)
      (skipn n2 (skipn n1 s)) v2 ind' /\
    v = after (n1 + n2) (out1 ++ out2) v2).
Proof. exact separate_spec. Qed.
Print Assumptions C13_separate_by.

Example C13_example :
  let digit := RUntilAnyOrWs (tx ",;") false (Some (tx "d")) 1 in
  let comma := RTag (tx ",") false false None 2 in
  let out := [(Rng 0 1, MString (tx "d") (tx "1")); (Rng 2 1, MString (tx "d") (tx "2"))] in
  runs std_ext [] (RSeparateBy digit comma false true 0) indent_default 0 (tx "1,2,;")
    (Yes 4 out) indent_default /\
  runs std_ext [] (RSeparateBy digit comma false false 0) indent_default 0 (tx "1,2,;") No
    indent_default /\
  runs std_ext [] (RSeparateBy digit comma false false 0) indent_default 0 (tx "1,2;")
    (Yes 3 out) indent_default /\
  runs std_ext [] (RSeparateBy digit comma true false 0) indent_default 0 (tx ";")
    (Yes 0 []) indent_default.
Proof. repeat split; run. Qed.

(** ** C14: lines read one item per line. *)

Theorem C14_lines : forall E, ext_ok E -> forall refs r indented id ind p s v ind',
  runs E refs (RLines r indented id) ind p s v ind' <->
  exists items fresh',
    block ((if indented then indented_line else plain_line) (runs E refs r))
      None (ind, true) p s items v (ind', fresh').
Proof.
  exact (fun E HE refs r indented => match indented with
    | true => lines_spec E HE refs r true
    | false => lines_spec E HE refs r false
    end).
Qed.
Print Assumptions C14_lines.

(** Whatever a line is: between consecutive items there is a line break, the rest is white
    space; a block that succeeds ends at the end of the text or in front of a line that is
    not an item; a block fails only because the last item is followed by something else on
    its line. *)
Theorem C14_pieces : forall E, ext_ok E -> forall refs r indented id ind p s v ind',
  runs E refs (RLines r indented id) ind p s v ind' ->
  exists items fresh',
    block ((if indented then indented_line else plain_line) (runs E refs r))
      None (ind, true) p s items v (ind', fresh') /\
    broken None items /\
    match v with
    | Yes n out => exists gap rest, s = joined items ++ gap ++ rest /\ Forall white gap /\
        n = length (joined items ++ gap) /\
        (rest = [] \/ (~ Forall white rest /\ exists st1,
           (if indented then indented_line else plain_line) (runs E refs r)
             st1 (p + n) rest No (ind', fresh')))
    | No => exists x rest, s = joined items ++ rest /\
        last (map (fun i => Some (snd i)) items) None = Some x /\
        ~ ends_line x /\ same_line rest /\ ~ Forall white rest
    end.
Proof. exact lines_pieces. Qed.
Print Assumptions C14_pieces.

Definition ex_nl : string := String (ascii_of_nat 10) EmptyString.

Example C14_example :
  let r := RLines (RNumber false (Some (tx "n")) 1) false 2 in
  let text := s2l ("1" ++ ex_nl ++ ex_nl ++ "22 " ++ ex_nl ++ "x") in
  (exists out, runs std_ext [] r indent_default 0 text (Yes 7 out) indent_default /\
     map fst out = [Rng 0 1; Rng 3 2]) /\
  runs std_ext [] r indent_default 0 (s2l ("1" ++ ex_nl ++ "22 x")) No indent_default.
Proof. split; [eexists; split; [run|reflexivity]|run]. Qed.

(** ** C15: a block of indented lines has one column. *)

Theorem C15_columns : forall E, ext_ok E -> forall refs r id ind p s v ind',
  runs E refs (RLines r true id) ind p s v ind' -> ~ In tab s ->
  exists items fresh' c,
    block (indented_line (runs E refs r)) None (ind, true) p s items v (ind', fresh') /\
    (i_indent ind <= c)%N /\ (i_align_first ind = false -> c = i_indent ind) /\
    Forall (at_column c) (map snd items) /\ (items <> [] -> i_indent ind' = c).
Proof. exact lines_columns. Qed.
Print Assumptions C15_columns.

(** Each item is read by the sub rule behind its indentation, with settings one deeper, *)
Theorem C15_deeper : forall E, ext_ok E -> forall refs r id ind p s v ind',
  runs E refs (RLines r true id) ind p s v ind' -> ~ In tab s ->
  exists items fresh' c,
    block (indented_line (runs E refs r)) None (ind, true) p s items v (ind', fresh') /\
    (i_indent ind <= c)%N /\ Forall (at_column c) (map snd items) /\
    Forall (fun item => exists y behind q ind1 out ind2,
      item = repeat space (N.to_nat c) ++ y /\ i_indent ind1 = (c + 1)%N /\ ~ In tab (y ++ behind) /\
      runs E refs r ind1 q (y ++ behind) (Yes (length y) out) ind2) (map snd items).
Proof. exact lines_deeper. Qed.
Print Assumptions C15_deeper.

(** so the lines of a block at the end of an item are deeper than the item. *)
Theorem C15_nested : forall E, ext_ok E -> forall refs h r id0 id1 id ind p s v ind',
  runs E refs (RLines (RSequence [h; RLines r true id0] id1) true id) ind p s v ind' -> ~ In tab s ->
  exists items fresh' c,
    block (indented_line (runs E refs (RSequence [h; RLines r true id0] id1))) None (ind, true) p s items v (ind', fresh') /\
    Forall (at_column c) (map snd items) /\
    Forall (fun item => exists x y inner gap c', item = repeat space (N.to_nat c) ++ x ++ y /\
      y = joined inner ++ gap /\ Forall white gap /\ (c < c')%N /\ Forall (at_column c') (map snd inner)) (map snd items).
Proof. exact nested_deeper. Qed.
Print Assumptions C15_nested.

(** A block of an item with two deeper lines, and an item without. *)
Example C15_nested_example :
  let text := s2l ("1" ++ ex_nl ++ "  x" ++ ex_nl ++ "  x" ++ ex_nl ++ "2") in
  ~ In tab text /\ exists out, map fst out = [Rng 0 1; Rng 4 1; Rng 8 1; Rng 10 1] /\
    runs std_ext [] (RLines (RSequence [RNumber false (Some (tx "n")) 1;
      RLines (RTag (tx "x") false false (Some (tx "b")) 2) true 3] 4) true 5) indent_default 0 text (Yes 11 out) indent_default.
Proof. split; [vm_compute; intuition discriminate|]. eexists. split; [|run]. reflexivity. Qed.

(** No rule lowers the indentation. *)
Theorem C15_never_lower : forall E refs r ind p s v ind',
  runs E refs r ind p s v ind' -> (i_indent ind <= i_indent ind')%N.
Proof. exact runs_grows. Qed.
Print Assumptions C15_never_lower.

(** The third line is deeper than the block and is not read. *)
Example C15_example :
  let text := s2l ("  1" ++ ex_nl ++ "  2" ++ ex_nl ++ "   3") in
  ~ In tab text /\
  exists out, map fst out = [Rng 2 1; Rng 6 1] /\
    runs std_ext [] ex_block indent_default 0 text (Yes 8 out) (set_indent indent_default 2).
Proof.
  split; [vm_compute; intuition discriminate|]. eexists. split; [|run]. reflexivity.
Qed.

(** ** C16: indent settings are irrelevant without [.l+]. *)

Theorem C16_indent_irrelevant : forall E s text tokens i j,
  no_indented_lines s -> forall fuel,
  parse_with_indent E fuel s text tokens i = parse_with_indent E fuel s text tokens j.
Proof. exact indent_irrelevant. Qed.
Print Assumptions C16_indent_irrelevant.

Example C16_example : no_indented_lines ex_syntax /\
  parse_returns std_ext ex_syntax (tx "(a)") [] (Ind 7 false 3) None
    [(Rng 0 0, StartNode (tx "item")); (Rng 1 1, MString (tx "name") (tx "a"));
     (Rng 0 3, EndNode (tx "item"))].
Proof.
  split; [apply no_indented_check; reflexivity|]. exists 100. vm_compute. reflexivity.
Qed.

(** With an indented lines rule the settings do matter. *)
Example C16_needs_hypothesis :
  parse_with_indent std_ext 100 ex_lines (tx "  1") [] indent_default
    <> parse_with_indent std_ext 100 ex_lines (tx "  1") [] (Ind 4 true 4).
Proof. vm_compute. discriminate. Qed.

(** ** C17: failed alternatives do not influence later ones. *)

Theorem C17_failed_alternative : forall E s, no_indented_lines s ->
  forall a rest id id' ind p t ind1 v ind',
  occurs s a -> rest <> [] -> runs E (s_rules s) a ind p t No ind1 ->
  (runs E (s_rules s) (RSelect (a :: rest) id) ind p t v ind' <->
   runs E (s_rules s) (RSelect rest id') ind p t v ind').
Proof. exact failed_alternative. Qed.
Print Assumptions C17_failed_alternative.

Example C17_example :
  let a := RSequence [RTag (tx "a") false false (Some (tx "x")) 1;
                      RTag (tx "b") false false None 2] 3 in
  let b := RTag (tx "ac") false false (Some (tx "y")) 4 in
  let s := Syn [RSelect [a; b] 5] [tx "doc"] in
  no_indented_lines s /\ occurs s a /\
  runs std_ext (s_rules s) a indent_default 0 (tx "ac") No indent_default /\
  runs std_ext (s_rules s) (RSelect [a; b] 5) indent_default 0 (tx "ac")
    (Yes 2 [(Rng 0 2, MBool (tx "y") true)]) indent_default.
Proof.
  cbv zeta. split; [apply no_indented_check; reflexivity|]. split.
  - eexists. split; [left; reflexivity|]. eapply occurs_below; [left; reflexivity|]. constructor.
  - split; apply (runs_eval std_ext _ 100); vm_compute; reflexivity.
Qed.

(** The first alternative is [.l+("a") "X"]. It fails on two spaces and an a, and leaves
    column 2 behind, so that the second, one space and [.l+("a")], fails as well, although
    it accepts the text when it is alone. *)
Definition ex_leak_1 : rule :=
  RSequence [RLines (RTag (tx "a") false false None 1) true 2; RTag (tx "X") false false None 3] 4.
Definition ex_leak_2 : rule :=
  RSequence [RTag (tx " ") false false None 5; RLines (RTag (tx "a") false false None 6) true 7] 8.

Theorem C17_failed_alternative_refuted : exists a b ind t ind1 ind2 out,
  runs std_ext [] a ind 0 t No ind1 /\
  runs std_ext [] (RSelect [b] 0) ind 0 t (Yes (length t) out) ind2 /\
  exists n, n < length t /\
    runs std_ext [] (RSelect [a; b] 0) ind 0 t (Yes n out) ind1.
Proof.
  exists ex_leak_1, ex_leak_2, indent_default, (tx "  a"). do 3 eexists.
  split; [run|]. split; [run|]. exists 1. split; [repeat constructor|run].
Qed.
Print Assumptions C17_failed_alternative_refuted.

(** The same as a whole text that is accepted with the second alternative alone, and
    rejected with the first in front of it. *)
Theorem C17_acceptance_refuted : exists a b t out e junk,
  parse_returns std_ext (Syn [RSelect [b] 0] [tx "doc"]) t [] indent_default None out /\
  parse_returns std_ext (Syn [RSelect [a] 0] [tx "doc"]) t [] indent_default (Some e) junk /\
  exists e' junk',
  parse_returns std_ext (Syn [RSelect [a; b] 0] [tx "doc"]) t [] indent_default (Some e') junk'.
Proof.
  exists ex_leak_1, ex_leak_2, (tx "  a"). do 3 eexists.
  split; [exists 100; vm_compute; reflexivity|]. split; [exists 100; vm_compute; reflexivity|].
  do 2 eexists. exists 100. vm_compute. reflexivity.
Qed.
Print Assumptions C17_acceptance_refuted.

(** ** C18: debug ids influence only the ids in error messages. *)

Theorem C18_ids_irrelevant : forall E s s' text tokens ind,
  Forall2 (like_rule any_ids) (s_rules s) (s_rules s') -> forall result tokens',
  parse_returns E s text tokens ind result tokens' ->
  exists result', parse_returns E s' text tokens ind result' tokens' /\
    like_result any_ids result result'.
Proof. exact ids_irrelevant. Qed.
Print Assumptions C18_ids_irrelevant.

Theorem C18_ids_irrelevant_panics : forall E s s' text tokens ind,
  Forall2 (like_rule any_ids) (s_rules s) (s_rules s') ->
  (parse_panics E s text tokens ind -> parse_panics E s' text tokens ind) /\
  (parse_diverges E s text tokens ind -> parse_diverges E s' text tokens ind).
Proof. exact ids_irrelevant_panics. Qed.
Print Assumptions C18_ids_irrelevant_panics.

Example C18_example :
  let r i := RSequence [RTag (tx "a") false false (Some (tx "x")) i;
                        RNumber true None (i + 1)] (i + 2) in
  Forall2 (like_rule any_ids) [r 0%N] [r 7%N] /\
  (exists t, parse_returns std_ext (Syn [r 0%N] [tx "doc"]) (tx "ab") [] indent_default
    (Some (Rng 1 0, ExpectedNumber 1)) t) /\
  (exists t, parse_returns std_ext (Syn [r 7%N] [tx "doc"]) (tx "ab") [] indent_default
    (Some (Rng 1 0, ExpectedNumber 8)) t).
Proof.
  cbv zeta. split.
  - repeat first [constructor | exact I].
  - split; eexists; exists 100; vm_compute; reflexivity.
Qed.

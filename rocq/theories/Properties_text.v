(** C44, C45: what is written in the meta language is what is read. *)
From Coq Require Import Ascii String List NArith Bool Arith.
From Verif Require Import Base Ext Types PegSpec OptSpec IdSpec JsonSpec ConvertSpec WriteSpec SyntaxSpec TextSpec
  ExtProofs JsonProofs2 TextProofs7 TextProofs8 Examples TextExamples.
Import ListNotations.
Local Open Scope string_scope.
Local Open Scope list_scope.
Local Open Scope nat_scope.

(** ** C44: every rule tree can be written in the meta language. *)

(** A text that writes the nodes is read as these nodes: same names, same rules up to debug
    ids, references resolved, and the debug ids of each node numbered from 1000 times its
    number without gaps. The syntax is the optimised form of these rules. *)
Theorem C44_text_read : forall E, ext_ok E -> string_literals_ok E -> no_slash_number E ->
  forall strings nodes text, document E strings nodes text -> Forall real_char text ->
  let names := map (fun n => fst (fst n)) nodes in
  let lo n := (f64_as_usize (snd (fst n)) * 1000)%N in
  let hi n := (lo n + N.of_nat (length (rule_ids (snd n))))%N in
  Forall (fun n => (hi n <= usize_max)%N) nodes ->
  exists s, rules_read E text (inl s) /\ s_names s = names /\
    Forall2 (fun n r => (exists r1, like_rule any_ids (snd n) r1 /\ resolved names r1 r) /\
      forall i, In i (rule_ids r) <-> (lo n < i <= hi n)%N) nodes (s_rules s) /\
    forall s', optimize_returns s s' -> syntax_returns E text (inl s').
Proof. exact text_back. Qed.
Print Assumptions C44_text_read.

(** There is such a text for all nodes with rules that the language can express. *)
Theorem C44_every_rule_tree : forall E, ext_ok E -> string_literals_ok E -> no_slash_number E ->
  forall nodes : list (str * f64 * rule),
  let names := map (fun n => fst (fst n)) nodes in
  let lo n := (f64_as_usize (snd (fst n)) * 1000)%N in
  let hi n := (lo n + N.of_nat (length (rule_ids (snd n))))%N in
  Forall (fun n => writable_name (fst (fst n)) /\
    (exists t, numeral E (snd (fst n)) t /\ Forall real_char t) /\ expressible (snd n)) nodes ->
  Forall (fun n => (hi n <= usize_max)%N) nodes ->
  exists text s, rules_read E text (inl s) /\ s_names s = names /\
    Forall2 (fun n r => (exists r1, like_rule any_ids (snd n) r1 /\ resolved names r1 r) /\
      forall i, In i (rule_ids r) <-> (lo n < i <= hi n)%N) nodes (s_rules s) /\
    forall s', optimize_returns s s' -> syntax_returns E text (inl s').
Proof. exact every_syntax_written. Qed.
Print Assumptions C44_every_rule_tree.

Example C44_example :
  (ext_ok std_ext /\ string_literals_ok std_ext /\ no_slash_number std_ext) /\
  document std_ext C44_strings C44_nodes C44_text /\ Forall real_char C44_text /\
  (exists s, rules_read std_ext C44_text (inl s) /\ s_rules s =
    [RSequence [RTag (tx "a") false true (Some (tx "val")) 3001; RNot (RNode (tx "doc") None (Some 0) 3002) 3003] 3004]) /\
  Forall (fun n => expressible (snd n)) C44_nodes.
Proof.
  split; [split; [exact std_ext_ok|split; [exact std_string_literals|exact std_no_slash]]|].
  split; [exact C44_document|]. split; [apply real_check; reflexivity|].
  split; [eexists; split; [exists 300; vm_compute; reflexivity|reflexivity]|].
  constructor; [|constructor]. apply e_sequence; [discriminate|]. constructor; [|constructor; [|constructor]].
  - apply e_tag; [repeat constructor| |discriminate]. intros v Hv. injection Hv as <-. repeat constructor.
  - apply e_not; [|intros []]. apply e_reference; [|intros v Hv; discriminate].
    split; [split; [apply name_check; [discriminate|reflexivity]|discriminate]|repeat constructor].
Qed.

(** Decimal digits are numerals of the stand-in for [read_token]. *)
Example C44_numerals : exists x, numeral std_ext x (tx "42").
Proof. apply std_numeral; [discriminate|]. repeat constructor; vm_compute; discriminate. Qed.

(** ** C45: comments do not change a syntax. *)

(** Two texts that write the same strings and nodes, with whatever comments and white space,
    are read alike. *)
Theorem C45_layout : forall E, ext_ok E -> string_literals_ok E -> no_slash_number E ->
  forall strings nodes text text',
  document E strings nodes text -> document E strings nodes text' ->
  Forall real_char text -> Forall real_char text' ->
  Forall (fun n => (f64_as_usize (snd (fst n)) * 1000 + N.of_nat (length (rule_ids (snd n))) <= usize_max)%N) nodes ->
  (exists s, rules_read E text (inl s) /\ rules_read E text' (inl s)) /\
  (forall result, syntax_returns E text result <-> syntax_returns E text' result) /\
  (syntax_diverges E text <-> syntax_diverges E text').
Proof. exact layout_irrelevant. Qed.
Print Assumptions C45_layout.

Example C45_layout_example : document std_ext C44_strings C44_nodes C44_text /\
  document std_ext C44_strings C44_nodes C45_text /\ C44_text <> C45_text /\
  Forall (fun n => (f64_as_usize (snd (fst n)) * 1000 + N.of_nat (length (rule_ids (snd n))) <= usize_max)%N) C44_nodes /\
  exists s, rules_read std_ext C44_text (inl s) /\ rules_read std_ext C45_text (inl s).
Proof.
  split; [exact C44_document|]. split; [exact C45_document|]. split; [discriminate|].
  split; [constructor; [vm_compute; discriminate|constructor]|].
  eexists. split; exists 300; vm_compute; reflexivity.
Qed.

(** A comment on lines of its own changes nothing: [a] and [b] are the lines before and
    after it, with entries [es1] and [es2] (strings first). *)
Theorem C45_comment_line : forall E, ext_ok E -> string_literals_ok E -> no_slash_number E ->
  forall strings es1 a es2 b c,
  entries_text E quoted (defined strings) es1 a -> entries_text E quoted (defined strings) es2 b -> entry_text E quoted (defined strings) EComment c ->
  (exists first second, es1 ++ es2 = first ++ second /\ nodes_of first = [] /\ strings_of second = []) ->
  strings_of (es1 ++ es2) = strings ->
  Forall real_char (a ++ c ++ b) ->
  Forall (fun n => (f64_as_usize (snd (fst n)) * 1000 + N.of_nat (length (rule_ids (snd n))) <= usize_max)%N)
    (nodes_of (es1 ++ es2)) ->
  let text := a ++ newline :: b in
  let text' := a ++ newline :: c ++ newline :: b in
  (exists s, rules_read E text (inl s) /\ rules_read E text' (inl s)) /\
  (forall result, syntax_returns E text result <-> syntax_returns E text' result) /\
  (syntax_diverges E text <-> syntax_diverges E text').
Proof. exact comment_line. Qed.
Print Assumptions C45_comment_line.

Example C45_comment_line_example : let a := tx "_p: ""val""" in let b := tx "3 doc = [""a"":!_p !doc]" in
  entries_text std_ext quoted (defined C44_strings) [EString (tx "p") (tx "val")] a /\
  entries_text std_ext quoted (defined C44_strings) [C44_entry] b /\
  entry_text std_ext quoted (defined C44_strings) EComment (tx "// comment") /\
  exists s, rules_read std_ext (a ++ newline :: b) (inl s) /\
    rules_read std_ext (a ++ newline :: tx "// comment" ++ newline :: b) (inl s).
Proof.
  split; [exact (entries_last _ _ _ [] _ _ (Forall_nil _) C44_string)|].
  split; [exact (entries_last _ _ _ [] _ _ (Forall_nil _) C44_node)|]. split; [exact C44_comment|].
  eexists. split; exists 300; vm_compute; reflexivity.
Qed.

(** For lines outside the documented grammar it may: the comment [/*/*/] is read to its end only
    while no closing mark follows, and [// */] has one. *)
Theorem C45_comment_line_refuted : exists a b c s e,
  entry_text std_ext quoted (defined []) EComment c /\
  rules_read std_ext (a ++ newline :: b) (inl s) /\ syntax_returns std_ext (a ++ newline :: b) (inl s) /\
  rules_read std_ext (a ++ newline :: c ++ newline :: b) (inr e) /\
  syntax_returns std_ext (a ++ newline :: c ++ newline :: b) (inr e).
Proof. exact comment_line_matters. Qed.
Print Assumptions C45_comment_line_refuted.

(** A nested comment, with stars and slashes. *)
Example C45_example : entry_text std_ext quoted (defined []) EComment (tx "/* a * /* b // */ **/ ") /\
  exists s, rules_read std_ext (tx "1 a = .w!") (inl s) /\
    rules_read std_ext (tx "/* a * /* b // */ **/ 
 // 1 b = .w?
1  a =   .w!  ") (inl s).
Proof.
  split.
  - refine (entry_comment _ _ _ (tx " a * /* b // */ *") (tx " ") _ _); [|apply is_white_space; reflexivity].
    apply comment_char; [discriminate|discriminate|]. apply comment_char; [discriminate|discriminate|].
    apply comment_char; [discriminate|discriminate|]. apply comment_star; [discriminate|].
    apply comment_char; [discriminate|discriminate|].
    refine (comment_nested (tx " b // ") (tx " *") _ _).
    + apply comment_char; [discriminate|discriminate|]. apply comment_char; [discriminate|discriminate|].
      apply comment_char; [discriminate|discriminate|]. apply comment_slash; [discriminate|discriminate|].
      apply comment_slash; [discriminate|discriminate|]. apply comment_char; [discriminate|discriminate|]. apply comment_nil.
    + apply comment_char; [discriminate|discriminate|]. apply comment_star; [discriminate|]. apply comment_nil.
  - eexists. split; exists 300; vm_compute; reflexivity.
Qed.

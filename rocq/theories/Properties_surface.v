(** C45, C55: which texts the built-in rules accept, and comments in all of them. *)
From Coq Require Import Ascii String List NArith Bool Arith.
From Verif Require Import Base Ext Types PegSpec JsonSpec WriteSpec SyntaxSpec TextSpec SurfaceSpec
  ExtProofs SurfaceProofs Examples SurfaceExamples.
Import ListNotations.
Local Open Scope string_scope.
Local Open Scope list_scope.
Local Open Scope nat_scope.

(** ** C55: the meta language is what its grammar says. *)

(** A text without [/*/] is accepted exactly if it consists of entries on lines of their own,
    strings before nodes, each written as the grammar of TextSpec says. *)
Theorem C55_accepted_form : forall E, ext_ok E -> whole_readers E ->
  forall text, Forall real_char text -> no_short_comment text ->
  (accepted E text <-> exists es, surface E es text).
Proof. exact accepted_form. Qed.
Print Assumptions C55_accepted_form.

(** A text of entries, in whatever order, is accepted exactly if strings come before nodes. *)
Theorem C55_strings_first : forall E, ext_ok E -> whole_readers E ->
  forall es text, Forall real_char text -> entries_text E (literal E) any_string es text ->
  (accepted E text <-> in_order es).
Proof. exact form_accepted. Qed.
Print Assumptions C55_strings_first.

(** With [/*/] there is more: an unfinished nested comment. *)
Theorem C55_accepted_form_refuted : exists text, Forall real_char text /\ accepted std_ext text /\
  ~ exists es, surface std_ext es text.
Proof. exact short_comment_accepted. Qed.
Print Assumptions C55_accepted_form_refuted.

(** Both names of strings are undefined, which is a matter for the conversion. *)
Example C55_example : let text := tx "// strings
 _a: ""x""
1 n = [""y"":_p ?n .w? !{_q}]
/* end */" in
  whole_readers std_ext /\ Forall real_char text /\ no_short_comment text /\ accepted std_ext text /\
  exists es, surface std_ext es text.
Proof. exact surface_example. Qed.

(** The same definitions, the string behind the node. *)
Example C55_order_example : exists es text, Forall real_char text /\
  entries_text std_ext (literal std_ext) any_string es text /\ strings_of es <> [] /\ nodes_of es <> [] /\ ~ accepted std_ext text.
Proof. exact order_example. Qed.

(** ** C45: comments do not change a syntax. *)

(** [a] and [b] are accepted, alone and one after the other: a comment may stand between them. *)
Theorem C45_comment_between : forall E, ext_ok E -> whole_readers E -> forall a b c,
  accepted E a -> accepted E b -> accepted E (a ++ newline :: b) -> no_short_comment a -> no_short_comment b ->
  entry_text E (literal E) any_string EComment c -> Forall real_char (a ++ c ++ b) ->
  read_alike E (a ++ newline :: b) (a ++ newline :: c ++ newline :: b).
Proof. exact comment_lines. Qed.
Print Assumptions C45_comment_between.

Example C45_comment_between_example : let a := tx "1 n = ""y"":_p" in let b := tx "2 m = .w?" in let c := tx "/* /* */ */" in
  accepted std_ext a /\ accepted std_ext b /\ accepted std_ext (a ++ newline :: b) /\ no_short_comment a /\ no_short_comment b /\
  entry_text std_ext (literal std_ext) any_string EComment c /\ Forall real_char (a ++ c ++ b).
Proof. exact between_example. Qed.

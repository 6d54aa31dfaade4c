(** C74: outlines are read as the trees they show. *)
From Coq Require Import Ascii String List NArith Bool Arith Lia.
From Verif Require Import Base Ext Types ParseModel LibModel PegSpec ApiSpec RuleSpec SyntaxSpec TabSpec
  OutlineSpec OutlineProofs OutlinePublic Examples.
Import ListNotations.
Local Open Scope string_scope.
Local Open Scope list_scope.
Local Open Scope nat_scope.

(** With rules as in examples/indent.rs, whatever an item is: every outline is read, and gives
    exactly the tree it shows. *)
Theorem C74_read : forall E, ext_ok E -> forall s name h head,
  outline_syntax s name h -> reads_heads E (s_rules s) h head ->
  forall t before behind, outline head 0 t -> ~ glued t -> Forall white before -> Forall white behind ->
  exists tokens,
    parse_returns E s (before ++ written t ++ behind) [] indent_default None tokens /\
    map snd tokens = nodes name t.
Proof. exact document_read. Qed.
Print Assumptions C74_read.

(** Nothing else is accepted: without tabs, an accepted text is an outline of the tree in the
    data. *)
Theorem C74_only : forall E, ext_ok E -> forall s name h head,
  outline_syntax s name h -> reads_heads E (s_rules s) h head ->
  forall text tokens, ~ In tab text ->
  parse_returns E s text [] indent_default None tokens ->
  exists before t behind, text = before ++ written t ++ behind /\ Forall white before /\ Forall white behind /\
    outline head 0 t /\ map snd tokens = nodes name t.
Proof. exact document_back. Qed.
Print Assumptions C74_only.

(** A text shows at most one tree. *)
Theorem C74_one_tree : forall E, ext_ok E -> forall s name h head,
  outline_syntax s name h -> reads_heads E (s_rules s) h head ->
  forall t before behind t' before' behind',
  outline head 0 t -> ~ glued t -> Forall white before -> Forall white behind ->
  outline head 0 t' -> ~ glued t' -> Forall white before' -> Forall white behind' ->
  before ++ written t ++ behind = before' ++ written t' ++ behind' -> nodes name t = nodes name t'.
Proof. exact one_tree. Qed.
Print Assumptions C74_one_tree.

(** The rules of examples/indent.rs are such rules, and their items are the numbers. *)
Theorem C74_indent_example : exists s h,
  syntax_returns std_ext indent_rules (inl s) /\ outline_syntax s (tx "node") h /\
  reads_heads std_ext (s_rules s) h (number_head std_ext (tx "num")).
Proof. exact indent_example_outline. Qed.
Print Assumptions C74_indent_example.

(** False: items in the same column of the page have the same depth. An item on the line of the
    item above it is counted from the end of that item: 2 and 3 are both in column 3. *)
Theorem C74_page_columns_refuted : exists s tokens,
  syntax_returns std_ext indent_rules (inl s) /\
  parse_returns std_ext s (tx "1  2" ++ line_break ++ tx "   3") [] indent_default None tokens /\
  shape (map snd tokens) = tx "(1(2(3)))".
Proof. exact page_columns. Qed.
Print Assumptions C74_page_columns_refuted.

(** False without the condition on the first item below. *)
Theorem C74_glued_refuted : exists s tokens,
  syntax_returns std_ext indent_rules (inl s) /\
  outline (number_head std_ext (tx "num")) 0 glued_tree /\
  parse_returns std_ext s (written glued_tree) [] indent_default None tokens /\
  map snd tokens <> nodes (tx "node") glued_tree.
Proof. exact glued_misread. Qed.
Print Assumptions C74_glued_refuted.

(** False: items are separated by white space. *)
Theorem C74_separated_refuted : exists s tokens v,
  syntax_returns std_ext indent_rules (inl s) /\
  parse_returns std_ext s (tx "1-2") [] indent_default None tokens /\
  x_parse_number std_ext false (tx "-2") = Some v /\
  map snd tokens = [StartNode (tx "node")] ++ item 49 ++
    [StartNode (tx "node"); MF64 (tx "num") v; EndNode (tx "node"); EndNode (tx "node")].
Proof. exact minus_inside. Qed.
Print Assumptions C74_separated_refuted.

(** The document of examples/indent.rs. *)
Example C74_example :
  outline (number_head std_ext (tx "num")) 0 indent_tree /\ ~ glued indent_tree /\
  indent_text = line_break ++ written indent_tree ++ line_break ++ tx "    " /\ ~ In tab indent_text /\
  shape (nodes (tx "node") indent_tree) = tx "(1(2(3)(4))(5(6)))" /\
  exists s tokens, syntax_returns std_ext indent_rules (inl s) /\
    parse_returns std_ext s indent_text [] indent_default None tokens /\
    map snd tokens = nodes (tx "node") indent_tree.
Proof. exact indent_document. Qed.

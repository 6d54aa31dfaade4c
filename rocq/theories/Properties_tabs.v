(** C61: tabs in front of the lines of an indented block. *)
From Coq Require Import Ascii String List NArith Bool Arith.
From Verif Require Import Base Ext Types ParseModel LibModel PegSpec ApiSpec RuleSpec SyntaxSpec TabSpec
  Examples TabProofs TabPublic BlockPublic.
Import ListNotations.
Local Open Scope string_scope.
Local Open Scope list_scope.
Local Open Scope nat_scope.

(** ** C61: what counts in front of a line is its width, where tabs end at the columns. *)

(** Which lines are read by a block that has its column (see C14 for [indented_line]). *)
Theorem C61_line : forall one ind fresh p a x v st',
  fresh && i_align_first ind = false -> (i_indent ind < u32_max)%N ->
  Forall blank a -> no_blank_ahead x ->
  (indented_line one (ind, fresh) p (a ++ x) v st' <->
   ((width (i_tab_spaces ind) a < i_indent ind)%N /\ v = No /\ st' = (ind, fresh)) \/
   exists a1 a2, a = a1 ++ a2 /\ reaches (i_tab_spaces ind) (i_indent ind) a1 /\
     ((hd_error a2 = Some space /\ v = No /\ st' = (ind, fresh)) \/
      (hd_error a2 <> Some space /\ exists v0 ind',
         one (set_indent ind (i_indent ind + 1)) (p + length a1) (a2 ++ x) v0 ind' /\
         v = after (length a1) [] v0 /\ st' = (set_indent ind' (i_indent ind), fresh)))).
Proof. exact settled_line_iff. Qed.
Print Assumptions C61_line.

(** The first line of a block that aligns. *)
Theorem C61_first_line : forall one ind p a x v st',
  i_align_first ind = true -> (i_indent ind + width (i_tab_spaces ind) a < u32_max)%N ->
  Forall blank a -> no_blank_ahead x ->
  (indented_line one (ind, true) p (a ++ x) v st' <->
   ((width (i_tab_spaces ind) a < i_indent ind)%N /\ v = No /\ st' = (ind, true)) \/
   exists a1 a2 column v0 ind', a = a1 ++ a2 /\ reaches (i_tab_spaces ind) (i_indent ind) a1 /\
     column = (i_indent ind + width (i_tab_spaces ind) a2)%N /\
     one (set_indent ind (column + 1)) (p + length a) x v0 ind' /\
     v = after (length a) [] v0 /\ st' = (set_indent ind' column, false)).
Proof. exact first_line_iff. Qed.
Print Assumptions C61_first_line.

(** All lines of a block are at its column, which is what the block leaves behind. *)
Theorem C61_columns : forall E, ext_ok E -> forall refs r id ind p s v ind',
  runs E refs (RLines r true id) ind p s v ind' ->
  exists items fresh',
    block (indented_line (runs E refs r)) None (ind, true) p s items v (ind', fresh') /\
    if i_align_first ind
    then items = [] \/
      exists gap item rest, items = (gap, item) :: rest /\
        first_line_at (i_tab_spaces ind) (i_indent ind) (i_indent ind') item /\
        Forall (line_at (i_tab_spaces ind) (i_indent ind')) (map snd rest)
    else i_indent ind' = i_indent ind /\
      Forall (line_at (i_tab_spaces ind) (i_indent ind)) (map snd items).
Proof. exact lines_tab_columns. Qed.
Print Assumptions C61_columns.

(** Conversely, lines at the column are read, up to the end or to a line that is not. *)
Theorem C61_block_read : forall E, ext_ok E -> forall refs r id ind p c a x lines,
  i_align_first ind = true -> (c < u32_max)%N ->
  Forall blank a -> first_line_at (i_tab_spaces ind) (i_indent ind) c (a ++ x) ->
  item_text x -> reads_item E refs r ind c x ->
  Forall (fun l => reaches (i_tab_spaces ind) c (fst l) /\ item_text (snd l) /\
                   reads_item E refs r ind c (snd l)) lines ->
  let block := a ++ x ++ more_lines lines in
  (exists out, runs E refs (RLines r true id) ind p block (Yes (length block) out) (set_indent ind c)) /\
  (forall b y, Forall blank b -> item_text y -> not_at (i_tab_spaces ind) c b ->
   exists out, runs E refs (RLines r true id) ind p (block ++ newline :: b ++ y)
     (Yes (length block + 1) out) (set_indent ind c)).
Proof. exact block_reads. Qed.
Print Assumptions C61_block_read.

(** Lines that are indented alike are read by the same block, if their blanks can be cut at the
    column outside of the block or are all alike. *)
Theorem C61_same_indentation : forall E, ext_ok E -> forall refs r id ind p a x lines,
  (0 < i_tab_spaces ind)%N -> i_align_first ind = true ->
  (i_indent ind <= width (i_tab_spaces ind) a)%N ->
  (i_indent ind + width (i_tab_spaces ind) a < u32_max)%N ->
  Forall blank a -> clean (i_tab_spaces ind) (i_indent ind) a ->
  exists c, (i_indent ind <= c <= width (i_tab_spaces ind) a)%N /\
  (Forall (fun y => item_text y /\ reads_item E refs r ind c y) (x :: lines) ->
   let block := a ++ x ++ more_lines (map (fun y => (a, y)) lines) in
   exists out, runs E refs (RLines r true id) ind p block (Yes (length block) out) (set_indent ind c)).
Proof. exact alike_reads. Qed.
Print Assumptions C61_same_indentation.

(** If the blanks of the first line can be cut at the column outside, the column of the block is
    their width. *)
Theorem C61_exact_column : forall T outer c a x,
  (0 < T)%N -> Forall blank a -> no_blank_ahead x ->
  (exists a' b', a = a' ++ b' /\ width T a' = outer) ->
  first_line_at T outer c (a ++ x) -> c = width T a.
Proof. exact exact_column. Qed.
Print Assumptions C61_exact_column.

(** A line that is no wider than the column of a block is not taken by blocks inside of its items. *)
Theorem C61_not_swallowed : forall E, ext_ok E -> forall refs r id ind p g a y v ind' c,
  (c < i_indent ind)%N -> Forall white g -> Forall blank a -> item_text y ->
  (width (i_tab_spaces ind) a <= c)%N ->
  runs E refs (RLines r true id) ind p (g ++ [newline] ++ a ++ y) v ind' ->
  v = Yes (length g + 1) [] /\ ind' = ind.
Proof. exact lines_not_swallowed. Qed.
Print Assumptions C61_not_swallowed.

(** Lines of the same indentation are not always in the same block: with tabs, the rules of
    examples/indent.rs make the line of the 4 a part of the 3 above it. *)
Theorem C61_siblings_refuted : exists s tokens,
  syntax_returns std_ext indent_rules (inl s) /\
  parse_returns std_ext s
    (tx "1" ++ [newline; tab] ++ tx "2" ++ [newline; tab; tab] ++ tx "3" ++ [newline; tab; tab] ++ tx "4")
    [] indent_default None tokens /\
  shape (map snd tokens) = tx "(1(2(3(4))))".
Proof. exact siblings_nested. Qed.
Print Assumptions C61_siblings_refuted.

(** The same text with four spaces for every tab. *)
Theorem C61_tab_is_spaces_refuted : exists s tokens,
  syntax_returns std_ext indent_rules (inl s) /\
  parse_returns std_ext s
    (tx "1" ++ [newline] ++ tx "    2" ++ [newline] ++ tx "        3" ++ [newline] ++ tx "        4")
    [] indent_default None tokens /\
  shape (map snd tokens) = tx "(1(2(3)(4)))".
Proof. exact siblings_with_spaces. Qed.
Print Assumptions C61_tab_is_spaces_refuted.

(** Two lines of the same indentation, tab and space, of which the second is not read by the
    block. *)
Theorem C61_same_indentation_refuted : exists s e tokens tokens',
  syntax_returns std_ext two_level_rules (inl s) /\
  parse_returns std_ext s
    (tx "1" ++ [newline; tab; space] ++ tx "2" ++ [newline; tab; space] ++ tx "3")
    [] indent_default (Some e) tokens /\
  parse_returns std_ext s
    (tx "1" ++ [newline; tab; tab] ++ tx "2" ++ [newline; tab; tab] ++ tx "3")
    [] indent_default None tokens'.
Proof. exact mixed_not_read. Qed.
Print Assumptions C61_same_indentation_refuted.

(** A line that is deeper by a tab is read by the block, one that is deeper by spaces is not. *)
Theorem C61_deeper_tab_refuted : exists s tokens e tokens',
  syntax_returns std_ext one_level_rules (inl s) /\
  parse_returns std_ext s (tx "    1" ++ [newline; tab; tab] ++ tx "2") [] indent_default None tokens /\
  parse_returns std_ext s (tx "    1" ++ [newline] ++ tx "        2") [] indent_default (Some e) tokens'.
Proof. exact deeper_tab_read. Qed.
Print Assumptions C61_deeper_tab_refuted.

(** Blanks that reach a column, exactly and beyond; a block inside of column 1 whose first line is
    indented by a tab has column 1. *)
Example C61_example :
  reaches 4 6 [tab; space; space] /\ reaches 4 2 [tab] /\ ~ reaches 4 2 [tab; space] /\
  clean 4 4 [tab; space] /\ ~ clean 4 1 [tab; space] /\
  first_line_at 4 1 1 ([tab] ++ tx "2") /\ line_at 4 1 ([tab] ++ tx "3") /\
  no_blank_ahead (tx "2").
Proof. exact tab_examples. Qed.

Example C61_example_block : exists v ind1,
  indented_line (runs std_ext [] (RNumber false None 1)) (indent_default, true) 0
    ([tab; space] ++ tx "12") v (ind1, false) /\ i_indent ind1 = 5%N /\ v = Yes 4 [].
Proof. exact tab_block. Qed.

(** Lines at column 4, by a tab and by spaces, and a line that ends the block. *)
Example C61_example_items :
  item_text (tx "ab") /\
  reads_item std_ext [] (RTag (tx "ab") false false None 1) indent_default 4 (tx "ab") /\
  first_line_at 4 0 4 ([tab] ++ tx "ab") /\ reaches 4 4 (tx "    ") /\ not_at 4 4 (tx "  ") /\
  not_at 4 4 ([tab] ++ tx " ") /\
  runs std_ext [] (RLines (RTag (tx "ab") false false None 1) true 2) indent_default 0
    ([tab] ++ tx "ab" ++ [newline] ++ tx "    ab" ++ [newline] ++ tx "  ab") (Yes 11 [])
    (set_indent indent_default 4).
Proof. exact tab_items. Qed.

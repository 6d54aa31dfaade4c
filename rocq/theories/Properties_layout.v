(** C90: JSON output has one item on each line, indented by depth, and its length follows from the data. *)
From Coq Require Import Ascii String List NArith Bool Arith Lia.
From Verif Require Import Base Ext Types LibModel JsonModel PegSpec ApiSpec SyntaxSpec JsonSpec Examples LayoutSpec LayoutProofs LayoutPublic.
Import ListNotations.
Local Open Scope string_scope.
Local Open Scope list_scope.
Local Open Scope nat_scope.

(** Every item has a line of its own, behind one space for each node that is open around it, and with a
    comma exactly if another item of the same node follows. *)
Theorem C90_lines : forall E data out, json_write E data = Done out -> data <> [] ->
  exists ls, out = of_lines ls /\ shows E (map snd data) ls.
Proof. exact layout. Qed.
Print Assumptions C90_lines.

(** No item goes over several lines, whatever the strings contain. *)
Theorem C90_no_breaks : forall E data ls, one_line_numbers E data -> shows E data ls ->
  Forall (fun l => ~ In newline l) ls.
Proof. exact layout_split. Qed.
Print Assumptions C90_no_breaks.

(** The length of the output: the spaces, the contents at most twice, and at most 11 characters for each item. *)
Theorem C90_length : forall E data out, json_write E data = Done out -> data <> [] ->
  spaces_before (map snd data) + contents E (map snd data) + length data <= length out <=
    spaces_before (map snd data) + 2 * contents E (map snd data) + 11 * length data.
Proof. exact output_length. Qed.
Print Assumptions C90_length.

(** [1 doc = ["(" ?doc:"a" ")"]]: the spaces alone grow with the square of the length of the text. *)
Theorem C90_linear_refuted : forall E, ext_ok E -> exists s, syntax_returns std_ext paren_rules (inl s) /\
  forall a : nat, exists text out json,
    parse_returns E s text [] indent_default None out /\
    json_write E out = Done json /\ a * length text < length json.
Proof. exact output_not_linear. Qed.
Print Assumptions C90_linear_refuted.

Example C90_example : exists out ls, json_write std_ext layout_data = Done out /\ out = of_lines ls /\
  ls = [quote :: s2l "a" ++ quote :: s2l ":{"; s2l " " ++ quote :: s2l "b" ++ quote :: s2l ":true,"; s2l " " ++ quote :: s2l "c" ++ quote :: s2l ":{";
        s2l "  " ++ quote :: s2l "d" ++ quote :: colon :: quote :: s2l "x\ny" ++ [quote]; s2l " }"; s2l "},"; quote :: s2l "e" ++ quote :: s2l ":false"] /\
  one_line_numbers std_ext (map snd layout_data) /\
  spaces_before (map snd layout_data) = 5 /\ contents std_ext (map snd layout_data) = 8.
Proof. exact layout_example. Qed.

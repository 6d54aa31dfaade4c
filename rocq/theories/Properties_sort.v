(** C102. The items of a list may be put in any order. *)
From Coq Require Import Ascii String List NArith Bool Arith Permutation.
From Verif Require Import Base Ext Types PegSpec DataSpec ApiSpec OptSpec TotalSpec ShapeSpec GrammarSpec GrammarPublic PlaceSpec EditSpec EditProofs
  ExchangeSpec SortSpec SortProofs JsonSpec JsonProofs3 LeftProofs2 ExtProofs Examples.
Import ListNotations.
Local Open Scope string_scope.
Local Open Scope list_scope.
Local Open Scope nat_scope.

(** Items that lead to the same rule may be put in any order, whatever is between them. Their data is put in the same order,
    and the other data stays; it keeps its place if it begins in front of the items or behind them. *)
Theorem C102_sorted : forall E, ext_ok E -> strings_end E -> forall s, valid s -> well_formed s -> clear E s ->
  forall name i, names_rule s name i ->
  forall tokens ind gaps mids items rest after, columns_fit ind (row_text gaps items ++ rest) ->
  length gaps = length items -> length mids = length items -> Forall item_ok items ->
  parse_returns E s (row_text gaps items ++ rest) tokens ind None (tokens ++ row_data name 0 gaps mids items ++ after) ->
  forall items', Permutation items items' ->
  exists mids' after', Forall2 same_data mids mids' /\ hd [] mids' = hd [] mids /\
    Forall2 (kept (length (hd [] gaps)) (length (row_text gaps items))) after after' /\
    parse_returns E s (row_text gaps items' ++ rest) tokens ind None (tokens ++ row_data name 0 gaps mids' items' ++ after').
Proof. exact items_sorted. Qed.
Print Assumptions C102_sorted.

(** It holds for optimised syntaxes as well. *)
Theorem C102_optimized : forall E, ext_ok E -> strings_end E -> forall s s', valid s -> well_formed s -> clear E s ->
  optimize_returns s s' -> tails_fail_at_end E s -> forall name i, names_rule s name i ->
  forall tokens ind gaps mids items rest after, columns_fit ind (row_text gaps items ++ rest) ->
  length gaps = length items -> length mids = length items -> Forall item_ok items ->
  parse_returns E s' (row_text gaps items ++ rest) tokens ind None (tokens ++ row_data name 0 gaps mids items ++ after) ->
  forall items', Permutation items items' ->
  exists mids' after', Forall2 same_data mids mids' /\ hd [] mids' = hd [] mids /\
    Forall2 (kept (length (hd [] gaps)) (length (row_text gaps items))) after after' /\
    parse_returns E s' (row_text gaps items' ++ rest) tokens ind None (tokens ++ row_data name 0 gaps mids' items' ++ after').
Proof. exact sorted_optimized. Qed.
Print Assumptions C102_optimized.

(** Without clearness they may not: what is read for an item depends on what follows. *)
Theorem C102_sorted_refuted : exists s name i gaps mids items items' rest after e left_,
  valid s /\ well_formed s /\ without_lines s /\ names_rule s name i /\ columns_fit indent_default (row_text gaps items ++ rest) /\
  length gaps = length items /\ length mids = length items /\ Forall item_ok items /\
  parse_returns std_ext s (row_text gaps items ++ rest) [] indent_default None (row_data name 0 gaps mids items ++ after) /\
  Permutation items items' /\
  parse_returns std_ext s (row_text gaps items' ++ rest) [] indent_default (Some e) left_.
Proof. exact unclear_order. Qed.
Print Assumptions C102_sorted_refuted.

(** The items of `[[1],[],[[]]]` in the order `[[[]],[1],[]]`. *)
Example C102_example : (valid json_syntax /\ well_formed json_syntax /\ clear std_ext json_syntax) /\ names_rule json_syntax (tx "array") 0 /\
  exists one,
  columns_fit indent_default (tx "[[1],[],[[]]]") /\ row_text sort_gaps (sort_items one) ++ tx "]" = tx "[[1],[],[[]]]" /\
  Forall item_ok (sort_items one) /\ Permutation (sort_items one) (sorted_items one) /\
  parse_returns std_ext json_syntax (tx "[[1],[],[[]]]") [] indent_default None
    (row_data (tx "array") 0 sort_gaps [[arr 0]; []; []] (sort_items one) ++ [rra 0 13]) /\
  row_text sort_gaps (sorted_items one) ++ tx "]" = tx "[[[]],[1],[]]" /\
  parse_returns std_ext json_syntax (tx "[[[]],[1],[]]") [] indent_default None
    (row_data (tx "array") 0 sort_gaps [[arr 0]; []; []] (sorted_items one) ++ [rra 0 13]).
Proof. exact (conj json_clear (conj json_names json_sorted)). Qed.

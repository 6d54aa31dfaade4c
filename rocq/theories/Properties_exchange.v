(** C101. Nodes of the same rule may be exchanged. *)
From Coq Require Import Ascii String List NArith Bool Arith.
From Verif Require Import Base Ext Types PegSpec DataSpec ApiSpec OptSpec TotalSpec ShapeSpec GrammarSpec GrammarPublic PlaceSpec EditSpec EditProofs ExchangeSpec
  ExchangeProofs JsonSpec JsonProofs3 LeftProofs2 ExtProofs Examples.
Import ListNotations.
Local Open Scope string_scope.
Local Open Scope list_scope.
Local Open Scope nat_scope.

(** Two nodes that lead to the same rule may be exchanged, and so are their data; ranges between and behind are adjusted. *)
Theorem C101_exchanged : forall E, ext_ok E -> strings_end E -> forall s, valid s -> well_formed s -> clear E s ->
  forall name i, names_rule s name i ->
  forall text tokens ind before o1 inner1 n1 mid o2 inner2 n2 after, columns_fit ind text ->
  parse_returns E s text tokens ind None (tokens ++ before ++ node name o1 inner1 n1 ++ mid ++ node name o2 inner2 n2 ++ after) ->
  nested (map snd inner1) -> nested (map snd inner2) -> o1 < o2 ->
  let p := o2 - n1 + n2 in
  exists data1 data2 mid' after' after'', inner1 = moved_by o1 data1 /\ inner2 = moved_by o2 data2 /\
    Forall2 (adjusted o1 n1 n2) mid mid' /\ Forall2 (adjusted o2 n2 n1) after after' /\ Forall2 (adjusted o1 n1 n2) after' after'' /\
    parse_returns E s (exchanged o1 n1 o2 n2 text) tokens ind None
      (tokens ++ before ++ node name o1 (moved_by o1 data2) n2 ++ mid' ++ node name p (moved_by p data1) n1 ++ after'').
Proof. exact nodes_exchanged. Qed.
Print Assumptions C101_exchanged.

(** It holds for optimised syntaxes as well. *)
Theorem C101_optimized : forall E, ext_ok E -> strings_end E -> forall s s', valid s -> well_formed s -> clear E s ->
  optimize_returns s s' -> tails_fail_at_end E s -> forall name i, names_rule s name i ->
  forall text tokens ind before o1 inner1 n1 mid o2 inner2 n2 after, columns_fit ind text ->
  parse_returns E s' text tokens ind None (tokens ++ before ++ node name o1 inner1 n1 ++ mid ++ node name o2 inner2 n2 ++ after) ->
  nested (map snd inner1) -> nested (map snd inner2) -> o1 < o2 ->
  let p := o2 - n1 + n2 in
  exists data1 data2 mid' after' after'', inner1 = moved_by o1 data1 /\ inner2 = moved_by o2 data2 /\
    Forall2 (adjusted o1 n1 n2) mid mid' /\ Forall2 (adjusted o2 n2 n1) after after' /\ Forall2 (adjusted o1 n1 n2) after' after'' /\
    parse_returns E s' (exchanged o1 n1 o2 n2 text) tokens ind None
      (tokens ++ before ++ node name o1 (moved_by o1 data2) n2 ++ mid' ++ node name p (moved_by p data1) n1 ++ after'').
Proof. exact exchanged_optimized. Qed.
Print Assumptions C101_optimized.

(** Without clearness they may not: what is read for a node depends on what follows. *)
Theorem C101_exchanged_refuted : exists s name i text before o1 inner1 n1 mid o2 inner2 n2 after e left_,
  valid s /\ well_formed s /\ without_lines s /\ names_rule s name i /\ columns_fit indent_default text /\
  parse_returns std_ext s text [] indent_default None (before ++ node name o1 inner1 n1 ++ mid ++ node name o2 inner2 n2 ++ after) /\
  nested (map snd inner1) /\ nested (map snd inner2) /\ o1 < o2 /\
  parse_returns std_ext s (exchanged o1 n1 o2 n2 text) [] indent_default (Some e) left_.
Proof. exact eager_refuted. Qed.
Print Assumptions C101_exchanged_refuted.

(** `[1]` and `[]` are exchanged in `[[1],0,[]]`. *)
Example C101_example : (valid json_syntax /\ well_formed json_syntax /\ clear std_ext json_syntax) /\ names_rule json_syntax (tx "array") 0 /\
  exists one zero,
  columns_fit indent_default (tx "[[1],0,[]]") /\
  parse_returns std_ext json_syntax (tx "[[1],0,[]]") [] indent_default None
    ([arr 0] ++ node (tx "array") 1 [(Rng 2 1, MF64 (tx "num") one)] 3 ++ [(Rng 5 1, MF64 (tx "num") zero)] ++ node (tx "array") 7 [] 2 ++ [rra 0 10]) /\
  nested (map snd [(Rng 2 1, MF64 (tx "num") one)]) /\
  exchanged 1 3 7 2 (tx "[[1],0,[]]") = tx "[[],0,[1]]" /\
  parse_returns std_ext json_syntax (tx "[[],0,[1]]") [] indent_default None
    ([arr 0] ++ node (tx "array") 1 [] 2 ++ [(Rng 4 1, MF64 (tx "num") zero)] ++ node (tx "array") 6 [(Rng 7 1, MF64 (tx "num") one)] 3 ++ [rra 0 10]).
Proof. exact (conj json_clear (conj json_names json_exchanged)). Qed.

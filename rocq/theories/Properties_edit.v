(** Properties C97: nodes may be replaced by others of the same rule. *)
From Coq Require Import Ascii String List NArith Bool Arith.
From Verif Require Import Base Ext Types ParseModel OptimizeModel PegSpec DataSpec ApiSpec OptSpec TotalSpec ShapeSpec GrammarSpec GrammarPublic PlaceSpec EditSpec EditProofs Examples.
Import ListNotations.
Local Open Scope string_scope.
Local Open Scope list_scope.
Local Open Scope nat_scope.

(** A node of an accepted document stands for text that some rule generates, and any other text of this rule may stand there. *)
Theorem C97_replaced : forall E, ext_ok E -> strings_end E -> forall s, valid s -> well_formed s -> clear E s ->
  forall text tokens ind new before name o inner n after,
  parse_returns E s text tokens ind None (tokens ++ new) -> node_at new before name o inner n after ->
  exists reference i id r, occurs s (RNode reference (Some name) (Some i) id) /\ nth_error (s_rules s) i = Some r /\
    places E (s_rules s) r o (firstn n (skipn o text)) inner /\
    forall y inner', places E (s_rules s) r o y inner' -> columns_fit ind (edited o n y text) ->
    exists after', Forall2 (adjusted o n (length y)) after after' /\
      parse_returns E s (edited o n y text) tokens ind None
        (tokens ++ before ++ (Rng o 0, StartNode name) :: inner' ++ (Rng o (length y), EndNode name) :: after').
Proof. exact replaced. Qed.
Print Assumptions C97_replaced.

(** The text of a node may be copied and pasted over a node of the same name. *)
Theorem C97_pasted : forall E, ext_ok E -> strings_end E -> forall s, valid s -> well_formed s -> clear E s ->
  forall name i, names_rule s name i ->
  forall text tokens ind new before o inner n after, parse_returns E s text tokens ind None (tokens ++ new) -> node_at new before name o inner n after ->
  forall text2 tokens2 ind2 new2 before2 o2 inner2 n2 after2,
  parse_returns E s text2 tokens2 ind2 None (tokens2 ++ new2) -> node_at new2 before2 name o2 inner2 n2 after2 ->
  let y := firstn n2 (skipn o2 text2) in columns_fit ind (edited o n y text) ->
  exists data after', inner2 = moved_by o2 data /\ length y = n2 /\ Forall2 (adjusted o n n2) after after' /\
    parse_returns E s (edited o n y text) tokens ind None
      (tokens ++ before ++ (Rng o 0, StartNode name) :: moved_by o data ++ (Rng o n2, EndNode name) :: after').
Proof. exact pasted. Qed.
Print Assumptions C97_pasted.

Theorem C97_optimized : forall E, ext_ok E -> strings_end E -> forall s s', valid s -> well_formed s -> clear E s ->
  optimize_returns s s' -> tails_fail_at_end E s -> forall name i, names_rule s name i ->
  forall text tokens ind new before o inner n after, Forall real_char text ->
  parse_returns E s' text tokens ind None (tokens ++ new) -> node_at new before name o inner n after ->
  forall text2 tokens2 ind2 new2 before2 o2 inner2 n2 after2, Forall real_char text2 ->
  parse_returns E s' text2 tokens2 ind2 None (tokens2 ++ new2) -> node_at new2 before2 name o2 inner2 n2 after2 ->
  let y := firstn n2 (skipn o2 text2) in columns_fit ind (edited o n y text) ->
  exists data after', inner2 = moved_by o2 data /\ length y = n2 /\ Forall2 (adjusted o n n2) after after' /\
    parse_returns E s' (edited o n y text) tokens ind None
      (tokens ++ before ++ (Rng o 0, StartNode name) :: moved_by o data ++ (Rng o n2, EndNode name) :: after').
Proof. exact pasted_optimized. Qed.
Print Assumptions C97_optimized.

(** Without clearness it cannot: the text of the pasted node may be read together with what follows. *)
Theorem C97_pasted_refuted : exists s name i text new before o inner n after text2 new2 before2 o2 inner2 n2 after2 e left_,
  valid s /\ well_formed s /\ without_lines s /\ names_rule s name i /\
  parse_returns std_ext s text [] indent_default None new /\ node_at new before name o inner n after /\
  parse_returns std_ext s text2 [] indent_default None new2 /\ node_at new2 before2 name o2 inner2 n2 after2 /\
  parse_returns std_ext s (edited o n (firstn n2 (skipn o2 text2)) text) [] indent_default (Some e) left_.
Proof. exact unclear_refuted. Qed.
Print Assumptions C97_pasted_refuted.

Example C97_example : (valid json_syntax /\ well_formed json_syntax /\ clear std_ext json_syntax) /\ names_rule json_syntax (tx "array") 0 /\
  exists one,
  parse_returns std_ext json_syntax (tx "[1,[]]") [] indent_default None (target_data one) /\
  node_at (target_data one) [arr 0; (Rng 1 1, MF64 (tx "num") one)] (tx "array") 3 [] 2 [rra 0 6] /\
  exists data, parse_returns std_ext json_syntax (tx "[true,[false]]") [] indent_default None data /\
  node_at data [arr 0; (Rng 1 4, MBool (tx "bool") true)] (tx "array") 6 [(Rng 7 5, MBool (tx "bool") false)] 7 [rra 0 14] /\
  edited 3 2 (firstn 7 (skipn 6 (tx "[true,[false]]"))) (tx "[1,[]]") = tx "[1,[false]]" /\
  parse_returns std_ext json_syntax (tx "[1,[false]]") [] indent_default None
    [arr 0; (Rng 1 1, MF64 (tx "num") one); arr 3; (Rng 4 5, MBool (tx "bool") false); rra 3 7; rra 0 11].
Proof. exact (conj json_clear (conj json_names json_pasted)). Qed.

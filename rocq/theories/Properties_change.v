(** C103. Values may be changed. *)
From Coq Require Import Ascii String List NArith Bool Arith.
From Verif Require Import Base Ext Types PegSpec DataSpec ApiSpec OptSpec TotalSpec ShapeSpec GrammarSpec GrammarPublic PlaceSpec EditSpec EditProofs
  ChangeSpec ChangeProofs AlterProofs JsonModel JsonSpec JsonProofs3 LeftProofs2 ExtProofs Examples.
Import ListNotations.
Local Open Scope string_scope.
Local Open Scope list_scope.
Local Open Scope nat_scope.

(** A string, number or bool of an accepted document was read by some rule, and any other text of this rule may stand there.
    Only this value changes, and places behind it. *)
Theorem C103_changed : forall E, ext_ok E -> strings_end E -> forall s, valid s -> well_formed s -> clear E s ->
  forall text tokens ind before o n d after,
  parse_returns E s text tokens ind None (tokens ++ before ++ (Rng o n, d) :: after) -> leaf d ->
  exists r, occurs s r /\ value_rule (value_name d) r /\ places E (s_rules s) r o (firstn n (skipn o text)) [(Rng o n, d)] /\
    forall y t, places E (s_rules s) r o y [t] -> columns_fit ind (edited o n y text) ->
    exists after', Forall2 (adjusted o n (length y)) after after' /\
      parse_returns E s (edited o n y text) tokens ind None (tokens ++ before ++ t :: after').
Proof. exact changed. Qed.
Print Assumptions C103_changed.

(** A number may be changed into any other number. *)
Theorem C103_number : forall E, ext_ok E -> strings_end E -> forall s, valid s -> well_formed s -> clear E s ->
  forall name underscore, only_numbers s name underscore ->
  forall text tokens ind before o n v after,
  parse_returns E s text tokens ind None (tokens ++ before ++ (Rng o n, MF64 name v) :: after) ->
  forall y w, numeral E underscore y w -> columns_fit ind (edited o n y text) ->
  exists after', Forall2 (adjusted o n (length y)) after after' /\
    parse_returns E s (edited o n y text) tokens ind None (tokens ++ before ++ (Rng o (length y), MF64 name w) :: after').
Proof. exact changed_number. Qed.
Print Assumptions C103_number.

(** A string in quotes may be changed into any other one. *)
Theorem C103_literal : forall E, ext_ok E -> strings_end E -> forall s, valid s -> well_formed s -> clear E s ->
  forall name, only_literals s name ->
  forall text tokens ind before o n v after,
  parse_returns E s text tokens ind None (tokens ++ before ++ (Rng o n, MString name v) :: after) ->
  forall y w, literal E y w -> columns_fit ind (edited o n y text) ->
  exists after', Forall2 (adjusted o n (length y)) after after' /\
    parse_returns E s (edited o n y text) tokens ind None (tokens ++ before ++ (Rng o (length y), MString name w) :: after').
Proof. exact changed_literal. Qed.
Print Assumptions C103_literal.

(** So any text may be stored, if it is written as the JSON writer writes it. *)
Theorem C103_any_string : forall E, ext_ok E -> strings_end E -> string_literals_ok E -> forall s, valid s -> well_formed s -> clear E s ->
  forall name, only_literals s name ->
  forall text tokens ind before o n v after,
  parse_returns E s text tokens ind None (tokens ++ before ++ (Rng o n, MString name v) :: after) ->
  forall w, let y := write_string w in columns_fit ind (edited o n y text) ->
  exists after', Forall2 (adjusted o n (length y)) after after' /\
    parse_returns E s (edited o n y text) tokens ind None (tokens ++ before ++ (Rng o (length y), MString name w) :: after').
Proof. exact changed_written. Qed.
Print Assumptions C103_any_string.

(** It holds for optimised syntaxes as well. *)
Theorem C103_optimized : forall E, ext_ok E -> strings_end E -> forall s s', valid s -> well_formed s -> clear E s ->
  optimize_returns s s' -> tails_fail_at_end E s ->
  forall text tokens ind before o n d after, Forall real_char text ->
  parse_returns E s' text tokens ind None (tokens ++ before ++ (Rng o n, d) :: after) -> leaf d ->
  exists r, occurs s r /\ value_rule (value_name d) r /\ places E (s_rules s) r o (firstn n (skipn o text)) [(Rng o n, d)] /\
    forall y t, places E (s_rules s) r o y [t] -> columns_fit ind (edited o n y text) ->
    exists after', Forall2 (adjusted o n (length y)) after after' /\
      parse_returns E s' (edited o n y text) tokens ind None (tokens ++ before ++ t :: after').
Proof. exact changed_optimized. Qed.
Print Assumptions C103_optimized.

(** A value that is read as an alternative may be changed into what any other alternative of the same select reads, so [true]
    into [false]. *)
Theorem C103_alternative : forall E, ext_ok E -> strings_end E -> forall s, valid s -> well_formed s -> clear E s ->
  forall name args id, only_alternatives s name args id ->
  forall text tokens ind before o n d after,
  parse_returns E s text tokens ind None (tokens ++ before ++ (Rng o n, d) :: after) -> leaf d -> value_name d = name ->
  forall y ts, places E (s_rules s) (RSelect args id) o y ts -> columns_fit ind (edited o n y text) ->
  exists after', Forall2 (adjusted o n (length y)) after after' /\
    parse_returns E s (edited o n y text) tokens ind None (tokens ++ before ++ ts ++ after').
Proof. exact altered. Qed.
Print Assumptions C103_alternative.

Theorem C103_alternative_optimized : forall E, ext_ok E -> strings_end E -> forall s s', valid s -> well_formed s -> clear E s ->
  optimize_returns s s' -> tails_fail_at_end E s -> forall name args id, only_alternatives s name args id ->
  forall text tokens ind before o n d after, Forall real_char text ->
  parse_returns E s' text tokens ind None (tokens ++ before ++ (Rng o n, d) :: after) -> leaf d -> value_name d = name ->
  forall y ts, places E (s_rules s) (RSelect args id) o y ts -> columns_fit ind (edited o n y text) ->
  exists after', Forall2 (adjusted o n (length y)) after after' /\
    parse_returns E s' (edited o n y text) tokens ind None (tokens ++ before ++ ts ++ after').
Proof. exact altered_optimized. Qed.
Print Assumptions C103_alternative_optimized.

(** Without clearness they may not: another alternative may take the new value, and the data is lost. *)
Theorem C103_changed_refuted : exists s name text o n v y w,
  valid s /\ well_formed s /\ without_lines s /\ only_numbers s name false /\
  parse_returns std_ext s text [] indent_default None [(Rng o n, MF64 name v)] /\ numeral std_ext false y w /\
  columns_fit indent_default (edited o n y text) /\
  parse_returns std_ext s (edited o n y text) [] indent_default None [].
Proof. exact special_refuted. Qed.
Print Assumptions C103_changed_refuted.

(** `1` is changed into `20` in `[1,[]]`. *)
Example C103_example : (valid json_syntax /\ well_formed json_syntax /\ clear std_ext json_syntax) /\ only_numbers json_syntax (tx "num") false /\
  exists one twenty,
  parse_returns std_ext json_syntax (tx "[1,[]]") [] indent_default None ([arr 0] ++ (Rng 1 1, MF64 (tx "num") one) :: [arr 3; rra 3 2; rra 0 6]) /\
  numeral std_ext false (tx "20") twenty /\ columns_fit indent_default (edited 1 1 (tx "20") (tx "[1,[]]")) /\
  edited 1 1 (tx "20") (tx "[1,[]]") = tx "[20,[]]" /\
  parse_returns std_ext json_syntax (tx "[20,[]]") [] indent_default None ([arr 0] ++ (Rng 1 2, MF64 (tx "num") twenty) :: [arr 4; rra 4 2; rra 0 7]).
Proof. exact (conj json_clear (conj json_numbers json_changed)). Qed.

(** A string in an array is changed into one with a quote inside. *)
Example C103_literal_example : (valid json_syntax /\ well_formed json_syntax /\ clear std_ext json_syntax) /\ only_literals json_syntax (tx "str") /\
  parse_returns std_ext json_syntax (tx "[""ab""]") [] indent_default None ([arr 0] ++ (Rng 1 4, MString (tx "str") (tx "ab")) :: [rra 0 6]) /\
  literal std_ext (tx """x\""y""") (tx "x""y") /\ columns_fit indent_default (edited 1 4 (tx """x\""y""") (tx "[""ab""]")) /\
  edited 1 4 (tx """x\""y""") (tx "[""ab""]") = tx "[""x\""y""]" /\
  parse_returns std_ext json_syntax (tx "[""x\""y""]") [] indent_default None ([arr 0] ++ (Rng 1 6, MString (tx "str") (tx "x""y")) :: [rra 0 8]).
Proof. exact (conj json_clear (conj json_literals json_changed_literal)). Qed.

(** `true` is changed into `false` in `[true,null]`. *)
Example C103_alternative_example : (valid json_syntax /\ well_formed json_syntax /\ clear std_ext json_syntax) /\
  only_alternatives json_syntax (tx "bool") json_values 208 /\
  parse_returns std_ext json_syntax (tx "[true,null]") [] indent_default None
    ([arr 0] ++ (Rng 1 4, MBool (tx "bool") true) :: [(Rng 6 4, MBool (tx "null") true); rra 0 11]) /\
  places std_ext (s_rules json_syntax) (RSelect json_values 208) 1 (tx "false") [(Rng 1 5, MBool (tx "bool") false)] /\
  columns_fit indent_default (edited 1 4 (tx "false") (tx "[true,null]")) /\
  edited 1 4 (tx "false") (tx "[true,null]") = tx "[false,null]" /\
  parse_returns std_ext json_syntax (tx "[false,null]") [] indent_default None
    ([arr 0] ++ (Rng 1 5, MBool (tx "bool") false) :: [(Rng 7 4, MBool (tx "null") true); rra 0 12]).
Proof. exact (conj json_clear (conj json_alternatives json_altered)). Qed.

(** C80: an error stands where the text before it could still be completed. *)
From Coq Require Import Ascii String List NArith Bool Arith Lia.
From Verif Require Import Base Ext Types ParseModel PegSpec DataSpec ApiSpec TotalSpec TotalCheck OccursProofs
  GrammarSpec GrammarPublic ViableSpec ViablePublic ExtProofs Examples.
Import ListNotations.
Local Open Scope string_scope.
Local Open Scope list_scope.
Local Open Scope nat_scope.

(** The text before the place of the error begins a text that the syntax, as a grammar, generates. *)
Theorem C80_grammar : forall E, ext_ok E -> forall s, without_lines s -> productive E s -> forall r, start_rule s r ->
  forall text tokens ind e tokens', parse_returns E s text tokens ind (Some e) tokens' ->
  exists q, stopped_at E text e q /\ exists y ms, Forall real_char y /\ generates E (s_rules s) r (firstn q text ++ y) ms.
Proof. exact error_viable. Qed.
Print Assumptions C80_grammar.

(** In clear syntaxes it begins a text that is accepted. *)
Theorem C80_completed : forall E, ext_ok E -> strings_end E -> forall s, valid s -> well_formed s -> clear E s -> productive E s ->
  forall text tokens ind e tokens', s_rules s <> [] -> parse_returns E s text tokens ind (Some e) tokens' ->
  exists q, stopped_at E text e q /\ exists y, Forall real_char y /\
  forall tokens ind, columns_fit ind (firstn q text ++ y) -> exists tokens', parse_returns E s (firstn q text ++ y) tokens ind None tokens'.
Proof. exact error_completed. Qed.
Print Assumptions C80_completed.

(** The condition on the rules can be checked by computation. *)
Theorem C80_check : forall E fuel s, literals_exist E ->
  forallb (all_sub (fruitful fuel (s_rules s))) (s_rules s) = true -> productive E s.
Proof. exact productive_check. Qed.
Print Assumptions C80_check.

(** Where the next character does not decide, the text before the error may be beyond help. *)
Theorem C80_completed_refuted : exists s r text e tokens, valid s /\ well_formed s /\ without_lines s /\ productive std_ext s /\ start_rule s r /\
  parse_returns std_ext s text [] indent_default (Some e) tokens /\
  forall q, stopped_at std_ext text e q -> forall y tokens ind tokens', ~ parse_returns std_ext s (firstn q text ++ y) tokens ind None tokens'.
Proof. exact greedy_not_completed. Qed.
Print Assumptions C80_completed_refuted.

(** So it may if a rule generates nothing. *)
Theorem C80_grammar_refuted : exists s r text e tokens, valid s /\ well_formed s /\ clear std_ext s /\ start_rule s r /\
  parse_returns std_ext s text [] indent_default (Some e) tokens /\ forall x ms, ~ generates std_ext (s_rules s) r x ms.
Proof. exact endless_not_viable. Qed.
Print Assumptions C80_grammar_refuted.

(** JSON values: a misspelled word, and an invalid escape in a string. *)
Example C80_example : ext_ok std_ext /\ strings_end std_ext /\ (valid json_syntax /\ well_formed json_syntax /\ clear std_ext json_syntax) /\
  literals_exist std_ext /\ productive std_ext json_syntax /\
  (exists e tokens, parse_returns std_ext json_syntax (tx "[1, {""a"": tru}]") [] indent_default (Some e) tokens /\
    stopped_at std_ext (tx "[1, {""a"": tru}]") e 10 /\
    exists tokens', parse_returns std_ext json_syntax (firstn 10 (tx "[1, {""a"": tru}]") ++ tx "0}]") [] indent_default None tokens') /\
  exists e tokens, parse_returns std_ext json_syntax (tx "[1, ""\q""]") [] indent_default (Some e) tokens /\
    r_off (fst e) = 5 /\ stopped_at std_ext (tx "[1, ""\q""]") e 4.
Proof.
  exact (conj std_ext_ok (conj std_strings_end (conj json_clear (conj std_literals (conj json_productive (conj json_stops json_string_stops)))))).
Qed.

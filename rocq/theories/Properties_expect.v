(** C81: errors are right about the text, and what they demand could stand there. *)
From Coq Require Import Ascii String List NArith Bool Arith Lia.
From Verif Require Import Base Ext Types ParseModel PegSpec DataSpec ApiSpec OptSpec TotalSpec TotalCheck OccursProofs
  GrammarSpec GrammarPublic ViableSpec ViablePublic ExpectSpec ExpectPublic ExtProofs Examples.
Import ListNotations.
Local Open Scope string_scope.
Local Open Scope list_scope.
Local Open Scope nat_scope.

(** The text before the error, then what the error demands, begins a text that the syntax, as a grammar, generates. *)
Theorem C81_grammar : forall E, ext_ok E -> forall s, without_lines s -> productive E s -> fast_reads_something E s -> forall r, start_rule s r ->
  forall text tokens ind e tokens', parse_returns E s text tokens ind (Some e) tokens' ->
  exists q z y ms, stopped_at E text e q /\ demands E (snd e) (skipn q text) z /\ Forall real_char y /\
  generates E (s_rules s) r (firstn q text ++ z ++ y) ms /\ (snd e = ExpectedEnd -> y = []).
Proof. exact error_truthful. Qed.
Print Assumptions C81_grammar.

(** In clear syntaxes it begins a text that is accepted. *)
Theorem C81_accepted : forall E, ext_ok E -> strings_end E -> forall s, valid s -> well_formed s -> clear E s -> productive E s ->
  forall text tokens ind e tokens', s_rules s <> [] -> parse_returns E s text tokens ind (Some e) tokens' ->
  exists q z y, stopped_at E text e q /\ demands E (snd e) (skipn q text) z /\ Forall real_char y /\ (snd e = ExpectedEnd -> y = []) /\
  forall tokens ind, columns_fit ind (firstn q text ++ z ++ y) ->
    exists tokens', parse_returns E s (firstn q text ++ z ++ y) tokens ind None tokens'.
Proof. exact error_replaced. Qed.
Print Assumptions C81_accepted.

(** An expected token is missing, and with it the text can be completed. *)
Theorem C81_tag : forall E, ext_ok E -> strings_end E -> forall s, valid s -> well_formed s -> clear E s -> productive E s ->
  forall text tokens ind at_ tag id tokens', s_rules s <> [] ->
  parse_returns E s text tokens ind (Some (at_, ExpectedTag tag id)) tokens' ->
  ~ starts_with (skipn (r_off at_) text) tag /\
  exists y, Forall real_char y /\ forall tokens ind, columns_fit ind (firstn (r_off at_) text ++ tag ++ y) ->
    exists tokens', parse_returns E s (firstn (r_off at_) text ++ tag ++ y) tokens ind None tokens'.
Proof. exact tag_inserted. Qed.
Print Assumptions C81_tag.

(** Where the end was expected, the text may end. *)
Theorem C81_end : forall E, ext_ok E -> strings_end E -> forall s, valid s -> well_formed s -> clear E s -> productive E s ->
  forall text tokens ind at_ tokens', s_rules s <> [] ->
  parse_returns E s text tokens ind (Some (at_, ExpectedEnd)) tokens' ->
  r_off at_ < length text /\ forall tokens ind, columns_fit ind (firstn (r_off at_) text) ->
    exists tokens', parse_returns E s (firstn (r_off at_) text) tokens ind None tokens'.
Proof. exact text_cut. Qed.
Print Assumptions C81_end.

(** The condition on fast selects can be checked by computation. *)
Theorem C81_check : forall E fuel s, ext_ok E -> literals_exist E ->
  tables_ok (empties_of (s_rules s)) (ranks_of (empties_of (s_rules s)) (s_rules s)) (s_rules s) = true ->
  forallb (all_sub (reads_something fuel (empties_of (s_rules s)) (s_rules s))) (s_rules s) = true -> fast_reads_something E s.
Proof. exact something_check. Qed.
Print Assumptions C81_check.

(** Where the next character does not decide, putting the expected token there need not help. *)
Theorem C81_tag_refuted : exists s r text at_ tag id tokens, valid s /\ well_formed s /\ without_lines s /\ productive std_ext s /\ start_rule s r /\
  parse_returns std_ext s text [] indent_default (Some (at_, ExpectedTag tag id)) tokens /\
  forall y tokens ind tokens', ~ parse_returns std_ext s (firstn (r_off at_) text ++ tag ++ y) tokens ind None tokens'.
Proof. exact greedy_demands. Qed.
Print Assumptions C81_tag_refuted.

(** JSON values: a missing comma, something behind the value, and nothing for the optimised rules. *)
Example C81_example : ext_ok std_ext /\ strings_end std_ext /\ (valid json_syntax /\ well_formed json_syntax /\ clear std_ext json_syntax) /\
  literals_exist std_ext /\ productive std_ext json_syntax /\
  (exists tokens, parse_returns std_ext json_syntax (tx "[1 2]") [] indent_default (Some (Rng 3 0, ExpectedTag (tx "]") 10)) tokens) /\
  (exists tokens, parse_returns std_ext json_syntax (tx "[1] x") [] indent_default (Some (Rng 4 0, ExpectedEnd)) tokens) /\
  exists s' tokens, optimize_returns json_syntax s' /\ without_lines s' /\ productive std_ext s' /\ fast_reads_something std_ext s' /\
    parse_returns std_ext s' [] [] indent_default (Some (Rng 0 0, ExpectedSomething 208)) tokens.
Proof.
  exact (conj std_ext_ok (conj std_strings_end (conj json_clear (conj std_literals (conj json_productive (conj json_missing
    (conj json_too_long json_fast))))))).
Qed.

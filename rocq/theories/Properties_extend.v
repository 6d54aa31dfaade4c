(** C79: extending a syntax keeps the documents where the extended syntax is clear. *)
From Coq Require Import Ascii String List NArith Bool Arith Lia.
From Verif Require Import Base Ext Types ParseModel OptimizeModel PegSpec DataSpec ApiSpec OptSpec TotalSpec TotalCheck
  GrammarSpec GrammarPublic ExtendSpec ExtendProofs ExtendPublic ExtendPlace ExtProofs Examples.
Import ListNotations.
Local Open Scope string_scope.
Local Open Scope list_scope.
Local Open Scope nat_scope.

(** What was accepted is accepted by the extended syntax, with the same data and ranges. *)
Theorem C79_keeps : forall E, ext_ok E -> strings_end E -> forall s s', without_lines s -> extends_syntax s s' ->
  valid s' -> well_formed s' -> clear E s' -> forall r, start_rule s r -> forall text ind ind', columns_fit ind' text -> forall tokens tokens' new,
  parse_returns E s text tokens ind None (tokens ++ new) -> parse_returns E s' text tokens' ind' None (tokens' ++ new).
Proof. exact extended_keeps_places. Qed.
Print Assumptions C79_keeps.

(** So with the extended syntax optimised. *)
Theorem C79_optimized : forall E, ext_ok E -> strings_end E -> forall s s' s'', without_lines s -> extends_syntax s s' ->
  valid s' -> well_formed s' -> clear E s' -> optimize_returns s' s'' -> tails_fail_at_end E s' ->
  forall r, start_rule s r -> forall text ind ind', Forall real_char text -> columns_fit ind' text -> forall tokens tokens' new,
  parse_returns E s text tokens ind None (tokens ++ new) -> parse_returns E s'' text tokens' ind' None (tokens' ++ new).
Proof. exact extended_keeps_optimized. Qed.
Print Assumptions C79_optimized.

(** Where the extended syntax is not clear, even a further alternative at the end of a select may lose a document. *)
Theorem C79_keeps_refuted : exists s s' text new e tokens, extends_syntax s s' /\ without_lines s /\ valid s /\ well_formed s /\ valid s' /\ well_formed s' /\ clear std_ext s /\
  parse_returns std_ext s text [] indent_default None new /\ parse_returns std_ext s' text [] indent_default (Some e) tokens.
Proof. exact wider_lost. Qed.
Print Assumptions C79_keeps_refuted.

(** JSON values with tuples, trailing commas in arrays, [undefined] and a last semicolon. *)
Example C79_example : ext_ok std_ext /\ strings_end std_ext /\ without_lines json_syntax /\ extends_syntax json_syntax json_more /\
  (valid json_more /\ well_formed json_more /\ clear std_ext json_more) /\ columns_fit indent_default json_text /\
  exists new, parse_returns std_ext json_syntax json_text [] indent_default None ([] ++ new) /\ map snd new = json_data /\
  exists e tokens tokens' s'', parse_returns std_ext json_syntax (tx "[(1,), undefined,];") [] indent_default (Some e) tokens /\
  parse_returns std_ext json_more (tx "[(1,), undefined,];") [] indent_default None tokens' /\
  optimize_returns json_more s'' /\ tails_fail_at_end std_ext json_more.
Proof.
  exact (conj std_ext_ok (conj std_strings_end (conj json_without_lines (conj json_extended (conj json_more_clear
    (conj (columns_fitb_spec indent_default json_text eq_refl) json_more_reads)))))).
Qed.

(** C76: when a syntax may be read as a context-free grammar. *)
From Coq Require Import Ascii String List NArith Bool Arith.
From Verif Require Import Base Ext Types ParseModel OptimizeModel PegSpec DataSpec ApiSpec OptSpec ExtProofs TotalSpec GrammarSpec
  GrammarCheck GrammarPublic Examples PlaceSpec PlacePublic.
Import ListNotations.
Local Open Scope string_scope.
Local Open Scope list_scope.

(** Every text that is read is generated by the grammar, with the data that is delivered. *)
Theorem C76_sound : forall E, ext_ok E -> forall s, without_lines s -> forall r, start_rule s r -> forall text tokens ind new,
  parse_returns E s text tokens ind None (tokens ++ new) -> generates E (s_rules s) r text (map snd new).
Proof. exact parse_generated. Qed.
Print Assumptions C76_sound.

(** If the next character always decides, then also the other way around: *)
Theorem C76_exact : forall E, ext_ok E -> strings_end E -> forall s, valid s -> well_formed s -> clear E s ->
  forall r, start_rule s r -> forall text ind, columns_fit ind text -> forall tokens ms,
  (exists new, parse_returns E s text tokens ind None (tokens ++ new) /\ map snd new = ms) <->
  generates E (s_rules s) r text ms.
Proof. exact clear_parse. Qed.
Print Assumptions C76_exact.

(** the grammar is then not ambiguous, *)
Theorem C76_one_meaning : forall E, ext_ok E -> strings_end E -> forall s, valid s -> well_formed s -> clear E s ->
  forall r, start_rule s r -> forall text, columns_fit indent_default text -> forall ms ms',
  generates E (s_rules s) r text ms -> generates E (s_rules s) r text ms' -> ms = ms'.
Proof. exact clear_one_meaning. Qed.
Print Assumptions C76_one_meaning.

(** the same holds of the optimised syntax, *)
Theorem C76_optimized : forall E, ext_ok E -> strings_end E -> forall s s', valid s -> well_formed s -> clear E s ->
  optimize_returns s s' -> tails_fail_at_end E s ->
  forall r, start_rule s r -> forall text ind, columns_fit ind text -> forall tokens ms,
  (exists new, parse_returns E s' text tokens ind None (tokens ++ new) /\ map snd new = ms) <->
  generates E (s_rules s) r text ms.
Proof. exact clear_optimized. Qed.
Print Assumptions C76_optimized.

(** and the order of the alternatives does not matter. *)
Theorem C76_order : forall E, ext_ok E -> strings_end E -> forall s s', reordered_syntax s s' ->
  valid s -> well_formed s -> clear E s -> valid s' -> well_formed s' -> clear E s' ->
  forall text ind, columns_fit ind text -> forall tokens tokens',
  parse_returns E s text tokens ind None tokens' <-> parse_returns E s' text tokens ind None tokens'.
Proof. exact clear_reordered_places. Qed.
Print Assumptions C76_order.

(** The condition can be checked by computation. *)
Theorem C76_check : forall E numbers fuel s, number_set E numbers -> clearb fuel numbers s = true -> clear E s.
Proof. exact clearb_spec. Qed.
Print Assumptions C76_check.

(** Without it: [{"a" "ab"}] does not read ["ab"], *)
Theorem C76_exact_refuted : exists s r text e tokens, valid s /\ well_formed s /\ start_rule s r /\
  generates std_ext (s_rules s) r text [] /\
  parse_returns std_ext s text [] indent_default (Some e) tokens.
Proof.
  exact (match short_first_lost with ex_intro _ r (ex_intro _ e (ex_intro _ tokens H)) =>
    ex_intro _ short_first (ex_intro _ r (ex_intro _ (tx "ab") (ex_intro _ e (ex_intro _ tokens H)))) end).
Qed.
Print Assumptions C76_exact_refuted.

(** nor does [[.r?("a") "a"]] read ["aa"]. *)
Theorem C76_greedy_refuted : exists s r text e tokens, valid s /\ well_formed s /\ start_rule s r /\
  (forall args id, ~ occurs s (RSelect args id)) /\
  generates std_ext (s_rules s) r text [] /\
  parse_returns std_ext s text [] indent_default (Some e) tokens.
Proof.
  exact (match greedy_lost with ex_intro _ r (ex_intro _ e (ex_intro _ tokens (conj H1 (conj H2 (conj H3 H4))))) =>
    ex_intro _ greedy (ex_intro _ r (ex_intro _ (tx "aa") (ex_intro _ e (ex_intro _ tokens
      (conj H1 (conj H2 (conj H3 (conj greedy_no_select H4)))))))) end).
Qed.
Print Assumptions C76_greedy_refuted.

(** A syntax of JSON values is clear, forwards and with its alternatives backwards. *)
Example C76_example : ext_ok std_ext /\ strings_end std_ext /\ number_set std_ext number_chars /\
  clearb 40 number_chars json_syntax = true /\ reordered_syntax json_syntax json_backwards /\ clear std_ext json_backwards /\
  exists r, start_rule json_syntax r /\ columns_fit indent_default json_text /\
  generates std_ext (s_rules json_syntax) r json_text json_data /\
  (exists new, parse_returns std_ext json_backwards json_text [] indent_default None ([] ++ new) /\ map snd new = json_data) /\
  (exists s' new, optimize_returns json_syntax s' /\ parse_returns std_ext s' json_text [] indent_default None ([] ++ new) /\ map snd new = json_data).
Proof.
  exact (conj std_ext_ok (conj std_strings_end (conj std_numbers (conj (proj1 (proj2 json_fine)) (conj json_reordered
    (conj (proj2 (proj2 json_backwards_clear)) json_example)))))).
Qed.

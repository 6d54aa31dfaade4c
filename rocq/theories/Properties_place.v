(** C76, C96: clear syntaxes with the places of the data; files that are joined and cut. *)
From Coq Require Import Ascii String List NArith Bool Arith.
From Verif Require Import Base Ext Types ParseModel OptimizeModel PegSpec DataSpec ApiSpec OptSpec TotalSpec GrammarSpec PlaceSpec PlaceProofs PlacePublic ExtProofs AtEnd Examples.
Import ListNotations.
Local Open Scope string_scope.
Local Open Scope list_scope.
Local Open Scope nat_scope.

(** A clear syntax accepts exactly what it generates as a context-free grammar, with exactly the data and the ranges of the data. *)
Theorem C76_placed : forall E, ext_ok E -> strings_end E -> forall s, valid s -> well_formed s -> clear E s ->
  forall r, start_rule s r -> forall text ind, columns_fit ind text -> forall tokens new,
  parse_returns E s text tokens ind None (tokens ++ new) <-> places E (s_rules s) r 0 text new.
Proof. exact clear_placed. Qed.
Print Assumptions C76_placed.

(** So does the syntax when it has been optimised. *)
Theorem C76_placed_optimized : forall E, ext_ok E -> strings_end E -> forall s s', valid s -> well_formed s -> clear E s ->
  optimize_returns s s' -> tails_fail_at_end E s ->
  forall r, start_rule s r -> forall text ind, columns_fit ind text -> forall tokens new,
  parse_returns E s' text tokens ind None (tokens ++ new) <-> places E (s_rules s) r 0 text new.
Proof. exact clear_placed_optimized. Qed.
Print Assumptions C76_placed_optimized.

(** No text has two readings. *)
Theorem C76_one_placing : forall E, ext_ok E -> strings_end E -> forall s, valid s -> well_formed s -> clear E s ->
  forall r, start_rule s r -> forall text, columns_fit indent_default text -> forall ts ts',
  places E (s_rules s) r 0 text ts -> places E (s_rules s) r 0 text ts' -> ts = ts'.
Proof. exact one_placing. Qed.
Print Assumptions C76_one_placing.

(** If the last rule repeats, then files that are accepted are accepted one behind the other, with the data of all of them. *)
Theorem C96_joined : forall E, ext_ok E -> strings_end E -> forall s, valid s -> well_formed s -> clear E s ->
  forall r optional id ind items tokens, start_rule s (RRepeat r optional id) -> optional = true \/ items <> [] ->
  columns_fit ind (whole_text items) ->
  Forall (fun i => parse_returns E s (fst i) [] ind None (snd i)) items ->
  parse_returns E s (whole_text items) tokens ind None (tokens ++ joined 0 items).
Proof. exact join_files. Qed.
Print Assumptions C96_joined.

Theorem C96_joined_optimized : forall E, ext_ok E -> strings_end E -> forall s s', valid s -> well_formed s -> clear E s ->
  optimize_returns s s' -> tails_fail_at_end E s ->
  forall r optional id, start_rule s (RRepeat r optional id) -> forall items, optional = true \/ items <> [] ->
  forall ind, columns_fit ind (whole_text items) ->
  Forall (fun i => parse_returns E s' (fst i) [] ind None (snd i)) items ->
  forall tokens, parse_returns E s' (whole_text items) tokens ind None (tokens ++ joined 0 items).
Proof. exact join_optimized. Qed.
Print Assumptions C96_joined_optimized.

(** A file that is accepted can be cut into items, none of them empty, each of which the repeated rule generates and each of
    which is accepted as a file of its own. *)
Theorem C96_cut : forall E, ext_ok E -> strings_end E -> forall s, valid s -> well_formed s -> clear E s ->
  forall r optional id ind text tokens new, start_rule s (RRepeat r optional id) -> columns_fit ind text ->
  parse_returns E s text tokens ind None (tokens ++ new) ->
  exists items, text = whole_text items /\ new = joined 0 items /\
    Forall (fun i => fst i <> [] /\ places E (s_rules s) r 0 (fst i) (snd i) /\ parse_returns E s (fst i) [] ind None (snd i)) items.
Proof. exact cut_file. Qed.
Print Assumptions C96_cut.

(** Lists that are accepted are joined with a separator between them. *)
Theorem C96_lists : forall E, ext_ok E -> strings_end E -> forall s, valid s -> well_formed s -> clear E s ->
  forall r by_ optional id ind x ts sep tsep y ts' tokens, start_rule s (RSeparateBy r by_ optional false id) ->
  x <> [] -> y <> [] -> columns_fit ind (x ++ sep ++ y) ->
  parse_returns E s x [] ind None ts -> parse_returns E s y [] ind None ts' -> places E (s_rules s) by_ 0 sep tsep ->
  parse_returns E s (x ++ sep ++ y) tokens ind None (tokens ++ joined 0 [(x, ts); (sep, tsep); (y, ts')]).
Proof. exact join_lists. Qed.
Print Assumptions C96_lists.

(** Without clearness files cannot be joined: two numbers become one. *)
Theorem C96_joined_refuted : exists s r id x ts y ts', valid s /\ well_formed s /\ start_rule s (RRepeat r true id) /\
  columns_fit indent_default (x ++ y) /\
  parse_returns std_ext s x [] indent_default None ts /\ parse_returns std_ext s y [] indent_default None ts' /\
  ~ parse_returns std_ext s (x ++ y) [] indent_default None (joined 0 [(x, ts); (y, ts')]).
Proof. exact digits_refuted. Qed.
Print Assumptions C96_joined_refuted.

Example C96_example :
  parse_returns std_ext entries (tx "x=1;") [] indent_default None (entry_at 0 (tx "x") 1 one 4) /\
  parse_returns std_ext entries (tx "yz=20;") [] indent_default None (entry_at 0 (tx "yz") 2 twenty 6) /\
  parse_returns std_ext entries (tx "x=1;yz=20;") [] indent_default None (entry_at 0 (tx "x") 1 one 4 ++ entry_at 4 (tx "yz") 2 twenty 6).
Proof. exact entries_example. Qed.

Example C96_lists_example :
  parse_returns std_ext listing (tx "1") [] indent_default None [(Rng 0 1, MF64 (tx "n") one)] /\
  parse_returns std_ext listing (tx "20") [] indent_default None [(Rng 0 2, MF64 (tx "n") twenty)] /\
  parse_returns std_ext listing (tx "1,20") [] indent_default None [(Rng 0 1, MF64 (tx "n") one); (Rng 2 2, MF64 (tx "n") twenty)].
Proof. exact listing_example. Qed.

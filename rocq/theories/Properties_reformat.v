(** Properties C98: white space may be changed. *)
From Coq Require Import Ascii String List NArith Bool Arith.
From Verif Require Import Base Ext Types ParseModel OptimizeModel PegSpec DataSpec ApiSpec OptSpec TotalSpec ShapeSpec GrammarSpec GrammarPublic PlaceSpec EditSpec EditProofs
  ReformatSpec ReformatPublic Examples.
Import ListNotations.
Local Open Scope string_scope.
Local Open Scope list_scope.
Local Open Scope nat_scope.

(** White space in a document that is not part of its data may be replaced by other white space. *)
Theorem C98_reformatted : forall E, ext_ok E -> strings_end E -> forall s, valid s -> well_formed s -> clear E s -> stores_text s ->
  forall text tokens ind new o n w, parse_returns E s text tokens ind None (tokens ++ new) ->
  white_run text o n -> uncovered o new -> w <> [] -> Forall white w -> columns_fit ind (edited o n w text) ->
  exists new', parse_returns E s (edited o n w text) tokens ind None (tokens ++ new') /\
    map snd new' = map snd new /\ Forall2 (respaced o n (length w)) new new'.
Proof. exact reformatted. Qed.
Print Assumptions C98_reformatted.

Theorem C98_optimized : forall E, ext_ok E -> strings_end E -> forall s s', valid s -> well_formed s -> clear E s -> stores_text s ->
  optimize_returns s s' -> tails_fail_at_end E s ->
  forall text tokens ind new o n w, Forall real_char text -> parse_returns E s' text tokens ind None (tokens ++ new) ->
  white_run text o n -> uncovered o new -> w <> [] -> Forall white w -> columns_fit ind (edited o n w text) ->
  exists new', parse_returns E s' (edited o n w text) tokens ind None (tokens ++ new') /\
    map snd new' = map snd new /\ Forall2 (respaced o n (length w)) new new'.
Proof. exact reformatted_optimized. Qed.
Print Assumptions C98_optimized.

(** In a syntax that is not clear a line break instead of a space may give other data. *)
Theorem C98_unclear_refuted : exists s text o n w new new', valid s /\ well_formed s /\ without_lines s /\ stores_text s /\
  parse_returns std_ext s text [] indent_default None new /\ white_run text o n /\ uncovered o new /\ w <> [] /\ Forall white w /\
  columns_fit indent_default (edited o n w text) /\
  parse_returns std_ext s (edited o n w text) [] indent_default None new' /\ map snd new' <> map snd new.
Proof. exact unclear_spaces. Qed.
Print Assumptions C98_unclear_refuted.

(** White space in tokens must not be changed. *)
Theorem C98_token_refuted : exists s text o n w new e left_, valid s /\ well_formed s /\ clear std_ext s /\
  parse_returns std_ext s text [] indent_default None new /\ white_run text o n /\ uncovered o new /\ w <> [] /\ Forall white w /\
  columns_fit indent_default (edited o n w text) /\
  parse_returns std_ext s (edited o n w text) [] indent_default (Some e) left_.
Proof. exact tokens_spaces. Qed.
Print Assumptions C98_token_refuted.

Example C98_example : (valid json_syntax /\ well_formed json_syntax /\ clear std_ext json_syntax) /\ stores_text json_syntax /\
  exists new new',
  parse_returns std_ext json_syntax (tx "[true, [false ]]") [] indent_default None new /\
  white_run (tx "[true, [false ]]") 6 1 /\ uncovered 6 new /\
  edited 6 1 [newline; tab] (tx "[true, [false ]]") = tx "[true," ++ [newline; tab] ++ tx "[false ]]" /\
  columns_fit indent_default (tx "[true," ++ [newline; tab] ++ tx "[false ]]") /\
  parse_returns std_ext json_syntax (tx "[true," ++ [newline; tab] ++ tx "[false ]]") [] indent_default None new' /\
  new = [arr 0; (Rng 1 4, MBool (tx "bool") true); arr 7; (Rng 8 5, MBool (tx "bool") false); rra 7 8; rra 0 16] /\
  new' = [arr 0; (Rng 1 4, MBool (tx "bool") true); arr 8; (Rng 9 5, MBool (tx "bool") false); rra 8 8; rra 0 17].
Proof. exact (conj json_clear (conj json_stores json_reformatted)). Qed.

(** C62: optimising and reading a syntax run forever exactly on stuck selects. *)
From Coq Require Import Ascii String List NArith Bool Arith.
From Verif Require Import Base Ext Types ParseModel OptimizeModel DataSpec ApiSpec TotalSpec OptSpec
  ConvertSpec SyntaxSpec ExtProofs TotalCheck SyntaxProofs SyntaxProofs2 Examples StuckSpec StuckProofs StuckPublic.
Import ListNotations.
Local Open Scope string_scope.
Local Open Scope list_scope.

Theorem C62_optimize_hangs : forall s, valid s -> tags_real s -> unoptimized s ->
  (optimize_diverges s <-> stuck s).
Proof. exact diverges_iff_stuck. Qed.
Print Assumptions C62_optimize_hangs.

Theorem C62_optimize_returns : forall s, valid s -> tags_real s -> unoptimized s ->
  ((exists s', optimize_returns s s') <-> ~ stuck s).
Proof. exact returns_iff_not_stuck. Qed.
Print Assumptions C62_optimize_returns.

(** There is no third case, also for syntaxes that were optimised before. *)
Theorem C62_optimize_no_panic : forall s, valid s -> tags_real s ->
  forall fuel, optimize fuel s <> Panic.
Proof. exact never_panics. Qed.
Print Assumptions C62_optimize_no_panic.

Theorem C62_syntax_hangs : forall E, ext_ok E -> forall text, columns_fit indent_default text ->
  (forall tokens, text_data E text tokens -> ids_small tokens) ->
  (forall s, rules_read E text (inl s) -> tags_real s) ->
  (syntax_diverges E text <-> exists s, rules_read E text (inl s) /\ stuck s).
Proof. exact syntax_diverges_iff. Qed.
Print Assumptions C62_syntax_hangs.

Theorem C62_syntax_returns : forall E, ext_ok E -> forall text, columns_fit indent_default text ->
  (forall tokens, text_data E text tokens -> ids_small tokens) ->
  (forall s, rules_read E text (inl s) -> tags_real s) ->
  ((exists result, syntax_returns E text result) <->
   forall s, rules_read E text (inl s) -> ~ stuck s).
Proof. exact syntax_returns_iff. Qed.
Print Assumptions C62_syntax_returns.

(** [1 a = [a "x"] 2 doc = {"b" a}] is stuck: the select asks for the first byte of [a]. *)
Example C62_example : valid hanging /\ unoptimized hanging /\ stuck hanging.
Proof.
  split; [apply validb_spec; reflexivity|]. split; [|exact hanging_stuck].
  apply (read_unoptimized std_ext hanging_text). exists 300. exact hanging_read.
Qed.

(** [1 sum = {[sum "+" "x"] "x"}] is left recursive but not stuck, for a select of several
    alternatives has no first byte; *)
Example C62_example_sum : ~ no_left_recursion (s_rules sum_syntax) /\
  rules_read std_ext sum_text (inl sum_syntax) /\ exists s, syntax_returns std_ext sum_text (inl s).
Proof. exact (conj sum_left_recursive (conj sum_read sum_syntax_returns)). Qed.

(** and [{"b" "bc" a}] returns, for the loop ends at the second ["b"]. *)
Example C62_example_twice : exists s, syntax_returns std_ext twice_text (inl s).
Proof. exact twice_returns. Qed.

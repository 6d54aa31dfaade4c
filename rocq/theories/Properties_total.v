(** C09, C10, C23: parsing and optimisation return, and do not panic. *)
From Coq Require Import Ascii String List NArith Bool Arith.
From Verif Require Import Base Ext Types ParseModel OptimizeModel DataSpec ApiSpec OptSpec TotalSpec
  ExtProofs TotalProofs TotalCheck SafeProofs OptTotal DivergeProofs BootstrapRules Examples.
Import ListNotations.
Local Open Scope string_scope.
Local Open Scope list_scope.

(** ** C09: parsing with a well-formed grammar terminates. *)

Theorem C09_terminates : forall E, ext_ok E -> forall s, valid s -> well_formed s ->
  forall text tokens ind, columns_fit ind text ->
  exists result tokens', parse_returns E s text tokens ind result tokens'.
Proof. exact parse_decided. Qed.
Print Assumptions C09_terminates.

(** The conditions can be decided. *)
Theorem C09_check : forall s, validb s && well_formedb s = true -> valid s /\ well_formed s.
Proof.
  exact (fun s H => match proj1 (andb_true_iff _ _) H with
                    | conj H1 H2 => conj (validb_spec s H1) (well_formedb_spec s H2) end).
Qed.
Print Assumptions C09_check.

(** The grammar of the examples and the built-in grammar meet them. *)
Example C09_example :
  valid ex_syntax /\ well_formed ex_syntax /\ columns_fit indent_default ex_text /\
  valid bootstrap_rules /\ well_formed bootstrap_rules.
Proof.
  destruct (C09_check ex_syntax eq_refl) as [H1 H2].
  destruct (C09_check bootstrap_rules eq_refl) as [H3 H4].
  refine (conj H1 (conj H2 (conj _ (conj H3 H4)))). apply columns_fitb_spec. reflexivity.
Qed.

(** Without the conditions parsing may loop forever: [.r?(.w?)] on every text. *)
Theorem C09_terminates_refuted : exists s, valid s /\
  forall E text tokens ind, parse_diverges E s text tokens ind.
Proof.
  exact (ex_intro _ blind_repeat (conj (validb_spec blind_repeat eq_refl) blind_repeat_diverges)).
Qed.
Print Assumptions C09_terminates_refuted.

(** and [doc = [doc "x"]] on every text, although its loops progress. *)
Theorem C09_left_recursion_refuted : exists s, valid s /\
  (forall r optional id, ~ occurs s (RRepeat r optional id)) /\
  (forall r by_ optional trail id, ~ occurs s (RSeparateBy r by_ optional trail id)) /\
  forall E text tokens ind, parse_diverges E s text tokens ind.
Proof.
  exact (ex_intro _ left_recursive (conj (validb_spec left_recursive eq_refl)
    (conj (proj1 left_recursive_no_loops) (conj (proj2 left_recursive_no_loops)
      left_recursive_diverges)))).
Qed.
Print Assumptions C09_left_recursion_refuted.

(** ** C10: parsing with a valid syntax does not panic. *)

Theorem C10_no_panic : forall E s, valid s ->
  forall text tokens ind, columns_fit ind text -> ~ parse_panics E s text tokens ind.
Proof. exact parse_safe. Qed.
Print Assumptions C10_no_panic.

(** A valid syntax with a fast select and indented lines; deep columns. *)
Example C10_example :
  valid (Syn [RLines (RFastSelect (0 :: 255 :: repeat 1 254)
                          [RTag (tx "a") false false None 1; RNumber false None 2] true 3) true 4]
             [tx "doc"]) /\
  columns_fit (Ind 3 true 1000000) (tx "   a").
Proof. split; [apply validb_spec|apply columns_fitb_spec]; reflexivity. Qed.

(** An index out of range panics, *)
Theorem C10_index_refuted : exists s text, columns_fit indent_default text /\
  parse_panics std_ext s text [] indent_default.
Proof.
  exists (Syn [RNode (tx "a") None (Some 1) 0] [tx "a"]), (tx "b").
  split; [apply columns_fitb_spec|exists 10]; reflexivity.
Qed.
Print Assumptions C10_index_refuted.

(** and so does a fast select with a tail but without sub rules, *)
Theorem C10_tail_refuted : exists table id text, columns_fit indent_default text /\
  parse_panics std_ext (Syn [RFastSelect table [] true id] [tx "a"]) text [] indent_default.
Proof.
  exists (repeat 255 256), 0%N, (tx "a").
  split; [apply columns_fitb_spec|exists 10]; reflexivity.
Qed.
Print Assumptions C10_tail_refuted.

(** and a column beyond 32 bits. *)
Theorem C10_column_refuted : exists s text ind, valid s /\ Forall (fun c => real_char c) text /\
  parse_panics std_ext s text [] ind.
Proof.
  exists (Syn [RLines (RTag (tx "a") false false None 0) true 0] [tx "doc"]),
    [tab; tab; 97%N], (Ind 0 true u32_max).
  repeat split; [apply validb_spec|apply all_real|exists 10]; reflexivity.
Qed.
Print Assumptions C10_column_refuted.

(** ** C23: optimisation of grammars without left recursion terminates. *)

Theorem C23_optimize_terminates : forall s, valid s -> tags_real s ->
  no_left_recursion (s_rules s) -> exists s', optimize_returns s s'.
Proof. exact optimizes. Qed.
Print Assumptions C23_optimize_terminates.

(** It keeps syntaxes valid. *)
Theorem C23_keeps_valid : forall s, valid s -> forall s', optimize_returns s s' -> valid s'.
Proof. exact optimize_keeps_valid. Qed.
Print Assumptions C23_keeps_valid.

Example C23_example : valid bootstrap_rules /\ tags_real bootstrap_rules /\
  no_left_recursion (s_rules bootstrap_rules).
Proof.
  destruct (C09_check bootstrap_rules eq_refl) as [H1 (_ & _ & H2)].
  refine (conj H1 (conj _ H2)). apply tags_realb_spec. reflexivity.
Qed.

(** With left recursion it does not return, even when parsing would not use that rule:
    [a = [a "x"]  doc = {"b" a}] on the text ["b"]. *)
Theorem C23_optimize_terminates_refuted : exists s, valid s /\ tags_real s /\
  optimize_diverges s /\ parse_returns std_ext s (tx "b") [] indent_default None [].
Proof.
  exact (ex_intro _ left_recursive_select (conj (validb_spec left_recursive_select eq_refl)
    (conj (tags_realb_spec left_recursive_select eq_refl) (conj left_recursive_select_diverges
      (ex_intro _ 10 eq_refl))))).
Qed.
Print Assumptions C23_optimize_terminates_refuted.

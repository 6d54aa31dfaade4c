(** C78: an optimised syntax makes no more calls. *)
From Coq Require Import Ascii String List NArith Bool Arith Lia.
From Verif Require Import Base Ext Types ParseModel OptimizeModel BootstrapRules PegSpec TotalSpec TotalCheck ApiSpec OptSpec OptPublic
  CostModel CostSpec CostPublic GrammarSpec GrammarPublic LinearSpec LinearPublic FasterPublic ExtProofs Examples.
Import ListNotations.
Local Open Scope string_scope.
Local Open Scope list_scope.
Local Open Scope nat_scope.

(** Where a text is decided with a syntax, it is decided with the optimised syntax, in at most as many calls. *)
Theorem C78_no_more_calls : forall E, ext_ok E -> forall s s' text tokens ind n,
  optimize_returns s s' -> tails_fail_at_end E s -> Forall real_char text ->
  makes_calls E s text tokens ind n -> exists n', makes_calls E s' text tokens ind n' /\ n' <= n.
Proof. exact optimized_calls. Qed.
Print Assumptions C78_no_more_calls.

(** The built-in rules meet the proviso. *)
Theorem C78_built_in : forall E, ext_ok E -> forall boot, optimize_returns bootstrap_rules boot ->
  forall text tokens ind n n', Forall real_char text ->
  makes_calls E bootstrap_rules text tokens ind n -> makes_calls E boot text tokens ind n' -> n' <= n.
Proof. exact built_in_calls. Qed.
Print Assumptions C78_built_in.

(** The optimised form of a clear syntax makes linearly many calls. *)
Theorem C78_linear : forall E, ext_ok E -> forall s s', valid s -> well_formed s -> clear E s -> without_lookahead s ->
  optimize_returns s s' -> tails_fail_at_end E s ->
  exists c, forall text tokens ind, Forall real_char text -> columns_fit ind text ->
  exists n, makes_calls E s' text tokens ind n /\ n <= c * S (length text).
Proof. exact optimized_linear. Qed.
Print Assumptions C78_linear.

(** Without the proviso an optimised syntax may make more calls. *)
Theorem C78_no_more_calls_refuted : exists s s' text n n', valid s /\ well_formed s /\ optimize_returns s s' /\
  makes_calls std_ext s text [] indent_default n /\ makes_calls std_ext s' text [] indent_default n' /\ n < n'.
Proof. exact more_calls. Qed.
Print Assumptions C78_no_more_calls_refuted.

(** JSON values: 69 calls in place of 96, and 144 in place of 185 for a text that is rejected at its end. *)
Example C78_example : ext_ok std_ext /\ Forall real_char json_text /\ exists s', optimize_returns json_syntax s' /\
  tails_fail_at_end std_ext json_syntax /\
  makes_calls std_ext json_syntax json_text [] indent_default 96 /\ makes_calls std_ext s' json_text [] indent_default 69 /\
  makes_calls std_ext json_syntax (tx "[[[[[[[[[[") [] indent_default 185 /\ makes_calls std_ext s' (tx "[[[[[[[[[[") [] indent_default 144.
Proof.
  split; [exact std_ext_ok|]. split; [exact json_real|]. destruct json_calls as (s' & Ho & H1 & H2). exists s'. split; [exact Ho|].
  split; [destruct json_optimized as (? & _ & H); exact H|].
  split; [apply (makes_calls_check _ 100); vm_compute; reflexivity|]. split; [exact H1|].
  split; [apply (makes_calls_check _ 100); vm_compute; reflexivity|exact H2].
Qed.

(** A definition read with the built-in rules. *)
Example C78_built_in_example : exists boot, optimize_returns bootstrap_rules boot /\
  Forall real_char (tx "0 doc = [!""x"" .r?({.t?:""text"" ..""z""!})]") /\
  makes_calls std_ext bootstrap_rules (tx "0 doc = [!""x"" .r?({.t?:""text"" ..""z""!})]") [] indent_default 223 /\
  makes_calls std_ext boot (tx "0 doc = [!""x"" .r?({.t?:""text"" ..""z""!})]") [] indent_default 222.
Proof. exact built_in_example. Qed.

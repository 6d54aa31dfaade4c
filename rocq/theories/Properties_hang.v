(** C63: parsing a text runs forever exactly when a call comes back to itself. *)
From Coq Require Import Ascii String List NArith Bool Arith.
From Verif Require Import Base Ext Types ParseModel DataSpec ApiSpec TotalSpec ExtProofs TotalCheck
  CallSpec HangSpec HangProofs HangPublic Examples.
Import ListNotations.
Local Open Scope string_scope.
Local Open Scope list_scope.

Theorem C63_hangs : forall E, ext_ok E -> forall s, valid s ->
  forall text tokens ind, columns_fit ind text ->
  (parse_diverges E s text tokens ind <-> circular_text E s ind text).
Proof. exact diverges_iff_circular. Qed.
Print Assumptions C63_hangs.

Theorem C63_returns : forall E, ext_ok E -> forall s, valid s ->
  forall text tokens ind, columns_fit ind text ->
  ((exists result tokens', parse_returns E s text tokens ind result tokens') <->
   ~ circular_text E s ind text).
Proof. exact returns_iff_not_circular. Qed.
Print Assumptions C63_returns.

(** There is no third case. *)
Theorem C63_either : forall E, ext_ok E -> forall s, valid s ->
  forall text tokens ind, columns_fit ind text ->
  (exists result tokens', parse_returns E s text tokens ind result tokens') \/
  circular_text E s ind text.
Proof. exact text_returns_or_circular. Qed.
Print Assumptions C63_either.

(** With a well-formed grammar no call comes back to itself. *)
Theorem C63_well_formed : forall E, ext_ok E -> forall s, valid s -> well_formed s ->
  forall text ind, columns_fit ind text -> ~ circular_text E s ind text.
Proof. exact well_formed_not_circular. Qed.
Print Assumptions C63_well_formed.

(** [doc = ["a" .r?(.w?)]] runs forever on ["ab"] and returns on ["ba"]; *)
Example C63_example_loop : valid late_loop /\
  columns_fit indent_default (tx "ab") /\ circular_text std_ext late_loop indent_default (tx "ab") /\
  exists result tokens, parse_returns std_ext late_loop (tx "ba") [] indent_default result tokens.
Proof.
  split; [apply validb_spec; reflexivity|]. split; [apply columns_fitb_spec; reflexivity|].
  exact (conj late_loop_circular late_loop_returns).
Qed.

(** and the left recursive [doc = {"x" doc}] runs forever on ["yx"] and reads ["x"]. *)
Example C63_example_recursion : valid late_recursion /\
  columns_fit indent_default (tx "yx") /\ circular_text std_ext late_recursion indent_default (tx "yx") /\
  exists tokens, parse_returns std_ext late_recursion (tx "x") [] indent_default None tokens.
Proof.
  split; [apply validb_spec; reflexivity|]. split; [apply columns_fitb_spec; reflexivity|].
  exact (conj late_recursion_circular late_recursion_returns).
Qed.

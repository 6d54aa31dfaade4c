(** C77: in clear syntaxes without negative lookahead parsing makes linearly many calls. *)
From Coq Require Import Ascii String List NArith Bool Arith.
From Verif Require Import Base Ext Types ParseModel PegSpec DataSpec ApiSpec TotalSpec TotalCheck CostModel CostSpec CostPublic
  GrammarSpec GrammarCheck GrammarPublic LinearSpec LinearPublic ExtProofs Examples.
Import ListNotations.
Local Open Scope string_scope.
Local Open Scope list_scope.
Local Open Scope nat_scope.

(** Whether the text is accepted or not. *)
Theorem C77_linear : forall E, ext_ok E -> forall s, well_formed s -> clear E s -> without_lookahead s ->
  exists c, forall text tokens ind n, makes_calls E s text tokens ind n -> n <= c * S (length text).
Proof. exact linear_calls. Qed.
Print Assumptions C77_linear.

(** And it returns. *)
Theorem C77_returns : forall E, ext_ok E -> forall s, valid s -> well_formed s -> clear E s -> without_lookahead s ->
  exists c, forall text tokens ind, columns_fit ind text ->
  exists n, makes_calls E s text tokens ind n /\ n <= c * S (length text).
Proof. exact linear_returns. Qed.
Print Assumptions C77_returns.

(** Not with negative lookahead, which may look far ahead at every place:
    [doc = {["(" doc ")"] !.r!("(")}] on opened brackets. *)
Theorem C77_lookahead_refuted : exists s, valid s /\ well_formed s /\ clear std_ext s /\
  ~ exists c, forall text tokens ind n, makes_calls std_ext s text tokens ind n -> n <= c * S (length text).
Proof. exact lookahead_quadratic. Qed.
Print Assumptions C77_lookahead_refuted.

(** JSON values: an accepted text, and one that is rejected only at its end. *)
Example C77_example : ext_ok std_ext /\ valid json_syntax /\ well_formed json_syntax /\ clear std_ext json_syntax /\
  without_lookahead json_syntax /\ columns_fit indent_default json_text /\
  makes_calls std_ext json_syntax json_text [] indent_default 96 /\
  makes_calls std_ext json_syntax (tx "[[[[[[[[[[") [] indent_default 185.
Proof.
  destruct json_clear as (H1 & H2 & H3). split; [exact std_ext_ok|]. split; [exact H1|]. split; [exact H2|]. split; [exact H3|].
  split; [exact json_no_lookahead|]. split; [apply columns_fitb_spec; reflexivity|].
  split; apply (makes_calls_check _ 100); vm_compute; reflexivity.
Qed.

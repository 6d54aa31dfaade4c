(** Property theorems: how much work optimisation is. *)
From Coq Require Import Ascii String List NArith Bool Arith.
From Verif Require Import Base Ext Types OptCostModel ApiSpec OptSpec SyntaxSpec BootstrapRules StuckSpec OptCostSpec
  OptCostProofs OptCostText Examples.
Import ListNotations.
Local Open Scope string_scope.
Local Open Scope list_scope.
Local Open Scope nat_scope.

(** ** C64: how often optimisation visits the rules of a syntax. *)

(** Selects of more than two alternatives, the first two of which do not begin with different
    bytes, take an extra turn over the alternatives behind the first. It has no effect. *)
Theorem C64_same : forall s s',
  optimize_returns s s' <-> exists fuel n, optimize_count fuel s = Done (s', n).
Proof. exact returns_counted. Qed.
Print Assumptions C64_same.

(** The number of calls, exactly. *)
Theorem C64_calls : forall s n, optimize_makes_calls s n <->
  (exists s', optimize_returns s s') /\ visits_all (s_rules s) (s_rules s) n.
Proof. exact calls_exact. Qed.
Print Assumptions C64_calls.

(** Every rule is visited, and at most once for every way to choose among the selects around
    it. *)
Theorem C64_at_least : forall s n, optimize_makes_calls s n -> (syntax_size s <= n)%N.
Proof. exact calls_least. Qed.
Print Assumptions C64_at_least.

Theorem C64_at_most : forall s n,
  optimize_makes_calls s n -> (n <= syntax_size s * 2 ^ syntax_depth s)%N.
Proof. exact calls_bound. Qed.
Print Assumptions C64_at_most.

(** Finding: the work is exponential in the length of the text of a syntax. The texts
    [1 doc = {.w? .w? {.w? .w? … .w?}}] are accepted by [syntax], after at least [2 ^ d] calls
    for [d] selects. *)
Theorem C64_proportional_refuted : forall d, (N.of_nat d < 2 ^ 60)%N -> exists text s s' n,
  length text = 10 * d + 11 /\ rules_read std_ext text (inl s) /\
  optimize_returns s s' /\ syntax_returns std_ext text (inl s') /\
  optimize_makes_calls s n /\ (2 ^ N.of_nat d <= n)%N.
Proof. exact exponential. Qed.
Print Assumptions C64_proportional_refuted.

(** The rules of the meta language take few calls more than they have rules. *)
Example C64_bootstrap : syntax_size bootstrap_rules = 180%N /\ syntax_depth bootstrap_rules = 1%N /\
  optimize_makes_calls bootstrap_rules 199.
Proof.
  split; [reflexivity|]. split; [reflexivity|]. exists 100. eexists. vm_compute. reflexivity.
Qed.

(** Ten nested selects: 31 rules, 5116 calls. *)
Example C64_nested : let s := Syn [nest 10] [s2l "doc"] in
  syntax_size s = 31%N /\ syntax_depth s = 10%N /\ optimize_makes_calls s 5116.
Proof.
  split; [reflexivity|]. split; [reflexivity|]. exists 100. eexists. vm_compute. reflexivity.
Qed.

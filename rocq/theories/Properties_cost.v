(** C57, C58: how deep parsing nests and how many calls it makes. *)
From Coq Require Import Ascii String List NArith Bool Arith.
From Verif Require Import Base Ext Types ParseModel OptimizeModel BootstrapRules DepthModel CostModel CostSpec PegSpec
  DataSpec ApiSpec OptSpec TotalSpec TextSpec SyntaxSpec SurfaceSpec ExtProofs TotalCheck SyntaxProofs DepthProofs CostBound CostPublic
  CommentProofs NestProofs TextProofs8 Examples SurfaceExamples CallSpec CallProofs.
Import ListNotations.
Local Open Scope string_scope.
Local Open Scope list_scope.
Local Open Scope nat_scope.

(** ** C57: the stack that parsing needs grows linearly with the text. *)

(** On a stack for so many calls parsing ends, and no loop makes more rounds than there are
    characters, two aside. *)
Theorem C57_linear_depth : forall E, ext_ok E -> forall s, valid s -> well_formed s ->
  exists c, forall text tokens ind, columns_fit ind text ->
  exists result tokens',
    parse_on E (c * S (length text)) (2 + length text) s text tokens ind = Done (result, tokens').
Proof. exact linear_depth. Qed.
Print Assumptions C57_linear_depth.

(** What parsing on a limited stack returns is what parsing returns. *)
Theorem C57_same_results : forall E s text tokens ind result tokens',
  (exists depth rounds, parse_on E depth rounds s text tokens ind = Done (result, tokens')) <->
  parse_returns E s text tokens ind result tokens'.
Proof. exact parse_on_same. Qed.
Print Assumptions C57_same_results.

(** No better: comments may be nested such that the built-in rules need as many calls at the
    same time as the text has characters, five aside. *)
Theorem C57_depth_needed : forall E, ext_ok E -> whole_readers E ->
  forall boot, optimize_returns bootstrap_rules boot ->
  forall n, exists text, length text = 5 * (n + 1) /\ accepted E text /\
  forall depth rounds tokens ind, depth <= 5 * n ->
    parse_on E depth rounds boot text tokens ind = OutOfFuel.
Proof. exact depth_needed. Qed.
Print Assumptions C57_depth_needed.

(** Eight calls at the same time do, seven do not. *)
Example C57_example : valid ex_syntax /\ well_formed ex_syntax /\ columns_fit indent_default ex_text /\
  (exists tokens, parse_on std_ext 8 30 ex_syntax ex_text [] indent_default = Done (None, tokens) /\ tokens <> []) /\
  parse_on std_ext 7 30 ex_syntax ex_text [] indent_default = OutOfFuel.
Proof.
  split; [apply validb_spec; reflexivity|]. split; [apply well_formedb_spec; reflexivity|].
  split; [apply columns_fitb_spec; reflexivity|].
  split; [eexists; split; [vm_compute; reflexivity|discriminate]|vm_compute; reflexivity].
Qed.

(** ** C58: the number of calls. *)

(** The number of calls is defined exactly where parsing returns, and depends on nothing else. *)
Theorem C58_counted : forall E s text tokens ind,
  (exists n, makes_calls E s text tokens ind n) <->
  exists result tokens', parse_returns E s text tokens ind result tokens'.
Proof. exact count_exists. Qed.
Print Assumptions C58_counted.

Theorem C58_unique : forall E s text tokens ind n n',
  makes_calls E s text tokens ind n -> makes_calls E s text tokens ind n' -> n = n'.
Proof. exact count_unique. Qed.
Print Assumptions C58_unique.

(** It is the size of the tree of calls, which tokens parsed before do not change. *)
Theorem C58_tree : forall E s text tokens ind result tokens',
  parse_returns E s text tokens ind result tokens' ->
  forall n, makes_calls E s text tokens ind n <-> text_calls E s ind text n.
Proof. exact calls_tree. Qed.
Print Assumptions C58_tree.

(** Without recursion, a polynomial bounds it. *)
Theorem C58_polynomial : forall E, ext_ok E -> forall s, well_formed s -> no_recursion s ->
  exists c k, forall text tokens ind n,
    makes_calls E s text tokens ind n -> n <= c * (length text + 1) ^ k.
Proof. exact poly_bound. Qed.
Print Assumptions C58_polynomial.

(** In any case, an exponential does. *)
Theorem C58_exponential : forall E, ext_ok E -> forall s, well_formed s ->
  exists c, forall text tokens ind n, makes_calls E s text tokens ind n -> n <= c ^ S (length text).
Proof. exact exp_bound. Qed.
Print Assumptions C58_exponential.

(** With recursion, a polynomial need not: not for the built-in rules. *)
Theorem C58_polynomial_refuted : forall E, no_slash_number E ->
  forall boot, optimize_returns bootstrap_rules boot -> forall tokens ind,
  ~ exists c k, forall text n, makes_calls E boot text tokens ind n -> n <= c * (length text + 1) ^ k.
Proof. exact unclosed_not_poly. Qed.
Print Assumptions C58_polynomial_refuted.

(** Comments that are not closed double the work with every three characters. *)
Theorem C58_doubling : forall E, no_slash_number E ->
  forall boot, optimize_returns bootstrap_rules boot -> forall tokens ind n,
  exists text count, length text = 3 * n /\ makes_calls E boot text tokens ind count /\ 2 ^ n <= count.
Proof. exact unclosed_many. Qed.
Print Assumptions C58_doubling.

Example C58_example : well_formed ex_syntax /\ no_recursion ex_syntax /\
  makes_calls std_ext ex_syntax ex_text [] indent_default 48 /\
  text_calls std_ext ex_syntax indent_default ex_text 48.
Proof.
  split; [apply well_formedb_spec; reflexivity|]. split; [exact ex_no_recursion|].
  assert (H : makes_calls std_ext ex_syntax ex_text [] indent_default 48)
    by (apply (makes_calls_check _ 60); vm_compute; reflexivity).
  split; [exact H|]. exact (count_tree _ _ _ _ _ _ H).
Qed.

(** The built-in rules are well-formed; six opened comments. *)
Example C58_built_in_example : no_slash_number std_ext /\ exists boot, optimize_returns bootstrap_rules boot /\ well_formed boot /\
  makes_calls std_ext boot (tx "/* /* /* /* /* /* ") [] indent_default 1854.
Proof.
  split; [exact std_no_slash|]. exists boot_computed. split; [exists 100; exact boot_optimized|].
  split; [apply boot_fine|]. apply (makes_calls_check _ 100). vm_compute. reflexivity.
Qed.

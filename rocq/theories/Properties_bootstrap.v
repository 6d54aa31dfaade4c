(** C60: bootstrapping. *)
From Coq Require Import Ascii String List NArith Bool Arith.
From Verif Require Import Base Ext Types ParseModel OptimizeModel BootstrapRules ConvertModel LibModel ApiSpec
  OptSpec IdSpec ConvertSpec SyntaxSpec EqModel Assets OldAssets BootSpec Examples BootProofs.
Import ListNotations.
Local Open Scope string_scope.
Local Open Scope list_scope.
Local Open Scope nat_scope.

(** ** C60: rules that read their own description are reproduced. *)

(** The built-in rules and assets/self-syntax.txt, as in examples/bootstrap.rs: whatever the number
    of rounds, the assertion holds. *)
Theorem C60_self : exists s,
  rules_read std_ext self_syntax_text (inl s) /\
  (forall n s', generation std_ext self_syntax_text bootstrap_rules (S n) s' <-> s' = s) /\
  syntax_eqb s s = true /\ parse_alike s bootstrap_rules.
Proof. exact self_generations. Qed.
Print Assumptions C60_self.

(** The old language, assets/old-syntax.txt and assets/old-self-syntax.txt, as in
    examples/bootstrap_old.rs. *)
Theorem C60_old : exists s o,
  rules_read std_ext old_syntax_text (inl s) /\
  syntax_returns std_ext old_syntax_text (inl o) /\
  (forall n s', generation std_ext old_self_syntax_text o (S n) s' <-> s' = s) /\
  (forall E, ext_ok E -> accept_alike E s o).
Proof. exact old_generations. Qed.
Print Assumptions C60_old.

(** The assertion of examples/bootstrap_old.rs does not hold. *)
Theorem C60_old_equal_refuted : exists o s,
  syntax_returns std_ext old_syntax_text (inl o) /\
  generation std_ext old_self_syntax_text o 1 s /\ syntax_eqb o s = false.
Proof. exact old_not_equal. Qed.
Print Assumptions C60_old_equal_refuted.

(** A description that is not reproduced: the second generation differs from the first. *)
Example C60_example : exists s1,
  generation std_ext (tx "1 doc = .t!:""a""") bootstrap_rules 1 s1 /\
  ~ exists s2, generation std_ext (tx "1 doc = .t!:""a""") bootstrap_rules 2 s2.
Proof. exact not_reproduced. Qed.

(** A text in the old language, read by the old rules in both forms. *)
Example C60_example_old : exists tokens e tokens',
  Forall real_char (tx "1 ""doc"" [w? t!""a""]") /\
  parse_returns std_ext old_computed (tx "1 ""doc"" [w? t!""a""]") [] indent_default None tokens /\
  length tokens = 21 /\
  parse_returns std_ext old_computed (tx "1 doc = [.w? .t!:""a""]") [] indent_default (Some e) tokens'.
Proof.
  do 3 eexists. split; [repeat constructor|]. split; [exists 200; vm_compute; reflexivity|].
  split; [reflexivity|]. exists 200. vm_compute. reflexivity.
Qed.

(** C67: every text of the meta language 1.0 is read today, as the same data. *)
From Coq Require Import Ascii String List NArith Bool Arith.
From Verif Require Import Base Ext Types ParseModel OptimizeModel BootstrapRules LibModel Assets10 OldAssets
  DataSpec ApiSpec OptSpec SyntaxSpec SyntaxProofs TextSpec TextProofs8 CompatSpec CompatProofs4 Examples.
Import ListNotations.
Local Open Scope string_scope.
Local Open Scope list_scope.
Local Open Scope nat_scope.

(** The rules in assets/self-syntax-1.0.txt accept exactly the texts that the built-in
    rules accept without saying that lines are indented, with the same data. *)
Theorem C67_version_10 : exists s, rules_read std_ext self_syntax_10_text (inl s) /\
  forall E, ext_ok E -> no_slash_number E -> forall text tokens data,
  parse_returns E s text tokens indent_default None (tokens ++ data) <->
  parse_returns E bootstrap_rules text tokens indent_default None (tokens ++ data) /\ without_flag (s2l "indent") data.
Proof. exact compat_text. Qed.
Print Assumptions C67_version_10.

(** So do the rules in assets/new-self-syntax.txt. *)
Theorem C67_new_self_syntax : exists s, rules_read std_ext new_self_syntax_text (inl s) /\
  forall E, ext_ok E -> no_slash_number E -> forall text tokens data,
  parse_returns E s text tokens indent_default None (tokens ++ data) <->
  parse_returns E bootstrap_rules text tokens indent_default None (tokens ++ data) /\ without_flag (s2l "indent") data.
Proof. exact compat_new. Qed.
Print Assumptions C67_new_self_syntax.

(** For the syntax that [syntax] makes of the text of 1.0, and the data that [syntax]
    reads from a text today. *)
Theorem C67_syntax : exists s, syntax_returns std_ext self_syntax_10_text (inl s) /\
  forall E, ext_ok E -> no_slash_number E -> forall text, Forall real_char text -> forall data,
  parse_returns E s text [] indent_default None data <-> text_data E text data /\ without_flag (s2l "indent") data.
Proof. exact compat_syntax. Qed.
Print Assumptions C67_syntax.

(** [.l(] is read by both. *)
Example C67_example : no_slash_number std_ext /\ exists s data, syntax_returns std_ext self_syntax_10_text (inl s) /\
  parse_returns std_ext s (tx "1 doc = .l(.t!:""a"")") [] indent_default None data /\
  text_data std_ext (tx "1 doc = .l(.t!:""a"")") data /\ length data = 16.
Proof.
  split; [exact std_no_slash|]. exists optimized10. eexists. split; [exact returns10|].
  split; [exists 300; vm_compute; reflexivity|]. split; [|reflexivity].
  exists boot_computed. split; [exists 100; exact boot_optimized|exists 300; vm_compute; reflexivity].
Qed.

(** [.l+(] is read today only. *)
Example C67_only_today : exists s e tokens data, syntax_returns std_ext self_syntax_10_text (inl s) /\
  parse_returns std_ext s (tx "1 doc = .l+(.t!:""a"")") [] indent_default (Some e) tokens /\
  text_data std_ext (tx "1 doc = .l+(.t!:""a"")") data /\ ~ without_flag (tx "indent") data.
Proof.
  exists optimized10. eexists _, _, _. split; [exact returns10|].
  split; [exists 300; vm_compute; reflexivity|].
  split; [exists boot_computed; split; [exists 100; exact boot_optimized|exists 300; vm_compute; reflexivity]|].
  intros H. eapply H. cbn [In]. do 5 right. left. reflexivity.
Qed.

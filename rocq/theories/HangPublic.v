(** Syntaxes that run forever on some texts only. *)
From Coq Require Import Ascii String List NArith Bool Arith.
From Verif Require Import Base Ext Types ParseModel PegSpec PrimProofs PegProofs DataSpec ApiSpec TotalSpec ExtProofs TotalProofs
  CallSpec HangSpec HangProofs Examples.
Import ListNotations.
Local Open Scope string_scope.
Local Open Scope list_scope.
Local Open Scope nat_scope.

Theorem well_formed_not_circular E : ext_ok E -> forall s, valid s -> well_formed s ->
  forall text ind, columns_fit ind text -> ~ circular_text E s ind text.
Proof.
  intros HE s Hv Hw text ind Hf. apply (returns_iff_not_circular E HE s Hv text [] ind Hf).
  apply parse_decided; assumption.
Qed.

(** [doc = ["a" .r?(.w?)]] *)
Definition late_loop : syntax :=
  Syn [RSequence [RTag (tx "a") false false None 1; RRepeat (RWhitespace true 2) true 3] 4] [tx "doc"].

Lemma late_loop_circular : circular_text std_ext late_loop indent_default (tx "ab").
Proof.
  exists (RSequence [RTag (tx "a") false false None 1; RRepeat (RWhitespace true 2) true 3] 4).
  split; [exists []; reflexivity|].
  exists (RRepeat (RWhitespace true 2) true 3, indent_default, 1, tx "b"). split.
  - right. apply comes_now. apply needs_sequence.
    eapply order_later; [apply reads_tag; exists (tx "b"); reflexivity|]. apply order_now.
  - apply comes_now.
    eapply (needs_repeat_again std_ext _ (RWhitespace true 2) true 3 indent_default 1 (tx "b") 0).
    apply reads_whitespace; [|left; reflexivity].
    pose proof (longest_span white is_ws (tx "b") white_spec) as H. exact H.
Qed.

Lemma late_loop_returns : exists result tokens,
  parse_returns std_ext late_loop (tx "ba") [] indent_default result tokens.
Proof.
  eexists _, _. exists 20. vm_compute. reflexivity.
Qed.

(** [doc = {"x" doc}] *)
Definition late_recursion : syntax :=
  Syn [RSelect [RTag (tx "x") false false None 1; RNode (tx "doc") None (Some 0) 2] 3] [tx "doc"].

Lemma late_recursion_circular : circular_text std_ext late_recursion indent_default (tx "yx").
Proof.
  set (r := RSelect [RTag (tx "x") false false None 1; RNode (tx "doc") None (Some 0) 2] 3).
  exists r. split; [exists []; reflexivity|].
  exists (r, indent_default, 0, tx "yx"). split; [left; reflexivity|].
  eapply comes_later.
  - apply needs_select. eapply turn_later.
    + apply reads_tag_no. intros (s & H). discriminate.
    + apply turn_now.
  - apply comes_now. apply needs_node. reflexivity.
Qed.

Lemma late_recursion_returns : exists tokens,
  parse_returns std_ext late_recursion (tx "x") [] indent_default None tokens.
Proof. eexists. exists 20. vm_compute. reflexivity. Qed.

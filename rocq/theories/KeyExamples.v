(** C89: the file of the example, and surprising files. *)
From Coq Require Import Ascii String List NArith Bool Arith Lia.
From Verif Require Import Base Ext Types ParseModel LibModel JsonModel PegSpec ApiSpec SyntaxSpec Examples ExtProofs FasterPublic KeySpec KeyProofs KeyPublic.
Import ListNotations.
Local Open Scope string_scope.
Local Open Scope list_scope.
Local Open Scope nat_scope.

Lemma words_rejected : exists s, syntax_returns std_ext key_value_rules (inl s) /\
  forall w, In w [tx "1.2.3"; tx "2015-02-01"; tx "trueish"; tx "false_alarm"] ->
  Forall (fun c => ~ white c) w /\
  exists e tokens, parse_returns std_ext s (tx "a = " ++ w) [] indent_default (Some e) tokens.
Proof.
  exists key_value_optimised. split; [exact key_rules_optimised|]. intros w Hw. cbn [In] in Hw.
  repeat (destruct Hw as [<- | Hw];
    [split; [repeat (constructor; [discriminate|]); constructor|do 2 eexists; exists 200; vm_compute; reflexivity]|]).
  destruct Hw.
Qed.

Lemma quote_word : exists s tokens, syntax_returns std_ext key_value_rules (inl s) /\
  x_string std_ext (quote :: tx "Big") = None /\
  parse_returns std_ext s (tx "name = " ++ quote :: tx "Big") [] indent_default None tokens /\
  map snd tokens = [MString (tx "key") (tx "name"); MString (tx "value") (quote :: tx "Big")].
Proof.
  do 2 eexists. split; [exact key_rules_optimised|]. split; [reflexivity|]. split; [exists 200; vm_compute; reflexivity|].
  vm_compute. reflexivity.
Qed.

Lemma next_line_taken : exists s tokens, syntax_returns std_ext key_value_rules (inl s) /\
  parse_returns std_ext s (tx "name =" ++ newline :: tx "age=250") [] indent_default None tokens /\
  map snd tokens = [MString (tx "key") (tx "name"); MString (tx "value") (tx "age=250")].
Proof.
  do 2 eexists. split; [exact key_rules_optimised|]. split; [exists 200; vm_compute; reflexivity|].
  vm_compute. reflexivity.
Qed.

Lemma comment_behind : exists s e tokens, syntax_returns std_ext key_value_rules (inl s) /\
  parse_returns std_ext s (tx "age = 250 # years") [] indent_default (Some e) tokens.
Proof. do 3 eexists. split; [exact key_rules_optimised|]. exists 200. vm_compute. reflexivity. Qed.

Lemma key_example : exists s v w items tokens, syntax_returns std_ext key_value_rules (inl s) /\
  Forall real_char key_value_text /\
  x_parse_number std_ext true (tx "250") = Some v /\ x_parse_number std_ext true (tx "200") = Some w /\
  entries std_ext key_value_text items /\
  parse_returns std_ext s key_value_text [] indent_default None tokens /\
  map snd tokens = concat items /\
  concat items = [MString (tx "key") (tx "age"); MF64 (tx "number") v; MString (tx "key") (tx "strength"); MF64 (tx "number") w;
    MString (tx "key") (tx "name"); MString (tx "string") (tx "Big Dragon"); MString (tx "key") (tx "violent"); MBool (tx "bool") true].
Proof.
  assert (Hp : exists tokens, parse_returns std_ext key_value_optimised key_value_text [] indent_default None tokens /\
    exists v w, x_parse_number std_ext true (tx "250") = Some v /\ x_parse_number std_ext true (tx "200") = Some w /\ map snd tokens =
    [MString (tx "key") (tx "age"); MF64 (tx "number") v; MString (tx "key") (tx "strength"); MF64 (tx "number") w;
     MString (tx "key") (tx "name"); MString (tx "string") (tx "Big Dragon"); MString (tx "key") (tx "violent"); MBool (tx "bool") true]).
  { eexists. split; [exists 400; vm_compute; reflexivity|]. do 2 eexists. split; [vm_compute; reflexivity|]. split; vm_compute; reflexivity. }
  destruct Hp as (tokens & Hp & v & w & Hv & Hw & Hm).
  assert (Hr : Forall real_char key_value_text) by (apply real_check; vm_compute; reflexivity).
  destruct (proj1 (key_values_optimised std_ext std_ext_ok std_solid _ key_rules_optimised key_value_text [] indent_default (map snd tokens) Hr)) as (items & Hi & Hc).
  { exists tokens. split; [exact Hp|reflexivity]. }
  exists key_value_optimised, v, w, items, tokens.
  split; [exact key_rules_optimised|]. split; [exact Hr|]. split; [exact Hv|]. split; [exact Hw|]. split; [exact Hi|]. split; [exact Hp|].
  split; [symmetry; exact Hc|]. rewrite Hc. exact Hm.
Qed.

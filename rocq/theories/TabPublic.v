(** C61: witnesses. *)
From Coq Require Import Ascii String List NArith Bool Arith Lia.
From Coq Require Import SpecFloat.
From Verif Require Import Base Ext Types ParseModel OptimizeModel LibModel PegSpec ApiSpec RuleSpec RuleProofs
  SyntaxSpec SyntaxProofs TabSpec Examples TabProofs.
Import ListNotations.
Local Open Scope string_scope.
Local Open Scope list_scope.
Local Open Scope nat_scope.

Lemma siblings_nested : exists s tokens,
  syntax_returns std_ext indent_rules (inl s) /\
  parse_returns std_ext s
    (tx "1" ++ [newline; tab] ++ tx "2" ++ [newline; tab; tab] ++ tx "3" ++ [newline; tab; tab] ++ tx "4")
    [] indent_default None tokens /\
  shape (map snd tokens) = tx "(1(2(3(4))))".
Proof.
  do 2 eexists. split; [exists 200; vm_compute; reflexivity|]. split; [exists 200; vm_compute; reflexivity|].
  vm_compute. reflexivity.
Qed.

Lemma siblings_with_spaces : exists s tokens,
  syntax_returns std_ext indent_rules (inl s) /\
  parse_returns std_ext s
    (tx "1" ++ [newline] ++ tx "    2" ++ [newline] ++ tx "        3" ++ [newline] ++ tx "        4")
    [] indent_default None tokens /\
  shape (map snd tokens) = tx "(1(2(3)(4)))".
Proof.
  do 2 eexists. split; [exists 200; vm_compute; reflexivity|]. split; [exists 200; vm_compute; reflexivity|].
  vm_compute. reflexivity.
Qed.

Lemma mixed_not_read : exists s e tokens tokens',
  syntax_returns std_ext two_level_rules (inl s) /\
  parse_returns std_ext s
    (tx "1" ++ [newline; tab; space] ++ tx "2" ++ [newline; tab; space] ++ tx "3")
    [] indent_default (Some e) tokens /\
  parse_returns std_ext s
    (tx "1" ++ [newline; tab; tab] ++ tx "2" ++ [newline; tab; tab] ++ tx "3")
    [] indent_default None tokens'.
Proof.
  do 4 eexists. split; [exists 200; vm_compute; reflexivity|]. split; exists 200; vm_compute; reflexivity.
Qed.

Lemma deeper_tab_read : exists s tokens e tokens',
  syntax_returns std_ext one_level_rules (inl s) /\
  parse_returns std_ext s (tx "    1" ++ [newline; tab; tab] ++ tx "2") [] indent_default None tokens /\
  parse_returns std_ext s (tx "    1" ++ [newline] ++ tx "        2") [] indent_default (Some e) tokens'.
Proof.
  do 4 eexists. split; [exists 200; vm_compute; reflexivity|]. split; exists 200; vm_compute; reflexivity.
Qed.

Lemma tab_examples :
  reaches 4 6 [tab; space; space] /\ reaches 4 2 [tab] /\ ~ reaches 4 2 [tab; space] /\
  clean 4 4 [tab; space] /\ ~ clean 4 1 [tab; space] /\
  first_line_at 4 1 1 ([tab] ++ tx "2") /\ line_at 4 1 ([tab] ++ tx "3") /\
  no_blank_ahead (tx "2").
Proof.
  assert (Ht : blank tab) by (right; reflexivity). assert (Hs : blank space) by (left; reflexivity).
  assert (Hr : forall c, (0 < c <= 4)%N -> reaches 4 c [tab]).
  { intros c Hc. apply reaches_cons. split; [exact Ht|]. split; [lia|]. apply reaches_nil. cbn. lia. }
  assert (Hn : no_blank_ahead (tx "2")) by (intros c [= <-] [H|H]; discriminate).
  split. { apply (reaches_width 4 [tab; space; space]); [lia|repeat constructor; assumption]. }
  split. { apply Hr. lia. }
  split. { intros H. apply reaches_cons in H as (_ & _ & H). apply reaches_cons in H as (_ & H & _). cbn in H. lia. }
  split. { left. exists [tab], [space]. split; reflexivity. }
  split.
  { intros [(a & b & H & Hw)|[H|H]].
    - destruct a as [|x [|y [|z a]]]; cbn in H; [|injection H as <- _|injection H as <- <- _|discriminate]; discriminate.
    - inversion H as [|? ? _ H2]; subst. inversion H2; discriminate.
    - inversion H; discriminate. }
  split. { exists [tab], [], (tx "2"). split; [reflexivity|]. split; [apply Hr; lia|]. split; [constructor|]. split; [exact Hn|reflexivity]. }
  split. { exists [tab], (tx "3"). split; [reflexivity|]. split; [apply Hr; lia|]. discriminate. }
  exact Hn.
Qed.

Lemma tab_block : exists v ind1,
  indented_line (runs std_ext [] (RNumber false None 1)) (indent_default, true) 0
    ([tab; space] ++ tx "12") v (ind1, false) /\ i_indent ind1 = 5%N /\ v = Yes 4 [].
Proof.
  assert (Ht : blank tab) by (right; reflexivity). assert (Hs : blank space) by (left; reflexivity).
  exists (after 2 [] (Yes 2 [])), (set_indent (set_indent indent_default 6) 5). split; [|split; reflexivity].
  apply first_line_iff; [reflexivity|reflexivity|repeat constructor; assumption|intros c [= <-] [H|H]; discriminate|].
  right. exists [], [tab; space], 5%N, (Yes 2 []), (set_indent indent_default 6).
  split; [reflexivity|]. split; [apply reaches_nil; reflexivity|]. split; [reflexivity|].
  split; [|split; reflexivity]. apply runs_reads. eexists.
  apply (reads_number std_ext [] false None 1 (set_indent indent_default 6) 2 (tx "12") 2 (std_decimal false 12 BinInt.Z0));
    vm_compute; reflexivity.
Qed.

Lemma tab_items :
  item_text (tx "ab") /\
  reads_item std_ext [] (RTag (tx "ab") false false None 1) indent_default 4 (tx "ab") /\
  first_line_at 4 0 4 ([tab] ++ tx "ab") /\ reaches 4 4 (tx "    ") /\ not_at 4 4 (tx "  ") /\
  not_at 4 4 ([tab] ++ tx " ") /\
  runs std_ext [] (RLines (RTag (tx "ab") false false None 1) true 2) indent_default 0
    ([tab] ++ tx "ab" ++ [newline] ++ tx "    ab" ++ [newline] ++ tx "  ab") (Yes 11 [])
    (set_indent indent_default 4).
Proof.
  assert (Ht : blank tab) by (right; reflexivity). assert (Hs : blank space) by (left; reflexivity).
  split.
  { split; [exists 97%N, (tx "b"); split; [reflexivity|discriminate]|].
    intros (a & b & H & _). destruct a as [|? [|? [|? a]]]; cbn in H; discriminate. }
  split.
  { intros p rest _. exists [], (set_indent indent_default 5). apply runs_reads. eexists.
    apply (reads_tag std_ext [] (tx "ab") false None 1 (set_indent indent_default 5) p (tx "ab" ++ rest)).
    exists rest. reflexivity. }
  split.
  { exists [], [tab], (tx "ab"). split; [reflexivity|]. split; [apply reaches_nil; reflexivity|].
    split; [repeat constructor; assumption|]. split; [intros c [= <-] [H|H]; discriminate|reflexivity]. }
  split. { apply (reaches_width 4 (tx "    ")); [lia|repeat constructor; assumption]. }
  split. { left. reflexivity. }
  split.
  { right. exists [tab], [space]. split; [reflexivity|]. split; [|reflexivity].
    apply (reaches_width 4 [tab]); [lia|repeat constructor; assumption]. }
  apply (runs_eval std_ext [] 100). vm_compute. reflexivity.
Qed.

(** Grammars that never return. *)
From Coq Require Import Ascii String List NArith Bool Arith Lia.
From Verif Require Import Base Ext Types ParseModel OptimizeModel OptSpec ApiSpec Examples DataSpec OccursProofs.
Import ListNotations.

(** [.r?(.w?)] *)
Definition blind_repeat : syntax := Syn [RRepeat (RWhitespace true 1) true 2] [tx "doc"].

Lemma blind_repeat_diverges E text tokens ind : parse_diverges E blind_repeat text tokens ind.
Proof.
  intros [|f]; [reflexivity|]. unfold parse_with_indent, blind_repeat.
  cbn [s_rules length Nat.sub nth_error parse_rule]. unfold parse_repeat.
  assert (H : forall g first st t oe start,
    repeat_loop g (parse_rule E f [RRepeat (RWhitespace true 1) true 2] (RWhitespace true 1)) true
      start first tokens st t ind oe = OutOfFuel).
  { destruct f as [|f]; [intros [|g]; reflexivity|].
    induction g as [|g IH]; intros first st t oe start; [reflexivity|].
    cbn [repeat_loop parse_rule]. unfold parse_whitespace. rewrite andb_false_r. cbn [obind]. apply IH. }
  rewrite H. reflexivity.
Qed.

(** [doc = [doc "x"]] *)
Definition left_recursive : syntax :=
  Syn [RSequence [RNode (tx "doc") None (Some 0) 1; RTag (tx "x") false false None 2] 3] [tx "doc"].

Lemma left_recursive_diverges E text tokens ind : parse_diverges E left_recursive text tokens ind.
Proof.
  intros f. unfold parse_with_indent, left_recursive. cbn [s_rules length Nat.sub nth_error].
  match goal with |- context [parse_rule E f ?r ?q] =>
    assert (H : forall f, parse_rule E f r q tokens (length tokens) (RT text 0) ind = OutOfFuel) end.
  { clear f. intros f. induction f as [f IH] using lt_wf_ind.
    destruct f as [|[|f]]; [reflexivity|reflexivity|].
    cbn [parse_rule]. unfold parse_sequence. cbn [seq_loop]. unfold parse_node. cbn [emit nth_error].
    match goal with |- context [parse_rule E f ?r ?q] => specialize (IH f ltac:(lia)) end.
    rewrite IH. reflexivity. }
  rewrite H. reflexivity.
Qed.

Lemma left_recursive_no_loops :
  (forall r optional id, ~ occurs left_recursive (RRepeat r optional id)) /\
  (forall r by_ optional trail id, ~ occurs left_recursive (RSeparateBy r by_ optional trail id)).
Proof.
  split; intros; intros Ho;
    apply (all_rules_spec (fun r => match r with RRepeat _ _ _ | RSeparateBy _ _ _ _ _ => false
                                    | _ => true end)) in Ho; [discriminate|reflexivity| |];
    [discriminate|reflexivity].
Qed.

(** [a = [a "x"]  doc = {a "b"}] *)
Definition left_recursive_select : syntax :=
  Syn [RSequence [RNode (tx "a") None (Some 0) 1; RTag (tx "x") false false None 2] 3;
       RSelect [RTag (tx "b") false false None 4; RNode (tx "a") None (Some 0) 5] 6]
      [tx "a"; tx "doc"].

Lemma left_recursive_select_diverges : optimize_diverges left_recursive_select.
Proof.
  intros f. unfold optimize, left_recursive_select. cbn [s_rules map_o optimize_rule obind].
  unfold unique_table_from_select. cbn [unique_loop].
  destruct f as [|f]; [reflexivity|]. cbn [Nat.leb]. 
  match goal with |- context [unique_byte (S f) ?r (RNode ?a ?b ?c ?d)] =>
    assert (H : forall f, unique_byte f r (RNode a b c d) = OutOfFuel /\
                          forall q, nth_error r 0 = Some q -> unique_byte f r q = OutOfFuel) end.
  { clear f. induction f as [f IH] using lt_wf_ind. destruct f as [|f]; [split; reflexivity|].
    split.
    - cbn [unique_byte nth_error]. apply (IH f); [lia|reflexivity].
    - intros q [= <-]. destruct f as [|f]; [reflexivity|].
      cbn [unique_byte nth_error]. apply (IH f); [lia|reflexivity]. }
  destruct (H (S f)) as [H1 _]. rewrite H1.
  cbn [unique_byte obind]. vm_compute. reflexivity.
Qed.

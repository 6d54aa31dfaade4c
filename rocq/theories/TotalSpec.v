(** When parsing returns at all: well-formed syntaxes. *)
From Coq Require Import List NArith Bool Arith.
From Verif Require Import Base Ext Types DataSpec.
Import ListNotations.

(** ** No index out of range *)

(** References point into the [n] rules of the syntax; the table of a fast select has an
    entry for every byte, which is either 255 or the index of a sub rule; a tail exists. *)
Definition indices_valid (n : nat) (r : rule) : Prop :=
  match r with
  | RNode _ _ (Some i) _ => i < n
  | RFastSelect table args tail _ =>
    256 <= length table /\
    (forall i, In i table -> i = 255 \/ i < length args) /\
    (tail = true -> args <> [])
  | _ => True
  end.

Definition valid (s : syntax) : Prop :=
  forall r, occurs s r -> indices_valid (length (s_rules s)) r.

(** The text consists of Unicode scalar values, and no column of it exceeds 32 bits. *)
Definition columns_fit (ind : indent) (text : str) : Prop :=
  Forall (fun c => real_char c) text /\
  (N.max 1 (i_tab_spaces ind) * N.of_nat (length text) < u32_max)%N.

(** The tags of the syntax consist of Unicode scalar values. *)
Definition tags_real (s : syntax) : Prop :=
  forall text not inverted property id,
    occurs s (RTag text not inverted property id) -> Forall (fun c => real_char c) text.

(** ** Progress *)

Section Progress.
  Variable refs : list rule.

  (** The rule may succeed without reading a character. *)
  Inductive may_be_empty : rule -> Prop :=
  | empty_whitespace : forall id, may_be_empty (RWhitespace true id)
  | empty_not_tag : forall text inverted property id,
      may_be_empty (RTag text true inverted property id)
  | empty_tag : forall not inverted property id,
      may_be_empty (RTag [] not inverted property id)
  | empty_until : forall any property id, may_be_empty (RUntilAny any true property id)
  | empty_until_ws : forall any property id, may_be_empty (RUntilAnyOrWs any true property id)
  | empty_sequence : forall args id,
      Forall may_be_empty args -> may_be_empty (RSequence args id)
  | empty_select : forall args id r,
      In r args -> may_be_empty r -> may_be_empty (RSelect args id)
  | empty_fast : forall table args tail id r,
      In r args -> may_be_empty r -> may_be_empty (RFastSelect table args tail id)
  | empty_repeat_optional : forall r id, may_be_empty (RRepeat r true id)
  | empty_repeat : forall r optional id, may_be_empty r -> may_be_empty (RRepeat r optional id)
  | empty_separate_optional : forall r by_ trail id,
      may_be_empty (RSeparateBy r by_ true trail id)
  | empty_separate : forall r by_ optional trail id,
      may_be_empty r -> may_be_empty (RSeparateBy r by_ optional trail id)
  | empty_lines : forall r indented id, may_be_empty (RLines r indented id)
  | empty_node : forall name property i id r,
      nth_error refs i = Some r -> may_be_empty r ->
      may_be_empty (RNode name property (Some i) id)
  | empty_optional : forall r id, may_be_empty (ROptional r id)
  | empty_not : forall r id, may_be_empty (RNot r id).

  (** The sub rule may be tried before the rule has read a character. *)
  Inductive tried_first : rule -> rule -> Prop :=
  | first_sequence : forall before r behind id,
      Forall may_be_empty before -> tried_first (RSequence (before ++ r :: behind) id) r
  | first_select : forall args id r, In r args -> tried_first (RSelect args id) r
  | first_fast : forall table args tail id r,
      In r args -> tried_first (RFastSelect table args tail id) r
  | first_repeat : forall r optional id, tried_first (RRepeat r optional id) r
  | first_separate : forall r by_ optional trail id,
      tried_first (RSeparateBy r by_ optional trail id) r
  | first_separator : forall r by_ optional trail id,
      may_be_empty r -> tried_first (RSeparateBy r by_ optional trail id) by_
  | first_lines : forall r indented id, tried_first (RLines r indented id) r
  | first_optional : forall r id, tried_first (ROptional r id) r
  | first_not : forall r id, tried_first (RNot r id) r.

  (** The rule may follow a reference to rule [i] before it has read a character. *)
  Inductive leads_to : rule -> nat -> Prop :=
  | leads_here : forall name property i id, leads_to (RNode name property (Some i) id) i
  | leads_below : forall r c i, tried_first r c -> leads_to c i -> leads_to r i.

  (** The rules can be ranked such that a rule leads only to rules of lower rank. *)
  Definition no_left_recursion : Prop :=
    exists rank : nat -> nat, forall i r j,
      nth_error refs i = Some r -> leads_to r j -> rank j < rank i.
End Progress.

(** Loops make progress, and no rule leads to itself. *)
Definition well_formed (s : syntax) : Prop :=
  (forall r optional id, occurs s (RRepeat r optional id) -> ~ may_be_empty (s_rules s) r) /\
  (forall r by_ optional trail id, occurs s (RSeparateBy r by_ optional trail id) ->
     ~ (may_be_empty (s_rules s) r /\ may_be_empty (s_rules s) by_)) /\
  no_left_recursion (s_rules s).

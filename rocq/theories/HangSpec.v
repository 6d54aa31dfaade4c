(** When parsing a text runs forever. *)
From Coq Require Import List NArith Bool Arith.
From Verif Require Import Base Ext Types PegSpec CallSpec.
Import ListNotations.

Section Hang.
  Variable E : ext.
  Variable refs : list rule.

  Notation reads := (reads E refs).
  Notation reads_line := (reads_line E refs).

  (** Rules one after the other come to this call. *)
  Inductive comes_in_order : list rule -> indent -> nat -> str -> call -> Prop :=
  | order_now : forall r rest ind p s, comes_in_order (r :: rest) ind p s (r, ind, p, s)
  | order_later : forall r rest ind p s n out ind' tr c,
      reads r ind p s (Yes n out) ind' tr ->
      comes_in_order rest ind' (p + n) (skipn n s) c ->
      comes_in_order (r :: rest) ind p s c.

  (** Alternatives come to this call. *)
  Inductive comes_in_turn : list rule -> indent -> nat -> str -> call -> Prop :=
  | turn_now : forall r rest ind p s, comes_in_turn (r :: rest) ind p s (r, ind, p, s)
  | turn_later : forall r rest ind p s ind' tr c,
      reads r ind p s No ind' tr -> comes_in_turn rest ind' p s c ->
      comes_in_turn (r :: rest) ind p s c.

  (** Lines come to this call. *)
  Inductive comes_by_lines (r : rule) (indented : bool)
    : bool -> bool -> indent -> nat -> str -> call -> Prop :=
  | lines_now : forall fresh nl ind p s k c,
      ~ Forall white s -> line_start nl s k ->
      on_line r indented fresh ind (p + k) (skipn k s) [c] ->
      comes_by_lines r indented fresh nl ind p s c
  | lines_later : forall fresh nl ind p s k n out fresh' ind' tr nl' c,
      ~ Forall white s -> line_start nl s k ->
      reads_line r indented fresh ind (p + k) (skipn k s) (Yes n out) fresh' ind' tr ->
      (nl' = true <-> ends_line (firstn n (skipn k s))) ->
      comes_by_lines r indented fresh' nl' ind' (p + k + n) (skipn n (skipn k s)) c ->
      comes_by_lines r indented fresh nl ind p s c.

  (** [needs c d]: the call [c] can not return before [d] does. A loop, having made a turn,
      needs itself at the place where the turn ended. *)
  Inductive needs : call -> call -> Prop :=
  | needs_sequence : forall args id ind p s c,
      comes_in_order args ind p s c -> needs (RSequence args id, ind, p, s) c
  | needs_select : forall args id ind p s c,
      comes_in_turn args ind p s c -> needs (RSelect args id, ind, p, s) c
  | needs_fast_tail : forall table args r id ind p c s,
      nth_error table (N.to_nat (utf8_first c)) = Some 255 ->
      needs (RFastSelect table (args ++ [r]) true id, ind, p, c :: s) (r, ind, p, c :: s)
  | needs_fast : forall table args tail id ind p c s i r,
      nth_error table (N.to_nat (utf8_first c)) = Some i -> i <> 255 -> nth_error args i = Some r ->
      needs (RFastSelect table args tail id, ind, p, c :: s) (r, ind, p, c :: s)
  | needs_fast_then_tail : forall table args r' id ind p c s i r ind' tr,
      nth_error table (N.to_nat (utf8_first c)) = Some i -> i <> 255 ->
      nth_error (args ++ [r']) i = Some r -> reads r ind p (c :: s) No ind' tr ->
      needs (RFastSelect table (args ++ [r']) true id, ind, p, c :: s) (r', ind', p, c :: s)
  | needs_repeat : forall r optional id ind p s,
      needs (RRepeat r optional id, ind, p, s) (r, ind, p, s)
  | needs_repeat_again : forall r optional id ind p s n out ind' tr,
      reads r ind p s (Yes n out) ind' tr ->
      needs (RRepeat r optional id, ind, p, s) (RRepeat r optional id, ind', p + n, skipn n s)
  | needs_item : forall r by_ optional trail id ind p s,
      needs (RSeparateBy r by_ optional trail id, ind, p, s) (r, ind, p, s)
  | needs_separator : forall r by_ optional trail id ind p s n out ind' tr,
      reads r ind p s (Yes n out) ind' tr ->
      needs (RSeparateBy r by_ optional trail id, ind, p, s) (by_, ind', p + n, skipn n s)
  | needs_separate_again : forall r by_ optional trail id ind p s n out ind1 tr1 m out' ind2 tr2,
      reads r ind p s (Yes n out) ind1 tr1 ->
      reads by_ ind1 (p + n) (skipn n s) (Yes m out') ind2 tr2 ->
      needs (RSeparateBy r by_ optional trail id, ind, p, s)
            (RSeparateBy r by_ optional trail id, ind2, p + n + m, skipn m (skipn n s))
  | needs_line : forall r indented id ind p s c,
      comes_by_lines r indented true true ind p s c -> needs (RLines r indented id, ind, p, s) c
  | needs_node : forall name property i id r ind p s,
      nth_error refs i = Some r -> needs (RNode name property (Some i) id, ind, p, s) (r, ind, p, s)
  | needs_optional : forall r id ind p s, needs (ROptional r id, ind, p, s) (r, ind, p, s)
  | needs_not : forall r id ind p s, needs (RNot r id, ind, p, s) (r, ind, p, s).

  (** One or more steps. *)
  Inductive comes_to : call -> call -> Prop :=
  | comes_now : forall c d, needs c d -> comes_to c d
  | comes_later : forall c d e, needs c d -> comes_to d e -> comes_to c e.

  (** The call comes to a call that comes back to itself: the same rule at the same place of
      the text with the same indent settings. *)
  Definition circular (c : call) : Prop :=
    exists d, (c = d \/ comes_to c d) /\ comes_to d d.
End Hang.

(** The same for a text: the start rule in front of it. *)
Definition circular_text (E : ext) (s : syntax) (ind : indent) (text : str) : Prop :=
  exists r, start_rule s r /\ circular E (s_rules s) (r, ind, 0, text).

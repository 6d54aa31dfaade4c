(** Which calls of [Rule::parse] there are: every rule with the rules it tries, where it tries
    them. What a tried rule does is the meaning [reads] of rules. *)
From Coq Require Import List NArith Bool Arith.
From Verif Require Import Base Ext Types PegSpec.
Import ListNotations.

(** A rule in front of a text that starts at a position, with indent settings. *)
Definition call := (rule * indent * nat * str)%type.

Section Calls.
  Variable E : ext.
  Variable refs : list rule.

  Notation reads := (reads E refs).
  Notation reads_line := (reads_line E refs).

  (** One after the other, up to the first that fails. *)
  Inductive in_order : list rule -> indent -> nat -> str -> list call -> Prop :=
  | order_nil : forall ind p s, in_order [] ind p s []
  | order_fail : forall r rest ind p s ind' tr,
      reads r ind p s No ind' tr -> in_order (r :: rest) ind p s [(r, ind, p, s)]
  | order_next : forall r rest ind p s n out ind' tr l,
      reads r ind p s (Yes n out) ind' tr -> in_order rest ind' (p + n) (skipn n s) l ->
      in_order (r :: rest) ind p s ((r, ind, p, s) :: l).

  (** At the same place, up to the first that succeeds. *)
  Inductive in_turn : list rule -> indent -> nat -> str -> list call -> Prop :=
  | turn_nil : forall ind p s, in_turn [] ind p s []
  | turn_hit : forall r rest ind p s n out ind' tr,
      reads r ind p s (Yes n out) ind' tr -> in_turn (r :: rest) ind p s [(r, ind, p, s)]
  | turn_next : forall r rest ind p s ind' tr l,
      reads r ind p s No ind' tr -> in_turn rest ind' p s l ->
      in_turn (r :: rest) ind p s ((r, ind, p, s) :: l).

  (** The same rule until it fails. *)
  Inductive over_again (r : rule) : indent -> nat -> str -> list call -> Prop :=
  | again_stop : forall ind p s ind' tr,
      reads r ind p s No ind' tr -> over_again r ind p s [(r, ind, p, s)]
  | again_next : forall ind p s n out ind' tr l,
      reads r ind p s (Yes n out) ind' tr -> over_again r ind' (p + n) (skipn n s) l ->
      over_again r ind p s ((r, ind, p, s) :: l).

  (** Two rules in alternation, until one of them fails. *)
  Inductive by_turns : rule -> rule -> indent -> nat -> str -> list call -> Prop :=
  | turns_stop : forall r q ind p s ind' tr,
      reads r ind p s No ind' tr -> by_turns r q ind p s [(r, ind, p, s)]
  | turns_next : forall r q ind p s n out ind' tr l,
      reads r ind p s (Yes n out) ind' tr -> by_turns q r ind' (p + n) (skipn n s) l ->
      by_turns r q ind p s ((r, ind, p, s) :: l).

  (** What is tried on a line that starts here. *)
  Inductive on_line (r : rule) : bool -> bool -> indent -> nat -> str -> list call -> Prop :=
  | on_plain : forall fresh ind p s, on_line r false fresh ind p s [(r, ind, p, s)]
  | on_short : forall fresh ind p s,
      (forall k, ~ indentation (i_tab_spaces ind) (i_indent ind) s k) ->
      on_line r true fresh ind p s []
  | on_deep : forall fresh ind p s k,
      indentation (i_tab_spaces ind) (i_indent ind) s k -> fresh && i_align_first ind = false ->
      starts_with (skipn k s) [space] -> on_line r true fresh ind p s []
  | on_exact : forall fresh ind p s k,
      indentation (i_tab_spaces ind) (i_indent ind) s k -> fresh && i_align_first ind = false ->
      ~ starts_with (skipn k s) [space] ->
      on_line r true fresh ind p s [(r, set_indent ind (i_indent ind + 1), p + k, skipn k s)]
  | on_align : forall ind p s k b,
      indentation (i_tab_spaces ind) (i_indent ind) s k -> i_align_first ind = true ->
      longest blank (skipn k s) b ->
      on_line r true true ind p s
        [(r, set_indent ind (i_indent ind + width (i_tab_spaces ind) (firstn b (skipn k s)) + 1),
          p + k + b, skipn b (skipn k s))].

  (** Line by line, until there is none, a line break is missing or a line fails. *)
  Inductive by_lines (r : rule) (indented : bool)
    : bool -> bool -> indent -> nat -> str -> list call -> Prop :=
  | lines_end : forall fresh nl ind p s, Forall white s -> by_lines r indented fresh nl ind p s []
  | lines_missing : forall fresh ind p s,
      ~ Forall white s -> same_line s -> by_lines r indented fresh false ind p s []
  | lines_stop : forall fresh nl ind p s k fresh' ind' tr l,
      ~ Forall white s -> line_start nl s k ->
      reads_line r indented fresh ind (p + k) (skipn k s) No fresh' ind' tr ->
      on_line r indented fresh ind (p + k) (skipn k s) l ->
      by_lines r indented fresh nl ind p s l
  | lines_next : forall fresh nl ind p s k n out fresh' ind' tr l nl' l',
      ~ Forall white s -> line_start nl s k ->
      reads_line r indented fresh ind (p + k) (skipn k s) (Yes n out) fresh' ind' tr ->
      on_line r indented fresh ind (p + k) (skipn k s) l ->
      (nl' = true <-> ends_line (firstn n (skipn k s))) ->
      by_lines r indented fresh' nl' ind' (p + k + n) (skipn n (skipn k s)) l' ->
      by_lines r indented fresh nl ind p s (l ++ l').

  (** The rules that a rule tries itself. *)
  Inductive tries : call -> list call -> Prop :=
  | tries_whitespace : forall o id ind p s, tries (RWhitespace o id, ind, p, s) []
  | tries_tag : forall text not inverted property id ind p s,
      tries (RTag text not inverted property id, ind, p, s) []
  | tries_until : forall any o property id ind p s, tries (RUntilAny any o property id, ind, p, s) []
  | tries_until_ws : forall any o property id ind p s,
      tries (RUntilAnyOrWs any o property id, ind, p, s) []
  | tries_text : forall e property id ind p s, tries (RText e property id, ind, p, s) []
  | tries_number : forall u property id ind p s, tries (RNumber u property id, ind, p, s) []
  | tries_sequence : forall args id ind p s l,
      in_order args ind p s l -> tries (RSequence args id, ind, p, s) l
  | tries_select : forall args id ind p s l,
      in_turn args ind p s l -> tries (RSelect args id, ind, p, s) l
  | tries_fast_end : forall table args tail id ind p,
      tries (RFastSelect table args tail id, ind, p, []) []
  | tries_fast_none : forall table args id ind p c s,
      nth_error table (N.to_nat (utf8_first c)) = Some 255 ->
      tries (RFastSelect table args false id, ind, p, c :: s) []
  | tries_fast_tail : forall table args r id ind p c s,
      nth_error table (N.to_nat (utf8_first c)) = Some 255 ->
      tries (RFastSelect table (args ++ [r]) true id, ind, p, c :: s) [(r, ind, p, c :: s)]
  | tries_fast : forall table args id ind p c s i r,
      nth_error table (N.to_nat (utf8_first c)) = Some i -> i <> 255 -> nth_error args i = Some r ->
      tries (RFastSelect table args false id, ind, p, c :: s) [(r, ind, p, c :: s)]
  | tries_fast_both : forall table args r' id ind p c s i r l,
      nth_error table (N.to_nat (utf8_first c)) = Some i -> i <> 255 ->
      nth_error (args ++ [r']) i = Some r -> in_turn [r; r'] ind p (c :: s) l ->
      tries (RFastSelect table (args ++ [r']) true id, ind, p, c :: s) l
  | tries_separate : forall r by_ optional trail id ind p s l,
      by_turns r by_ ind p s l -> tries (RSeparateBy r by_ optional trail id, ind, p, s) l
  | tries_repeat : forall r optional id ind p s l,
      over_again r ind p s l -> tries (RRepeat r optional id, ind, p, s) l
  | tries_lines : forall r indented id ind p s l,
      by_lines r indented true true ind p s l -> tries (RLines r indented id, ind, p, s) l
  | tries_node : forall name property i id r ind p s,
      nth_error refs i = Some r -> tries (RNode name property (Some i) id, ind, p, s) [(r, ind, p, s)]
  | tries_node_unresolved : forall name property id ind p s,
      tries (RNode name property None id, ind, p, s) []
  | tries_optional : forall r id ind p s, tries (ROptional r id, ind, p, s) [(r, ind, p, s)]
  | tries_not : forall r id ind p s, tries (RNot r id, ind, p, s) [(r, ind, p, s)].

  (** The size of the tree of calls. *)
  Inductive tree : call -> nat -> Prop :=
  | tree_node : forall c l n, tries c l -> trees l n -> tree c (1 + n)
  with trees : list call -> nat -> Prop :=
  | trees_nil : trees [] 0
  | trees_cons : forall c l n m, tree c n -> trees l m -> trees (c :: l) (n + m).

  Scheme tree_ind' := Minimality for tree Sort Prop
  with trees_ind' := Minimality for trees Sort Prop.
  Combined Scheme tree_mutind from tree_ind', trees_ind'.
End Calls.

(** The calls made for a text: the start rule in front of it. *)
Inductive text_calls (E : ext) (s : syntax) (ind : indent) (text : str) : nat -> Prop :=
| text_no_rules : s_rules s = [] -> text_calls E s ind text 0
| text_start : forall r n, start_rule s r -> tree E (s_rules s) (r, ind, 0, text) n ->
    text_calls E s ind text n.

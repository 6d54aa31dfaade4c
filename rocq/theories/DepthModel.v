(** Model of parsing on a stack that holds a limited number of calls of [Rule::parse]. *)
From Coq Require Import List NArith Bool Arith.
From Verif Require Import Base Ext Types ParseModel.
Import ListNotations.

Section Depth.
  Variable E : ext.

  (** src/meta_rules/rule.rs:67-122 [Rule::parse], as in [ParseModel.parse_rule], but nested
      calls and rounds of a loop are counted apart: at most [depth] calls are active at the
      same time, and no loop makes more than [rounds] rounds. Exceeding either gives
      [OutOfFuel]. *)
  Fixpoint parse_rule_on (depth rounds : nat) (refs : list rule) (r : rule) : parser :=
    match depth with
    | O => fun _ _ _ _ => OutOfFuel
    | S depth' =>
      let p := parse_rule_on depth' rounds refs in
      match r with
      | RWhitespace optional id => parse_whitespace optional id
      | RTag text not inverted property id => parse_tag text not inverted property id
      | RUntilAny any optional property id =>
        fun toks st t ind => parse_until (rt_until_any t any) optional property id toks st t ind
      | RUntilAnyOrWs any optional property id =>
        fun toks st t ind =>
          parse_until (rt_until_any_or_ws t any) optional property id toks st t ind
      | RText allow_empty property id => parse_text E allow_empty property id
      | RNumber underscore property id => parse_number E underscore property id
      | RSelect args id => parse_select p args id
      | RFastSelect table args tail id => parse_fast_select p table args tail id
      | RSequence args _ => parse_sequence p args
      | RSeparateBy r by_ optional allow_trail _ =>
        parse_separate_by rounds (p r) (p by_) optional allow_trail
      | RRepeat r optional _ => parse_repeat rounds (p r) optional
      | RLines r indented id => parse_lines E rounds (p r) indented id
      | RNode _ property index id => parse_node p refs property index id
      | ROptional r _ => parse_optional (p r)
      | RNot r id => parse_not (p r) id
      end
    end.

  (** src/meta_rules/mod.rs:58-88 [parse_with_indent], as in [ParseModel]. *)
  Definition parse_on (depth rounds : nat) (s : syntax) (text : str) (tokens : list tok)
    (ind : indent) : outcome (parse_result * list tok) :=
    match nth_error (s_rules s) (length (s_rules s) - 1) with
    | None => Done (Some (empty_range 0, NoRules), tokens)
    | Some r =>
      do (res, tokens', _) <-
        parse_rule_on depth rounds (s_rules s) r tokens (length tokens) (RT text 0) ind;
      match res with
      | POk rg st oe =>
        if next_offset rg <? length text
        then Done (Some (ret_err (empty_range (next_offset rg), ExpectedEnd) oe), tokens')
        else Done (None, firstn st tokens')
      | PErr e => Done (Some e, tokens')
      end
    end.
End Depth.

(** C95: an error cannot be repaired behind it. *)
From Coq Require Import Ascii String List NArith Bool Arith.
From Verif Require Import Base Ext Types ParseModel PegSpec DataSpec ApiSpec AheadSpec AheadProofs ExtProofs.
Import ListNotations.
Local Open Scope string_scope.
Local Open Scope list_scope.
Local Open Scope nat_scope.

(** If tokens and negated rules look at most [k] characters ahead, then every text that is the same up to the end of the error
    and [k] characters further gives the very same error. With rules for lines the texts are also the same up to something
    that is no white space; with rules for string literals the literals that begin before the error are the same. *)
Theorem C95_unrepaired : forall E s k text text' tokens ind e tokens1, ext_ok E -> looks_ahead E s k ->
  same_up_to E s k (depth e) text text' ->
  parse_returns E s text tokens ind (Some e) tokens1 -> exists tokens2, parse_returns E s text' tokens ind (Some e) tokens2.
Proof. exact ahead_parse. Qed.
Print Assumptions C95_unrepaired.

(** Without these two rules the characters up to there are enough. *)
Theorem C95_front : forall E s k text text' tokens ind e tokens1, ext_ok E -> looks_ahead E s k ->
  (forall r indented id, ~ occurs s (RLines r indented id)) -> (forall empty property id, ~ occurs s (RText empty property id)) ->
  firstn (depth e + k) text' = firstn (depth e + k) text ->
  parse_returns E s text tokens ind (Some e) tokens1 -> exists tokens2, parse_returns E s text' tokens ind (Some e) tokens2.
Proof. exact ahead_front. Qed.
Print Assumptions C95_front.

(** So an edit of an accepted text that keeps its first [m] characters causes no error that ends [k] characters in front of there. *)
Theorem C95_edit : forall E s k text text' m tokens ind e tokens1 tokens2, ext_ok E -> looks_ahead E s k ->
  (forall r indented id, ~ occurs s (RLines r indented id)) -> (forall empty property id, ~ occurs s (RText empty property id)) ->
  firstn m text' = firstn m text ->
  parse_returns E s text tokens ind None tokens1 -> parse_returns E s text' tokens ind (Some e) tokens2 -> m < depth e + k.
Proof. exact ahead_edit. Qed.
Print Assumptions C95_edit.

(** The reader of numbers in use needs three characters. *)
Theorem C95_numbers : numbers_within std_ext 3.
Proof. exact std_numbers_within. Qed.
Print Assumptions C95_numbers.

(** A string literal that is not closed is reported where it begins, however far behind the closing quote is missing. *)
Theorem C95_text_refuted : forall k, 1 <= k -> exists s text text' e tokens1 tokens2, looks_ahead std_ext s k /\
  (forall r indented id, ~ occurs s (RLines r indented id)) /\
  firstn (depth e + k) text' = firstn (depth e + k) text /\
  parse_returns std_ext s text [] indent_default (Some e) tokens1 /\ parse_returns std_ext s text' [] indent_default None tokens2.
Proof. exact text_open. Qed.
Print Assumptions C95_text_refuted.

(** A missing line break is reported before the white space, however far behind the next character is. *)
Theorem C95_lines_refuted : forall k, 1 <= k -> exists s text text' e tokens1 tokens2, looks_ahead std_ext s k /\
  (forall empty property id, ~ occurs s (RText empty property id)) /\
  firstn (depth e + k) text' = firstn (depth e + k) text /\
  parse_returns std_ext s text [] indent_default (Some e) tokens1 /\ parse_returns std_ext s text' [] indent_default None tokens2.
Proof. exact break_later. Qed.
Print Assumptions C95_lines_refuted.

(** The errors inside a negated rule are not reported, so that one that looks far can be repaired far behind. *)
Theorem C95_not_refuted : forall k, 1 <= k -> exists s text text' e tokens1 tokens2,
  (forall t no inverted property id, occurs s (RTag t no inverted property id) -> length t <= 1) /\
  (forall r indented id, ~ occurs s (RLines r indented id)) /\ (forall empty property id, ~ occurs s (RText empty property id)) /\
  firstn (depth e + k) text' = firstn (depth e + k) text /\
  parse_returns std_ext s text [] indent_default (Some e) tokens1 /\ parse_returns std_ext s text' [] indent_default None tokens2.
Proof. exact not_far. Qed.
Print Assumptions C95_not_refuted.

(** [\[1,x\] …] against a list of numbers, and [a], [b…] on two lines against lines of [a]: the same error whatever follows. *)
Example C95_example : forall rest,
  (exists tokens, parse_returns std_ext numbers_syntax (s2l "[1,x] " ++ rest) [] indent_default (Some (Rng 3 0, ExpectedNumber 2%N)) tokens) /\
  (exists tokens, parse_returns std_ext break_syntax (s2l "a" ++ newline :: s2l "b" ++ rest) [] indent_default (Some (Rng 2 0, ExpectedEnd)) tokens).
Proof. intros rest. exact (conj (numbers_unrepaired rest) (lines_unrepaired rest)). Qed.

(** `[1,2]` and `[1,x]` have the first three characters in common, and the error ends at 3. *)
Example C95_edit_example : looks_ahead std_ext numbers_syntax 3 /\ firstn 3 (s2l "[1,x]") = firstn 3 (s2l "[1,2]") /\
  (exists tokens, parse_returns std_ext numbers_syntax (s2l "[1,2]") [] indent_default None tokens) /\
  exists tokens, parse_returns std_ext numbers_syntax (s2l "[1,x]") [] indent_default (Some (Rng 3 0, ExpectedNumber 2%N)) tokens.
Proof.
  split; [apply looks_ahead_check; [reflexivity|auto]|]. split; [reflexivity|]. split; eexists; exists 100; vm_compute; reflexivity.
Qed.

(** Laws for rewriting the rules of a syntax. *)
From Coq Require Import List NArith Bool Arith.
From Verif Require Import Base Ext Types.
Import ListNotations.

(** Rules that never fail, whatever the text. *)
Inductive cannot_fail (refs : list rule) : rule -> Prop :=
| cannot_fail_white : forall id, cannot_fail refs (RWhitespace true id)
| cannot_fail_until : forall any property id, cannot_fail refs (RUntilAny any true property id)
| cannot_fail_until_ws : forall any property id, cannot_fail refs (RUntilAnyOrWs any true property id)
| cannot_fail_optional : forall r id, cannot_fail refs (ROptional r id)
| cannot_fail_repeat : forall r id, cannot_fail refs (RRepeat r true id)
| cannot_fail_separate : forall r by_ id, cannot_fail refs (RSeparateBy r by_ true true id)
| cannot_fail_sequence : forall args id,
    (forall r, In r args -> cannot_fail refs r) -> cannot_fail refs (RSequence args id)
| cannot_fail_select : forall args r id,
    In r args -> cannot_fail refs r -> cannot_fail refs (RSelect args id)
| cannot_fail_node : forall name property k id r,
    nth_error refs k = Some r -> cannot_fail refs r -> cannot_fail refs (RNode name property (Some k) id).

(** Two rules that may replace each other, in a syntax with the rules [refs]. *)
Inductive law (refs : list rule) : rule -> rule -> Prop :=
| law_refl : forall r, law refs r r
| law_sym : forall r r', law refs r r' -> law refs r' r
| law_trans : forall r r' r'', law refs r r' -> law refs r' r'' -> law refs r r''
(** A reference without property is the rule it refers to. *)
| law_inline : forall name k id r, nth_error refs k = Some r -> law refs (RNode name None (Some k) id) r
(** A single rule needs no sequence and no select. *)
| law_sequence_one : forall r id, law refs (RSequence [r] id) r
| law_select_one : forall r id, law refs (RSelect [r] id) r
(** Grouping does not matter. *)
| law_sequence_flat : forall a b c i j,
    law refs (RSequence (a ++ RSequence b i :: c) j) (RSequence (a ++ b ++ c) j)
| law_select_flat : forall a b c i j, b <> [] ->
    law refs (RSelect (a ++ RSelect b i :: c) j) (RSelect (a ++ b ++ c) j)
(** What cannot fail need not be optional, and what follows it in a select is never tried. *)
| law_optional : forall r id, cannot_fail refs r -> law refs (ROptional r id) r
| law_select_end : forall a r b j, cannot_fail refs r ->
    law refs (RSelect (a ++ r :: b) j) (RSelect (a ++ [r]) j)
(** A part may be replaced. *)
| law_in_sequence : forall r r' a b id, law refs r r' ->
    law refs (RSequence (a ++ r :: b) id) (RSequence (a ++ r' :: b) id)
| law_in_select : forall r r' a b id, law refs r r' ->
    law refs (RSelect (a ++ r :: b) id) (RSelect (a ++ r' :: b) id)
| law_in_repeat : forall r r' optional id, law refs r r' ->
    law refs (RRepeat r optional id) (RRepeat r' optional id)
| law_in_separate : forall r r' by_ by_' optional trail id, law refs r r' -> law refs by_ by_' ->
    law refs (RSeparateBy r by_ optional trail id) (RSeparateBy r' by_' optional trail id)
| law_in_lines : forall r r' indented id, law refs r r' ->
    law refs (RLines r indented id) (RLines r' indented id)
| law_in_optional : forall r r' id, law refs r r' -> law refs (ROptional r id) (ROptional r' id)
| law_in_not : forall r r' id, law refs r r' -> law refs (RNot r id) (RNot r' id).

(** The order of alternatives that start differently. *)
From Coq Require Import List NArith Bool Arith.
From Verif Require Import Base Ext Types PegSpec.
Import ListNotations.

(** A text starts with a character of some kind. *)
Definition starts_by (P : char -> bool) (s : str) : Prop := exists c rest, s = c :: rest /\ P c = true.

(** [begins E refs P r]: what the rule [r] reads begins with a character of the kind [P]. *)
Inductive begins (E : ext) (refs : list rule) (P : char -> bool) : rule -> Prop :=
| begins_white : forall id, (forall c, white c -> P c = true) -> begins E refs P (RWhitespace false id)
| begins_tag : forall c t inverted property id, P c = true -> begins E refs P (RTag (c :: t) false inverted property id)
| begins_until : forall any property id, (forall c, ~ In c any -> P c = true) -> begins E refs P (RUntilAny any false property id)
| begins_until_ws : forall any property id, (forall c, ~ white c -> ~ In c any -> P c = true) ->
    begins E refs P (RUntilAnyOrWs any false property id)
| begins_text : forall empty property id, P quote = true -> begins E refs P (RText empty property id)
| begins_number : forall underscore property id, (forall s n, x_number E underscore s = Some n -> starts_by P s) ->
    begins E refs P (RNumber underscore property id)
| begins_sequence : forall r rest id, begins E refs P r -> begins E refs P (RSequence (r :: rest) id)
| begins_select : forall args id, (forall r, In r args -> begins E refs P r) -> begins E refs P (RSelect args id)
| begins_repeat : forall r id, begins E refs P r -> begins E refs P (RRepeat r false id)
| begins_separate : forall r by_ trail id, begins E refs P r -> begins E refs P (RSeparateBy r by_ false trail id)
| begins_node : forall name property i id r, nth_error refs i = Some r -> begins E refs P r ->
    begins E refs P (RNode name property (Some i) id).

(** No text begins like both. *)
Definition apart (E : ext) (refs : list rule) (a b : rule) : Prop :=
  exists P Q, begins E refs P a /\ begins E refs Q b /\ forall c, P c = true -> Q c = true -> False.

Section Reordered.
  Variable E : ext.
  Variable refs : list rule.

  (** Alternatives next to each other that are apart are swapped, anywhere in a rule. *)
  Inductive reordered : rule -> rule -> Prop :=
  | order_same : forall r, reordered r r
  | order_select : forall args args' id, swapped args args' -> reordered (RSelect args id) (RSelect args' id)
  | order_sequence : forall args args' id, reordered_all args args' -> reordered (RSequence args id) (RSequence args' id)
  | order_repeat : forall r r' optional id, reordered r r' -> reordered (RRepeat r optional id) (RRepeat r' optional id)
  | order_separate : forall r r' b b' optional trail id, reordered r r' -> reordered b b' ->
      reordered (RSeparateBy r b optional trail id) (RSeparateBy r' b' optional trail id)
  | order_lines : forall r r' indented id, reordered r r' -> reordered (RLines r indented id) (RLines r' indented id)
  | order_optional : forall r r' id, reordered r r' -> reordered (ROptional r id) (ROptional r' id)
  | order_not : forall r r' id, reordered r r' -> reordered (RNot r id) (RNot r' id)

  with reordered_all : list rule -> list rule -> Prop :=
  | order_nil : reordered_all [] []
  | order_cons : forall r r' rest rest', reordered r r' -> reordered_all rest rest' ->
      reordered_all (r :: rest) (r' :: rest')

  with swapped : list rule -> list rule -> Prop :=
  | swap_end : swapped [] []
  | swap_keep : forall r r' rest rest', reordered r r' -> swapped rest rest' -> swapped (r :: rest) (r' :: rest')
  | swap_two : forall a a' b b' rest rest', apart E refs a b -> reordered a a' -> reordered b b' -> swapped rest rest' ->
      swapped (a :: b :: rest) (b' :: a' :: rest').
End Reordered.

(** Any number of swaps. *)
Inductive reordered_syntax (E : ext) : syntax -> syntax -> Prop :=
| reorder_none : forall s, reordered_syntax E s s
| reorder_step : forall s s1 s', Forall2 (reordered E (s_rules s)) (s_rules s) (s_rules s1) ->
    reordered_syntax E s1 s' -> reordered_syntax E s s'.

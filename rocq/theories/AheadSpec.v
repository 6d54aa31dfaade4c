(** How far ahead a syntax looks, and texts that are the same up to there. *)
From Coq Require Import List NArith Bool Arith.
From Verif Require Import Base Ext Types PegSpec DataSpec.
Import ListNotations.

(** [looks refs r k]: the rule [r] reads, and looks at, at most [k] characters. *)
Inductive looks (refs : list rule) : rule -> nat -> Prop :=
| looks_tag : forall t not inverted property id k, length t <= k -> looks refs (RTag t not inverted property id) k
| looks_sequence : forall args id k, looks_all refs args k -> looks refs (RSequence args id) k
| looks_select : forall args id k, (forall r, In r args -> looks refs r k) -> looks refs (RSelect args id) k
| looks_optional : forall r id k, looks refs r k -> looks refs (ROptional r id) k
| looks_not : forall r id k, looks refs r k -> looks refs (RNot r id) k
| looks_node : forall name property i id r k, nth_error refs i = Some r -> looks refs r k ->
    looks refs (RNode name property (Some i) id) k

with looks_all (refs : list rule) : list rule -> nat -> Prop :=
| looks_nil : forall k, looks_all refs [] k
| looks_cons : forall r rest k m, looks refs r k -> looks_all refs rest m -> looks_all refs (r :: rest) (k + m).

(** Whether a number starts the text is seen from its first [k] characters, and where it ends from the next one. *)
Definition numbers_within (E : ext) (k : nat) : Prop := forall underscore s s',
  match x_number E underscore s with
  | Some n => firstn (n + 1) s' = firstn (n + 1) s -> x_number E underscore s' = Some n
  | None => firstn k s' = firstn k s -> x_number E underscore s' = None
  end.

(** A missing line break is reported in the white space. *)
Definition breaks_within (E : ext) : Prop := forall s s' w, longest white s w -> firstn (w + 1) s' = firstn (w + 1) s ->
  x_lines_err E s' = x_lines_err E s.

(** Tokens and negated rules of the syntax look at most [k] characters ahead. *)
Record looks_ahead (E : ext) (s : syntax) (k : nat) : Prop := {
  la_some : 1 <= k;
  la_tags : forall t not inverted property id, occurs s (RTag t not inverted property id) -> length t <= k;
  la_not : forall r id, occurs s (RNot r id) -> looks (s_rules s) r k;
  la_numbers : forall underscore property id, occurs s (RNumber underscore property id) -> numbers_within E k;
  la_lines : forall r indented id, occurs s (RLines r indented id) -> breaks_within E
}.

(** The texts are the same up to the place [q] and [k] characters further. If the syntax has rules for lines, also up to
    something behind that is no white space; if it has rules for string literals, the literals that begin up to [q] are the
    same. *)
Record same_up_to (E : ext) (s : syntax) (k q : nat) (text text' : str) : Prop := {
  su_front : firstn (q + k) text' = firstn (q + k) text;
  su_lines : forall r indented id, occurs s (RLines r indented id) ->
    exists j c, q <= j /\ nth_error text j = Some c /\ ~ white c /\ firstn (j + 1) text' = firstn (j + 1) text;
  su_texts : forall empty property id, occurs s (RText empty property id) -> forall p, p <= q ->
    x_string E (skipn p text') = x_string E (skipn p text) /\
    forall n, x_string E (skipn p text) = Some n -> firstn n (skipn p text') = firstn n (skipn p text)
}.

(** Alternatives that are never chosen. *)
From Coq Require Import List NArith Bool Arith.
From Verif Require Import Base Ext Types PegSpec LawSpec.
Import ListNotations.

Section Dead.
  Variable refs : list rule.

  (** [covers c r]: where the alternative [c] fails, [r] does not succeed either. *)
  Inductive covers : rule -> rule -> Prop :=
  | cov_same : forall r, covers r r
  | cov_never_fails : forall c r, cannot_fail refs c -> covers c r
  (** A token covers the longer tokens that start with it; for forbidden tokens it is the other way around. *)
  | cov_tag : forall t more inverted inverted' property property' id id',
      covers (RTag t false inverted property id) (RTag (t ++ more) false inverted' property' id')
  | cov_not_tag : forall t more inverted inverted' property property' id id',
      covers (RTag (t ++ more) true inverted property id) (RTag t true inverted' property' id')
  | cov_white : forall optional optional' id id', optional = true \/ optional' = false ->
      covers (RWhitespace optional id) (RWhitespace optional' id')
  | cov_text : forall empty empty' property property' id id', empty = true \/ empty' = false ->
      covers (RText empty property id) (RText empty' property' id')
  | cov_number : forall underscore property property' id id',
      covers (RNumber underscore property id) (RNumber underscore property' id')
  (** Text up to fewer characters covers text up to more, and a token that starts like it. *)
  | cov_until : forall any any' property property' id id', incl any any' ->
      covers (RUntilAny any false property id) (RUntilAny any' false property' id')
  | cov_until_ws : forall any any' property property' id id', incl any any' ->
      covers (RUntilAny any false property id) (RUntilAnyOrWs any' false property' id')
  | cov_ws_until_ws : forall any any' property property' id id', incl any any' ->
      covers (RUntilAnyOrWs any false property id) (RUntilAnyOrWs any' false property' id')
  | cov_until_tag : forall any c t inverted property property' id id', ~ In c any ->
      covers (RUntilAny any false property id) (RTag (c :: t) false inverted property' id')
  | cov_until_ws_tag : forall any c t inverted property property' id id', ~ white c -> ~ In c any ->
      covers (RUntilAnyOrWs any false property id) (RTag (c :: t) false inverted property' id')
  (** What is read at the start of the alternative is covered. *)
  | cov_sequence : forall c r rest id, covers c r -> covers c (RSequence (r :: rest) id)
  | cov_repeat : forall c r id, covers c r -> covers c (RRepeat r false id)
  | cov_separate : forall c r by_ trail id, covers c r -> covers c (RSeparateBy r by_ false trail id)
  | cov_node : forall c r name property i id, nth_error refs i = Some r -> covers c r ->
      covers c (RNode name property (Some i) id)
  | cov_select : forall c args id, (forall r, In r args -> covers c r) -> covers c (RSelect args id)
  (** The earlier alternative is one of several, or repeated, or a reference. *)
  | cov_one_of : forall c args id r, In c args -> covers c r -> covers (RSelect args id) r
  | cov_repeated : forall c id r, covers c r -> covers (RRepeat c false id) r
  | cov_referred : forall c name property i id r, nth_error refs i = Some c -> covers c r ->
      covers (RNode name property (Some i) id) r.

  (** Alternatives that are covered by earlier ones are dropped, anywhere in a rule. *)
  Inductive trimmed : rule -> rule -> Prop :=
  | trim_same : forall r, trimmed r r
  | trim_select : forall args args' id, trimmed_from [] args args' -> trimmed (RSelect args id) (RSelect args' id)
  | trim_sequence : forall args args' id, trimmed_all args args' -> trimmed (RSequence args id) (RSequence args' id)
  | trim_repeat : forall r r' optional id, trimmed r r' -> trimmed (RRepeat r optional id) (RRepeat r' optional id)
  | trim_separate : forall r r' b b' optional trail id, trimmed r r' -> trimmed b b' ->
      trimmed (RSeparateBy r b optional trail id) (RSeparateBy r' b' optional trail id)
  | trim_lines : forall r r' indented id, trimmed r r' -> trimmed (RLines r indented id) (RLines r' indented id)
  | trim_optional : forall r r' id, trimmed r r' -> trimmed (ROptional r id) (ROptional r' id)
  | trim_not : forall r r' id, trimmed r r' -> trimmed (RNot r id) (RNot r' id)

  with trimmed_all : list rule -> list rule -> Prop :=
  | trim_nil : trimmed_all [] []
  | trim_cons : forall r r' rest rest', trimmed r r' -> trimmed_all rest rest' -> trimmed_all (r :: rest) (r' :: rest')

  (** [earlier]: the alternatives in front. *)
  with trimmed_from : list rule -> list rule -> list rule -> Prop :=
  | trim_end : forall earlier, trimmed_from earlier [] []
  | trim_keep : forall earlier r r' rest rest', trimmed r r' -> trimmed_from (earlier ++ [r]) rest rest' ->
      trimmed_from earlier (r :: rest) (r' :: rest')
  | trim_drop : forall earlier c r rest rest', In c earlier -> covers c r -> trimmed_from earlier rest rest' ->
      trimmed_from earlier (r :: rest) rest'.
End Dead.

Definition trimmed_syntax (s s' : syntax) : Prop := Forall2 (trimmed (s_rules s)) (s_rules s) (s_rules s').

(** Syntaxes that allow more: further alternatives, optional parts, repetitions, definitions. *)
From Coq Require Import List NArith Bool.
From Verif Require Import Base Types PegSpec.
Import ListNotations.

(** Rules that may be left out without a trace. *)
Inductive omissible : rule -> Prop :=
| om_whitespace : forall id, omissible (RWhitespace true id)
| om_optional : forall r id, omissible (ROptional r id)
| om_repeat : forall r id, omissible (RRepeat r true id)
| om_separate : forall r by_ trail id, omissible (RSeparateBy r by_ true trail id).

Section Extends.
  (** The new place of each definition. *)
  Variable place : nat -> nat.

  Notation allows a b := (a = true -> b = true).

  (** Rules of the same kind. *)
  Inductive loosens : rule -> rule -> Prop :=
  | lo_whitespace : forall o o' id id', allows o o' -> loosens (RWhitespace o id) (RWhitespace o' id')
  | lo_tag : forall text not inverted property id id',
      loosens (RTag text not inverted property id) (RTag text not inverted property id')
  | lo_until : forall any any' o o' property id id', incl any' any -> allows o o' ->
      loosens (RUntilAny any o property id) (RUntilAny any' o' property id')
  | lo_until_ws : forall any any' o o' property id id', incl any' any -> allows o o' ->
      loosens (RUntilAnyOrWs any o property id) (RUntilAnyOrWs any' o' property id')
  (** also up to white space no longer *)
  | lo_until_more : forall any any' o o' property id id', incl any' any -> allows o o' ->
      loosens (RUntilAnyOrWs any o property id) (RUntilAny any' o' property id')
  | lo_text : forall e e' property id id', allows e e' -> loosens (RText e property id) (RText e' property id')
  | lo_number : forall u property id id', loosens (RNumber u property id) (RNumber u property id')
  | lo_sequence : forall args args' id id', extends_all args args' -> loosens (RSequence args id) (RSequence args' id')
  | lo_select : forall args args' id id', extends_each args args' -> loosens (RSelect args id) (RSelect args' id')
  | lo_fast : forall table args tail args' id id', extends_each args args' ->
      loosens (RFastSelect table args tail id) (RSelect args' id')
  | lo_repeat : forall r r' o o' id id', extends r r' -> allows o o' -> loosens (RRepeat r o id) (RRepeat r' o' id')
  | lo_separate : forall r r' by_ by_' o o' trail trail' id id', extends r r' -> extends by_ by_' ->
      allows o o' -> allows trail trail' ->
      loosens (RSeparateBy r by_ o trail id) (RSeparateBy r' by_' o' trail' id')
  | lo_node : forall name name' property i id id',
      loosens (RNode name property (Some i) id) (RNode name' property (Some (place i)) id')
  | lo_optional : forall r r' id id', extends r r' -> loosens (ROptional r id) (ROptional r' id')
  | lo_not : forall r r' id id', loosens (RNot r id) (RNot r' id')

  (** Or the rule as one alternative, as optional, or as one of many. *)
  with extends : rule -> rule -> Prop :=
  | ex_kind : forall r r', loosens r r' -> extends r r'
  | ex_choice : forall r r' args id, extends r r' -> In r' args -> extends r (RSelect args id)
  | ex_optional : forall r r' id, extends r r' -> extends r (ROptional r' id)
  | ex_repeat : forall r r' o id, extends r r' -> extends r (RRepeat r' o id)
  | ex_separate : forall r r' by_ o trail id, extends r r' -> extends r (RSeparateBy r' by_ o trail id)

  (** One by one, with rules in between that may be left out. *)
  with extends_all : list rule -> list rule -> Prop :=
  | ex_nil : extends_all [] []
  | ex_cons : forall r r' rest rest', extends r r' -> extends_all rest rest' -> extends_all (r :: rest) (r' :: rest')
  | ex_more : forall r args args', omissible r -> extends_all args args' -> extends_all args (r :: args')

  (** Each rule of the first list has an extension in the second. *)
  with extends_each : list rule -> list rule -> Prop :=
  | ex_none : forall args, extends_each [] args
  | ex_one : forall r r' rest args, extends r r' -> In r' args -> extends_each rest args -> extends_each (r :: rest) args.
End Extends.

(** Each definition is extended by the one at its new place, and the start rule by the new start rule. *)
Definition extends_syntax (s s' : syntax) : Prop := exists place,
  (forall i r, nth_error (s_rules s) i = Some r ->
    exists r', nth_error (s_rules s') (place i) = Some r' /\ extends place r r') /\
  forall r, start_rule s r -> exists r', start_rule s' r' /\ extends place r r'.

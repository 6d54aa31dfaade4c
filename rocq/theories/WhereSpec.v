(** Which rule in the text of a syntax the number of an error leads to. *)
From Coq Require Import List NArith Bool Arith.
From Verif Require Import Base Ext Types.
Import ListNotations.

(** The rules of a rule in the order in which their texts end: what stands inside before what
    stands around it, otherwise from left to right. A separator is written before what it
    separates. *)
Fixpoint rules_in_order (r : rule) : list rule :=
  match r with
  | RSelect args _ | RFastSelect _ args _ _ | RSequence args _ => flat_map rules_in_order args ++ [r]
  | RSeparateBy a by_ _ _ _ => rules_in_order by_ ++ rules_in_order a ++ [r]
  | RRepeat a _ _ | RLines a _ _ | ROptional a _ | RNot a _ => rules_in_order a ++ [r]
  | RWhitespace _ _ | RTag _ _ _ _ _ | RUntilAny _ _ _ _ | RUntilAnyOrWs _ _ _ _
  | RText _ _ _ | RNumber _ _ _ | RNode _ _ _ _ => [r]
  end.

(** The number in the message of an error. *)
Definition error_number (e : parse_error) : option debug_id :=
  match e with
  | ExpectedWhitespace id | ExpectedNewLine id | ExpectedSomething id | ExpectedNumber id
  | ParseNumberError id | ExpectedTag _ id | DidNotExpectTag _ id | ExpectedText id
  | EmptyTextNotAllowed id | ParseStringError _ id | InvalidRule _ id => Some id
  | NoRules | ExpectedEnd | Conversion _ => None
  end.

(** [complains names r e]: the rule [r], as it is written in a syntax with nodes of these
    names, has something to say like [e], whatever its debug id. *)
Inductive complains (names : list str) : rule -> parse_error -> Prop :=
| complains_whitespace : forall i d, complains names (RWhitespace false i) (ExpectedWhitespace d)
| complains_tag : forall t v p i d, complains names (RTag t false v p i) (ExpectedTag t d)
| complains_no_tag : forall t v p i d, complains names (RTag t true v p i) (DidNotExpectTag t d)
| complains_until : forall any p i d, complains names (RUntilAny any false p i) (ExpectedSomething d)
| complains_until_ws : forall any p i d, complains names (RUntilAnyOrWs any false p i) (ExpectedSomething d)
| complains_text : forall b p i d, complains names (RText b p i) (ExpectedText d)
| complains_empty : forall p i d, complains names (RText false p i) (EmptyTextNotAllowed d)
| complains_bad_text : forall b p i x d, complains names (RText b p i) (ParseStringError x d)
| complains_number : forall u p i d, complains names (RNumber u p i) (ExpectedNumber d)
| complains_bad_number : forall u p i d, complains names (RNumber u p i) (ParseNumberError d)
| complains_select : forall args i d, complains names (RSelect args i) (ExpectedSomething d)
| complains_lines : forall r b i d, complains names (RLines r b i) (ExpectedNewLine d)
| complains_not : forall r i t d, complains names (RNot r i) (DidNotExpectTag t d)
| complains_undefined : forall n p i d, ~ In n names ->
    complains names (RNode n p None i) (InvalidRule NodeNotUpdated d).

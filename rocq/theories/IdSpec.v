(** Rules, errors and syntaxes that differ only in their debug ids. *)
From Coq Require Import List NArith Bool Arith.
From Verif Require Import Base Ext Types DataSpec.
Import ListNotations.

Section Like.
  (** How the debug ids are related. *)
  Variable R : debug_id -> debug_id -> Prop.

  Inductive like_rule : rule -> rule -> Prop :=
  | like_whitespace : forall o i j, R i j -> like_rule (RWhitespace o i) (RWhitespace o j)
  | like_tag : forall t n v p i j, R i j -> like_rule (RTag t n v p i) (RTag t n v p j)
  | like_until : forall a o p i j, R i j -> like_rule (RUntilAny a o p i) (RUntilAny a o p j)
  | like_until_ws : forall a o p i j,
      R i j -> like_rule (RUntilAnyOrWs a o p i) (RUntilAnyOrWs a o p j)
  | like_text : forall e p i j, R i j -> like_rule (RText e p i) (RText e p j)
  | like_number : forall u p i j, R i j -> like_rule (RNumber u p i) (RNumber u p j)
  | like_select : forall a b i j,
      R i j -> Forall2 like_rule a b -> like_rule (RSelect a i) (RSelect b j)
  | like_fast_select : forall t a b l i j,
      R i j -> Forall2 like_rule a b -> like_rule (RFastSelect t a l i) (RFastSelect t b l j)
  | like_sequence : forall a b i j,
      R i j -> Forall2 like_rule a b -> like_rule (RSequence a i) (RSequence b j)
  | like_separate_by : forall a b a' b' o t i j,
      R i j -> like_rule a b -> like_rule a' b' ->
      like_rule (RSeparateBy a a' o t i) (RSeparateBy b b' o t j)
  | like_repeat : forall a b o i j,
      R i j -> like_rule a b -> like_rule (RRepeat a o i) (RRepeat b o j)
  | like_lines : forall a b d i j,
      R i j -> like_rule a b -> like_rule (RLines a d i) (RLines b d j)
  | like_node : forall n p k i j, R i j -> like_rule (RNode n p k i) (RNode n p k j)
  | like_optional : forall a b i j,
      R i j -> like_rule a b -> like_rule (ROptional a i) (ROptional b j)
  | like_not : forall a b i j, R i j -> like_rule a b -> like_rule (RNot a i) (RNot b j).

  Inductive like_error : parse_error -> parse_error -> Prop :=
  | like_expected_whitespace : forall i j,
      R i j -> like_error (ExpectedWhitespace i) (ExpectedWhitespace j)
  | like_expected_new_line : forall i j,
      R i j -> like_error (ExpectedNewLine i) (ExpectedNewLine j)
  | like_expected_something : forall i j,
      R i j -> like_error (ExpectedSomething i) (ExpectedSomething j)
  | like_expected_number : forall i j, R i j -> like_error (ExpectedNumber i) (ExpectedNumber j)
  | like_parse_number : forall i j, R i j -> like_error (ParseNumberError i) (ParseNumberError j)
  | like_expected_text : forall i j, R i j -> like_error (ExpectedText i) (ExpectedText j)
  | like_empty_text : forall i j,
      R i j -> like_error (EmptyTextNotAllowed i) (EmptyTextNotAllowed j)
  | like_parse_string : forall e i j,
      R i j -> like_error (ParseStringError e i) (ParseStringError e j)
  | like_expected_tag : forall t i j, R i j -> like_error (ExpectedTag t i) (ExpectedTag t j)
  | like_did_not_expect : forall t i j,
      R i j -> like_error (DidNotExpectTag t i) (DidNotExpectTag t j)
  | like_invalid_rule : forall m i j, R i j -> like_error (InvalidRule m i) (InvalidRule m j)
  | like_no_rules : like_error NoRules NoRules
  | like_expected_end : like_error ExpectedEnd ExpectedEnd
  | like_conversion : forall m, like_error (Conversion m) (Conversion m).

  (** The same range. *)
  Definition like_perr (e e' : perr) : Prop :=
    fst e = fst e' /\ like_error (snd e) (snd e').

  Definition like_result (a b : option perr) : Prop :=
    match a, b with
    | None, None => True
    | Some e, Some e' => like_perr e e'
    | _, _ => False
    end.
End Like.

(** Any two ids. *)
Definition any_ids (i j : debug_id) : Prop := True.

(** No indented lines rule occurs in the syntax. *)
Definition no_indented_lines (s : syntax) : Prop :=
  forall r id, ~ occurs s (RLines r true id).

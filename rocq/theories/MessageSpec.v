(** What the messages of errors tell. *)
From Coq Require Import Ascii String List NArith Bool Arith.
From Verif Require Import Base Ext Types.
Import ListNotations.
Local Open Scope list_scope.

(** A number in decimal notation, without leading zeros. *)
Definition digit (c : char) : Prop := (48 <= c <= 57)%N.
Definition number_of (s : str) : N := fold_left (fun a c => (10 * a + (c - 48))%N) s 0%N.
Definition decimal (n : N) (s : str) : Prop :=
  s <> [] /\ Forall digit s /\ number_of s = n /\ (forall s', s = 48%N :: s' -> s' = []).

(** The rule that is to blame for an error. *)
Definition blames (e : parse_error) : option debug_id :=
  match e with
  | ExpectedWhitespace id | ExpectedNewLine id | ExpectedSomething id | ExpectedNumber id
  | ParseNumberError id | ExpectedText id | EmptyTextNotAllowed id | ParseStringError _ id
  | ExpectedTag _ id | DidNotExpectTag _ id | InvalidRule _ id => Some id
  | NoRules | ExpectedEnd | Conversion _ => None
  end.

(** Different errors of string literals have different messages. *)
Definition string_errors_differ (E : ext) : Prop :=
  forall a b, x_fmt_string_error E a = x_fmt_string_error E b -> a = b.

(** A token or message over several lines makes a message over several lines. *)
Definition one_line (E : ext) (e : parse_error) : Prop :=
  match e with
  | ExpectedTag t _ | DidNotExpectTag t _ | Conversion t => ~ In newline t
  | ParseStringError x _ => ~ In newline (x_fmt_string_error E x)
  | ParseNumberError _ => ~ In newline (x_fmt_number_error E)
  | _ => True
  end.

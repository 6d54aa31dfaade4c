(** What an error says: what stands at its place, and what could stand there instead. *)
From Coq Require Import List NArith.
From Verif Require Import Base Ext Types PegSpec DataSpec TotalSpec GrammarSpec ViableSpec.
Import ListNotations.

Definition string_literal (E : ext) (x : str) : Prop :=
  exists rest val, x_string E (x ++ rest) = Some (length x) /\ x_parse_string E x = inl val.
Definition number_literal (E : ext) (underscore : bool) (x : str) : Prop :=
  exists rest val, x_number E underscore (x ++ rest) = Some (length x) /\ x_parse_number E underscore x = Some val.

(** The error is right about the text [rest] at its place, and [z] is as it demands. *)
Definition demands (E : ext) (e : parse_error) (rest z : str) : Prop :=
  match e with
  | ExpectedTag text _ => ~ starts_with rest text /\ z = text
  | DidNotExpectTag text _ => starts_with rest text /\ z = []
  | ExpectedWhitespace _ => longest white rest 0 /\ Forall white z /\ z <> []
  | ExpectedSomething _ => z <> []
  | ExpectedText _ => x_string E rest = None /\ string_literal E z
  | EmptyTextNotAllowed _ => x_string E rest = Some 2 /\ string_literal E z /\ length z <> 2
  | ParseStringError _ _ =>
      (exists n bad, x_string E rest = Some n /\ x_parse_string E (firstn n rest) = inr bad) /\ string_literal E z
  | ExpectedNumber _ => exists underscore, x_number E underscore rest = None /\ number_literal E underscore z
  | ParseNumberError _ => exists underscore n, x_number E underscore rest = Some n /\
      x_parse_number E underscore (firstn n rest) = None /\ number_literal E underscore z
  | ExpectedEnd => rest <> [] /\ z = []
  | ExpectedNewLine _ | InvalidRule _ _ | NoRules | Conversion _ => False
  end.

(** A fast select, which demands something at the end of the text, can read something. *)
Definition fast_reads_something (E : ext) (s : syntax) : Prop := forall table args tail id,
  occurs s (RFastSelect table args tail id) ->
  exists x ms, x <> [] /\ Forall real_char x /\ generates E (s_rules s) (RFastSelect table args tail id) x ms.

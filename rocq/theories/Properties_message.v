(** C92: an error message tells the error and its rule; a report also tells the place. *)
From Coq Require Import Ascii String List NArith Bool Arith Lia.
From Verif Require Import Base Ext Types HandlerModel LibModel PegSpec ApiSpec ReportSpec ExtProofs MessageSpec MessageProofs.
Import ListNotations.
Local Open Scope string_scope.
Local Open Scope list_scope.
Local Open Scope nat_scope.

(** The message of an error with a rule to blame starts with its number, in decimal. *)
Theorem C92_number : forall E e id, blames e = Some id ->
  exists s rest, decimal id s /\ fmt_error E e = s2l "#" ++ s ++ s2l ", " ++ rest.
Proof. exact message_number. Qed.
Print Assumptions C92_number.

Theorem C92_no_number : forall E e, blames e = None -> forall rest, fmt_error E e <> s2l "#" ++ rest.
Proof. exact message_no_number. Qed.
Print Assumptions C92_no_number.

(** Different errors have different messages. *)
Theorem C92_message : forall E e e', string_errors_differ E -> fmt_error E e = fmt_error E e' -> e = e'.
Proof. exact message_inj. Qed.
Print Assumptions C92_message.

Theorem C92_std : string_errors_differ std_ext.
Proof. exact std_strings_differ. Qed.
Print Assumptions C92_std.

(** Reports on one text differ unless the error and the offset where it starts are the same. *)
Theorem C92_report : forall E text e e' out, string_errors_differ E ->
  r_off (fst e) <= length text -> r_off (fst e') <= length text -> one_line E (snd e) -> one_line E (snd e') ->
  error_report E text e = Done out -> error_report E text e' = Done out ->
  snd e = snd e' /\ r_off (fst e) = r_off (fst e').
Proof. exact report_inj. Qed.
Print Assumptions C92_report.

(** So do the reports on a text that any two syntaxes reject. *)
Theorem C92_parse : forall E, ext_ok E -> string_errors_differ E ->
  forall s s' text tokens tokens' ind ind' w t t' e e',
  errstr_returns E s text tokens ind (Some w) t -> errstr_returns E s' text tokens' ind' (Some w) t' ->
  parse_returns E s text tokens ind (Some e) t -> parse_returns E s' text tokens' ind' (Some e') t' ->
  one_line E (snd e) -> one_line E (snd e') ->
  snd e = snd e' /\ r_off (fst e) = r_off (fst e').
Proof. exact same_reports. Qed.
Print Assumptions C92_parse.

Example C92_example : decimal 4003%N (s2l "4003") /\
  fmt_error std_ext (ExpectedTag (s2l ";") 4003%N) = s2l "#4003, Expected: `;`" /\
  one_line std_ext (ExpectedTag (s2l ";") 4003%N) /\
  error_report std_ext (s2l "a = b") (Rng 5 0, ExpectedTag (s2l ";") 4003%N) =
    Done (s2l "Error #4003, Expected: `;`" ++ [newline] ++ s2l "1,6: a = b" ++ [newline] ++ s2l "1,6:      ^" ++ [newline]).
Proof. exact message_example. Qed.

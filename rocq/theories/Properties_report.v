(** C38, C39, C43: reporting errors. *)
From Coq Require Import Ascii String List NArith Bool Arith.
From Verif Require Import Base Ext Types ParseModel PegSpec HandlerModel LibModel ApiSpec
  ReportSpec ReportProofs WrapProofs Examples.
Import ListNotations.
Local Open Scope string_scope.
Local Open Scope list_scope.
Local Open Scope nat_scope.

(** ** C38: error report location. *)

(** Every position of a text lies in a line, so this covers every range that starts in an
    ASCII text. *)
Theorem C38_location : forall E text prefix line suffix e,
  Forall ascii text -> line_of text prefix line suffix ->
  length prefix <= r_off (fst e) <= length prefix + length line ->
  exists out, error_report E text e = Done out /\
    points_at E (@length char) e prefix line suffix out.
Proof. exact report_points_ascii. Qed.
Print Assumptions C38_location.

Theorem C38_line_exists : forall text o, o <= length text ->
  exists prefix line suffix, line_of text prefix line suffix /\
    length prefix <= o <= length prefix + length line.
Proof. exact line_exists. Qed.
Print Assumptions C38_line_exists.

(** The caret stands below the character at which the range starts. *)
Theorem C38_caret : forall col line,
  length (padding col line) = Nat.min (col - window_start col) (length line - window_start col) /\
  col - window_start col <= 75 /\
  (col <= length line -> length (padding col line) = col - window_start col) /\
  nth_error (excerpt col line) (col - window_start col) = nth_error line col.
Proof. exact caret_place. Qed.
Print Assumptions C38_caret.

(** A range that starts behind the text is reported without a line. *)
Theorem C38_outside : forall E text e, byte_len text < r_off (fst e) ->
  error_report E text e = Done (s2l "Error " ++ fmt_error E (snd e) ++ [newline]).
Proof. exact report_outside. Qed.
Print Assumptions C38_outside.

Theorem C38_no_panic : forall E text e, exists more,
  error_report E text e = Done (s2l "Error " ++ fmt_error E (snd e) ++ [newline] ++ more).
Proof. exact report_returns. Qed.
Print Assumptions C38_no_panic.

Theorem C38_message_no_panic : forall lines rg msg, exists more,
  handler_write_msg lines rg msg = Done (msg ++ [newline] ++ more).
Proof. exact write_msg_returns. Qed.
Print Assumptions C38_message_no_panic.

(** Three lines; the range starts in the last but one and reaches the last. *)
Definition ex_prefix : str := tx "fn f()" ++ [newline] ++ [newline].
Definition ex_line : str := [tab] ++ tx "x = 2".
Definition ex_suffix : str := [newline] ++ tx "y" ++ [newline] ++ tx "z".

Example C38_example :
  Forall ascii (ex_prefix ++ ex_line ++ ex_suffix) /\
  line_of (ex_prefix ++ ex_line ++ ex_suffix) ex_prefix ex_line ex_suffix /\
  error_report std_ext (ex_prefix ++ ex_line ++ ex_suffix) (Rng 10 6, ExpectedTag (tx ";") 7%N)
  = Done (tx "Error #7, Expected: `;`" ++ [newline] ++
          tx "1: fn f()" ++ [newline] ++ tx "2: " ++ [newline] ++
          tx "3,3: " ++ ex_line ++ [newline] ++
          tx "3,3: " ++ [tab; space] ++ tx "^" ++ [newline] ++
          tx "4,1: y" ++ [newline]).
Proof.
  refine (conj _ (conj _ _)).
  - repeat (constructor; [reflexivity|]). constructor.
  - split; [reflexivity| | |].
    + right. exists (tx "fn f()" ++ [newline]). reflexivity.
    + vm_compute. intuition discriminate.
    + right. exists (tx "y" ++ [newline] ++ tx "z"). reflexivity.
  - vm_compute. reflexivity.
Qed.

(** ** C39: error report location with non-ASCII text. *)

(** The report is right for ranges in bytes, *)
Theorem C39_bytes : forall E text prefix line suffix e,
  line_of text prefix line suffix ->
  byte_len prefix <= r_off (fst e) <= byte_len prefix + byte_len line ->
  exists out, error_report E text e = Done out /\
    points_at E byte_len e prefix line suffix out.
Proof. exact report_points. Qed.
Print Assumptions C39_bytes.

(** but errors have ranges in characters: parsing the text below as a list of ["é"] and
    line breaks fails at the ["x"], at offset 3, and the report is not about the line of
    the ["x"]. *)
Theorem C39_location_refuted : exists s text e prefix line suffix out,
  parse_returns std_ext s text [] indent_default (Some e) [] /\
  errstr_returns std_ext s text [] indent_default (Some out) [] /\
  line_of text prefix line suffix /\
  length prefix <= r_off (fst e) <= length prefix + length line /\
  ~ points_at std_ext (@length char) e prefix line suffix out.
Proof. exact non_ascii_report. Qed.
Print Assumptions C39_location_refuted.

Example C39_example :
  error_report std_ext [233%N; newline; newline; 120%N] (Rng 3 1, ExpectedEnd)
  = Done (tx "Error Expected end" ++ [newline] ++ tx "2,1: " ++ [newline] ++
          tx "2,1: ^" ++ [newline] ++ tx "3,1: x" ++ [newline]).
Proof. vm_compute. reflexivity. Qed.

(** ** C43: parse_errstr agrees with parse. *)

Theorem C43_ok : forall E s text tokens ind tokens',
  errstr_returns E s text tokens ind None tokens' <->
  parse_returns E s text tokens ind None tokens'.
Proof. exact errstr_ok. Qed.
Print Assumptions C43_ok.

Theorem C43_err : forall E s text tokens ind w tokens',
  errstr_returns E s text tokens ind (Some w) tokens' <->
  exists e, parse_returns E s text tokens ind (Some e) tokens' /\ error_report E text e = Done w.
Proof. exact errstr_err. Qed.
Print Assumptions C43_err.

Theorem C43_message : forall E s text tokens ind e tokens',
  parse_returns E s text tokens ind (Some e) tokens' ->
  exists w, errstr_returns E s text tokens ind (Some w) tokens' /\
    starts_with w (s2l "Error " ++ fmt_error E (snd e) ++ [newline]).
Proof. exact errstr_message. Qed.
Print Assumptions C43_message.

Theorem C43_panic : forall E s text tokens ind,
  errstr_panics E s text tokens ind <-> parse_panics E s text tokens ind.
Proof. exact errstr_panic. Qed.
Print Assumptions C43_panic.

(** [parse_errstr] itself, which takes no indent settings, against [parse]. *)
Theorem C43_default : forall E s text tokens,
  (forall tokens',
    (exists fuel, parse_errstr E fuel s text tokens = Done (None, tokens')) <->
    (exists fuel, parse E fuel s text tokens = Done (None, tokens'))) /\
  (forall w tokens',
    (exists fuel, parse_errstr E fuel s text tokens = Done (Some w, tokens')) <->
    (exists e, (exists fuel, parse E fuel s text tokens = Done (Some e, tokens')) /\
       error_report E text e = Done w)) /\
  ((exists fuel, parse_errstr E fuel s text tokens = Panic) <->
   (exists fuel, parse E fuel s text tokens = Panic)).
Proof. exact errstr_default. Qed.
Print Assumptions C43_default.

Example C43_example : exists tokens,
  parse_errstr std_ext 100 ex_syntax ex_text [] = Done (None, tokens) /\ tokens <> [] /\
  exists w tokens', parse_errstr std_ext 100 ex_syntax ex_bad [] = Done (Some w, tokens') /\
    firstn 7 w = tx "Error #".
Proof.
  eexists. refine (conj _ (conj _ (ex_intro _ _ (ex_intro _ _ (conj _ _))))).
  - vm_compute. reflexivity.
  - discriminate.
  - vm_compute. reflexivity.
  - reflexivity.
Qed.

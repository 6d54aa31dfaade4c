(** C89: the rules of examples/key_value.rs read key-value files, and nothing else. *)
From Coq Require Import Ascii String List NArith Bool Arith Lia.
From Verif Require Import Base Ext Types ParseModel LibModel JsonModel PegSpec ApiSpec SyntaxSpec Examples ExtProofs KeySpec KeyProofs KeyPublic KeyExamples.
Import ListNotations.
Local Open Scope string_scope.
Local Open Scope list_scope.
Local Open Scope nat_scope.

(** A text is accepted exactly if it consists of entries, and gives exactly their data. *)
Theorem C89_files : forall E, ext_ok E -> solid_literals E -> forall s, rules_read std_ext key_value_rules (inl s) ->
  forall text tokens ind ds,
  (exists out, parse_returns E s text tokens ind None (tokens ++ out) /\ map snd out = ds) <->
  (exists ms, entries E text ms /\ concat ms = ds).
Proof. exact key_values. Qed.
Print Assumptions C89_files.

(** So it is with the optimised rules that [syntax] returns. *)
Theorem C89_optimised : forall E, ext_ok E -> solid_literals E -> forall s, syntax_returns std_ext key_value_rules (inl s) ->
  forall text tokens ind ds, Forall real_char text ->
  (exists out, parse_returns E s text tokens ind None (tokens ++ out) /\ map snd out = ds) <->
  (exists ms, entries E text ms /\ concat ms = ds).
Proof. exact key_values_optimised. Qed.
Print Assumptions C89_optimised.

(** A file stands for one thing only. *)
Theorem C89_one_meaning : forall E, ext_ok E -> solid_literals E -> forall text ms ms',
  entries E text ms -> entries E text ms' -> concat ms = concat ms'.
Proof. exact key_one_meaning. Qed.
Print Assumptions C89_one_meaning.

(** Keys and values written line by line are such a file, and stand for what was written. *)
Theorem C89_written : forall E pairs ms,
  Forall (fun kv => good_key (fst kv)) pairs -> Forall2 (fun kv m => prints E (snd kv) m) pairs ms ->
  exists items, entries E (concat (map print_pair pairs)) items /\
    concat items = concat (map (fun km => [MString (tx "key") (fst km); snd km]) (combine (map fst pairs) ms)).
Proof. exact key_write. Qed.
Print Assumptions C89_written.

(** Every string may be written: as [json::write_string] does. *)
Theorem C89_strings : forall v, prints std_ext (write_string v) (MString (tx "string") v).
Proof. exact print_string. Qed.
Print Assumptions C89_strings.

(** And every number. *)
Theorem C89_numbers : forall t v, x_number std_ext true t = Some (length t) -> x_parse_number std_ext true t = Some v ->
  prints std_ext t (MF64 (tx "number") v).
Proof. exact print_number. Qed.
Print Assumptions C89_numbers.

(** The condition on the literals is met. *)
Theorem C89_literals : ext_ok std_ext /\ solid_literals std_ext.
Proof. exact (conj std_ext_ok std_solid). Qed.
Print Assumptions C89_literals.

(** False: every word may be a value. Those that start like a number or a truth value are not. *)
Theorem C89_words_refuted : exists s, syntax_returns std_ext key_value_rules (inl s) /\
  forall w, In w [tx "1.2.3"; tx "2015-02-01"; tx "trueish"; tx "false_alarm"] ->
  Forall (fun c => ~ white c) w /\
  exists e tokens, parse_returns std_ext s (tx "a = " ++ w) [] indent_default (Some e) tokens.
Proof. exact words_rejected. Qed.
Print Assumptions C89_words_refuted.

(** False: a string without the closing quote is an error. *)
Theorem C89_quote_refuted : exists s tokens, syntax_returns std_ext key_value_rules (inl s) /\
  x_string std_ext (quote :: tx "Big") = None /\
  parse_returns std_ext s (tx "name = " ++ quote :: tx "Big") [] indent_default None tokens /\
  map snd tokens = [MString (tx "key") (tx "name"); MString (tx "value") (quote :: tx "Big")].
Proof. exact quote_word. Qed.
Print Assumptions C89_quote_refuted.

(** False: a missing value is an error. The next line is taken for it. *)
Theorem C89_missing_refuted : exists s tokens, syntax_returns std_ext key_value_rules (inl s) /\
  parse_returns std_ext s (tx "name =" ++ newline :: tx "age=250") [] indent_default None tokens /\
  map snd tokens = [MString (tx "key") (tx "name"); MString (tx "value") (tx "age=250")].
Proof. exact next_line_taken. Qed.
Print Assumptions C89_missing_refuted.

(** False: a comment may follow a value. *)
Theorem C89_comment_refuted : exists s e tokens, syntax_returns std_ext key_value_rules (inl s) /\
  parse_returns std_ext s (tx "age = 250 # years") [] indent_default (Some e) tokens.
Proof. exact comment_behind. Qed.
Print Assumptions C89_comment_refuted.

(** The file of the example. *)
Example C89_example : exists s v w items tokens, syntax_returns std_ext key_value_rules (inl s) /\
  Forall real_char key_value_text /\
  x_parse_number std_ext true (tx "250") = Some v /\ x_parse_number std_ext true (tx "200") = Some w /\
  entries std_ext key_value_text items /\
  parse_returns std_ext s key_value_text [] indent_default None tokens /\
  map snd tokens = concat items /\
  concat items = [MString (tx "key") (tx "age"); MF64 (tx "number") v; MString (tx "key") (tx "strength"); MF64 (tx "number") w;
    MString (tx "key") (tx "name"); MString (tx "string") (tx "Big Dragon"); MString (tx "key") (tx "violent"); MBool (tx "bool") true].
Proof. exact key_example. Qed.

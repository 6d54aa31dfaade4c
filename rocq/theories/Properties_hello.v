(** C91: the rules of examples/hello_world.rs and examples/neg_match.rs read what they say, and nothing else. *)
From Coq Require Import Ascii String List NArith Bool Arith Lia.
From Verif Require Import Base Ext Types LibModel JsonModel PegSpec ApiSpec SyntaxSpec OptSpec Examples HelloSpec HelloProofs.
Import ListNotations.
Local Open Scope string_scope.
Local Open Scope list_scope.
Local Open Scope nat_scope.

(** A text is accepted exactly if it greets James or Peter; the data says whom. *)
Theorem C91_hello : forall E, ext_ok E -> forall s, syntax_returns std_ext hello_rules (inl s) ->
  forall text tokens ind ds, Forall real_char text ->
  (exists out, parse_returns E s text tokens ind None (tokens ++ out) /\ map snd out = ds) <->
  (exists d, greeting text d /\ ds = [d]).
Proof. exact hello_texts. Qed.
Print Assumptions C91_hello.

Theorem C91_hello_printed : forall E, ext_ok E -> forall s, syntax_returns std_ext hello_rules (inl s) ->
  forall text out, Forall real_char text -> parse_returns E s text [] indent_default None out ->
  exists w name shown, In (name, shown) [(s2l "James", s2l "james"); (s2l "Peter", s2l "peter")] /\
    Forall white w /\ text = s2l "hi" ++ w ++ name ++ s2l "!" /\
    json_write E out = Done (quote :: shown ++ quote :: s2l ":true" ++ [newline]).
Proof. exact hello_printed. Qed.
Print Assumptions C91_hello_printed.

(** A forbidden token: exactly the texts that do not start with it, whatever follows. *)
Theorem C91_not : forall E, ext_ok E -> forall s, syntax_returns std_ext neg_rules (inl s) -> forall text tokens ind ds,
  (exists out, parse_returns E s text tokens ind None (tokens ++ out) /\ map snd out = ds) <->
  (~ starts_with text (s2l "hi") /\ ds = [MBool (s2l "hi_did_not_occured") true]).
Proof. exact neg_texts. Qed.
Print Assumptions C91_not.

Theorem C91_not_printed : forall E, ext_ok E -> forall s, syntax_returns std_ext neg_rules (inl s) -> forall text out,
  parse_returns E s text [] indent_default None out ->
  json_write E out = Done (quote :: s2l "hi_did_not_occured" ++ quote :: s2l ":true" ++ [newline]).
Proof. exact neg_printed. Qed.
Print Assumptions C91_not_printed.

(** The double negative of the documentation. *)
Theorem C91_double : forall E, ext_ok E -> forall s, syntax_returns std_ext double_rules (inl s) -> forall text tokens ind ds,
  (exists out, parse_returns E s text tokens ind None (tokens ++ out) /\ map snd out = ds) <->
  (~ starts_with text (s2l "hi") /\ ds = [MBool (s2l "hi") false]).
Proof. exact double_texts. Qed.
Print Assumptions C91_double.

Example C91_hello_example : exists s out, syntax_returns std_ext hello_rules (inl s) /\
  Forall real_char (s2l "hi James!") /\ greeting (s2l "hi James!") (MBool (s2l "james") true) /\
  parse_returns std_ext s (s2l "hi James!") [] indent_default None out /\ map snd out = [MBool (s2l "james") true].
Proof. exact hello_example. Qed.

Example C91_not_example : exists s out, syntax_returns std_ext neg_rules (inl s) /\ ~ starts_with (s2l "hello!") (s2l "hi") /\
  parse_returns std_ext s (s2l "hello!") [] indent_default None out /\ map snd out = [MBool (s2l "hi_did_not_occured") true].
Proof. exact neg_example. Qed.

(** Equality, [syntax_errstr] and [load_syntax_data]. *)
From Coq Require Import Ascii String List NArith Bool Arith Lia.
From Coq Require Import SpecFloat.
From Verif Require Import Base Ext Types DataSpec ParseModel HandlerModel LibModel EqModel LoadModel ApiSpec SyntaxSpec
  EqSpec LoadSpec ExtProofs EqProofs LoadProofs ParsePublic Examples.
Import ListNotations.
Local Open Scope string_scope.
Local Open Scope list_scope.
Local Open Scope nat_scope.

(** ** C50: equality of rules, syntaxes and meta data. *)

(** Rules are equal if and only if they are the same and contain no fast select. *)
Theorem C50_rules : forall r r', rule_eqb r r' = true <-> r = r' /\ no_fast r.
Proof. exact rule_eqb_spec. Qed.
Print Assumptions C50_rules.

Theorem C50_syntaxes : forall s s', syntax_eqb s s' = true <->
  s = s' /\ forall table args tail id, ~ occurs s (RFastSelect table args tail id).
Proof. exact syntax_eqb_spec. Qed.
Print Assumptions C50_syntaxes.

(** Meta data are equal if they are the same up to the sign of zero, and without NaN. *)
Theorem C50_data : forall a b, list_eqb tok_eqb a b = true <-> Forall2 same_tok a b.
Proof. exact tokens_eqb_spec. Qed.
Print Assumptions C50_data.

(** Reading the same text twice need not give equal syntaxes. *)
Theorem C50_reflexive_refuted : exists text s,
  syntax_returns std_ext text (inl s) /\ syntax_eqb s s = false.
Proof.
  exists (tx "1 doc = {""a"" ""b""}"). eexists. split; [exists 300; vm_compute; reflexivity|].
  vm_compute. reflexivity.
Qed.
Print Assumptions C50_reflexive_refuted.

Example C50_example : exists s, syntax_returns std_ext (tx "1 doc = [""a"" ?.w!]") (inl s) /\ syntax_eqb s s = true /\
  list_eqb tok_eqb [(Rng 0 1, MF64 (tx "a") (S754_zero true))] [(Rng 0 1, MF64 (tx "a") (S754_zero false))] = true /\
  tok_eqb (Rng 0 1, MF64 (tx "a") S754_nan) (Rng 0 1, MF64 (tx "a") S754_nan) = false.
Proof. eexists. split; [exists 300; vm_compute; reflexivity|]. vm_compute. auto. Qed.

(** ** C51: [syntax_errstr] is [syntax] with a report. *)

Theorem C51_ok : forall E text s,
  syntax_errstr_returns E text (inl s) <-> syntax_returns E text (inl s).
Proof. exact errstr_syntax_ok. Qed.
Print Assumptions C51_ok.

Theorem C51_err : forall E text w, syntax_errstr_returns E text (inr w) <->
  exists e, syntax_returns E text (inr e) /\ error_report E text e = Done w.
Proof. exact errstr_syntax_err. Qed.
Print Assumptions C51_err.

Theorem C51_message : forall E text e, syntax_returns E text (inr e) ->
  exists more, syntax_errstr_returns E text (inr (s2l "Error " ++ fmt_error E (snd e) ++ [newline] ++ more)).
Proof. exact errstr_syntax_message. Qed.
Print Assumptions C51_message.

Theorem C51_panic : forall E text, syntax_errstr_panics E text <-> syntax_panics E text.
Proof. exact errstr_syntax_panic. Qed.
Print Assumptions C51_panic.

Example C51_example : exists e w, syntax_returns std_ext (tx "1 doc = [") (inr e) /\
  syntax_errstr_returns std_ext (tx "1 doc = [") (inr w) /\ firstn 7 w = tx "Error #".
Proof.
  do 2 eexists. split; [exists 300; vm_compute; reflexivity|].
  split; [exists 300; vm_compute; reflexivity|]. vm_compute. reflexivity.
Qed.

(** ** C52: [load_syntax_data] parses the data with the syntax, or reports the first error. *)

Theorem C52_returned : forall E syntax_file data_file tokens,
  loads E syntax_file data_file (Returned tokens) <->
  exists s d rules, syntax_file = Some s /\ data_file = Some d /\ syntax_returns E s (inl rules) /\
    parse_returns E rules d [] indent_default None tokens.
Proof. exact load_returned. Qed.
Print Assumptions C52_returned.

(** An unreadable file, an error in the syntax reported in the text of the syntax, or an
    error in the data reported in the text of the data; in this order. *)
Theorem C52_aborted : forall E syntax_file data_file w,
  loads E syntax_file data_file (Aborted w) <->
  (syntax_file = None /\ w = []) \/
  (exists s e, syntax_file = Some s /\ syntax_returns E s (inr e) /\ error_report E s e = Done w) \/
  (exists s rules, syntax_file = Some s /\ syntax_returns E s (inl rules) /\ data_file = None /\ w = []) \/
  (exists s d rules e tokens, syntax_file = Some s /\ data_file = Some d /\ syntax_returns E s (inl rules) /\
    parse_returns E rules d [] indent_default (Some e) tokens /\ error_report E d e = Done w).
Proof. exact load_aborted. Qed.
Print Assumptions C52_aborted.

Example C52_example : exists tokens w,
  loads std_ext (Some (tx "1 doc = ""a"":""b""")) (Some (tx "a")) (Returned tokens) /\ length tokens = 1 /\
  loads std_ext (Some (tx "1 doc = ""a"":""b""")) (Some (tx "b")) (Aborted w) /\ firstn 7 w = tx "Error #".
Proof.
  do 2 eexists. split; [exists 300; vm_compute; reflexivity|]. split; [reflexivity|].
  split; [exists 300; vm_compute; reflexivity|]. vm_compute. reflexivity.
Qed.

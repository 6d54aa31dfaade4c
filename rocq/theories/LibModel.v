(** Model of the top level of the library: src/lib.rs and the [_errstr] functions of
    src/meta_rules/mod.rs. *)
From Coq Require Import Ascii String List NArith Bool Arith.
From Verif Require Import Base Ext Types ParseModel OptimizeModel ConvertModel HandlerModel
  BootstrapRules.
Import ListNotations.

Section Lib.
  Variable E : ext.

  (** src/meta_rules/mod.rs:100-116 [parse_errstr_with_indent]; [None] is [Ok(())]. *)
  Definition parse_errstr_with_indent (fuel : nat) (s : syntax) (text : str)
    (tokens : list tok) (ind : indent) : outcome (option str * list tok) :=
    do (res, tokens') <- parse_with_indent E fuel s text tokens ind;
    match res with
    | None => Done (None, tokens')
    | Some e =>
      do w <- error_report E text e;
      Done (Some w, tokens')
    end.

  (** src/meta_rules/mod.rs:90-96 [parse_errstr]. *)
  Definition parse_errstr (fuel : nat) (s : syntax) (text : str) (tokens : list tok)
    : outcome (option str * list tok) :=
    parse_errstr_with_indent fuel s text tokens indent_default.

  (** src/lib.rs:225-228, the error of a failed conversion. *)
  Definition conversion_error : perr :=
    (empty_range 0, Conversion (s2l "Bootstrapping rules are incorrect")).

  (** src/lib.rs:217-230 [syntax]. [BOOTSTRAP_RULES] is computed on first use; here on
      each call. The result before optimisation is exposed as [syntax_unoptimized]. *)
  Definition syntax_unoptimized (fuel : nat) (rules : str) : outcome (syntax + perr) :=
    do boot <- optimize fuel bootstrap_rules;
    do (res, tokens) <- parse E fuel boot rules [];
    match res with
    | Some e => Done (inr e)
    | None =>
      do (res, _) <- convert fuel tokens [];
      match res with
      | Some s => Done (inl s)
      | None => Done (inr conversion_error)
      end
    end.

  (** src/lib.rs:217-230 [syntax]. *)
  Definition lib_syntax (fuel : nat) (rules : str) : outcome (syntax + perr) :=
    do res <- syntax_unoptimized fuel rules;
    match res with
    | inl s => do s' <- optimize fuel s; Done (inl s')
    | inr e => Done (inr e)
    end.

  (** src/lib.rs:233-242 [syntax_errstr]. *)
  Definition syntax_errstr (fuel : nat) (rules : str) : outcome (syntax + str) :=
    do res <- lib_syntax fuel rules;
    match res with
    | inl s => Done (inl s)
    | inr e => do w <- error_report E rules e; Done (inr w)
    end.
End Lib.

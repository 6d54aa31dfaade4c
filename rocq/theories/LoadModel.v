(** Model of [stderr_unwrap] and [load_syntax_data]. *)
From Coq Require Import List NArith Bool Arith.
From Verif Require Import Base Ext Types ParseModel HandlerModel LibModel.
Import ListNotations.

(** How a call ends that may report an error: with a value, or with a panic after writing to
    standard error. The message of the panic itself is not modelled. *)
Inductive ended (A : Type) :=
| Returned (a : A)
| Aborted (stderr : str).
Arguments Returned {A} a.
Arguments Aborted {A} stderr.

Section Load.
  Variable E : ext.

  (** src/parse_error_handler.rs:7-15 [stderr_unwrap] and 155-157 [error]. Writing to standard
      error is taken to succeed. *)
  Definition stderr_unwrap {A} (source : str) (res : A + perr) : outcome (ended A) :=
    match res with
    | inl v => Done (Returned v)
    | inr e => do w <- error_report E source e; Done (Aborted w)
    end.

  (** src/lib.rs:247-267 [load_syntax_data]. A file is its text, or [None] when opening or
      reading it as UTF-8 fails. *)
  Definition load_syntax_data (fuel : nat) (syntax_file data_file : option str)
    : outcome (ended (list tok)) :=
    match syntax_file with
    | None => Done (Aborted [])
    | Some s =>
      do res <- lib_syntax E fuel s;
      do unwrapped <- stderr_unwrap s res;
      match unwrapped with
      | Aborted w => Done (Aborted w)
      | Returned rules =>
        match data_file with
        | None => Done (Aborted [])
        | Some d =>
          do (res, tokens) <- parse E fuel rules d [];
          stderr_unwrap d (match res with None => inl tokens | Some e => inr e end)
        end
      end
    end.
End Load.

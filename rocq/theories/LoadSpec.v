(** What loading does, without fuel. *)
From Coq Require Import List NArith Bool Arith.
From Verif Require Import Base Ext Types LibModel LoadModel.
Import ListNotations.

(** [load_syntax_data] ends. *)
Definition loads (E : ext) (syntax_file data_file : option str) (result : ended (list tok)) : Prop :=
  exists fuel, load_syntax_data E fuel syntax_file data_file = Done result.

(** [syntax_errstr] returns. *)
Definition syntax_errstr_returns (E : ext) (text : str) (result : syntax + str) : Prop :=
  exists fuel, syntax_errstr E fuel text = Done result.

Definition syntax_errstr_panics (E : ext) (text : str) : Prop :=
  exists fuel, syntax_errstr E fuel text = Panic.

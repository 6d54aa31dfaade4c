(** The flag of indented lines, which the meta language 1.0 did not have. *)
From Coq Require Import Ascii String List NArith Bool Arith.
From Verif Require Import Base Ext Types.
Import ListNotations.
Local Open Scope string_scope.

(** No flag of this name is in the data. *)
Definition without_flag (name : str) (data : list tok) : Prop :=
  forall r v, ~ In (r, MBool name v) data.

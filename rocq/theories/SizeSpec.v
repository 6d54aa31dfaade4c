(** How much data there is. *)
From Coq Require Import List NArith Arith.
From Verif Require Import Base Ext Types DataSpec.
Import ListNotations.

(** The characters that the strings, numbers and flags were made from. *)
Fixpoint characters (data : list tok) : nat :=
  match data with
  | [] => 0
  | (r, StartNode _) :: rest | (r, EndNode _) :: rest => characters rest
  | (r, _) :: rest => r_len r + characters rest
  end.

(** How much work parsing does. *)
From Coq Require Import List NArith Bool Arith.
From Verif Require Import Base Ext Types ParseModel CostModel DataSpec.
Import ListNotations.

(** Parsing returns after [n] calls of [Rule::parse]. *)
Definition makes_calls (E : ext) (s : syntax) (text : str) (tokens : list tok) (ind : indent)
  (n : nat) : Prop :=
  exists fuel result, parse_cost E fuel s text tokens ind = (n, Done result).

(** The rules can be ranked such that a rule refers only to rules of lower rank. *)
Definition no_recursion (s : syntax) : Prop :=
  exists rank : nat -> nat, forall i r name property j id,
    nth_error (s_rules s) i = Some r -> occurs_in (RNode name property (Some j) id) r ->
    rank j < rank i.

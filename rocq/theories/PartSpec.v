(** Documents that are parts of other documents. *)
From Coq Require Import List NArith Bool Arith.
From Verif Require Import Base Ext Types PegSpec DataSpec GrammarSpec.
Import ListNotations.

(** The syntax with one more rule [name = reference] at its end, where the reference leads to rule [i]: documents of this rule. *)
Definition documents_of (s : syntax) (i : nat) (name reference : str) (id : debug_id) : syntax :=
  Syn (s_rules s ++ [RNode reference None (Some i) id]) (s_names s ++ [name]).

(** A number that was read in front of some text is also read at the end of the text. *)
Definition numbers_end (E : ext) : Prop := forall underscore, number_stops E underscore None.

(** What a parser that fails leaves in the vector of its caller: the beginning of sound data. *)
From Coq Require Import List NArith Bool Arith.
From Verif Require Import Base Ext Types DataSpec.
Import ListNotations.

(** The end of a node. *)
Definition node_end (t : tok) : Prop := exists r name, t = (r, EndNode name).

(** The items are the beginning of data about the text that the rules of the syntax could have
    made: when the nodes that are open are closed, and nothing else is added, the items are well
    placed in the text, and each is made by a rule from the text under its range. *)
Definition beginning (E : ext) (s : syntax) (text : str) (toks : list tok) : Prop :=
  exists closing, Forall node_end closing /\
    placed 0 (length text) (toks ++ closing) /\ Forall (made_by E s text) (toks ++ closing).

(** Documents in which two nodes are exchanged. *)
From Coq Require Import List NArith Bool Arith.
From Verif Require Import Base Types DataSpec.
Import ListNotations.

(** The text with the [n1] characters from [o1] on and the [n2] characters from [o2] on exchanged. *)
Definition exchanged (o1 n1 o2 n2 : nat) (text : str) : str :=
  firstn o1 text ++ firstn n2 (skipn o2 text) ++ firstn (o2 - (o1 + n1)) (skipn (o1 + n1) text) ++
  firstn n1 (skipn o1 text) ++ skipn (o2 + n2) text.

(** The data of a node at [o], of [n] characters. *)
Definition node (name : str) (o : nat) (inner : list tok) (n : nat) : list tok :=
  (Rng o 0, StartNode name) :: inner ++ [(Rng o n, EndNode name)].

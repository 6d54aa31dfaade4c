(** Documents in which a node is replaced. *)
From Coq Require Import List NArith Bool Arith.
From Verif Require Import Base Ext Types PegSpec DataSpec.
Import ListNotations.

(** The data has a node [name] that covers [n] characters from [o] on, with the data [inner] in it. *)
Definition node_at (toks before : list tok) (name : str) (o : nat) (inner : list tok) (n : nat) (after : list tok) : Prop :=
  toks = before ++ (Rng o 0, StartNode name) :: inner ++ (Rng o n, EndNode name) :: after /\ nested (map snd inner).

(** The text with [y] instead of the [n] characters from [o] on. *)
Definition edited (o n : nat) (y text : str) : str := firstn o text ++ y ++ skipn (o + n) text.

(** Data behind the beginning of the [n] characters from [o] on, before and after they are replaced by [m] others: it is behind
    them and moves, or it is the end of a node around them, which gets longer or shorter. *)
Definition adjusted (o n m : nat) (t t' : tok) : Prop :=
  snd t' = snd t /\
  ((o + n <= r_off (fst t) /\ fst t' = Rng (r_off (fst t) - n + m) (r_len (fst t))) \/
   (r_off (fst t) <= o /\ o + n <= r_off (fst t) + r_len (fst t) /\ (exists name, snd t = EndNode name) /\
    fst t' = Rng (r_off (fst t)) (r_len (fst t) - n + m))).

(** The references that give nodes of the name all lead to the rule [i]. *)
Definition names_rule (s : syntax) (name : str) (i : nat) : Prop :=
  forall reference j id, occurs s (RNode reference (Some name) (Some j) id) -> j = i.

(** Documents in which white space is changed. *)
From Coq Require Import List NArith Bool Arith.
From Verif Require Import Base Ext Types PegSpec DataSpec EditSpec.
Import ListNotations.

(** No text is read without being stored, but tokens, words and white space, and no token contains white space. *)
Definition stores_text (s : syntax) : Prop :=
  (forall text not_ inverted property id, occurs s (RTag text not_ inverted property id) -> Forall (fun c => ~ white c) text) /\
  (forall any optional property id, occurs s (RUntilAny any optional property id) -> property <> None) /\
  (forall allow_empty property id, occurs s (RText allow_empty property id) -> property <> None) /\
  (forall underscore property id, occurs s (RNumber underscore property id) -> property <> None).

(** The character at [o] belongs to no string, number or bool of the data. *)
Definition uncovered (o : nat) (ts : list tok) : Prop :=
  forall t, In t ts -> leaf (snd t) -> ~ (r_off (fst t) <= o < r_off (fst t) + r_len (fst t)).

(** Data before and after the [n] characters from [o] on are replaced by [m] others: it is in front of them and stays, or it is
    adjusted. *)
Definition respaced (o n m : nat) (t t' : tok) : Prop :=
  (r_off (fst t) + r_len (fst t) <= o /\ t' = t) \/ adjusted o n m t t'.

(** The white space that begins at [o] has [n] characters. *)
Definition white_run (text : str) (o n : nat) : Prop := 0 < n /\ longest white (skipn o text) n.

(** Words for the cursor over meta data. *)
From Coq Require Import List Arith.
From Verif Require Import Base Ext Types.
Import ListNotations.

(** [r] is the smallest range around the ranges. *)
Definition hull (rs : list range) (r : range) : Prop :=
  (forall q, In q rs -> r_off r <= r_off q /\ next_offset q <= next_offset r) /\
  (exists q, In q rs /\ r_off q = r_off r) /\
  (exists q, In q rs /\ next_offset q = next_offset r).

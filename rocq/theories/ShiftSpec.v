(** The same things read at another position. *)
From Coq Require Import List NArith Bool Arith.
From Verif Require Import Base Ext Types DataSpec PegSpec.
Import ListNotations.

(** The range [r'] lies to position [q] as [r] lies to position [p]. *)
Definition moved_range (p q : nat) (r r' : range) : Prop :=
  r_off r + q = r_off r' + p /\ r_len r = r_len r'.

Definition moved {A} (p q : nat) (x x' : range * A) : Prop :=
  moved_range p q (fst x) (fst x') /\ snd x = snd x'.

Definition moved_verdict (p q : nat) (v v' : verdict) : Prop :=
  match v, v' with
  | No, No => True
  | Yes n out, Yes n' out' => n = n' /\ Forall2 (moved p q) out out'
  | _, _ => False
  end.

(** The rule refers only to rules with numbers below [n]. *)
Definition refers_below (n : nat) (r : rule) : Prop :=
  forall name property k id, occurs_in (RNode name property (Some k) id) r -> k < n.

(** The rule [r] behind the fixed text [t]. *)
Definition behind (t : str) (inverted : bool) (i j : debug_id) (r : rule) : rule :=
  RSequence [RTag t false inverted None i; r] j.

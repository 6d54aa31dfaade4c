(** When two values are equal in the sense of [==]. *)
From Coq Require Import List NArith Bool Arith.
From Coq Require Import SpecFloat.
From Verif Require Import Base Ext Types DataSpec.
Import ListNotations.

(** No fast select in the rule, at any depth. *)
Definition no_fast (r : rule) : Prop :=
  forall table args tail id, ~ occurs_in (RFastSelect table args tail id) r.

(** The same number: equal and not a NaN; both zeros are the same number. *)
Definition same_number (x y : f64) : Prop :=
  match x, y with
  | S754_nan, _ => False
  | S754_zero _, S754_zero _ => True
  | _, _ => x = y
  end.

Definition same_data (a b : metadata) : Prop :=
  match a, b with
  | MF64 n v, MF64 n' v' => n = n' /\ same_number v v'
  | _, _ => a = b
  end.

Definition same_tok (a b : tok) : Prop := fst a = fst b /\ same_data (snd a) (snd b).

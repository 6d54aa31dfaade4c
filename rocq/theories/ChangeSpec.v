(** Documents in which a value is changed. *)
From Coq Require Import List NArith Bool Arith.
From Verif Require Import Base Ext Types DataSpec.
Import ListNotations.

(** The rule reads a value of the name. *)
Definition value_rule (name : str) (r : rule) : Prop :=
  match r with
  | RTag _ _ _ (Some p) _ | RUntilAny _ _ (Some p) _ | RUntilAnyOrWs _ _ (Some p) _ | RText _ (Some p) _ | RNumber _ (Some p) _ => p = name
  | _ => False
  end.

(** The name of a value. *)
Definition value_name (d : metadata) : str :=
  match d with StartNode n | EndNode n | MBool n _ | MF64 n _ | MString n _ => n end.

(** The text is a number with this value, in front of some text. *)
Definition numeral (E : ext) (underscore : bool) (y : str) (v : f64) : Prop :=
  (exists rest, x_number E underscore (y ++ rest) = Some (length y)) /\ x_parse_number E underscore y = Some v.

(** The text is a string in quotes that stands for this text, in front of some text. *)
Definition literal (E : ext) (y v : str) : Prop :=
  (exists rest, x_string E (y ++ rest) = Some (length y)) /\ x_parse_string E y = inl v.

(** Values of the name are only read as numbers; as strings in quotes. *)
Definition only_numbers (s : syntax) (name : str) (underscore : bool) : Prop :=
  forall r, occurs s r -> value_rule name r -> exists id, r = RNumber underscore (Some name) id.
Definition only_literals (s : syntax) (name : str) : Prop :=
  forall r, occurs s r -> value_rule name r -> exists id, r = RText true (Some name) id.

(** Values of the name are only read as alternatives of this select. *)
Definition only_alternatives (s : syntax) (name : str) (args : list rule) (id : debug_id) : Prop :=
  (forall r, In r (s_rules s) -> ~ value_rule name r) /\
  (forall r c, occurs s r -> In c (children r) -> value_rule name c -> r = RSelect args id).

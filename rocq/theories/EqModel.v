(** Model of [==] on rules, syntaxes and meta data. *)
From Coq Require Import List NArith Bool Arith.
From Verif Require Import Base Ext Types.
Import ListNotations.

(** Derived [PartialEq] of [Option] and [Vec]. *)
Definition option_eqb {A} (eqb : A -> A -> bool) (a b : option A) : bool :=
  match a, b with
  | Some x, Some y => eqb x y
  | None, None => true
  | _, _ => false
  end.

Definition list_eqb {A} (eqb : A -> A -> bool) : list A -> list A -> bool :=
  fix go (a b : list A) : bool :=
    match a, b with
    | [], [] => true
    | x :: a', y :: b' => eqb x y && go a' b'
    | _, _ => false
    end.

(** src/meta_rules/rule.rs:28 and the derived [PartialEq] of each kind of rule;
    src/meta_rules/fast_select.rs:32-34 for [FastSelect]. *)
Fixpoint rule_eqb (a b : rule) : bool :=
  match a, b with
  | RWhitespace o i, RWhitespace o' i' => Bool.eqb o o' && N.eqb i i'
  | RTag t n v p i, RTag t' n' v' p' i' =>
    str_eqb t t' && Bool.eqb n n' && Bool.eqb v v' && option_eqb str_eqb p p' && N.eqb i i'
  | RUntilAny t o p i, RUntilAny t' o' p' i' =>
    str_eqb t t' && Bool.eqb o o' && option_eqb str_eqb p p' && N.eqb i i'
  | RUntilAnyOrWs t o p i, RUntilAnyOrWs t' o' p' i' =>
    str_eqb t t' && Bool.eqb o o' && option_eqb str_eqb p p' && N.eqb i i'
  | RText o p i, RText o' p' i' => Bool.eqb o o' && option_eqb str_eqb p p' && N.eqb i i'
  | RNumber o p i, RNumber o' p' i' => Bool.eqb o o' && option_eqb str_eqb p p' && N.eqb i i'
  | RSelect l i, RSelect l' i' => list_eqb rule_eqb l l' && N.eqb i i'
  | RFastSelect _ _ _ _, RFastSelect _ _ _ _ => false
  | RSequence l i, RSequence l' i' => list_eqb rule_eqb l l' && N.eqb i i'
  | RSeparateBy r by_ o t i, RSeparateBy r' by' o' t' i' =>
    rule_eqb r r' && rule_eqb by_ by' && Bool.eqb o o' && Bool.eqb t t' && N.eqb i i'
  | RRepeat r o i, RRepeat r' o' i' => rule_eqb r r' && Bool.eqb o o' && N.eqb i i'
  | RLines r d i, RLines r' d' i' => rule_eqb r r' && Bool.eqb d d' && N.eqb i i'
  | RNode n p k i, RNode n' p' k' i' =>
    str_eqb n n' && option_eqb str_eqb p p' && option_eqb Nat.eqb k k' && N.eqb i i'
  | ROptional r i, ROptional r' i' => rule_eqb r r' && N.eqb i i'
  | RNot r i, RNot r' i' => rule_eqb r r' && N.eqb i i'
  | _, _ => false
  end.

(** src/lib.rs:186, derived [PartialEq] of [Syntax]. *)
Definition syntax_eqb (a b : syntax) : bool :=
  list_eqb rule_eqb (s_rules a) (s_rules b) && list_eqb str_eqb (s_names a) (s_names b).

(** src/lib.rs:171, derived [PartialEq] of [MetaData]. *)
Definition metadata_eqb (a b : metadata) : bool :=
  match a, b with
  | StartNode n, StartNode n' => str_eqb n n'
  | EndNode n, EndNode n' => str_eqb n n'
  | MBool n v, MBool n' v' => str_eqb n n' && Bool.eqb v v'
  | MF64 n v, MF64 n' v' => str_eqb n n' && f64_eqb v v'
  | MString n v, MString n' v' => str_eqb n n' && str_eqb v v'
  | _, _ => false
  end.

(** [Range<MetaData>] of the crate [range]: offset, length and data are compared. *)
Definition tok_eqb (a b : tok) : bool :=
  Nat.eqb (r_off (fst a)) (r_off (fst b)) && Nat.eqb (r_len (fst a)) (r_len (fst b)) &&
  metadata_eqb (snd a) (snd b).

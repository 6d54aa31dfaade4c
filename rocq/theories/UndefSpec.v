(** References to rules that are not defined. *)
From Coq Require Import List NArith Bool Arith.
From Verif Require Import Base Ext Types OptSpec.
Import ListNotations.

Definition undefined (r : rule) : bool :=
  match r with RNode _ _ None _ => true | _ => false end.

(** The rule without the alternatives that are references to undefined rules. Elsewhere such
    a reference becomes a select of no alternatives. *)
Fixpoint prune (r : rule) : rule :=
  match r with
  | RNode name property None id => RSelect [] id
  | RSelect args id => RSelect (flat_map (fun a => if undefined a then [] else [prune a]) args) id
  | RFastSelect table args tail id => RFastSelect table (map prune args) tail id
  | RSequence args id => RSequence (map prune args) id
  | RSeparateBy a b optional trail id => RSeparateBy (prune a) (prune b) optional trail id
  | RRepeat a optional id => RRepeat (prune a) optional id
  | RLines a indented id => RLines (prune a) indented id
  | ROptional a id => ROptional (prune a) id
  | RNot a id => RNot (prune a) id
  | _ => r
  end.

Definition prune_syntax (s : syntax) : syntax := Syn (map prune (s_rules s)) (s_names s).

(** References of defined names have the number of the first rule of that name, others none. *)
Definition refers_by_name (names : list str) (r : rule) : Prop :=
  match r with
  | RNode name _ (Some i) _ => first_index names name i
  | RNode name _ None _ => ~ In name names
  | _ => True
  end.

(** Building a syntax by calls: [Syntax::new], [push], [update_refs] and [optimize], in any
    order. *)
From Coq Require Import List NArith Bool Arith.
From Verif Require Import Base Ext Types ParseModel OptimizeModel DataSpec OptSpec.
Import ListNotations.

(** No reference waits for its rule, neither inside of a fast select nor elsewhere. *)
Definition all_resolved (s : syntax) : Prop :=
  forall name property id, ~ occurs s (RNode name property None id).

(** [built s l]: the rules [l] were pushed in this order, with resolution and optimisation in
    between; the syntax is now [s]. It may be optimised only when all references are
    resolved. *)
Inductive built : syntax -> list (str * rule) -> Prop :=
| built_new : built syntax_new []
| built_push : forall s l name r, built s l -> built (syntax_push s name r) (l ++ [(name, r)])
| built_resolve : forall s l, built s l -> built (update_refs s) l
| built_optimize : forall s l s', built s l -> all_resolved s -> optimize_returns s s' -> built s' l.

(** All rules pushed, nothing else done. *)
Definition pushed (l : list (str * rule)) : syntax := Syn (map snd l) (map fst l).

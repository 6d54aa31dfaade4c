(** What optimisation changes, said as a change of the rules. *)
From Coq Require Import List NArith Bool Arith.
From Verif Require Import Base Ext Types DataSpec StuckSpec.
Import ListNotations.

(** Reads nothing, and succeeds if there is a character left: [!!...""!] in the meta language. *)
Definition some_left : rule := RNot (RNot (RUntilAny [] false None 0) 0) 0.

(** A rule that is read only if there is a character left. *)
Definition if_left (r : rule) : rule := RSequence [some_left; r] 0.

(** The first [k] alternatives, at most 255, begin with different bytes. *)
Definition apart (s : syntax) (args : list rule) (k : nat) : Prop :=
  k <= 255 /\ exists bytes, length bytes = k /\ NoDup bytes /\ Forall2 (begins (s_rules s)) (firstn k args) bytes.

(** The first [k] alternatives are told apart by their first byte, and no more. *)
Definition told_apart (s : syntax) (args : list rule) (k : nat) : Prop :=
  apart s args k /\ forall k', apart s args k' -> k' <= k.

(** In selects where at least two alternatives can be told apart, the others are read only if there
    is a character left. Nothing else changes. *)
Inductive guards (s : syntax) : rule -> rule -> Prop :=
| g_leaf : forall r, children r = [] -> guards s r r
| g_fast : forall t a l id, guards s (RFastSelect t a l id) (RFastSelect t a l id)
| g_select : forall a b id, ~ (exists k, 2 <= k /\ told_apart s a k) -> Forall2 (guards s) a b -> guards s (RSelect a id) (RSelect b id)
| g_tail : forall a b id k, 2 <= k -> told_apart s a k -> Forall2 (guards s) a b ->
    guards s (RSelect a id) (RSelect (firstn k b ++ map if_left (skipn k b)) id)
| g_sequence : forall a b id, Forall2 (guards s) a b -> guards s (RSequence a id) (RSequence b id)
| g_separate : forall a b a' b' o t id, guards s a b -> guards s a' b' -> guards s (RSeparateBy a a' o t id) (RSeparateBy b b' o t id)
| g_repeat : forall a b o id, guards s a b -> guards s (RRepeat a o id) (RRepeat b o id)
| g_lines : forall a b i id, guards s a b -> guards s (RLines a i id) (RLines b i id)
| g_optional : forall a b id, guards s a b -> guards s (ROptional a id) (ROptional b id)
| g_not : forall a b id, guards s a b -> guards s (RNot a id) (RNot b id).

Definition guarded (s g : syntax) : Prop := s_names g = s_names s /\ Forall2 (guards s) (s_rules s) (s_rules g).

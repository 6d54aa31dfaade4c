(** Syntaxes without negative lookahead. *)
From Verif Require Import Base Ext Types PegSpec DataSpec.

Definition without_lookahead (s : syntax) : Prop := forall r id, ~ occurs s (RNot r id).

(** Where an error is reported, and texts that can be completed. *)
From Coq Require Import List NArith.
From Verif Require Import Base Ext Types PegSpec DataSpec TotalSpec GrammarSpec.
Import ListNotations.

(** The place at which reading stopped: where the error begins, but for an invalid string the place
    where the string begins. *)
Definition stopped_at (E : ext) (text : str) (e : perr) (q : nat) : Prop :=
  match snd e with
  | ParseStringError _ _ => q <= r_off (fst e) /\ exists n, x_string E (skipn q text) = Some n
  | _ => q = r_off (fst e)
  end.

(** Every rule generates some text. *)
Definition productive (E : ext) (s : syntax) : Prop :=
  forall r, occurs s r -> exists x ms, Forall real_char x /\ generates E (s_rules s) r x ms.

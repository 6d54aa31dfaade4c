(** Words for first bytes and optimisation. *)
From Coq Require Import List NArith Bool Arith.
From Verif Require Import Base Ext Types ParseModel OptimizeModel PegSpec DataSpec RuleSpec.
Import ListNotations.

(** [s] is at its end, or its first character is not encoded with first byte [b]. *)
Definition not_ahead (b : N) (s : str) : Prop :=
  match s with
  | [] => True
  | c :: _ => utf8_first c <> b
  end.

(** The rule has the unique byte [b] (for some amount of fuel). *)
Definition has_unique_byte (refs : list rule) (r : rule) (b : N) : Prop :=
  exists fuel, unique_byte fuel refs r = Done (Some b).

(** The rule fails at the end of a text. *)
Definition fails_at_end (E : ext) (refs : list rule) (r : rule) : Prop :=
  forall ind p, exists ind', runs E refs r ind p [] No ind'.

(** The alternatives [rest] of some select of the syntax are tried, after optimisation,
    only when the table does not decide. *)
Definition tail_alternatives (s : syntax) (rest : list rule) : Prop :=
  exists args id fuel table up, occurs s (RSelect args id) /\
    unique_table_from_select fuel (s_rules s) args = Done (table, up) /\
    2 <= up /\ rest = skipn up args.

(** The proviso of optimisation. *)
Definition tails_fail_at_end (E : ext) (s : syntax) : Prop :=
  forall rest, tail_alternatives s rest ->
  forall r, In r rest -> fails_at_end E (s_rules s) r.

(** [optimize] returns. *)
Definition optimize_returns (s s' : syntax) : Prop :=
  exists fuel, optimize fuel s = Done s'.

Definition optimize_diverges (s : syntax) : Prop :=
  forall fuel, optimize fuel s = OutOfFuel.

(** Number of the first rule of that name. *)
Definition first_index (names : list str) (name : str) (i : nat) : Prop :=
  nth_error names i = Some name /\ forall j, j < i -> nth_error names j <> Some name.

(** Resolution of references. *)
Section Resolved.
  Variable names : list str.

  Inductive resolved : rule -> rule -> Prop :=
  | res_node : forall name property id i,
      first_index names name i ->
      resolved (RNode name property None id) (RNode name property (Some i) id)
  | res_unknown : forall name property id,
      ~ In name names ->
      resolved (RNode name property None id) (RNode name property None id)
  | res_done : forall name property i id,
      resolved (RNode name property (Some i) id) (RNode name property (Some i) id)
  | res_leaf : forall r,
      children r = [] -> (forall name property i id, r <> RNode name property i id) ->
      resolved r r
  | res_fast : forall table args tail id,
      resolved (RFastSelect table args tail id) (RFastSelect table args tail id)
  | res_select : forall a b id,
      Forall2 resolved a b -> resolved (RSelect a id) (RSelect b id)
  | res_sequence : forall a b id,
      Forall2 resolved a b -> resolved (RSequence a id) (RSequence b id)
  | res_separate : forall r r' b b' o t id,
      resolved r r' -> resolved b b' ->
      resolved (RSeparateBy r b o t id) (RSeparateBy r' b' o t id)
  | res_repeat : forall r r' o id, resolved r r' -> resolved (RRepeat r o id) (RRepeat r' o id)
  | res_lines : forall r r' i id, resolved r r' -> resolved (RLines r i id) (RLines r' i id)
  | res_optional : forall r r' id, resolved r r' -> resolved (ROptional r id) (ROptional r' id)
  | res_not : forall r r' id, resolved r r' -> resolved (RNot r id) (RNot r' id).
End Resolved.

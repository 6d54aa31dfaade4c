(** What a call of the library does, without fuel. *)
From Coq Require Import List NArith Bool Arith.
From Verif Require Import Base Ext Types ParseModel.
Import ListNotations.

(** [parse_with_indent] returns: [None] is [Ok(())], [Some e] is [Err(e)]; [tokens'] is the
    vector afterwards. *)
Definition parse_returns (E : ext) (s : syntax) (text : str) (tokens : list tok) (ind : indent)
  (result : option perr) (tokens' : list tok) : Prop :=
  exists fuel, parse_with_indent E fuel s text tokens ind = Done (result, tokens').

Definition parse_panics (E : ext) (s : syntax) (text : str) (tokens : list tok) (ind : indent)
  : Prop :=
  exists fuel, parse_with_indent E fuel s text tokens ind = Panic.

(** No amount of fuel suffices. *)
Definition parse_diverges (E : ext) (s : syntax) (text : str) (tokens : list tok) (ind : indent)
  : Prop :=
  forall fuel, parse_with_indent E fuel s text tokens ind = OutOfFuel.

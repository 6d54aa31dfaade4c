(** What reading a syntax from a text does, without fuel. *)
From Coq Require Import List NArith Bool Arith.
From Verif Require Import Base Ext Types ParseModel OptimizeModel BootstrapRules LibModel ApiSpec OptSpec IdSpec.
Import ListNotations.

(** [syntax(text)] returns [Ok] or [Err]. *)
Definition syntax_returns (E : ext) (text : str) (result : syntax + perr) : Prop :=
  exists fuel, lib_syntax E fuel text = Done result.

Definition syntax_panics (E : ext) (text : str) : Prop :=
  exists fuel, lib_syntax E fuel text = Panic.

Definition syntax_diverges (E : ext) (text : str) : Prop :=
  forall fuel, lib_syntax E fuel text = OutOfFuel.

(** The same up to the last step, the optimisation of the rules that were read. *)
Definition rules_read (E : ext) (text : str) (result : syntax + perr) : Prop :=
  exists fuel, syntax_unoptimized E fuel text = Done result.

Definition reading_panics (E : ext) (text : str) : Prop :=
  exists fuel, syntax_unoptimized E fuel text = Panic.

(** The text as meta data, according to the built-in rules. *)
Definition text_data (E : ext) (text : str) (tokens : list tok) : Prop :=
  exists boot, optimize_returns bootstrap_rules boot /\
    parse_returns E boot text [] indent_default None tokens.

(** Two syntaxes parse alike, up to the debug ids in errors. *)
Definition parse_alike (s s' : syntax) : Prop :=
  forall E text tokens ind,
  (forall result tokens', parse_returns E s text tokens ind result tokens' ->
     exists result', parse_returns E s' text tokens ind result' tokens' /\
       like_result any_ids result result') /\
  (forall result tokens', parse_returns E s' text tokens ind result tokens' ->
     exists result', parse_returns E s text tokens ind result' tokens' /\
       like_result any_ids result result') /\
  (parse_panics E s text tokens ind <-> parse_panics E s' text tokens ind) /\
  (parse_diverges E s text tokens ind <-> parse_diverges E s' text tokens ind).

(** What a call does in an optimised build, without fuel. *)
From Coq Require Import List NArith Bool Arith.
From Verif Require Import Base Ext Types ParseModel LoadModel IdSpec ReleaseConvert ReleaseModel.
Import ListNotations.

(** [parse_with_indent]. *)
Definition release_parses (E : ext) (s : syntax) (text : str) (tokens : list tok) (ind : indent)
  (result : option perr) (tokens' : list tok) : Prop :=
  exists fuel, parse_with_indent_r E fuel s text tokens ind = Done (result, tokens').

Definition release_parse_panics (E : ext) (s : syntax) (text : str) (tokens : list tok) (ind : indent) : Prop :=
  exists fuel, parse_with_indent_r E fuel s text tokens ind = Panic.

Definition release_parse_diverges (E : ext) (s : syntax) (text : str) (tokens : list tok) (ind : indent) : Prop :=
  forall fuel, parse_with_indent_r E fuel s text tokens ind = OutOfFuel.

(** [convert]. *)
Definition release_converts (data : list tok) (ignored : list range) (result : option syntax)
  (ignored' : list range) : Prop :=
  exists fuel, convert_r fuel data ignored = Done (result, ignored').

Definition release_convert_panics (data : list tok) (ignored : list range) : Prop :=
  exists fuel, convert_r fuel data ignored = Panic.

Definition release_convert_diverges (data : list tok) (ignored : list range) : Prop :=
  forall fuel, convert_r fuel data ignored = OutOfFuel.

(** [syntax], up to and with the optimisation. *)
Definition release_reads (E : ext) (text : str) (result : syntax + perr) : Prop :=
  exists fuel, syntax_unoptimized_r E fuel text = Done result.

Definition release_reading_panics (E : ext) (text : str) : Prop :=
  exists fuel, syntax_unoptimized_r E fuel text = Panic.

Definition release_syntax (E : ext) (text : str) (result : syntax + perr) : Prop :=
  exists fuel, lib_syntax_r E fuel text = Done result.

(** [load_syntax_data]. *)
Definition release_loads (E : ext) (syntax_file data_file : option str) (result : ended (list tok)) : Prop :=
  exists fuel, load_syntax_data_r E fuel syntax_file data_file = Done result.

(** The same data, but for the values of numbers. *)
Definition but_numbers (a b : tok) : Prop :=
  fst a = fst b /\
  match snd a, snd b with
  | MF64 n _, MF64 m _ => n = m
  | x, y => x = y
  end.

(** The same rules, but for debug ids. *)
Definition but_ids (a b : option syntax) : Prop :=
  match a, b with
  | Some s, Some s' => s_names s = s_names s' /\ Forall2 (like_rule any_ids) (s_rules s) (s_rules s')
  | None, None => True
  | _, _ => False
  end.

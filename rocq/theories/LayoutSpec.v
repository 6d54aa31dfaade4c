(** How the JSON output is laid out: lines, indentation, commas and length. *)
From Coq Require Import Ascii String List NArith Bool Arith.
From Verif Require Import Base Ext Types JsonSpec.
Import ListNotations.
Local Open Scope list_scope.

(** A text of lines, each ended by a line break. *)
Definition of_lines (lines : list str) : str := concat (map (fun l => l ++ [newline]) lines).

(** How many nodes are open around the item [k]; the beginning and the end of a node stand
    outside of it. Nodes that are never closed or never opened add to it everywhere. *)
Definition open_around (data : list metadata) (k : nat) : nat :=
  imbalance data + opened (firstn k data) - closed (firstn (S k) data).

(** Behind the item [k] another one follows in the same node, so that a comma is needed. *)
Definition goes_on (data : list metadata) (k : nat) : Prop :=
  exists d e, nth_error data k = Some d /\ nth_error data (S k) = Some e /\
    (forall name, d <> StartNode name) /\ (forall name, e <> EndNode name).

Section Layout.
  Variable E : ext.

  (** The text of an item. [quoted s t]: [t] is [s] in quotes, with JSON's escapes for line breaks
      and tabs as well. *)
  Definition quoted (s t : str) : Prop := exists u, t = quote :: u ++ [quote] /\ chars_text (fun c => ~ In c [10; 13; 9]%N) s u.

  Inductive item_text : metadata -> str -> Prop :=
  | item_start : forall name t, quoted name t -> item_text (StartNode name) (t ++ s2l ":{")
  | item_end : forall name, item_text (EndNode name) (s2l "}")
  | item_bool : forall name b t, quoted name t ->
      item_text (MBool name b) (t ++ s2l (if b then ":true" else ":false"))
  | item_number : forall name x t, quoted name t -> item_text (MF64 name x) (t ++ colon :: x_fmt_f64 E x)
  | item_string : forall name v t u, quoted name t -> quoted v u -> item_text (MString name v) (t ++ colon :: u).

  (** The lines show the data: line [k] is item [k], behind one space for each open node. *)
  Definition shows (data : list metadata) (lines : list str) : Prop :=
    length lines = length data /\
    forall k d line, nth_error data k = Some d -> nth_error lines k = Some line ->
      exists t comma, line = repeat space (open_around data k) ++ t ++ comma /\ item_text d t /\
        ((goes_on data k /\ comma = s2l ",") \/ (~ goes_on data k /\ comma = [])).
End Layout.

(** No number is printed with a line break. *)
Definition one_line_numbers (E : ext) (data : list metadata) : Prop :=
  forall name x, In (MF64 name x) data -> ~ In newline (x_fmt_f64 E x).

(** What the items hold, in characters. *)
Definition content (E : ext) (d : metadata) : nat :=
  match d with
  | StartNode name => length name
  | EndNode _ => 0
  | MBool name _ => length name
  | MF64 name x => length name + length (x_fmt_f64 E x)
  | MString name v => length name + length v
  end.

Definition contents (E : ext) (data : list metadata) : nat := list_sum (map (content E) data).

(** The spaces in front of all lines. *)
Definition spaces_before (data : list metadata) : nat := list_sum (map (open_around data) (seq 0 (length data))).

(** ** A syntax with nested nodes: [1 doc = ["(" ?doc:"a" ")"]] *)
Definition paren_rules : str := s2l "1 doc = [""("" ?doc:""a"" "")""]".
Definition parens (n : nat) : str := repeat 40%N n ++ repeat 41%N n.

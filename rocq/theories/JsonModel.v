(** Model of src/json.rs: writing meta data as JSON. The writer [W] is a string that is
    appended to; IO errors are in IoModel.v. *)
From Coq Require Import Ascii String List NArith Bool Arith.
From Verif Require Import Base Ext Types.
Import ListNotations.
Local Open Scope list_scope.

(** src/json.rs:76-88, the text written for one character of a string. *)
Definition write_char (c : char) : str :=
  if N.eqb c 92 then [92%N; 92%N]
  else if N.eqb c 34 then [92%N; 34%N]
  else if N.eqb c 10 then [92%N; 110%N]
  else if N.eqb c 13 then [92%N; 114%N]
  else if N.eqb c 9 then [92%N; 116%N]
  else [c].

(** src/json.rs:71-92 [write_string]. *)
Definition write_string (val : str) : str :=
  [quote] ++ flat_map write_char val ++ [quote].

(** [Display] for [bool]. *)
Definition fmt_bool (b : bool) : str := if b then s2l "true" else s2l "false".

Definition is_start (d : tok) : bool :=
  match snd d with StartNode _ => true | _ => false end.
Definition is_end (d : tok) : bool :=
  match snd d with EndNode _ => true | _ => false end.

Section Json.
  Variable E : ext.

  (** src/json.rs:40-63, what is written for one item after the indentation. *)
  Definition write_item (d : metadata) : str :=
    match d with
    | StartNode name => write_string name ++ s2l ":{"
    | EndNode _ => s2l "}"
    | MBool name val => write_string name ++ s2l ":" ++ fmt_bool val
    | MF64 name val => write_string name ++ s2l ":" ++ x_fmt_f64 E val
    | MString name val => write_string name ++ s2l ":" ++ write_string val
    end.

  (** src/json.rs:25-65, the loop; [out] is what was written so far. The [u32] counter is
      a natural number: fewer than 2^32 open nodes; going below zero is a panic. *)
  Fixpoint write_loop (data : list tok) (i : nat) (first : bool) (indent : nat) (out : str)
    : outcome str :=
    match data with
    | [] => Done out
    | d :: rest =>
      let e := is_end d in
      if e && Nat.eqb indent 0 then Panic
      else
        let indent1 := if e then indent - 1 else indent in
        let print_comma := negb first && negb e in
        let out1 := if print_comma then out ++ s2l "," ++ [newline]
                    else if Nat.eqb i 0 then out else out ++ [newline] in
        let out2 := out1 ++ repeat space indent1 in
        let s := is_start d in
        write_loop rest (S i) s (if s then S indent1 else indent1)
          (out2 ++ write_item (snd d))
    end.

  (** src/json.rs:9-68 [write]. *)
  Definition json_write (data : list tok) : outcome str :=
    let starts := length (filter is_start data) in
    let ends := length (filter is_end data) in
    let indent := Nat.max starts ends - Nat.min starts ends in
    do out <- write_loop data 0 true indent [];
    Done (out ++ [newline]).
End Json.

(** What an error report shows. *)
From Coq Require Import Ascii String List NArith Bool Arith.
From Verif Require Import Base Ext Types ParseModel PegSpec HandlerModel LibModel.
Import ListNotations.
Local Open Scope string_scope.
Local Open Scope list_scope.
Local Open Scope nat_scope.

(** The line of a text between two line breaks: what is in front of it, the line, and what
    is behind it. *)
Record line_of (text prefix line suffix : str) : Prop := {
  line_text : text = prefix ++ line ++ suffix;
  line_prefix : prefix = [] \/ exists p, prefix = p ++ [newline];
  line_no_break : ~ In newline line;
  line_suffix : suffix = [] \/ exists q, suffix = newline :: q
}.

(** Number of line breaks. *)
Fixpoint line_breaks (s : str) : nat :=
  match s with
  | [] => 0
  | c :: s' => if N.eqb c newline then S (line_breaks s') else line_breaks s'
  end.

(** The position as it is printed, counting from one. *)
Definition position (line col : nat) : str :=
  fmt_nat (line + 1) ++ s2l "," ++ fmt_nat (col + 1) ++ s2l ": ".

(** Long lines are cut in front, and after 100 characters. *)
Definition window_start (col : nat) : nat := if col <=? 75 then 0 else col - 50.

Definition excerpt (col : nat) (line : str) : str := firstn 100 (skipn (window_start col) line).

(** Tabs where the excerpt has tabs, spaces elsewhere. *)
Definition padding (col : nat) (line : str) : str :=
  map (fun c => if N.eqb c tab then tab else space)
    (firstn (col - window_start col) (skipn (window_start col) line)).

(** The following lines that the range reaches, each shown from its start. [p] is the
    offset behind the line before, [last] is the end of the range. *)
Inductive following (size : str -> nat) (last : nat) : nat -> nat -> str -> str -> Prop :=
| following_none : forall n p, following size last n p [] []
| following_behind : forall n p q, last < p + 1 -> following size last n p (newline :: q) []
| following_line : forall n p line suffix out,
    p + 1 <= last -> ~ In newline line -> suffix = [] \/ (exists q, suffix = newline :: q) ->
    following size last (S n) (p + 1 + size line) suffix out ->
    following size last n p (newline :: line ++ suffix)
      (position n 0 ++ excerpt 0 line ++ [newline] ++ out).

(** Lines with their numbers. *)
Fixpoint numbered (i : nat) (ls : list str) : str :=
  match ls with
  | [] => []
  | l :: ls' => fmt_nat (i + 1) ++ s2l ": " ++ l ++ [newline] ++ numbered (S i) ls'
  end.

(** When some text was expected, the lines in front are shown, from the last line that is
    not blank. *)
Inductive shown_before : parse_error -> str -> str -> Prop :=
| shown_nothing : forall e prefix,
    (forall t id, e <> ExpectedTag t id) -> shown_before e prefix []
| shown_first_line : forall e, shown_before e [] []
| shown_lines : forall t id a x blank,
    Forall (fun l => ~ In newline l) (a ++ x :: blank) ->
    Forall (Forall white) blank -> a = [] \/ ~ Forall white x ->
    shown_before (ExpectedTag t id) (flat_map (fun l => l ++ [newline]) (a ++ x :: blank))
      (numbered (length a) (x :: blank)).

(** The report for an error whose range starts in the given line, where [size] measures
    offsets. *)
Definition points_at (E : ext) (size : str -> nat) (e : perr) (prefix line suffix : str)
  (out : str) : Prop :=
  let n := line_breaks prefix in
  let col := r_off (fst e) - size prefix in
  exists before behind,
    shown_before (snd e) prefix before /\
    following size (next_offset (fst e)) (S n) (size prefix + size line) suffix behind /\
    out = s2l "Error " ++ fmt_error E (snd e) ++ [newline] ++ before ++
          position n col ++ excerpt col line ++ [newline] ++
          position n col ++ padding col line ++ s2l "^" ++ [newline] ++ behind.

Definition ascii (c : char) : Prop := (c < 128)%N.

(** [parse_errstr_with_indent] without fuel. *)
Definition errstr_returns (E : ext) (s : syntax) (text : str) (tokens : list tok) (ind : indent)
  (result : option str) (tokens' : list tok) : Prop :=
  exists fuel, parse_errstr_with_indent E fuel s text tokens ind = Done (result, tokens').

Definition errstr_panics (E : ext) (s : syntax) (text : str) (tokens : list tok) (ind : indent)
  : Prop :=
  exists fuel, parse_errstr_with_indent E fuel s text tokens ind = Panic.

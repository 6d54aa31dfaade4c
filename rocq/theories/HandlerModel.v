(** Model of src/parse_error.rs (messages) and src/parse_error_handler.rs.
    The writer [W] is a string that is appended to; IO errors are in IoModel.v. *)
From Coq Require Import Ascii String List NArith Bool Arith.
From Verif Require Import Base Ext Types.
Import ListNotations.
Local Open Scope string_scope.
Local Open Scope list_scope.
Local Open Scope nat_scope.

(** The messages of src/meta_rules/select.rs:52 and src/meta_rules/node.rs:49. *)
Definition fmt_invalid_msg (m : invalid_msg) : str :=
  match m with
  | SelectEmpty => s2l "`Select` requires at least one sub rule"
  | NodeNotUpdated => s2l "Node rule is not updated to reference"
  end.

(** src/parse_error.rs:41-75, [Display] for [ParseError]. *)
Definition fmt_error (E : ext) (e : parse_error) : str :=
  let pre (id : N) := s2l "#" ++ fmt_N id ++ s2l ", " in
  match e with
  | ExpectedWhitespace id => pre id ++ s2l "Expected whitespace"
  | ExpectedNewLine id => pre id ++ s2l "Expected new line"
  | ExpectedSomething id => pre id ++ s2l "Expected something"
  | ExpectedNumber id => pre id ++ s2l "Expected number"
  | ParseNumberError id => pre id ++ s2l "Invalid number format: " ++ x_fmt_number_error E
  | ExpectedTag t id => pre id ++ s2l "Expected: `" ++ t ++ s2l "`"
  | DidNotExpectTag t id => pre id ++ s2l "Did not expect: `" ++ t ++ s2l "`"
  | ExpectedText id => pre id ++ s2l "Expected text"
  | EmptyTextNotAllowed id => pre id ++ s2l "Empty text not allowed"
  | ParseStringError e id => pre id ++ s2l "Invalid string format: " ++ x_fmt_string_error E e
  | InvalidRule m id => pre id ++ s2l "Invalid rule: " ++ fmt_invalid_msg m
  | NoRules => s2l "No rules are specified"
  | ExpectedEnd => s2l "Expected end"
  | Conversion m => s2l "Conversion, " ++ m
  end.

(** [str::split] on the line break. *)
Fixpoint split_lines (s : str) : list str :=
  match s with
  | [] => [[]]
  | c :: s' =>
    if N.eqb c newline then [] :: split_lines s'
    else match split_lines s' with
         | l :: ls => (c :: l) :: ls
         | [] => [[c]]
         end
  end.

(** src/parse_error_handler.rs:27-32, the loop of [new]; [line.len()] is in bytes. *)
Fixpoint number_lines (start : nat) (ls : list str) : list (range * str) :=
  match ls with
  | [] => []
  | l :: ls' =>
    let length := byte_len l in
    (Rng start length, l) :: number_lines (start + (length + 1)) ls'
  end.

(** src/parse_error_handler.rs:24-37 [ParseErrorHandler::new]. *)
Definition handler_new (text : str) : list (range * str) := number_lines 0 (split_lines text).

(** src/parse_error_handler.rs:133-141, spaces up to the pointer. *)
Definition pointer_char (c : char) : char := if N.eqb c tab then tab else space.

(** src/parse_error_handler.rs:47-76 and 123-150, the loop printing the lines that the
    range touches, from line index [i]. [e - s] and [j - s] below zero are panics. *)
Fixpoint report_loop (lines : list (range * str)) (rg : range) (i : nat) (printed : bool)
  (out : str) : outcome str :=
  match lines with
  | [] => Done out
  | (r, text) :: rest =>
    match ends_intersect rg r with
    | None => report_loop rest rg (S i) printed out
    | Some intersect =>
      if r_off intersect <? r_off r then report_loop rest rg (S i) printed out
      else
        let j := r_off intersect - r_off r in
        let s := if 75 <? j then j - 50 else 0 in
        let e := Nat.min (s + 100) (r_len r) in
        let pos := fmt_nat (i + 1) ++ s2l "," ++ fmt_nat (j + 1) ++ s2l ": " in
        if e <? s then Panic
        else
          let out1 := out ++ pos ++ firstn (e - s) (skipn s text) ++ [newline] in
          if printed then report_loop rest rg (S i) true out1
          else
            let out2 :=
              out1 ++ pos ++ map pointer_char (firstn (j - s) (skipn s text)) ++
              s2l "^" ++ [newline] in
            report_loop rest rg (S i) true out2
    end
  end.

(** src/parse_error_handler.rs:40-78 [write_msg]. *)
Definition handler_write_msg (lines : list (range * str)) (rg : range) (msg : str)
  : outcome str :=
  report_loop lines rg 0 false (msg ++ [newline]).

(** src/parse_error_handler.rs:87-99 [first_line], only the index. *)
Fixpoint first_line (lines : list (range * str)) (rg : range) (i : nat) : option nat :=
  match lines with
  | [] => None
  | (r, _) :: rest =>
    match ends_intersect rg r with
    | Some _ => Some i
    | None => first_line rest rg (S i)
    end
  end.

(** src/parse_error_handler.rs:108-113: going backwards through the lines in front,
    [prev] is the index of the last line looked at; stops at a line that is not blank.
    [rev_lines] are the lines before index [n], last first. *)
Fixpoint prev_line (rev_lines : list (range * str)) (n prev : nat) : nat :=
  match rev_lines with
  | [] => prev
  | (_, text) :: rest =>
    if forallb is_ws text then prev_line rest (n - 1) (n - 1) else n - 1
  end.

(** src/parse_error_handler.rs:114-117, lines with their numbers. *)
Fixpoint print_lines (lines : list (range * str)) (i : nat) : str :=
  match lines with
  | [] => []
  | (_, text) :: rest =>
    fmt_nat (i + 1) ++ s2l ": " ++ text ++ [newline] ++ print_lines rest (S i)
  end.

(** src/parse_error_handler.rs:81-152 [write]. *)
Definition handler_write (E : ext) (lines : list (range * str)) (e : perr) : outcome str :=
  let (rg, error) := e in
  let out := s2l "Error " ++ fmt_error E error ++ [newline] in
  let out1 :=
    match error with
    | ExpectedTag _ _ =>
      match first_line lines rg 0 with
      | Some n =>
        let p := prev_line (rev (firstn n lines)) n 0 in
        out ++ print_lines (skipn p (firstn n lines)) p
      | None => out
      end
    | _ => out
    end in
  report_loop lines rg 0 false out1.

(** The text that [parse_errstr] and [syntax_errstr] return for an error. *)
Definition error_report (E : ext) (text : str) (e : perr) : outcome str :=
  handler_write E (handler_new text) e.

(** Tabs and spaces in front of the lines of an indented block. *)
From Coq Require Import Ascii String List NArith Bool Arith.
From Verif Require Import Base Ext Types PegSpec RuleSpec Examples.
Import ListNotations.
Local Open Scope string_scope.
Local Open Scope list_scope.
Local Open Scope nat_scope.

(** The blanks [a] are as wide as [c] or wider, and no fewer of them are. A tab counts [tabs]. *)
Definition reaches (tabs : N) (c : N) (a : str) : Prop :=
  Forall blank a /\ (c <= width tabs a)%N /\
  forall a' b', a = a' ++ b' -> b' <> [] -> (width tabs a' < c)%N.

(** No blank is ahead. *)
Definition no_blank_ahead (x : str) : Prop := forall c, hd_error x = Some c -> ~ blank c.

Definition no_space_ahead (x : str) : Prop := hd_error x <> Some space.

(** A line at column [c]: the blanks that reach the column are not followed by a space. *)
Definition line_at (tabs : N) (c : N) (line : str) : Prop :=
  exists a y, line = a ++ y /\ reaches tabs c a /\ no_space_ahead y.

(** A first line that sets the column [c] of a block inside of column [outer]: the blanks behind
    those that reach [outer] are counted on from there. *)
Definition first_line_at (tabs : N) (outer c : N) (line : str) : Prop :=
  exists a b y, line = a ++ b ++ y /\ reaches tabs outer a /\ Forall blank b /\ no_blank_ahead y /\
    c = (outer + width tabs b)%N.

(** The blanks [a] can be cut at column [outer], or are all alike. *)
Definition clean (tabs : N) (outer : N) (a : str) : Prop :=
  (exists a' b', a = a' ++ b' /\ width tabs a' = outer) \/
  Forall (fun c => c = tab) a \/ Forall (fun c => c = space) a.

(** Something that starts with no white space and does not end its line. *)
Definition item_text (x : str) : Prop := (exists c y, x = c :: y /\ ~ white c) /\ ~ ends_line x.

(** The rule reads [x] at the end of a line, inside of column [c]. *)
Definition reads_item (E : ext) (refs : list rule) (r : rule) (ind : indent) (c : N) (x : str) : Prop :=
  forall p rest, rest = [] \/ hd_error rest = Some newline ->
  exists out ind', runs E refs r (set_indent ind (c + 1)) p (x ++ rest) (Yes (length x) out) ind'.

(** Lines, each of them blanks and text. *)
Definition more_lines (lines : list (str * str)) : str :=
  concat (map (fun l => newline :: fst l ++ snd l) lines).

(** A line not at column [c]: it has too few blanks, or a space behind those that reach it. *)
Definition not_at (tabs : N) (c : N) (b : str) : Prop :=
  (width tabs b < c)%N \/
  exists b1 b2, b = b1 ++ b2 /\ reaches tabs c b1 /\ hd_error b2 = Some space.

(** ** Rules for the witnesses *)

(** The rules of examples/indent.rs:15-18. *)
Definition indent_rules : str := tx "
        2 node = [.$:""num"" .l+(node:""node"")]
        1 document = [.w? node:""node"" .w?]
    ".

(** Items, each with a block of numbers. *)
Definition two_level_rules : str := tx "1 item = [.$:""n"" .l+(.$:""k"")]
2 doc = .l+(item)".

Definition one_level_rules : str := tx "1 doc = .l+([.w? .$:""n""])".

(** Nodes as parentheses, numbers below 10 as digits. *)
Definition shape_of (m : metadata) : char :=
  match m with
  | StartNode _ => 40
  | EndNode _ => 41
  | MF64 _ v => 48 + f64_as_usize v
  | _ => 63
  end%N.
Definition shape (l : list metadata) : str := map shape_of l.

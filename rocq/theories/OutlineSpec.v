(** Outlines: trees written with one item on each line, where the depth is told by the spaces in
    front of the line. *)
From Coq Require Import Ascii String List NArith Bool Arith.
From Verif Require Import Base Ext Types PegSpec RuleSpec Examples.
Import ListNotations.
Local Open Scope string_scope.
Local Open Scope list_scope.
Local Open Scope nat_scope.

(** An item has a text, what the text stands for, and items below it. The items below all stand
    in one column, each behind a gap of white space. *)
Inductive tree := Tree (head : str) (gives : list metadata) (column : N) (kids : list (str * tree)).

Definition spaces (c : N) : str := repeat space (N.to_nat c).

(** How the tree is written, from the first character of its item on. *)
Fixpoint written (t : tree) : str :=
  match t with
  | Tree x _ c kids => x ++ concat (map (fun k => fst k ++ spaces c ++ written (snd k)) kids)
  end.

(** What the tree stands for: a node for each item, the items below inside of it. *)
Fixpoint nodes (name : str) (t : tree) : list metadata :=
  match t with
  | Tree _ m _ kids => StartNode name :: m ++ concat (map (fun k => nodes name (snd k)) kids) ++ [EndNode name]
  end.

(** White space that ends with a line break. *)
Definition breaks (g : str) : Prop := exists w, g = w ++ [newline] /\ Forall white w.

(** Every item stands on a line of its own, but the first one below may stand on the line of the
    item above it. *)
Definition gaps (kids : list (str * tree)) : Prop :=
  match kids with
  | [] => True
  | (g, _) :: rest => (g = [] \/ breaks g) /\ Forall (fun k => breaks (fst k)) rest
  end.

(** The items below are in column [i] or further right, those below them still further. *)
Inductive outline (head : str -> list metadata -> Prop) : N -> tree -> Prop :=
| outline_tree : forall i x m c kids,
    head x m -> gaps kids -> (kids <> [] -> (i <= c < u32_max)%N) ->
    Forall (fun k => outline head (c + 1) (snd k)) kids ->
    outline head i (Tree x m c kids).

(** The first item below follows the item immediately. *)
Definition glued (t : tree) : Prop :=
  match t with
  | Tree _ _ c (([], _) :: _) => c = 0%N
  | _ => False
  end.

(** A text that starts and ends with something else than white space. *)
Definition solid (x : str) : Prop :=
  (exists c y, x = c :: y /\ ~ white c) /\ (exists y c, x = y ++ [c] /\ ~ white c).

(** The rule [h] reads the texts told by [head], when white space or nothing follows, and nothing
    else. *)
Definition reads_heads (E : ext) (refs : list rule) (h : rule) (head : str -> list metadata -> Prop) : Prop :=
  (forall x m, head x m -> solid x /\
     forall ind p rest, rest = [] \/ (exists c y, rest = c :: y /\ white c) ->
     exists out, runs E refs h ind p (x ++ rest) (Yes (length x) out) ind /\ map snd out = m) /\
  (forall ind p s n out ind', runs E refs h ind p s (Yes n out) ind' ->
     ind' = ind /\ n <= length s /\ head (firstn n s) (map snd out)).

(** Rules as in examples/indent.rs:15-18: a document is a node, a node is an item with indented
    lines of nodes below it. *)
Definition outline_syntax (s : syntax) (name : str) (h : rule) : Prop :=
  exists i a b c d e f g name1 name2,
    start_rule s (RSequence [RWhitespace true a; RNode name1 (Some name) (Some i) b; RWhitespace true c] d) /\
    nth_error (s_rules s) i =
      Some (RSequence [h; RLines (RNode name2 (Some name) (Some i) e) true f] g).

(** A number, without underscores. *)
Definition number_head (E : ext) (property : str) (x : str) (m : list metadata) : Prop :=
  x_number E false x = Some (length x) /\
  exists v, x_parse_number E false x = Some v /\ m = [MF64 property v].

(** ** The document of examples/indent.rs:6-13 *)

Definition item (digit : N) : list metadata :=
  match x_parse_number std_ext false [digit] with
  | Some v => [MF64 (tx "num") v]
  | None => []
  end.

Definition line_break : str := [newline].
Definition leaf (digit : N) : tree := Tree [digit] (item digit) 0 [].
Definition indent_tree : tree :=
  Tree [49%N] (item 49) 1
    [(line_break, Tree [50%N] (item 50) 2 [(line_break, leaf 51); (line_break, leaf 52)]);
     (line_break, Tree [53%N] (item 53) 2 [(line_break, leaf 54)])].
Definition indent_text : str := tx "
1
 2
  3
  4
 5
  6
    ".

(** An item directly behind another one: the text is 12. *)
Definition glued_tree : tree := Tree [49%N] (item 49) 0 [([], leaf 50)].

(** How a syntax is written as text in the meta language, after the README; independent of
    the rules that read it. *)
From Coq Require Import Ascii String List NArith Bool Arith.
From Verif Require Import Base Ext Types PegSpec JsonSpec WriteSpec.
Import ListNotations.
Local Open Scope string_scope.
Local Open Scope list_scope.
Local Open Scope nat_scope.

(** ** Names, texts and numbers *)

(** The characters that end a name, besides white space. *)
Definition separators : str := s2l "[]{}():.!?""".

Definition name_char (c : char) : Prop := ~ white c /\ ~ In c separators.

Definition is_name (n : str) : Prop := n <> [] /\ Forall name_char n.

(** The name of a rule: names that start with an underscore are those of strings. *)
Definition is_rule_name (n : str) : Prop := is_name n /\ hd_error n <> Some 95%N.

(** A text in quotes. *)
Definition quoted (v t : str) : Prop :=
  exists c, chars_text (fun _ => True) v c /\ t = quote :: c ++ [quote].

(** The same as far as the reader of texts goes: it is read as a text, to its end, whatever
    follows. *)
Definition literal (E : ext) (v t : str) : Prop :=
  (exists t', t = quote :: t') /\ (forall rest, x_string E (t ++ rest) = Some (length t)) /\
  x_parse_string E t = inl v.

(** [t] is a number literal: in front of white space it is read as a number, to its end.
    It starts with neither an underscore nor a slash. *)
Definition numeral (E : ext) (x : f64) (t : str) : Prop :=
  (exists c t', t = c :: t' /\ ~ white c /\ c <> 95%N /\ c <> 47%N) /\
  (forall c rest, white c -> x_number E false (t ++ c :: rest) = Some (length t)) /\
  x_parse_number E false t = Some x.

(** What is assumed of numbers: none starts with a slash. *)
Definition no_slash_number (E : ext) : Prop :=
  forall rest, x_number E false (47%N :: rest) = None.

(** ** Rules *)

Definition mark (optional : bool) : str := if optional then s2l "?" else s2l "!".
Definition sign (b : bool) (t : str) : str := if b then t else [].

(** A tag that must be there. *)
Definition positive_tag (r : rule) : Prop :=
  match r with RTag _ false _ _ _ => True | _ => False end.

Section Text.
  (** The texts in quotes: text and how it is written. *)
  Variable lit : str -> str -> Prop.
  (** What the names of strings stand for. *)
  Variable def : str -> str -> Prop.

  (** A text, in quotes or by the name of a string. Where an empty text is not allowed, there
      is more than the two quotes. *)
  Inductive mtext (allow_empty : bool) : str -> str -> Prop :=
  | mtext_quoted : forall v t,
      lit v t -> allow_empty = true \/ length t <> 2 -> mtext allow_empty v t
  | mtext_name : forall v n, is_name n -> def n v -> mtext allow_empty v (s2l "_" ++ n).

  (** A property, or none. *)
  Inductive mprop : option str -> str -> Prop :=
  | mprop_none : mprop None []
  | mprop_some : forall v t, mtext false v t -> mprop (Some v) (s2l ":" ++ t).

  (** [mrule r t]: the text [t] writes the rule [r]. Debug ids are not written. *)
  Inductive mrule : rule -> str -> Prop :=
  | m_whitespace : forall b id, mrule (RWhitespace b id) (s2l ".w" ++ mark b)
  | m_until_any_or_ws : forall any o p id t tp, mtext true any t -> mprop p tp ->
      mrule (RUntilAnyOrWs any o p id) (s2l ".." ++ t ++ mark o ++ tp)
  | m_until_any : forall any o p id t tp, mtext true any t -> mprop p tp ->
      mrule (RUntilAny any o p id) (s2l "..." ++ t ++ mark o ++ tp)
  | m_lines : forall r i id w1 t w2, Forall white w1 -> mrule r t -> Forall white w2 ->
      mrule (RLines r i id) (s2l ".l" ++ sign i (s2l "+") ++ s2l "(" ++ w1 ++ t ++ w2 ++ s2l ")")
  | m_repeat : forall r o id t, mrule r t ->
      mrule (RRepeat r o id) (s2l ".r" ++ mark o ++ s2l "(" ++ t ++ s2l ")")
  | m_number : forall u p id tp, mprop p tp ->
      mrule (RNumber u p id) (s2l ".$" ++ sign u (s2l "_") ++ tp)
  | m_text : forall b p id tp, mprop p tp ->
      mrule (RText b p id) (s2l ".t" ++ mark b ++ tp)
  | m_reference : forall name p id tp, is_rule_name name -> mprop p tp ->
      mrule (RNode name p None id) (name ++ tp)
  | m_sequence : forall args id w t, Forall white w -> margs args t ->
      mrule (RSequence args id) (s2l "[" ++ w ++ t ++ s2l "]")
  | m_select : forall args id w t, Forall white w -> margs args t ->
      mrule (RSelect args id) (s2l "{" ++ w ++ t ++ s2l "}")
  | m_separate_by : forall r by_ o dot id w1 tb w2 tr w3,
      Forall white w1 -> mrule by_ tb -> Forall white w2 -> w2 <> [] -> mrule r tr ->
      Forall white w3 ->
      mrule (RSeparateBy r by_ o true id)
        (s2l ".s" ++ mark o ++ sign dot (s2l ".") ++ s2l "(" ++ w1 ++ tb ++ w2 ++ tr ++ w3 ++ s2l ")")
  | m_tag : forall v n id t, mtext false v t ->
      mrule (RTag v n false None id) (sign n (s2l "!") ++ t)
  | m_tag_prop : forall v n i p id t tp, mtext false v t -> mtext false p tp ->
      mrule (RTag v n i (Some p) id) (sign n (s2l "!") ++ t ++ s2l ":" ++ sign i (s2l "!") ++ tp)
  | m_optional : forall r id t, mrule r t -> mrule (ROptional r id) (s2l "?" ++ t)
  (** [!"a"] is a tag that must not be there. *)
  | m_not : forall r id t, mrule r t -> ~ positive_tag r -> mrule (RNot r id) (s2l "!" ++ t)
  (** At least one rule, with white space between the rules. *)
  with margs : list rule -> str -> Prop :=
  | m_last : forall r t w, mrule r t -> Forall white w -> margs [r] (t ++ w)
  | m_more : forall r t w rs ts, mrule r t -> Forall white w -> w <> [] -> margs rs ts ->
      margs (r :: rs) (t ++ w ++ ts).

  Scheme mrule_ind' := Minimality for mrule Sort Prop
  with margs_ind' := Minimality for margs Sort Prop.
  Combined Scheme mrule_mutind from mrule_ind', margs_ind'.
End Text.

(** ** Comments *)

(** [t] does not start with the character. *)
Definition not_before (c : char) (t : str) : Prop := hd_error t <> Some c.

(** The text between [/*] and [*/]; comments nest. *)
Inductive comment_body : str -> Prop :=
| comment_nil : comment_body []
| comment_char : forall c b, c <> 42%N -> c <> 47%N -> comment_body b -> comment_body (c :: b)
| comment_star : forall b, not_before 47%N b -> comment_body b -> comment_body (42%N :: b)
| comment_slash : forall b, b <> [] -> not_before 42%N b -> comment_body b ->
    comment_body (47%N :: b)
| comment_nested : forall a b, comment_body a -> comment_body b ->
    comment_body (s2l "/*" ++ a ++ s2l "*/" ++ b).

(** ** Documents *)

Inductive entry :=
| EString (name text : str)
| ENode (number : f64) (name : str) (r : rule)
| EComment.

(** An entry, and white space behind it. *)
Inductive entry_text (E : ext) (lit def : str -> str -> Prop) : entry -> str -> Prop :=
| entry_string : forall n v t w1 w2, is_name n -> lit v t -> Forall white w1 -> Forall white w2 ->
    entry_text E lit def (EString n v) (s2l "_" ++ n ++ s2l ":" ++ w1 ++ t ++ w2)
| entry_node : forall x num n r w1 w2 w3 t w4,
    numeral E x num -> is_rule_name n -> mrule lit def r t ->
    Forall white w1 -> w1 <> [] -> Forall white w2 -> w2 <> [] -> Forall white w3 -> Forall white w4 ->
    entry_text E lit def (ENode x n r) (num ++ w1 ++ n ++ w2 ++ s2l "=" ++ w3 ++ t ++ w4)
| entry_comment : forall b w, comment_body b -> Forall white w ->
    entry_text E lit def EComment (s2l "/*" ++ b ++ s2l "*/" ++ w)
| entry_line_comment : forall c, ~ In newline c -> entry_text E lit def EComment (s2l "//" ++ c).

(** Entries on lines of their own. *)
Inductive entries_text (E : ext) (lit def : str -> str -> Prop) : list entry -> str -> Prop :=
| entries_none : forall w, Forall white w -> entries_text E lit def [] w
| entries_last : forall w e t, Forall white w -> entry_text E lit def e t ->
    entries_text E lit def [e] (w ++ t)
| entries_more : forall w e t es rest, Forall white w -> entry_text E lit def e t ->
    entries_text E lit def es rest -> entries_text E lit def (e :: es) (w ++ t ++ newline :: rest).

Definition strings_of (es : list entry) : list (str * str) :=
  flat_map (fun e => match e with EString n v => [(n, v)] | _ => [] end) es.

Definition nodes_of (es : list entry) : list (str * f64 * rule) :=
  flat_map (fun e => match e with ENode x n r => [(n, x, r)] | _ => [] end) es.

(** Strings come first, then nodes; comments stand anywhere. *)
Inductive document (E : ext) (strings : list (str * str)) (nodes : list (str * f64 * rule)) :
  str -> Prop :=
| document_of : forall first second text,
    nodes_of first = [] -> strings_of second = [] ->
    strings_of first = strings -> nodes_of second = nodes ->
    entries_text E quoted (defined strings) (first ++ second) text ->
    document E strings nodes text.

(** ** Rules that can be written *)

Definition writable_property (p : option str) : Prop :=
  forall v, p = Some v -> Forall real_char v.
Definition writable_name (n : str) : Prop := is_rule_name n /\ Forall real_char n.

(** What the language has no words for: lists of no rules, inverted tags without a property,
    separated lists that forbid a trailing separator, the negation of a tag (other than as a
    negated tag), optimised selects and resolved references. *)
Inductive expressible : rule -> Prop :=
| e_whitespace : forall o id, expressible (RWhitespace o id)
| e_until_any : forall any o p id, Forall real_char any -> writable_property p ->
    expressible (RUntilAny any o p id)
| e_until_any_or_ws : forall any o p id, Forall real_char any -> writable_property p ->
    expressible (RUntilAnyOrWs any o p id)
| e_text : forall e p id, writable_property p -> expressible (RText e p id)
| e_number : forall u p id, writable_property p -> expressible (RNumber u p id)
| e_tag : forall v n i p id, Forall real_char v -> writable_property p -> (p = None -> i = false) ->
    expressible (RTag v n i p id)
| e_reference : forall n p id, writable_name n -> writable_property p -> expressible (RNode n p None id)
| e_sequence : forall args id, args <> [] -> Forall expressible args -> expressible (RSequence args id)
| e_select : forall args id, args <> [] -> Forall expressible args -> expressible (RSelect args id)
| e_separate_by : forall r b o id, expressible r -> expressible b -> expressible (RSeparateBy r b o true id)
| e_repeat : forall r o id, expressible r -> expressible (RRepeat r o id)
| e_lines : forall r i id, expressible r -> expressible (RLines r i id)
| e_optional : forall r id, expressible r -> expressible (ROptional r id)
| e_not : forall r id, expressible r -> ~ positive_tag r -> expressible (RNot r id).

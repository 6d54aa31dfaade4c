(** Texts of the meta language as far as their form goes: names of strings need not be
    defined. *)
From Coq Require Import Ascii String List NArith Bool Arith.
From Verif Require Import Base Ext Types PegSpec JsonSpec WriteSpec SyntaxSpec TextSpec.
Import ListNotations.
Local Open Scope string_scope.
Local Open Scope list_scope.
Local Open Scope nat_scope.

(** What is assumed of the readers of texts and numbers: where a literal ends does not
    depend on what follows. A text ends with a quote. A number is followed by white space
    here; it starts with neither an underscore nor a slash. *)
Record whole_readers (E : ext) : Prop := {
  whole_string : forall t rest, x_string E (t ++ rest) = Some (length t) ->
    (exists t', t = t' ++ [quote]) /\ forall rest', x_string E (t ++ rest') = Some (length t);
  whole_number : forall t c rest, white c -> x_number E false (t ++ c :: rest) = Some (length t) ->
    forall c' rest', white c' -> x_number E false (t ++ c' :: rest') = Some (length t);
  whole_number_start : forall c rest, c = 95%N \/ c = 47%N -> x_number E false (c :: rest) = None
}.

(** Any name may stand for a string. *)
Definition any_string (_ _ : str) : Prop := True.

(** Strings come first, then nodes; comments stand anywhere. *)
Definition in_order (es : list entry) : Prop :=
  exists first second, es = first ++ second /\ nodes_of first = [] /\ strings_of second = [].

(** [text] has the form of a text in the meta language with these entries. *)
Definition surface (E : ext) (es : list entry) (text : str) : Prop :=
  entries_text E (literal E) any_string es text /\ in_order es.

(** The text is accepted by the built-in rules. *)
Definition accepted (E : ext) (text : str) : Prop := exists tokens, text_data E text tokens.

(** No comment that starts and ends with the same star. *)
Definition no_short_comment (text : str) : Prop :=
  ~ exists a b, text = a ++ s2l "/*/" ++ b.

(** What reading does with two texts is the same. *)
Definition read_alike (E : ext) (text text' : str) : Prop :=
  (forall result, rules_read E text result <-> rules_read E text' result) /\
  (reading_panics E text <-> reading_panics E text') /\
  (forall result, syntax_returns E text result <-> syntax_returns E text' result) /\
  (syntax_panics E text <-> syntax_panics E text') /\
  (syntax_diverges E text <-> syntax_diverges E text').

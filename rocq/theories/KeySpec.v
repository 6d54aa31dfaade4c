(** Key-value files, as read by the rules of examples/key_value.rs: what the files look like and
    what they stand for. *)
From Coq Require Import Ascii String List NArith Bool Arith.
From Verif Require Import Base Ext Types PegSpec Examples.
Import ListNotations.
Local Open Scope string_scope.
Local Open Scope list_scope.
Local Open Scope nat_scope.

(** examples/key_value.rs:13-22. *)
Definition key_value_rules : str := s2l "
        0 document = .l({
            [.w? ""#"" ...""\n""?]
            [.w? ..""=""!:""key"" .w? ""="" .w? {
                .$_:""number""
                {""true"":""bool"" ""false"":!""bool""}
                .t?:""string""
                ..""""!:""value""
            } .w?]
        })".

(** examples/key_value.rs:6-12. *)
Definition key_value_text : str := s2l "
        # A monster
        age = 250
        strength = 200
        name = ""Big Dragon""
        violent = true
    ".

Definition equals : char := 61%N.
Definition hash : char := 35%N.

(** Nothing, or something with that property first. *)
Definition in_front (P : char -> Prop) (rest : str) : Prop :=
  rest = [] \/ exists c r, rest = c :: r /\ P c.

Definition starts_solid (t : str) : Prop := exists c r, t = c :: r /\ ~ white c.
Definition ends_solid (t : str) : Prop := exists r c, t = r ++ [c] /\ ~ white c.

(** A number or a string in quotes neither starts nor ends with white space. *)
Definition solid_literals (E : ext) : Prop :=
  (forall s n, x_number E true s = Some n -> starts_solid (firstn n s) /\ ends_solid (firstn n s)) /\
  (forall s n, x_string E s = Some n -> starts_solid (firstn n s) /\ ends_solid (firstn n s)).

Section Key.
  Variable E : ext.

  (** The text starts with a number; with a string in quotes. *)
  Definition number_ahead (s : str) (t : str) (v : f64) : Prop :=
    exists rest, s = t ++ rest /\ x_number E true s = Some (length t) /\ x_parse_number E true t = Some v.
  Definition string_ahead (s : str) (t : str) (v : str) : Prop :=
    exists rest, s = t ++ rest /\ x_string E s = Some (length t) /\ x_parse_string E t = inl v.

  Definition no_number (s : str) : Prop := forall t v, ~ number_ahead s t v.
  Definition no_bool (s : str) : Prop := ~ starts_with s (tx "true") /\ ~ starts_with s (tx "false").
  Definition no_string (s : str) : Prop := forall t v, ~ string_ahead s t v.

  (** [t], in front of [rest], is a value: a number, a truth value, a string in quotes, or a word
      that does not even start like one of those. *)
  Inductive value (t rest : str) : metadata -> Prop :=
  | value_number : forall v, number_ahead (t ++ rest) t v -> value t rest (MF64 (tx "number") v)
  | value_true : no_number (t ++ rest) -> t = tx "true" -> value t rest (MBool (tx "bool") true)
  | value_false : no_number (t ++ rest) -> t = tx "false" -> value t rest (MBool (tx "bool") false)
  | value_string : forall v, no_number (t ++ rest) -> no_bool (t ++ rest) -> string_ahead (t ++ rest) t v ->
      value t rest (MString (tx "string") v)
  | value_word : no_number (t ++ rest) -> no_bool (t ++ rest) -> no_string (t ++ rest) ->
      t <> [] -> Forall (fun c => ~ white c) t -> in_front white rest ->
      value t rest (MString (tx "value") t).

  Definition key_char (c : char) : Prop := ~ white c /\ c <> equals.

  (** [t], in front of [rest], is an entry: a comment up to the end of the line, or a key and a
      value. *)
  Inductive entry (t rest : str) : list metadata -> Prop :=
  | entry_comment : forall body, t = hash :: body -> ~ In newline body -> in_front (eq newline) rest ->
      entry t rest []
  | entry_pair : forall key a b v m, t = key ++ a ++ equals :: b ++ v ->
      key <> [] -> Forall key_char key -> ~ starts_with key [hash] -> Forall white a -> Forall white b ->
      value v rest m -> entry t rest [MString (tx "key") key; m].

  (** What the file stands for: entries, with white space around them that contains a line
      break between two entries. *)
  Inductive entries : str -> list (list metadata) -> Prop :=
  | entries_none : forall w, Forall white w -> entries w []
  | entries_last : forall w t w' m, Forall white w -> entry t w' m -> Forall white w' ->
      entries (w ++ t ++ w') [m]
  | entries_more : forall w t a b rest m ms, Forall white w -> entry t (a ++ newline :: b ++ rest) m ->
      Forall white a -> Forall white b -> entries rest ms ->
      entries (w ++ t ++ a ++ newline :: b ++ rest) (m :: ms).
End Key.

(** ** Writing such files *)

(** However the line goes on, [v] is read as that value. *)
Definition prints (E : ext) (v : str) (m : metadata) : Prop :=
  forall rest, in_front white rest -> value E v rest m.

Definition good_key (key : str) : Prop :=
  key <> [] /\ Forall key_char key /\ ~ starts_with key [hash].

(** One line for each pair of a key and a printed value. *)
Definition print_pair (kv : str * str) : str := fst kv ++ [space; equals; space] ++ snd kv ++ [newline].

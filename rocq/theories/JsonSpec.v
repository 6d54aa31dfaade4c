(** JSON, after RFC 8259, without escapes of the form [\u]: which texts denote which
    values. *)
From Coq Require Import Ascii String List NArith Bool Arith.
From Verif Require Import Base Ext Types.
Import ListNotations.
Local Open Scope list_scope.

(** Values; a number is the text that denotes it. *)
Inductive json :=
| JString (s : str)
| JBool (b : bool)
| JNumber (w : str)
| JObject (members : list (str * json)).

(** The letter of an escape and the character it stands for. *)
Definition escapes : list (char * char) :=
  [(34, 34); (92, 92); (47, 47); (98, 8); (102, 12); (110, 10); (114, 13); (116, 9)]%N.

(** Space, tab, line feed, carriage return. *)
Definition json_ws (c : char) : Prop := In c [32; 9; 10; 13]%N.

Definition open_brace : char := 123%N.
Definition close_brace : char := 125%N.
Definition colon : char := 58%N.
Definition comma : char := 44%N.

Section Grammar.
  (** Characters that may appear in a string as they are. *)
  Variable raw : char -> Prop.
  (** Texts of numbers. *)
  Variable number : str -> Prop.

  (** [chars_text s t]: the text [t] between quotes denotes the string [s]. *)
  Inductive chars_text : str -> str -> Prop :=
  | chars_nil : chars_text [] []
  | chars_raw : forall c s t,
      c <> quote -> c <> backslash -> raw c -> chars_text s t -> chars_text (c :: s) (c :: t)
  | chars_escape : forall e c s t,
      In (e, c) escapes -> chars_text s t -> chars_text (c :: s) (backslash :: e :: t).

  Inductive json_text : json -> str -> Prop :=
  | text_string : forall s t, chars_text s t -> json_text (JString s) (quote :: t ++ [quote])
  | text_true : json_text (JBool true) (s2l "true")
  | text_false : json_text (JBool false) (s2l "false")
  | text_number : forall w, number w -> json_text (JNumber w) w
  | text_empty : forall w, Forall json_ws w ->
      json_text (JObject []) (open_brace :: w ++ [close_brace])
  | text_object : forall ms t, members_text ms t ->
      json_text (JObject ms) (open_brace :: t ++ [close_brace])
  with members_text : list (str * json) -> str -> Prop :=
  | members_last : forall k v m, member_text k v m -> members_text [(k, v)] m
  | members_more : forall k v m ms t, member_text k v m -> members_text ms t ->
      members_text ((k, v) :: ms) (m ++ comma :: t)
  with member_text : str -> json -> str -> Prop :=
  | member : forall k t v tv a b c d,
      Forall json_ws a -> Forall json_ws b -> Forall json_ws c -> Forall json_ws d ->
      chars_text k t -> json_text v tv ->
      member_text k v (a ++ quote :: t ++ quote :: b ++ colon :: c ++ tv ++ d).

  Scheme json_text_ind' := Minimality for json_text Sort Prop
  with members_text_ind' := Minimality for members_text Sort Prop
  with member_text_ind' := Minimality for member_text Sort Prop.
  Combined Scheme json_text_mutind from json_text_ind', members_text_ind', member_text_ind'.
End Grammar.

(** Strict JSON: no control characters in strings, *)
Definition not_control (c : char) : Prop := (32 <= c)%N.

(** and numbers as the standard has them. *)
Definition digit (c : char) : Prop := (48 <= c <= 57)%N.

Inductive json_int : str -> Prop :=
| int_zero : json_int [48%N]
| int_digits : forall c w, digit c -> c <> 48%N -> Forall digit w -> json_int (c :: w).

Inductive json_fraction : str -> Prop :=
| fraction_none : json_fraction []
| fraction : forall w, w <> [] -> Forall digit w -> json_fraction (46%N :: w).

Inductive json_exponent : str -> Prop :=
| exponent_none : json_exponent []
| exponent : forall e sign w, In e [101; 69]%N -> In sign [[]; [43]; [45]]%N ->
    w <> [] -> Forall digit w -> json_exponent (e :: sign ++ w).

Inductive json_number : str -> Prop :=
| number_parts : forall sign i f e, In sign [[]; [45]]%N ->
    json_int i -> json_fraction f -> json_exponent e -> json_number (sign ++ i ++ f ++ e).

Definition valid_json : json -> str -> Prop := json_text not_control json_number.

(** Permissive JSON: all characters in strings, and words without punctuation. *)
Definition bare (c : char) : Prop :=
  ~ json_ws c /\ ~ In c [quote; open_brace; close_brace; colon; comma].

Definition word (w : str) : Prop :=
  w <> [] /\ Forall bare w /\ w <> s2l "true" /\ w <> s2l "false".

Definition loose_json : json -> str -> Prop := json_text (fun _ => True) word.

(** ** Meta data as JSON *)

Section Members.
  Variable E : ext.

  (** The members of the object that well nested data stands for. *)
  Inductive data_members : list metadata -> list (str * json) -> Prop :=
  | data_nil : data_members [] []
  | data_bool : forall name b rest ms,
      data_members rest ms -> data_members (MBool name b :: rest) ((name, JBool b) :: ms)
  | data_f64 : forall name x rest ms,
      data_members rest ms ->
      data_members (MF64 name x :: rest) ((name, JNumber (x_fmt_f64 E x)) :: ms)
  | data_string : forall name s rest ms,
      data_members rest ms -> data_members (MString name s :: rest) ((name, JString s) :: ms)
  | data_node : forall name inner rest ms ms',
      data_members inner ms -> data_members rest ms' ->
      data_members (StartNode name :: inner ++ EndNode name :: rest) ((name, JObject ms) :: ms').
End Members.

(** The strings and numbers of an item. *)
Definition item_strings (d : metadata) : list str :=
  match d with
  | StartNode n | MBool n _ | MF64 n _ => [n]
  | EndNode _ => []
  | MString n s => [n; s]
  end.

Definition item_numbers (d : metadata) : list f64 :=
  match d with MF64 _ x => [x] | _ => [] end.

(** Numbers print without JSON punctuation. *)
Definition prints_words (E : ext) (data : list metadata) : Prop :=
  forall d x, In d data -> In x (item_numbers d) -> word (x_fmt_f64 E x).

(** A character that [write_string] escapes or that needs no escape. *)
Definition writable (c : char) : Prop := (32 <= c)%N \/ In c [10; 13; 9]%N.

(** ** Nesting depth *)

Fixpoint opened (data : list metadata) : nat :=
  match data with
  | [] => 0
  | StartNode _ :: rest => S (opened rest)
  | _ :: rest => opened rest
  end.

Fixpoint closed (data : list metadata) : nat :=
  match data with
  | [] => 0
  | EndNode _ :: rest => S (closed rest)
  | _ :: rest => closed rest
  end.

(** How much the number of starts differs from the number of ends. *)
Definition imbalance (data : list metadata) : nat :=
  (opened data - closed data) + (closed data - opened data).

(** Some prefix closes more nodes than it opens, by more than the imbalance. *)
Definition over_closed (data : list metadata) : Prop :=
  exists before after, data = before ++ after /\
    opened before + imbalance data < closed before.

(** What is assumed of the crate [read_token]: it reads string literals with JSON's
    escapes. *)
Definition string_literals_ok (E : ext) : Prop :=
  forall s t, chars_text (fun _ => True) s t ->
    (forall rest, x_string E (quote :: t ++ quote :: rest) = Some (length t + 2)) /\
    x_parse_string E (quote :: t ++ [quote]) = inl s.

(** ** A reader for permissive JSON *)

Definition wsb (c : char) : bool := existsb (N.eqb c) [32; 9; 10; 13]%N.

Definition bareb (c : char) : bool :=
  negb (wsb c) && negb (existsb (N.eqb c) [quote; open_brace; close_brace; colon; comma]).

Fixpoint skip_ws (t : str) : str :=
  match t with
  | c :: t' => if wsb c then skip_ws t' else t
  | [] => []
  end.

Fixpoint lookup_escape (e : char) (l : list (char * char)) : option char :=
  match l with
  | (e', c) :: l' => if N.eqb e e' then Some c else lookup_escape e l'
  | [] => None
  end.

(** The string up to the closing quote, and what follows it. *)
Fixpoint read_chars (t : str) : option (str * str) :=
  match t with
  | [] => None
  | c :: t' =>
    if N.eqb c quote then Some ([], t')
    else if N.eqb c backslash then
      match t' with
      | e :: t'' =>
        match lookup_escape e escapes, read_chars t'' with
        | Some x, Some (s, rest) => Some (x :: s, rest)
        | _, _ => None
        end
      | [] => None
      end
    else
      match read_chars t' with
      | Some (s, rest) => Some (c :: s, rest)
      | None => None
      end
  end.

Fixpoint read_word (t : str) : str * str :=
  match t with
  | c :: t' => if bareb c then let (w, rest) := read_word t' in (c :: w, rest) else ([], t)
  | [] => ([], [])
  end.

Fixpoint read_json (fuel : nat) (t : str) : option (json * str) :=
  match fuel with
  | O => None
  | S f =>
    match t with
    | [] => None
    | c :: t' =>
      if N.eqb c quote then
        match read_chars t' with
        | Some (s, rest) => Some (JString s, rest)
        | None => None
        end
      else if N.eqb c open_brace then
        match skip_ws t' with
        | d :: t'' =>
          if N.eqb d close_brace then Some (JObject [], t'')
          else
            match read_members f t' with
            | Some (ms, rest) => Some (JObject ms, rest)
            | None => None
            end
        | [] => None
        end
      else
        match read_word t with
        | ([], _) => None
        | (w, rest) =>
          Some (if str_eqb w (s2l "true") then JBool true
                else if str_eqb w (s2l "false") then JBool false
                else JNumber w, rest)
        end
    end
  end
with read_members (fuel : nat) (t : str) : option (list (str * json) * str) :=
  match fuel with
  | O => None
  | S f =>
    match skip_ws t with
    | q :: t1 =>
      if N.eqb q quote then
        match read_chars t1 with
        | Some (k, t2) =>
          match skip_ws t2 with
          | d :: t3 =>
            if N.eqb d colon then
              match read_json f (skip_ws t3) with
              | Some (v, t4) =>
                match skip_ws t4 with
                | e :: t5 =>
                  if N.eqb e comma then
                    match read_members f t5 with
                    | Some (ms, t6) => Some ((k, v) :: ms, t6)
                    | None => None
                    end
                  else if N.eqb e close_brace then Some ([(k, v)], t5)
                  else None
                | [] => None
                end
              | None => None
              end
            else None
          | [] => None
          end
        | None => None
        end
      else None
    | [] => None
    end
  end.

(** ** Where the lines of the output start *)

(** In the output each item is on a line of its own. The line of an item is indented by the number of nodes that are open there, and the line of the
    end of a node by the number of nodes that are open behind it. *)
Fixpoint line_depths (depth : nat) (data : list metadata) : list nat :=
  match data with
  | [] => []
  | StartNode _ :: rest => depth :: line_depths (S depth) rest
  | EndNode _ :: rest => (depth - 1) :: line_depths (depth - 1) rest
  | _ :: rest => depth :: line_depths depth rest
  end.

(** The text consists of lines; line number [i] has at its start the number of spaces
    [depths] says, and then something else. *)
Inductive lines_indented : list nat -> str -> Prop :=
| lines_none : lines_indented [] [newline]
| lines_one : forall n body,
    hd_error body <> Some space -> ~ In newline body -> body <> [] ->
    lines_indented [n] (repeat space n ++ body ++ [newline])
| lines_more : forall n m depths body text,
    hd_error body <> Some space -> ~ In newline body -> body <> [] ->
    lines_indented (m :: depths) text ->
    lines_indented (n :: m :: depths) (repeat space n ++ body ++ newline :: text).

(** Which data is written as valid JSON. *)
From Coq Require Import List NArith Bool Arith.
From Verif Require Import Base Ext Types DataSpec JsonSpec.
Import ListNotations.

(** All names and strings have characters only that can be written. *)
Definition strings_writable (data : list metadata) : Prop :=
  forall d s, In d data -> In s (item_strings d) -> Forall writable s.

(** All numbers print as JSON has them. *)
Definition numbers_printable (E : ext) (data : list metadata) : Prop :=
  forall d x, In d data -> In x (item_numbers d) -> json_number (x_fmt_f64 E x).

(** The data is written, and inside braces the text is a JSON document. *)
Definition written_valid (out : str) : Prop :=
  exists v, valid_json v (open_brace :: out ++ [close_brace]).

(** The name that the rule gives to its data. *)
Definition property_of (r : rule) : option str :=
  match r with
  | RTag _ _ _ p _ | RUntilAny _ _ p _ | RUntilAnyOrWs _ _ p _ | RText _ p _ | RNumber _ p _ | RNode _ p _ _ => p
  | _ => None
  end.

(** The syntax gives this name to some data. *)
Definition gives_name (s : syntax) (name : str) : Prop :=
  exists r, occurs s r /\ property_of r = Some name.

(** What is assumed of the crate [read_token]: the characters of a literal without backslash are
    those between its quotes. *)
Definition plain_literals (E : ext) : Prop :=
  forall t v, x_parse_string E t = inl v -> ~ In backslash t -> forall c, In c v -> In c t.

(** Two members of an object have the same name. *)
Definition repeats_key (v : json) : Prop :=
  exists ms, v = JObject ms /\ ~ NoDup (map fst ms).

(** Printable ASCII characters. *)
Definition printable (c : char) : Prop := (32 <= c <= 126)%N.

(** C34 - C37: writing meta data as JSON. *)
From Coq Require Import Ascii String List NArith ZArith Bool Arith SpecFloat.
From Verif Require Import Base Ext Types ParseModel PegSpec RuleSpec DataSpec JsonModel JsonSpec
  JsonProofs JsonProofs2 JsonProofs3 Examples ModelFacts.
Import ListNotations.
Local Open Scope string_scope.
Local Open Scope list_scope.

(** ** C34: JSON strings round trip. *)

(** A text rule in front of a written string reads exactly that string. *)
Theorem C34_reads_back : forall E, string_literals_ok E ->
  forall refs allow_empty name id ind p s rest,
  allow_empty = true \/ s <> [] ->
  runs E refs (RText allow_empty (Some name) id) ind p (write_string s ++ rest)
    (Yes (length (write_string s)) [(Rng p (length (write_string s)), MString name s)]) ind.
Proof. exact text_rule_reads_back. Qed.
Print Assumptions C34_reads_back.

(** The assumption holds for the reconstruction of the crate [read_token]. *)
Theorem C34_literals : string_literals_ok std_ext.
Proof. exact std_string_literals. Qed.
Print Assumptions C34_literals.

Theorem C34_distinct : forall s s', write_string s = write_string s' -> s = s'.
Proof. exact written_inj. Qed.
Print Assumptions C34_distinct.

(** Quotes, backslashes, line breaks, a control character and a character outside ASCII. *)
Definition ex_string : str := [34; 92; 10; 13; 9; 1; 8364; 97]%N.

Example C34_example :
  length (write_string ex_string) = 15 /\
  match parse_rule std_ext 1 [] (RText false (Some (tx "s")) 0%N) [] 0
          (RT (write_string ex_string ++ tx "rest""") 5) indent_default with
  | Done (POk r 1 None, [(r', MString n s)], _) =>
    r = Rng 5 15 /\ r' = Rng 5 15 /\ n = tx "s" /\ s = ex_string
  | _ => False
  end.
Proof. vm_compute. repeat split. Qed.

(** ** C35: JSON output has the structure of the data. *)

(** [read_json] is a reader for JSON in [JsonSpec]. *)
Theorem C35_reader : forall E toks, nested (map snd toks) ->
  prints_words E (map snd toks) ->
  exists out ms N, data_members E (map snd toks) ms /\ json_write E toks = Done out /\
    forall fuel, N <= fuel ->
      read_json fuel (open_brace :: out ++ [close_brace]) = Some (JObject ms, []).
Proof. exact json_write_loose. Qed.
Print Assumptions C35_reader.

(** The reader is complete for the grammar, so the grammar is unambiguous. *)
Theorem C35_unambiguous : forall E toks, nested (map snd toks) -> prints_words E (map snd toks) ->
  exists out ms, data_members E (map snd toks) ms /\ json_write E toks = Done out /\
    forall v, loose_json v (open_brace :: out ++ [close_brace]) <-> v = JObject ms.
Proof. exact json_write_means. Qed.
Print Assumptions C35_unambiguous.

(** The object is valid JSON when the strings have no other control characters and the
    numbers print as JSON numbers. *)
Theorem C35_valid : forall E toks, nested (map snd toks) ->
  (forall d s, In d (map snd toks) -> In s (item_strings d) -> Forall writable s) ->
  (forall d x, In d (map snd toks) -> In x (item_numbers d) -> json_number (x_fmt_f64 E x)) ->
  exists out ms, data_members E (map snd toks) ms /\ json_write E toks = Done out /\
    valid_json (JObject ms) (open_brace :: out ++ [close_brace]).
Proof. exact json_write_valid. Qed.
Print Assumptions C35_valid.

Theorem C35_distinct : forall E toks toks' out,
  nested (map snd toks) -> nested (map snd toks') ->
  prints_words E (map snd toks) -> prints_words E (map snd toks') ->
  (forall d d' x y, In d (map snd toks) -> In d' (map snd toks') ->
     In x (item_numbers d) -> In y (item_numbers d') ->
     x_fmt_f64 E x = x_fmt_f64 E y -> x = y) ->
  json_write E toks = Done out -> json_write E toks' = Done out ->
  map snd toks = map snd toks'.
Proof. exact json_write_inj. Qed.
Print Assumptions C35_distinct.

Definition ex_json : list tok :=
  map (fun m => (Rng 0 0, m))
  [StartNode (tx "a"); MBool (tx "b") true; StartNode (tx "c"); EndNode (tx "c");
   MF64 (tx "n") (S754_finite false 12 0%Z); EndNode (tx "a"); MString (tx "s") ex_string].

Definition ex_members : list (str * json) :=
  [(tx "a", JObject [(tx "b", JBool true); (tx "c", JObject []); (tx "n", JNumber (tx "12"))]);
   (tx "s", JString ex_string)].

Example C35_example :
  nested (map snd ex_json) /\ prints_words std_ext (map snd ex_json) /\
  data_members std_ext (map snd ex_json) ex_members /\
  (do out <- json_write std_ext ex_json;
   Done (read_json 10 (open_brace :: out ++ [close_brace])))
  = Done (Some (JObject ex_members, [])).
Proof.
  assert (H : data_members std_ext (map snd ex_json) ex_members).
  { apply (data_node std_ext (tx "a")
      [MBool (tx "b") true; StartNode (tx "c"); EndNode (tx "c"); MF64 (tx "n") (S754_finite false 12 0%Z)]).
    - apply data_bool. apply (data_node std_ext (tx "c") []); [apply data_nil|].
      apply (data_f64 std_ext (tx "n") (S754_finite false 12 0%Z)). apply data_nil.
    - apply data_string. apply data_nil. }
  refine (conj _ (conj _ (conj H _))).
  - exact (members_nested _ _ _ H).
  - intros d x Hd Hx. simpl in Hd.
    repeat (destruct Hd as [<-|Hd]; [destruct Hx as [<-|[]] || destruct Hx|]); [|destruct Hd].
    split; [discriminate|]. split; [apply ascii_bare; reflexivity|]. split; discriminate.
  - vm_compute. reflexivity.
Qed.

(** ** C36: the JSON writer panics exactly on over-closed data. *)

Theorem C36_panics : forall E toks, json_write E toks = Panic <-> over_closed (map snd toks).
Proof. exact json_write_panics. Qed.
Print Assumptions C36_panics.

Theorem C36_returns : forall E toks,
  json_write E toks = Panic \/ exists out, json_write E toks = Done out.
Proof. exact json_write_decided. Qed.
Print Assumptions C36_returns.

(** Every item is on a line of its own, indented by its depth. *)
Theorem C36_indented : forall E toks out,
  (forall d x, In d (map snd toks) -> In x (item_numbers d) -> ~ In newline (x_fmt_f64 E x)) ->
  json_write E toks = Done out ->
  lines_indented (line_depths (imbalance (map snd toks)) (map snd toks)) out.
Proof. exact json_write_indented. Qed.
Print Assumptions C36_indented.

Theorem C36_nested : forall E toks, nested (map snd toks) ->
  imbalance (map snd toks) = 0 /\ exists out, json_write E toks = Done out.
Proof. exact json_write_nested. Qed.
Print Assumptions C36_nested.

(** An end in front of its start; a lone end, which is within the imbalance. *)
Example C36_example :
  json_write std_ext [(Rng 0 0, EndNode (tx "a")); (Rng 0 0, StartNode (tx "a"))] = Panic /\
  json_write std_ext [(Rng 0 0, EndNode (tx "a"))] = Done (tx "}" ++ [newline]) /\
  line_depths 0 (map snd ex_json) = [0; 1; 1; 1; 1; 0; 0] /\
  json_write std_ext (firstn 6 ex_json)
  = Done (tx """a"":{" ++ [newline] ++ tx " ""b"":true," ++ [newline] ++ tx " ""c"":{" ++ [newline]
          ++ tx " }," ++ [newline] ++ tx " ""n"":12" ++ [newline] ++ tx "}" ++ [newline]).
Proof. repeat split; vm_compute; reflexivity. Qed.

(** ** C37: JSON output is valid JSON. *)

(** Exactly the strings without control characters other than line feed, return and tab
    are written as JSON strings. *)
Theorem C37_valid : forall s, Forall writable s -> valid_json (JString s) (write_string s).
Proof. exact write_string_valid. Qed.
Print Assumptions C37_valid.

Theorem C37_only_writable : forall s,
  (exists v, valid_json v (write_string s)) -> Forall writable s.
Proof. exact write_string_valid_iff. Qed.
Print Assumptions C37_only_writable.

(** False in general: the character U+0001 is written as it is. *)
Theorem C37_valid_refuted : exists s, forall v, ~ valid_json v (write_string s).
Proof. exact control_invalid. Qed.
Print Assumptions C37_valid_refuted.

(** An infinite number prints as [inf]. *)
Theorem C37_infinity_refuted : forall E x name, x_fmt_f64 E x = s2l "inf" ->
  exists out, json_write E [(Rng 0 0, MF64 name x)] = Done out /\
    forall v, ~ valid_json v (open_brace :: out ++ [close_brace]).
Proof. exact infinity_invalid. Qed.
Print Assumptions C37_infinity_refuted.

Example C37_example :
  Forall writable (tx "a""b\c" ++ [10; 13; 9; 233]%N) /\
  x_fmt_f64 std_ext (S754_infinity false) = s2l "inf" /\
  write_string [1%N] = [34; 1; 34]%N.
Proof.
  refine (conj _ (conj eq_refl eq_refl)).
  repeat (constructor; [first [left; discriminate|right; simpl; tauto]|]). constructor.
Qed.

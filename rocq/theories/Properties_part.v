(** Properties C99: parts of a document may be read on their own. *)
From Coq Require Import Ascii String List NArith Bool Arith.
From Verif Require Import Base Ext Types ParseModel OptimizeModel PegSpec DataSpec ApiSpec OptSpec TotalSpec ShapeSpec GrammarSpec GrammarPublic PlaceSpec EditSpec EditProofs
  PartSpec PartPublic Examples.
Import ListNotations.
Local Open Scope string_scope.
Local Open Scope list_scope.
Local Open Scope nat_scope.

(** The text of a node is a document of its rule, with the data of the node. *)
Theorem C99_read : forall E, ext_ok E -> strings_end E -> numbers_end E -> forall s, valid s -> well_formed s -> clear E s ->
  forall name i, names_rule s name i ->
  forall text tokens ind new before o inner n after, parse_returns E s text tokens ind None (tokens ++ new) -> node_at new before name o inner n after ->
  forall title reference id tokens' ind', columns_fit ind' (firstn n (skipn o text)) ->
  exists data, inner = moved_by o data /\
    parse_returns E (documents_of s i title reference id) (firstn n (skipn o text)) tokens' ind' None (tokens' ++ data).
Proof. exact part_read. Qed.
Print Assumptions C99_read.

(** If the text of a node is changed, it is enough to read it again: the data are put in place of those of the node. *)
Theorem C99_reparsed : forall E, ext_ok E -> strings_end E -> forall s, valid s -> well_formed s -> clear E s ->
  forall name i, names_rule s name i ->
  forall text tokens ind new before o inner n after, parse_returns E s text tokens ind None (tokens ++ new) -> node_at new before name o inner n after ->
  forall title reference id y tokens' ind' data, parse_returns E (documents_of s i title reference id) y tokens' ind' None (tokens' ++ data) ->
  columns_fit ind (edited o n y text) ->
  exists after', Forall2 (adjusted o n (length y)) after after' /\
    parse_returns E s (edited o n y text) tokens ind None
      (tokens ++ before ++ (Rng o 0, StartNode name) :: moved_by o data ++ (Rng o (length y), EndNode name) :: after').
Proof. exact part_reparsed. Qed.
Print Assumptions C99_reparsed.

(** Both also hold if the two syntaxes are optimised. *)
Theorem C99_optimized : forall E, ext_ok E -> strings_end E -> numbers_end E -> forall s, valid s -> well_formed s -> clear E s ->
  forall name i, names_rule s name i -> forall title reference id s1 s2,
  optimize_returns s s1 -> tails_fail_at_end E s ->
  optimize_returns (documents_of s i title reference id) s2 -> tails_fail_at_end E (documents_of s i title reference id) ->
  forall text tokens ind new before o inner n after, Forall real_char text ->
  parse_returns E s1 text tokens ind None (tokens ++ new) -> node_at new before name o inner n after ->
  (forall tokens' ind', columns_fit ind' (firstn n (skipn o text)) ->
   exists data, inner = moved_by o data /\ parse_returns E s2 (firstn n (skipn o text)) tokens' ind' None (tokens' ++ data)) /\
  (forall y tokens' ind' data, Forall real_char y -> parse_returns E s2 y tokens' ind' None (tokens' ++ data) -> columns_fit ind (edited o n y text) ->
   exists after', Forall2 (adjusted o n (length y)) after after' /\
     parse_returns E s1 (edited o n y text) tokens ind None
       (tokens ++ before ++ (Rng o 0, StartNode name) :: moved_by o data ++ (Rng o (length y), EndNode name) :: after')).
Proof. exact part_optimized. Qed.
Print Assumptions C99_optimized.

(** A rule that looks ahead behind its text cannot read it alone. *)
Theorem C99_read_refuted : exists s name i text new before o inner n after e left_,
  valid s /\ well_formed s /\ without_lines s /\ names_rule s name i /\
  parse_returns std_ext s text [] indent_default None new /\ node_at new before name o inner n after /\
  parse_returns std_ext (documents_of s i (tx "part") (tx "w") 9) (firstn n (skipn o text)) [] indent_default (Some e) left_.
Proof. exact ahead_part. Qed.
Print Assumptions C99_read_refuted.

(** A text that the rule reads alone may be read in another way where it stands. *)
Theorem C99_reparsed_refuted : exists s name i text new before o inner n after y data e left_,
  valid s /\ well_formed s /\ without_lines s /\ names_rule s name i /\
  parse_returns std_ext s text [] indent_default None new /\ node_at new before name o inner n after /\
  parse_returns std_ext (documents_of s i (tx "part") (tx "w") 9) y [] indent_default None data /\
  parse_returns std_ext s (edited o n y text) [] indent_default (Some e) left_.
Proof. exact unclear_part. Qed.
Print Assumptions C99_reparsed_refuted.

Example C99_example : (valid json_syntax /\ well_formed json_syntax /\ clear std_ext json_syntax) /\ numbers_end std_ext /\ names_rule json_syntax (tx "array") 0 /\
  exists one, let arrays := documents_of json_syntax 0 (tx "part") (tx "array") 900 in
  parse_returns std_ext json_syntax (tx "[1,[]]") [] indent_default None (target_data one) /\
  node_at (target_data one) [arr 0; (Rng 1 1, MF64 (tx "num") one)] (tx "array") 3 [] 2 [rra 0 6] /\
  parse_returns std_ext arrays (tx "[]") [] indent_default None [] /\
  parse_returns std_ext arrays (tx "[false]") [] indent_default None [(Rng 1 5, MBool (tx "bool") false)] /\
  parse_returns std_ext json_syntax (edited 3 2 (tx "[false]") (tx "[1,[]]")) [] indent_default None
    [arr 0; (Rng 1 1, MF64 (tx "num") one); arr 3; (Rng 4 5, MBool (tx "bool") false); rra 3 7; rra 0 11].
Proof. exact (conj json_clear (conj std_numbers_end (conj json_names json_part))). Qed.

Example C99_optimized_example : exists s1 s2, optimize_returns json_syntax s1 /\ tails_fail_at_end std_ext json_syntax /\
  optimize_returns (documents_of json_syntax 0 (tx "part") (tx "array") 900) s2 /\
  tails_fail_at_end std_ext (documents_of json_syntax 0 (tx "part") (tx "array") 900).
Proof. exact json_part_optimized. Qed.

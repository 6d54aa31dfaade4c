(** C100. Items of lists may be added and taken out. *)
From Coq Require Import Ascii String List NArith Bool Arith.
From Verif Require Import Base Ext Types PegSpec DataSpec ApiSpec OptSpec TotalSpec ShapeSpec GrammarSpec PlaceSpec PlaceProofs EditSpec EditProofs ItemsSpec ItemsPublic
  ExtProofs GrammarPublic Examples.
Import ListNotations.
Local Open Scope string_scope.
Local Open Scope list_scope.
Local Open Scope nat_scope.

(** In place of an item may stand what the list reads in its place: several items, or none if the list may be empty; nothing in place
    of an optional part; and another alternative in place of an alternative. *)
Theorem C100_replaced : forall E, ext_ok E -> strings_end E -> forall s, valid s -> well_formed s -> clear E s ->
  forall name, only_items s name ->
  forall text tokens ind new before o inner n after,
  parse_returns E s text tokens ind None (tokens ++ new) -> node_at new before name o inner n after ->
  exists r c l, occurs s r /\ list_of r c l /\ gives_node name c /\
    places E (s_rules s) c o (firstn n (skipn o text)) ((Rng o 0, StartNode name) :: inner ++ [(Rng o n, EndNode name)]) /\
    forall w us, places E (s_rules s) l o w us -> columns_fit ind (edited o n w text) ->
    exists after', Forall2 (adjusted o n (length w)) after after' /\
      parse_returns E s (edited o n w text) tokens ind None (tokens ++ before ++ us ++ after').
Proof. exact items_replaced. Qed.
Print Assumptions C100_replaced.

(** Behind an item of a repetition a node of the same name may be inserted, which is copied from anywhere. *)
Theorem C100_inserted : forall E, ext_ok E -> strings_end E -> forall s, valid s -> well_formed s -> clear E s ->
  forall name i, only_repeated s name -> names_rule s name i ->
  forall text tokens ind new before o inner n after, parse_returns E s text tokens ind None (tokens ++ new) -> node_at new before name o inner n after ->
  forall text2 tokens2 ind2 new2 before2 o2 inner2 n2 after2,
  parse_returns E s text2 tokens2 ind2 None (tokens2 ++ new2) -> node_at new2 before2 name o2 inner2 n2 after2 ->
  let y := firstn n2 (skipn o2 text2) in columns_fit ind (edited (o + n) 0 y text) ->
  exists data after', inner2 = moved_by o2 data /\ length y = n2 /\ Forall2 (adjusted (o + n) 0 n2) after after' /\
    parse_returns E s (edited (o + n) 0 y text) tokens ind None
      (tokens ++ before ++ ((Rng o 0, StartNode name) :: inner ++ [(Rng o n, EndNode name)]) ++
       ((Rng (o + n) 0, StartNode name) :: moved_by (o + n) data ++ [(Rng (o + n) n2, EndNode name)]) ++ after').
Proof. exact item_inserted. Qed.
Print Assumptions C100_inserted.

(** Behind an item of a list with separators, a separator and a node of the same name may be inserted. *)
Theorem C100_separated : forall E, ext_ok E -> strings_end E -> forall s, valid s -> well_formed s -> clear E s ->
  forall name i by_, only_separated s name by_ -> names_rule s name i ->
  forall text tokens ind new before o inner n after, parse_returns E s text tokens ind None (tokens ++ new) -> node_at new before name o inner n after ->
  forall text2 tokens2 ind2 new2 before2 o2 inner2 n2 after2,
  parse_returns E s text2 tokens2 ind2 None (tokens2 ++ new2) -> node_at new2 before2 name o2 inner2 n2 after2 ->
  forall b bs, places E (s_rules s) by_ (o + n) b bs ->
  let y := firstn n2 (skipn o2 text2) in let p := o + n + length b in columns_fit ind (edited (o + n) 0 (b ++ y) text) ->
  exists data after', inner2 = moved_by o2 data /\ length y = n2 /\ Forall2 (adjusted (o + n) 0 (length b + n2)) after after' /\
    parse_returns E s (edited (o + n) 0 (b ++ y) text) tokens ind None
      (tokens ++ before ++ ((Rng o 0, StartNode name) :: inner ++ [(Rng o n, EndNode name)]) ++ bs ++
       ((Rng p 0, StartNode name) :: moved_by p data ++ [(Rng p n2, EndNode name)]) ++ after').
Proof. exact item_separated. Qed.
Print Assumptions C100_separated.

(** An item of a repetition that may be empty can be taken out, and so can an optional part. *)
Theorem C100_removed : forall E, ext_ok E -> strings_end E -> forall s, valid s -> well_formed s -> clear E s ->
  forall name, only_optional s name ->
  forall text tokens ind new before o inner n after, parse_returns E s text tokens ind None (tokens ++ new) -> node_at new before name o inner n after ->
  columns_fit ind (edited o n [] text) ->
  exists after', Forall2 (adjusted o n 0) after after' /\
    parse_returns E s (edited o n [] text) tokens ind None (tokens ++ before ++ after').
Proof. exact item_removed. Qed.
Print Assumptions C100_removed.

(** It holds for optimised syntaxes as well. *)
Theorem C100_optimized : forall E, ext_ok E -> strings_end E -> forall s s', valid s -> well_formed s -> clear E s ->
  optimize_returns s s' -> tails_fail_at_end E s -> forall name, only_items s name ->
  forall text tokens ind new before o inner n after, Forall real_char text ->
  parse_returns E s' text tokens ind None (tokens ++ new) -> node_at new before name o inner n after ->
  exists r c l, occurs s r /\ list_of r c l /\ gives_node name c /\
    places E (s_rules s) c o (firstn n (skipn o text)) ((Rng o 0, StartNode name) :: inner ++ [(Rng o n, EndNode name)]) /\
    forall w us, places E (s_rules s) l o w us -> columns_fit ind (edited o n w text) ->
    exists after', Forall2 (adjusted o n (length w)) after after' /\
      parse_returns E s' (edited o n w text) tokens ind None (tokens ++ before ++ us ++ after').
Proof. exact items_optimized. Qed.
Print Assumptions C100_optimized.

(** Without clearness an item cannot always be inserted: it may be read together with what follows. *)
Theorem C100_inserted_refuted : exists s name i text new before o inner n after text2 new2 before2 o2 inner2 n2 after2 e left_,
  valid s /\ well_formed s /\ without_lines s /\ only_repeated s name /\ names_rule s name i /\
  parse_returns std_ext s text [] indent_default None new /\ node_at new before name o inner n after /\
  parse_returns std_ext s text2 [] indent_default None new2 /\ node_at new2 before2 name o2 inner2 n2 after2 /\
  parse_returns std_ext s (edited (o + n) 0 (firstn n2 (skipn o2 text2)) text) [] indent_default (Some e) left_.
Proof. exact greedy_refuted. Qed.
Print Assumptions C100_inserted_refuted.

(** `yz=20;` is put behind the first item of `x=1;x=1;`, and this item is taken out. *)
Example C100_example :
  (valid entries /\ well_formed entries /\ clear std_ext entries) /\ only_repeated entries (tx "entry") /\ names_rule entries (tx "entry") 0 /\
  only_optional entries (tx "entry") /\
  let text := tx "x=1;x=1;" in let first := entry_at 0 (tx "x") 1 one 4 in
  parse_returns std_ext entries text [] indent_default None (first ++ entry_at 4 (tx "x") 1 one 4) /\
  node_at (first ++ entry_at 4 (tx "x") 1 one 4) [] (tx "entry") 0 [(Rng 0 1, MString (tx "key") (tx "x")); (Rng 2 1, MF64 (tx "value") one)] 4
    (entry_at 4 (tx "x") 1 one 4) /\
  edited 4 0 (tx "yz=20;") text = tx "x=1;yz=20;x=1;" /\
  parse_returns std_ext entries (tx "x=1;yz=20;x=1;") [] indent_default None
    (first ++ entry_at 4 (tx "yz") 2 twenty 6 ++ entry_at 10 (tx "x") 1 one 4) /\
  edited 0 4 [] text = tx "x=1;" /\
  parse_returns std_ext entries (tx "x=1;") [] indent_default None first.
Proof. exact entries_items. Qed.

(** `,<20>` is put behind the item of `[<1>,]`. *)
Example C100_separated_example :
  (valid shelf /\ well_formed shelf /\ clear std_ext shelf) /\ only_separated shelf (tx "item") (t (tx ",") 7) /\ names_rule shelf (tx "item") 0 /\
  parse_returns std_ext shelf (tx "[<1>,]") [] indent_default None (item_at 1 1 one) /\
  node_at (item_at 1 1 one) [] (tx "item") 1 [(Rng 2 1, MF64 (tx "v") one)] 3 [] /\
  places std_ext (s_rules shelf) (t (tx ",") 7) 4 (tx ",") [] /\
  edited 4 0 (tx "," ++ tx "<20>")%list (tx "[<1>,]") = tx "[<1>,<20>,]" /\
  parse_returns std_ext shelf (tx "[<1>,<20>,]") [] indent_default None (item_at 1 1 one ++ item_at 5 2 twenty).
Proof. exact shelf_items. Qed.

(** The array in `[1,[]]` is replaced by `true`. *)
Example C100_replaced_example :
  (valid json_syntax /\ well_formed json_syntax /\ clear std_ext json_syntax) /\ only_items json_syntax (tx "array") /\ exists one,
  parse_returns std_ext json_syntax (tx "[1,[]]") [] indent_default None (target_data one) /\
  node_at (target_data one) [arr 0; (Rng 1 1, MF64 (tx "num") one)] (tx "array") 3 [] 2 [rra 0 6] /\
  edited 3 2 (tx "true") (tx "[1,[]]") = tx "[1,true]" /\
  parse_returns std_ext json_syntax (tx "[1,true]") [] indent_default None
    [arr 0; (Rng 1 1, MF64 (tx "num") one); (Rng 3 4, MBool (tx "bool") true); rra 0 8].
Proof. exact json_items. Qed.

(** C25, C26, C28, C29, C42: from meta data to rules. *)
From Coq Require Import Ascii String List NArith ZArith Bool Arith.
From Verif Require Import Base Ext Types ParseModel ConvertModel DataSpec ApiSpec OptSpec IdSpec TotalSpec
  ConvertSpec WriteSpec CursorSpec SyntaxSpec LibModel SafeProofs ConvertTotal ConvertValid ConvertNodes CursorProofs
  WriteProofs3 SyntaxProofs SyntaxProofs2 DataCheck Examples ModelFacts.
Import ListNotations.
Local Open Scope string_scope.
Local Open Scope list_scope.
Local Open Scope nat_scope.

(** ** C25: conversion terminates on well nested data. *)

Theorem C25_returns : forall data ig, nested (map snd data) -> ids_small data ->
  exists result ig', convert_returns data ig result ig'.
Proof. exact convert_returns_nested. Qed.
Print Assumptions C25_returns.

Theorem C25_no_panic : forall data ig, nested (map snd data) -> ids_small data ->
  ~ convert_panics data ig.
Proof. exact convert_no_panic. Qed.
Print Assumptions C25_no_panic.

(** The result does not depend on the fuel of the model. *)
Theorem C25_unique : forall data ig r1 g1 r2 g2,
  convert_returns data ig r1 g1 -> convert_returns data ig r2 g2 -> r1 = r2 /\ g1 = g2.
Proof. exact convert_decides. Qed.
Print Assumptions C25_unique.

(** Data of a node with a name, an id, an unknown item and a rule. *)
Definition C25_data : list tok := map (fun m => (Rng 0 0, m))
  [StartNode (tx "node"); MF64 (tx "id") (SpecFloat.S754_finite false 6755399441055744 (-50)%Z); MBool (tx "unknown") true;
   MString (tx "name") (tx "doc");
   StartNode (tx "rule"); StartNode (tx "whitespace"); MBool (tx "optional") true;
   EndNode (tx "whitespace"); EndNode (tx "rule"); EndNode (tx "node")].

Example C25_example : nested (map snd C25_data) /\ ids_small C25_data /\
  convert_returns C25_data [] (Some (Syn [RWhitespace true 6001] [tx "doc"])) [Rng 2 1].
Proof.
  split; [|split].
  - apply nestedb_spec. reflexivity.
  - intros k [->|(r & x & Hin & ->)]; [vm_compute; discriminate|].
    cbn in Hin. repeat destruct Hin as [Hin|Hin]; try discriminate Hin; try contradiction.
    injection Hin as <- <-. vm_compute. discriminate.
  - exists 20. vm_compute. reflexivity.
Qed.

(** Data that is not nested: a node that is not closed makes [convert] loop forever, an end
    without a start makes it panic. *)
Theorem C25_truncated_refuted : exists data, forall ig, convert_diverges data ig.
Proof. exact (ex_intro _ unclosed unclosed_diverges). Qed.
Print Assumptions C25_truncated_refuted.

Theorem C25_unopened_refuted : exists data, forall ig, convert_panics data ig.
Proof. exact (ex_intro _ unopened unopened_panics). Qed.
Print Assumptions C25_unopened_refuted.

(** ** C26: conversion reads back every rule tree. *)

(** Data in which the rules are written is converted to these rules, with their references
    resolved; nothing is ignored. *)
Theorem C26_written_read_back : forall data names rules ig, wdocument data names rules ->
  Forall (fun r => (own_id r <= usize_max)%N) rules ->
  exists s, convert_returns data ig (Some s) ig /\ s_names s = names /\
    Forall2 (resolved names) rules (s_rules s).
Proof. exact document_back. Qed.
Print Assumptions C26_written_read_back.

(** Every list of named rule trees can be written, such that the ids of each node are
    numbered from 1000 times its number, without gaps. *)
Theorem C26_every_rule_tree : forall (nodes : list (str * f64 * rule)) ig,
  let names := map (fun n => fst (fst n)) nodes in
  let lo n := (f64_as_usize (snd (fst n)) * 1000)%N in
  let hi n := (lo n + N.of_nat (length (rule_ids (snd n))))%N in
  Forall (fun n => unresolved (snd n)) nodes -> Forall (fun n => (hi n <= usize_max)%N) nodes ->
  exists data s, convert_returns data ig (Some s) ig /\ s_names s = names /\
    Forall2 (fun n r => (exists r1, like_rule any_ids (snd n) r1 /\ resolved names r1 r) /\
      forall i, In i (rule_ids r) <-> (lo n < i <= hi n)%N) nodes (s_rules s).
Proof. exact every_rule_written. Qed.
Print Assumptions C26_every_rule_tree.

(** Data that is written with strings, flags in any order, and the rule before the name. *)
Definition C26_data : list tok := map (fun m => (Rng 0 0, m))
  [StartNode (tx "string"); MString (tx "text") (tx "p"); MString (tx "name") (tx "prop"); EndNode (tx "string");
   StartNode (tx "node"); MF64 (tx "id") (SpecFloat.S754_finite false 4503599627370496 (-51)%Z);
   StartNode (tx "rule"); StartNode (tx "sequence");
   StartNode (tx "rule"); StartNode (tx "tag");
   StartNode (tx "text"); MString (tx "value") (tx "a"); EndNode (tx "text");
   MBool (tx "not") true;
   StartNode (tx "property"); MString (tx "ref") (tx "prop"); EndNode (tx "property");
   EndNode (tx "tag"); EndNode (tx "rule");
   StartNode (tx "rule"); StartNode (tx "reference"); MString (tx "name") (tx "doc");
   EndNode (tx "reference"); EndNode (tx "rule");
   EndNode (tx "sequence"); EndNode (tx "rule");
   MString (tx "name") (tx "doc"); EndNode (tx "node")].

Example C26_example :
  (let r := RSequence [RTag (tx "a") true false (Some (tx "p")) 2001; RNode (tx "doc") None None 2002] 2003 in
   wdocument C26_data [tx "doc"] [r] /\ unresolved r) /\
  convert_returns C26_data [] (Some (Syn
    [RSequence [RTag (tx "a") true false (Some (tx "p")) 2001; RNode (tx "doc") None (Some 0) 2002] 2003]
    [tx "doc"])) [].
Proof.
  split; [|exists 50; vm_compute; reflexivity]. cbv zeta. split.
  - eapply (w_document [(tx "prop", tx "p")] [firstn 4 C26_data] [skipn 4 C26_data]).
    + constructor; [|constructor].
      eapply (w_string _ [Name (tx "text") (tx "p"); Name (tx "name") (tx "prop")]).
      * split; [repeat constructor; cbn; tauto|].
        exists [[nth 1 C26_data (Rng 0 0, EndNode [])]; [nth 2 C26_data (Rng 0 0, EndNode [])]].
        split; [reflexivity|]. repeat constructor.
      * reflexivity.
      * reflexivity.
      * exists (Rng 0 0), (Rng 0 0). reflexivity.
    + reflexivity.
    + constructor; [|constructor]. cbn [fst snd combine].
      eapply (w_node _ _ [Num (tx "id") (SpecFloat.S754_finite false 4503599627370496 (-51)%Z)] [Name (tx "name") (tx "doc")])
        with (before := firstn 1 (skipn 5 C26_data)) (inner := firstn 20 (skipn 6 C26_data))
             (after := firstn 1 (skipn 26 C26_data)) (hi := 2003%N) (k := 2%N).
      * split; [repeat constructor; cbn; tauto|]. exists [firstn 1 (skipn 5 C26_data)].
        split; [reflexivity|]. repeat constructor.
      * apply w_rule with (inner := firstn 18 (skipn 7 C26_data)); [|exists (Rng 0 0), (Rng 0 0); reflexivity].
        apply (w_sequence _ _ _ (firstn 16 (skipn 8 C26_data)) _ 2002%N); [|exists (Rng 0 0), (Rng 0 0); reflexivity].
        apply (w_arg _ _ (firstn 11 (skipn 8 C26_data)) _ 2001%N (firstn 5 (skipn 19 C26_data)) _ 2002%N).
        -- apply w_rule with (inner := firstn 9 (skipn 9 C26_data)); [|exists (Rng 0 0), (Rng 0 0); reflexivity].
           apply (w_tag _ 2000%N _ [Text (tx "text") (tx "a"); Flag (tx "not") true; Text (tx "property") (tx "p")]
             (firstn 7 (skipn 10 C26_data))); [|reflexivity|exists (Rng 0 0), (Rng 0 0); reflexivity].
           split; [repeat constructor; cbn; tauto|].
           exists [firstn 3 (skipn 10 C26_data); firstn 1 (skipn 13 C26_data); firstn 3 (skipn 14 C26_data)].
           split; [reflexivity|]. constructor; [|constructor; [|constructor; [|constructor]]].
           ++ eapply written_value. exists (Rng 0 0), (Rng 0 0). reflexivity.
           ++ constructor.
           ++ eapply written_ref; [|exists (Rng 0 0), (Rng 0 0); reflexivity].
              exists [], []. split; [reflexivity|intros []].
        -- change (firstn 5 (skipn 19 C26_data)) with (firstn 5 (skipn 19 C26_data) ++ []).
           eapply (w_arg _ _ _ _ 2002%N); [|constructor].
           apply w_rule with (inner := firstn 3 (skipn 20 C26_data)); [|exists (Rng 0 0), (Rng 0 0); reflexivity].
           apply (w_reference _ 2001%N _ [Name (tx "name") (tx "doc")] (firstn 1 (skipn 21 C26_data)));
             [|reflexivity|exists (Rng 0 0), (Rng 0 0); reflexivity].
           split; [repeat constructor; cbn; tauto|]. exists [firstn 1 (skipn 21 C26_data)].
           split; [reflexivity|]. repeat constructor.
      * split; [repeat constructor; cbn; tauto|]. exists [firstn 1 (skipn 26 C26_data)].
        split; [reflexivity|]. repeat constructor.
      * reflexivity.
      * reflexivity.
      * exists (Rng 0 0), (Rng 0 0). reflexivity.
  - intros x Hx. inversion Hx as [|? c Hc Hb]; subst; [exact I|].
    destruct Hc as [<-|[<-|[]]]; inversion Hb as [|? c' Hc' _]; subst; try exact I; destruct Hc'.
Qed.

(** ** C28: debug ids identify the node. *)

Theorem C28_numbered : forall data ig s ig', nested (map snd data) -> ids_small data ->
  convert_returns data ig (Some s) ig' ->
  exists before nodes, data = before ++ concat nodes /\ Forall item nodes /\
    Forall2 numbered nodes (s_rules s).
Proof. exact convert_numbers. Qed.
Print Assumptions C28_numbered.

(** What being numbered means for the single ids; [i / 1000] is the number of the node. *)
Theorem C28_identify : forall data ig s ig', nested (map snd data) -> ids_small data ->
  convert_returns data ig (Some s) ig' ->
  exists before nodes, data = before ++ concat nodes /\
    Forall2 (fun node r => exists k, numbered_as k node r /\
      NoDup (rule_ids r) /\ (forall i, In i (rule_ids r) -> (k * 1000 < i <= own_id r)%N) /\
      (rule_nodes node < 1000 -> forall i, In i (rule_ids r) -> (i / 1000 = k)%N)) nodes (s_rules s).
Proof. exact convert_identifies. Qed.
Print Assumptions C28_identify.

(** Sub rules are completed, and numbered, before the rule. *)
Theorem C28_completion : forall data ig s ig', nested (map snd data) -> ids_small data ->
  convert_returns data ig (Some s) ig' ->
  forall x, occurs s x -> NoDup (rule_ids x) /\ forall i, In i (rule_ids x) -> (i <= own_id x)%N.
Proof. exact convert_completion. Qed.
Print Assumptions C28_completion.

Example C28_example : numbered_as 6 C25_data (RWhitespace true 6001) /\
  rule_ids (RWhitespace true 6001) = [6001%N] /\ rule_nodes C25_data = 1.
Proof.
  split; [|split; reflexivity].
  exists (Rng 0 0), (Rng 0 0), [firstn 1 (skipn 1 C25_data); firstn 1 (skipn 2 C25_data); firstn 1 (skipn 3 C25_data)],
    (firstn 5 (skipn 4 C25_data)), [].
  split; [reflexivity|]. split; [repeat (constructor; [apply item_leaf; exact I|]); constructor|].
  split; [apply (item_node (Rng 0 0) (Rng 0 0) (tx "rule") (firstn 3 (skipn 5 C25_data)));
    apply nestedb_spec; reflexivity|].
  split; [constructor|]. split.
  - apply (given_last [] _ _ (SpecFloat.S754_finite false 6755399441055744 (-50)%Z)); [exists (Rng 0 0); reflexivity|].
    intros it x [<-|[<-|[]]] [r Hr]; discriminate Hr.
  - split; vm_compute; [reflexivity|discriminate].
Qed.

(** A sub item that is told twice uses up ids although nothing is ignored: a repeat with two
    rules. Without duplicates there are no gaps, see [C26_every_rule_tree]. *)
Theorem C28_gaps_refuted : exists data s, nested (map snd data) /\
  convert_returns data [] (Some s) [] /\
  exists r, s_rules s = [r] /\ rule_ids r = [2; 3]%N.
Proof.
  pose (w := [StartNode (tx "rule"); StartNode (tx "whitespace"); MBool (tx "optional") true;
              EndNode (tx "whitespace"); EndNode (tx "rule")]).
  exists (map (fun m => (Rng 0 0, m))
    ([StartNode (tx "node"); MString (tx "name") (tx "doc"); StartNode (tx "rule"); StartNode (tx "repeat");
      MBool (tx "optional") true] ++ w ++ w ++ [EndNode (tx "repeat"); EndNode (tx "rule"); EndNode (tx "node")])).
  eexists. split; [|split; [exists 50; vm_compute; reflexivity|]].
  - apply nestedb_spec. reflexivity.
  - eexists. split; reflexivity.
Qed.
Print Assumptions C28_gaps_refuted.

(** ** C29: converted syntaxes are valid. *)

Theorem C29_converted_valid : forall data ig s ig', convert_returns data ig (Some s) ig' ->
  length (s_names s) = length (s_rules s) /\ valid s.
Proof. exact convert_valid. Qed.
Print Assumptions C29_converted_valid.

Theorem C29_syntax_valid : forall E text s, syntax_returns E text (inl s) ->
  length (s_names s) = length (s_rules s) /\ valid s.
Proof. exact (fun E text s H => match H with ex_intro _ fuel H => lib_syntax_valid E fuel text s H end). Qed.
Print Assumptions C29_syntax_valid.

Theorem C29_parse_no_panic : forall E text s, syntax_returns E text (inl s) ->
  forall data tokens ind, columns_fit ind data -> ~ parse_panics E s data tokens ind.
Proof. exact (fun E text s H => parse_safe E s (proj2 (C29_syntax_valid E text s H))). Qed.
Print Assumptions C29_parse_no_panic.

Example C29_example : exists s, syntax_returns std_ext (tx "7 doc = [{""a"":""x"" ""b"":!""x""} doc2]") (inl s) /\
  length (s_rules s) = 1.
Proof. eexists. split; [exists 200; vm_compute; reflexivity|reflexivity]. Qed.

(** ** C42: skipping an unknown item skips exactly one item. *)

Theorem C42_ignore : forall data o r, nested (map snd data) -> data <> [] ->
  c_ignore (Cv data o) = Done r ->
  exists it rest, data = it ++ rest /\ item it /\ nested (map snd rest) /\ r = Rng o (length it).
Proof. exact ignore_one. Qed.
Print Assumptions C42_ignore.

(** It always succeeds in front of an item, whatever follows. *)
Theorem C42_ignore_item : forall first rest o, item first ->
  c_ignore (Cv (first ++ rest) o) = Done (Rng o (length first)).
Proof. exact ignore_item. Qed.
Print Assumptions C42_ignore_item.

Theorem C42_readers : forall data o name,
  (forall r, c_start_node (Cv data o) name = Some r <->
     r = Rng o 1 /\ exists q rest, data = (q, StartNode name) :: rest) /\
  (forall r, c_end_node (Cv data o) name = Some r <->
     r = Rng o 1 /\ exists q rest, data = (q, EndNode name) :: rest) /\
  (forall r v, c_meta_string (Cv data o) name = Some (r, v) <->
     r = Rng o 1 /\ exists q rest, data = (q, MString name v) :: rest) /\
  (forall r v, c_meta_f64 (Cv data o) name = Some (r, v) <->
     r = Rng o 1 /\ exists q rest, data = (q, MF64 name v) :: rest) /\
  (forall r v, c_meta_bool (Cv data o) name = Some (r, v) <->
     r = Rng o 1 /\ exists q rest, data = (q, MBool name v) :: rest).
Proof. exact readers_next. Qed.
Print Assumptions C42_readers.

Theorem C42_update : forall c r c', c_update c r = Done c' ->
  c_off c <= c_off c' /\ c_off c' = next_offset r /\
  c_data c = firstn (c_off c' - c_off c) (c_data c) ++ c_data c' /\
  c_off c' + c_remaining c' = c_off c + c_remaining c.
Proof. exact update_moves. Qed.
Print Assumptions C42_update.

(** It returns for the ranges between the cursor and the end, and panics for all others. *)
Theorem C42_update_returns : forall c r,
  c_off c <= next_offset r <= c_off c + c_remaining c -> exists c', c_update c r = Done c'.
Proof. exact update_returns. Qed.
Print Assumptions C42_update_returns.

Theorem C42_update_panics : forall c r,
  ~ (c_off c <= next_offset r <= c_off c + c_remaining c) -> c_update c r = Panic.
Proof. exact update_panics. Qed.
Print Assumptions C42_update_panics.

(** The source of a span of parse output: the smallest range around its tokens. *)
Theorem C42_source : forall a b before span rest o,
  placed a b (before ++ span ++ rest) -> nested (map snd span) -> span <> [] ->
  exists r, c_source (Cv rest (o + length span)) (Cv (span ++ rest) o) = Done (Some r) /\
    hull (map fst span) r.
Proof. exact source_span. Qed.
Print Assumptions C42_source.

Theorem C42_source_nothing : forall c, c_source c c = Done None.
Proof. exact source_nothing. Qed.
Print Assumptions C42_source_nothing.

Example C42_example :
  let out := [(Rng 1 2, MBool (tx "a") true); (Rng 4 0, StartNode (tx "n"));
              (Rng 5 1, MBool (tx "b") true); (Rng 4 3, EndNode (tx "n")); (Rng 8 1, MBool (tx "c") true)] in
  placed 0 9 out /\
  c_ignore (Cv (skipn 1 out) 1) = Done (Rng 1 3) /\
  c_update (Cv (skipn 1 out) 1) (Rng 1 3) = Done (Cv (skipn 4 out) 4) /\
  c_source (Cv (skipn 4 out) 4) (Cv (skipn 1 out) 1) = Done (Some (Rng 4 3)).
Proof.
  cbv zeta. refine (conj _ (conj _ (conj _ _))); try reflexivity.
  apply placed_leaf; [exact I|repeat constructor|].
  apply (placed_node 3 9 4 3 (tx "n") [(Rng 5 1, MBool (tx "b") true)]); [repeat constructor| |].
  - apply placed_leaf; [exact I|repeat constructor|]. constructor. repeat constructor.
  - apply placed_leaf; [exact I|repeat constructor|]. constructor. repeat constructor.
Qed.

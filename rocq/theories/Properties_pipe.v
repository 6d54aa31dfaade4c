(** C82: from the text of a syntax and the text of a document to the data. *)
From Coq Require Import Ascii String List NArith Bool Arith.
From Verif Require Import Base Ext Types ParseModel OptimizeModel HandlerModel LibModel LoadModel PegSpec DataSpec ApiSpec OptSpec SyntaxSpec
  LoadSpec TotalSpec ShapeSpec GrammarSpec TextSpec SurfaceSpec MeaningSpec ExtProofs TotalCheck GrammarPublic FasterPublic SurfaceExamples
  MeaningExamples TextProofs8 Examples PipePublic PlaceSpec PlacePublic.
Import ListNotations.
Local Open Scope string_scope.
Local Open Scope list_scope.
Local Open Scope nat_scope.

(** Loading delivers exactly what the rules that were read accept, though they are optimised
    in between. *)
Theorem C82_read : forall E, ext_ok E -> forall text s o,
  rules_read E text (inl s) -> optimize_returns s o -> tails_fail_at_end E s ->
  forall data, Forall real_char data -> forall tokens,
  loads E (Some text) (Some data) (Returned tokens) <-> accepts E s indent_default data tokens.
Proof. exact pipe_read. Qed.
Print Assumptions C82_read.

(** The same of the rules that are meant, whatever debug ids are put into them. Errors are
    reported as deep in the text as parsing with these rules gets. *)
Theorem C82_meant : forall E, ext_ok E -> whole_readers E ->
  forall strings nodes text rules rules', means E strings nodes text -> Forall real_char text ->
  Forall (fun n => MeaningSpec.within text (snd (fst n))) nodes -> map snd nodes = map Some rules ->
  Forall2 (resolved (map (fun n => fst (fst n)) nodes)) rules rules' ->
  forall o, let s := Syn rules' (map (fun n => fst (fst n)) nodes) in
  optimize_returns s o -> tails_fail_at_end E s ->
  forall data, Forall real_char data ->
  (forall tokens, loads E (Some text) (Some data) (Returned tokens) <-> accepts E s indent_default data tokens) /\
  (forall w, loads E (Some text) (Some data) (Aborted w) -> exists e e' tokens, error_report E data e = Done w /\
     parse_returns E s data [] indent_default (Some e') tokens /\ next_offset (fst e) = next_offset (fst e')) /\
  (forall e' tokens, parse_returns E s data [] indent_default (Some e') tokens -> exists e w, error_report E data e = Done w /\
     next_offset (fst e) = next_offset (fst e') /\ loads E (Some text) (Some data) (Aborted w)).
Proof. exact pipe_meant. Qed.
Print Assumptions C82_meant.

(** If the rules that are meant are clear, then loading delivers the data of the grammar, and
    reports an error exactly for the other texts. *)
Theorem C82_grammar : forall E, ext_ok E -> whole_readers E ->
  forall strings nodes text rules rules', means E strings nodes text -> Forall real_char text ->
  Forall (fun n => MeaningSpec.within text (snd (fst n))) nodes -> map snd nodes = map Some rules ->
  Forall2 (resolved (map (fun n => fst (fst n)) nodes)) rules rules' ->
  let s := Syn rules' (map (fun n => fst (fst n)) nodes) in
  strings_end E -> valid s -> tags_real s -> well_formed s -> clear E s -> tails_fail_at_end E s ->
  forall r, start_rule s r -> forall data, columns_fit indent_default data ->
  (forall ms, (exists tokens, loads E (Some text) (Some data) (Returned tokens) /\ map snd tokens = ms) <->
     generates E (s_rules s) r data ms) /\
  ((forall ms, ~ generates E (s_rules s) r data ms) <-> exists w, loads E (Some text) (Some data) (Aborted w)).
Proof. exact pipe_grammar. Qed.
Print Assumptions C82_grammar.

(** Also with the ranges. *)
Theorem C82_places : forall E, ext_ok E -> whole_readers E ->
  forall strings nodes text rules rules', means E strings nodes text -> Forall real_char text ->
  Forall (fun n => MeaningSpec.within text (snd (fst n))) nodes -> map snd nodes = map Some rules ->
  Forall2 (resolved (map (fun n => fst (fst n)) nodes)) rules rules' ->
  let s := Syn rules' (map (fun n => fst (fst n)) nodes) in
  strings_end E -> valid s -> tags_real s -> well_formed s -> clear E s -> tails_fail_at_end E s ->
  forall r, start_rule s r -> forall data, columns_fit indent_default data ->
  (forall tokens, loads E (Some text) (Some data) (Returned tokens) <-> places E (s_rules s) r 0 data tokens) /\
  ((forall tokens, ~ places E (s_rules s) r 0 data tokens) <-> exists w, loads E (Some text) (Some data) (Aborted w)).
Proof. exact pipe_places. Qed.
Print Assumptions C82_places.

(** All documents of examples/hello_world.rs, and what they deliver, *)
Theorem C82_hello_world : forall data ms, columns_fit indent_default data ->
  (exists tokens, loads std_ext (Some hello_text) (Some data) (Returned tokens) /\ map snd tokens = ms) <->
  exists w, Forall white w /\
    (data = tx "hi" ++ w ++ tx "James!" /\ ms = [MBool (tx "james") true] \/
     data = tx "hi" ++ w ++ tx "Peter!" /\ ms = [MBool (tx "peter") true]).
Proof. exact hello_world. Qed.
Print Assumptions C82_hello_world.

(** and of examples/neg_match.rs. *)
Theorem C82_negative_match : forall data tokens, Forall real_char data ->
  loads std_ext (Some negative_text) (Some data) (Returned tokens) <->
  ~ starts_with data (tx "hi") /\ tokens = [(Rng 0 0, MBool (tx "hi_did_not_occured") true)].
Proof. exact negative_match. Qed.
Print Assumptions C82_negative_match.

(** A text with a defined and two undefined names; it means ["y" "x"]. *)
Example C82_example : ext_ok std_ext /\ whole_readers std_ext /\ strings_end std_ext /\
  means std_ext C56_strings [(tx "n", seven, Some C56_rule)] C56_text /\ Forall real_char C56_text /\
  MeaningSpec.within C56_text seven /\
  map snd [(tx "n", seven, Some C56_rule)] = map Some [C56_rule] /\ Forall2 (resolved [tx "n"]) [C56_rule] [C56_rule] /\
  valid meant_syntax /\ tags_real meant_syntax /\ well_formed meant_syntax /\ clear std_ext meant_syntax /\
  tails_fail_at_end std_ext meant_syntax /\ start_rule meant_syntax C56_rule /\ columns_fit indent_default (tx "yx") /\
  generates std_ext (s_rules meant_syntax) C56_rule (tx "yx") [] /\ (exists o, optimize_returns meant_syntax o).
Proof.
  split; [exact std_ext_ok|]. split; [exact std_whole_readers|]. split; [exact std_strings_end|]. split; [exact C56_means|].
  split; [apply real_ascii|]. split; [vm_compute; discriminate|]. exact meant_fine.
Qed.

Example C82_example_documents :
  rules_read std_ext hello_text (inl hello_syntax) /\ tails_fail_at_end std_ext hello_syntax /\ (exists o, optimize_returns hello_syntax o) /\
  columns_fit indent_default (tx "hi James!") /\
  (exists tokens, loads std_ext (Some hello_text) (Some (tx "hi James!")) (Returned tokens)) /\
  exists w, loads std_ext (Some hello_text) (Some (tx "hi Jim!")) (Aborted w).
Proof.
  split; [exact hello_read|]. split; [exact hello_tails|]. split; [exact hello_optimizes|]. split; [apply columns_fitb_spec; reflexivity|].
  split; eexists; exists 400; vm_compute; reflexivity.
Qed.

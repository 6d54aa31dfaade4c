(** C56: what the texts of the meta language mean. *)
From Coq Require Import Ascii String List NArith Bool Arith.
From Verif Require Import Base Ext Types PegSpec OptSpec IdSpec JsonSpec WriteSpec SyntaxSpec TextSpec SurfaceSpec MeaningSpec
  ExtProofs TextProofs8 SurfaceProofs SurfaceExamples MeaningProofs Examples MeaningExamples.
Import ListNotations.
Local Open Scope string_scope.
Local Open Scope list_scope.
Local Open Scope nat_scope.

(** The texts that are accepted are those that mean something. *)
Theorem C56_every_text : forall E, ext_ok E -> whole_readers E ->
  forall text, Forall real_char text -> no_short_comment text ->
  (accepted E text <-> exists strings nodes, means E strings nodes text).
Proof. exact meaning_accepted. Qed.
Print Assumptions C56_every_text.

(** If all nodes have a rule, these are the rules that are read, up to debug ids, with
    references resolved. If a node has lost its rule, reading ends with one and the same
    error. *)
Theorem C56_meaning : forall E, ext_ok E -> whole_readers E ->
  forall strings nodes text, means E strings nodes text -> Forall real_char text ->
  Forall (fun n => within text (snd (fst n))) nodes ->
  let names := map (fun n => fst (fst n)) nodes in
  let error := (Rng 0 0, Conversion (s2l "Bootstrapping rules are incorrect")) in
  (forall rules, map snd nodes = map Some rules -> exists s, rules_read E text (inl s) /\ s_names s = names /\
     Forall2 (fun r r' => exists r1, like_rule any_ids r r1 /\ resolved names r1 r') rules (s_rules s) /\
     forall s', optimize_returns s s' -> syntax_returns E text (inl s')) /\
  (In None (map snd nodes) -> rules_read E text (inr error) /\ syntax_returns E text (inr error)).
Proof. exact meaning_read. Qed.
Print Assumptions C56_meaning.

(** A text does not mean two different things. *)
Theorem C56_unambiguous : forall E, ext_ok E -> whole_readers E ->
  forall s1 n1 s2 n2 text, means E s1 n1 text -> means E s2 n2 text ->
  Forall (fun n => within text (snd (fst n))) n1 -> Forall (fun n => within text (snd (fst n))) n2 ->
  s1 = s2 /\ map (fun n => fst (fst n)) n1 = map (fun n => fst (fst n)) n2 /\
  Forall2 like_meaning (map snd n1) (map snd n2).
Proof. exact one_meaning. Qed.
Print Assumptions C56_unambiguous.

(** The property and the optional tag are left out without an error. *)
Example C56_example : ext_ok std_ext /\ whole_readers std_ext /\
  means std_ext C56_strings [(tx "n", seven, Some C56_rule)] C56_text /\ Forall real_char C56_text /\ within C56_text seven /\
  no_short_comment C56_text /\
  exists s, rules_read std_ext C56_text (inl s) /\ s_rules s =
    [RSequence [RTag (tx "y") false false None 7001; RTag (tx "x") false false None 7002] 7003].
Proof.
  split; [exact std_ext_ok|]. split; [exact std_whole_readers|]. split; [exact C56_means|].
  split; [apply real_ascii|]. split; [vm_compute; discriminate|]. split; [apply short_free_spec; reflexivity|].
  eexists. split; [exists 300; vm_compute; reflexivity|reflexivity].
Qed.

Example C56_lost_example : means std_ext [] [(tx "n", seven, None)] C56_lost /\ Forall real_char C56_lost /\
  within C56_lost seven /\ accepted std_ext C56_lost.
Proof.
  split; [exact C56_means_lost|]. split; [apply real_ascii|]. split; [vm_compute; discriminate|].
  eapply (parse_accepted _ _ _ 100); [exact std_ext_ok|apply real_ascii|vm_compute; reflexivity].
Qed.
